(** * Language tags: proofs *)
From Verif Require Import Base BaseFacts SetupModel SetupSpec.
From Coq Require Import Permutation Sorted.

Definition XP : list Z := wstr "-x-".

Lemma zlist_eqb_eq : forall a b, zlist_eqb a b = true <-> a = b.
Proof.
  induction a as [|x a IH]; destruct b as [|y b]; cbn [zlist_eqb]; split; intros H; try congruence; auto; try discriminate.
  - apply andb_true_iff in H as (A & B). apply IH in B. apply Z.eqb_eq in A. congruence.
  - injection H as -> ->. rewrite Z.eqb_refl. cbn. apply IH. auto.
Qed.
Lemma zlist_eqb_neq : forall a b, zlist_eqb a b = false <-> a <> b.
Proof. intros a b. rewrite <- zlist_eqb_eq. destruct (zlist_eqb a b); split; congruence. Qed.

Lemma skipn_past : forall (a b : list Z) n, skipn (length a + n) (a ++ b) = skipn n b.
Proof. induction a as [|x a IH]; intros b n; auto. cbn [length Nat.add skipn app]. auto. Qed.

Lemma find_char_some : forall c s k, find_char c s = Some k <-> exists a b, s = a ++ c :: b /\ ~ In c a /\ length a = k.
Proof.
  intros c. induction s as [|x s IH]; intros k; cbn [find_char].
  - split; [discriminate|]. intros (a & b & E & _). destruct a; discriminate.
  - destruct (Z.eqb_spec x c) as [->|N].
    + split.
      * intros H. injection H as <-. exists [], s. auto.
      * intros (a & b & E & Na & <-). destruct a as [|y a]; auto. injection E as <- _. elim Na. left; auto.
    + split.
      * intros H. destruct (find_char c s) as [j|]; [|discriminate]. injection H as <-. destruct (proj1 (IH j) eq_refl) as (a & b & -> & Na & L).
        exists (x :: a), b. split; auto. split; [intros [X|X]; auto|cbn; congruence].
      * intros (a & b & E & Na & <-). destruct a as [|y a]; [injection E as ->; contradiction|]. injection E as <- E.
        assert (X : find_char c s = Some (length a)) by (apply IH; exists a, b; split; auto; split; auto; intros Y; apply Na; right; auto).
        rewrite X. auto.
Qed.
Lemma find_char_none : forall c s, find_char c s = None <-> ~ In c s.
Proof.
  intros c s. split.
  - intros H I. apply in_split in I. destruct (find_char c s) eqn:E; [discriminate|].
    clear H. induction s as [|x s IH]; [destruct I as ([|] & b & X); discriminate|]. cbn [find_char] in E. destruct (Z.eqb_spec x c); [discriminate|].
    destruct (find_char c s); [discriminate|]. apply IH; auto. destruct I as ([|y a] & b & X); [injection X as ->; contradiction|].
    injection X as <- ->. eauto.
  - intros N. destruct (find_char c s) as [k|] eqn:E; auto. apply find_char_some in E as (a & b & -> & _). elim N. apply in_or_app. right; left; auto.
Qed.

Lemma starts_with_spec : forall p s, starts_with p s = true <-> exists b, s = p ++ b.
Proof.
  induction p as [|c p IH]; intros s; cbn [starts_with]; [split; [exists s|]; auto|]. destruct s as [|d s].
  - split; [discriminate|]. intros (b & X). discriminate.
  - rewrite andb_true_iff, IH. split.
    + intros (A & b & ->). apply Z.eqb_eq in A. subst d. exists b. auto.
    + intros (b & X). injection X as -> ->. split; [lia|eauto].
Qed.
Lemma starts_with_app : forall p u v, (length p <= length u)%nat -> starts_with p (u ++ v) = starts_with p u.
Proof.
  induction p as [|c p IH]; intros [|d u] v L; cbn [starts_with app length] in *; auto; [lia|]. rewrite IH by lia. auto.
Qed.

(** No occurrence of ["-x-"] begins in [a], as seen in [a] followed by one. *)
Fixpoint clean (a : list Z) : Prop :=
  match a with [] => True | c :: r => starts_with XP (a ++ XP) = false /\ clean r end.
(** No occurrence at all. *)
Fixpoint absent (a : list Z) : Prop :=
  match a with [] => True | c :: r => starts_with XP a = false /\ absent r end.

Lemma XP_head : forall c a, c <> 0x2D -> starts_with XP (c :: a) = false.
Proof. intros c a N. change (starts_with XP (c :: a)) with ((0x2D =? c) && starts_with (tl XP) a). destruct (Z.eqb_spec 0x2D c); [congruence|auto]. Qed.

Lemma clean_find : forall a b, clean a -> find_sub XP (a ++ XP ++ b) = Some (length a).
Proof.
  induction a as [|c a IH]; intros b H.
  - cbn [app length]. reflexivity.
  - destruct H as (H1 & H2). cbn [app find_sub]. change ((c :: a) ++ XP) with (c :: a ++ XP) in H1.
    assert (X : starts_with XP (c :: a ++ XP ++ b) = false).
    { replace (c :: a ++ XP ++ b) with ((c :: a ++ XP) ++ b) by (cbn [app]; rewrite <- app_assoc; auto). rewrite starts_with_app; auto. cbn [length]. rewrite app_length. lia. }
    rewrite X, IH by auto. auto.
Qed.
Lemma find_clean : forall s k, find_sub XP s = Some k -> exists a b, s = a ++ XP ++ b /\ length a = k /\ clean a.
Proof.
  induction s as [|c s IH]; intros k H; [discriminate|]. cbn [find_sub] in H. destruct (starts_with XP (c :: s)) eqn:E.
  - injection H as <-. apply starts_with_spec in E as (b & E). exists [], b. split; auto. split; cbn; auto.
  - destruct (find_sub XP s) as [j|] eqn:F; [|discriminate]. injection H as <-. destruct (IH j eq_refl) as (a & b & -> & L & C).
    exists (c :: a), b. split; auto. split; [cbn; congruence|]. split; auto.
    replace (c :: a ++ XP ++ b) with ((c :: a ++ XP) ++ b) in E by (cbn [app]; rewrite <- app_assoc; auto). rewrite starts_with_app in E; auto.
    cbn [length]. rewrite app_length. lia.
Qed.
Lemma absent_find : forall s, find_sub XP s = None <-> absent s.
Proof.
  induction s as [|c s IH]; cbn [find_sub absent]; [split; auto|]. destruct (starts_with XP (c :: s)) eqn:E; [split; [discriminate|intros (X & _); discriminate]|].
  rewrite <- IH. destruct (find_sub XP s); cbn; split; try discriminate; auto. intros (_ & X). discriminate.
Qed.
Lemma clean_nodash : forall l r, ~ In 0x2D l -> clean r -> clean (l ++ r).
Proof.
  induction l as [|c l IH]; intros r N C; auto. cbn [app clean]. split; [apply XP_head; intros ->; apply N; left; auto|].
  apply IH; auto. intros X; apply N; right; auto.
Qed.
Lemma absent_nodash : forall l r, ~ In 0x2D l -> absent r -> absent (l ++ r).
Proof.
  induction l as [|c l IH]; intros r N C; auto. cbn [app absent]. split; [apply XP_head; intros ->; apply N; left; auto|].
  apply IH; auto. intros X; apply N; right; auto.
Qed.
Lemma clean_suffix : forall l r, clean (l ++ r) -> clean r.
Proof. induction l as [|c l IH]; intros r H; auto. apply IH. apply H. Qed.
Lemma absent_suffix : forall l r, absent (l ++ r) -> absent r.
Proof. induction l as [|c l IH]; intros r H; auto. apply IH. apply H. Qed.

(** ** The setters *)

Lemma lower_no_capital : forall s, Forall (fun c => ~ ascii_capital c) (lowercaseTagPart s).
Proof.
  intros s. unfold lowercaseTagPart. apply Forall_map, Forall_forall. intros c _. unfold ascii_capital.
  destruct ((65 <=? c) && (c <=? 90)) eqn:E; lia.
Qed.
Lemma lower_id : forall s, Forall (fun c => ~ ascii_capital c) s -> lowercaseTagPart s = s.
Proof.
  unfold lowercaseTagPart, ascii_capital. induction s as [|c s IH]; intros F; auto. inversion F; subst. cbn [map].
  rewrite IH by auto. destruct ((65 <=? c) && (c <=? 90)) eqn:E; [lia|auto].
Qed.
Lemma lower_in : forall c s, (c < 65 \/ 122 < c \/ 90 < c < 97) -> In c (lowercaseTagPart s) <-> In c s.
Proof.
  intros c s H. unfold lowercaseTagPart. rewrite in_map_iff. split.
  - intros (x & E & I). destruct ((65 <=? x) && (x <=? 90)) eqn:B; [lia|congruence].
  - intros I. exists c. split; auto. destruct ((65 <=? c) && (c <=? 90)) eqn:B; [lia|auto].
Qed.
Lemma lower_same : forall a b, Forall2 same_letter a b -> lowercaseTagPart a = lowercaseTagPart b.
Proof.
  intros a b F. induction F as [|x y a b H F IH]; auto. unfold lowercaseTagPart in *. cbn [map]. f_equal; auto. unfold same_letter, ascii_capital in H.
  destruct ((65 <=? x) && (x <=? 90)) eqn:A, ((65 <=? y) && (y <=? 90)) eqn:B; lia.
Qed.

Lemma erase_ok : forall fuel s, (count_occ Z.eq_dec s 0x2D%Z <= fuel)%nat -> erase_hyphens fuel s = Ok (filter (fun c => negb (c =? 0x2D)) s).
Proof.
  assert (Id : forall s, ~ In 0x2D s -> filter (fun c => negb (c =? 0x2D)) s = s).
  { induction s as [|c s IH]; intros N; auto. cbn [filter]. destruct (Z.eqb_spec c 0x2D); [elim N; left; auto|]. cbn [negb]. rewrite IH; auto. intros X; apply N; right; auto. }
  induction fuel as [|f IH]; intros s C; cbn [erase_hyphens]; destruct (find_char 0x2D s) as [k|] eqn:E.
  - exfalso. apply find_char_some in E as (a & b & -> & _). rewrite count_occ_app in C. cbn [count_occ] in C. destruct (Z.eq_dec 0x2D 0x2D); [lia|congruence].
  - apply find_char_none in E. rewrite Id; auto.
  - apply find_char_some in E as (a & b & -> & N & <-). rewrite count_occ_app in C. cbn [count_occ] in C. destruct (Z.eq_dec 0x2D 0x2D); [|congruence].
    rewrite firstn_app, Nat.sub_diag, firstn_all. cbn [firstn]. rewrite app_nil_r.
    rewrite skipn_past. change (skipn 1 (0x2D :: b)) with b.
    rewrite IH by (rewrite count_occ_app; lia). rewrite !filter_app. cbn [filter]. auto.
  - apply find_char_none in E. rewrite Id; auto.
Qed.

Lemma set_private_ok : forall t p, setPrivateUse t p = Ok (mkTag (language t) (script t) (lowercaseTagPart (filter (fun c => negb (c =? 0x2D)) p))).
Proof.
  intros t p. unfold setPrivateUse. rewrite erase_ok; auto.
  clear. induction p as [|c p IH]; auto. cbn [count_occ length]. destruct (Z.eq_dec c 0x2D); lia.
Qed.

(** The part of a language before '_'. *)
Definition before_underscore (l : list Z) : list Z := match find_char 0x5F l with Some k => firstn k l | None => l end.
Lemma before_ok : forall l, ~ In 0x5F (before_underscore l) /\ incl (before_underscore l) l.
Proof.
  intros l. unfold before_underscore. destruct (find_char 0x5F l) as [k|] eqn:E.
  - apply find_char_some in E as (a & b & -> & N & <-). rewrite firstn_app, Nat.sub_diag, firstn_all. cbn [firstn]. rewrite app_nil_r. split; auto. apply incl_appl, incl_refl.
  - apply find_char_none in E. split; auto using incl_refl.
Qed.
Lemma before_id : forall l, ~ In 0x5F l -> before_underscore l = l.
Proof. intros l N. unfold before_underscore. apply find_char_none in N. rewrite N. auto. Qed.

Lemma set_both_dash : forall t l r, ~ In 0x2D l -> setLanguageAndScript t (l ++ 0x2D :: r) = setScript (setLanguage t l) r.
Proof.
  intros t l r N. unfold setLanguageAndScript. assert (E : find_char 0x2D (l ++ 0x2D :: r) = Some (length l)) by (apply find_char_some; eauto). rewrite E.
  rewrite firstn_app, Nat.sub_diag, firstn_all. cbn [firstn]. rewrite app_nil_r. f_equal.
  rewrite skipn_past. reflexivity.
Qed.
Lemma set_both_plain : forall t l, ~ In 0x2D l -> setLanguageAndScript t l = setLanguage t l.
Proof. intros t l N. unfold setLanguageAndScript. apply find_char_none in N. rewrite N. auto. Qed.

(** The two cases of reading. *)
Lemma read_private : forall t a b, clean a ->
  setBcp47 t (a ++ XP ++ b) = Ok (mkTag (language (setLanguageAndScript t a)) (script (setLanguageAndScript t a)) (lowercaseTagPart (filter (fun c => negb (c =? 0x2D)) b))).
Proof.
  intros t a b C. unfold setBcp47. change (wstr "-x-") with XP. rewrite clean_find by auto.
  rewrite firstn_app, Nat.sub_diag, firstn_all. cbn [firstn]. rewrite app_nil_r, set_private_ok. do 4 f_equal.
  rewrite skipn_past. reflexivity.
Qed.
Lemma read_plain : forall t s, absent s -> setBcp47 t s = Ok (setLanguageAndScript t s).
Proof. intros t s A. unfold setBcp47. change (wstr "-x-") with XP. apply absent_find in A. rewrite A. auto. Qed.
Lemma read_cases : forall s, absent s \/ exists a b, s = a ++ XP ++ b /\ clean a.
Proof.
  intros s. destruct (find_sub XP s) as [k|] eqn:E; [right|left; apply absent_find; auto].
  apply find_clean in E as (a & b & -> & _ & C). eauto.
Qed.
Lemma dash_cases : forall s, ~ In 0x2D s \/ exists l r, s = l ++ 0x2D :: r /\ ~ In 0x2D l.
Proof.
  intros s. destruct (find_char 0x2D s) as [k|] eqn:E; [right|left; apply find_char_none; auto]. apply find_char_some in E as (a & b & -> & N & _). eauto.
Qed.

Lemma set_language_parts : forall t l, setLanguage t l = mkTag (lowercaseTagPart (before_underscore l)) (script t) (privateUse t).
Proof. reflexivity. Qed.

Lemma language_normal : forall l, ~ In 0x2D l ->
  let k := lowercaseTagPart (before_underscore l) in ~ In 0x2D k /\ ~ In 0x5F k /\ Forall (fun c => ~ ascii_capital c) k.
Proof.
  intros l N. cbn. destruct (before_ok l) as (U & I). rewrite !lower_in by lia. repeat split; auto using lower_no_capital.
Qed.

Lemma set_language_normal : forall t k, ~ In 0x5F k -> Forall (fun c => ~ ascii_capital c) k -> setLanguage t k = mkTag k (script t) (privateUse t).
Proof. intros t k N F. rewrite set_language_parts, before_id, lower_id; auto. Qed.

Lemma private_normal : forall b, let p := lowercaseTagPart (filter (fun c => negb (c =? 0x2D)) b) in
  ~ In 0x2D p /\ Forall (fun c => ~ ascii_capital c) p.
Proof.
  intros b. cbn. rewrite lower_in by lia. split; auto using lower_no_capital. intros I. apply filter_In in I as (_ & I). discriminate.
Qed.

(** Reading into a tag without script and private part. *)
Inductive shape : list Z -> tag -> Prop :=
| shape_intro : forall body t0 suffix p,
    ((~ In 0x2D body /\ t0 = mkTag (lowercaseTagPart (before_underscore body)) [] []) \/
     (exists l r, body = l ++ 0x2D :: r /\ ~ In 0x2D l /\
        t0 = mkTag (lowercaseTagPart (before_underscore l)) (if Nat.eqb (length r) 4 then r else []) [])) ->
    ((suffix = [] /\ p = [] /\ absent body) \/
     (exists b, suffix = XP ++ b /\ clean body /\ p = lowercaseTagPart (filter (fun c => negb (c =? 0x2D)) b))) ->
    shape (body ++ suffix) (mkTag (language t0) (script t0) p).

Lemma read_shape : forall s, exists t, reads s t /\ shape s t.
Proof.
  assert (B : forall body, exists t0, setLanguageAndScript empty_tag body = t0 /\
    ((~ In 0x2D body /\ t0 = mkTag (lowercaseTagPart (before_underscore body)) [] []) \/
     (exists l r, body = l ++ 0x2D :: r /\ ~ In 0x2D l /\ t0 = mkTag (lowercaseTagPart (before_underscore l)) (if Nat.eqb (length r) 4 then r else []) []))).
  { intros body. destruct (dash_cases body) as [N|(l & r & -> & N)].
    - exists (mkTag (lowercaseTagPart (before_underscore body)) [] []). split; auto. rewrite set_both_plain by auto. reflexivity.
    - eexists. split; [reflexivity|]. right. exists l, r. split; auto. split; auto. rewrite set_both_dash by auto. unfold setScript.
      destruct (Nat.eqb (length r) 4); reflexivity. }
  intros s. destruct (read_cases s) as [A|(a & b & -> & C)].
  - destruct (B s) as (t0 & E & H). exists t0. split; [unfold reads; rewrite read_plain by auto; congruence|].
    assert (X : shape (s ++ []) (mkTag (language t0) (script t0) [])) by (apply shape_intro; auto).
    rewrite app_nil_r in X. replace (mkTag (language t0) (script t0) []) with t0 in X; auto.
    destruct H as [(_ & ->)|(l & r & _ & _ & ->)]; reflexivity.
  - destruct (B a) as (t0 & E & H). eexists. split; [unfold reads; rewrite read_private, E by auto; reflexivity|].
    apply shape_intro; auto. right. eauto.
Qed.

Lemma reads_fun : forall s t t', reads s t -> reads s t' -> t = t'.
Proof. unfold reads. intros. congruence. Qed.

Lemma shape_normal : forall s t, shape s t -> normal_tag t.
Proof.
  intros s t [body t0 suffix p H K]. repeat apply conj; cbn [language script privateUse].
  - destruct H as [(N & ->)|(l & r & _ & N & ->)]; apply language_normal; auto.
  - destruct H as [(N & ->)|(l & r & _ & N & ->)]; apply (language_normal _ N).
  - destruct H as [(N & ->)|(l & r & _ & N & ->)]; apply lower_no_capital.
  - destruct H as [(N & ->)|(l & r & _ & N & ->)]; cbn [script]; auto. destruct (Nat.eqb_spec (length r) 4); auto.
  - destruct K as [(_ & -> & _)|(b & _ & _ & ->)]; [intros []|apply private_normal].
  - destruct K as [(_ & -> & _)|(b & _ & _ & ->)]; [constructor|apply private_normal].
Qed.

(** What is printed is read again. *)
Lemma print_shape : forall s t, shape s t -> reads (toBcp47 t) t.
Proof.
  intros s t Sh. pose proof (shape_normal s t Sh) as ((N1 & N2 & N3) & _ & (P1 & P2)). destruct Sh as [body t0 suffix p H K]. cbn [language script privateUse] in *.
  assert (Both : forall k sc, ~ In 0x2D k -> ~ In 0x5F k -> Forall (fun c => ~ ascii_capital c) k -> (sc = [] \/ length sc = 4%nat) ->
    setLanguageAndScript empty_tag (k ++ match sc with [] => [] | z :: l => wstr "-" ++ z :: l end) = mkTag k sc []).
  { intros k sc A1 A2 A3 [->|L].
    - rewrite app_nil_r, set_both_plain, set_language_normal; auto.
    - destruct sc as [|x sc]; [discriminate|]. change (wstr "-" ++ x :: sc) with (0x2D :: x :: sc). rewrite set_both_dash, set_language_normal by auto.
      unfold setScript. rewrite L. reflexivity. }
  assert (Cl : forall (Q : list Z -> Prop), (forall l r, ~ In 0x2D l -> Q r -> Q (l ++ r)) -> (forall l r, Q (l ++ r) -> Q r) -> Q [] -> Q body ->
    Q (language t0 ++ match script t0 with [] => [] | s0 => wstr "-" ++ s0 end) /\ (script t0 = [] \/ length (script t0) = 4%nat)).
  { intros Q Q1 Q2 Q3 Qb. destruct H as [(N & E)|(l & r & E & N & E')].
    - rewrite E. cbn [language script]. split; auto. apply Q1; auto. rewrite E in N1. auto.
    - rewrite E' in *. cbn [language script] in *. destruct (Nat.eqb_spec (length r) 4) as [L|L].
      + split; auto. destruct r as [|x r]; [discriminate|]. apply Q1; auto. change (wstr "-" ++ x :: r) with (0x2D :: x :: r). rewrite E in Qb. apply (Q2 l). auto.
      + split; auto. }
  unfold reads, toBcp47. cbn [language script privateUse]. destruct K as [(_ & -> & A)|(b & _ & C & ->)].
  - destruct (Cl absent absent_nodash absent_suffix I A) as (A' & L). rewrite app_nil_r. rewrite read_plain by auto. rewrite Both by auto. reflexivity.
  - destruct (Cl clean clean_nodash clean_suffix I C) as (C' & L).
    destruct (lowercaseTagPart (filter (fun c => negb (c =? 0x2D)) b)) as [|y p] eqn:Ep.
    + (* the body alone must not contain the separator *)
      assert (A : forall u, clean u -> absent u).
      { clear. induction u as [|c u IH]; intros H; auto. destruct H as (H & R). split; auto. destruct (starts_with XP (c :: u)) eqn:E; auto.
        apply starts_with_spec in E as (b & E). rewrite E in H. rewrite <- app_assoc in H. assert (X : starts_with XP (XP ++ b ++ XP) = true) by (apply starts_with_spec; eauto). congruence. }
      rewrite app_nil_r. rewrite read_plain by (apply A; exact C'). rewrite Both by auto. reflexivity.
    + rewrite app_assoc. change (wstr "-x-") with XP. rewrite read_private by exact C'. rewrite Both by auto. cbn [language script].
      rewrite <- Ep. destruct (private_normal b) as (Q1 & Q2). cbv zeta in Q1, Q2. set (P := lowercaseTagPart (filter _ b)) in *. clearbody P.
      assert (X : filter (fun c => negb (c =? 0x2D)) P = P).
      { clear - Q1. induction P as [|c l IH]; auto. cbn [filter].
        destruct (Z.eqb_spec c 0x2D); [elim Q1; left; auto|]. cbn [negb]. f_equal. apply IH. intros X; apply Q1; right; auto. }
      rewrite X, lower_id by auto. reflexivity.
Qed.

(** ** Order *)

Lemma str_lt_spec : forall a b, str_lt a b = true <-> precedes a b.
Proof.
  induction a as [|x a IH]; intros [|y b]; cbn [str_lt]; split; intros H; try discriminate; try (inversion H; fail); auto.
  - constructor.
  - apply orb_true_iff in H as [H|H]; [apply pr_less; lia|]. apply andb_true_iff in H as (E & H). apply Z.eqb_eq in E. subst y. apply pr_same, IH; auto.
  - inversion H as [|? ? ? ? L|? ? ? L]; subst; apply orb_true_iff; [left; lia|right]. apply andb_true_iff. split; [lia|]. apply IH; auto.
Qed.
Lemma precedes_irrefl : forall a, ~ precedes a a.
Proof. induction a as [|c a IH]; intros H; inversion H; subst; [lia|auto]. Qed.
Lemma precedes_trans : forall a b c, precedes a b -> precedes b c -> precedes a c.
Proof.
  intros a b c H. revert c. induction H as [x b|x a y b L|x a b H IH]; intros d K; inversion K; subst; first [apply pr_nil | solve [apply pr_same; auto] | apply pr_less; lia].
Qed.
Lemma precedes_total : forall a b, precedes a b \/ a = b \/ precedes b a.
Proof.
  induction a as [|x a IH]; intros [|y b]; auto; try (left; constructor; fail); try (right; right; constructor; fail).
  destruct (Z.lt_trichotomy x y) as [L|[->|L]]; [left; constructor; auto| |right; right; constructor; auto].
  destruct (IH b) as [H|[->|H]]; auto; [left|right; right]; apply pr_same; auto.
Qed.

(** ** The table of dictionaries *)

Lemma tag_eta : forall t, mkTag (language t) (script t) (privateUse t) = t. Proof. intros []; auto. Qed.

Definition keys (m : variants) : list (list Z) := map fst m.
(** The table: sorted, and each entry under the name of its tag. *)
Definition table (m : variants) : Prop :=
  StronglySorted precedes (keys m) /\ Forall (fun x => valid (snd x) /\ toBcp47 (dtag (snd x)) = fst x) m.

Lemma map_find_in : forall k m d, StronglySorted precedes (keys m) -> map_find k m = Some d <-> In (k, d) m.
Proof.
  intros k m d. induction m as [|(k', d') m IH]; cbn [map_find keys map]; intros SS; [split; [discriminate|intros []]|].
  inversion SS as [|? ? SS' F]; subst. destruct (zlist_eqb k' k) eqn:E.
  - apply zlist_eqb_eq in E. subst k'. split.
    + intros H. injection H as ->. left; auto.
    + intros [H|H]; [congruence|]. exfalso. apply (in_map fst) in H. eapply Forall_forall in F; [|exact H]. exact (precedes_irrefl _ F).
  - apply zlist_eqb_neq in E. rewrite (IH SS'). split; [right; auto|]. intros [H|H]; auto. congruence.
Qed.
Lemma map_find_none : forall k m, map_find k m = None <-> ~ In k (keys m).
Proof.
  intros k m. induction m as [|(k', d') m IH]; cbn [map_find keys map In fst]; [split; auto|]. destruct (zlist_eqb k' k) eqn:E.
  - apply zlist_eqb_eq in E. split; [discriminate|]. intros N. elim N; auto.
  - apply zlist_eqb_neq in E. rewrite IH. unfold keys. tauto.
Qed.
Lemma map_set_keys : forall k d m, incl (keys (map_set k d m)) (k :: keys m).
Proof.
  intros k d m. induction m as [|(k', d') m IH]; cbn [map_set keys map]; [apply incl_refl|]. destruct (zlist_eqb k' k) eqn:E.
  - apply zlist_eqb_eq in E. subst k'. cbn [keys map fst]. apply incl_tl, incl_refl.
  - destruct (str_lt k k'); [apply incl_refl|]. cbn [map fst]. intros x [<-|H]; [right; left; auto|]. apply IH in H as [H|H]; [left; auto|right; right; auto].
Qed.
Lemma map_set_sorted : forall k d m, StronglySorted precedes (keys m) -> StronglySorted precedes (keys (map_set k d m)).
Proof.
  intros k d m. induction m as [|(k', d') m IH]; cbn [map_set keys map]; intros SS; [repeat constructor|]. inversion SS as [|? ? SS' F]; subst. destruct (zlist_eqb k' k) eqn:E.
  - apply zlist_eqb_eq in E. subst k'. exact SS.
  - apply zlist_eqb_neq in E. destruct (str_lt k k') eqn:L.
    + apply str_lt_spec in L. constructor; auto. constructor; auto. eapply Forall_impl; [|exact F]. cbn. intros a A. eapply precedes_trans; eauto.
    + assert (G : precedes k' k). { destruct (precedes_total k k') as [P|[P|P]]; auto; [apply str_lt_spec in P|]; congruence. }
      cbn [map fst]. constructor; [apply IH; auto|]. apply Forall_forall. intros x X. apply (map_set_keys k d m) in X as [<-|X]; auto.
      eapply Forall_forall in F; eauto.
Qed.
Lemma map_set_find : forall k d m k', map_find k' (map_set k d m) = if zlist_eqb k k' then Some d else map_find k' m.
Proof.
  intros k d m k'. induction m as [|(j, e) m IH]; cbn [map_set map_find]; auto. destruct (zlist_eqb j k) eqn:E.
  - apply zlist_eqb_eq in E. subst j. cbn [map_find]. destruct (zlist_eqb k k'); auto.
  - destruct (str_lt k j); cbn [map_find]; auto. rewrite IH. destruct (zlist_eqb j k') eqn:J; auto. destruct (zlist_eqb k k') eqn:K; auto.
    apply zlist_eqb_eq in J, K. apply zlist_eqb_neq in E. congruence.
Qed.
Lemma isValid_spec : forall d, isValid d = true <-> valid d.
Proof. intros d. unfold isValid, valid. destruct (language (dtag d)); cbn; split; congruence. Qed.
Lemma setDefault_dtag : forall d b, dtag (setDefault d b) = dtag d. Proof. reflexivity. Qed.
Lemma setDefault_valid : forall d b, valid (setDefault d b) <-> valid d. Proof. reflexivity. Qed.

Lemma table_set : forall k d m, table m -> valid d -> toBcp47 (dtag d) = k -> table (map_set k d m).
Proof.
  intros k d m (SS & F) V K. split; [apply map_set_sorted; auto|]. apply Forall_forall. intros (k', d') I.
  apply map_find_in in I; [|apply map_set_sorted; auto]. rewrite map_set_find in I. destruct (zlist_eqb k k') eqn:E.
  - injection I as <-. apply zlist_eqb_eq in E. cbn. split; congruence.
  - apply map_find_in in I; auto. eapply Forall_forall in F; eauto.
Qed.
Lemma table_add : forall m d, table m -> table (addDictionary m d).
Proof.
  intros m d T. unfold addDictionary. set (e := if _ && _ then setDefault d true else d).
  assert (De : dtag e = dtag d) by (unfold e; destruct (_ && _); auto). destruct (isValid e) eqn:V; auto. apply isValid_spec in V.
  destruct (map_find (toBcp47 (dtag e)) m) as [x|] eqn:M; [|apply table_set; auto]. destruct (isDefault e); auto.
  destruct T as (SS & F). apply table_set; [split; auto| |]; apply map_find_in in M; auto; eapply Forall_forall in F; eauto; cbn in F; apply F.
Qed.
