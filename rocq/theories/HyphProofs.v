(** Lemmas about the hyphenator. *)
From Verif Require Import Base BaseFacts CharModel CharProofs Utf8Model Utf8Spec Utf8Proofs AnalysisModel AnalyzerBase
  HandleModel HyphModel HyphSpec.

(** ** Loops *)

Lemma for_loop_inv : forall T (P : T -> Prop) body n i s, P s ->
  (forall k t, (i <= k < i + n)%nat -> P t -> exists t', body k t = Ok t' /\ P t') ->
  exists s', for_loop n i body s = Ok s' /\ P s'.
Proof.
  induction n as [|n IH]; intros i s Hs Hb; cbn [for_loop]; [eauto|].
  destruct (Hb i s) as (t & -> & Ht); [lia|auto|]. cbn [bind]. apply IH; auto. intros k u Hk. apply Hb. lia.
Qed.

Lemma for_loop_ext : forall T (f g : nat -> T -> res T) n i s, (forall k t, (i <= k < i + n)%nat -> f k t = g k t) ->
  for_loop n i f s = for_loop n i g s.
Proof.
  induction n as [|n IH]; intros i s H; cbn [for_loop]; auto. rewrite H by lia. destruct (g i s); cbn [bind]; auto.
  apply IH. intros. apply H. lia.
Qed.

Lemma lower_apostrophe : forall c, lower c = 0x27 -> c = 0x27.
Proof.
  intros c H. destruct (Z_lt_dec c 0) as [L|L]; [rewrite lower_id_out in H by lia; auto|].
  destruct (Z_lt_dec c 0x600) as [L'|L']; [|rewrite lower_id_out in H by lia; auto].
  assert (E : forallb (fun c => negb (lower c =? 0x27) || (c =? 0x27)) (zrange 0x600) = true) by (vm_compute; reflexivity).
  pose proof (zrange_forallb _ _ E c) as F. cbn beta in F. assert (0 <= c < Z.of_nat 0x600) as R by lia. specialize (F R). lia.
Qed.

Lemma lower_nonzero : forall c, c <> 0 -> lower c <> 0.
Proof.
  intros c H. destruct (Z_lt_dec c 0) as [L|L]; [rewrite lower_id_out by lia; auto|].
  destruct (Z_lt_dec c 0x600) as [L'|L']; [|rewrite lower_id_out by lia; auto].
  assert (E : forallb (fun c => negb (lower c =? 0) || (c =? 0)) (zrange 0x600) = true) by (vm_compute; reflexivity).
  pose proof (zrange_forallb _ _ E c) as F. cbn beta in F. assert (0 <= c < Z.of_nat 0x600) as R by lia. specialize (F R). lia.
Qed.

(** ** One part *)

Section Rule.
  Variable word : list Z.
  Hypothesis NUL : ~ In 0 word.
  Variable hp0 : list Z.
  Hypothesis LEN : length hp0 = length word.

  Let n := length word.
  Let wc := map lower word ++ [0].

  Lemma wc_len : length wc = (n + 1)%nat.
  Proof. unfold wc. rewrite app_length, map_length. reflexivity. Qed.

  Lemma wc_rd : forall i, (i <= n)%nat -> exists c, rd wc i = Ok c.
  Proof. intros i H. destruct (rd_lt _ wc i) as (c & E & _); [rewrite wc_len; lia|eauto]. Qed.

  Lemma wc_nth : forall i c, (i < n)%nat -> rd wc i = Ok c -> c <> 0 /\ exists d, nth_error word i = Some d /\ lower d = c.
  Proof.
    intros i c H E. apply rd_ok in E. unfold wc in E. rewrite nth_error_app1 in E by (rewrite map_length; auto).
    rewrite nth_error_map in E. destruct (nth_error word i) as [d|] eqn:F; [|discriminate]. cbn in E. inversion E. subst c.
    split; eauto. apply lower_nonzero. intros ->. apply NUL. eapply nth_error_In; eauto.
  Qed.

  (** What the rules may do to a pattern: keep its length and first character;
      other characters become blank or '-', or '=' at an apostrophe. *)
  Definition change (c0 c : Z) (i : nat) : Prop :=
    c = c0 \/ (i <> 0%nat /\ (c = BLANK \/ c = HYPHEN \/ (c = EQUALS /\ nth_error word i = Some 0x27))).
  Definition good (hp : list Z) : Prop :=
    length hp = n /\ forall i c0 c, nth_error hp0 i = Some c0 -> nth_error hp i = Some c -> change c0 c i.

  Lemma good_start : good hp0.
  Proof. split; [exact LEN|]. intros. left. congruence. Qed.

  Lemma good_wr : forall hp i c, good hp -> (0 < i < n)%nat ->
    (c = BLANK \/ c = HYPHEN \/ (c = EQUALS /\ nth_error word i = Some 0x27)) ->
    exists hp', wr hp i c = Ok hp' /\ good hp'.
  Proof.
    intros hp i c [L G] I C. exists (upd hp i c). split; [apply wr_ok; split; auto; lia|].
    split; [rewrite upd_length; auto|]. intros j c0 c1 H0 H1. destruct (Nat.eq_dec i j) as [->|D].
    - rewrite upd_nth_same in H1 by lia. inversion H1. subst. right. split; auto. lia.
    - rewrite upd_nth_other in H1 by auto. eauto.
  Qed.

  Lemma good_rd : forall hp i, good hp -> (i < n)%nat -> exists c, rd hp i = Ok c.
  Proof. intros hp i [L _] I. destruct (rd_lt _ hp i) as (c & E & _); [lia|eauto]. Qed.

  Lemma vowel_before_ok : forall hp i v, good hp -> (i < n)%nat -> exists b, vowel_before wc hp i v = Ok b.
  Proof.
    intros hp. induction i as [|i IH]; intros v G I; cbn [vowel_before]; destruct (good_rd hp _ G I) as (h & ->); cbn [bind].
    - destruct ((h =? HYPHEN) || (h =? EQUALS)); eauto.
    - destruct ((h =? HYPHEN) || (h =? EQUALS)); eauto. destruct (wc_rd (S i)) as (c & ->); [lia|]. cbn [bind]. apply IH; auto. lia.
  Qed.

  Lemma vowel_after_ok : forall hp k i v, good hp -> (i + k <= n)%nat -> exists b, vowel_after wc hp k i v = Ok b.
  Proof.
    intros hp. induction k as [|k IH]; intros i v G I; cbn [vowel_after]; eauto.
    destruct (good_rd hp i G) as (h & ->); [lia|]. cbn [bind]. destruct ((h =? HYPHEN) || (h =? EQUALS)); eauto.
    destruct (wc_rd i) as (c & ->); [lia|]. cbn [bind]. destruct (c =? 0x2E); eauto. apply IH; auto. lia.
  Qed.

  Lemma isGood_ok : forall hp pos, good hp -> exists b, isGoodHyphenPosition wc hp pos n = Ok b /\ (b = true -> (0 < pos < n)%nat).
  Proof.
    intros hp pos G. unfold isGoodHyphenPosition. destruct (Nat.eqb pos 0 || (n <=? pos + 1)%nat) eqn:E.
    - exists false. split; auto. discriminate.
    - assert (0 < pos /\ pos + 1 < n)%nat as P by lia. destruct (vowel_before_ok hp (pos - 1) false G) as (b & ->); [lia|]. cbn [bind].
      destruct b; cbn [negb]; [|exists false; split; auto; discriminate].
      destruct (vowel_after_ok hp (n - pos) pos false G) as (b & ->); [lia|]. exists b. split; auto. lia.
  Qed.

  Lemma leading_ok : forall l, (forall c, In c l -> c <> 0) -> exists i0, leading_consonants (l ++ [0]) = Ok i0 /\ (i0 <= length l)%nat /\
    (forall c, nth_error l i0 = Some c -> wcschr VOIKKO_CONSONANTS c = false).
  Proof.
    clear. induction l as [|x l IH]; intros Z0; cbn [app leading_consonants].
    - exists 0%nat. cbn. split; auto. split; auto. discriminate.
    - assert (x <> 0) by (apply Z0; left; auto). replace (x =? 0) with false by lia. cbn [negb andb].
      destruct (wcschr VOIKKO_CONSONANTS x) eqn:E.
      + destruct IH as (i0 & -> & L & H1); [intros; apply Z0; right; auto|]. cbn [bind]. exists (S i0). split; auto. split; [cbn; lia|auto].
      + exists 0%nat. split; auto. split; [lia|]. cbn. intros c Hc. inversion Hc. subst. auto.
  Qed.

  Lemma cv_ok : forall ugly i0, leading_consonants wc = Ok i0 -> forall i hp, (i0 <= i < n - 1)%nat -> good hp ->
    exists hp', cv_step ugly wc i hp = Ok hp' /\ good hp'.
  Proof.
    intros ugly i0 L0 i hp I G. unfold cv_step. destruct (wc_rd i) as (c & E); [lia|]. rewrite E. cbn [bind].
    destruct (wcschr VOIKKO_CONSONANTS c) eqn:C; cbn [negb]; [|eauto].
    assert (0 < i)%nat as POS.
    { destruct i; [|lia]. assert (i0 = 0)%nat by lia. subst i0. unfold wc in L0. destruct (leading_ok (map lower word)) as (k & K & _ & H).
      - intros x Hx. apply in_map_iff in Hx. destruct Hx as (y & <- & Hy). apply lower_nonzero. intros ->. auto.
      - rewrite L0 in K. inversion K. subst k. apply rd_ok in E. unfold wc in E.
        rewrite nth_error_app1 in E by (rewrite map_length; unfold n in I; lia). apply H in E. congruence. }
    destruct (wc_rd (i + 1)) as (d & ->); [lia|]. cbn [bind]. destruct (wcschr VOIKKO_VOWELS d); cbn [negb]; [|eauto].
    unfold rd_back. replace (i <? 1)%nat with false by lia. destruct (wc_rd (i - 1)) as (p & ->); [lia|]. cbn [bind].
    destruct (wcschr _ p); [eauto|].
    destruct ((i <=? 1)%nat || ugly) eqn:O.
    - cbn [bind]. apply good_wr; auto. lia.
    - replace (i <? 2)%nat with false by lia. destruct (wc_rd (i - 2)) as (q & ->); [lia|]. cbn [bind].
      destruct (negb (q =? 0x27)); [apply good_wr; auto; lia|eauto].
  Qed.

  Lemma apostrophe_ok : forall i hp, (1 <= i < 1 + (n - 2))%nat -> good hp -> exists hp', apostrophe_step wc i hp = Ok hp' /\ good hp'.
  Proof.
    intros i hp I G. unfold apostrophe_step. destruct (wc_rd i) as (c & E); [lia|]. rewrite E. cbn [bind].
    destruct (c =? 0x27) eqn:A; cbn [negb]; [|eauto]. destruct (wc_rd (i + 1)) as (d & ->); [lia|]. cbn [bind].
    destruct (wcschr VOIKKO_VOWELS d); [|eauto]. apply good_wr; auto; [lia|]. right. right. split; auto.
    apply wc_nth in E; [|lia]. destruct E as (_ & x & Hx & Lx). assert (c = 0x27) by lia. subst c.
    apply lower_apostrophe in H. congruence.
  Qed.

  Lemma long_vowel_ok : forall i hp, (1 <= i < 1 + (n - 2))%nat -> good hp -> exists hp', long_vowel_step wc n i hp = Ok hp' /\ good hp'.
  Proof.
    intros i hp I G. unfold long_vowel_step. destruct (wc_rd i) as (c & ->); [lia|]. cbn [bind].
    destruct (wcschr VOIKKO_VOWELS c); cbn [negb]; [|eauto]. destruct (wc_rd (i + 1)) as (d & ->); [lia|]. cbn [bind].
    destruct (c =? d); cbn [negb]; [|eauto]. unfold rd_back. replace (i <? 1)%nat with false by lia.
    destruct (wc_rd (i - 1)) as (p & ->); [lia|]. cbn [bind].
    assert (exists b, (if wcschr VOIKKO_VOWELS p then isGoodHyphenPosition wc hp i n else Ok false) = Ok b) as (b & ->).
    { destruct (wcschr VOIKKO_VOWELS p); [|eauto]. destruct (isGood_ok hp i G) as (b & -> & _). eauto. }
    cbn [bind].
    assert (exists hp1, (if b then wr hp i HYPHEN else Ok hp) = Ok hp1 /\ good hp1) as (hp1 & -> & G1).
    { destruct b; [apply good_wr; auto; lia|eauto]. }
    cbn [bind]. destruct (isGood_ok hp1 (i + 2) G1) as (b2 & -> & B2). cbn [bind]. destruct b2; [|eauto].
    apply good_wr; auto.
  Qed.

  Lemma starts_at_ok : forall i s, (i + length s <= n + 1)%nat -> exists b, starts_at wc i s = Ok b.
  Proof. intros i s H. unfold starts_at. apply prefix_eq_ok. rewrite skipn_length, wc_len. lia. Qed.

  Lemma starts_any_ok : forall i ss, Forall (fun s => (i + length s <= n + 1)%nat) ss -> exists b, starts_with_any wc i ss = Ok b.
  Proof.
    induction ss as [|s r IH]; intros H; cbn [starts_with_any]; eauto. inversion H. subst.
    destruct (starts_at_ok i s) as (b & ->); auto. cbn [bind]. destruct b; eauto.
  Qed.

  Lemma split_vowel_ok : forall i hp, (0 <= i < 0 + (n - 1))%nat -> good hp -> exists hp', split_vowel_step wc i hp = Ok hp' /\ good hp'.
  Proof.
    intros i hp I G. unfold split_vowel_step. destruct (good_rd hp (i + 1) G) as (h & ->); [lia|]. cbn [bind].
    destruct (h =? BLANK); cbn [negb]; [|eauto]. destruct (wc_rd i) as (c & ->); [lia|]. cbn [bind].
    destruct (wcschr VOIKKO_VOWELS c); cbn [negb]; [|eauto]. destruct (wc_rd (i + 1)) as (d & ->); [lia|]. cbn [bind].
    destruct (wcschr VOIKKO_VOWELS d); cbn [negb]; [|eauto].
    destruct (starts_any_ok i SPLIT_VOWELS) as (b & ->).
    { unfold SPLIT_VOWELS. repeat (constructor; [cbn [length wstr]; lia|]). constructor. }
    cbn [bind]. destruct b; [|eauto]. apply good_wr; auto. lia.
  Qed.

  Lemma long_consonant_ok : forall i hp, (1 <= i < 1 + (n - 2))%nat -> good hp -> exists hp', long_consonant_step wc n i hp = Ok hp' /\ good hp'.
  Proof.
    intros i hp I G. unfold long_consonant_step. generalize LONG_CONSONANTS. intros ls. revert hp G.
    induction ls as [|l r IH]; intros hp G; cbn [long_consonant_j]; [eauto|].
    assert (exists b, (if (i + length l <? n)%nat then starts_at wc i l else Ok false) = Ok b /\ (b = true -> (i + length l < n)%nat)) as (b & -> & B).
    { destruct (i + length l <? n)%nat eqn:E; [|exists false; split; auto; discriminate].
      destruct (starts_at_ok i l) as (b & ->); [lia|]. exists b. split; auto. lia. }
    cbn [bind]. destruct b.
    - destruct (for_loop_inv _ good (long_consonant_k i) (length l) (i + 1) hp G) as (hp1 & -> & G1).
      + intros k t K Gt. unfold long_consonant_k. destruct (good_rd t k Gt) as (h & ->); [lia|]. cbn [bind].
        destruct (h =? HYPHEN); [|eauto]. destruct (good_wr t k BLANK Gt) as (t1 & -> & G1); [lia|auto|]. cbn [bind].
        apply good_wr; auto. lia.
      + cbn [bind]. apply IH; auto.
    - cbn [bind]. apply IH; auto.
  Qed.

  Lemma no_ugly_ok : forall i hp, (0 <= i < 0 + (n - 1))%nat -> good hp -> exists hp', no_ugly_step wc i hp = Ok hp' /\ good hp'.
  Proof.
    intros i hp I G. unfold no_ugly_step. destruct (wc_rd i) as (c & ->); [lia|]. cbn [bind].
    destruct (wcschr VOIKKO_VOWELS c); cbn [negb]; [|eauto]. destruct (wc_rd (i + 1)) as (d & ->); [lia|]. cbn [bind].
    destruct (wcschr VOIKKO_VOWELS d); [|eauto]. apply good_wr; auto. lia.
  Qed.

  Lemma split_after_ok : forall i hp, (0 <= i < 0 + (n - 3))%nat -> good hp -> exists hp', split_after_j wc n i SPLIT_AFTER hp = Ok hp' /\ good hp'.
  Proof.
    intros i hp I G. assert (F : Forall (fun s => (length s <= 2)%nat) SPLIT_AFTER) by (unfold SPLIT_AFTER; repeat constructor).
    revert F. generalize SPLIT_AFTER. intros ls. revert hp G.
    induction ls as [|l r IH]; intros hp G F; cbn [split_after_j]; [eauto|]. inversion F as [|l1 r1 FL FR]. subst.
    destruct (good_rd hp (i + 1) G) as (h & ->); [lia|]. cbn [bind].
    match goal with |- context [bind ?e _] => assert (exists b, e = Ok b /\ (b = true -> (0 < i + 2 < n)%nat)) as (b & -> & B) end.
    { destruct (h =? HYPHEN); [exists false; split; auto; discriminate|].
      destruct (starts_at_ok i l) as (b & ->); [lia|]. cbn [bind]. destruct b; cbn [negb]; [|exists false; split; auto; discriminate].
      destruct (wc_rd (i + 2)) as (c & ->); [lia|]. cbn [bind]. destruct (wcschr VOIKKO_VOWELS c); cbn [negb]; [|exists false; split; auto; discriminate].
      apply isGood_ok; auto. }
    cbn [bind]. destruct b; [|cbn [bind]; apply IH; auto].
    destruct (good_wr hp (i + 2) HYPHEN G) as (hp1 & -> & G1); auto. cbn [bind]. apply IH; auto.
  Qed.

  (** The loops shared by both styles. *)
  Definition common (ugly : bool) (hp : list Z) : res (list Z) :=
    i0 <- leading_consonants wc ;;
    hp <- for_loop (n - 1 - i0) i0 (cv_step ugly wc) hp ;;
    hp <- for_loop (n - 2) 1 (apostrophe_step wc) hp ;;
    hp <- for_loop (n - 2) 1 (long_vowel_step wc n) hp ;;
    hp <- for_loop (n - 1) 0 (split_vowel_step wc) hp ;;
    for_loop (n - 2) 1 (long_consonant_step wc n) hp.

  Definition finish (ugly : bool) (hp : list Z) : res (list Z) :=
    if negb ugly then
      hp <- wr hp 1 BLANK ;;
      hp <- wr hp (n - 1) BLANK ;;
      for_loop (n - 1) 0 (no_ugly_step wc) hp
    else if (3 <=? n)%nat then
      for_loop (n - 3) 0 (fun i hp => split_after_j wc n i SPLIT_AFTER hp) hp
    else Ok hp.

  Lemma wc_leading : exists i0, leading_consonants wc = Ok i0 /\ (i0 <= n)%nat.
  Proof.
    destruct (leading_ok (map lower word)) as (k & K & L & _).
    - intros x Hx. apply in_map_iff in Hx. destruct Hx as (y & <- & Hy). apply lower_nonzero. intros ->. auto.
    - exists k. split; auto. rewrite map_length in L. auto.
  Qed.

  Lemma common_ok : forall ugly hp, good hp -> exists hp', common ugly hp = Ok hp' /\ good hp'.
  Proof.
    intros ugly hp G. unfold common. destruct wc_leading as (i0 & E & L). rewrite E. cbn [bind].
    destruct (for_loop_inv _ good (cv_step ugly wc) (n - 1 - i0) i0 hp G) as (h1 & -> & G1).
    { intros k t K Gt. eapply cv_ok; eauto. lia. }
    cbn [bind].
    destruct (for_loop_inv _ good (apostrophe_step wc) (n - 2) 1 h1 G1) as (h2 & -> & G2); [intros; apply apostrophe_ok; auto|]. cbn [bind].
    destruct (for_loop_inv _ good (long_vowel_step wc n) (n - 2) 1 h2 G2) as (h3 & -> & G3); [intros; apply long_vowel_ok; auto|]. cbn [bind].
    destruct (for_loop_inv _ good (split_vowel_step wc) (n - 1) 0 h3 G3) as (h4 & -> & G4); [intros; apply split_vowel_ok; auto|]. cbn [bind].
    apply for_loop_inv; auto. intros; apply long_consonant_ok; auto.
  Qed.

  Lemma finish_ok : forall ugly hp, (2 <= n)%nat -> good hp -> exists hp', finish ugly hp = Ok hp' /\ good hp'.
  Proof.
    intros ugly hp N G. unfold finish. destruct ugly; cbn [negb].
    - destruct (3 <=? n)%nat; [|eauto]. apply for_loop_inv; auto. intros; apply split_after_ok; auto.
    - destruct (good_wr hp 1 BLANK G) as (h1 & -> & G1); [lia|auto|]. cbn [bind].
      destruct (good_wr h1 (n - 1) BLANK G1) as (h2 & -> & G2); [lia|auto|]. cbn [bind].
      apply for_loop_inv; auto. intros; apply no_ugly_ok; auto.
  Qed.

  Lemma allow_ok : forall o, exists b, allowRuleHyphenation o word = Ok b /\ (b = true -> (2 <= n)%nat).
  Proof.
    clear NUL LEN. intros o. unfold allowRuleHyphenation. fold n. destruct (n <=? 1)%nat eqn:E; [exists false; split; auto; discriminate|].
    destruct (uglyHyphenation o); cbn [negb]; [exists true; split; auto; lia|].
    destruct (is_nonword_spec word) as (r & -> & _). cbn [bind]. destruct r; [exists false; split; auto; discriminate|].
    destruct (rd_lt _ word (n - 1)) as (c & -> & _); [unfold n; lia|]. cbn [bind]. eexists. split; [reflexivity|]. lia.
  Qed.

  Lemma rule_unfold : forall o, ruleHyphenation o word hp0 =
    (allow <- allowRuleHyphenation o word ;;
     if negb allow then Ok hp0
     else h0 <- rd hp0 0 ;; if h0 =? MARK_X then Ok hp0
          else hp <- common (uglyHyphenation o) hp0 ;; finish (uglyHyphenation o) hp).
  Proof.
    intros o. unfold ruleHyphenation, common, finish. fold n. fold wc.
    destruct (allowRuleHyphenation o word) as [b| |]; cbn [bind]; auto. destruct b; cbn [negb]; auto.
    destruct (rd hp0 0) as [h0| |]; cbn [bind]; auto. destruct (h0 =? MARK_X); auto.
    destruct (leading_consonants wc) as [i0| |]; cbn [bind]; auto.
    repeat (match goal with |- bind ?e _ = bind (bind ?e _) _ => destruct e; cbn [bind]; auto end).
  Qed.

  Lemma rule_ok : forall o, exists hp, ruleHyphenation o word hp0 = Ok hp /\ good hp.
  Proof.
    intros o. rewrite rule_unfold. destruct (allow_ok o) as (b & -> & B). cbn [bind].
    destruct b; cbn [negb]; [|exists hp0; split; auto; apply good_start].
    destruct (good_rd hp0 0 good_start) as (h0 & ->); [specialize (B eq_refl); lia|]. cbn [bind].
    destruct (h0 =? MARK_X); [exists hp0; split; auto; apply good_start|].
    destruct (common_ok (uglyHyphenation o) hp0 good_start) as (h1 & -> & G1). cbn [bind]. apply finish_ok; auto.
  Qed.

  Lemma rule_x : forall o, nth_error hp0 0 = Some MARK_X -> ruleHyphenation o word hp0 = Ok hp0.
  Proof.
    intros o H. rewrite rule_unfold. destruct (allow_ok o) as (b & -> & _). cbn [bind]. destruct b; cbn [negb]; auto.
    unfold rd. rewrite H. cbn [bind]. replace (MARK_X =? MARK_X) with true by reflexivity. reflexivity.
  Qed.
End Rule.

(** ** Patterns *)

Definition alpha (c : Z) : Prop := c = BLANK \/ c = HYPHEN \/ c = EQUALS \/ c = MARK_X.

Lemma is_break_dec : forall p i, {is_break p i} + {~ is_break p i}.
Proof.
  intros p i. unfold is_break. destruct (nth_error p i) as [c|]; [|right; intros [E|E]; discriminate].
  destruct (Z.eq_dec c HYPHEN) as [->|A]; [left; auto|]. destruct (Z.eq_dec c EQUALS) as [->|B]; [left; auto|].
  right. intros [E|E]; inversion E; auto.
Qed.

Lemma unmarked_break : forall p i c, alpha c -> nth_error p i = Some c -> (unmarked c = false <-> is_break p i).
Proof.
  intros p i c A E. unfold is_break. rewrite E. destruct A as [ -> | [ -> | [ -> | -> ]]]; cbn; split; intros H; auto; try discriminate.
  - destruct H as [H|H]; discriminate.
  - destruct H as [H|H]; discriminate.
Qed.

Lemma alpha_nth : forall p i c, Forall alpha p -> nth_error p i = Some c -> alpha c.
Proof. intros p i c F E. rewrite Forall_forall in F. apply F. eapply nth_error_In; eauto. Qed.

Lemma alpha_Forall : forall p, (forall i c, nth_error p i = Some c -> alpha c) -> Forall alpha p.
Proof. intros p H. apply Forall_forall. intros c Hc. apply In_nth_error in Hc. destruct Hc as (i & E). eauto. Qed.

(** ** Slices *)

Lemma slice_length : forall l a b, (a <= b <= length l)%nat -> length (slice l a b) = (b - a)%nat.
Proof. intros l a b H. unfold slice. rewrite firstn_length, skipn_length. lia. Qed.

Lemma slice_nth : forall l a b i, (i < b - a)%nat -> nth_error (slice l a b) i = nth_error l (a + i).
Proof. intros l a b i H. unfold slice. rewrite nth_error_firstn_lt by lia. rewrite nth_error_skipn. reflexivity. Qed.

Lemma slice_In : forall l a b x, In x (slice l a b) -> In x l.
Proof.
  intros l a b x H. unfold slice in H. apply In_nth_error in H. destruct H as (i & E).
  assert (i < b - a)%nat as L. { apply nth_error_lt in E. rewrite firstn_length in E. lia. }
  rewrite nth_error_firstn_lt in E by auto. rewrite nth_error_skipn in E. eapply nth_error_In; eauto.
Qed.

Lemma slice_agree : forall l m a b, (b <= length l)%nat -> length m = length l -> (forall i, (a <= i)%nat -> nth_error l i = nth_error m i) -> slice l a b = slice m a b.
Proof.
  intros l m a b B L H. apply nth_error_ext. intros i. destruct (Nat.lt_ge_cases i (b - a)) as [I|I].
  - rewrite !slice_nth by auto. apply H. lia.
  - rewrite !(proj2 (nth_error_None _ _)); auto; unfold slice; rewrite firstn_length; lia.
Qed.

Section Compound.
  Variable o : hyph_options.
  Variable word : list Z.
  Hypothesis NUL : ~ In 0 word.
  Variable len : nat.
  Hypothesis LEN : (len <= length word)%nat.

  Lemma rule_at_ok : forall hp s e, length hp = length word -> (s < e <= len)%nat ->
    exists seg hp', ruleHyphenation o (slice word s e) (slice hp s e) = Ok seg /\ rule_at o word hp s e = Ok hp' /\
      length hp' = length hp /\ length seg = (e - s)%nat /\
      (forall i, (i <= s \/ e <= i)%nat -> nth_error hp' i = nth_error hp i) /\
      (forall i, (s < i < e)%nat -> nth_error hp' i = nth_error seg (i - s)) /\
      (forall i c0 c, (s < i < e)%nat -> nth_error hp i = Some c0 -> nth_error hp' i = Some c ->
         c = c0 \/ c = BLANK \/ c = HYPHEN \/ (c = EQUALS /\ nth_error word i = Some 0x27)).
  Proof.
    intros hp s e L SE. destruct (rule_ok (slice word s e)) with (hp0 := slice hp s e) (o := o) as (seg & R & GL & G).
    { intros I. apply slice_In in I. auto. }
    { rewrite !slice_length; lia. }
    rewrite slice_length in GL by lia.
    exists seg, (firstn s hp ++ seg ++ skipn e hp). unfold rule_at. rewrite R. cbn [bind].
    assert (FL : length (firstn s hp) = s) by (rewrite firstn_length; lia).
    assert (B : forall i, (s <= i < e)%nat -> nth_error (firstn s hp ++ seg ++ skipn e hp) i = nth_error seg (i - s)).
    { intros i I. rewrite nth_error_app2, FL by lia. apply nth_error_app1. lia. }
    assert (CH : forall i c0 c, (s <= i < e)%nat -> nth_error hp i = Some c0 -> nth_error seg (i - s) = Some c -> change (slice word s e) c0 c (i - s)).
    { intros i c0 c I E0 E1. eapply G; eauto. rewrite slice_nth by lia. replace (s + (i - s))%nat with i by lia. auto. }
    repeat match goal with |- _ /\ _ => split end; auto.
    - rewrite !app_length, FL, skipn_length. lia.
    - intros i [I|I].
      + destruct (Nat.eq_dec i s) as [->|D].
        * rewrite B by lia. destruct (nth_error hp s) as [c0|] eqn:E0; [|apply nth_error_None in E0; lia].
          destruct (nth_error seg (s - s)) as [c|] eqn:E1; [|apply nth_error_None in E1; lia].
          destruct (CH s c0 c) as [->|[K _]]; auto; lia.
        * rewrite nth_error_app1 by lia. apply nth_error_firstn_lt. lia.
      + rewrite nth_error_app2, FL by lia. rewrite nth_error_app2 by lia. rewrite GL, nth_error_skipn. f_equal. lia.
    - intros i I. apply B. lia.
    - intros i c0 c I E0 E1. rewrite B in E1 by lia. destruct (CH i c0 c) as [->|[_ C]]; auto; [lia|].
      destruct C as [C|[C|[C1 C2]]]; auto. right. right. right. split; auto.
      rewrite slice_nth in C2 by lia. replace (s + (i - s))%nat with i in C2 by lia. auto.
  Qed.

  (** The parts that the loop visits. *)
  Fixpoint plist (fuel : nat) (hp : list Z) (s e : nat) : list (nat * nat) :=
    if (e <? len)%nat then
      match fuel with
      | O => []
      | S fuel' =>
          match nth_error hp e with
          | None => []
          | Some h => if negb (unmarked h) then
                        let s' := if h =? EQUALS then (e + 1)%nat else e in (s, e) :: plist fuel' hp s' (s' + 1)
                      else plist fuel' hp s (e + 1)
          end
      end
    else if Nat.eqb e len && (s <? e)%nat then [(s, e)] else [].

  Lemma plist_agree : forall fuel hp hp1 s e, (s < e)%nat -> (forall i, (e <= i)%nat -> nth_error hp1 i = nth_error hp i) ->
    plist fuel hp1 s e = plist fuel hp s e.
  Proof.
    induction fuel as [|fuel IH]; intros hp hp1 s e SE A; cbn [plist]; destruct (e <? len)%nat; auto.
    rewrite A by lia. destruct (nth_error hp e) as [h|]; auto. destruct (negb (unmarked h)).
    - f_equal. apply IH; [destruct (h =? EQUALS); lia|]. intros i I. apply A. destruct (h =? EQUALS); lia.
    - apply IH; [lia|]. intros. apply A. lia.
  Qed.

  Definition between (hp : list Z) (a b : nat) : Prop := forall k c, (a < k < b)%nat -> nth_error hp k = Some c -> unmarked c = true.

  Lemma plist_facts : forall fuel hp s e, (s < e)%nat -> between hp s e ->
    (forall a b, In (a, b) (plist fuel hp s e) -> (s <= a < b)%nat /\ (b <= len)%nat /\ between hp a b) /\
    (forall a b a' b' i, In (a, b) (plist fuel hp s e) -> In (a', b') (plist fuel hp s e) -> (a < i < b)%nat -> (a' < i < b')%nat -> a = a' /\ b = b').
  Proof.
    induction fuel as [|fuel IH]; intros hp s e SE BT; cbn [plist].
    - assert (forall q : list (nat * nat), q = [] \/ (q = [(s,e)] /\ e = len)%nat ->
        (forall a b, In (a, b) q -> (s <= a < b)%nat /\ (b <= len)%nat /\ between hp a b) /\
        (forall a b a' b' i, In (a, b) q -> In (a', b') q -> (a < i < b)%nat -> (a' < i < b')%nat -> a = a' /\ b = b')) as Q.
      { intros q [->|[-> EL]]; split; cbn; try tauto.
        - intros a b [H|[]]. inversion H. subst. split; [lia|]. split; auto.
        - intros a b a' b' i [H|[]] [H'|[]] _ _. inversion H. inversion H'. subst. auto. }
      destruct (e <? len)%nat; [apply Q; auto|]. destruct (Nat.eqb e len && (s <? e)%nat) eqn:E; apply Q; auto. right. split; auto. lia.
    - destruct (e <? len)%nat eqn:EL.
      + destruct (nth_error hp e) as [h|] eqn:H; [|split; cbn; tauto]. destruct (unmarked h) eqn:U; cbn [negb].
        * apply IH; [lia|]. intros k c K E. destruct (Nat.eq_dec k e) as [->|D]; [congruence|]. eapply BT; eauto. lia.
        * set (s' := if h =? EQUALS then (e + 1)%nat else e). assert (e <= s')%nat as S1 by (unfold s'; destruct (h =? EQUALS); lia).
          destruct (IH hp s' (s' + 1)%nat) as [F1 F2]; [lia|intros k c K; lia|]. split.
          -- intros a b [P|P]; [inversion P; subst; split; [lia|]; split; [lia|auto]|]. apply F1 in P. destruct P as (P1 & P2 & P3). split; [lia|]. auto.
          -- intros a b a' b' i [P|P] [P'|P'] I I'; try (inversion P; subst); try (inversion P'; subst); auto.
             ++ apply F1 in P'. lia.
             ++ apply F1 in P. lia.
             ++ eapply F2; eauto.
      + assert (forall q : list (nat * nat), q = [] \/ (q = [(s,e)] /\ e = len)%nat ->
        (forall a b, In (a, b) q -> (s <= a < b)%nat /\ (b <= len)%nat /\ between hp a b) /\
        (forall a b a' b' i, In (a, b) q -> In (a', b') q -> (a < i < b)%nat -> (a' < i < b')%nat -> a = a' /\ b = b')) as Q.
        { intros q [->|[-> EL']]; split; cbn; try tauto.
          - intros a b [H|[]]. inversion H. subst. split; [lia|]. split; auto.
          - intros a b a' b' i [H|[]] [H'|[]] _ _. inversion H. inversion H'. subst. auto. }
        destruct (Nat.eqb e len && (s <? e)%nat) eqn:E; apply Q; auto. right. split; auto. lia.
  Qed.

  (** Where a character of the result comes from. *)
  Definition from (hp : list Z) (ps : list (nat * nat)) (i : nat) (c : Z) : Prop :=
    (exists a b seg, In (a, b) ps /\ long_enough o a b = true /\ (a < i < b)%nat /\
       ruleHyphenation o (slice word a b) (slice hp a b) = Ok seg /\ nth_error seg (i - a) = Some c /\
       (forall c0, nth_error hp i = Some c0 -> c = c0 \/ c = BLANK \/ c = HYPHEN \/ (c = EQUALS /\ nth_error word i = Some 0x27))) \/
    ((forall a b, In (a, b) ps -> long_enough o a b = true -> ~ (a < i < b)%nat) /\ nth_error hp i = Some c).

  Lemma one_part : forall hp s e, length hp = length word -> (s < e <= len)%nat -> between hp s e ->
    exists hp', (if long_enough o s e then rule_at o word hp s e else Ok hp) = Ok hp' /\ length hp' = length word /\
      (forall i, (i <= s \/ e <= i)%nat -> nth_error hp' i = nth_error hp i) /\
      forall i c, nth_error hp' i = Some c -> from hp [(s, e)] i c.
  Proof.
    intros hp s e L SE BT. destruct (long_enough o s e) eqn:LE.
    - destruct (rule_at_ok hp s e L SE) as (seg & hp' & R & -> & L' & _ & OUT & INS & CH). exists hp'. split; auto. split; [lia|]. split; auto.
      intros i c E. destruct (Nat.le_gt_cases i s) as [I|I]; [|destruct (Nat.le_gt_cases e i) as [I'|I']].
      + right. split; [|rewrite <- OUT; auto]. intros a b [P|[]] _. inversion P. subst. lia.
      + right. split; [|rewrite <- OUT; auto]. intros a b [P|[]] _. inversion P. subst. lia.
      + left. exists s, e, seg. split; [left; auto|]. split; auto. split; auto. split; auto. split; [rewrite <- INS; auto|].
        intros c0 E0. eapply CH; eauto.
    - exists hp. split; auto. split; auto. split; auto. intros i c E. right. split; auto. intros a b [P|[]] LE'. inversion P. subst. congruence.
  Qed.

  Lemma compound_loop_ok : forall fuel hp s e, length hp = length word -> (s < e)%nat -> (len + 1 - e <= fuel)%nat -> between hp s e ->
    exists hp', compound_loop fuel o word hp len s e = Ok hp' /\ length hp' = length word /\
      forall i c, nth_error hp' i = Some c -> from hp (plist fuel hp s e) i c.
  Proof.
    induction fuel as [|fuel IH]; intros hp s e L SE FU BT; cbn [compound_loop plist].
    - replace (e <? len)%nat with false by lia. replace (Nat.eqb e len) with false by lia. cbn [andb]. exists hp. split; auto. split; auto.
      intros i c E. right. split; auto.
    - destruct (e <? len)%nat eqn:EL.
      + destruct (rd_lt _ hp e) as (h & R & N); [lia|]. rewrite R, N. cbn [bind]. destruct (unmarked h) eqn:U; cbn [negb].
        * apply IH; auto; try lia. intros k c K E. destruct (Nat.eq_dec k e) as [->|D]; [congruence|]. eapply BT; eauto. lia.
        * destruct (one_part hp s e L) as (h1 & -> & L1 & OUT & FR); [lia|auto|]. cbn [bind].
          unfold rd at 1. rewrite OUT, N by lia. cbn [bind].
          set (s' := if h =? EQUALS then (e + 1)%nat else e). assert (e <= s')%nat as S1 by (unfold s'; destruct (h =? EQUALS); lia).
          destruct (IH h1 s' (s' + 1)%nat) as (hp' & -> & L' & FR'); [auto|lia|lia|intros k c K; lia|].
          exists hp'. split; auto. split; auto.
          rewrite (plist_agree fuel hp h1) in FR' by (try lia; intros; apply OUT; lia).
          assert (BT' : between hp s' (s' + 1)) by (intros k c K; lia).
          destruct (plist_facts fuel hp s' (s' + 1)%nat) as [F1 _]; [lia|auto|].
          intros i c E. apply FR' in E. destruct E as [(a & b & seg & IN & LE & I & RU & NS & CH)|[NO E]].
          -- pose proof (F1 _ _ IN) as (Fa & Fb & Fc). left. exists a, b, seg. split; [right; auto|]. split; auto. split; auto. split.
             { rewrite <- RU. f_equal. symmetry. apply slice_agree; [lia|lia|]. intros k K. apply OUT. lia. }
             split; auto. intros c0 C0. apply CH. rewrite OUT by lia. auto.
          -- apply FR in E. destruct E as [(a & b & seg & [IN|[]] & REST)|[NO' E]].
             ++ left. exists a, b, seg. split; [left; auto|]. auto.
             ++ right. split; auto. intros a b [P|P]; [apply NO'; left; auto|apply NO; auto].
      + destruct (Nat.eqb e len && (s <? e)%nat) eqn:C; cbn [andb].
        * assert (e = len) as -> by lia. destruct (one_part hp s len L) as (h1 & R1 & L1 & OUT & FR); [lia|auto|].
          destruct (long_enough o s len); [rewrite R1|inversion R1; subst]; eauto.
        * exists hp. split; auto. split; auto. intros i c E. right. split; auto.
  Qed.

  Lemma skip_ok : forall hp n i, (i + n <= length hp)%nat -> exists s, skip_equals hp n i = Ok s /\ (i <= s <= i + n)%nat /\
    (forall k, (i <= k < s)%nat -> nth_error hp k = Some EQUALS) /\ ((s < i + n)%nat -> nth_error hp s <> Some EQUALS).
  Proof.
    clear. intros hp. induction n as [|n IH]; intros i I; cbn [skip_equals].
    - exists i. split; auto. split; [lia|]. split; intros; lia.
    - destruct (rd_lt _ hp i) as (h & R & N); [lia|]. rewrite R. cbn [bind]. destruct (h =? EQUALS) eqn:E.
      + destruct (IH (S i)) as (s & -> & B & K & M); [lia|]. exists s. split; auto. split; [lia|]. split.
        * intros k K1. destruct (Nat.eq_dec k i) as [->|D]; [rewrite N; f_equal; lia|apply K; lia].
        * intros. apply M. lia.
      + exists i. split; auto. split; [lia|]. split; [intros; lia|]. intros _. rewrite N. intros Q. inversion Q. lia.
  Qed.

  (** All parts of a pattern. *)
  Definition parts (hp : list Z) : list (nat * nat) :=
    match skip_equals hp len 0 with Ok s => plist (len + 1) hp s (s + 1) | _ => [] end.

  Lemma compound_ok : forall hp, length hp = length word ->
    exists hp', compoundHyphenation o word hp len = Ok hp' /\ length hp' = length word /\
      forall i c, nth_error hp' i = Some c -> from hp (parts hp) i c.
  Proof.
    intros hp L. unfold compoundHyphenation, parts. destruct (skip_ok hp len 0) as (s & -> & B & _); [lia|]. cbn [bind].
    apply compound_loop_ok; auto; try lia. intros k c K; lia.
  Qed.

  Lemma parts_facts : forall hp, (length hp = length word) ->
    (forall a b, In (a, b) (parts hp) -> (a < b)%nat /\ (b <= len)%nat /\ between hp a b) /\
    (forall a b a' b' i, In (a, b) (parts hp) -> In (a', b') (parts hp) -> (a < i < b)%nat -> (a' < i < b')%nat -> a = a' /\ b = b').
  Proof.
    intros hp L. unfold parts. destruct (skip_ok hp len 0) as (s & -> & _); [lia|].
    destruct (plist_facts (len + 1) hp s (s + 1)%nat) as [A B]; [lia|intros k c K; lia|]. split; auto.
    intros a b I. apply A in I. destruct I as (I1 & I2 & I3). split; [lia|]. auto.
  Qed.

  (** Pattern characters after the rules. *)
  Lemma compound_alpha : forall hp hp', length hp = length word -> Forall alpha hp -> compoundHyphenation o word hp len = Ok hp' -> Forall alpha hp'.
  Proof.
    intros hp hp' L F R. destruct (compound_ok hp L) as (h1 & R1 & L1 & FR). rewrite R in R1. inversion R1. subst h1.
    apply alpha_Forall. intros i c E. destruct (FR i c E) as [(a & b & seg & _ & _ & I & _ & _ & CH)|[_ E']].
    - assert (i < length hp)%nat as IL by (apply nth_error_lt in E; lia). destruct (nth_error hp i) as [c0|] eqn:E0; [|apply nth_error_None in E0; lia].
      pose proof (alpha_nth _ _ _ F E0). unfold alpha in *. destruct (CH c0 eq_refl) as [->|[->|[->|[-> _]]]]; tauto.
    - eapply alpha_nth; eauto.
  Qed.
End Compound.

(** ** Borders from the structure *)

Lemma good_tail : forall x s, good_structure (x :: s) -> s <> [] \/ x <> 0x3D -> good_structure s.
Proof.
  intros x s (N & D & L) _. split; [intros I; apply N; right; auto|]. split.
  - intros a b ->. apply (D (x :: a) b). reflexivity.
  - intros a ->. apply (L (x :: a)). reflexivity.
Qed.

Lemma good_eq : forall s, good_structure (0x3D :: s) -> exists y r, s = y :: r /\ y <> 0x3D /\ y <> 0 /\ good_structure s /\ good_structure r.
Proof.
  intros s G. pose proof G as (N & D & L). destruct s as [|y r]; [elim (L []); reflexivity|].
  exists y, r. split; auto. split; [intros ->; apply (D [] r); reflexivity|]. split; [intros ->; apply N; right; left; auto|].
  assert (good_structure (y :: r)) by (apply good_tail in G; auto; left; discriminate). split; auto.
  apply good_tail in H; auto. right. intros ->. apply (D [] r). reflexivity.
Qed.

Lemma good_nil : good_structure [].
Proof. split; [intros []|]. split; intros; destruct a; discriminate. Qed.

Lemma borders_length : forall n f s, length (borders f n s) = n.
Proof.
  induction n as [|n IH]; intros f s; destruct s as [|x r]; cbn [borders]; auto; [apply repeat_length|].
  destruct r as [|y r']; [cbn [length]; rewrite IH; auto|].
  destruct ((x =? 0x2D) && (y =? 0x3D)); [cbn [length]; rewrite IH; auto|]. destruct (x =? 0x3D); cbn [length]; rewrite IH; auto.
Qed.

Lemma borders_alpha : forall n f s, Forall alpha (borders f n s).
Proof.
  assert (R : forall n, Forall alpha (repeat BLANK n)). { induction n; cbn; constructor; auto. left; auto. }
  induction n as [|n IH]; intros f s; destruct s as [|x r]; cbn [borders]; auto; try apply (R (S n)); try constructor.
  destruct r as [|y r'].
  - constructor; auto. unfold alpha. destruct ((x =? 0x6A) || (x =? 0x71)); auto.
  - destruct ((x =? 0x2D) && (y =? 0x3D)); [constructor; auto; unfold alpha; destruct f; auto|].
    destruct (x =? 0x3D); constructor; auto; unfold alpha; auto. destruct ((x =? 0x6A) || (x =? 0x71)); auto.
Qed.

Lemma borders_first : forall n s c, (forall r, s <> 0x3D :: r) -> nth_error (borders true n s) 0 = Some c -> unmarked c = true.
Proof.
  intros n s c N H. destruct n as [|n]; [destruct s; discriminate|]. destruct s as [|x r]; [cbn in H; inversion H; auto|].
  assert (x <> 0x3D) by (intros ->; apply (N r); auto). cbn [borders] in H. destruct r as [|y r'].
  - cbn in H. inversion H. destruct ((x =? 0x6A) || (x =? 0x71)); auto.
  - destruct ((x =? 0x2D) && (y =? 0x3D)); [cbn in H; inversion H; auto|]. replace (x =? 0x3D) with false in H by lia.
    cbn in H. inversion H. destruct ((x =? 0x6A) || (x =? 0x71)); auto.
Qed.

Lemma borders_equals : forall n f s i, good_structure s -> nth_error (borders f n s) i = Some EQUALS -> nth_error (symbols s) i = Some 0x2D.
Proof.
  induction n as [|n IH]; intros f s i G H.
  { destruct s; destruct i; discriminate. }
  destruct s as [|x r].
  { exfalso. change (borders f (S n) []) with (repeat BLANK (S n)) in H. apply nth_error_In in H. apply repeat_spec in H. discriminate. }
  cbn [borders] in H. destruct r as [|y r'].
  - unfold symbols. destruct i as [|i]; cbn [nth_error] in H.
    + destruct ((x =? 0x6A) || (x =? 0x71)); discriminate.
    + apply IH in H; [|apply good_nil]. destruct i; discriminate.
  - destruct ((x =? 0x2D) && (y =? 0x3D)) eqn:E.
    + assert (x = 0x2D /\ y = 0x3D) as [-> ->] by lia. apply good_tail in G; [|right; discriminate]. destruct i as [|i].
      * reflexivity.
      * cbn [nth_error] in H. apply IH in H; [exact H|]. destruct (good_eq _ G) as (y & q & -> & _ & _ & G1 & _). auto.
    + destruct (x =? 0x3D) eqn:X.
      * assert (x = 0x3D) by lia. subst x. destruct (good_eq _ G) as (y1 & q & E1 & Y & _ & _ & G2). inversion E1. subst y1 q.
        destruct i as [|i]; cbn [nth_error] in H; [discriminate|]. apply IH in H; auto.
        unfold symbols in *. cbn [filter]. replace (negb (0x3D =? 0x3D)) with false by reflexivity. replace (y =? 0x3D) with false by lia. exact H.
      * destruct i as [|i]; cbn [nth_error] in H; [destruct ((x =? 0x6A) || (x =? 0x71)); discriminate|]. apply IH in H.
        -- unfold symbols in *. cbn [filter]. rewrite X. cbn [negb]. exact H.
        -- apply good_tail in G; auto. right. lia.
Qed.

Lemma skip_st : forall (st : list Z) p x r, skipn p st = x :: r -> rd st p = Ok x /\ skipn (p + 1) st = r.
Proof.
  intros st p x r H. split.
  - apply rd_ok. rewrite <- (Nat.add_0_r p), <- nth_error_skipn, H. reflexivity.
  - rewrite <- skipn_skipn, H. reflexivity.
Qed.

Lemma upd_blank : forall (b : list Z) i n c, length b = (i + S n)%nat -> wr b i c = Ok (firstn i b ++ c :: skipn (S i) b).
Proof.
  intros b i n c L. apply wr_ok. split; [lia|]. revert b L. induction i as [|i IH]; intros [|x b] L; cbn in L; try lia; cbn.
  - reflexivity.
  - rewrite <- IH by lia. reflexivity.
Qed.

Lemma interpret_loop_ok : forall n st i p buffer s, skipn p st = s ++ [0] -> good_structure s -> length buffer = (i + n)%nat ->
  (forall k, (i <= k < i + n)%nat -> nth_error buffer k = Some BLANK) ->
  interpret_loop st n i p buffer = Ok (firstn i buffer ++ borders (Nat.eqb i 0) n s).
Proof.
  induction n as [|n IH]; intros st i p buffer s SK G L BL.
  { cbn [interpret_loop]. f_equal. rewrite firstn_all2 by lia. destruct s; cbn; rewrite app_nil_r; auto. }
  assert (STEP : forall c p' s', skipn p' st = s' ++ [0] -> good_structure s' ->
     interpret_loop st n (S i) p' (firstn i buffer ++ c :: skipn (S i) buffer) = Ok (firstn i buffer ++ c :: borders false n s')).
  { intros c p' s' SK' G'. rewrite (IH _ _ _ _ s'); auto.
    - cbn [Nat.eqb]. f_equal. rewrite firstn_app, firstn_length. replace (S i - Nat.min i (length buffer))%nat with 1%nat by lia.
      rewrite firstn_firstn. replace (Nat.min (S i) i) with i by lia. cbn [firstn]. rewrite <- app_assoc. reflexivity.
    - rewrite app_length. cbn [length]. rewrite firstn_length, skipn_length. lia.
    - intros k K. rewrite nth_error_app2 by (rewrite firstn_length; lia). rewrite firstn_length.
      replace (k - Nat.min i (length buffer))%nat with (S (k - S i)) by lia. cbn [nth_error]. rewrite nth_error_skipn.
      replace (S i + (k - S i))%nat with k by lia. apply BL. lia. }
  assert (KEEP : buffer = firstn i buffer ++ BLANK :: skipn (S i) buffer).
  { rewrite <- (firstn_skipn i buffer) at 1. f_equal. apply skipn_cons_nth. apply BL. lia. }
  cbn [interpret_loop]. destruct s as [|x r].
  - destruct (skip_st _ _ _ _ SK) as [-> _]. cbn [bind]. replace (0 =? 0) with true by reflexivity. f_equal. cbn [borders].
    rewrite <- (firstn_skipn i buffer) at 1. f_equal. apply nth_error_ext. intros k. rewrite nth_error_skipn.
    destruct (Nat.lt_ge_cases k (S n)) as [K|K].
    + rewrite BL by lia. symmetry. rewrite nth_error_repeat; auto.
    + rewrite !(proj2 (nth_error_None _ _)); auto; [rewrite repeat_length; lia|lia].
  - cbn [app] in SK. destruct (skip_st _ _ _ _ SK) as [-> SK1]. cbn [bind].
    assert (x <> 0) as X0 by (intros ->; apply (proj1 G); left; auto). replace (x =? 0) with false by lia.
    destruct r as [|y r'].
    + (* last symbol *)
      cbn [app] in SK1. destruct (skip_st _ _ _ _ SK1) as [R1 _]. rewrite R1. cbn [bind]. replace (0 =? 0x3D) with false by reflexivity.
      assert (x <> 0x3D) as XE by (intros ->; destruct G as (_ & _ & GL); apply (GL []); auto). replace (x =? 0x3D) with false by lia.
      assert ((if x =? 0x2D then Ok false else Ok false) = Ok false) as -> by (destruct (x =? 0x2D); auto). cbn [bind borders].
      destruct ((x =? 0x6A) || (x =? 0x71)).
      * rewrite (upd_blank _ _ n) by lia. cbn [bind]. apply STEP; [rewrite SK1; reflexivity|apply good_nil].
      * cbn [bind]. rewrite KEEP at 1. apply STEP; [rewrite SK1; reflexivity|apply good_nil].
    + cbn [app] in SK1. destruct (skip_st _ _ _ _ SK1) as [R1 SK2]. rewrite R1. cbn [bind]. replace (p + 1 + 1)%nat with (p + 2)%nat in SK2 by lia.
      cbn [borders]. destruct (x =? 0x2D) eqn:XM; cbn [andb bind].
      * assert (x = 0x2D) by lia. subst x. destruct (y =? 0x3D) eqn:YE.
        -- assert (y = 0x3D) by lia. subst y. apply good_tail in G; [|right; discriminate]. destruct (good_eq _ G) as (z & q & -> & _ & _ & G1 & _).
           destruct (Nat.eqb i 0) eqn:I0; cbn [negb bind].
           ++ rewrite KEEP at 1. apply STEP; auto.
           ++ rewrite (upd_blank _ _ n) by lia. cbn [bind]. apply STEP; auto.
        -- replace (0x2D =? 0x3D) with false by reflexivity. cbn [orb bind]. replace (0x2D =? 0x6A) with false by reflexivity.
           replace (0x2D =? 0x71) with false by reflexivity. cbn [orb bind]. rewrite KEEP at 1. apply STEP; [exact SK1|]. apply good_tail in G; auto; left; discriminate.
      * destruct (x =? 0x3D) eqn:XE.
        -- assert (x = 0x3D) by lia. subst x. destruct (good_eq _ G) as (y1 & q & E1 & _ & _ & _ & G2). inversion E1. subst y1 q.
           rewrite (upd_blank _ _ n) by lia. cbn [bind]. apply STEP; auto.
        -- assert (good_structure (y :: r')) by (apply good_tail in G; auto; left; discriminate).
           destruct ((x =? 0x6A) || (x =? 0x71)).
           ++ rewrite (upd_blank _ _ n) by lia. cbn [bind]. apply STEP; auto.
           ++ cbn [bind]. rewrite KEEP at 1. apply STEP; auto.
Qed.

Lemma interpret_ok : forall a n s, a STRUCTURE = Some s -> good_structure s -> interpretAnalysis a n = Ok (word_borders n s).
Proof.
  intros a n s A G. unfold interpretAnalysis. rewrite A. unfold word_borders. destruct s as [|x r].
  - cbn [app rd nth_error bind]. replace (0 =? 0x3D) with false by reflexivity. rewrite (interpret_loop_ok n [0] 0 0 _ []); auto.
    + apply repeat_length.
    + intros k K. apply nth_error_repeat. lia.
  - cbn [app rd nth_error bind]. destruct (x =? 0x3D) eqn:X.
    + assert (x = 0x3D) by lia. subst x. rewrite (interpret_loop_ok n _ 0 1 _ r); auto.
      * destruct (good_eq _ G) as (y & q & -> & _ & _ & G1 & _). auto.
      * apply repeat_length.
      * intros k K. apply nth_error_repeat. lia.
    + rewrite (interpret_loop_ok n _ 0 0 _ (x :: r)); auto.
      * f_equal. destruct (Z.eq_dec x 0x3D); [lia|]. assert (match x :: r with 0x3D :: r0 => r0 | _ => x :: r end = x :: r) as ->; auto.
        destruct x as [|p|p]; auto. repeat (destruct p as [p|p|]; auto; try lia).
      * apply repeat_length.
      * intros k K. apply nth_error_repeat. lia.
Qed.

Lemma word_borders_strip : forall s, good_structure s -> exists r, good_structure r /\ symbols r = symbols s /\ (forall q, r <> 0x3D :: q) /\
  forall n, word_borders n s = borders true n r.
Proof.
  intros s G. destruct s as [|x r].
  - exists []. split; auto. split; auto. split; [discriminate|auto].
  - destruct (Z.eq_dec x 0x3D) as [->|X].
    + destruct (good_eq _ G) as (y & q & -> & Y & _ & G1 & _). exists (y :: q). split; auto. split; auto. split; auto.
      intros q' E. inversion E. auto.
    + exists (x :: r). split; auto. split; auto. split; [intros q E; inversion E; auto|]. intros n. unfold word_borders.
      assert (match x :: r with 0x3D :: r0 => r0 | _ => x :: r end = x :: r) as ->; auto.
      destruct x as [|p|p]; auto. repeat (destruct p as [p|p|]; auto; try lia).
Qed.

(** ** Choice of the patterns *)

Lemma count_one : forall h, Forall alpha h -> (count_parts h = 1%nat <-> forall i, ~ is_break h i).
Proof.
  intros h F. unfold count_parts. split.
  - intros C i B. assert (exists c, nth_error h i = Some c /\ unmarked c = false) as (c & E & U).
    { destruct B as [B|B]; eexists; split; eauto. }
    assert (In c (filter (fun c => negb (unmarked c)) h)) as I.
    { apply filter_In. split; [eapply nth_error_In; eauto|]. rewrite U. auto. }
    destruct (filter _ h); [destruct I|cbn in C; lia].
  - intros N. assert (filter (fun c => negb (unmarked c)) h = []) as ->; auto.
    destruct (filter (fun c => negb (unmarked c)) h) as [|c l] eqn:E; auto. exfalso.
    assert (In c (filter (fun c => negb (unmarked c)) h)) as I by (rewrite E; left; auto). apply filter_In in I. destruct I as [I U].
    apply In_nth_error in I. destruct I as (i & E1). apply (N i). apply (unmarked_break h i c); auto; [eapply alpha_nth; eauto|].
    destruct (unmarked c); auto; discriminate.
Qed.

Lemma min_parts_spec : forall hs m0, let m := min_parts m0 hs in
  (m0 <> 0%nat -> m <> 0 /\ m <= m0)%nat /\ (forall h, In h hs -> (m <= count_parts h)%nat) /\
  (m = m0 \/ exists h, In h hs /\ count_parts h = m) /\ (hs <> [] -> m <> 0%nat).
Proof.
  induction hs as [|h r IH]; intros m0 m; subst m; cbn [min_parts].
  - split; [lia|]. split; [intros ? []|]. split; [auto|]. intros K. elim K. auto.
  - set (m1 := if Nat.eqb m0 0 || (count_parts h <? m0)%nat then count_parts h else m0).
    assert (count_parts h <> 0)%nat as C0 by (unfold count_parts; lia).
    assert (m1 <> 0 /\ m1 <= count_parts h /\ (m0 <> 0 -> m1 <= m0) /\ (m1 = m0 \/ m1 = count_parts h))%nat as (M1 & M2 & M3 & M4).
    { unfold m1. destruct (Nat.eqb m0 0 || (count_parts h <? m0)%nat) eqn:E; lia. }
    destruct (IH m1) as (A & B & C & _). specialize (A M1). destruct A as [A1 A2].
    split; [intros; split; auto; lia|]. split; [|split].
    + intros x [<-|I]; [lia|auto].
    + destruct C as [C|(x & I & C)]; [|right; exists x; split; auto; right; auto]. destruct M4 as [M4|M4]; [left; congruence|].
      right. exists h. split; [left; auto|congruence].
    + auto.
Qed.

Lemma nth_split_at : forall (hs : list (list Z)) j cur, nth_error hs j = Some cur -> exists a r, hs = a ++ cur :: r /\ length a = j.
Proof. intros hs j cur H. apply nth_error_split in H. destruct H as (a & r & -> & L). eauto. Qed.

Lemma upd_app : forall (T : Type) (a r : list T) c x, upd (a ++ c :: r) (length a) x = a ++ x :: r.
Proof. induction a as [|y a IH]; intros r c x; cbn; auto. rewrite IH. auto. Qed.

Lemma remove_loop_ok : forall fuel m hs j, (length hs - j <= fuel)%nat -> (j <= length hs)%nat -> (forall k h, (k < j)%nat -> nth_error hs k = Some h -> (count_parts h <= m)%nat) ->
  exists hs', remove_loop fuel m hs j = Ok hs' /\ forall h, In h hs' <-> In h hs /\ (count_parts h <= m)%nat.
Proof.
  induction fuel as [|fuel IH]; intros m hs j FU JL PRE; cbn [remove_loop].
  - replace (j <? length hs)%nat with false by lia. exists hs. split; auto. intros h. split; [|tauto]. intros I. split; auto.
    apply In_nth_error in I. destruct I as (k & E). apply (PRE k); auto. apply nth_error_lt in E. lia.
  - destruct (j <? length hs)%nat eqn:J.
    + destruct (rd_lt _ hs j) as (cur & R & N); [lia|]. rewrite R. cbn [bind]. destruct (m <? count_parts cur)%nat eqn:M.
      * destruct (nth_split_at _ _ _ N) as (a & r & -> & LA). destruct r as [|x r'] using rev_ind.
        -- clear IH. destruct (rd_lt _ (a ++ [cur]) (length (a ++ [cur]) - 1)) as (l & R1 & N1); [rewrite app_length; cbn; lia|].
           assert (l = cur). { rewrite app_length in N1. cbn in N1. replace (length a + 1 - 1)%nat with j in N1 by lia. congruence. }
           subst l. rewrite R1. cbn [bind].
           assert (wr (a ++ [cur]) j cur = Ok (a ++ [cur])) as ->.
           { apply wr_ok. split; [lia|]. rewrite <- LA. rewrite upd_app. auto. }
           cbn [bind]. rewrite removelast_last.
           assert (remove_loop fuel m a j = Ok a) as ->.
           { destruct fuel; cbn [remove_loop]; replace (j <? length a)%nat with false by lia; auto. }
           exists a. split; auto. intros h. split.
           ++ intros I. split; [apply in_or_app; auto|]. apply In_nth_error in I. destruct I as (k & E). pose proof (nth_error_lt _ _ _ _ E).
              apply (PRE k); [lia|]. rewrite nth_error_app1; auto.
           ++ intros [I C]. apply in_app_or in I. destruct I as [I|[<-|[]]]; auto. lia.
        -- clear IHr'. assert (LL : length (a ++ cur :: r' ++ [x]) = (j + 2 + length r')%nat) by (rewrite app_length; cbn; rewrite app_length; cbn; lia).
           destruct (rd_lt _ (a ++ cur :: r' ++ [x]) (length (a ++ cur :: r' ++ [x]) - 1)) as (l & R1 & N1); [lia|].
           assert (l = x). { rewrite LL in N1. rewrite nth_error_app2 in N1 by lia. replace (j + 2 + length r' - 1 - length a)%nat with (S (length r')) in N1 by lia.
             cbn [nth_error] in N1. rewrite nth_error_app2, Nat.sub_diag in N1 by lia. cbn in N1. congruence. }
           subst l. rewrite R1. cbn [bind].
           assert (wr (a ++ cur :: r' ++ [x]) j x = Ok (a ++ x :: r' ++ [x])) as ->.
           { apply wr_ok. split; [lia|]. rewrite <- LA. rewrite upd_app. auto. }
           cbn [bind]. replace (a ++ x :: r' ++ [x]) with ((a ++ x :: r') ++ [x]) by (rewrite <- app_assoc; auto). rewrite removelast_last.
           destruct (IH m (a ++ x :: r') j) as (hs' & -> & Q).
           ++ rewrite app_length. cbn [length]. lia.
           ++ rewrite app_length. lia.
           ++ intros k h K E. apply (PRE k); auto. rewrite nth_error_app1 in * by lia. auto.
           ++ exists hs'. split; auto. intros h. rewrite Q. split; intros [I C]; split; auto.
              ** apply in_app_or in I. apply in_or_app. destruct I as [I|[->|I]]; auto; right; right; apply in_or_app; cbn; auto.
              ** apply in_app_or in I. apply in_or_app. destruct I as [I|[<-|I]]; auto; [lia|]. apply in_app_or in I. cbn in *. tauto.
      * apply IH; try lia. intros k h K E. destruct (Nat.eq_dec k j) as [->|D]; [|apply (PRE k); auto; lia].
        rewrite N in E. inversion E. subst. lia.
    + exists hs. split; auto. intros h. split; [|tauto]. intros I. split; auto.
      apply In_nth_error in I. destruct I as (k & E). apply (PRE k); auto. apply nth_error_lt in E. lia.
Qed.

Lemma remove_ok : forall hs, hs <> [] -> Forall (Forall alpha) hs ->
  exists hs', removeExtraHyphenations hs = Ok hs' /\ hs' <> [] /\
    forall h, In h hs' <-> In h hs /\ ((exists h', In h' hs /\ forall i, ~ is_break h' i) -> forall i, ~ is_break h i).
Proof.
  intros hs NE F. unfold removeExtraHyphenations. destruct (min_parts_spec hs 0) as (_ & B & C & D). specialize (D NE).
  destruct C as [C|(h0 & I0 & C)]; [lia|]. rewrite Forall_forall in F. destruct (1 <? min_parts 0 hs)%nat eqn:M.
  - exists hs. split; auto. split; auto. intros h. split; [|tauto]. intros I. split; auto. intros (h' & I' & N).
    apply count_one in N; auto. apply B in I'. lia.
  - assert (min_parts 0 hs = 1)%nat as E by lia. rewrite E in *. destruct (remove_loop_ok (length hs) 1 hs 0) as (hs' & -> & Q); try lia.
    exists hs'. split; auto. split.
    + intros ->. apply (Q h0). split; auto. lia.
    + assert (P : forall h, In h hs -> ((count_parts h <= 1)%nat <-> forall i, ~ is_break h i)).
      { intros h I. rewrite <- count_one by auto. assert (count_parts h <> 0)%nat by (unfold count_parts; lia). lia. }
      intros h. rewrite Q. split; intros [I H]; split; auto.
      * intros _. apply P; auto.
      * apply P; auto. apply H. exists h0. split; auto. apply P; auto. lia.
Qed.

Lemma interpret_all_ok : forall l n d, good_analyses l -> exists hs, interpret_all l n d = Ok hs /\ length hs = length l /\
  forall h, In h hs <-> exists a s, In a l /\ a STRUCTURE = Some s /\ h = word_borders n s ++ (if d then [BLANK] else []).
Proof.
  induction l as [|a r IH]; intros n d G; cbn [interpret_all].
  - exists []. split; auto. split; auto. intros h. split; [intros []|]. intros (a & s & [] & _).
  - inversion G as [|a1 r1 (s & A & S1) G2]. subst. rewrite (interpret_ok a n s A S1). cbn [bind].
    destruct (IH n d G2) as (t & -> & LT & Q). cbn [bind]. eexists. split; [reflexivity|]. split; [cbn; auto|].
    intros h. split.
    + intros [<-|I]; [exists a, s; split; [left; auto|auto]|]. apply Q in I. destruct I as (b & s' & I & REST). exists b, s'. split; [right; auto|auto].
    + intros (b & s' & [<-|I] & B & H); [left; assert (s' = s) by congruence; subst; auto|]. right. apply Q. eauto.
Qed.

(** ** Combination of the patterns *)

Lemma combine_ok : forall n r acc, Forall (fun h => length h = n) r -> length acc = n ->
  exists p, combine_all intersect_with acc r = Ok p /\ length p = n /\
    forall i c, nth_error p i = Some c -> exists a, nth_error acc i = Some a /\
      ((c = a /\ forall h d, In h r -> nth_error h i = Some d -> unmarked d = false) \/
       (c = BLANK /\ exists h d, In h r /\ nth_error h i = Some d /\ unmarked d = true)).
Proof.
  assert (W : forall acc cur, length cur = length acc -> exists p, intersect_with acc cur = Ok p /\ length p = length acc /\
     forall i a d, nth_error acc i = Some a -> nth_error cur i = Some d -> nth_error p i = Some (if unmarked d then BLANK else a)).
  { induction acc as [|a acc IH]; intros cur L; destruct cur as [|d cur]; cbn in L; try lia; cbn [intersect_with].
    - exists []. split; auto. split; auto. intros i; destruct i; discriminate.
    - destruct (IH cur) as (p & -> & LP & Q); [lia|]. cbn [bind]. eexists. split; [reflexivity|]. split; [cbn; lia|].
      intros [|i] a1 d1 E1 E2; cbn [nth_error] in *; [inversion E1; inversion E2; subst; auto|eauto]. }
  induction r as [|h r IH]; intros acc F L; cbn [combine_all].
  - exists acc. split; auto. split; auto. intros i c E. exists c. split; auto. left. split; auto. intros ? ? [].
  - inversion F as [|h1 r1 F1 F2]. subst. destruct (W acc h) as (p & -> & LP & Q); [lia|]. cbn [bind].
    destruct (IH p F2 LP) as (p' & -> & LP' & Q'). exists p'. split; auto. split; auto. intros i c E.
    destruct (Q' i c E) as (b & Eb & R).
    assert (i < length acc)%nat as IL by (apply nth_error_lt in E; lia).
    destruct (nth_error acc i) as [a|] eqn:Ea; [|apply nth_error_None in Ea; lia].
    destruct (nth_error h i) as [d|] eqn:Ed; [|apply nth_error_None in Ed; lia].
    exists a. split; auto. rewrite (Q i a d Ea Ed) in Eb. inversion Eb. subst b. destruct (unmarked d) eqn:U.
    + right. split; [|exists h, d; split; [left; auto|auto]]. destruct R as [[R _]|[R _]]; auto.
    + destruct R as [[R1 R2]|(R1 & h' & d' & R2 & R3 & R4)].
      * left. split; auto. intros h' d' [<-|I'] E'; [congruence|eauto].
      * right. split; auto. exists h', d'. split; [right; auto|auto].
Qed.

Lemma clear_break : forall h i, is_break (map clear_x h) i <-> is_break h i.
Proof.
  intros h i. unfold is_break. rewrite nth_error_map. destruct (nth_error h i) as [c|]; cbn; [|split; intros [E|E]; discriminate].
  unfold clear_x. destruct (c =? MARK_X) eqn:E; [|tauto]. assert (c = MARK_X) by lia. subst c.
  split; intros [K|K]; discriminate.
Qed.

Lemma intersect_ok : forall hs n, hs <> [] -> Forall (fun h => length h = n) hs -> Forall (Forall alpha) hs ->
  exists p, intersectHyphenations hs = Ok p /\ length p = n /\
    (forall i c, nth_error p i = Some c -> c = BLANK \/ c = HYPHEN \/ c = EQUALS) /\
    (forall i, (i < n)%nat -> (is_break p i <-> forall h, In h hs -> is_break h i)) /\
    (forall i, is_break p i -> exists h, In h hs /\ nth_error p i = nth_error h i).
Proof.
  intros hs n NE FL FA. destruct hs as [|h r]; [congruence|]. cbn [intersectHyphenations]. inversion FL as [|h1 r1 L1 L2]. subst h1 r1.
  inversion FA as [|h1 r1 A1 A2]. subst h1 r1.
  destruct (combine_ok n r (map clear_x h)) as (p & E & LP & Q); [auto|rewrite map_length; auto|]. exists p. split; auto. split; auto.
  assert (VAL : forall i c, nth_error p i = Some c -> exists a, nth_error h i = Some a /\
      ((c = clear_x a /\ forall g, In g r -> is_break g i) \/ (c = BLANK /\ exists g, In g r /\ ~ is_break g i))).
  { intros i c Ec. destruct (Q i c Ec) as (a & Ea & R). rewrite nth_error_map in Ea. destruct (nth_error h i) as [a0|] eqn:E0; cbn in Ea; [|discriminate].
    inversion Ea. subst a. exists a0. split; auto. rewrite Forall_forall in A2, L2. destruct R as [[R1 R2]|(R1 & g & d & R2 & R3 & R4)].
    - left. split; auto. intros g Ig. assert (i < length g)%nat as IL by (rewrite (L2 g Ig), <- L1; apply nth_error_lt in E0; auto).
      destruct (nth_error g i) as [d|] eqn:Ed; [|apply nth_error_None in Ed; lia]. apply (unmarked_break g i d); [apply (alpha_nth g i); auto|auto|apply (R2 g); auto].
    - right. split; auto. exists g. split; auto. intros B. apply (unmarked_break g i d) in B; auto; [congruence|apply (alpha_nth g i); auto]. }
  split; [|split].
  - intros i c Ec. destruct (VAL i c Ec) as (a & Ea & [[-> _]|[-> _]]); auto. pose proof (alpha_nth _ _ _ A1 Ea) as A.
    destruct A as [ -> | [ -> | [ -> | -> ]]]; cbn; auto.
  - intros i I. destruct (nth_error p i) as [c|] eqn:Ec; [|apply nth_error_None in Ec; lia]. destruct (VAL i c Ec) as (a & Ea & R). split.
    + intros B g Ig. destruct R as [[Rc Rg]|[Rc _]].
      * destruct Ig as [<-|Ig]; auto. apply clear_break. unfold is_break in *. rewrite nth_error_map, Ea. cbn. rewrite <- Rc, <- Ec. auto.
      * unfold is_break in B. rewrite Ec, Rc in B. destruct B; discriminate.
    + intros ALL. destruct R as [[Rc Rg]|(Rc & g & Ig & Bg)]; [|elim Bg; apply ALL; right; auto].
      assert (is_break (map clear_x h) i) as B by (apply clear_break; apply ALL; left; auto). unfold is_break in *.
      rewrite nth_error_map, Ea in B. cbn in B. rewrite Ec, Rc. auto.
  - intros i B. exists h. split; [left; auto|]. destruct (nth_error p i) as [c|] eqn:Ec; [|destruct B as [B|B]; congruence].
    destruct (VAL i c Ec) as (a & Ea & [[Rc Rg]|[Rc _]]).
    + rewrite Ea, Rc. unfold clear_x. destruct (a =? MARK_X) eqn:X; auto. unfold is_break in B. rewrite Ec, Rc in B. unfold clear_x in B. rewrite X in B.
      destruct B; discriminate.
    + unfold is_break in B. rewrite Ec, Rc in B. destruct B; discriminate.
Qed.

(** ** Both hyphenation styles *)

Lemma for_loop_preserve : forall T (P : T -> Prop) body, (forall k t t', body k t = Ok t' -> P t -> P t') ->
  forall n i s s', for_loop n i body s = Ok s' -> P s -> P s'.
Proof.
  intros T P body B. induction n as [|n IH]; intros i s s' E H; cbn [for_loop] in E; [inversion E; subst; auto|].
  destruct (body i s) as [t| |] eqn:Q; cbn [bind] in E; try discriminate. eapply IH; eauto.
Qed.

Lemma wr_inv : forall T (l : list T) i x l', wr l i x = Ok l' -> (i < length l)%nat /\ l' = upd l i x.
Proof. intros T l i x l' H. apply wr_ok in H. auto. Qed.

Section Styles.
  Variable word : list Z.
  Hypothesis NUL : ~ In 0 word.
  Hypothesis APO : ~ In 0x27 word.
  Let wc := map lower word ++ [0].
  Let n := length word.

  Lemma cv_same : forall i hp, cv_step false wc i hp = cv_step true wc i hp.
  Proof.
    intros i hp. unfold cv_step. destruct (rd wc i) as [c| |] eqn:R; cbn [bind]; auto. destruct (negb (wcschr VOIKKO_CONSONANTS c)); auto.
    destruct (rd wc (i + 1)) as [d| |]; cbn [bind]; auto. destruct (negb (wcschr VOIKKO_VOWELS d)); auto.
    destruct (rd_back wc i 1) as [p| |]; cbn [bind]; auto. destruct (wcschr [0x2F; 0x2E; 0x3A; 0x26; 0x25; 0x27] p); auto.
    rewrite orb_true_r, orb_false_r. destruct (i <=? 1)%nat eqn:I; auto.
    unfold rd_back. replace (i <? 2)%nat with false by lia.
    apply rd_ok in R. apply nth_error_lt in R.
    destruct (rd_lt _ wc (i - 2)) as (q & E & N); [lia|]. rewrite E. cbn [bind].
    assert (q <> 0x27) as Q.
    { apply nth_error_In in N. unfold wc in N. apply in_app_or in N. destruct N as [N|[N|[]]]; [|lia].
      apply in_map_iff in N. destruct N as (x & <- & N). intros X. apply lower_apostrophe in X. subst x. auto. }
    replace (q =? 0x27) with false by lia. reflexivity.
  Qed.

  Lemma common_same : forall hp, common word false hp = common word true hp.
  Proof.
    intros hp. unfold common. fold wc. destruct (leading_consonants wc) as [i0| |]; cbn [bind]; auto.
    rewrite (for_loop_ext _ (cv_step false wc) (cv_step true wc)); auto. intros. apply cv_same.
  Qed.

  Definition lower_pattern (h s : list Z) : Prop := forall i c, nth_error s i = Some c -> c = BLANK \/ nth_error h i = Some c.
  Definition upper_pattern (h s : list Z) : Prop := forall i c, nth_error h i = Some c -> nth_error s i = Some c \/ nth_error s i = Some HYPHEN.

  Lemma lower_wr : forall h s s' i, wr s i BLANK = Ok s' -> lower_pattern h s -> lower_pattern h s'.
  Proof.
    intros h s s' i W L j c E. apply wr_inv in W. destruct W as [I ->]. destruct (Nat.eq_dec i j) as [->|D].
    - rewrite upd_nth_same in E by auto. left. congruence.
    - rewrite upd_nth_other in E by auto. auto.
  Qed.

  Lemma upper_wr : forall h s s' i, wr s i HYPHEN = Ok s' -> upper_pattern h s -> upper_pattern h s'.
  Proof.
    intros h s s' i W L j c E. apply wr_inv in W. destruct W as [I ->]. destruct (Nat.eq_dec i j) as [->|D].
    - rewrite upd_nth_same by auto. auto.
    - rewrite upd_nth_other by auto. auto.
  Qed.

  Lemma finish_lower : forall h s, finish word false h = Ok s -> lower_pattern h s.
  Proof.
    intros h s E. unfold finish in E. cbn [negb] in E. destruct (wr h 1 BLANK) as [h1| |] eqn:W1; cbn [bind] in E; try discriminate.
    destruct (wr h1 (length word - 1) BLANK) as [h2| |] eqn:W2; cbn [bind] in E; try discriminate.
    eapply (for_loop_preserve _ (lower_pattern h)); [|exact E|].
    - intros k t t' B L. unfold no_ugly_step in B. destruct (rd (map lower word ++ [0]) k) as [c| |]; cbn [bind] in B; try discriminate.
      destruct (negb (wcschr VOIKKO_VOWELS c)); [inversion B; subst; auto|].
      destruct (rd (map lower word ++ [0]) (k + 1)) as [d| |]; cbn [bind] in B; try discriminate.
      destruct (wcschr VOIKKO_VOWELS d); [eapply lower_wr; eauto|inversion B; subst; auto].
    - eapply lower_wr; eauto. eapply lower_wr; eauto. intros i c X. auto.
  Qed.

  Lemma finish_upper : forall h s, finish word true h = Ok s -> upper_pattern h s.
  Proof.
    intros h s E. unfold finish in E. cbn [negb] in E. destruct (3 <=? length word)%nat; [|inversion E; intros i c X; auto].
    eapply (for_loop_preserve _ (upper_pattern h)); [|exact E|intros i c X; auto].
    intros k t t' B L. revert t B L. generalize SPLIT_AFTER. induction l as [|x r IH]; intros t B L; cbn [split_after_j] in B; [inversion B; subst; auto|].
    destruct (rd t (k + 1)) as [h0| |]; cbn [bind] in B; try discriminate.
    match type of B with bind ?e _ = _ => destruct e as [go| |]; cbn [bind] in B; try discriminate end.
    destruct go.
    - destruct (wr t (k + 2) HYPHEN) as [t1| |] eqn:W; cbn [bind] in B; try discriminate. eapply IH; [exact B|]. eapply upper_wr; eauto.
    - cbn [bind] in B. eapply IH; eauto.
  Qed.

  Lemma rule_styles : forall o1 o2 hp0 s1 s2, uglyHyphenation o1 = false -> uglyHyphenation o2 = true ->
    ruleHyphenation o1 word hp0 = Ok s1 -> ruleHyphenation o2 word hp0 = Ok s2 ->
    forall i, is_break s1 i -> is_break hp0 i \/ is_break s2 i.
  Proof.
    intros o1 o2 hp0 s1 s2 U1 U2 R1 R2 i B. rewrite rule_unfold in R1, R2. rewrite U1 in R1. rewrite U2 in R2.
    destruct (allow_ok word o1) as (b1 & A1 & N1). rewrite A1 in R1. cbn [bind] in R1.
    destruct b1; cbn [negb] in R1; [|inversion R1; subst; auto].
    assert (allowRuleHyphenation o2 word = Ok true) as A2.
    { unfold allowRuleHyphenation. specialize (N1 eq_refl). replace (length word <=? 1)%nat with false by lia. rewrite U2. reflexivity. }
    rewrite A2 in R2. cbn [bind negb] in R2. destruct (rd hp0 0) as [h0| |]; cbn [bind] in R1, R2; try discriminate.
    destruct (h0 =? MARK_X); [inversion R1; subst; auto|]. rewrite common_same in R1.
    destruct (common word true hp0) as [h| |]; cbn [bind] in R1, R2; try discriminate.
    apply finish_lower in R1. apply finish_upper in R2. right.
    assert (is_break h i) as Bh. { destruct B as [B|B]; apply R1 in B; destruct B as [B|B]; try discriminate; [left|right]; auto. }
    destruct Bh as [Bh|Bh]; apply R2 in Bh; destruct Bh as [Bh|Bh]; [left|left|right|left]; auto.
  Qed.
End Styles.

(** ** The whole function *)

Lemma for_loop_indexed : forall T (P : nat -> T -> Prop) body n i s, P i s ->
  (forall k t, (i <= k < i + n)%nat -> P k t -> exists t', body k t = Ok t' /\ P (S k) t') ->
  exists s', for_loop n i body s = Ok s' /\ P (i + n)%nat s'.
Proof.
  induction n as [|n IH]; intros i s H B; cbn [for_loop].
  - exists s. rewrite Nat.add_0_r. auto.
  - destruct (B i s) as (t & -> & Ht); [lia|auto|]. cbn [bind]. destruct (IH (S i) t Ht) as (s' & -> & P').
    + intros k u K. apply B. lia.
    + exists s'. split; auto. rewrite <- Nat.add_succ_comm. auto.
Qed.

Lemma unknown_ok : forall o word, exists u, unknown_marks o word = Ok u /\ length u = length word /\
  forall i c, nth_error u i = Some c ->
    (c = EQUALS /\ (0 < i)%nat /\ (i + 1 < length word)%nat /\ nth_error word i = Some 0x2D /\ allowRuleHyphenation o word = Ok true) \/
    (c = (if hyphenateUnknown o then BLANK else MARK_X) /\ (nth_error word i = Some 0x2D -> i = 0%nat \/ (i + 1 = length word)%nat \/ allowRuleHyphenation o word = Ok false)).
Proof.
  intros o word. unfold unknown_marks. set (base := if hyphenateUnknown o then BLANK else MARK_X).
  assert (BASE : forall i c, nth_error (repeat base (length word)) i = Some c -> c = base).
  { intros i c E. apply nth_error_In in E. apply repeat_spec in E. auto. }
  destruct (allow_ok word o) as (b & A & NB). rewrite A. cbn [bind].
  destruct b; [|exists (repeat base (length word)); split; auto; split; [apply repeat_length|]; intros i c E; right; split; eauto].
  specialize (NB eq_refl).
  destruct (for_loop_indexed _ (fun k u => length u = length word /\ forall i c, nth_error u i = Some c ->
     (c = EQUALS /\ (0 < i < k)%nat /\ nth_error word i = Some 0x2D) \/ (c = base /\ (nth_error word i = Some 0x2D -> i = 0%nat \/ (k <= i)%nat)))
     (fun i r => c <- rd word i ;; if c =? 0x2D then wr r i EQUALS else Ok r) (length word - 2) 1 (repeat base (length word))) as (u & E & L & Q).
  - split; [apply repeat_length|]. intros i c E. right. split; eauto. intros _. lia.
  - intros k t K [L Q]. destruct (rd_lt _ word k) as (d & R & N); [lia|]. rewrite R. cbn [bind]. destruct (d =? 0x2D) eqn:D.
    + exists (upd t k EQUALS). split; [apply wr_ok; split; auto; lia|]. split; [rewrite upd_length; auto|].
      intros i c E. destruct (Nat.eq_dec k i) as [->|NE].
      * rewrite upd_nth_same in E by lia. inversion E. subst c. left. split; auto. split; [lia|]. rewrite N. f_equal. lia.
      * rewrite upd_nth_other in E by auto. destruct (Q i c E) as [(C & I & W)|(C & W)]; [left|right]; split; auto; [split; [lia|auto]|].
        intros H. apply W in H. lia.
    + exists t. split; auto. split; auto. intros i c E. destruct (Q i c E) as [(C & I & W)|(C & W)]; [left|right]; split; auto; [split; [lia|auto]|].
      intros H. destruct (Nat.eq_dec k i) as [->|NE]; [rewrite N in H; inversion H; lia|]. apply W in H. lia.
  - exists u. split; auto. split; auto. intros i c Ec. destruct (Q i c Ec) as [(C & I & W)|(C & W)]; [left|right]; split; auto.
    + split; [lia|]. split; [lia|]. auto.
    + intros H. pose proof (nth_error_lt _ _ _ _ Ec). apply W in H. lia.
Qed.

Lemma last_byte : forall v c, encodable c -> exists b, rd_back (utf8_text (v ++ [c])) (length (utf8_text (v ++ [c]))) 1 = Ok b /\ (b = 0x2E <-> c = 0x2E).
Proof.
  intros v c E. rewrite utf8_text_app. change (utf8_text [c]) with (rfc3629 c ++ []). rewrite app_nil_r.
  pose proof (rfc3629_len c) as RL. unfold rd_back. rewrite app_length. replace (_ <? 1)%nat with false by lia.
  assert (forall x b l, rfc3629 c = l ++ [b] -> (b = 0x2E <-> c = 0x2E) -> exists b', rd (x ++ rfc3629 c) (length x + length (rfc3629 c) - 1) = Ok b' /\ (b' = 0x2E <-> c = 0x2E)) as K.
  { intros x b l Q H. exists b. split; auto. apply rd_ok. rewrite Q, app_length. cbn [length].
    rewrite nth_error_app2 by lia. replace (length x + (length l + 1) - 1 - length x)%nat with (length l) by lia.
    rewrite nth_error_app2, Nat.sub_diag by lia. reflexivity. }
  destruct E as (R & _). unfold rfc3629 in *. destruct (c <? 128) eqn:C1; [eapply (K _ c []); [reflexivity|tauto]|].
  assert (forall b, 128 + b mod 64 = 0x2E <-> c = 0x2E) as T.
  { intros b. pose proof (Z.mod_pos_bound b 64). lia. }
  destruct (c <? 2048); [eapply (K _ _ [_]); [reflexivity|auto]|].
  destruct (c <? 65536); [eapply (K _ _ [_; _]); [reflexivity|auto]|eapply (K _ _ [_; _; _]); [reflexivity|auto]].
Qed.

Lemma analyze_cstr_ok : forall an f w, hyph_word w -> analyze_cstr an f (utf8_text w) = Ok (an f w).
Proof.
  intros an f w [E N]. unfold analyze_cstr. rewrite ucs4FromUtf8_encoded by auto. cbn [bind]. rewrite cstr_no_nul; auto.
Qed.

Lemma hyph_word_app : forall a b, hyph_word (a ++ b) -> hyph_word a /\ hyph_word b.
Proof.
  intros a b [E N]. apply Forall_app in E. destruct E as [E1 E2]. split; split; auto; intros I; apply N; apply in_or_app; auto.
Qed.

(** The lookup: which text was analysed. *)
Lemma lookup_ok : forall an o word t l, hyph_word word -> looked_up an (hyph_ignoreDot o) word t l ->
  exists dot : bool, word = t ++ (if dot then [0x2E] else []) /\
  (splitCompounds an o word =
    (all <- interpret_all (firstn MAX_ANALYSIS_COUNT l) (length t) dot ;;
     all <- match all with [] => r <- unknown_marks o word ;; Ok [r] | _ => Ok all end ;;
     all <- removeExtraHyphenations all ;; Ok (Some (all, dot)))) /\ (dot = true -> t <> []) /\ l = an false t.
Proof.
  intros an o word t l W LU. unfold splitCompounds. rewrite utf8FromUcs4_ok. rewrite (proj1 (append_all_encoded word (proj1 W))). cbn [bind].
  rewrite analyze_cstr_ok by auto. cbn [bind]. inversion LU as [C E1 E2|v A1 A2 A3 A4 E1 E2]; subst.
  - exists false. rewrite app_nil_r. split; auto. split; [|split; auto; discriminate].
    match goal with |- bind ?e _ = _ => assert (e = Ok false) as -> end.
    { destruct C as [C|[C|C]].
      - destruct (an false t); [congruence|]. reflexivity.
      - rewrite C. rewrite andb_false_r. reflexivity.
      - destruct ((match an false t with [] => true | _ => false end) && hyph_ignoreDot o && (1 <? length t)%nat) eqn:G; auto.
        destruct t as [|x t'] using rev_ind; [cbn in G; rewrite andb_false_r in G; discriminate|]. clear IHt'.
        destruct (last_byte t' x) as (b & R & Q).
        { destruct W as [WE _]. apply Forall_app in WE. destruct WE as [_ WE]. inversion WE. auto. }
        rewrite R. cbn [bind]. f_equal. destruct (b =? 0x2E) eqn:B; auto. exfalso. assert (x = 0x2E) by (apply Q; lia). subst x.
        apply (C t'); auto. intros ->. cbn in G. rewrite andb_false_r in G. discriminate. }
    cbn [bind]. rewrite Nat.sub_0_r. reflexivity.
  - exists true. split; auto. split; [|split; auto]. rewrite A1, A2. cbn [andb].
    assert ((1 <? length (t ++ [0x2E%Z]))%nat = true) as ->.
    { apply Nat.ltb_lt. rewrite app_length. destruct t; [congruence|]. cbn [length]. lia. }
    destruct (last_byte t 0x2E) as (b & R & Q).
    { destruct W as [WE _]. apply Forall_app in WE. destruct WE as [_ WE]. inversion WE. auto. }
    rewrite R. cbn [bind]. replace (b =? 0x2E) with true by lia.
    assert (removelast (utf8_text (t ++ [0x2E])) = utf8_text t) as ->.
    { rewrite utf8_text_app. change (utf8_text [0x2E]) with [0x2E]. apply removelast_last. }
    rewrite analyze_cstr_ok by (apply hyph_word_app in W; tauto). cbn [bind].
    rewrite app_length. cbn [length]. rewrite Nat.add_sub. reflexivity.
Qed.

Lemma looked_up_exists : forall an d word, exists t l, looked_up an d word t l.
Proof.
  intros an d word. destruct (an false word) as [|a l] eqn:A.
  - destruct d.
    + destruct word as [|x v] using rev_ind; [exists [], (an false []); constructor; right; right; intros v V E; destruct v; discriminate|].
      clear IHv. destruct (Z.eq_dec x 0x2E) as [->|X].
      * destruct v as [|y v']; [eexists; eexists; apply looked_up_whole; right; right; intros v V E; destruct v as [|z v']; [auto|destruct v'; discriminate]|].
        exists (y :: v'), (an false (y :: v')). apply looked_up_no_dot; auto. discriminate.
      * eexists. eexists. apply looked_up_whole. right. right. intros v' _ E. apply app_inj_tail in E. destruct E. auto.
    + exists word, (an false word). constructor. auto.
  - exists word, (an false word). constructor. left. rewrite A. discriminate.
Qed.

Lemma compound_all_ok : forall o word len hs, ~ In 0 word -> (len <= length word)%nat -> Forall (fun h => length h = length word) hs ->
  exists hs', compound_all o word len hs = Ok hs' /\ length hs' = length hs /\
    (forall h', In h' hs' <-> exists h, In h hs /\ compoundHyphenation o word h len = Ok h').
Proof.
  intros o word len hs N L. induction hs as [|h r IH]; intros F; cbn [compound_all].
  - exists []. split; auto. split; auto. intros h'. split; [intros []|]. intros (h & [] & _).
  - inversion F as [|h1 r1 F1 F2]. subst. destruct (compound_ok o word N len L h F1) as (h' & E & _). rewrite E. cbn [bind].
    destruct (IH F2) as (t & -> & LT & Q). cbn [bind]. exists (h' :: t). split; auto. split; [cbn; auto|]. intros g. split.
    + intros [<-|I]; [exists h; split; [left; auto|auto]|]. apply Q in I. destruct I as (k & I & K). exists k. split; [right; auto|auto].
    + intros (k & [<-|I] & K); [left; congruence|]. right. apply Q. eauto.
Qed.

Record outcome (an : analyzer) (o : hyph_options) (word t : list Z) (l : list analysis) (hs : list (list Z)) (p : list Z) : Prop := {
  out_result : hyphenate an o word = Ok (Some p);
  out_length : length p = length word;
  out_alphabet : forall i c, nth_error p i = Some c -> c = BLANK \/ c = HYPHEN \/ c = EQUALS;
  out_patterns : hs <> [];
  out_pattern : forall h, In h hs -> length h = length word /\ Forall alpha h /\ (forall c, nth_error h 0 = Some c -> unmarked c = true);
  out_known : l <> [] -> forall h, In h hs <-> exists a s, counts (length t) l a /\ a STRUCTURE = Some s /\
                (h = word_borders (length t) s ++ if Nat.eqb (length t) (length word) then [] else [BLANK]);
  out_unknown : l = [] -> exists u, unknown_marks o word = Ok u /\ hs = [u];
  out_break : forall i, (i < length word)%nat -> (is_break p i <-> forall h h', In h hs -> compoundHyphenation o word h (length t) = Ok h' -> is_break h' i);
  out_value : forall i, is_break p i -> exists h h', In h hs /\ compoundHyphenation o word h (length t) = Ok h' /\ nth_error p i = nth_error h' i;
  out_split : exists (dot : bool) hs', splitCompounds an o word = Ok (Some (hs, dot)) /\ compound_all o word (length word - (if dot then 1 else 0)) hs = Ok hs' /\
                hs' <> [] /\ Forall (fun h => length h = length word) hs' /\ intersectHyphenations hs' = Ok p
}.

Lemma firstn_nil : forall T n (l : list T), firstn (S n) l = [] -> l = [].
Proof. intros T n [|x l] H; [auto|discriminate]. Qed.

Lemma break_app : forall h d i, (forall c, In c d -> c = BLANK) -> (is_break (h ++ d) i <-> is_break h i).
Proof.
  intros h d i D. unfold is_break. destruct (Nat.lt_ge_cases i (length h)) as [I|I].
  - rewrite nth_error_app1 by auto. tauto.
  - rewrite (proj2 (nth_error_None h i)) by auto. rewrite nth_error_app2 by auto. split; [|intros [E|E]; discriminate].
    intros [E|E]; apply nth_error_In in E; apply D in E; discriminate.
Qed.

Lemma good_firstn : forall n l, good_analyses l -> good_analyses (firstn n l).
Proof. intros n l G. unfold good_analyses in *. rewrite <- (firstn_skipn n l) in G. apply Forall_app in G. tauto. Qed.

Lemma remove_single : forall u, removeExtraHyphenations [u] = Ok [u].
Proof.
  intros u. unfold removeExtraHyphenations. cbn [min_parts Nat.eqb orb]. destruct (1 <? count_parts u)%nat; auto.
  cbn [length remove_loop]. change (0 <? 1)%nat with true. cbn [rd nth_error bind]. replace (count_parts u <? count_parts u)%nat with false by lia.
  reflexivity.
Qed.

Lemma hyphenate_ok : forall an o word t l, hyph_word word -> looked_up an (hyph_ignoreDot o) word t l -> good_analyses l ->
  minHyphenatedWordLength o <= Z.of_nat (length word) -> exists hs p, outcome an o word t l hs p.
Proof.
  intros an o word t l W LU G ML. destruct (lookup_ok an o word t l W LU) as (dot & WT & SC & DT & _).
  set (pad := if dot then [BLANK] else []).
  assert (PL : length word = (length t + length pad)%nat) by (rewrite WT, app_length; unfold pad; destruct dot; auto).
  assert (TLE : (length t <= length word)%nat) by lia.
  assert (PB : forall c, In c pad -> c = BLANK) by (unfold pad; destruct dot; intros c Hc; [destruct Hc as [<-|[]]; auto|destruct Hc]).
  assert (PE : pad = if Nat.eqb (length t) (length word) then [] else [BLANK]).
  { rewrite PL. unfold pad. destruct dot; cbn [length]; [replace (Nat.eqb _ _) with false by lia|replace (Nat.eqb _ _) with true by lia]; auto. }
  assert (TL : (length word - (if dot then 1 else 0) = length t)%nat) by (rewrite PL; unfold pad; destruct dot; cbn [length]; lia).
  destruct (interpret_all_ok (firstn 31 l) (length t) dot (good_firstn _ _ G)) as (all & E1 & L1 & Q1). fold pad in Q1.
  assert (exists all2, match all with [] => r <- unknown_marks o word ;; Ok [r] | _ => Ok all end = Ok all2 /\ all2 <> [] /\
     (forall h, In h all2 -> length h = length word /\ Forall alpha h /\ (forall c, nth_error h 0 = Some c -> unmarked c = true)) /\
     (l <> [] -> all2 = all) /\ (l = [] -> exists u, unknown_marks o word = Ok u /\ all2 = [u])) as (all2 & E2 & NE & PAT & KN & UN).
  { destruct all as [|h0 r0].
    - cbn [length] in L1. symmetry in L1. apply length_zero_iff_nil in L1. change 31%nat with (S 30) in L1. apply firstn_nil in L1.
      destruct (unknown_ok o word) as (u & U & LU' & QU). rewrite U. cbn [bind]. exists [u]. split; auto. split; [discriminate|].
      split; [|split; [congruence|eauto]]. intros h [<-|[]]. split; auto. split.
      + apply alpha_Forall. intros i c E. unfold alpha. destruct (QU i c E) as [(-> & _)|(-> & _)]; auto. destruct (hyphenateUnknown o); auto.
      + intros c E. destruct (QU 0%nat c E) as [(_ & K & _)|(-> & _)]; [lia|]. destruct (hyphenateUnknown o); auto.
    - exists (h0 :: r0). split; auto. split; [discriminate|]. split; [|split; auto].
      + intros h I. apply Q1 in I. destruct I as (a & s & Ia & A & ->).
        assert (good_structure s) as GS. { unfold good_analyses in G. rewrite Forall_forall in G. destruct (G a) as (s' & A' & GS).
          - rewrite <- (firstn_skipn 31 l). apply in_or_app. auto.
          - congruence. }
        destruct (word_borders_strip s GS) as (r & GR & _ & NR & BR). rewrite BR.
        split; [rewrite app_length, borders_length; auto|]. split.
        * apply Forall_app. split; [apply borders_alpha|]. apply Forall_forall. intros c Hc. left. auto.
        * intros c E. destruct (length t) as [|m] eqn:TT.
          -- exfalso. rewrite (proj2 (nth_error_None _ _)) in E; [discriminate|]. rewrite app_length, borders_length.
             unfold pad. destruct dot; [|cbn; lia]. destruct t; [elim (DT eq_refl); auto|discriminate].
          -- rewrite nth_error_app1 in E by (rewrite borders_length; lia). eapply borders_first; eauto.
      + intros ->. discriminate. }
  destruct (remove_ok all2 NE) as (hs & E3 & NE3 & Q3).
  { apply Forall_forall. intros h I. apply PAT in I. tauto. }
  assert (PAT3 : forall h, In h hs -> length h = length word /\ Forall alpha h /\ (forall c, nth_error h 0 = Some c -> unmarked c = true)).
  { intros h I. apply Q3 in I. apply PAT. tauto. }
  destruct (compound_all_ok o word (length t) hs) as (hs' & E4 & L4 & Q4); [apply W|lia| |].
  { apply Forall_forall. intros h I. apply PAT3 in I. tauto. }
  assert (PAT4 : forall h', In h' hs' -> length h' = length word /\ Forall alpha h').
  { intros h' I. apply Q4 in I. destruct I as (h & I & C). destruct (PAT3 h I) as (PL3 & PA3 & _). split.
    - destruct (compound_ok o word (proj2 W) (length t) TLE h PL3) as (x & X1 & X2 & _). congruence.
    - exact (compound_alpha o word (proj2 W) (length t) TLE h h' PL3 PA3 C). }
  destruct (intersect_ok hs' (length word)) as (p & E5 & L5 & A5 & B5 & V5).
  { intros ->. destruct hs; [congruence|discriminate]. }
  { apply Forall_forall. intros h I. apply PAT4 in I. tauto. }
  { apply Forall_forall. intros h I. apply PAT4 in I. tauto. }
  exists hs, p. constructor; auto.
  - unfold hyphenate, hyphenate_with. replace (Z.of_nat (length word) <? minHyphenatedWordLength o) with false by lia.
    rewrite SC. change MAX_ANALYSIS_COUNT with 31%nat. rewrite E1. cbn [bind]. rewrite E2. cbn [bind]. rewrite E3. cbn [bind]. rewrite TL, E4. cbn [bind]. rewrite E5. reflexivity.
  - intros NL h. rewrite Q3, (KN NL). rewrite <- PE.
    assert (SB : forall a s i, a STRUCTURE = Some s -> (is_break (word_borders (length t) s ++ pad) i <-> is_break (word_borders (length t) s) i)) by (intros; apply break_app; auto).
    assert (ST : forall a, In a (firstn 31 l) -> exists s, a STRUCTURE = Some s).
    { intros a I. pose proof (good_firstn 31 l G) as GF. unfold good_analyses in GF. rewrite Forall_forall in GF. destruct (GF a I) as (s & A & _). eauto. }
    split.
    + intros [I S1]. apply Q1 in I. destruct I as (a & s & Ia & A & H). exists a, s. split; [|auto]. split; auto.
      intros (b & Ib & Sb) s' i A'. assert (s' = s) by congruence. subst s'. rewrite <- SB by eauto. subst h. apply S1.
      destruct (ST b Ib) as (sb & Ab). exists (word_borders (length t) sb ++ pad). split; [apply Q1; eauto|]. intros j. rewrite SB by eauto. apply Sb; auto.
    + intros (a & s & [Ia Sa] & A & H). split; [apply Q1; eauto|]. subst h. intros (h' & I' & N') i. rewrite SB by eauto. apply Sa; auto.
      apply Q1 in I'. destruct I' as (b & sb & Ib & Ab & ->). exists b. split; auto. intros s' j A'. assert (s' = sb) by congruence. subst s'.
      rewrite <- SB by eauto. apply N'.
  - intros E. destruct (UN E) as (u & U1 & U2). exists u. split; auto. subst all2. destruct hs as [|h0 r0]; [congruence|].
    rewrite remove_single in E3. inversion E3. auto.
  - intros i I. rewrite B5 by auto. split.
    + intros H h h' Ih C. apply H. apply Q4. eauto.
    + intros H h' Ih'. apply Q4 in Ih'. destruct Ih' as (h & Ih & C). eauto.
  - intros i B. destruct (V5 i B) as (h' & Ih' & V). apply Q4 in Ih'. destruct Ih' as (h & Ih & C). eauto.
  - exists dot, hs'. split; [rewrite SC; change MAX_ANALYSIS_COUNT with 31%nat; rewrite E1; cbn [bind]; rewrite E2; cbn [bind]; rewrite E3; reflexivity|].
    split; [rewrite TL; exact E4|]. split; [intros ->; destruct hs; [congruence|discriminate]|]. split; [|exact E5].
    apply Forall_forall. intros h I. apply PAT4 in I. tauto.
Qed.

(** ** Consequences *)

Lemma from_break_cases : forall o word len hp i c, (forall a b, In (a, b) (parts len hp) -> between hp a b) ->
  (i < length hp)%nat -> from o word hp (parts len hp) i c -> c = HYPHEN \/ c = EQUALS ->
  (is_break hp i /\ nth_error hp i = Some c) \/
  (exists a b, In (a, b) (parts len hp) /\ long_enough o a b = true /\ (a < i < b)%nat /\ (c = HYPHEN \/ nth_error word i = Some 0x27)).
Proof.
  intros o word len hp i c BT L F C. destruct F as [(a & b & seg & I1 & I2 & I3 & I4 & I5 & I6)|[NO E]].
  - right. exists a, b. split; auto. split; auto. split; auto. destruct C as [ -> | -> ]; auto. right.
    destruct (nth_error hp i) as [c0|] eqn:E0; [|apply nth_error_None in E0; lia].
    destruct (I6 c0 eq_refl) as [K|[K|[K|[_ K]]]]; auto; try discriminate.
    subst c0. pose proof (BT a b I1 i _ I3 E0). discriminate.
  - left. split; auto. destruct C as [ -> | -> ]; [left|right]; auto.
Qed.

Lemma slice_all : forall l, slice l 0 (length l) = l.
Proof. intros l. unfold slice. rewrite Nat.sub_0_r. cbn [skipn]. apply firstn_all. Qed.

Lemma plist_single : forall len fuel hp s e, (forall i c, nth_error hp i = Some c -> unmarked c = true) ->
  forall a b, In (a, b) (plist len fuel hp s e) -> a = s /\ b = len.
Proof.
  intros len. induction fuel as [|fuel IH]; intros hp s e U a b I; cbn [plist] in I.
  - destruct (e <? len)%nat; [destruct I|]. destruct (Nat.eqb e len && (s <? e)%nat) eqn:E; [|destruct I].
    destruct I as [I|[]]. inversion I. subst. split; auto. lia.
  - destruct (e <? len)%nat.
    + destruct (nth_error hp e) as [h|] eqn:H; [|destruct I]. rewrite (U _ _ H) in I. cbn [negb] in I. eapply IH; eauto.
    + destruct (Nat.eqb e len && (s <? e)%nat) eqn:E; [|destruct I]. destruct I as [I|[]]. inversion I. subst. split; auto. lia.
Qed.

Lemma parts_single : forall len hp, (len <= length hp)%nat -> (forall i c, nth_error hp i = Some c -> unmarked c = true) ->
  forall a b, In (a, b) (parts len hp) -> a = 0%nat /\ b = len.
Proof.
  intros len hp L U a b I. unfold parts in I. destruct (skip_ok hp len 0) as (s & E & B & K & _); [lia|]. rewrite E in I.
  apply plist_single in I; auto. destruct I as [-> ->]. split; auto. destruct s as [|s]; auto. exfalso.
  assert (nth_error hp 0 = Some EQUALS) as X by (apply K; lia). apply U in X. discriminate.
Qed.

Lemma part_slice_unbroken : forall hp a b i, between hp a b -> (a < i < b)%nat -> ~ is_break (slice hp a b) (i - a).
Proof.
  intros hp a b i BT I B. unfold is_break in B. rewrite slice_nth in B by lia. replace (a + (i - a))%nat with i in B by lia.
  destruct B as [B|B]; apply BT in B; auto; discriminate.
Qed.

Section TwoStyles.
  Variables o1 o2 : hyph_options.
  Hypothesis U1 : uglyHyphenation o1 = false.
  Hypothesis U2 : uglyHyphenation o2 = true.
  Hypothesis M : minHyphenatedWordLength o1 = minHyphenatedWordLength o2.
  Hypothesis K : hyphenateUnknown o1 = hyphenateUnknown o2.
  Variable word : list Z.
  Hypothesis NUL : ~ In 0 word.
  Hypothesis APO : ~ In 0x27 word.

  Lemma styles_compound : forall len h h1 h2 i, (len <= length word)%nat -> length h = length word ->
    compoundHyphenation o1 word h len = Ok h1 -> compoundHyphenation o2 word h len = Ok h2 -> is_break h1 i -> is_break h2 i.
  Proof.
    intros len h h1 h2 i TL L C1 C2 B.
    destruct (compound_ok o1 word NUL len TL h L) as (x & X & L1 & F1). rewrite C1 in X. inversion X. subst x. clear X.
    destruct (compound_ok o2 word NUL len TL h L) as (x & X & L2 & F2). rewrite C2 in X. inversion X. subst x. clear X.
    destruct (parts_facts word len TL h L) as [PF PD].
    assert (exists c, nth_error h1 i = Some c /\ (c = HYPHEN \/ c = EQUALS)) as (c & E1 & HC) by (destruct B; eauto).
    assert (i < length word)%nat as IL by (apply nth_error_lt in E1; lia).
    destruct (nth_error h2 i) as [c2|] eqn:E2; [|apply nth_error_None in E2; lia].
    assert (LE : forall a b, long_enough o1 a b = long_enough o2 a b) by (intros; unfold long_enough; rewrite M; auto).
    destruct (F1 i c E1) as [(a & b & seg1 & I1 & G1 & J1 & R1 & S1 & _)|[NO1 H1]].
    - destruct (F2 i c2 E2) as [(a' & b' & seg2 & I2 & G2 & J2 & R2 & S2 & _)|[NO2 H2]].
      + destruct (PD a b a' b' i I1 I2 J1 J2) as [<- <-]. destruct (PF a b I1) as (AB & BL & BT).
        assert (is_break seg1 (i - a)) as B1 by (unfold is_break; rewrite S1; destruct HC as [ -> | -> ]; auto).
        destruct (rule_styles (slice word a b)) with (o1 := o1) (o2 := o2) (hp0 := slice h a b) (s1 := seg1) (s2 := seg2) (i := (i - a)%nat) as [Q|Q]; auto.
        * intros Z0. apply slice_In in Z0. auto.
        * elim (part_slice_unbroken h a b i); auto.
        * unfold is_break in *. rewrite S2 in Q. rewrite E2. auto.
      + elim (NO2 a b I1); auto. rewrite <- LE. auto.
    - destruct (F2 i c2 E2) as [(a' & b' & seg2 & I2 & G2 & J2 & R2 & S2 & _)|[NO2 H2]].
      + elim (NO1 a' b' I2); auto. rewrite LE. auto.
      + unfold is_break. rewrite E2. rewrite H1 in H2. inversion H2. subst. destruct HC as [ -> | -> ]; auto.
  Qed.

  Lemma styles_unknown : forall u1 u2 h1 h2 i, unknown_marks o1 word = Ok u1 -> unknown_marks o2 word = Ok u2 ->
    compoundHyphenation o1 word u1 (length word) = Ok h1 -> compoundHyphenation o2 word u2 (length word) = Ok h2 -> is_break h1 i -> is_break h2 i.
  Proof.
    intros u1 u2 h1 h2 i M1 M2 C1 C2 B. destruct (allow_ok word o1) as (b & A & N). destruct b.
    - assert (u1 = u2).
      { unfold unknown_marks in M1, M2. rewrite A in M1. cbn [bind] in M1.
        assert (allowRuleHyphenation o2 word = Ok true) as A2.
        { unfold allowRuleHyphenation. specialize (N eq_refl). replace (length word <=? 1)%nat with false by lia. rewrite U2. reflexivity. }
        rewrite A2 in M2. cbn [bind] in M2. rewrite K in M1. congruence. }
      subst u2. destruct (unknown_ok o1 word) as (u & E & L & _). rewrite M1 in E. inversion E. subst u.
      apply (styles_compound (length word) u1 h1 h2 i); auto.
    - exfalso. destruct (unknown_ok o1 word) as (u & E & L & Q). rewrite M1 in E. inversion E. subst u. clear E.
      assert (UM : forall j c, nth_error u1 j = Some c -> unmarked c = true).
      { intros j c E. destruct (Q j c E) as [(_ & _ & _ & _ & X)|(-> & _)]; [congruence|]. destruct (hyphenateUnknown o1); auto. }
      destruct (compound_ok o1 word NUL (length word) (le_n _) u1 L) as (x & X & L1 & F1). rewrite C1 in X. inversion X. subst x. clear X.
      assert (exists c, nth_error h1 i = Some c /\ (c = HYPHEN \/ c = EQUALS)) as (c & E1 & HC) by (destruct B; eauto).
      assert (exists d, nth_error u1 i = Some d /\ d = c) as (d & D & ->).
      { destruct (F1 i c E1) as [(a & b & seg1 & I1 & G1 & J1 & R1 & S1 & _)|[NO1 H1]]; [|eauto].
        apply parts_single in I1; [|lia|auto]. destruct I1 as [-> ->].
        rewrite slice_all in R1. rewrite <- L in R1 at 1. rewrite slice_all in R1. unfold ruleHyphenation in R1. rewrite A in R1. cbn [bind negb] in R1.
        inversion R1. subst seg1. rewrite Nat.sub_0_r in S1. eauto. }
      apply UM in D. destruct HC as [ -> | -> ]; discriminate.
  Qed.
End TwoStyles.

(** Insertion of the separator *)
Lemma insert_loop_ok : forall sep allow p w z, length p = length w -> Forall (fun c => c = BLANK \/ c = HYPHEN \/ c = EQUALS) p ->
  exists r, insert_loop p (w ++ z) sep allow = Ok r /\
    (if allow then hyphenated sep p w r
     else forall i0 (cut : nat -> Prop), (forall j, cut (i0 + j)%nat <-> nth_error p j = Some HYPHEN) -> inserted sep cut i0 w r).
Proof.
  intros sep allow. induction p as [|c p IH]; intros [|x w] z L F; cbn in L; try lia; cbn [insert_loop app].
  - exists []. split; auto. destruct allow; [constructor|intros; constructor].
  - inversion F as [|c1 p1 C F1]. subst. destruct (IH w z) as (r & E & H); [lia|auto|]. rewrite E. cbn [bind]. eexists. split; [reflexivity|].
    destruct allow.
    + destruct C as [ -> | [ -> | -> ]].
      * cbn. constructor. auto.
      * replace (HYPHEN =? HYPHEN) with true by reflexivity. rewrite <- app_assoc. cbn [app]. apply hyphenated_break. auto.
      * replace (EQUALS =? HYPHEN) with false by reflexivity. replace (EQUALS =? BLANK) with false by reflexivity. cbn [orb negb].
        replace (EQUALS =? EQUALS) with true by reflexivity. destruct (x =? 0x2D) eqn:X.
        -- assert (x = 0x2D) by lia. subst x. apply hyphenated_hyphen. auto.
        -- apply hyphenated_change; auto. lia.
    + intros i0 cut HC. assert (inserted sep cut (S i0) w r) as REST.
      { apply H. intros j. replace (S i0 + j)%nat with (i0 + S j)%nat by lia. rewrite HC. reflexivity. }
      pose proof (HC 0%nat) as H0. rewrite Nat.add_0_r in H0. cbn [nth_error] in H0.
      destruct (c =? HYPHEN) eqn:CH.
      * rewrite <- app_assoc. cbn [app]. apply inserted_cut; auto. apply H0. f_equal. lia.
      * rewrite orb_true_r. cbn [app]. apply inserted_plain; auto. intros X. apply H0 in X. inversion X. lia.
Qed.
