(** * The structure attribute: proofs about [parseStructure] and
    [fixStructure]. *)
From Verif Require Import Base BaseFacts CharModel AnalysisModel FinModel FinSpec.

(** ** Reading the output *)

Lemma rd_app : forall (A : Type) (pre post : list A) x k, nth_error post k = Some x -> rd (pre ++ post) (length pre + k) = Ok x.
Proof. intros. unfold rd. rewrite nth_error_app2 by lia. replace (length pre + k - length pre)%nat with k by lia. now rewrite H. Qed.

Lemma rd_app0 : forall (A : Type) (pre post : list A) x, rd (pre ++ x :: post) (length pre) = Ok x.
Proof. intros. rewrite <- (Nat.add_0_r (length pre)). now apply rd_app. Qed.

Lemma skipn_app_length : forall (A : Type) (pre post : list A), skipn (length pre) (pre ++ post) = post.
Proof. intros. rewrite skipn_app, skipn_all, Nat.sub_diag. reflexivity. Qed.

Lemma skipn_app_more : forall (A : Type) (pre post : list A) k, skipn (length pre + k) (pre ++ post) = skipn k post.
Proof. intros. rewrite skipn_app, skipn_all2 by lia. replace (length pre + k - length pre)%nat with k by lia. reflexivity. Qed.

Lemma starts_app : forall pre post k s, starts (pre ++ post) (length pre + k) s = starts post k s.
Proof. intros. unfold starts. now rewrite skipn_app_more. Qed.

Lemma starts_app0 : forall pre post s, starts (pre ++ post) (length pre) s = starts post 0 s.
Proof. intros. unfold starts. now rewrite skipn_app_length. Qed.

(** ** The state, seen from outside *)

Definition view (size : nat) (s : structure_state) (L : list Z) (m sn d : nat) (a : bool) : Prop :=
  exists t buf, s = mk_ps buf (length L) m sn d t a /\ length buf = size /\ firstn (length L) buf = L.

Lemma firstn_upd : forall (buf : list Z) n c, (n < length buf)%nat -> firstn (S n) (upd buf n c) = firstn n buf ++ [c].
Proof.
  induction buf as [|x buf IH]; intros n c H; [cbn in H; lia|].
  destruct n as [|n]; [reflexivity|]. cbn in H. cbn [upd firstn]. destruct n as [|n].
  - destruct buf; [cbn in H; lia|]. reflexivity.
  - cbn [app]. f_equal. change (firstn (S (S n)) (upd buf (S n) c) = firstn (S n) buf ++ [c]). apply IH. lia.
Qed.

Lemma view_put : forall size s L m sn d a c, view size s L m sn d a -> (length L < size)%nat ->
  exists s', put s c = Ok s' /\ view size s' (L ++ [c]) m sn d a.
Proof.
  intros size s L m sn d a c (t & buf & -> & B & F) H. eexists. split.
  - unfold put, wr. cbn [structure structurePos charsMissing charsSeen charsFromDefault defaultTitleCase isAbbr].
    replace (length L <? length buf)%nat with true by lia. cbn [bind]. reflexivity.
  - exists t, (upd buf (length L) c). rewrite app_length. cbn [length]. replace (length L + 1)%nat with (S (length L)) by lia.
    split; [reflexivity|]. split; [now rewrite upd_length|]. rewrite firstn_upd by lia. now rewrite F.
Qed.

Definition is_symbol (c : Z) : Prop := In c (wstr "ijpq").

Lemma view_default : forall size n s L m sn d a, view size s L m sn d a -> (length L + n <= size)%nat ->
  exists s' X, createDefaultStructure n s = Ok s' /\ view size s' (L ++ X) m sn d a /\ length X = n /\ Forall is_symbol X.
Proof.
  induction n as [|n IH]; intros s L m sn d a V H.
  - exists s, []. rewrite app_nil_r. cbn. auto.
  - assert (G : exists s1 c, (if defaultTitleCase s then s <- put s (if isAbbr s then ch "j" else ch "i") ;; Ok (set_title s false)
             else put s (if isAbbr s then ch "q" else ch "p")) = Ok s1 /\ view size s1 (L ++ [c]) m sn d a /\ is_symbol c).
    { destruct (defaultTitleCase s).
      - destruct (view_put size s L m sn d a (if isAbbr s then ch "j" else ch "i") V ltac:(lia)) as (s1 & P & (t & buf & -> & B & F)).
        rewrite P. eexists. eexists. split; [reflexivity|]. split.
        + exists false, buf. cbn [set_title structure structurePos charsMissing charsSeen charsFromDefault defaultTitleCase isAbbr].
          split; [reflexivity|]. auto.
        + destruct (isAbbr s); vm_compute; tauto.
      - destruct (view_put size s L m sn d a (if isAbbr s then ch "q" else ch "p") V ltac:(lia)) as (s1 & P & V1).
        rewrite P. eexists. eexists. split; [reflexivity|]. split; [exact V1|]. destruct (isAbbr s); vm_compute; tauto. }
    destruct G as (s1 & c & E & V1 & C). cbn [createDefaultStructure]. rewrite E. cbn [bind].
    destruct (IH s1 (L ++ [c]) m sn d a V1) as (s2 & X & E2 & V2 & X1 & X2); [rewrite app_length; cbn [length]; lia|].
    exists s2, (c :: X). rewrite <- app_assoc in V2. cbn [app length] in *. split; [exact E2|]. split; [exact V2|]. split; [lia|]. now constructor.
Qed.

Lemma view_flush : forall size s L m sn d a, view size s L m sn d a -> (length L + (sn - d) <= size)%nat -> (sn - d <= m)%nat ->
  exists s' X, flush s = Ok s' /\ view size s' (L ++ X) (m - (sn - d)) sn d a /\ length X = (sn - d)%nat /\ Forall is_symbol X.
Proof.
  intros size s L m sn d a V H M. pose proof V as (t & buf & E & _ & _).
  destruct (view_default size (sn - d) s L m sn d a V H) as (s' & X & E1 & (t' & buf' & -> & B & F) & X1 & X2).
  exists (mk_ps buf' (length (L ++ X)) (m - (sn - d)) sn d t' a), X. split.
  - unfold flush. rewrite E at 1 2. cbn [charsSeen charsFromDefault]. rewrite E1. cbn [bind]. unfold decreaseCharsMissing.
    cbn [set_missing structure structurePos charsMissing charsSeen charsFromDefault defaultTitleCase isAbbr].
    replace (sn - d <=? m)%nat with true by lia. reflexivity.
  - split; [|auto]. exists t', buf'. auto.
Qed.

Lemma view_fields : forall size s L m sn d a, view size s L m sn d a ->
  structurePos s = length L /\ charsMissing s = m /\ charsSeen s = sn /\ charsFromDefault s = d /\ isAbbr s = a /\
  firstn (length L) (structure s) = L /\ length (structure s) = size.
Proof. intros size s L m sn d a (t & buf & -> & B & F). cbn. auto 10. Qed.

Lemma view_restart : forall size s L m sn d a, view size s L m sn d a -> view size (restart s) L m 0 0 a.
Proof. intros size s L m sn d a (t & buf & -> & B & F). exists t, buf. cbn. auto. Qed.
Lemma view_one_less : forall size s L m sn d a, view size s L m sn d a -> view size (one_less s) L (m - 1) sn d a.
Proof. intros size s L m sn d a (t & buf & -> & B & F). exists t, buf. cbn. auto. Qed.
Lemma view_abbr : forall size s L m sn d a x, view size s L m sn d a -> view size (set_abbr s x) L m sn d x.
Proof. intros size s L m sn d a x (t & buf & -> & B & F). exists t, buf. cbn. auto. Qed.
Lemma view_title : forall size s L m sn d a x, view size s L m sn d a -> view size (set_title s x) L m sn d a.
Proof. intros size s L m sn d a x (t & buf & -> & B & F). exists x, buf. cbn. auto. Qed.
Lemma view_seen : forall size s L m sn d a n, view size s L m sn d a -> view size (set_seen s n) L m n d a.
Proof. intros size s L m sn d a n (t & buf & -> & B & F). exists t, buf. cbn. auto. Qed.
Lemma view_fromDefault : forall size s L m sn d a n, view size s L m sn d a -> view size (set_fromDefault s n) L m sn n a.
Proof. intros size s L m sn d a n (t & buf & -> & B & F). exists t, buf. cbn. auto. Qed.
Lemma view_missing : forall size s L m sn d a n, view size s L m sn d a -> view size (set_missing s n) L n sn d a.
Proof. intros size s L m sn d a n (t & buf & -> & B & F). exists t, buf. cbn. auto. Qed.

Lemma view_last : forall size s L x m sn d a, view size s (L ++ [x]) m sn d a ->
  rd (structure s) (structurePos s - 1) = Ok x.
Proof.
  intros size s L x m sn d a (t & buf & -> & B & F). cbn [structure structurePos].
  rewrite app_length in *. cbn [length] in *. unfold rd.
  assert (E : nth_error (firstn (length L + 1) buf) (length L) = Some x).
  { rewrite F. rewrite nth_error_app2 by lia. now rewrite Nat.sub_diag. }
  replace (length L + 1 - 1)%nat with (length L) by lia.
  rewrite nth_error_firstn_lt in E by lia. now rewrite E.
Qed.

(** ** Symbols *)

Lemma symbols_app : forall a b, symbols (a ++ b) = symbols a ++ symbols b.
Proof. intros. apply filter_app. Qed.

Lemma symbols_id : forall X, Forall (fun c => c <> ch "=") X -> symbols X = X.
Proof.
  induction 1 as [|c X C _ IH]; [reflexivity|]. unfold symbols in *. cbn [filter].
  replace (c =? ch "=") with false by (symmetry; apply Z.eqb_neq; exact C). cbn [negb]. now rewrite IH.
Qed.

Lemma is_symbol_border : forall c, is_symbol c -> c <> ch "=".
Proof. intros c H ->. vm_compute in H. intuition discriminate. Qed.
Lemma is_symbol_hyphen : forall c, is_symbol c -> c <> ch "-".
Proof. intros c H ->. vm_compute in H. intuition discriminate. Qed.

Lemma symbols_default : forall X, Forall is_symbol X -> symbols X = X.
Proof. intros X H. apply symbols_id. eapply Forall_impl; [|exact H]. exact is_symbol_border. Qed.

Definition hyphens (l : list Z) : nat := length (filter (fun c => c =? ch "-") l).
Definition letters (l : list Z) : nat := length (filter (fun c => negb (c =? ch "-")) (symbols l)).

Lemma hyphens_letters : forall l, (hyphens (symbols l) + letters l = length (symbols l))%nat.
Proof.
  intros l. unfold hyphens, letters. induction (symbols l) as [|c r IH]; [reflexivity|]. cbn [filter].
  destruct (c =? ch "-"); cbn [negb length]; lia.
Qed.

(** ** The pattern *)

Lemma copy_pattern_spec : forall size p tail i s L m sn d a, view size s L m sn d a ->
  (forall c, In c p -> c <> ch "[") ->
  (forall u c v, p = u ++ c :: v -> (letters u < m)%nat) ->
  (length L + length p <= size)%nat ->
  exists s', copy_pattern (p ++ ch "[" :: tail) i s = Ok ((i + length p)%nat, s') /\
    view size s' (L ++ p) (m - letters p) sn (d + length (symbols p)) a.
Proof.
  intros size p tail. induction p as [|c p IH]; intros i s L m sn d a V N M SZ.
  - exists s. cbn [app copy_pattern]. rewrite Z.eqb_refl. cbn [orb]. split; [now rewrite Nat.add_0_r|].
    rewrite app_nil_r. replace (m - letters [])%nat with m by (change (letters []) with 0%nat; lia).
    change (length (symbols [])) with 0%nat. now rewrite Nat.add_0_r.
  - cbn [app copy_pattern]. replace (c =? ch "[") with false by (symmetry; apply Z.eqb_neq, N; now left).
    destruct (view_fields _ _ _ _ _ _ _ V) as (_ & F2 & _). rewrite F2.
    assert (M0 : (0 < m)%nat) by apply (M [] c p eq_refl). replace (Nat.eqb m 0) with false by lia. cbn [orb].
    destruct (view_put size s L m sn d a c V ltac:(cbn [length] in SZ; lia)) as (s1 & P & V1). rewrite P. cbn [bind].
    destruct (view_fields _ _ _ _ _ _ _ V1) as (_ & G2 & _ & G4 & _).
    set (s2 := if c =? ch "=" then s1 else _).
    assert (V2 : view size s2 (L ++ [c]) (m - letters [c]) sn (d + length (symbols [c])) a).
    { unfold s2, letters, symbols. cbn [filter]. destruct (c =? ch "=") eqn:E1; cbn [negb].
      - cbn [filter length]. rewrite Nat.sub_0_r, Nat.add_0_r. exact V1.
      - cbn [filter length]. rewrite G4. replace (charsMissing (set_fromDefault s1 (S d))) with m by (symmetry; exact G2). replace (d + 1)%nat with (S d) by lia. destruct (c =? ch "-") eqn:E2; cbn [negb length].
        + rewrite Nat.sub_0_r. eapply view_fromDefault. exact V1.
        + eapply view_missing, view_fromDefault. exact V1. }
    destruct (IH (S i) s2 (L ++ [c]) _ _ _ _ V2) as (s3 & E3 & V3).
    + intros c' I. apply N. now right.
    + intros u c' v ->. pose proof (M (c :: u) c' v eq_refl) as X. unfold letters, symbols in *. cbn [filter] in *.
      destruct (c =? ch "="); cbn [negb] in *; cbn [filter length] in *; try lia.
      destruct (c =? ch "-"); cbn [negb length] in *; lia.
    + rewrite app_length. cbn [length] in *. lia.
    + exists s3. split; [rewrite E3; cbn [length]; f_equal; f_equal; lia|].
      rewrite <- app_assoc in V3. cbn [app] in V3.
      replace (m - letters (c :: p))%nat with (m - letters [c] - letters p)%nat.
      2:{ unfold letters, symbols. cbn [filter]. destruct (c =? ch "="); cbn [negb]; cbn [filter length]; try lia.
          destruct (c =? ch "-"); cbn [negb length]; lia. }
      replace (d + length (symbols (c :: p)))%nat with (d + length (symbols [c]) + length (symbols p))%nat; [exact V3|].
      change (c :: p) with ([c] ++ p). rewrite symbols_app, app_length. lia.
Qed.

Lemma find_char_spec : forall c t tail i, (forall x, In x t -> x <> c) -> find_char c (t ++ c :: tail) i = Ok (i + length t)%nat.
Proof.
  intros c t tail. induction t as [|x t IH]; intros i H; cbn [app find_char].
  - rewrite Z.eqb_refl. f_equal. cbn. lia.
  - replace (x =? c) with false by (symmetry; apply Z.eqb_neq, H; now left). rewrite IH by (intros; apply H; now right).
    f_equal. cbn [length]. lia.
Qed.

(** ** The invariant *)

Definition spaced (L : list Z) : Prop :=
  (length L <= 2 * length (symbols L) + 1)%nat /\ (last L 0 <> ch "=" -> (length L <= 2 * length (symbols L))%nat).

Lemma Forall2_len : forall (A B : Type) (P : A -> B -> Prop) l1 l2, Forall2 P l1 l2 -> length l1 = length l2.
Proof. induction 1; cbn; auto. Qed.

Definition inv (wlen : nat) (s : structure_state) (done rest pat : list Z) (abbr open : bool) (B : nat -> Prop) : Prop :=
  exists L M done1 pend m sn d,
    view (wlen * 2 + 1) s L m sn d abbr /\ (hd 0 L = ch "=" \/ hd 0 L = ch "-") /\ spaced L /\
    done = done1 ++ pend /\ Forall (fun c => c <> ch "-" /\ c <> ch ":") pend /\ length pend = (sn - d)%nat /\
    symbols L = M ++ pat /\ Forall2 symbol_for done1 M /\ length pat = (d - sn)%nat /\
    (open = false -> pend = []) /\ (length done + length rest = wlen)%nat /\
    (m + length pat = length pend + length rest + hyphens pat)%nat /\ (length pat <= length rest)%nat /\
    (last L 0 = ch "=" -> pat = [] /\ (0 < m)%nat) /\ (length pat < length L)%nat /\ forall n, In n (borders L) <-> B n.

Lemma borders_app : forall a b k, borders_from k (a ++ b) = borders_from k a ++ borders_from (k + length (symbols a)) b.
Proof.
  induction a as [|c a IH]; intros b k; cbn [app borders_from]; [change (length (symbols [])) with 0%nat; now rewrite Nat.add_0_r|].
  unfold symbols in *. cbn [filter]. destruct (c =? ch "="); cbn [negb length app]; rewrite IH; [reflexivity|]. f_equal. f_equal. lia.
Qed.
Lemma no_borders : forall X k, Forall (fun c => c <> ch "=") X -> borders_from k X = [].
Proof.
  induction X as [|c X IH]; intros k F; [reflexivity|]. apply Forall_cons_iff in F. destruct F as [F1 F2]. cbn [borders_from].
  replace (c =? ch "=") with false by (symmetry; now apply Z.eqb_neq). now apply IH.
Qed.
Lemma borders_symbols : forall L X, Forall (fun c => c <> ch "=") X -> borders (L ++ X) = borders L.
Proof. intros L X F. unfold borders. rewrite borders_app, (no_borders X) by assumption. apply app_nil_r. Qed.
Lemma borders_symbol : forall L c, c <> ch "=" -> borders (L ++ [c]) = borders L.
Proof. intros L c F. apply borders_symbols. now constructor. Qed.

Lemma spaced_symbol : forall L c, spaced L -> c <> ch "=" -> spaced (L ++ [c]).
Proof.
  intros L c [A B] H. unfold spaced. rewrite symbols_app, !app_length, (symbols_id [c]) by (constructor; auto). cbn [length].
  rewrite last_last. lia.
Qed.
Lemma spaced_symbols : forall X L, spaced L -> Forall (fun c => c <> ch "=") X -> spaced (L ++ X).
Proof.
  induction X as [|c X IH]; intros L H F; [now rewrite app_nil_r|]. apply Forall_cons_iff in F. destruct F as [F1 F2].
  replace (L ++ c :: X) with ((L ++ [c]) ++ X) by now rewrite <- app_assoc. apply IH; [|exact F2]. now apply spaced_symbol.
Qed.
Lemma spaced_border : forall L, spaced L -> last L 0 <> ch "=" -> spaced (L ++ [ch "="]).
Proof.
  intros L [A B] H. unfold spaced. rewrite symbols_app, !app_length. change (symbols [ch "="]) with (@nil Z). cbn [length].
  rewrite last_last. specialize (B H). split; [lia|]. intros X. now elim X.
Qed.
Lemma hd_app_same : forall (L X : list Z), L <> [] -> hd 0 (L ++ X) = hd 0 L.
Proof. intros [|c L] X H; [now elim H|reflexivity]. Qed.

Lemma hd_nonempty : forall L, hd 0 L = ch "=" \/ hd 0 L = ch "-" -> L <> [].
Proof. intros [|c L] H; [destruct H as [H|H]; vm_compute in H; discriminate|discriminate]. Qed.

Lemma fits_pat : forall l pat abbr open, fits_together l pat abbr open -> (length pat <= length (surface l))%nat.
Proof.
  induction l as [|x l IH]; intros pat abbr open H; cbn [fits_together] in H; [subst; cbn; lia|].
  unfold surface in *. cbn [map concat]. rewrite app_length.
  destruct x; cbn [surface_item length wstr].
  - destruct pat as [|y pat]; [cbn; lia|]. destruct H as [_ H]. apply IH in H. cbn [length]. lia.
  - destruct pat as [|y pat]; [cbn; lia|]. destruct H as [_ H]. apply IH in H. cbn [length]. lia.
  - destruct H as (-> & _). cbn. lia.
  - destruct H as (-> & _). cbn. lia.
  - destruct H as (_ & H). apply IH in H. lia.
  - destruct H as (-> & _). cbn. lia.
  - apply IH in H. lia.
  - apply IH in H. lia.
Qed.

(** ** One step of the loop *)

Lemma step_letter : forall wlen pre c post i s done rest pat abbr open B outputLen,
  i = length pre -> ~ In c (0 :: wstr "[]-:") ->
  inv wlen s done (c :: rest) pat abbr open B ->
  match pat with [] => True | x :: _ => is_symbol x end ->
  exists s', structure_step (pre ++ c :: post) outputLen i s = Ok (i, s') /\
    match pat with
    | [] => inv wlen s' (done ++ [c]) rest [] abbr true B
    | x :: pat => inv wlen s' (done ++ [c]) rest pat abbr open B
    end.
Proof.
  intros wlen pre c post i s done rest pat abbr open B outputLen -> C (L & M & done1 & pend & m & sn & d & V & H1 & H2 & H3 & H4 & H5 & H6 & H7 & H8 & H9 & H10 & H11 & H12 & H13 & H14 & HB) P.
  assert (C1 : c <> ch "[" /\ c <> ch "-" /\ c <> ch ":").
  { repeat split; intros ->; apply C; vm_compute; tauto. }
  destruct C1 as (C1 & C2 & C3). unfold structure_step. rewrite rd_app0. cbn [bind].
  replace (c =? ch "[") with false by (symmetry; now apply Z.eqb_neq). replace (c =? ch "-") with false by (symmetry; now apply Z.eqb_neq).
  replace (c =? ch ":") with false by (symmetry; now apply Z.eqb_neq). cbn [andb].
  destruct (view_fields _ _ _ _ _ _ _ V) as (_ & _ & F3 & _). rewrite F3.
  eexists. split; [reflexivity|]. destruct pat as [|x pat].
  - cbn [length] in *. exists L, M, done1, (pend ++ [c]), m, (S sn), d. rewrite app_length. cbn [length].
    split; [eapply view_seen; exact V|]. split; [assumption|]. split; [assumption|]. split; [now rewrite H3, app_assoc|].
    split; [apply Forall_app; split; [assumption|]; constructor; [split; assumption|constructor]|]. split; [lia|]. split; [assumption|]. split; [assumption|].
    split; [lia|]. split; [discriminate|]. rewrite app_length. cbn [length]. split; [lia|]. split; [lia|]. split; [lia|]. split; [assumption|]. split; assumption.
  - cbn [length] in *. assert (pend = []) by (destruct pend; [reflexivity|cbn [length] in H5; lia]). subst pend. cbn [length] in *.
    exists L, (M ++ [x]), (done1 ++ [c]), [], m, (S sn), d. cbn [length].
    split; [eapply view_seen; exact V|]. split; [assumption|]. split; [assumption|]. split; [now rewrite app_nil_r in *; rewrite H3|].
    split; [constructor|]. split; [lia|]. split; [now rewrite <- app_assoc|]. split.
    { apply Forall2_app; [assumption|]. constructor; [|constructor]. unfold symbol_for.
      replace (c =? ch "-") with false by (symmetry; now apply Z.eqb_neq). replace (c =? ch ":") with false by (symmetry; now apply Z.eqb_neq). exact P. }
    split; [lia|]. split; [reflexivity|]. rewrite app_length. cbn [length]. split; [lia|]. split; [|split; [lia|split; [intros X; now destruct (H13 X)|split; [lia|exact HB]]]].
    unfold hyphens in *. cbn [filter] in H11. replace (x =? ch "-") with false in H11 by (symmetry; apply Z.eqb_neq; now apply is_symbol_hyphen). lia.
Qed.

Lemma symbol_for_letter : forall c x, c <> ch "-" -> c <> ch ":" -> is_symbol x -> symbol_for c x.
Proof.
  intros c x A B X. unfold symbol_for. replace (c =? ch "-") with false by (symmetry; now apply Z.eqb_neq).
  replace (c =? ch ":") with false by (symmetry; now apply Z.eqb_neq). exact X.
Qed.

Lemma symbols_for : forall pend X, Forall (fun c => c <> ch "-" /\ c <> ch ":") pend -> Forall is_symbol X -> length X = length pend ->
  Forall2 symbol_for pend X.
Proof.
  induction pend as [|c pend IH]; intros X A B E; destruct X as [|x X]; try discriminate; constructor.
  - apply Forall_cons_iff in A. apply Forall_cons_iff in B. apply symbol_for_letter; tauto.
  - apply Forall_cons_iff in A. apply Forall_cons_iff in B. apply IH; [tauto|tauto|]. now injection E.
Qed.

Lemma borders_default : forall X, Forall is_symbol X -> Forall (fun c => c <> ch "=") X.
Proof. intros X H. eapply Forall_impl; [|exact H]. exact is_symbol_border. Qed.

(** What a flush of the waiting letters gives. *)
Lemma inv_flush : forall wlen s done rest abbr open B, inv wlen s done rest [] abbr open B -> (charsFromDefault s <? charsSeen s)%nat = true ->
  exists s' L M m sn d, flush s = Ok s' /\ view (wlen * 2 + 1) s' L m sn d abbr /\ (hd 0 L = ch "=" \/ hd 0 L = ch "-") /\ spaced L /\
    symbols L = M /\ Forall2 symbol_for done M /\ (length done + length rest = wlen)%nat /\ m = length rest /\ last L 0 <> ch "=" /\ forall n, In n (borders L) <-> B n.
Proof.
  intros wlen s done rest abbr open B (L & M & done1 & pend & m & sn & d & V & H1 & H2 & H3 & H4 & H5 & H6 & H7 & H8 & H9 & H10 & H11 & H12 & H13 & H14 & HB) Q.
  destruct (view_fields _ _ _ _ _ _ _ V) as (_ & _ & F3 & F4 & _). rewrite F3, F4 in Q. cbn [length] in *.
  assert (LM : length done1 = length M) by now apply Forall2_len in H7.
  rewrite app_nil_r in H6. rewrite H3, app_length in H10. pose proof H2 as [S1 S2]. rewrite H6 in S1.
  change (hyphens []) with 0%nat in H11.
  destruct (view_flush _ _ _ _ _ _ _ V) as (s' & X & E & V' & X1 & X2); [lia|lia|].
  exists s', (L ++ X), (M ++ X), (m - (sn - d))%nat, sn, d. split; [exact E|]. split; [exact V'|].
  pose proof (hd_nonempty L H1). split; [now rewrite hd_app_same|]. split; [apply spaced_symbols; [assumption|now apply borders_default]|].
  split; [now rewrite symbols_app, H6, symbols_default|]. split; [rewrite H3; apply Forall2_app; [assumption|]; apply symbols_for; [assumption|assumption|lia]|].
  split; [now rewrite H3, app_length|]. split; [lia|]. split; [|rewrite borders_symbols by (now apply borders_default); exact HB].
  destruct X as [|x X] using rev_ind; [cbn in X1; lia|]. rewrite app_assoc, last_last. apply Forall_app in X2. destruct X2 as [_ X2].
  apply is_symbol_border. now inversion X2.
Qed.

Lemma step_hyphen : forall wlen pre post i s done rest pat abbr open B outputLen,
  i = length pre -> i <> 0%nat -> inv wlen s done (ch "-" :: rest) pat abbr open B ->
  match pat with [] => True | x :: _ => x = ch "-" end ->
  exists s', structure_step (pre ++ ch "-" :: post) outputLen i s = Ok (i, s') /\
    match pat with
    | [] => inv wlen s' (done ++ [ch "-"]) rest [] abbr false B
    | x :: pat => inv wlen s' (done ++ [ch "-"]) rest pat abbr open B
    end.
Proof.
  intros wlen pre post i s done rest pat abbr open B outputLen -> I0 I P. unfold structure_step. rewrite rd_app0. cbn [bind].
  change (ch "-" =? ch "[") with false. cbn [andb]. rewrite Z.eqb_refl. unfold structure_hyphen.
  destruct (charsFromDefault s <? charsSeen s)%nat eqn:Q.
  - destruct pat as [|x pat].
    2:{ destruct I as (L & M & done1 & pend & m & sn & d & V & H1 & H2 & H3 & H4 & H5 & H6 & H7 & H8 & H9 & H10 & H11 & H12 & H13 & H14 & HB).
        destruct (view_fields _ _ _ _ _ _ _ V) as (_ & _ & F3 & F4 & _). rewrite F3, F4 in Q. cbn [length] in *. lia. }
    destruct (inv_flush _ _ _ _ _ _ _ I Q) as (s1 & L & M & m & sn & d & E & V & H1 & H2 & H3 & H4 & H5 & H6 & H7 & HB). rewrite E. cbn [bind].
    assert (LM : length done = length M) by now apply Forall2_len in H4. pose proof H2 as [S1 S2]. rewrite H3 in *. cbn [length] in *.
    destruct (view_put _ _ _ _ _ _ _ (ch "-") V) as (s2 & P2 & V2); [lia|]. rewrite P2. cbn [bind].
    apply view_restart in V2. apply view_one_less in V2. destruct (view_fields _ _ _ _ _ _ _ V2) as (F1 & _). rewrite F1, app_length. cbn [length].
    pose proof (hd_nonempty L H1) as NE. destruct (Nat.eqb (length L + 1) 1) eqn:Q1; [destruct L; [now elim NE|cbn [length] in Q1; lia]|].
    eexists. split; [reflexivity|]. eexists _, (M ++ [ch "-"]), (done ++ [ch "-"]), [], _, _, _. split; [exact V2|].
    split; [now rewrite hd_app_same|]. split; [apply spaced_symbol; [assumption|vm_compute; discriminate]|]. rewrite !app_nil_r.
    split; [reflexivity|]. split; [constructor|]. split; [reflexivity|]. split; [rewrite symbols_app, H3; reflexivity|].
    split; [apply Forall2_app; [assumption|]; constructor; [reflexivity|constructor]|]. split; [reflexivity|]. split; [reflexivity|].
    rewrite app_length. cbn [length]. change (hyphens []) with 0%nat. split; [lia|]. split; [lia|]. split; [lia|]. split; [rewrite last_last; intros X; vm_compute in X; discriminate|]. split; [rewrite app_length; cbn [length]; lia|]. rewrite borders_symbol by (vm_compute; discriminate). exact HB.
  - destruct I as (L & M & done1 & pend & m & sn & d & V & H1 & H2 & H3 & H4 & H5 & H6 & H7 & H8 & H9 & H10 & H11 & H12 & H13 & H14 & HB).
    destruct (view_fields _ _ _ _ _ _ _ V) as (_ & _ & F3 & F4 & _). rewrite F3, F4 in *.
    assert (pend = []) by (destruct pend; [reflexivity|cbn [length] in H5; lia]). subst pend. rewrite app_nil_r in H3. subst done1. cbn [length] in *.
    assert (LM : length done = length M) by now apply Forall2_len in H7. pose proof H2 as [S1 S2]. rewrite H6, app_length in S1.
    destruct (Nat.eqb (length pre) 0) eqn:Q0; [lia|]. destruct pat as [|x pat]; cbn [length] in *.
    + replace (Nat.eqb sn d) with true by lia. destruct (view_put _ _ _ _ _ _ _ (ch "-") V) as (s2 & P2 & V2); [lia|]. rewrite P2. cbn [bind].
      apply view_one_less in V2. destruct (view_fields _ _ _ _ _ _ _ V2) as (F1 & _). rewrite F1, app_length. cbn [length].
      pose proof (hd_nonempty L H1) as NE. destruct (Nat.eqb (length L + 1) 1) eqn:Q1; [destruct L; [now elim NE|cbn [length] in Q1; lia]|].
      eexists. split; [reflexivity|]. eexists _, (M ++ [ch "-"]), (done ++ [ch "-"]), [], _, _, _. split; [exact V2|].
      split; [now rewrite hd_app_same|]. split; [apply spaced_symbol; [assumption|vm_compute; discriminate]|]. rewrite !app_nil_r in *.
      split; [reflexivity|]. split; [constructor|]. split; [cbn; lia|]. split; [rewrite symbols_app, H6; reflexivity|].
      split; [apply Forall2_app; [assumption|]; constructor; [reflexivity|constructor]|]. split; [cbn; lia|]. split; [reflexivity|].
      rewrite app_length. cbn [length]. change (hyphens []) with 0%nat in *. split; [lia|]. split; [lia|]. split; [lia|]. split; [rewrite last_last; intros X; vm_compute in X; discriminate|]. split; [rewrite app_length; cbn [length]; lia|]. rewrite borders_symbol by (vm_compute; discriminate). exact HB.
    + replace (Nat.eqb sn d) with false by lia. cbn [bind]. subst x.
      pose proof (view_one_less _ _ _ _ _ _ _ (view_seen _ _ _ _ _ _ _ (S sn) V)) as V2.
      destruct (view_fields _ _ _ _ _ _ _ V2) as (F1 & _). rewrite F1.
      replace (Nat.eqb (length L) 1) with false by lia.
      eexists. split; [reflexivity|]. eexists _, (M ++ [ch "-"]), (done ++ [ch "-"]), [], _, _, _. split; [exact V2|]. cbn [length].
      split; [assumption|]. split; [assumption|]. rewrite !app_nil_r in *.
      split; [reflexivity|]. split; [constructor|]. split; [lia|]. split; [rewrite H6, <- app_assoc; reflexivity|].
      split; [apply Forall2_app; [assumption|]; constructor; [reflexivity|constructor]|]. split; [lia|]. split; [reflexivity|].
      rewrite app_length. cbn [length]. unfold hyphens in *. cbn [filter] in H11. rewrite Z.eqb_refl in H11. cbn [length] in H11.
      split; [lia|]. split; [lia|]. split; [lia|]. split; [intros X; now destruct (H13 X)|]. split; [lia|exact HB].
Qed.

Lemma step_colon : forall wlen pre post i s done rest abbr open B outputLen,
  i = length pre -> inv wlen s done (ch ":" :: rest) [] abbr open B -> abbr = true \/ open = false ->
  exists s', structure_step (pre ++ ch ":" :: post) outputLen i s = Ok (i, s') /\ inv wlen s' (done ++ [ch ":"]) rest [] false false B.
Proof.
  intros wlen pre post i s done rest abbr open B outputLen -> I P. unfold structure_step. rewrite rd_app0. cbn [bind].
  change (ch ":" =? ch "[") with false. cbn [andb]. change (ch ":" =? ch "-") with false. rewrite Z.eqb_refl. unfold structure_colon.
  assert (G : exists s1 L M m, (if isAbbr s then s <- (if (charsFromDefault s <? charsSeen s)%nat then s <- flush s ;; Ok (restart s) else Ok s) ;; Ok (set_abbr s false)
                          else Ok s) = Ok s1 /\ (exists sn d, view (wlen * 2 + 1) s1 L m sn d false /\ sn = d) /\ (hd 0 L = ch "=" \/ hd 0 L = ch "-") /\ spaced L /\
    symbols L = M /\ Forall2 symbol_for done M /\ (length done + length (ch ":" :: rest) = wlen)%nat /\ m = length (ch ":" :: rest) /\ forall n, In n (borders L) <-> B n).
  { assert (A : isAbbr s = abbr). { destruct I as (L & M & done1 & pend & m & sn & d & V & _). now destruct (view_fields _ _ _ _ _ _ _ V) as (_ & _ & _ & _ & F & _). }
    destruct (charsFromDefault s <? charsSeen s)%nat eqn:Q.
    - assert (A1 : abbr = true).
      { destruct P as [P|P]; [exact P|]. destruct I as (L & M & done1 & pend & m & sn & d & V & H1 & H2 & H3 & H4 & H5 & H6 & H7 & H8 & H9 & _).
        destruct (view_fields _ _ _ _ _ _ _ V) as (_ & _ & F3 & F4 & _). rewrite F3, F4 in Q. rewrite (H9 P) in H5. cbn [length] in H5. lia. }
      rewrite A, A1. destruct (inv_flush _ _ _ _ _ _ _ I Q) as (s1 & L & M & m & sn & d & E & V & H1 & H2 & H3 & H4 & H5 & H6 & H7 & HB). rewrite E. cbn [bind].
      eexists _, L, M, m. split; [reflexivity|]. split; [|auto 10]. exists 0%nat, 0%nat. split; [|reflexivity].
      eapply view_abbr, view_restart. exact V.
    - destruct I as (L & M & done1 & pend & m & sn & d & V & H1 & H2 & H3 & H4 & H5 & H6 & H7 & H8 & H9 & H10 & H11 & H12 & H13 & H14 & HB).
      destruct (view_fields _ _ _ _ _ _ _ V) as (_ & _ & F3 & F4 & _). rewrite F3, F4 in Q.
      assert (pend = []) by (destruct pend; [reflexivity|cbn [length] in H5; lia]). subst pend. rewrite app_nil_r in H3. subst done1. cbn [length] in *.
      rewrite app_nil_r in H6. change (hyphens []) with 0%nat in H11. exists (if isAbbr s then set_abbr s false else s), L, M, m.
      split; [destruct (isAbbr s); reflexivity|]. split.
      + exists sn, d. split; [|lia]. rewrite A. destruct abbr; [eapply view_abbr; exact V|exact V].
      + repeat (split; [assumption|]). split; [lia|exact HB]. }
  destruct G as (s1 & L & M & m & -> & (sn & d & V & SD) & H1 & H2 & H3 & H4 & H5 & H6 & HB). cbn [bind].
  assert (LM : length done = length M) by now apply Forall2_len in H4. pose proof H2 as [S1 S2]. rewrite H3 in S1. cbn [length] in *.
  destruct (view_put _ _ _ _ _ _ _ (ch ":") V) as (s2 & P2 & V2); [lia|]. rewrite P2. cbn [bind]. apply view_one_less in V2.
  eexists. split; [reflexivity|]. eexists _, (M ++ [ch ":"]), (done ++ [ch ":"]), [], _, _, _. split; [exact V2|].
  pose proof (hd_nonempty L H1). split; [now rewrite hd_app_same|]. split; [apply spaced_symbol; [assumption|vm_compute; discriminate]|]. rewrite !app_nil_r.
  split; [reflexivity|]. split; [constructor|]. split; [cbn [length]; lia|]. split; [rewrite symbols_app, H3; reflexivity|].
  split; [apply Forall2_app; [assumption|]; constructor; [reflexivity|constructor]|]. split; [cbn [length]; lia|]. split; [reflexivity|].
  rewrite app_length. cbn [length]. change (hyphens []) with 0%nat. split; [lia|]. split; [lia|]. split; [lia|].
  split; [rewrite last_last; intros X; vm_compute in X; discriminate|]. split; [rewrite app_length; cbn [length]; lia|]. rewrite borders_symbol by (vm_compute; discriminate). exact HB.
Qed.

(** Tags: the characters after the opening bracket. *)
Lemma step_tag : forall pre t n outputLen s i, i = length pre -> outputLen = (length pre + S n)%nat -> (2 <= n)%nat ->
  structure_step (pre ++ ch "[" :: t) outputLen i s = structure_tag (pre ++ ch "[" :: t) i outputLen s.
Proof.
  intros pre t n outputLen s i -> E N. unfold structure_step. rewrite rd_app0. cbn [bind]. rewrite Z.eqb_refl. cbn [andb].
  replace (length pre + 2 <? outputLen)%nat with true by lia. reflexivity.
Qed.

Lemma step_boundary : forall wlen pre k r i s done abbr open B,
  i = length pre -> i <> 1%nat -> good_item (Boundary k) ->
  inv wlen s done (surface r) [] abbr open B -> r = [] \/ surface r <> [] ->
  exists s', structure_step (pre ++ render_item (Boundary k) ++ render r ++ [0]) (length pre + 4 + length (render r)) i s = Ok ((i + 3)%nat, s') /\
    inv wlen s' done (surface r) [] abbr false (fun n => B n \/ (n = length done /\ (1 < length (render r))%nat)).
Proof.
  intros wlen pre k r i s done abbr open B -> I1 K I R. cbn [render_item wstr app].
  change (Z.of_N (N_of_ascii "[")) with (ch "["). change (Z.of_N (N_of_ascii "B")) with (ch "B"). change (Z.of_N (N_of_ascii "]")) with (ch "]").
  rewrite (step_tag pre _ (3 + length (render r)) _ s _ eq_refl) by lia. unfold structure_tag.
  rewrite (rd_app _ pre _ (ch "B") 1) by reflexivity. rewrite (rd_app _ pre _ k 2) by reflexivity. rewrite (rd_app _ pre _ (ch "]") 3) by reflexivity. cbn [bind].
  replace (length pre + 3 <? length pre + 4 + length (render r))%nat with true by lia. cbn [bind andb].
  rewrite !Z.eqb_refl. replace (k =? ch "h") with false by (symmetry; apply Z.eqb_neq; intros ->; apply K; vm_compute; tauto). cbn [negb andb].
  unfold boundary_tag. replace (Nat.eqb (length pre) 1) with false by lia. cbn [bind negb andb].
  assert (G : exists s1 L m, (if (charsFromDefault s <? charsSeen s)%nat then flush s else Ok s) = Ok s1 /\
    (exists sn d, view (wlen * 2 + 1) s1 L m sn d abbr) /\ (hd 0 L = ch "=" \/ hd 0 L = ch "-") /\ spaced L /\
    Forall2 symbol_for done (symbols L) /\ (length done + length (surface r) = wlen)%nat /\ m = length (surface r) /\
    (last L 0 = ch "=" -> (0 < m)%nat) /\ (forall n, In n (borders L) <-> B n)).
  { destruct (charsFromDefault s <? charsSeen s)%nat eqn:Q.
    - destruct (inv_flush _ _ _ _ _ _ _ I Q) as (s1 & L & M & m & sn & d & E & V & H1 & H2 & H3 & H4 & H5 & H6 & H7 & HB).
      exists s1, L, m. split; [exact E|]. split; [eauto|]. subst M. repeat (split; [assumption|]). split; [intros X; now elim H7|exact HB].
    - destruct I as (L & M & done1 & pend & m & sn & d & V & H1 & H2 & H3 & H4 & H5 & H6 & H7 & H8 & H9 & H10 & H11 & H12 & H13 & H14 & HB).
      destruct (view_fields _ _ _ _ _ _ _ V) as (_ & _ & F3 & F4 & _). rewrite F3, F4 in Q.
      assert (pend = []) by (destruct pend; [reflexivity|cbn [length] in H5; lia]). subst pend. rewrite app_nil_r in H3. subst done1. cbn [length] in *.
      rewrite app_nil_r in H6. change (hyphens []) with 0%nat in H11. exists s, L, m. split; [reflexivity|]. split; [eauto|]. rewrite H6.
      repeat (split; [assumption|]). split; [lia|]. split; [intros X; now destruct (H13 X)|exact HB]. }
  destruct G as (s1 & L & m & -> & (sn & d & V) & H1 & H2 & H4 & H5 & H6 & H7 & HB). cbn [bind].
  pose proof (hd_nonempty L H1) as NE. destruct (view_fields _ _ _ _ _ _ _ V) as (F1 & _).
  assert (LM : length done = length (symbols L)) by now apply Forall2_len in H4. pose proof H2 as [S1 S2].
  assert (G : exists s2 L2, (if (length pre + 5 <? length pre + 4 + length (render r))%nat && (0 <? structurePos s1)%nat then
            last <- rd (structure s1) (structurePos s1 - 1) ;; (if last =? ch "=" then Ok s1 else put s1 (ch "=")) else Ok s1) = Ok s2 /\
    (exists sn d, view (wlen * 2 + 1) s2 L2 m sn d abbr) /\ (hd 0 L2 = ch "=" \/ hd 0 L2 = ch "-") /\ spaced L2 /\ symbols L2 = symbols L /\
    (last L2 0 = ch "=" -> (0 < m)%nat) /\ L2 <> [] /\
    (forall n, In n (borders L2) <-> B n \/ (n = length done /\ (1 < length (render r))%nat))).
  { destruct (length pre + 5 <? length pre + 4 + length (render r))%nat eqn:Q; cbn [andb].
    - rewrite F1. destruct L as [|x L0] eqn:EL using rev_ind; [now elim NE|]. clear IHL0. rewrite app_length. cbn [length].
      replace (0 <? length L0 + 1)%nat with true by lia. pose proof (view_last _ _ _ _ _ _ _ _ V) as RL. rewrite F1 in RL.
      rewrite app_length in RL. cbn [length] in RL. rewrite RL. cbn [bind]. destruct (x =? ch "=") eqn:QX.
      + eexists _, (L0 ++ [x]). split; [reflexivity|]. split; [eauto|]. do 5 (split; [auto|]).
        intros n. rewrite HB. split; [tauto|]. intros [X|[-> _]]; [exact X|]. apply HB. apply Z.eqb_eq in QX. subst x. rewrite LM, symbols_app, app_length. change (symbols [ch "="]) with (@nil Z).
        unfold borders. rewrite borders_app. apply in_or_app. right. left. cbn [length]. lia.
      + assert (NX : x <> ch "=") by now apply Z.eqb_neq. rewrite last_last in S2. specialize (S2 NX).
        destruct (view_put _ _ _ _ _ _ _ (ch "=") V) as (s2 & P2 & V2); [lia|]. rewrite P2. eexists _, _. split; [reflexivity|]. split; [eauto|].
        split; [now rewrite hd_app_same|]. split; [apply spaced_border; [assumption|now rewrite last_last]|].
        split; [rewrite symbols_app; change (symbols [ch "="]) with (@nil Z); now rewrite app_nil_r|].
        split; [|split; [destruct L0; discriminate|]].
        2:{ intros n. unfold borders. rewrite borders_app, in_app_iff, <- LM. cbn [Nat.add borders_from]. rewrite Z.eqb_refl. cbn [In]. fold (borders (L0 ++ [x])). rewrite HB.
            split; [intros [X|[X|[]]]; [now left|right; split; [now symmetry|lia]]|intros [X|[X _]]; [now left|right; left; now symmetry]]. }
        intros _. destruct R as [->|R]; [change (length (render [])) with 0%nat in Q; lia|]. destruct (surface r); [now elim R|cbn [length] in *; lia].
    - eexists _, L. split; [reflexivity|]. split; [eauto|]. do 5 (split; [auto|]). intros n. rewrite HB. split; [tauto|]. intros [X|[_ X]]; [exact X|lia]. }
  destruct G as (s2 & L2 & -> & (sn2 & d2 & V2) & G1 & G2 & G3 & G4 & G5 & G6). cbn [bind].
  eexists. split; [reflexivity|]. apply view_restart in V2. exists L2, (symbols L), done, [], m, 0%nat, 0%nat. rewrite !app_nil_r. cbn [length].
  change (hyphens []) with 0%nat. split; [exact V2|]. split; [exact G1|]. split; [exact G2|]. split; [reflexivity|]. split; [constructor|]. split; [reflexivity|].
  split; [exact G3|]. split; [assumption|]. split; [reflexivity|]. split; [reflexivity|]. split; [lia|]. split; [lia|]. split; [lia|]. split; [auto|].
  split; [destruct L2; [now elim G5|cbn [length]; lia]|exact G6].
Qed.

(** A tag that does not concern the structure. *)
Lemma inv_view : forall wlen s s' done rest pat abbr open abbr' B, (forall L m sn d, view (wlen * 2 + 1) s L m sn d abbr -> view (wlen * 2 + 1) s' L m sn d abbr') ->
  inv wlen s done rest pat abbr open B -> inv wlen s' done rest pat abbr' open B.
Proof.
  intros wlen s s' done rest pat abbr open abbr' B H (L & M & done1 & pend & m & sn & d & V & X). exists L, M, done1, pend, m, sn, d. split; [auto|exact X].
Qed.

Lemma render_cons : forall x r, render (x :: r) = render_item x ++ render r.
Proof. reflexivity. Qed.
Lemma surface_cons : forall x r, surface (x :: r) = surface_item x ++ surface r.
Proof. reflexivity. Qed.

Lemma class_tag_short : forall pre k c post outputLen s, (k =? ch "e") = false -> (k =? ch "a") = false -> (k =? ch "u") = false -> (c =? ch "l") = false ->
  class_tag (pre ++ ch "[" :: ch "L" :: k :: c :: post) (length pre) outputLen s = Ok (3%nat, set_abbr s false).
Proof.
  intros pre k c post outputLen s E A U C. unfold class_tag. rewrite (rd_app _ pre _ k 2) by reflexivity. rewrite (rd_app _ pre _ c 3) by reflexivity.
  cbn [bind]. rewrite E, A, U, C, andb_false_r. reflexivity.
Qed.
Lemma class_tag_name : forall pre c post outputLen s,
  class_tag (pre ++ ch "[" :: ch "L" :: ch "e" :: c :: post) (length pre) outputLen s = Ok (4%nat, set_abbr (set_title s true) false).
Proof.
  intros pre c post outputLen s. unfold class_tag. rewrite (rd_app _ pre _ (ch "e") 2) by reflexivity. rewrite (rd_app _ pre _ c 3) by reflexivity. reflexivity.
Qed.
Lemma class_tag_nl : forall pre post outputLen s,
  class_tag (pre ++ ch "[" :: ch "L" :: ch "n" :: ch "l" :: post) (length pre) outputLen s = Ok (4%nat, set_abbr s false).
Proof.
  intros pre post outputLen s. unfold class_tag. rewrite (rd_app _ pre _ (ch "n") 2) by reflexivity. rewrite (rd_app _ pre _ (ch "l") 3) by reflexivity. reflexivity.
Qed.
Lemma class_tag_a : forall pre c post outputLen s,
  class_tag (pre ++ ch "[" :: ch "L" :: ch "a" :: c :: post) (length pre) outputLen s = Ok (3%nat, set_abbr s true).
Proof.
  intros pre c post outputLen s. unfold class_tag. rewrite (rd_app _ pre _ (ch "a") 2) by reflexivity. rewrite (rd_app _ pre _ c 3) by reflexivity. reflexivity.
Qed.
Lemma class_tag_u : forall pre r outputLen s, outputLen = (length pre + 4 + length (render r))%nat ->
  class_tag (pre ++ ch "[" :: ch "L" :: ch "u" :: ch "]" :: render r ++ [0]) (length pre) outputLen s = Ok (3%nat, set_abbr s (abbreviation "u" r)).
Proof.
  intros pre r outputLen s ->. unfold class_tag. rewrite (rd_app _ pre _ (ch "u") 2) by reflexivity. rewrite (rd_app _ pre _ (ch "]") 3) by reflexivity.
  cbn [bind]. change (ch "u" =? ch "e") with false. change (ch "u" =? ch "n") with false. change (ch "u" =? ch "a") with false. rewrite Z.eqb_refl.
  change (ch "]" =? ch "r") with false. cbn [andb orb]. unfold abbreviation. cbn [String.eqb Ascii.eqb Bool.eqb orb andb].
  destruct (render r) as [|c [|c' t]]; cbn [length].
  - replace (length pre + 5 <? length pre + 4 + 0)%nat with false by lia. reflexivity.
  - replace (length pre + 5 <? length pre + 4 + 1)%nat with false by lia. reflexivity.
  - replace (length pre + 5 <? length pre + 4 + S (S (length t)))%nat with true by lia. rewrite (rd_app _ pre _ c 4) by reflexivity. cbn [bind andb].
    destruct (isDigit c); reflexivity.
Qed.
Lemma class_tag_ur : forall pre post outputLen s, (length pre + 5 < outputLen)%nat -> (4 < length (ch "[" :: ch "L" :: ch "u" :: ch "r" :: post))%nat ->
  class_tag (pre ++ ch "[" :: ch "L" :: ch "u" :: ch "r" :: post) (length pre) outputLen s = Ok (4%nat, set_abbr s true).
Proof.
  intros pre post outputLen s H P. unfold class_tag. rewrite (rd_app _ pre _ (ch "u") 2) by reflexivity. rewrite (rd_app _ pre _ (ch "r") 3) by reflexivity.
  destruct post as [|c post]; [cbn [length] in P; lia|]. cbn [bind]. replace (length pre + 5 <? outputLen)%nat with true by lia.
  change (ch "u" =? ch "e") with false. change (ch "u" =? ch "n") with false. change (ch "u" =? ch "a") with false. rewrite !Z.eqb_refl. cbn [andb orb].
  rewrite (rd_app _ pre _ c 4) by reflexivity. reflexivity.
Qed.

Lemma step_class_tag : forall pre c2 c3 post n outputLen s, outputLen = (length pre + S n)%nat -> (3 <= n)%nat ->
  structure_step (pre ++ ch "[" :: ch "L" :: c2 :: c3 :: post) outputLen (length pre) s =
  ('(n, s) <- class_tag (pre ++ ch "[" :: ch "L" :: c2 :: c3 :: post) (length pre) outputLen s ;; Ok ((length pre + n)%nat, s)).
Proof.
  intros pre c2 c3 post n outputLen s E N. rewrite (step_tag pre _ n) by lia. unfold structure_tag.
  rewrite (rd_app _ pre _ (ch "L") 1) by reflexivity. rewrite (rd_app _ pre _ c2 2) by reflexivity. rewrite (rd_app _ pre _ c3 3) by reflexivity.
  cbn [bind]. replace (length pre + 3 <? outputLen)%nat with true by lia. cbn [bind]. change (ch "L" =? ch "B") with false. change (ch "L" =? ch "X") with false.
  rewrite Z.eqb_refl. reflexivity.
Qed.

Lemma step_class : forall wlen pre k r s done rest pat abbr open B,
  In k class_names -> (k = "ur"%string -> r <> []) -> (forall x, In x r -> render_item x <> []) -> inv wlen s done rest pat abbr open B ->
  exists s', structure_step (pre ++ render_item (Class k) ++ render r ++ [0]) (length pre + length (render_item (Class k)) + length (render r)) (length pre) s =
      Ok ((length pre + (length (render_item (Class k)) - 1))%nat, s') /\
    inv wlen s' done rest pat (abbreviation k r) open B.
Proof.
  intros wlen pre k r s done rest pat abbr open B K UR NR I.
  assert (SHORT : forall c, (ch c =? ch "e") = false -> (ch c =? ch "a") = false -> (ch c =? ch "u") = false -> abbreviation (String c EmptyString) r = false ->
    exists s', structure_step (pre ++ render_item (Class (String c EmptyString)) ++ render r ++ [0]) (length pre + length (render_item (Class (String c EmptyString))) + length (render r)) (length pre) s =
      Ok ((length pre + (length (render_item (Class (String c EmptyString))) - 1))%nat, s') /\
    inv wlen s' done rest pat (abbreviation (String c EmptyString) r) open B).
  { intros c E A U AB. change (render_item (Class (String c EmptyString))) with [ch "["; ch "L"; ch c; ch "]"]. cbn [app length].
    rewrite (step_class_tag pre _ _ _ (3 + length (render r))) by lia. rewrite class_tag_short by (assumption || reflexivity). cbn [bind]. eexists. split; [reflexivity|].
    rewrite AB. eapply inv_view; [|exact I]. intros. eapply view_abbr. eassumption. }
  assert (NAME : forall c, exists s', structure_step (pre ++ render_item (Class (String "e" (String c EmptyString))) ++ render r ++ [0])
        (length pre + length (render_item (Class (String "e" (String c EmptyString)))) + length (render r)) (length pre) s =
      Ok ((length pre + (length (render_item (Class (String "e" (String c EmptyString)))) - 1))%nat, s') /\
    inv wlen s' done rest pat false open B).
  { intros c. change (render_item (Class (String "e" (String c EmptyString)))) with [ch "["; ch "L"; ch "e"; ch c; ch "]"]. cbn [app length].
    rewrite (step_class_tag pre _ _ _ (4 + length (render r))) by lia. rewrite class_tag_name. cbn [bind]. eexists. split; [reflexivity|].
    eapply inv_view; [|exact I]. intros. eapply view_abbr, view_title. eassumption. }
  unfold class_names in K. cbn [In] in K.
  repeat (destruct K as [<-|K]; [try (apply SHORT; reflexivity); try (destruct (NAME "e"%char) as (s' & E & V); exists s'; split; [exact E|exact V]);
    try (destruct (NAME "s"%char) as (s' & E & V); exists s'; split; [exact E|exact V]); try (destruct (NAME "p"%char) as (s' & E & V); exists s'; split; [exact E|exact V]);
    try (destruct (NAME "m"%char) as (s' & E & V); exists s'; split; [exact E|exact V])|]); [..|now elim K].
  - change (render_item (Class "nl")) with [ch "["; ch "L"; ch "n"; ch "l"; ch "]"]. cbn [app length].
    rewrite (step_class_tag pre _ _ _ (4 + length (render r))) by lia. rewrite class_tag_nl. cbn [bind]. eexists. split; [reflexivity|].
    eapply inv_view; [|exact I]. intros. eapply view_abbr. eassumption.
  - change (render_item (Class "a")) with [ch "["; ch "L"; ch "a"; ch "]"]. cbn [app length].
    rewrite (step_class_tag pre _ _ _ (3 + length (render r))) by lia. rewrite class_tag_a. cbn [bind]. eexists. split; [reflexivity|].
    eapply inv_view; [|exact I]. intros. eapply view_abbr. eassumption.
  - change (render_item (Class "u")) with [ch "["; ch "L"; ch "u"; ch "]"]. cbn [app length].
    rewrite (step_class_tag pre _ _ _ (3 + length (render r))) by lia. rewrite class_tag_u by lia. cbn [bind]. eexists. split; [reflexivity|].
    eapply inv_view; [|exact I]. intros. eapply view_abbr. eassumption.
  - change (render_item (Class "ur")) with [ch "["; ch "L"; ch "u"; ch "r"; ch "]"]. cbn [app length].
    assert (R0 : (0 < length (render r))%nat).
    { specialize (UR eq_refl). destruct r as [|x r]; [now elim UR|]. rewrite render_cons, app_length. specialize (NR x (or_introl eq_refl)).
      destruct (render_item x); [now elim NR|cbn [length]; lia]. }
    rewrite (step_class_tag pre _ _ _ (4 + length (render r))) by lia. rewrite class_tag_ur by (cbn [length]; lia). cbn [bind]. eexists. split; [reflexivity|].
    eapply inv_view; [|exact I]. intros. eapply view_abbr. eassumption.
Qed.

Lemma spaced_pattern : forall p L, spaced L -> (p <> [] -> hd 0 p <> ch "=") -> (forall u v, p <> u ++ wstr "==" ++ v) -> spaced (L ++ p).
Proof.
  intros p. pattern p. apply rev_ind; clear p.
  - intros L H _ _. now rewrite app_nil_r.
  - intros c p IH L H H1 H2. rewrite app_assoc.
    assert (IHp : spaced (L ++ p)).
    { apply IH; [exact H| |].
      - intros N. destruct p as [|x p]; [now elim N|]. apply H1. discriminate.
      - intros u v E. apply (H2 u (v ++ [c])). rewrite E, <- !app_assoc. reflexivity. }
    destruct (Z.eq_dec c (ch "=")) as [->|C].
    + apply spaced_border; [exact IHp|]. destruct p as [|x p] using rev_ind; [elim (H1 ltac:(discriminate)); reflexivity|].
      rewrite app_assoc, last_last. intros ->. apply (H2 p []). rewrite <- app_assoc. reflexivity.
    + now apply spaced_symbol.
Qed.

Lemma borders_pattern : forall p k n, In n (borders_from k p) <-> exists u v, p = u ++ ch "=" :: v /\ n = (k + length (symbols u))%nat.
Proof.
  induction p as [|c p IH]; intros k n; cbn [borders_from].
  - split; [intros []|]. intros (u & v & E & _). destruct u; discriminate.
  - destruct (c =? ch "=") eqn:C.
    + apply Z.eqb_eq in C. subst c. cbn [In]. rewrite IH. split.
      * intros [<-|(u & v & -> & ->)]; [exists [], p; split; [reflexivity|change (length (symbols [])) with 0%nat; lia]|].
        exists (ch "=" :: u), v. split; reflexivity.
      * intros (u & v & E & ->). destruct u as [|x u]; [left; change (length (symbols [])) with 0%nat; lia|right].
        injection E as <- ->. exists u, v. split; reflexivity.
    + apply Z.eqb_neq in C. rewrite IH. split.
      * intros (u & v & -> & ->). exists (c :: u), v. split; [reflexivity|]. unfold symbols. cbn [filter]. replace (c =? ch "=") with false by (symmetry; now apply Z.eqb_neq). cbn [negb length]. lia.
      * intros (u & v & E & ->). destruct u as [|x u]; [injection E as -> _; congruence|]. injection E as <- ->. exists u, v. split; [reflexivity|].
        unfold symbols. cbn [filter]. replace (c =? ch "=") with false by (symmetry; now apply Z.eqb_neq). cbn [negb length]. lia.
Qed.

Lemma step_pattern : forall wlen pre p post n s done rest abbr B,
  good_item (Pattern p) -> inv wlen s done rest [] abbr false B -> (length (symbols p) <= length rest)%nat ->
  exists s', structure_step (pre ++ render_item (Pattern p) ++ post) (length pre + length (render_item (Pattern p)) + n) (length pre) s =
      Ok ((length pre + (length (render_item (Pattern p)) - 1))%nat, s') /\
    inv wlen s' done rest (symbols p) abbr false (fun n => B n \/ exists u v, p = u ++ ch "=" :: v /\ n = (length done + length (symbols u))%nat).
Proof.
  intros wlen pre p post n s done rest abbr B (P1 & P2 & P3 & P4 & P5) (L & M & done1 & pend & m & sn & d & V & H1 & H2 & H3 & H4 & H5 & H6 & H7 & H8 & H9 & H10 & H11 & H12 & H13 & H14 & HB) LE.
  specialize (H9 eq_refl). subst pend. rewrite app_nil_r in *. subst done1. cbn [length] in *. change (hyphens []) with 0%nat in H11.
  assert (LM : length done = length M) by now apply Forall2_len in H7.
  assert (SP : spaced (L ++ p)) by (apply spaced_pattern; auto).
  assert (LP : last (L ++ p) 0 <> ch "=").
  { destruct p as [|x p] using rev_ind; [now elim P2|]. rewrite app_assoc, last_last. rewrite last_last in P4. exact P4. }
  pose proof (hyphens_letters p) as HL.
  assert (SL : length (symbols (L ++ p)) = (length M + length (symbols p))%nat) by (rewrite symbols_app, H6, app_length; reflexivity).
  destruct (copy_pattern_spec (wlen * 2 + 1) p (ch "X" :: ch "]" :: post) (length pre + 4) (set_title s false) L m sn d abbr) as (s' & C & V').
  - now apply view_title.
  - intros c I ->. apply P1 in I. vm_compute in I. intuition discriminate.
  - intros u c v E. assert (C1 : (1 <= length (symbols (c :: v)))%nat).
    { destruct (@exists_last _ (c :: v)) as (t & x & E'); [discriminate|]. rewrite E' in *. rewrite symbols_app, app_length.
      rewrite E, app_assoc, last_last in P4. rewrite (symbols_id [x]) by (constructor; auto). cbn [length]. lia. }
    rewrite E, symbols_app, app_length in LE. pose proof (hyphens_letters u). lia.
  - destruct SP as [_ SP]. specialize (SP LP). rewrite SL, app_length in SP. lia.
  - exists s'. split.
    + replace (render_item (Pattern p) ++ post) with (ch "[" :: ch "X" :: ch "r" :: ch "]" :: p ++ ch "[" :: ch "X" :: ch "]" :: post)
        by (cbn [render_item wstr app]; rewrite <- app_assoc; reflexivity).
      replace (length (render_item (Pattern p))) with (length p + 7)%nat by (cbn [render_item wstr app length]; rewrite app_length; cbn [length]; lia).
      rewrite (step_tag pre _ (length p + 6 + n)) by lia. unfold structure_tag.
      rewrite (rd_app _ pre _ (ch "X") 1) by reflexivity. rewrite (rd_app _ pre _ (ch "r") 2) by reflexivity. rewrite (rd_app _ pre _ (ch "]") 3) by reflexivity.
      replace (length pre + 3 <? length pre + (length p + 7) + n)%nat with true by lia. cbn [bind].
      change (ch "X" =? ch "B") with false. rewrite !Z.eqb_refl. cbn [andb]. rewrite skipn_app_more. cbn [skipn]. rewrite C. cbn [bind]. f_equal. f_equal. lia.
    + exists (L ++ p), M, done, [], (m - letters p)%nat, sn, (d + length (symbols p))%nat. rewrite app_nil_r. cbn [length].
      split; [exact V'|]. split; [rewrite hd_app_same; [exact H1|now apply hd_nonempty]|]. split; [exact SP|]. split; [reflexivity|]. split; [constructor|].
      split; [lia|]. split; [rewrite symbols_app, H6; reflexivity|]. split; [exact H7|]. split; [lia|]. split; [auto|]. split; [exact H10|].
      split; [lia|]. split; [exact LE|]. split; [intros X; now elim LP|].
      split; [rewrite app_length|intros k; unfold borders; rewrite borders_app, in_app_iff, H6, <- LM, (borders_pattern p); cbn [Nat.add]; rewrite <- HB; reflexivity].
      assert (length (symbols p) <= length p)%nat by (unfold symbols; clear; induction p as [|x p IH]; cbn [filter length]; [lia|destruct (negb _); cbn [length]; lia]).
      pose proof (hd_nonempty L H1). destruct L; [congruence|cbn [length]; lia].
Qed.

Lemma step_remark : forall pre k t post n s, good_item (Remark k t) ->
  structure_step (pre ++ render_item (Remark k t) ++ post) (length pre + length (render_item (Remark k t)) + n) (length pre) s =
      Ok ((length pre + (length (render_item (Remark k t)) - 1))%nat, s).
Proof.
  intros pre k t post n s (K & T0 & T1).
  replace (render_item (Remark k t) ++ post) with (ch "[" :: ch "X" :: k :: ch "]" :: t ++ ch "[" :: ch "X" :: ch "]" :: post)
    by (cbn [render_item wstr app]; rewrite <- app_assoc; reflexivity).
  replace (length (render_item (Remark k t))) with (length t + 7)%nat by (cbn [render_item wstr app length]; rewrite app_length; cbn [length]; lia).
  rewrite (step_tag pre _ (length t + 6 + n)) by lia. unfold structure_tag.
  rewrite (rd_app _ pre _ (ch "X") 1) by reflexivity. rewrite (rd_app _ pre _ k 2) by reflexivity. rewrite (rd_app _ pre _ (ch "]") 3) by reflexivity.
  replace (length pre + 3 <? length pre + (length t + 7) + n)%nat with true by lia. cbn [bind].
  change (ch "X" =? ch "B") with false. rewrite !Z.eqb_refl. cbn [andb].
  replace (k =? ch "r") with false by (symmetry; apply Z.eqb_neq; intros ->; apply K; now right; left).
  rewrite skipn_app_more. cbn [skipn]. rewrite find_char_spec by (intros x I ->; now apply T1). cbn [bind]. f_equal. f_equal. lia.
Qed.

Lemma step_other : forall pre t post n s, good_item (Tag t) ->
  structure_step (pre ++ render_item (Tag t) ++ post) (length pre + length (render_item (Tag t)) + n) (length pre) s =
      Ok ((length pre + (length (render_item (Tag t)) - 1))%nat, s).
Proof.
  intros pre t post n s (T0 & T1 & T2 & T3 & T4 & T5 & T6).
  replace (render_item (Tag t) ++ post) with (ch "[" :: t ++ ch "]" :: post)
    by (cbn [render_item wstr app]; rewrite <- app_assoc; reflexivity).
  replace (length (render_item (Tag t))) with (length t + 2)%nat by (cbn [render_item wstr app length]; rewrite app_length; cbn [length]; lia).
  rewrite (step_tag pre _ (length t + 1 + n)) by lia. unfold structure_tag.
  destruct t as [|c1 [|c2 t]]; [cbn in T3; lia|cbn in T3; lia|]. cbn [hd nth length] in *.
  rewrite (rd_app _ pre _ c1 1) by reflexivity. rewrite (rd_app _ pre _ c2 2) by reflexivity.
  replace (length pre + 3 <? length pre + (S (S (length t)) + 2) + n)%nat with true by lia.
  assert (C3 : exists c3, rd (pre ++ ch "[" :: (c1 :: c2 :: t) ++ ch "]" :: post) (length pre + 3) = Ok c3 /\ (c3 = ch "]" -> t = [])).
  { destruct t as [|c3 t].
    - exists (ch "]"). split; [now apply rd_app|auto].
    - exists c3. split; [now apply rd_app|]. intros ->. elim T2. right. right. now left. }
  destruct C3 as (c3 & C3 & C3'). rewrite C3. cbn [bind andb].
  replace (c1 =? ch "X") with false by (symmetry; now apply Z.eqb_neq). replace (c1 =? ch "L") with false by (symmetry; now apply Z.eqb_neq).
  replace ((c1 =? ch "B") && negb (c2 =? ch "h") && (c3 =? ch "]")) with false.
  2:{ symmetry. destruct (c1 =? ch "B") eqn:B; [|reflexivity]. apply Z.eqb_eq in B. destruct (c3 =? ch "]") eqn:C; [|now rewrite !andb_false_r].
      apply Z.eqb_eq in C. apply C3' in C. subst t. rewrite (T6 B eq_refl). reflexivity. }
  cbn [andb]. rewrite skipn_app_length. cbn [find_char]. change (ch "[" =? ch "]") with false. cbn iota.
  change (c1 :: c2 :: t ++ ch "]" :: post) with ((c1 :: c2 :: t) ++ ch "]" :: post).
  match goal with |- bind ?e _ = _ => assert (E : e = Ok (S (length pre) + length (c1 :: c2 :: t))%nat) by (apply (find_char_spec (ch "]") (c1 :: c2 :: t)); intros x I ->; now apply T2) end.
  rewrite E. cbn [bind length]. f_equal. f_equal. lia.
Qed.

(** ** The whole output *)

Definition symbol_of_pattern (x : Z) : Prop := is_symbol x \/ x = ch "-".

Lemma pattern_symbols : forall p, good_item (Pattern p) -> Forall symbol_of_pattern (symbols p).
Proof.
  intros p (P & _). apply Forall_forall. intros x I. unfold symbols in I. apply filter_In in I. destruct I as [I B]. apply P in I.
  unfold symbol_of_pattern, is_symbol. change (wstr "ijpq-=") with (wstr "ijpq" ++ [ch "-"; ch "="]) in I. apply in_app_or in I.
  destruct I as [I|[<-|[<-|[]]]]; [now left|now right|]. rewrite Z.eqb_refl in B. discriminate.
Qed.

Lemma render_item_nonempty : forall x, render_item x <> [].
Proof. intros [c| | |k|k|p|k t|t]; discriminate. Qed.
Lemma render_item_length : forall x, (1 <= length (render_item x))%nat.
Proof. intros x. pose proof (render_item_nonempty x). destruct (render_item x); [congruence|cbn; lia]. Qed.

Definition next_state (x : item) (pat : list Z) (abbr open : bool) (r : list item) : list Z * bool * bool :=
  match x with
  | Letter _ => (tl pat, abbr, match pat with [] => true | _ => open end)
  | Hyphen => (tl pat, abbr, match pat with [] => false | _ => open end)
  | Colon => ([], false, false)
  | Boundary _ => ([], abbr, false)
  | Class k => (pat, abbreviation k r, open)
  | Pattern p => (symbols p, abbr, false)
  | Remark _ _ | Tag _ => (pat, abbr, open)
  end.

Definition border_of (done : list Z) (x : item) (r : list item) (n : nat) : Prop :=
  match x with
  | Boundary _ => n = length done /\ (1 < length (render r))%nat
  | Pattern p => exists u v, p = u ++ ch "=" :: v /\ n = (length done + length (symbols u))%nat
  | _ => False
  end.

Fixpoint borders_of (done : list Z) (l : list item) (n : nat) : Prop :=
  match l with [] => False | x :: r => border_of done x r n \/ borders_of (done ++ surface_item x) r n end.

Lemma inv_borders : forall wlen s done rest pat abbr open (B B' : nat -> Prop), (forall n, B n <-> B' n) -> inv wlen s done rest pat abbr open B -> inv wlen s done rest pat abbr open B'.
Proof.
  intros wlen s done rest pat abbr open B B' E (L & M & done1 & pend & m & sn & d & V & H1 & H2 & H3 & H4 & H5 & H6 & H7 & H8 & H9 & H10 & H11 & H12 & H13 & H14 & HB).
  exists L, M, done1, pend, m, sn, d. do 15 (split; [assumption|]). intros n. now rewrite HB.
Qed.
Lemma inv_no_border : forall wlen s done rest pat abbr open (B : nat -> Prop), inv wlen s done rest pat abbr open B -> inv wlen s done rest pat abbr open (fun n => B n \/ False).
Proof. intros wlen s done rest pat abbr open B. apply inv_borders. intros n. tauto. Qed.

Lemma step_item : forall wlen pre x r s done pat abbr open B, good_item x -> fits_together (x :: r) pat abbr open ->
  Forall symbol_of_pattern pat -> (length pre = 0%nat -> x <> Hyphen) -> (length pre = 1%nat -> forall k, x <> Boundary k) ->
  inv wlen s done (surface (x :: r)) pat abbr open B ->
  exists s' pat' abbr' open', structure_step (pre ++ render_item x ++ render r ++ [0]) (length pre + length (render_item x) + length (render r)) (length pre) s =
      Ok ((length pre + (length (render_item x) - 1))%nat, s') /\
    inv wlen s' (done ++ surface_item x) (surface r) pat' abbr' open' (fun n => B n \/ border_of done x r n) /\ fits_together r pat' abbr' open' /\ Forall symbol_of_pattern pat'.
Proof.
  intros wlen pre x r s done pat abbr open B G F P0 I0 I1 I. rewrite surface_cons in I.
  destruct x as [c| | |k|k|p|k t|t]; cbn [surface_item app] in I; cbn [surface_item border_of]; cbn [fits_together] in F.
  - destruct (step_letter wlen pre c (render r ++ [0]) (length pre) s done (surface r) pat abbr open B (length pre + 1 + length (render r)) eq_refl G I) as (s' & E & V).
    { destruct pat as [|x pat]; [exact Logic.I|]. destruct F as [F _]. apply Forall_inv in P0. destruct P0; [assumption|now elim F]. }
    destruct pat as [|x pat].
    + exists s', [], abbr, true. split; [cbn [render_item app length Nat.sub]; rewrite Nat.add_0_r; exact E|]. split; [now apply inv_no_border|]. split; [exact F|constructor].
    + destruct F as [_ F]. apply Forall_inv_tail in P0. exists s', pat, abbr, open. split; [cbn [render_item app length Nat.sub]; rewrite Nat.add_0_r; exact E|]. split; [now apply inv_no_border|auto].
  - destruct (step_hyphen wlen pre (render r ++ [0]) (length pre) s done (surface r) pat abbr open B (length pre + 1 + length (render r)) eq_refl) as (s' & E & V); [intros X; now elim (I0 X)|exact I|..].
    { destruct pat as [|x pat]; [exact Logic.I|]. tauto. }
    destruct pat as [|x pat].
    + exists s', [], abbr, false. split; [change (render_item Hyphen) with [ch "-"]; cbn [app length Nat.sub]; rewrite Nat.add_0_r; exact E|]. split; [now apply inv_no_border|]. split; [exact F|constructor].
    + destruct F as [_ F]. apply Forall_inv_tail in P0. exists s', pat, abbr, open. split; [change (render_item Hyphen) with [ch "-"]; cbn [app length Nat.sub]; rewrite Nat.add_0_r; exact E|]. split; [now apply inv_no_border|auto].
  - destruct F as (-> & A & F).
    destruct (step_colon wlen pre (render r ++ [0]) (length pre) s done (surface r) abbr open B (length pre + 1 + length (render r)) eq_refl I A) as (s' & E & V).
    exists s', [], false, false. split; [change (render_item Colon) with [ch ":"]; cbn [app length Nat.sub]; rewrite Nat.add_0_r; exact E|]. split; [now apply inv_no_border|auto].
  - destruct F as (-> & A & F). rewrite app_nil_r.
    destruct (step_boundary wlen pre k r (length pre) s done abbr open B eq_refl) as (s' & E & V); [intros X; now apply (I1 X k)|exact G|exact I|exact A|].
    exists s', [], abbr, false. split; [change (length (render_item (Boundary k))) with 4%nat; exact E|]. auto.
  - destruct F as (A & F). rewrite app_nil_r.
    destruct (step_class wlen pre k r s done (surface r) pat abbr open B G A) as (s' & E & V); [intros; apply render_item_nonempty|exact I|].
    exists s', pat, (abbreviation k r), open. split; [exact E|]. split; [now apply inv_no_border|auto].
  - destruct F as (-> & -> & F). rewrite app_nil_r.
    destruct (step_pattern wlen pre p (render r ++ [0]) (length (render r)) s done (surface r) abbr B G I) as (s' & E & V); [eapply fits_pat; exact F|].
    exists s', (symbols p), abbr, false. split; [exact E|]. split; [exact V|]. split; [exact F|now apply pattern_symbols].
  - rewrite app_nil_r. exists s, pat, abbr, open. split; [now apply step_remark|]. split; [now apply inv_no_border|auto].
  - rewrite app_nil_r. exists s, pat, abbr, open. split; [now apply step_other|]. split; [now apply inv_no_border|auto].
Qed.

Lemma loop_items : forall l wlen pre s done pat abbr open B fuel, Forall good_item l -> fits_together l pat abbr open ->
  Forall symbol_of_pattern pat -> (length pre = 0%nat -> forall r, l <> Hyphen :: r) -> (length pre = 1%nat -> forall k r, l <> Boundary k :: r) ->
  (length pre = 0%nat -> forall x k r, l = x :: Boundary k :: r -> length (render_item x) <> 1%nat) ->
  inv wlen s done (surface l) pat abbr open B -> (length (render l) <= fuel)%nat ->
  exists s' abbr' open', structure_loop fuel (pre ++ render l ++ [0]) (length pre + length (render l)) (length pre) s = Ok s' /\
    inv wlen s' (done ++ surface l) [] [] abbr' open' (fun n => B n \/ borders_of done l n).
Proof.
  induction l as [|x l IH]; intros wlen pre s done pat abbr open B fuel G F P0 I0 I1 I2 I FU.
  - cbn [fits_together] in F. subst pat. exists s, abbr, open. change (length (render [])) with 0%nat. rewrite Nat.add_0_r.
    split; [|change (surface []) with (@nil Z); rewrite app_nil_r; apply inv_no_border; exact I].
    destruct fuel; cbn [structure_loop]; rewrite Nat.ltb_irrefl; reflexivity.
  - apply Forall_cons_iff in G. destruct G as [G1 G2]. rewrite render_cons, app_length in *. pose proof (render_item_length x) as RL.
    destruct fuel as [|fuel]; [lia|].
    destruct (step_item wlen pre x l s done pat abbr open B G1 F P0) as (s' & pat' & abbr' & open' & E & V & F' & P'); [| |exact I|].
    { intros X ->. now apply (I0 X l). }
    { intros X k ->. now apply (I1 X k l). }
    destruct (IH wlen (pre ++ render_item x) s' (done ++ surface_item x) pat' abbr' open' (fun n => B n \/ border_of done x l n) fuel G2 F' P') as (s2 & a2 & o2 & E2 & V2); [| | |exact V|lia|].
    { rewrite app_length. intros X. lia. }
    { rewrite app_length. intros X k r ->. apply (I2 ltac:(lia) x k r eq_refl). lia. }
    { rewrite app_length. intros X. lia. }
    exists s2, a2, o2. split; [|rewrite surface_cons, app_assoc; eapply inv_borders; [|exact V2]; intros n; cbn [borders_of]; tauto].
    cbn [structure_loop]. replace (length pre <? length pre + (length (render_item x) + length (render l)))%nat with true by lia.
    rewrite <- app_assoc, Nat.add_assoc, E. cbn [bind]. rewrite <- E2. rewrite app_length, <- app_assoc. f_equal. lia.
Qed.

Lemma no_nul_symbols : forall L, Forall (fun c => c <> 0) (symbols L) -> ~ In 0 L.
Proof.
  intros L F I. rewrite Forall_forall in F. apply (F 0); [|reflexivity]. apply filter_In. split; [exact I|reflexivity].
Qed.

Lemma symbol_for_nul : forall c x, symbol_for c x -> x <> 0.
Proof.
  intros c x H ->. unfold symbol_for in H. destruct (c =? ch "-"); [vm_compute in H; discriminate|]. destruct (c =? ch ":"); [vm_compute in H; discriminate|].
  vm_compute in H. intuition discriminate.
Qed.

(** Writing the terminator. *)
Lemma finish_view : forall size s L m sn d a, view size s L m sn d a -> (length L < size)%nat -> ~ In 0 L ->
  (buf <- wr (structure s) (structurePos s) 0 ;; Ok (cstr buf)) = Ok L.
Proof.
  intros size s L m sn d a (t & buf & -> & B & F) H N. cbn [structure structurePos]. unfold wr. replace (length L <? length buf)%nat with true by lia. cbn [bind].
  f_equal. rewrite <- (firstn_skipn (S (length L)) (upd buf (length L) 0)), firstn_upd by lia. rewrite F.
  generalize (skipn (S (length L)) (upd buf (length L) 0)) as tail. intros tail. clear - N. induction L as [|c L IH]; [reflexivity|]. cbn [app cstr]. replace (c =? 0) with false by (symmetry; apply Z.eqb_neq; intros ->; apply N; now left).
  f_equal. apply IH. intros I. apply N. now right.
Qed.

Definition finish (s : structure_state) : res (list Z) :=
  s <- createDefaultStructure (charsMissing s) s ;; buf <- wr (structure s) (structurePos s) 0 ;; Ok (cstr buf).

Lemma finish_inv : forall wlen s done abbr open B, inv wlen s done [] [] abbr open B ->
  exists st, finish s = Ok st /\
    structure_of done st /\ (length st <= 2 * wlen)%nat /\ (forall n, In n (borders st) <-> B n).
Proof.
  intros wlen s done abbr open B (L & M & done1 & pend & m & sn & d & V & H1 & H2 & H3 & H4 & H5 & H6 & H7 & H8 & H9 & H10 & H11 & H12 & H13 & H14 & HB).
  destruct (view_fields _ _ _ _ _ _ _ V) as (_ & F2 & _). cbn [length] in *. change (hyphens []) with 0%nat in H11. rewrite app_nil_r in H6.
  assert (LM : length done1 = length M) by now apply Forall2_len in H7. subst done. rewrite app_length in H10. unfold finish. rewrite F2.
  assert (LB : (length L + m <= 2 * wlen)%nat).
  { destruct H2 as [A B0]. rewrite H6 in A, B0. destruct (Z.eq_dec (last L 0) (ch "=")) as [X|X]; [apply H13 in X|specialize (B0 X)]; lia. }
  destruct (view_default _ m s L m sn d abbr V ltac:(lia)) as (s' & X & E & V' & X1 & X2). rewrite E. cbn [bind].
  assert (SX : symbols (L ++ X) = M ++ X) by (rewrite symbols_app, H6, (symbols_default X X2); reflexivity).
  assert (FX : Forall2 symbol_for (done1 ++ pend) (M ++ X)) by (apply Forall2_app; [exact H7|apply symbols_for; [exact H4|exact X2|lia]]).
  exists (L ++ X). split; [|split; [split|split; [|rewrite borders_symbols by (now apply borders_default); exact HB]]].
  - eapply finish_view; [exact V'|rewrite app_length; lia|]. apply no_nul_symbols. rewrite SX. clear - FX. induction FX; constructor; [eapply symbol_for_nul; eassumption|assumption].
  - rewrite SX. exact FX.
  - rewrite hd_app_same; [exact H1|now apply hd_nonempty].
  - rewrite app_length. lia.
Qed.

Definition start_state (wlen : nat) : structure_state := mk_ps (upd (repeat 0 (wlen * 2 + 1)) 0 (ch "=")) 1 wlen 0 0 false false.

Lemma start_view : forall wlen, view (wlen * 2 + 1) (start_state wlen) [ch "="] wlen 0 0 false.
Proof.
  intros wlen. exists false, (upd (repeat 0 (wlen * 2 + 1)) 0 (ch "=")). split; [reflexivity|]. split; [rewrite upd_length, repeat_length; reflexivity|].
  replace (wlen * 2 + 1)%nat with (S (wlen * 2)) by lia. reflexivity.
Qed.

Lemma parseStructure_start : forall o wlen, parseStructure o wlen =
  bind (structure_loop (length o) (o ++ [0]) (length o) 0 (start_state wlen)) finish.
Proof.
  intros o wlen. unfold parseStructure, wr at 1. rewrite repeat_length. replace (0 <? wlen * 2 + 1)%nat with true by lia. reflexivity.
Qed.

(** The first hyphen replaces the border at the start of the word. *)
Lemma first_hyphen : forall wlen post outputLen, exists s, structure_step (ch "-" :: post) outputLen 0 (start_state wlen) = Ok (0%nat, s) /\ view (wlen * 2 + 1) s [ch "-"] (wlen - 1) 0 0 false.
Proof.
  intros wlen post outputLen. destruct (start_view wlen) as (t & buf & E & B & F). injection E as <- <-.
  eexists. split.
  - unfold structure_step. cbn [rd nth_error bind]. change (ch "-" =? ch "[") with false. cbn [andb]. rewrite Z.eqb_refl. unfold structure_hyphen, start_state, one_less, set_missing.
    cbn [charsSeen charsFromDefault Nat.ltb Nat.leb Nat.eqb bind structure structurePos charsMissing defaultTitleCase isAbbr]. unfold wr.
    replace (0 <? length (upd (repeat 0%Z (wlen * 2 + 1)) 0 (ch "=")))%nat with true by (rewrite B; lia). cbn [bind]. reflexivity.
  - eexists _, _. split; [reflexivity|]. split; [rewrite upd_length; exact B|]. change (length [ch "-"]) with 1%nat. rewrite firstn_upd by lia. reflexivity.
Qed.

(** A boundary directly behind the first character. *)
Lemma boundary_at_1 : forall wlen c k r s, good_item (Boundary k) -> view (wlen * 2 + 1) s [ch "-"] (wlen - 1) 0 0 false -> (0 < wlen)%nat ->
  exists s', structure_step (c :: render_item (Boundary k) ++ r ++ [0]) (1 + 4 + length r) 1 s = Ok (4%nat, s') /\ view (wlen * 2 + 1) s' [ch "-"; ch "="] (wlen - 1) 0 0 false.
Proof.
  intros wlen c k r s K V W. change (c :: render_item (Boundary k) ++ r ++ [0]) with ([c] ++ ch "[" :: ch "B" :: k :: ch "]" :: r ++ [0]).
  rewrite (step_tag [c] _ (3 + length r)) by (cbn [length]; lia). unfold structure_tag.
  change (1 + 1)%nat with (length [c] + 1)%nat. change (1 + 2)%nat with (length [c] + 2)%nat. change (1 + 3)%nat with (length [c] + 3)%nat.
  rewrite (rd_app _ [c] _ (ch "B") 1) by reflexivity. rewrite (rd_app _ [c] _ k 2) by reflexivity. rewrite (rd_app _ [c] _ (ch "]") 3) by reflexivity.
  replace (length [c] + 3 <? 1 + 4 + length r)%nat with true by (cbn [length]; lia). cbn [bind]. rewrite !Z.eqb_refl.
  replace (k =? ch "h") with false by (symmetry; apply Z.eqb_neq; intros ->; apply K; now right; left). cbn [andb negb].
  unfold boundary_tag. cbn [Nat.eqb negb andb]. destruct (view_put _ _ _ _ _ _ _ (ch "=") V) as (s1 & E & V1); [cbn [length]; lia|]. rewrite E. cbn [bind].
  destruct (view_fields _ _ _ _ _ _ _ V1) as (_ & _ & F3 & F4 & _). rewrite F3, F4. cbn [Nat.ltb Nat.leb bind].
  eexists. split; [reflexivity|]. apply view_restart in V1. exact V1.
Qed.

Lemma loop_step : forall f b n i s, (i < n)%nat -> structure_loop (S f) b n i s = ('(j, s) <- structure_step b n i s ;; structure_loop f b n (S j) s).
Proof. intros f b n i s H. cbn [structure_loop]. replace (i <? n)%nat with true by lia. reflexivity. Qed.

Definition border_later (done : list Z) (l : list item) (n : nat) : Prop :=
  (exists a k b, l = a ++ Boundary k :: b /\ n = (length done + length (surface a))%nat /\ (1 < length (render b))%nat) \/
  (exists a p b u v, l = a ++ Pattern p :: b /\ p = u ++ ch "=" :: v /\ n = (length done + length (surface a) + length (symbols u))%nat).

Lemma borders_of_later : forall l done n, borders_of done l n <-> border_later done l n.
Proof.
  induction l as [|x l IH]; intros done n; cbn [borders_of].
  - split; [intros []|]. intros [(a & k & b & E & _)|(a & p & b & u & v & E & _)]; destruct a; discriminate.
  - rewrite IH. unfold border_later. split.
    + intros [H|[(a & k & b & -> & -> & H)|(a & p & b & u & v & -> & -> & ->)]].
      * destruct x; cbn [border_of] in H; try (now elim H).
        -- destruct H as [-> H]. left. exists [], k, l. split; [reflexivity|]. split; [cbn [length surface map concat]; lia|exact H].
        -- destruct H as (u & v & -> & ->). right. exists [], (u ++ ch "=" :: v), l, u, v. split; [reflexivity|]. split; [reflexivity|]. cbn [length surface map concat]; lia.
      * left. exists (x :: a), k, b. split; [reflexivity|]. rewrite surface_cons, !app_length. split; [lia|exact H].
      * right. exists (x :: a), (u ++ ch "=" :: v), b, u, v. split; [reflexivity|]. split; [reflexivity|]. rewrite surface_cons, !app_length. lia.
    + intros [(a & k & b & E & -> & H)|(a & p & b & u & v & E & -> & ->)].
      * destruct a as [|y a]; injection E as -> ->.
        -- left. cbn [border_of]. split; [cbn [length surface map concat]; lia|exact H].
        -- right. left. exists a, k, b. split; [reflexivity|]. rewrite surface_cons, !app_length. split; [lia|exact H].
      * destruct a as [|y a]; injection E as -> ->.
        -- left. cbn [border_of]. exists u, v. split; [reflexivity|]. cbn [length surface map concat]; lia.
        -- right. right. exists a, (u ++ ch "=" :: v), b, u, v. split; [reflexivity|]. split; [reflexivity|]. rewrite surface_cons, !app_length. lia.
Qed.

Lemma border_at_hyphen : forall r n, border_at (Hyphen :: r) n <-> (exists k r', r = Boundary k :: r' /\ n = 1%nat) \/ borders_of [ch "-"] r n.
Proof.
  intros r n. rewrite borders_of_later. unfold border_at, border_later. cbn [length]. split.
  - intros [[_ H]|[(a & k & b & E & -> & H)|(a & p & b & u & v & E & -> & ->)]]; [now elim (H r)| |].
    + destruct a as [|y a]; [discriminate|]. injection E as <- ->. destruct H as [H|H].
      * right. left. exists a, k, b. split; [reflexivity|]. split; [reflexivity|exact H].
      * injection H as ->. left. now exists k, b.
    + destruct a as [|y a]; [discriminate|]. injection E as <- ->. right. right. exists a, (u ++ ch "=" :: v), b, u, v. auto.
  - intros [(k & r' & -> & ->)|[(a & k & b & -> & -> & H)|(a & p & b & u & v & -> & -> & ->)]].
    + right. left. exists [Hyphen], k, r'. auto.
    + right. left. exists (Hyphen :: a), k, b. auto.
    + right. right. exists (Hyphen :: a), (u ++ ch "=" :: v), b, u, v. auto.
Qed.

Lemma border_at_other : forall l n, (forall r, l <> Hyphen :: r) -> (border_at l n <-> n = 0%nat \/ borders_of [] l n).
Proof.
  intros l n NH. rewrite borders_of_later. unfold border_at, border_later. cbn [length Nat.add]. split.
  - intros [[-> _]|[(a & k & b & E & -> & H)|H]]; [now left| |now right; right].
    right. left. exists a, k, b. split; [exact E|]. split; [reflexivity|]. destruct H as [H| ->]; [exact H|]. subst l. now elim (NH (Boundary k :: b)).
  - intros [->|[(a & k & b & E & -> & H)|H]]; [now left| |now right; right]. right. left. exists a, k, b. auto.
Qed.

Theorem parseStructure_shape : forall l, well_formed l ->
  exists st, parseStructure (render l) (length (surface l)) = Ok st /\ structure_of (surface l) st /\ (length st <= 2 * length (surface l))%nat /\ (forall n, In n (borders st) <-> border_at l n).
Proof.
  intros l (G & F & NE & W1 & W2). rewrite parseStructure_start.
  assert (W0 : (0 < length (surface l))%nat) by (destruct (surface l); [congruence|cbn; lia]).
  assert (CASE : (exists r, l = Hyphen :: r) \/ forall r, l <> Hyphen :: r) by (destruct l as [|[c| | |k|k|p|k t|t] r]; try (right; discriminate); left; now exists r).
  destruct CASE as [[r ->]|NH].
  - change (surface (Hyphen :: r)) with (ch "-" :: surface r) in *. change (render (Hyphen :: r)) with (ch "-" :: render r). cbn [app length].
    apply Forall_inv_tail in G. cbn [fits_together] in F.
    destruct (first_hyphen (S (length (surface r))) (render r ++ [0]) (S (length (render r)))) as (s1 & E1 & V1). cbn [Nat.sub] in V1. rewrite Nat.sub_0_r in V1.
    assert (CB : (exists k r', r = Boundary k :: r') \/ forall k r', r <> Boundary k :: r')
      by (destruct r as [|[c| | |k|k|p|k t|t] r']; try (right; discriminate); left; now exists k, r').
    rewrite loop_step by lia. rewrite E1. cbn [bind].
    destruct CB as [(k & r' & ->)|NB].
    + apply Forall_cons_iff in G. destruct G as [G1 G2]. cbn [fits_together] in F. destruct F as (_ & F1 & F2).
      change (surface (Boundary k :: r')) with (surface r') in *. rewrite render_cons. rewrite <- app_assoc. rewrite app_length.
      change (length (render_item (Boundary k))) with 4%nat.
      destruct (boundary_at_1 (S (length (surface r'))) (ch "-") k (render r') s1 G1) as (s2 & E2 & V2); [cbn [Nat.sub]; rewrite Nat.sub_0_r; exact V1|lia|].
      cbn [Nat.sub] in V2. rewrite Nat.sub_0_r in V2. cbn [Nat.add] in E2 |- *. rewrite loop_step by lia. rewrite E2. cbn [bind].
      destruct F1 as [->|F1].
      * change (render []) with (@nil Z). change (surface []) with (@nil Z) in *. cbn [length] in *. cbn [structure_loop Nat.ltb Nat.leb bind].
        destruct (view_fields _ _ _ _ _ _ _ V2) as (_ & F2' & _). unfold finish. rewrite F2'. cbn [createDefaultStructure bind].
        erewrite finish_view; [|exact V2|cbn [length]; lia|vm_compute; intuition discriminate].
        eexists. split; [reflexivity|]. split; [split; [repeat constructor|now right]|]. split; [cbn [length]; lia|]. intros n. rewrite border_at_hyphen. cbn. intuition (try lia). { left. exists k, []. auto. } { destruct H0 as (? & ? & _ & ->). now left. }
      * destruct (loop_items r' (S (length (surface r'))) (ch "-" :: render_item (Boundary k)) s2 [ch "-"] [] false false (fun n => n = 1%nat) (S (S (S (length (render r'))))) G2 F2)
          as (s3 & a3 & o3 & E3 & V3); [constructor|discriminate|discriminate|discriminate| |lia|].
        { exists [ch "-"; ch "="], [ch "-"], [ch "-"], [], (length (surface r')), 0%nat, 0%nat. cbn [app length]. change (hyphens []) with 0%nat.
          split; [exact V2|]. split; [now right|]. split; [split; cbn; lia|]. split; [reflexivity|]. split; [constructor|]. split; [reflexivity|]. split; [reflexivity|].
          split; [repeat constructor|]. split; [reflexivity|]. split; [reflexivity|]. split; [lia|]. split; [lia|]. split; [lia|]. split; [|split; [lia|cbn; intuition lia]].
          intros _. split; [reflexivity|]. destruct (surface r'); [congruence|cbn; lia]. }
        change (length (ch "-" :: render_item (Boundary k))) with 5%nat in E3. cbn [Nat.add] in E3. rewrite <- app_comm_cons in E3. rewrite E3. cbn [bind].
        destruct (finish_inv _ _ _ _ _ _ V3) as (st & E4 & O & LE & HB). rewrite E4. exists st. split; [reflexivity|]. split; [exact O|]. split; [exact LE|].
        intros n. rewrite HB, border_at_hyphen. cbn [borders_of border_of surface_item length]. rewrite app_nil_r.
        split; [intros [->|X]; [left; now exists k, r'|now right; right]|intros [(? & ? & _ & ->)|[[-> _]|X]]; [now left|now left|now right]].
    + destruct (loop_items r (S (length (surface r))) [ch "-"] s1 [ch "-"] [] false false (fun _ => False) (length (render r)) G F) as (s3 & a3 & o3 & E3 & V3);
        [constructor|discriminate|intros _; exact NB|discriminate| |lia|].
      { exists [ch "-"], [ch "-"], [ch "-"], [], (length (surface r)), 0%nat, 0%nat. cbn [app length]. change (hyphens []) with 0%nat.
        split; [exact V1|]. split; [now right|]. split; [split; cbn; lia|]. split; [reflexivity|]. split; [constructor|]. split; [reflexivity|]. split; [reflexivity|].
        split; [repeat constructor|]. split; [reflexivity|]. split; [reflexivity|]. split; [lia|]. split; [lia|]. split; [lia|]. split; [|split; [lia|cbn; intuition lia]].
        intros X. vm_compute in X. discriminate. }
      cbn [length Nat.add app] in E3. rewrite E3. cbn [bind].
      destruct (finish_inv _ _ _ _ _ _ V3) as (st & E4 & O & LE & HB). rewrite E4. exists st. split; [reflexivity|]. split; [exact O|]. split; [exact LE|].
        intros n. rewrite HB, border_at_hyphen. split; [intros [[]|X]; now right|intros [(k & r' & X & _)|X]; [now elim (NB k r')|now right]].
  - destruct (loop_items l (length (surface l)) [] (start_state (length (surface l))) [] [] false false (fun n => n = 0%nat) (length (render l)) G F) as (s3 & a3 & o3 & E3 & V3);
      [constructor|intros _; exact NH|discriminate| | |lia|].
    { intros _ x k r -> H. destruct x as [c| | |k'|k'|p|k' t|t].
      - now apply (W1 c k r).
      - now apply (NH (Boundary k :: r)).
      - now apply (W2 k r).
      - discriminate.
      - cbn [render_item wstr app length] in H. lia.
      - cbn [render_item wstr app length] in H. lia.
      - cbn [render_item wstr app length] in H. lia.
      - cbn [render_item wstr app length] in H. rewrite app_length in H. cbn [length] in H. lia. }
    { exists [ch "="], [], [], [], (length (surface l)), 0%nat, 0%nat. cbn [app length]. change (hyphens []) with 0%nat.
      split; [apply start_view|]. split; [now left|]. split; [split; cbn; [lia|intros X; now elim X]|]. split; [reflexivity|]. split; [constructor|]. split; [reflexivity|]. split; [reflexivity|].
      split; [constructor|]. split; [reflexivity|]. split; [reflexivity|]. split; [lia|]. split; [lia|]. split; [lia|]. split; [|split; [lia|cbn; intuition lia]]. intros _. auto. }
    cbn [length Nat.add app] in E3. rewrite E3. cbn [bind].
    destruct (finish_inv _ _ _ _ _ _ V3) as (st & E4 & O & LE & HB). rewrite E4. exists st. split; [reflexivity|]. split; [exact O|]. split; [exact LE|].
        intros n. rewrite HB, border_at_other by exact NH. reflexivity.
Qed.
