(** * Proofs about verdicts from analyses, hyphens and soft hyphens *)
From Verif Require Import Base BaseFacts CharSpec CharModel CharProofs SpellerBase SpellSpec AnalysisModel AnalyzerBase
  Utf8Spec Utf8Model Utf8Proofs HyphModel HyphSpec HyphProofs AdapterModel TweaksModel TweaksSpec.

(** ** One analysis *)

Lemma skip_borders_ok : forall st, ~ In 0 st ->
  exists st', skip_borders (st ++ [0]) = Ok (st' ++ [0]) /\ symbols st' = symbols st /\ ~ In 0 st' /\
    (forall s r, st' = s :: r -> s <> 0x3D /\ s <> 0 /\ symbols st = s :: symbols r) /\
    (forall s r, st = s :: r -> s <> 0x3D -> st' = st).
Proof.
  induction st as [|s st IH]; intros N; cbn [app skip_borders].
  - exists []. split; [reflexivity|]. split; auto. split; auto. split; intros; discriminate.
  - destruct (s =? 0x3D) eqn:E.
    + destruct IH as (st' & H1 & H2 & H3 & H4 & H5); [intros I; apply N; right; auto|]. exists st'. split; auto.
      assert (symbols (s :: st) = symbols st) as SY by (unfold symbols; cbn [filter]; rewrite E; reflexivity).
      rewrite SY. split; auto. split; auto. split; auto. intros s0 r0 X Y. inversion X. subst. lia.
    + exists (s :: st). split; auto. split; auto. split; auto. split; auto.
      intros s0 r0 X. inversion X. subst. split; [lia|]. split; [intros ->; apply N; left; auto|].
      unfold symbols. cbn [filter]. rewrite E. reflexivity.
Qed.

(** The final verdict of the loop, in terms of the symbols that are left. *)
Definition bad_from (i : nat) (w sy : list Z) : Prop :=
  exists k c s, nth_error w k = Some c /\ nth_error sy k = Some s /\
    ((isUpper c = true /\ (s = 0x70 \/ s = 0x71)) \/ (isUpper c = false /\ isLower c = true /\ (s = 0x69 \/ s = 0x6A) /\ (i + k)%nat <> O)).

Lemma match_loop_ok : forall w st i result, ~ In 0 st -> result = SPELL_OK \/ result = SPELL_CAP_FIRST ->
  exists r, match_loop i w (st ++ [0]) result = Ok r /\
    (r = SPELL_CAP_ERROR <-> bad_from i w (symbols st)) /\
    (r <> SPELL_CAP_ERROR ->
       ((r = SPELL_CAP_FIRST <-> result = SPELL_CAP_FIRST \/
          (i = O /\ exists c s, nth_error w 0 = Some c /\ nth_error (symbols st) 0 = Some s /\ isUpper c = false /\ isLower c = true /\ (s = 0x69 \/ s = 0x6A))) /\
        (r = SPELL_OK \/ r = SPELL_CAP_FIRST))).
Proof.
  induction w as [|c w IH]; intros st i result N R; cbn [match_loop].
  - exists result. split; auto. split.
    + split; [intros ->; destruct R; discriminate|]. intros (k & ? & ? & H & _). destruct k; discriminate.
    + intros _. split; auto. split; [auto|]. intros [H|(_ & ? & ? & H & _)]; [auto|discriminate].
  - destruct (skip_borders_ok st N) as (st' & -> & SY & N' & Q & _). cbn [bind]. destruct st' as [|s r0].
    { cbn [app rd nth_error bind]. change (0 =? 0) with true. cbn beta iota. exists result. split; auto.
      assert (forall k, nth_error (symbols st) k = None) as NN by (intros k; rewrite <- SY; destruct k; reflexivity). split.
      + split; [intros ->; destruct R; discriminate|]. intros (k & ? & ? & _ & H & _). rewrite NN in H. discriminate.
      + intros _. split; auto. split; [auto|]. pose proof (NN O) as N0. intros [H|(X1 & X2 & X3 & X4 & X5 & X6)]; [auto|]. change (nth_error (symbols st) 0 = Some X3) in X5. congruence. }
    destruct (Q s r0 eq_refl) as (S1 & S2 & S3). cbn [app rd nth_error bind]. replace (s =? 0) with false by lia. cbn beta iota.
    cbn [skipn]. rewrite S3. assert (~ In 0 r0) as N0 by (intros I; apply N'; right; auto).
    assert (forall result', result' = SPELL_OK \/ result' = SPELL_CAP_FIRST ->
        ~ ((isUpper c = true /\ (s = 0x70 \/ s = 0x71)) \/ (isUpper c = false /\ isLower c = true /\ (s = 0x69 \/ s = 0x6A) /\ i <> O)) ->
        (result' = SPELL_CAP_FIRST <-> result = SPELL_CAP_FIRST \/ (i = O /\ isUpper c = false /\ isLower c = true /\ (s = 0x69 \/ s = 0x6A))) ->
        exists r, match_loop (S i) w (r0 ++ [0]) result' = Ok r /\
          (r = SPELL_CAP_ERROR <-> bad_from i (c :: w) (s :: symbols r0)) /\
          (r <> SPELL_CAP_ERROR -> ((r = SPELL_CAP_FIRST <-> result = SPELL_CAP_FIRST \/
            (i = O /\ exists c' s', nth_error (c :: w) 0 = Some c' /\ nth_error (s :: symbols r0) 0 = Some s' /\ isUpper c' = false /\ isLower c' = true /\ (s' = 0x69 \/ s' = 0x6A))) /\
          (r = SPELL_OK \/ r = SPELL_CAP_FIRST)))) as GO.
    { intros result' R' NB EQ. destruct (IH r0 (S i) result' N0 R') as (r & E & B & F). exists r. split; auto. split.
      - rewrite B. split.
        + intros (k & c' & s' & A1 & A2 & A3). exists (S k), c', s'. split; auto. split; auto. destruct A3 as [A3|(A3 & A4 & A5 & A6)]; [auto|].
          right. split; auto. split; auto. split; auto. lia.
        + intros (k & c' & s' & A1 & A2 & A3). destruct k as [|k].
          * cbn in A1, A2. inversion A1. inversion A2. subst c' s'. elim NB. rewrite Nat.add_0_r in A3. exact A3.
          * exists k, c', s'. split; auto. split; auto. destruct A3 as [A3|(A3 & A4 & A5 & A6)]; [auto|].
            right. split; auto. split; auto. split; auto. lia.
      - intros NE. destruct (F NE) as (F1 & F2). split; auto. rewrite F1, EQ. cbn [nth_error]. split.
        + intros [[A|(A1 & A2)]|(A & _)]; [auto| |lia]. right. split; auto. exists c, s. auto.
        + intros [A|(A1 & c' & s' & A2 & A3 & A4)]; [auto|]. inversion A2. inversion A3. subst. left. right. auto. }
    assert (BAD : ((isUpper c = true /\ (s = 0x70 \/ s = 0x71)) \/ (isUpper c = false /\ isLower c = true /\ (s = 0x69 \/ s = 0x6A) /\ i <> O)) ->
       exists r, Ok SPELL_CAP_ERROR = Ok r /\
          (r = SPELL_CAP_ERROR <-> bad_from i (c :: w) (s :: symbols r0)) /\
          (r <> SPELL_CAP_ERROR -> ((r = SPELL_CAP_FIRST <-> result = SPELL_CAP_FIRST \/
            (i = O /\ exists c' s', nth_error (c :: w) 0 = Some c' /\ nth_error (s :: symbols r0) 0 = Some s' /\ isUpper c' = false /\ isLower c' = true /\ (s' = 0x69 \/ s' = 0x6A))) /\
          (r = SPELL_OK \/ r = SPELL_CAP_FIRST)))).
    { intros B. exists SPELL_CAP_ERROR. split; auto. split; [|congruence]. split; auto. intros _. exists O, c, s. split; auto. split; auto.
      rewrite Nat.add_0_r. exact B. }
    clear IH Q SY N'.
    unfold captype_of. destruct (isUpper c) eqn:U.
    + destruct ((s =? 0x70) || (s =? 0x71)) eqn:P.
      * apply BAD. left. split; auto. lia.
      * destruct R as [ -> | -> ]; apply GO; auto; try (intros [[_ X]|[X _]]; [lia|discriminate]); split; auto; intros [X|(_ & X & _)]; auto; discriminate.
    + destruct (isLower c) eqn:L.
      * destruct ((s =? 0x69) || (s =? 0x6A)) eqn:P.
        -- destruct (Nat.eqb i 0) eqn:I0.
           ++ apply GO; auto; [intros [[X _]|(_ & _ & _ & X)]; [discriminate|lia]|]. split; auto. intros _. right. split; [lia|]. split; auto. split; auto. lia.
           ++ apply BAD. right. split; auto. split; auto. split; [lia|]. lia.
        -- destruct R as [ -> | -> ]; apply GO; auto; try (intros [[X _]|(_ & _ & X & _)]; [discriminate|lia]); split; auto; intros [X|(_ & _ & _ & X)]; auto; try discriminate; lia.
      * destruct R as [ -> | -> ]; apply GO; auto; try (intros [[X _]|(_ & X & _)]; discriminate); split; auto; intros [X|(_ & _ & X & _)]; auto; discriminate.
Qed.

Lemma small_not_upper : forall c, small c <-> isUpper c = false /\ isLower c = true.
Proof.
  intros c. rewrite <- isLower_spec. split; [|tauto]. intros L. split; auto. destruct (isUpper c) eqn:U; auto. exfalso. eapply upper_lower_excl; eauto.
Qed.

Lemma match_ok : forall w st, ~ In 0 st -> exists r, matchWordAndAnalysis w st = Ok r /\ graded w st r.
Proof.
  intros w st N. destruct (match_loop_ok w st 0 SPELL_OK N (or_introl eq_refl)) as (r & E & B & F). exists r. split; auto.
  assert (WC : wrong_case w st <-> bad_from 0 w (symbols st)).
  { unfold wrong_case, bad_from. split; intros (i & c & s & A1 & A2 & A3); exists i, c, s; split; auto; split; auto;
      destruct A3 as [(A3 & A4)|A3]; [left; split; auto; apply isUpper_spec; auto| |left; split; auto; apply isUpper_spec; auto| ]; right.
    - destruct A3 as (A3 & A4 & A5). apply small_not_upper in A3. tauto.
    - destruct A3 as (A3 & A4 & A5 & A6). split; [apply small_not_upper; auto|auto]. }
  assert (NC : needs_capital w st <-> exists c s, nth_error w 0 = Some c /\ nth_error (symbols st) 0 = Some s /\ isUpper c = false /\ isLower c = true /\ (s = 0x69 \/ s = 0x6A)).
  { unfold needs_capital. split; intros (c & s & A1 & A2 & A3); exists c, s; split; auto; split; auto; rewrite small_not_upper in *; tauto. }
  rewrite <- WC in B. destruct r; unfold graded.
  - destruct F as (_ & [F|F]); discriminate.
  - assert (SPELL_OK <> SPELL_CAP_ERROR) as X by discriminate. destruct (F X) as (F1 & _). split.
    + intros Y. apply B in Y. discriminate.
    + intros Y. apply NC in Y. assert (SPELL_OK = SPELL_CAP_FIRST) as Z0 by (apply F1; right; auto). discriminate.
  - assert (SPELL_CAP_FIRST <> SPELL_CAP_ERROR) as X by discriminate. destruct (F X) as (F1 & _). split.
    + intros Y. apply B in Y. discriminate.
    + apply NC. destruct F1 as [F1 _]. destruct (F1 eq_refl) as [Y|(_ & Y)]; [discriminate|auto].
  - apply B. auto.
Qed.

Lemma graded_fun : forall w st r1 r2, graded w st r1 -> graded w st r2 -> r1 = r2.
Proof. intros w st [] [] A B; cbn in *; auto; try tauto. Qed.

(** ** The best of several verdicts *)

Lemma improves_spec : forall a b, b <> SPELL_FAILED -> (improves a b = true <-> ~ as_good a b).
Proof.
  intros a b N. split.
  - intros I G. destruct a, b; cbn in I; try discriminate; try congruence; inversion G.
  - intros G. unfold improves. destruct a, b; cbn; auto; elim G; constructor.
Qed.

Lemma as_good_trans : forall a b c, as_good a b -> as_good b c -> as_good a c.
Proof. intros a b c H1 H2. inversion H1; subst; auto; inversion H2; subst; auto; constructor. Qed.

Lemma as_good_total : forall a b, a <> SPELL_FAILED -> b <> SPELL_FAILED -> ~ as_good a b -> as_good b a.
Proof. intros [] [] N1 N2 H; try congruence; try constructor; elim H; constructor. Qed.

Definition best_of (P : spellresult -> Prop) (best r : spellresult) : Prop :=
  (r = best \/ P r) /\ (best <> SPELL_FAILED -> r <> SPELL_FAILED /\ as_good r best) /\ (forall q, P q -> r <> SPELL_FAILED /\ as_good r q).

Lemma better : forall a b, b <> SPELL_FAILED -> let r := if improves a b then b else a in
  r <> SPELL_FAILED /\ (r = a \/ r = b) /\ as_good r b /\ (a <> SPELL_FAILED -> as_good r a).
Proof.
  intros a b N r. unfold r. destruct (improves a b) eqn:I.
  - split; auto. split; auto. split; [constructor|]. intros A. apply improves_spec in I; auto. apply as_good_total; auto.
  - destruct (spell_failed a) eqn:FA.
    + unfold improves in I. rewrite FA in I. discriminate.
    + assert (a <> SPELL_FAILED) by (intros ->; discriminate). split; auto. split; auto. split; [|intros; constructor].
      assert (as_good a b \/ ~ as_good a b) as [G|G]; [|auto|].
      * destruct a, b; try (left; constructor); try (right; intros G; inversion G; fail); congruence.
      * apply improves_spec in G; auto. congruence.
Qed.

Lemma good_no_nul : forall l a st, good_analyses l -> In a l -> a STRUCTURE = Some st -> ~ In 0 st.
Proof.
  intros l a st G I A. unfold good_analyses in G. rewrite Forall_forall in G. destruct (G a I) as (s & E & H & _). congruence.
Qed.

Lemma good_structure_of : forall l a, good_analyses l -> In a l -> exists st, a STRUCTURE = Some st /\ good_structure st.
Proof. intros l a G I. unfold good_analyses in G. rewrite Forall_forall in G. auto. Qed.

Lemma adapter_loop_ok : forall w l best, good_analyses l -> exists r, adapter_loop w l best = Ok r /\
  best_of (fun q => exists a st, In a l /\ a STRUCTURE = Some st /\ graded w st q) best r.
Proof.
  intros w. induction l as [|a l IH]; intros best G; cbn [adapter_loop].
  - exists best. split; auto. split; auto. split; [intros; split; auto; constructor|]. intros q (x & st & [] & _).
  - inversion G as [|? ? (st & A & GS) G2]. subst. rewrite A. destruct (match_ok w st (proj1 GS)) as (q & E & Q). rewrite E. cbn [bind].
    assert (q <> SPELL_FAILED) as QN by (intros ->; exact Q).
    destruct (better best q QN) as (B1 & B2 & B3 & B4). set (b' := if improves best q then q else best) in *.
    assert (forall r, best_of (fun q => exists a st, In a l /\ a STRUCTURE = Some st /\ graded w st q) b' r \/ (b' = SPELL_OK /\ r = b') ->
      best_of (fun q => exists a0 st, In a0 (a :: l) /\ a0 STRUCTURE = Some st /\ graded w st q) best r) as K.
    { intros r H. assert (R1 : r = b' \/ exists a st, In a l /\ a STRUCTURE = Some st /\ graded w st r) by (destruct H as [[H _]|[_ H]]; auto).
      assert (R2 : r <> SPELL_FAILED /\ as_good r b') by (destruct H as [(_ & H & _)|[_ ->]]; [auto|split; auto; constructor]).
      split; [|split].
      - destruct R1 as [-> | (x & sx & X1 & X2 & X3)]; [|right; exists x, sx; split; [right; auto|auto]]. destruct B2 as [-> | ->]; auto. right. exists a, st. split; [left; auto|auto].
      - intros BN. split; [tauto|]. eapply as_good_trans; [apply R2|auto].
      - intros q' (x & sx & [<-|X1] & X2 & X3).
        + assert (sx = st) by congruence. subst sx. assert (q' = q) by (eapply graded_fun; eauto). subst q'. split; [tauto|]. eapply as_good_trans; [apply R2|auto].
        + destruct H as [(_ & _ & H)|[OK ->]]; [apply H; eauto|]. split; auto. rewrite OK. constructor. }
    destruct (spell_ok b') eqn:SO.
    + exists b'. split; auto. apply K. right. destruct b'; try discriminate. auto.
    + destruct (IH b' G2) as (r & -> & R). exists r. split; auto.
Qed.

Lemma adapter_ok : forall an w, good_analyses (an false w) -> exists r, adapter_spell an w = Ok r /\
  (r = SPELL_FAILED <-> an false w = []) /\
  (r <> SPELL_FAILED -> exists a st, In a (an false w) /\ a STRUCTURE = Some st /\ graded w st r) /\
  (forall a st q, In a (an false w) -> a STRUCTURE = Some st -> graded w st q -> as_good r q).
Proof.
  intros an w G. unfold adapter_spell. destruct (an false w) as [|a0 l0] eqn:AN.
  - exists SPELL_FAILED. split; auto. split; [tauto|]. split; [congruence|]. intros a st q [].
  - rewrite <- AN in *. destruct (adapter_loop_ok w (an false w) SPELL_FAILED G) as (r & E & B1 & _ & B3).
    assert (E' : adapter_loop w (a0 :: l0) SPELL_FAILED = Ok r) by (rewrite <- AN; exact E). exists r. rewrite AN at 1. split; auto.
    assert (r <> SPELL_FAILED) as RN.
    { destruct (good_structure_of (an false w) a0 G) as (st & A & GS); [rewrite AN; left; auto|].
      destruct (match_ok w st (proj1 GS)) as (q & _ & Q). apply (B3 q). exists a0, st. rewrite AN. split; [left; auto|auto]. }
    split; [split; [congruence|intros X; congruence]|]. split.
    + intros _. destruct B1 as [B1|B1]; [congruence|auto].
    + intros a st q I A Q. apply (B3 q). eauto.
Qed.

(** ** Searching *)

Lemma find_from_some : forall c l i k, find_from c l i = Some k -> exists a b, l = a ++ c :: b /\ ~ In c a /\ k = (i + length a)%nat.
Proof.
  intros c. induction l as [|x l IH]; intros i k H; cbn [find_from] in H; [discriminate|].
  destruct (x =? c) eqn:E.
  - inversion H. exists [], l. split; [cbn; f_equal; lia|]. split; [auto|]. cbn. lia.
  - apply IH in H. destruct H as (a & b & -> & N & ->). exists (x :: a), b. split; auto. split; [intros [X|X]; [lia|auto]|]. cbn. lia.
Qed.

Lemma find_from_none : forall c l i, find_from c l i = None <-> ~ In c l.
Proof.
  intros c. induction l as [|x l IH]; intros i; cbn [find_from]; [split; auto|].
  destruct (x =? c) eqn:E.
  - split; [discriminate|]. intros H. elim H. left. lia.
  - rewrite IH. split; intros H; [intros [X|X]; [lia|auto]|intros X; apply H; right; auto].
Qed.

Lemma first_split_find : forall w k, (3 < length w)%nat -> find_from 0x2D (firstn (length w - 2) (skipn 1 w)) 1 = Some k ->
  exists a b, first_split w a b /\ k = length a.
Proof.
  intros w k L H. apply find_from_some in H. destruct H as (a' & b' & E & N & ->). destruct w as [|x w]; [cbn in L; lia|].
  cbn [skipn] in E. set (n := (length (x :: w) - 2)%nat) in *.
  exists (x :: a'), (b' ++ skipn n w). split; [|cbn; lia]. split.
  - rewrite <- (firstn_skipn n w) at 1. rewrite E. cbn [app]. rewrite <- app_assoc. reflexivity.
  - split; [|eauto]. intros X. apply app_eq_nil in X. destruct X as [_ X]. apply (f_equal (@length Z)) in X.
    rewrite skipn_length in X. cbn in X. subst n. cbn in *. lia.
Qed.

Lemma first_split_none : forall w, (3 < length w)%nat -> find_from 0x2D (firstn (length w - 2) (skipn 1 w)) 1 = None ->
  forall a b, a <> [] -> b <> [] -> w <> a ++ 0x2D :: b.
Proof.
  intros w L H a b A B E. apply find_from_none in H. apply H. destruct a as [|x a]; [congruence|].
  destruct b as [|y b'] using rev_ind; [congruence|]. clear IHb'. cbn [app] in E.
  assert (skipn 1 w = (a ++ 0x2D :: b') ++ [y]) as -> by (rewrite E; cbn [skipn]; rewrite <- app_assoc; reflexivity).
  assert (length w - 2 = length (a ++ 0x2D%Z :: b'))%nat as ->.
  { rewrite E. cbn [length]. rewrite !app_length. cbn [length]. rewrite app_length. cbn [length]. lia. }
  rewrite firstn_app, firstn_all. apply in_or_app. left. apply in_or_app. right. left. auto.
Qed.

Lemma last_hyphen_some : forall w i, (i < length w)%nat ->
  (exists k, last_hyphen w i = Ok (Some k) /\ (0 < k <= i)%nat /\ nth_error w k = Some 0x2D /\ forall m, (k < m <= i)%nat -> nth_error w m <> Some 0x2D) \/
  (last_hyphen w i = Ok None /\ forall m, (0 < m <= i)%nat -> nth_error w m <> Some 0x2D).
Proof.
  intros w. induction i as [|i IH]; intros L; cbn [last_hyphen].
  - right. split; auto. intros m H. lia.
  - destruct (nth_error w (S i)) as [c|] eqn:E; [|apply nth_error_None in E; lia]. unfold rd. rewrite E. cbn [bind].
    destruct (c =? 0x2D) eqn:C.
    + left. exists (S i). split; auto. split; [lia|]. split; [rewrite E; f_equal; lia|]. intros m H. lia.
    + assert (nth_error w (S i) <> Some 0x2D) as NE by (rewrite E; intros X; inversion X; lia).
      destruct (IH ltac:(lia)) as [(k & H1 & H2 & H3 & H4)|(H1 & H2)].
      * left. exists k. split; auto. split; [lia|]. split; auto. intros m H. destruct (Nat.eq_dec m (S i)) as [->|]; [auto|]. apply H4. lia.
      * right. split; auto. intros m H. destruct (Nat.eq_dec m (S i)) as [->|]; [auto|]. apply H2. lia.
Qed.

Lemma last_split_find : forall w k, (3 < length w)%nat -> (0 < k <= length w - 2)%nat -> nth_error w k = Some 0x2D ->
  (forall m, (k < m <= length w - 2)%nat -> nth_error w m <> Some 0x2D) -> last_split w (firstn k w) (skipn (k + 1) w).
Proof.
  intros w k L K E H. assert (W : w = firstn k w ++ 0x2D :: skipn (k + 1) w).
  { rewrite <- (firstn_skipn k w) at 1. f_equal. rewrite (skipn_cons_nth _ w k 0x2D E). f_equal. f_equal. lia. }
  split; [exact W|]. split.
  - intros X. apply (f_equal (@length Z)) in X. rewrite firstn_length in X. cbn in X. lia.
  - set (b := skipn (k + 1) w) in *. assert (LB : length b = (length w - (k + 1))%nat) by (unfold b; apply skipn_length).
    destruct b as [|y b'] eqn:B using rev_ind; [cbn in LB; lia|]. clear IHb'. exists y, b'. split; auto.
    intros I. apply In_nth_error in I. destruct I as (m & I). apply (H (k + 1 + m)%nat).
    + rewrite app_length in LB. cbn in LB. apply nth_error_lt in I. lia.
    + rewrite <- nth_error_skipn. fold b. rewrite B. rewrite nth_error_app1; auto. apply nth_error_lt in I. auto.
Qed.

Lemma first_split_unique : forall w a b a2 b2, first_split w a b -> first_split w a2 b2 -> a = a2 /\ b = b2.
Proof.
  intros w a b a2 b2 (E1 & _ & x & a' & -> & N1) (E2 & _ & y & a2' & -> & N2). rewrite E1 in E2. cbn in E2. inversion E2 as [[X Y]]. subst y.
  clear E1 E2. enough (a' = a2' /\ b = b2) by (destruct H; subst; auto). revert a2' N2 Y.
  induction a' as [|u a' IH]; intros [|v a2'] N2 Y; cbn in Y; inversion Y; subst; auto.
  - elim N2. left; auto.
  - elim N1. left; auto.
  - destruct (IH ltac:(intros I; apply N1; right; auto) a2' ltac:(intros I; apply N2; right; auto) H1) as (-> & ->). auto.
Qed.

Lemma last_split_unique : forall w a b a2 b2, last_split w a b -> last_split w a2 b2 -> a = a2 /\ b = b2.
Proof.
  intros w a b a2 b2 (E1 & _ & x & b' & -> & N1) (E2 & _ & y & b2' & -> & N2). rewrite E1 in E2. clear E1.
  rewrite !app_comm_cons, !app_assoc in E2. apply app_inj_tail in E2. destruct E2 as (E & ->).
  enough (a = a2 /\ b' = b2') by (destruct H; subst; auto). revert b2' N2 E.
  induction b' as [|u b' IH] using rev_ind; intros b2' N2 Y; destruct b2' as [|v b2'] using rev_ind; try clear IHb2'.
  - apply app_inj_tail in Y. tauto.
  - rewrite app_comm_cons, app_assoc in Y. apply app_inj_tail in Y. destruct Y as (_ & <-). elim N2. apply in_or_app. right. left. auto.
  - rewrite app_comm_cons, app_assoc in Y. apply app_inj_tail in Y. destruct Y as (_ & ->). elim N1. apply in_or_app. right. left. auto.
  - rewrite !app_comm_cons, !app_assoc in Y. apply app_inj_tail in Y. destruct Y as (Y & ->).
    destruct (IH ltac:(intros I; apply N1; apply in_or_app; auto) b2' ltac:(intros I; apply N2; apply in_or_app; auto) Y) as (-> & ->). auto.
Qed.

(** ** Borders *)

Lemma symbols_cons : forall s st, symbols (s :: st) = if s =? 0x3D then symbols st else s :: symbols st.
Proof. intros. unfold symbols. cbn [filter]. destruct (s =? 0x3D); auto. Qed.

Lemma border_zero : forall st, border_after st 0 <-> exists r, st = 0x3D :: r.
Proof.
  intros st. split.
  - intros ([|x s1] & s2 & -> & H); [exists s2; auto|]. rewrite symbols_cons in H. destruct (x =? 0x3D) eqn:E; [|discriminate].
    cbn. eexists. f_equal. lia.
  - intros (r & ->). exists [], r. auto.
Qed.

Lemma border_skip : forall st k, border_after (0x3D :: st) (S k) <-> border_after st (S k).
Proof.
  intros st k. split; intros (s1 & s2 & E & H).
  - destruct s1 as [|x s1]; [discriminate|]. cbn in E. inversion E. subst x st. rewrite symbols_cons in H. exists s1, s2. auto.
  - exists (0x3D :: s1), s2. subst st. split; auto.
Qed.

Lemma border_symbol : forall s st k, s <> 0x3D -> (border_after (s :: st) (S k) <-> border_after st k).
Proof.
  intros s st k N. split; intros (s1 & s2 & E & H).
  - destruct s1 as [|x s1]; [discriminate|]. cbn in E. inversion E. subst x st. rewrite symbols_cons in H. replace (s =? 0x3D) with false in H by lia.
    cbn in H. exists s1, s2. split; auto.
  - exists (s :: s1), s2. subst st. split; auto. rewrite symbols_cons. replace (s =? 0x3D) with false by lia. cbn. auto.
Qed.

Lemma skip_border_eq : forall st st' k, skip_borders (st ++ [0]) = Ok (st' ++ [0]) -> (border_after st (S k) <-> border_after st' (S k)).
Proof.
  induction st as [|s st IH]; intros st' k H; cbn [app skip_borders] in H.
  - inversion H. destruct st' as [|x [|y st']]; cbn in H1; inversion H1. tauto.
  - destruct (s =? 0x3D) eqn:E.
    + assert (s = 0x3D) by lia. subst s. rewrite border_skip. auto.
    + inversion H. assert (s :: st ++ [0] = (s :: st) ++ [0]) as X by reflexivity. rewrite X in H1. apply app_inj_tail in H1. destruct H1 as (<- & _). tauto.
Qed.

Lemma walk_ok : forall k st, ~ In 0 st ->
  (walk k (st ++ [0]) = Ok None /\ (length (symbols st) < k)%nat) \/
  (exists rest, walk k (st ++ [0]) = Ok (Some (rest ++ [0])) /\ (k <= length (symbols st))%nat /\
     (border_after st k <-> exists r, rest = 0x3D :: r)).
Proof.
  induction k as [|k IH]; intros st N; cbn [walk].
  - right. exists st. split; auto. split; [lia|]. apply border_zero.
  - destruct (skip_borders_ok st N) as (st' & E & SY & N' & Q & _). rewrite E. cbn [bind]. destruct st' as [|s r].
    + left. cbn [app rd nth_error bind]. split; [reflexivity|]. rewrite <- SY. cbn. lia.
    + destruct (Q s r eq_refl) as (S1 & S2 & S3). cbn [app rd nth_error bind]. replace (s =? 0) with false by lia. cbn [skipn].
      destruct (IH r) as [(H1 & H2)|(rest & H1 & H2 & H3)]; [intros I; apply N'; right; auto| | ]; rewrite H1, S3; cbn [length].
      * left. split; auto. lia.
      * right. exists rest. split; auto. split; [lia|]. rewrite (skip_border_eq st (s :: r) k E). rewrite border_symbol by auto. exact H3.
Qed.

Lemma border_loop_ok : forall v k l x y, good_analyses l -> exists x' y', border_loop v k l x y = Ok (x', y') /\
  (x' <> SPELL_FAILED <-> x <> SPELL_FAILED \/ exists a st, In a l /\ a STRUCTURE = Some st /\ (k <= length (symbols st))%nat /\ border_after st k) /\
  (y' <> SPELL_FAILED <-> y <> SPELL_FAILED \/ exists a st, In a l /\ a STRUCTURE = Some st /\ (k <= length (symbols st))%nat /\ ~ border_after st k).
Proof.
  intros v k. induction l as [|a l IH]; intros x y G; cbn [border_loop].
  - exists x, y. split; auto. split; (split; [auto|]); intros [H|(a & st & [] & _)]; auto.
  - inversion G as [|? ? (st & A & GS) G2]. subst. rewrite A.
    assert (forall P : list Z -> Prop, (exists a0 st0, In a0 (a :: l) /\ a0 STRUCTURE = Some st0 /\ P st0) <->
       P st \/ exists a0 st0, In a0 l /\ a0 STRUCTURE = Some st0 /\ P st0) as CONS.
    { intros P. split.
      - intros (a0 & st0 & [<-|I] & B & C); [left; congruence|right; eauto].
      - intros [H|(a0 & st0 & I & B)]; [exists a, st; split; [left; auto|auto]|exists a0, st0; split; [right; auto|auto]]. }
    pose proof (CONS (fun s => (k <= length (symbols s))%nat /\ border_after s k)) as C1. pose proof (CONS (fun s => (k <= length (symbols s))%nat /\ ~ border_after s k)) as C2.
    cbv beta in C1, C2. clear CONS.
    destruct (walk_ok k st (proj1 GS)) as [(-> & H2)|(rest & -> & H2 & H3)]; cbn [bind].
    + destruct (IH x y G2) as (x' & y' & -> & X & Y). exists x', y'. split; auto. rewrite X, Y, C1, C2. clear -H2 C1 C2. split; (split; [tauto|]);
        intros [H|[[H _]|H]]; auto; lia.
    + destruct (match_ok v st (proj1 GS)) as (q & -> & Q). cbn [bind]. assert (q <> SPELL_FAILED) as QN by (intros ->; exact Q).
      assert (exists s, rd (rest ++ [0]) 0 = Ok s /\ (s = 0x3D <-> border_after st k)) as (s & -> & SB).
      { destruct rest as [|s r]; [exists 0|exists s]; (split; [reflexivity|]); rewrite H3; split; intros X; try discriminate.
        - destruct X; discriminate.
        - subst s. eauto.
        - destruct X as (r' & X). congruence. }
      cbn [bind]. destruct (s =? 0x3D) eqn:E.
      * assert (border_after st k) as B by (apply SB; lia). destruct (better x q QN) as (B1 & _).
        destruct (IH (if improves x q then q else x) y G2) as (x' & y' & -> & X & Y). exists x', y'. split; auto. rewrite X, Y, C1, C2. clear -B B1 H2. tauto.
      * assert (~ border_after st k) as B by (rewrite <- SB; lia). destruct (better y q QN) as (B1 & _).
        destruct (IH x (if improves y q then q else y) G2) as (x' & y' & -> & X & Y). exists x', y'. split; auto. rewrite X, Y, C1, C2. clear -B B1 H2. tauto.
Qed.

(** ** The repeated pair *)

Lemma vowel_nz : forall c, c <> 0 -> (wcschr VOIKKO_VOWELS c = true <-> In c VOIKKO_VOWELS).
Proof. intros c N. unfold wcschr. replace (c =? 0) with false by lia. apply mem_In. Qed.
Lemma consonant_nz : forall c, c <> 0 -> (wcschr VOIKKO_CONSONANTS c = true <-> In c VOIKKO_CONSONANTS).
Proof. intros c N. unfold wcschr. replace (c =? 0) with false by lia. apply mem_In. Qed.

Lemma vc_pair_ok : forall a b, ~ In 0 (a ++ 0x2D :: b) -> exists v, vc_pair (a ++ 0x2D :: b) (length a) = Ok v /\ (v = true <-> same_pair a b).
Proof.
  intros a b N. unfold vc_pair. rewrite app_length. cbn [length].
  destruct ((2 <=? length a)%nat && (3 <=? length a + S (length b) - length a)%nat) eqn:G.
  - destruct a as [|y a1] using rev_ind; [cbn in G; lia|]. clear IHa1. destruct a1 as [|x a'] using rev_ind; [cbn in G; lia|]. clear IHa'.
    assert (2 <= length b)%nat as LB by lia. clear G. destruct b as [|x' [|y' b']]; cbn [length] in LB; try lia. clear LB.
    rewrite <- app_assoc in N. cbn [app] in N.
    assert (forall c, In c [x; y; 0x2D; x'; y'] -> c <> 0) as NZ.
    { intros c I ->. apply N. rewrite <- app_assoc. cbn [app]. apply in_or_app. right. cbn in *. tauto. }
    rewrite !app_length. cbn [length]. replace (length a' + 1 + 1 - 2)%nat with (length a') by lia. replace (length a' + 1 + 1 - 1)%nat with (length a' + 1)%nat by lia.
    rewrite <- !app_assoc. cbn [app]. unfold rd.
    rewrite (nth_error_app2 a' _ (n := length a')) by lia. rewrite Nat.sub_diag. cbn [nth_error bind].
    rewrite (nth_error_app2 a' _ (n := (length a' + 1)%nat)) by lia. replace (length a' + 1 - length a')%nat with 1%nat by lia. cbn [nth_error bind].
    rewrite (nth_error_app2 a' _ (n := (length a' + 1 + 1 + 1)%nat)) by lia. replace (length a' + 1 + 1 + 1 - length a')%nat with 3%nat by lia. cbn [nth_error bind].
    rewrite (nth_error_app2 a' _ (n := (length a' + 1 + 1 + 2)%nat)) by lia. replace (length a' + 1 + 1 + 2 - length a')%nat with 4%nat by lia. cbn [nth_error bind].
    pose proof (vowel_nz (lower x) (lower_nonzero x (NZ x ltac:(cbn; auto)))) as V. pose proof (consonant_nz (lower y) (lower_nonzero y (NZ y ltac:(cbn; auto)))) as C.
    assert (SP : same_pair (a' ++ [x; y]) (x' :: y' :: b') <-> lower x' = lower x /\ lower y' = lower y /\ In (lower x) VOIKKO_VOWELS /\ In (lower y) VOIKKO_CONSONANTS).
    { split.
      - intros (a2 & x2 & y2 & x2' & y2' & b2 & E1 & E2 & Q). inversion E2. subst.
        change (a' ++ [x; y]) with (a' ++ [x] ++ [y]) in E1. change (a2 ++ [x2; y2]) with (a2 ++ [x2] ++ [y2]) in E1. rewrite !app_assoc in E1.
        apply app_inj_tail in E1. destruct E1 as (E1 & <-). apply app_inj_tail in E1. destruct E1 as (_ & <-). exact Q.
      - intros Q. exists a', x, y, x', y', b'. auto. }
    match goal with |- exists v, ?e = Ok v /\ _ => enough (exists v, e = Ok v /\ (v = true <-> lower x' = lower x /\ lower y' = lower y /\ wcschr VOIKKO_VOWELS (lower x) = true /\ wcschr VOIKKO_CONSONANTS (lower y) = true)) as (v & E & Q) end.
    { exists v. split; [exact E|]. rewrite SP, <- V, <- C. exact Q. }
    clear.
    destruct (wcschr VOIKKO_VOWELS (lower x)); cbn [negb orb]; [|eexists; split; [reflexivity|]; split; [discriminate|tauto]].
    destruct (wcschr VOIKKO_CONSONANTS (lower y)); cbn [negb orb]; [|eexists; split; [reflexivity|]; split; [discriminate|tauto]].
    destruct (lower x' =? lower x) eqn:X; cbn [negb]; [|eexists; split; [reflexivity|]; split; [discriminate|intros (T & _); lia]].
    eexists. split; [reflexivity|]. split; [intros T; split; [lia|]; split; [lia|]; auto|intros (_ & T & _); lia].
  - exists false. split; auto. split; [discriminate|]. intros (a' & x & y & x' & y' & b' & -> & -> & _). rewrite app_length in G. cbn [length] in G.
    apply andb_false_iff in G. destruct G as [G|G]; apply Nat.leb_gt in G; lia.
Qed.

(** ** Soft hyphens *)

Fixpoint ok_shy (can : bool) (w : list Z) : bool :=
  match w with
  | [] => true
  | c :: r => if negb (c =? SHY) then ok_shy true r
              else can && negb (match r with [] => true | _ => false end) && ok_shy false r
  end.

Fixpoint shy_positions (j : nat) (w : list Z) : list nat :=
  match w with
  | [] => []
  | c :: r => if negb (c =? SHY) then shy_positions (S j) r else j :: shy_positions j r
  end.

Lemma strip_soft_ok : forall w j shys, (forall k, In k shys -> (k <= j)%nat) ->
  strip_soft w j shys =
    if ok_shy (negb (Nat.eqb j 0 || match shys with k :: _ => Nat.eqb k j | [] => false end)) w
    then Some (without_shy w, rev shys ++ shy_positions j w) else None.
Proof.
  induction w as [|c w IH]; intros j shys H; cbn [strip_soft ok_shy shy_positions].
  - rewrite app_nil_r. reflexivity.
  - unfold without_shy. cbn [filter]. fold (without_shy w). change 0xAD with SHY. destruct (negb (c =? SHY)) eqn:E.
    + rewrite (IH (S j) shys) by (intros k I; apply H in I; lia).
      assert (negb (Nat.eqb (S j) 0 || match shys with k :: _ => Nat.eqb k (S j) | [] => false end) = true) as ->.
      { cbn [Nat.eqb orb]. destruct shys as [|k r]; auto. specialize (H k (or_introl eq_refl)). replace (Nat.eqb k (S j)) with false by lia. auto. }
      destruct (ok_shy true w); reflexivity.
    + rewrite (IH j (j :: shys)) by (intros k [<-|I]; [lia|auto]). cbn [Nat.eqb]. rewrite Nat.eqb_refl, orb_true_r. cbn [negb].
      destruct (Nat.eqb j 0); cbn [orb negb andb]; auto.
      destruct (match shys with k :: _ => Nat.eqb k j | [] => false end); rewrite ?orb_true_r, ?orb_false_r; cbn [negb andb]; auto.
      destruct w as [|d w]; cbn [negb andb]; auto. destruct (ok_shy false (d :: w)); auto. cbn [rev]. rewrite <- app_assoc. reflexivity.
Qed.

Lemma ok_shy_spec : forall w can, ok_shy can w = true <->
  (forall a b, w = a ++ SHY :: b -> (a = [] -> can = true) /\ b <> [] /\ forall a', a <> a' ++ [SHY]).
Proof.
  induction w as [|c w IH]; intros can; cbn [ok_shy].
  - split; auto. intros _ a b E. destruct a; discriminate.
  - destruct (negb (c =? SHY)) eqn:E.
    + rewrite IH. split.
      * intros H a b X. destruct a as [|x a]; cbn in X; inversion X; [subst; lia|]. subst x w. destruct (H a b eq_refl) as (H1 & H2 & H3).
        split; [discriminate|]. split; auto. intros a' Y. destruct a' as [|z a']; cbn in Y; inversion Y; [subst; lia|]. eapply H3; eauto.
      * intros H a b X. subst w. destruct (H (c :: a) b eq_refl) as (H1 & H2 & H3). split; auto. split; auto. intros a' ->. apply (H3 (c :: a')). auto.
    + assert (c = SHY) by lia. subst c. rewrite !andb_true_iff, IH. split.
      * intros [[H0 H1] H2] a b X. destruct a as [|x a]; cbn in X; inversion X; subst.
        -- split; auto. split; [destruct b; [discriminate|discriminate]|]. intros [|]; discriminate.
        -- destruct (H2 a b eq_refl) as (A1 & A2 & A3). split; [discriminate|]. split; auto. intros a' Y. destruct a' as [|z a']; cbn in Y; inversion Y.
           ++ subst a. specialize (A1 eq_refl). discriminate.
           ++ eapply A3; eauto.
      * intros H. destruct (H [] w eq_refl) as (H1 & H2 & _). split; [split; [auto|destruct w; [congruence|auto]]|].
        intros a b ->. destruct (H (SHY :: a) b eq_refl) as (A1 & A2 & A3). split; [intros ->; elim (A3 []); auto|]. split; auto. intros a' ->. apply (A3 (SHY :: a')). auto.
Qed.

Lemma well_placed_ok : forall w, ok_shy false w = true <-> shy_well_placed w.
Proof.
  intros w. rewrite ok_shy_spec. unfold shy_well_placed. split; intros H a b E; destruct (H a b E) as (A & B & C); split; auto.
  intros ->. specialize (A eq_refl). discriminate.
Qed.

Lemma shy_positions_spec : forall w j k, In k (shy_positions j w) <-> exists a b, w = a ++ SHY :: b /\ k = (j + length (without_shy a))%nat.
Proof.
  induction w as [|c w IH]; intros j k; cbn [shy_positions].
  - split; [intros []|]. intros ([|] & b & E & _); discriminate.
  - destruct (negb (c =? SHY)) eqn:E.
    + rewrite IH. split.
      * intros (a & b & -> & ->). exists (c :: a), b. split; auto. unfold without_shy. cbn [filter]. rewrite E. cbn. lia.
      * intros (a & b & X & ->). destruct a as [|x a]; cbn in X; inversion X; [subst; lia|]. subst x w. exists a, b. split; auto.
        unfold without_shy. cbn [filter]. rewrite E. cbn. lia.
    + assert (c = SHY) by lia. subst c. cbn [In]. rewrite IH. split.
      * intros [<-|(a & b & -> & ->)]; [exists [], w; split; auto; cbn; lia|]. exists (SHY :: a), b. auto.
      * intros (a & b & X & ->). destruct a as [|x a]; cbn in X; inversion X; [left; cbn; lia|]. subst x w. right. exists a, b. auto.
Qed.

Lemma all_hyphens_ok : forall p l, (forall k, In k l -> (k <= length p)%nat) ->
  exists v, all_hyphens p l = Ok v /\ (v = true <-> forall k, In k l -> nth_error p k = Some HYPHEN).
Proof.
  intros p. induction l as [|k l IH]; intros H; cbn [all_hyphens].
  - exists true. split; auto. split; auto. intros _ k [].
  - assert (k <= length p)%nat as K by (apply H; left; auto).
    destruct (nth_error (p ++ [0]) k) as [c|] eqn:E; [|apply nth_error_None in E; rewrite app_length in E; cbn in E; lia].
    unfold rd. rewrite E. cbn [bind]. destruct (c =? HYPHEN) eqn:C.
    + destruct IH as (v & -> & V); [intros; apply H; right; auto|]. exists v. split; auto. rewrite V.
      assert (nth_error p k = Some HYPHEN) as PK.
      { destruct (Nat.eq_dec k (length p)) as [->|NE].
        - rewrite nth_error_app2, Nat.sub_diag in E by lia. inversion E. subst c. discriminate.
        - rewrite nth_error_app1 in E by lia. rewrite E. f_equal. lia. }
      split; [intros X m [<-|I]; auto|intros X m I; apply X; right; auto].
    + exists false. split; auto. split; [discriminate|]. intros X. specialize (X k (or_introl eq_refl)).
      rewrite nth_error_app1 in E by (apply nth_error_lt in X; auto). rewrite X in E. inversion E. subst c. discriminate.
Qed.

(** ** All possible hyphen positions *)

Lemma union_ok : forall n r acc, Forall (fun h => length h = n) r -> length acc = n ->
  exists p, combine_all union_with acc r = Ok p /\ length p = n /\ forall i, nth_error acc i = Some HYPHEN -> nth_error p i = Some HYPHEN.
Proof.
  assert (W : forall acc cur, length cur = length acc -> exists p, union_with acc cur = Ok p /\ length p = length acc /\
     forall i, nth_error acc i = Some HYPHEN -> nth_error p i = Some HYPHEN).
  { induction acc as [|a acc IH]; intros cur L; destruct cur as [|d cur]; cbn in L; try lia; cbn [union_with].
    - exists []. split; auto.
    - destruct (IH cur) as (p & -> & LP & Q); [lia|]. cbn [bind]. eexists. split; [reflexivity|]. split; [cbn; lia|].
      intros [|i] E; cbn [nth_error] in *; [|auto]. destruct (d =? HYPHEN); auto. }
  induction r as [|h r IH]; intros acc F L; cbn [combine_all].
  - exists acc. auto.
  - inversion F as [|h1 r1 F1 F2]. subst. destruct (W acc h) as (p & -> & LP & Q); [lia|]. cbn [bind].
    destruct (IH p F2 LP) as (p' & -> & LP' & Q'). exists p'. split; auto.
Qed.

Lemma all_positions_ok : forall an w, good_analyzer an -> unicode_word w ->
  exists o, allPossibleHyphenPositions an tweaks_hyphenator w = Ok o /\
    (forall p, o = Some p -> length p = length w) /\
    (forall q, hyphenate an tweaks_hyphenator w = Ok (Some q) -> exists p, o = Some p /\ forall i, nth_error q i = Some HYPHEN -> nth_error p i = Some HYPHEN).
Proof.
  intros an w G U. unfold allPossibleHyphenPositions, hyphenate, hyphenate_with.
  destruct (Z.of_nat (length w) <? minHyphenatedWordLength tweaks_hyphenator) eqn:L.
  - eexists. split; [reflexivity|]. split; [intros p E; inversion E; apply repeat_length|]. intros q E. inversion E. subst q. eauto.
  - assert (Forall encodable w \/ ~ Forall encodable w) as [E|E].
    { clear. induction w as [|c w [IH|IH]]; [left; auto| |right; intros X; inversion X; auto].
      assert (encodable c \/ ~ encodable c) as [E|E] by (unfold encodable; lia); [left; auto|right; intros X; inversion X; auto]. }
    + assert (hyph_word w) as HW.
      { split; auto. intros I. unfold unicode_word in U. rewrite Forall_forall in U. specialize (U 0 I). unfold code_point in U. lia. }
      destruct (looked_up_exists an (hyph_ignoreDot tweaks_hyphenator) w) as (t & l & LU).
      assert (good_analyses l) as GL by (inversion LU; subst; apply G).
      destruct (hyphenate_ok an tweaks_hyphenator w t l HW LU GL ltac:(lia)) as (hs & p & O).
      destruct (out_split _ _ _ _ _ _ _ O) as (dot & hs' & -> & E2 & NE & F & I). cbn [bind]. rewrite E2. cbn [bind].
      destruct hs' as [|h r]; [congruence|]. inversion F as [|h1 r1 F1 F2]. subst h1 r1.
      cbn [unionHyphenations]. destruct (union_ok (length w) r (map clear_x h) F2) as (u & -> & LU' & Q); [rewrite map_length; auto|]. cbn [bind].
      exists (Some u). split; auto. split; [intros p' X; inversion X; subst; auto|]. intros q X. exists u. split; auto. intros i HI. apply Q.
      rewrite I in X. cbn [bind] in X. inversion X. subst q. cbn [intersectHyphenations] in I.
      destruct (combine_ok (length w) r (map clear_x h) F2) as (p2 & EC & LP & Q2); [rewrite map_length; auto|]. rewrite EC in I. inversion I. subst p2.
      destruct (Q2 i HYPHEN HI) as (a & Ea & [[<- _]|[R _]]); [auto|discriminate].
    + unfold splitCompounds. rewrite utf8FromUcs4_ok. rewrite append_all_none; auto.
      * cbn [bind]. exists None. split; auto. split; intros; discriminate.
      * unfold unicode_word in U. eapply Forall_impl; [|exact U]. intros c H. unfold code_point in H. lia.
Qed.

(** ** The recursion *)

Lemma without_shy_length : forall w, (length (without_shy w) <= length w)%nat.
Proof. induction w as [|c w IH]; [cbn; auto|]. unfold without_shy in *. cbn [filter length]. destruct (negb (c =? SHY)); cbn [length]; lia. Qed.

Lemma spell_with_ext : forall rec rec' tw w, (forall v, (length v <= length w)%nat -> rec v = rec' v) -> spell_with rec tw w = spell_with rec' tw w.
Proof.
  intros rec rec' tw w H. unfold spell_with. destruct (find_from 0xAD w 0); [|auto].
  rewrite strip_soft_ok by (intros ? []). destruct (ok_shy _ w); auto. rewrite H; auto. apply without_shy_length.
Qed.

Lemma bind_ext : forall A B (m : res A) (k k' : A -> res B), (forall a, m = Ok a -> k a = k' a) -> bind m k = bind m k'.
Proof. intros A B [a| |] k k' H; cbn; auto. Qed.

Lemma first_split_lengths : forall w a b, first_split w a b -> firstn (length a) w ++ skipn (length a + 1) w = a ++ b /\ length w = (length (a ++ b) + 1)%nat.
Proof.
  intros w a b (-> & _). split.
  - rewrite firstn_app, firstn_all, Nat.sub_diag. cbn [firstn]. rewrite app_nil_r. f_equal. rewrite skipn_app, skipn_all2 by lia.
    replace (length a + 1 - length a)%nat with 1%nat by lia. reflexivity.
  - rewrite !app_length. cbn. lia.
Qed.

Lemma body_ext : forall rec rec' tw w, (forall v, (length v < length w)%nat -> rec v = rec' v) -> without_soft_hyphen rec tw w = without_soft_hyphen rec' tw w.
Proof.
  intros rec rec' tw w H. unfold without_soft_hyphen. apply bind_ext. intros res0 _.
  destruct (negb (spell_ok res0) && (3 <? length w)%nat) eqn:G; [|auto].
  destruct (find_from 0x2D (firstn (length w - 2) (skipn 1 w)) 1) as [k|] eqn:FI; [|auto].
  destruct (first_split_find w k ltac:(lia) FI) as (a & b & FS & ->). destruct (first_split_lengths w a b FS) as (E & LW). rewrite E.
  rewrite (H (a ++ b)) by lia. apply bind_ext. intros extra _. destruct extra; auto. apply bind_ext. intros vc _. apply bind_ext. intros vcres _.
  destruct (negb (spell_failed vcres) && improves res0 vcres); auto. apply bind_ext. intros last LE.
  destruct (last_hyphen_some w (length w - 2) ltac:(lia)) as [(k & K1 & K2 & _)|(K1 & _)]; rewrite LE in K1; inversion K1; subst last; auto.
  rewrite (spell_with_ext rec rec' tw (firstn k w)); auto. intros v L. apply H. rewrite firstn_length in L. lia.
Qed.

Lemma fuel_enough : forall tw n m w, (length w < n)%nat -> (length w < m)%nat -> spellWithoutSoftHyphen n tw w = spellWithoutSoftHyphen m tw w.
Proof.
  intros tw. induction n as [|n IH]; intros m w L1 L2; [lia|]. destruct m as [|m]; [lia|]. cbn [spellWithoutSoftHyphen].
  apply body_ext. intros v L. apply IH; lia.
Qed.

(** The verdict on words whose soft hyphens are not looked at. *)
Definition plain (tw : tweaks) (w : list Z) : res spellresult := spellWithoutSoftHyphen (length w + 1) tw w.

Lemma plain_eq : forall tw w, plain tw w = without_soft_hyphen (plain tw) tw w.
Proof.
  intros tw w. unfold plain at 1. replace (length w + 1)%nat with (S (length w)) by lia. cbn [spellWithoutSoftHyphen]. apply body_ext.
  intros v L. apply fuel_enough; lia.
Qed.

Lemma tweaks_eq : forall tw w, tweaks_spell tw w = spell_with (plain tw) tw w.
Proof. intros tw w. unfold tweaks_spell. apply spell_with_ext. intros v L. apply fuel_enough; lia. Qed.

Lemma tweaks_plain : forall tw w, ~ In SHY w -> tweaks_spell tw w = plain tw w.
Proof. intros tw w N. rewrite tweaks_eq. unfold spell_with. rewrite (proj2 (find_from_none 0xAD w 0)); auto. Qed.

(** ** Soft hyphens: the whole function *)

Lemma shy_ok : forall rec tw w, good_analyzer (tw_analyzer tw) -> unicode_word w -> (exists r, rec (without_shy w) = Ok r) -> In SHY w ->
  exists r, spell_with rec tw w = Ok r /\
    (r <> SPELL_FAILED -> rec (without_shy w) = Ok r) /\
    (r <> SPELL_FAILED <-> shy_well_placed w /\ known rec (without_shy w) /\
       exists p, allPossibleHyphenPositions (tw_analyzer tw) tweaks_hyphenator (without_shy w) = Ok (Some p) /\ breaks_at_shys p w).
Proof.
  intros rec tw w G U (q & R) I. unfold spell_with. destruct (find_from 0xAD w 0) eqn:F; [|apply find_from_none in F; tauto]. clear F.
  rewrite strip_soft_ok by (intros ? []). cbn [Nat.eqb orb negb rev app]. destruct (ok_shy false w) eqn:OS.
  2: { exists SPELL_FAILED. split; auto. split; [congruence|]. split; [congruence|]. intros (H & _). apply well_placed_ok in H. congruence. }
  rewrite R. cbn [bind].
  assert (unicode_word (without_shy w)) as U'.
  { unfold unicode_word, without_shy in *. rewrite Forall_forall in *. intros c X. apply filter_In in X. destruct X. auto. }
  destruct (spell_failed q) eqn:Q.
  { exists SPELL_FAILED. split; auto. split; [congruence|]. split; [congruence|]. intros (_ & (r & X & Y) & _). rewrite R in X. inversion X. subst. destruct r; discriminate || congruence. }
  destruct (all_positions_ok (tw_analyzer tw) (without_shy w) G U') as (o & E & LP & _). rewrite E. cbn [bind]. destruct o as [p|].
  2: { exists SPELL_FAILED. split; auto. split; [congruence|]. split; [congruence|]. intros (_ & _ & p & X & _). congruence. }
  assert (forall k, In k (shy_positions 0 w) <-> exists a b, w = a ++ SHY :: b /\ k = length (without_shy a)) as SP by (intros; rewrite shy_positions_spec; reflexivity).
  destruct (all_hyphens_ok p (shy_positions 0 w)) as (v & -> & V).
  { intros k K. apply SP in K. destruct K as (a & b & -> & ->). rewrite (LP p eq_refl). unfold without_shy. rewrite filter_app, app_length. lia. }
  cbn [bind]. assert (VB : v = true <-> breaks_at_shys p w).
  { rewrite V. unfold breaks_at_shys. split; [intros H a b X; apply H; apply SP; eauto|]. intros H k K. apply SP in K. destruct K as (a & b & X & ->). eauto. }
  assert (q <> SPELL_FAILED) as QN by (intros ->; discriminate).
  exists (if v then q else SPELL_FAILED). split; auto. split; [destruct v; [auto|congruence]|]. split.
  - intros H. destruct v; [|congruence]. split; [apply well_placed_ok; auto|]. split; [exists q; auto|]. exists p. split; auto. apply VB. auto.
  - intros (_ & _ & p' & X & Y). assert (p' = p) by congruence. subst p'. apply VB in Y. subst v. auto.
Qed.

(** ** Compound hyphens: the whole function *)

Section BODY.
  Variable tw : tweaks.
  Variable rec : list Z -> res spellresult.
  Variable w : list Z.
  Hypothesis GA : good_analyzer (tw_analyzer tw).
  Hypothesis IT : forall v, unicode_word v -> exists r, inner tw v = Ok r.
  Hypothesis RT : forall v, unicode_word v -> (length v < length w)%nat -> exists r, rec v = Ok r.
  Hypothesis UW : unicode_word w.

  Lemma spell_with_total : forall v, unicode_word v -> (length v < length w)%nat -> exists r, spell_with rec tw v = Ok r.
  Proof.
    intros v U L. destruct (in_dec Z.eq_dec SHY v) as [I|I].
    - assert (unicode_word (without_shy v)) as U'.
      { unfold unicode_word, without_shy in *. rewrite Forall_forall in *. intros c X. apply filter_In in X. destruct X. auto. }
      destruct (shy_ok rec tw v GA U (RT _ U' ltac:(pose proof (without_shy_length v); lia)) I) as (r & H & _). eauto.
    - unfold spell_with. rewrite (proj2 (find_from_none 0xAD v 0)); auto.
  Qed.

  Definition extra_ok (a b : list Z) : Prop :=
    tw_extra_hyphens tw = true /\ (1 < length a)%nat /\ (forall b', b <> 0x2D :: b') /\ rec (a ++ b) = Ok SPELL_OK.
  Definition pair_q (a b : list Z) (q : spellresult) : Prop := same_pair a b /\ inner tw (a ++ b) = Ok q /\ q <> SPELL_FAILED.
  Definition free_q (a b : list Z) (q : spellresult) : Prop :=
    spell_with rec tw a = Ok q /\ q <> SPELL_FAILED /\ free_end (tw_analyzer tw) b.

  Lemma body_ok : exists q0 r, inner tw w = Ok q0 /\ without_soft_hyphen rec tw w = Ok r /\
    ((r = q0 /\ (q0 = SPELL_OK \/ (length w <= 3)%nat \/ forall a b, ~ first_split w a b)) \/
     (q0 <> SPELL_OK /\ (3 < length w)%nat /\ exists a b a2 b2, first_split w a b /\ last_split w a2 b2 /\
        ((extra_ok a b /\ r = SPELL_OK) \/
         (~ extra_ok a b /\ pair_q a b r /\ ~ as_good q0 r) \/
         (~ extra_ok a b /\ (forall q, pair_q a b q -> as_good q0 q) /\
            (free_q a2 b2 r \/
             ((forall q, ~ free_q a2 b2 q) /\
                ((ambiguous (tw_analyzer tw) (a ++ b) (length a) /\ r <> SPELL_FAILED /\ ~ as_good q0 r) \/
                 (r = q0 /\ (q0 = SPELL_FAILED -> ~ ambiguous (tw_analyzer tw) (a ++ b) (length a)))))))))).
  Proof.
    destruct (IT w UW) as (q0 & E0). exists q0. unfold without_soft_hyphen. rewrite E0. cbn [bind].
    destruct (negb (spell_ok q0) && (3 <? length w)%nat) eqn:G0.
    2: { exists q0. split; auto. split; auto. left. split; auto. apply andb_false_iff in G0. destruct G0 as [G0|G0]; [left; destruct q0; auto; discriminate|right; left; lia]. }
    apply andb_true_iff in G0. destruct G0 as (G1 & G2). assert (q0 <> SPELL_OK) as QN by (intros ->; discriminate). assert (3 < length w)%nat as LW by lia. clear G1 G2.
    destruct (find_from 0x2D (firstn (length w - 2) (skipn 1 w)) 1) as [k|] eqn:FI.
    2: { exists q0. split; auto. split; auto. left. split; auto. right. right. intros a b (X & Y & x & a' & A & _).
         apply (first_split_none w LW FI a b); auto. subst a. discriminate. }
    destruct (first_split_find w k LW FI) as (a & b & FS & ->). clear FI. destruct (first_split_lengths w a b FS) as (EB & LAB). rewrite EB.
    assert (unicode_word a /\ unicode_word b) as (UA & UB).
    { destruct FS as (X & _). unfold unicode_word in *. rewrite X in UW. apply Forall_app in UW. destruct UW as (U1 & U2). inversion U2. auto. }
    assert (unicode_word (a ++ b)) as UAB by (apply Forall_app; auto).
    assert (NNW : forall v, unicode_word v -> ~ In 0 v). { intros v U I. unfold unicode_word in U. rewrite Forall_forall in U. specialize (U 0 I). unfold code_point in U. lia. }
    (* all hyphens are optional *)
    assert (exists x, (if tw_extra_hyphens tw && (1 <? length a)%nat
                then c <- rd (a ++ b) (length a) ;;
                     if c =? 0x2D then Ok false
                     else spres <- rec (a ++ b) ;; Ok (spell_ok spres)
                else Ok false) = Ok x /\ (x = true <-> extra_ok a b)) as (extra & -> & EX).
    { unfold extra_ok. destruct (tw_extra_hyphens tw); cbn [andb]; [|exists false; split; auto; split; [discriminate|intros (X & _); discriminate]].
      destruct (1 <? length a)%nat eqn:LA; [|exists false; split; auto; split; [discriminate|lia]].
      destruct FS as (_ & NB & _). destruct b as [|c b']; [congruence|]. unfold rd. rewrite nth_error_app2, Nat.sub_diag by lia. cbn [nth_error bind].
      destruct (c =? 0x2D) eqn:C.
      - exists false. split; auto. split; [discriminate|]. intros (_ & _ & X & _). assert (c = 0x2D) by lia. subst c. elim (X b'). auto.
      - destruct (RT (a ++ c :: b') UAB ltac:(lia)) as (r & ->). cbn [bind]. exists (spell_ok r). split; auto. split.
        + intros X. split; auto. split; [lia|]. split; [intros b2 Y; inversion Y; lia|]. destruct r; try discriminate. auto.
        + intros (_ & _ & _ & X). inversion X. reflexivity. }
    cbn [bind].
    assert (LS : exists k, last_hyphen w (length w - 2) = Ok (Some k) /\ (0 < k <= length w - 2)%nat /\ last_split w (firstn k w) (skipn (k + 1) w)).
    { destruct (last_hyphen_some w (length w - 2) ltac:(lia)) as [(k & K1 & K2 & K3 & K4)|(K1 & K2)].
      - exists k. split; auto. split; auto. apply last_split_find; auto.
      - exfalso. destruct FS as (X & NB & y & a' & A & _). apply (K2 (length a)).
        + subst a. cbn [length]. split; [lia|]. rewrite X, app_length. cbn [length]. destruct b; [congruence|]. cbn [length]. lia.
        + rewrite X, nth_error_app2, Nat.sub_diag by lia. reflexivity. }
    destruct LS as (k & LE & KB & LS). set (a2 := firstn k w) in *. set (b2 := skipn (k + 1) w) in *.
    destruct extra.
    { exists SPELL_OK. split; auto. split; auto. right. split; auto. split; auto. exists a, b, a2, b2. split; auto. split; auto. left. split; auto. apply EX. auto. }
    assert (~ extra_ok a b) as NEX by (intros X; apply EX in X; discriminate). clear EX.
    destruct (vc_pair_ok a b) as (vc & VC & VQ). { destruct FS as (X & _). rewrite <- X. auto. }
    assert (VCW : vc_pair w (length a) = Ok vc) by (destruct FS as (X & _); rewrite X; exact VC). rewrite VCW. cbn [bind]. clear VC VCW.
    assert (exists q, (if vc then inner tw (a ++ b) else Ok SPELL_FAILED) = Ok q /\ (q <> SPELL_FAILED -> pair_q a b q) /\ (forall q', pair_q a b q' -> q' = q)) as (qv & -> & V1 & V2).
    { unfold pair_q. destruct vc.
      - destruct (IT (a ++ b) UAB) as (q & EQ). rewrite EQ. exists q. split; auto. split; [intros; split; [apply VQ|]; auto|]. intros q' (_ & X & _). congruence.
      - exists SPELL_FAILED. split; auto. split; [congruence|]. intros q' (X & _). apply VQ in X. discriminate. }
    cbn [bind].
    destruct (negb (spell_failed qv) && improves q0 qv) eqn:IM.
    { apply andb_true_iff in IM. destruct IM as (I1 & I2). assert (qv <> SPELL_FAILED) as VN by (intros ->; discriminate).
      exists qv. split; auto. split; auto. right. split; auto. split; auto. exists a, b, a2, b2. split; auto. split; auto. right. left. split; auto. split; auto.
      apply improves_spec; auto. }
    assert (forall q, pair_q a b q -> as_good q0 q) as PG.
    { intros q P. assert (q = qv) by auto. subst q. destruct P as (_ & _ & VN). assert (spell_failed qv = false) as SF by (destruct qv; auto; congruence).
      rewrite SF in IM. cbn [negb andb] in IM. assert (as_good q0 qv \/ ~ as_good q0 qv) as [X|X]; auto.
      - destruct q0, qv; try (left; constructor); try (right; intros X; inversion X; fail); congruence.
      - apply improves_spec in X; auto. congruence. }
    rewrite LE. cbn [bind]. fold a2 b2.
    assert (unicode_word a2) as UA2 by (unfold a2, unicode_word in *; rewrite <- (firstn_skipn k w) in UW; apply Forall_app in UW; tauto).
    destruct (spell_with_total a2 UA2) as (ql & EL). { unfold a2. rewrite firstn_length. lia. }
    rewrite EL. cbn [bind].
    assert (FE : existsb free_ending (tw_analyzer tw false b2) = true <-> free_end (tw_analyzer tw) b2).
    { rewrite existsb_exists. unfold free_end, free_ending. split.
      - intros (x & X1 & X2). exists x. split; auto. destruct (x MALAGA_VAPAA_JALKIOSA) as [v|]; [|discriminate]. f_equal. apply zlist_eqb_eq. auto.
      - intros (x & X1 & X2). exists x. split; auto. rewrite X2. apply zlist_eqb_refl. }
    destruct (negb (spell_failed ql) && existsb free_ending (tw_analyzer tw false b2)) eqn:LF; cbn [bind].
    { apply andb_true_iff in LF. destruct LF as (L1 & L2). rewrite L1. exists ql. split; auto. split; auto. right. split; auto. split; auto.
      exists a, b, a2, b2. split; auto. split; auto. right. right. split; auto. split; auto. left. split; auto. split; [intros ->; discriminate|]. apply FE. auto. }
    cbn [spell_failed negb].
    assert (forall q, ~ free_q a2 b2 q) as NF.
    { intros q (X1 & X2 & X3). assert (q = ql) by congruence. subst q. apply FE in X3. rewrite X3 in LF. destruct ql; cbn in LF; congruence. }
    rewrite (cstr_no_nul (a ++ b)) by auto.
    destruct (border_loop_ok (a ++ b) (length a) (tw_analyzer tw false (a ++ b)) SPELL_FAILED SPELL_FAILED (GA false (a ++ b))) as (x & y & BL & BX & BY).
    assert (AM : ambiguous (tw_analyzer tw) (a ++ b) (length a) <-> x <> SPELL_FAILED /\ y <> SPELL_FAILED).
    { rewrite BX, BY. unfold ambiguous. split; [intros (X & Y); auto|]. intros ([X|X] & [Y|Y]); try congruence. auto. }
    destruct (tw_analyzer tw false (a ++ b)) as [|an0 an1] eqn:AN.
    { exists q0. split; auto. split; auto. right. split; auto. split; auto. exists a, b, a2, b2. split; auto. split; auto. right. right. split; auto. split; auto. right. split; auto.
      right. split; auto. intros _ ((z & st & I & _) & _). rewrite AN in I. destruct I. }
    rewrite BL. cbn [bind].
    destruct (negb (spell_failed x) && negb (spell_failed y) && improves q0 x) eqn:IM2.
    - apply andb_true_iff in IM2. destruct IM2 as (I1 & I2). apply andb_true_iff in I1. destruct I1 as (I0 & I1).
      assert (x <> SPELL_FAILED) as XN by (intros ->; discriminate). assert (y <> SPELL_FAILED) as YN by (intros ->; discriminate).
      exists x. split; auto. split; auto. right. split; auto. split; auto. exists a, b, a2, b2. split; auto. split; auto. right. right. split; auto. split; auto. right. split; auto.
      left. split; [apply AM; auto|]. split; auto. apply improves_spec; auto.
    - exists q0. split; auto. split; auto. right. split; auto. split; auto. exists a, b, a2, b2. split; auto. split; auto. right. right. split; auto. split; auto. right. split; auto.
      right. split; auto. intros -> X. apply AM in X. destruct X as (XN & YN). destruct x, y; cbn in IM2; congruence.
  Qed.
End BODY.

Lemma plain_total : forall tw, good_analyzer (tw_analyzer tw) -> (forall v, unicode_word v -> exists r, inner tw v = Ok r) ->
  forall w, unicode_word w -> exists r, plain tw w = Ok r.
Proof.
  intros tw G I. assert (forall n w, (length w < n)%nat -> unicode_word w -> exists r, plain tw w = Ok r) as K.
  { induction n as [|n IH]; intros w L U; [lia|]. rewrite plain_eq.
    destruct (body_ok tw (plain tw) w G I) as (q0 & r & _ & E & _); auto; [|eauto]. intros v UV LV. apply IH; auto. lia. }
  intros w. apply (K (S (length w))). lia.
Qed.
