(** * Sorting and presentation of suggestions *)
From Coq Require Import Permutation Sorted.
From Verif Require Import Base BaseFacts CharModel CharSpec CharProofs SpellerBase SpellSpec CacheModel AnalysisModel AnalyzerBase
  HandleModel HyphModel HyphSpec HyphProofs AdapterModel TweaksSpec TweaksProofs SuggestModel SuggestSpec SuggestProofs SuggestProofs2
  SuggestEdits SuggestInv SuggestInv2.

(** ** Sorting *)

Definition le_rank (c : Z) (x : list Z * Z) : bool := snd x <=? c.
Definition gt_rank (c : Z) (x : list Z * Z) : bool := c <? snd x.

Lemma filter_all : forall A (f : A -> bool) l, (forall x, In x l -> f x = true) -> filter f l = l.
Proof. induction l as [|x l IH]; intros H; cbn; auto. rewrite H by (left; auto). f_equal. apply IH. intros. apply H. right; auto. Qed.
Lemma filter_none : forall A (f : A -> bool) l, (forall x, In x l -> f x = false) -> filter f l = [].
Proof. induction l as [|x l IH]; intros H; cbn; auto. rewrite H by (left; auto). apply IH. intros. apply H. right; auto. Qed.

Lemma sorted_app : forall (a b : list (list Z * Z)), StronglySorted by_rank (a ++ b) <->
  StronglySorted by_rank a /\ StronglySorted by_rank b /\ forall x y, In x a -> In y b -> by_rank x y.
Proof.
  induction a as [|x a IH]; intros b; cbn [app].
  - split; [intros H; repeat split; auto; [constructor|intros x y []]|intros (_ & H & _); auto].
  - split.
    + intros H. apply StronglySorted_inv in H as (H1 & H2). apply IH in H1 as (A & B & C). rewrite Forall_app in H2. destruct H2 as (F1 & F2).
      split; [constructor; auto|]. split; auto. intros u y [<-|Hu] Hy; auto. rewrite Forall_forall in F2. auto.
    + intros (A & B & C). apply StronglySorted_inv in A as (A1 & A2). constructor.
      * apply IH. split; auto. split; auto. intros. apply C; auto. right; auto.
      * apply Forall_app. split; auto. rewrite Forall_forall. intros. apply C; auto. left; auto.
Qed.

Lemma sorted_split : forall l c, StronglySorted by_rank l -> l = filter (le_rank c) l ++ filter (gt_rank c) l.
Proof.
  induction l as [|x l IH]; intros c H; cbn [filter]; auto. apply StronglySorted_inv in H as (H1 & H2).
  unfold le_rank at 1, gt_rank at 1. destruct (Z.leb_spec (snd x) c).
  - destruct (Z.ltb_spec c (snd x)); [lia|]. cbn [app]. f_equal. auto.
  - destruct (Z.ltb_spec c (snd x)); [|lia]. rewrite Forall_forall in H2.
    rewrite (filter_none _ (le_rank c) l), (filter_all _ (gt_rank c) l); auto; intros y Hy; specialize (H2 y Hy); unfold by_rank, le_rank, gt_rank in *; lia.
Qed.

Lemma shift_ok : forall T y R cur, StronglySorted by_rank T ->
  sort_shift (T ++ y :: R) (length T) cur = Ok (filter (le_rank (snd cur)) T ++ cur :: filter (gt_rank (snd cur)) T ++ R).
Proof.
  induction T as [|x T IH] using rev_ind; intros y R cur H.
  - cbn [length app sort_shift filter]. reflexivity.
  - apply sorted_app in H as (H1 & H2 & H3). rewrite app_length. cbn [length]. rewrite Nat.add_1_r. cbn [sort_shift].
    rewrite <- app_assoc. cbn [app]. rewrite (proj2 (rd_ok _ _ _ x)) by apply nth_mid. cbn [bind].
    rewrite !filter_app. cbn [filter]. unfold le_rank at 2, gt_rank at 2.
    assert (W : forall c, wr (T ++ x :: y :: R) (S (length T)) c = Ok (T ++ x :: c :: R)).
    { intros c. rewrite wr_lt by (rewrite app_length; cbn; lia). f_equal. replace (S (length T)) with (length T + 1)%nat by lia.
      rewrite upd_mid_plus. reflexivity. }
    destruct (Z.ltb_spec (snd cur) (snd x)).
    + rewrite W. cbn [bind]. rewrite IH by auto. destruct (Z.leb_spec (snd x) (snd cur)); [lia|]. rewrite app_nil_r. rewrite <- app_assoc. auto.
    + rewrite W. destruct (Z.leb_spec (snd x) (snd cur)); [|lia].
      rewrite (filter_all _ (le_rank (snd cur)) T), (filter_none _ (gt_rank (snd cur)) T).
      * cbn [app]. rewrite <- app_assoc. auto.
      * intros z Hz. specialize (H3 z x Hz (or_introl eq_refl)). unfold by_rank, gt_rank in *. lia.
      * intros z Hz. specialize (H3 z x Hz (or_introl eq_refl)). unfold by_rank, le_rank in *. lia.
Qed.

Lemma insert_stable : forall l T x, stably_sorted l T ->
  stably_sorted (l ++ [x]) (filter (le_rank (snd x)) T ++ x :: filter (gt_rank (snd x)) T).
Proof.
  intros l T x (P & S1 & F). pose proof (sorted_split T (snd x) S1) as Sp.
  set (A := filter (le_rank (snd x)) T) in *. set (B := filter (gt_rank (snd x)) T) in *.
  assert (HA : forall y, In y A -> snd y <= snd x) by (intros y H; apply filter_In in H as (_ & H); unfold le_rank in H; lia).
  assert (HB : forall y, In y B -> snd x < snd y) by (intros y H; apply filter_In in H as (_ & H); unfold gt_rank in H; lia).
  split; [|split].
  - assert (P2 : Permutation (l ++ [x]) (T ++ [x])) by (apply Permutation_app_tail; auto).
    eapply Permutation_trans; [exact P2|]. rewrite Sp at 1. rewrite <- app_assoc. apply Permutation_app_head. apply Permutation_sym, Permutation_cons_append.
  - rewrite Sp in S1. apply sorted_app in S1 as (S2 & S3 & S4). apply sorted_app. split; auto. split.
    + constructor; auto. rewrite Forall_forall. intros y Hy. apply HB in Hy. unfold by_rank. lia.
    + intros u y Hu [<-|Hy]; [apply HA in Hu; unfold by_rank; lia|auto].
  - intros p. rewrite !filter_app. cbn [filter]. rewrite <- F.
    replace (filter (fun z => snd z =? p) T) with (filter (fun z => snd z =? p) A ++ filter (fun z => snd z =? p) B) by (rewrite <- filter_app, <- Sp; auto).
    destruct (Z.eqb_spec (snd x) p).
    + rewrite (filter_none _ _ B) by (intros y Hy; apply HB in Hy; lia). rewrite app_nil_r. auto.
    + rewrite app_nil_r. auto.
Qed.

Lemma sort_loop_ok : forall n l i T, (i + n <= length l)%nat -> stably_sorted (firstn i l) T -> length T = i ->
  exists T', for_loop n i (fun i l => current <- rd l i ;; sort_shift l i current) (T ++ skipn i l) = Ok (T' ++ skipn (i + n) l) /\
    stably_sorted (firstn (i + n) l) T' /\ length T' = (i + n)%nat.
Proof.
  induction n as [|n IH]; intros l i T L H LT; cbn [for_loop].
  - rewrite Nat.add_0_r. eauto.
  - destruct (nth_error l i) as [x|] eqn:E; [|apply nth_error_None in E; lia].
    rewrite (skipn_cons_nth _ _ _ _ E). rewrite (proj2 (rd_ok _ _ i x)) by (rewrite <- LT; apply nth_mid). cbn [bind].
    pose proof (shift_ok T x (skipn (S i) l) x (proj1 (proj2 H))) as Sh. rewrite LT in Sh. rewrite Sh. cbn [bind].
    replace (i + S n)%nat with (S i + n)%nat by lia.
    replace (filter (le_rank (snd x)) T ++ x :: filter (gt_rank (snd x)) T ++ skipn (S i) l)
      with ((filter (le_rank (snd x)) T ++ x :: filter (gt_rank (snd x)) T) ++ skipn (S i) l) by (rewrite <- app_assoc; auto).
    apply IH; [lia| |].
    + rewrite (firstn_S_nth _ l i x E). apply insert_stable; auto.
    + pose proof (insert_stable _ _ x H) as (P & _). apply Permutation_length in P. rewrite <- P, app_length, firstn_length_le by lia. cbn. lia.
Qed.

Lemma sort_ok : forall l, exists l', sortSuggestions l = Ok l' /\ stably_sorted l l' /\ length l' = length l.
Proof.
  intros l. destruct (sort_loop_ok (length l) l 0 []) as (T & E & S1 & L); auto.
  - cbn [firstn]. split; [constructor|]. split; [constructor|auto].
  - cbn [app skipn Nat.add] in *. rewrite skipn_all, app_nil_r in E. rewrite firstn_all in S1. exists T. auto.
Qed.

(** ** Dots *)

Lemma get_ok : forall l dot, (dot = true -> Forall (fun x => fst x <> []) l) ->
  exists r, get_suggestions l dot = Ok r /\ Forall2 (fun x y => dotted dot (fst x) y) l r.
Proof.
  induction l as [|(w, p) l IH]; intros dot H; cbn [get_suggestions]; [eauto|].
  destruct (IH dot) as (r & E & F).
  { intros D. specialize (H D). inversion H; auto. }
  destruct dot.
  - specialize (H eq_refl). inversion H as [|? ? Hw _]; subst. cbn [fst] in Hw. destruct w as [|c w _] using rev_ind; [congruence|].
    unfold rd_back. rewrite app_length. cbn [length]. destruct (Nat.ltb_spec (length w + 1) 1); [lia|].
    replace (length w + 1 - 1)%nat with (length w) by lia. rewrite (proj2 (rd_ok _ _ _ c)) by apply nth_mid. cbn [bind]. rewrite E. cbn [bind].
    eexists. split; [reflexivity|]. constructor; auto. cbn [fst dotted]. destruct (Z.eqb_spec c 0x2E); cbn [negb].
    + left. rewrite app_nil_r. split; auto. exists w. congruence.
    + right. split; auto. intros x' X. apply snoc_inj in X as (_ & X). congruence.
  - cbn [bind]. rewrite E. cbn [bind]. eexists. split; [reflexivity|]. constructor; auto. cbn [fst dotted]. apply app_nil_r.
Qed.

(** ** Case *)

Lemma ct_eqb_eq : forall a b, ct_eqb a b = true <-> a = b.
Proof. intros [] []; cbn; split; congruence. Qed.

Lemma casetype_small : forall d, ct_eqb (voikko_casetype d) CT_ALL_LOWER = true <-> small_text d.
Proof.
  intros d. rewrite ct_eqb_eq. pose proof (casetype_cases d) as H. unfold small_text. split.
  - intros X. rewrite X in H. auto.
  - intros (A & B). destruct (voikko_casetype d) eqn:C; auto; exfalso.
    + apply A. unfold no_small, no_cased in *. eapply Forall_impl; [|exact H]. cbn. tauto.
    + destruct H as (_ & c & r & -> & X & _). inversion B as [|? ? Y _]. tauto.
    + destruct H as (_ & c & r & -> & X). apply X. inversion B; auto.
    + tauto.
Qed.

Lemma casetype_capitals : forall d, ct_eqb (voikko_casetype d) CT_ALL_UPPER = true <-> all_capitals d.
Proof.
  intros d. rewrite ct_eqb_eq. pose proof (casetype_cases d) as H. unfold all_capitals. split.
  - intros X. rewrite X in H. auto.
  - intros (A & B). destruct (voikko_casetype d) eqn:C; auto; exfalso; tauto.
Qed.

Lemma first_spec : forall n, exists b, (if ct_eqb (voikko_casetype n) CT_FIRST_UPPER then Ok true
            else if ct_eqb (voikko_casetype n) CT_COMPLEX then c <- rd n 0 ;; Ok (isUpper c) else Ok false) = Ok b /\
  (b = true <-> starts_capital n /\ ~ no_small n).
Proof.
  intros n. pose proof (casetype_cases n) as H. unfold starts_capital. destruct (voikko_casetype n) eqn:C; cbn [ct_eqb].
  - exists false. split; auto. split; [discriminate|]. intros (_ & A). elim A. unfold no_small, no_cased in *. eapply Forall_impl; [|exact H]. cbn. tauto.
  - exists false. split; auto. split; [discriminate|]. intros ((c & r & -> & X) & _). destruct H as (_ & H). inversion H as [|? ? Y _]. tauto.
  - exists true. split; auto. split; auto. intros _. destruct H as (A & c & r & E & X & _). split; eauto.
  - destruct H as (A & c & r & E & X). subst n. exists (isUpper c). split; auto. rewrite isUpper_spec. split.
    + intros Y. split; eauto.
    + intros ((c' & r' & E & Y) & _). injection E as <- <-. auto.
  - exists false. split; auto. split; [discriminate|]. intros (_ & A). tauto.
Qed.

Lemma set_first : forall d, small_text d -> exists c r, d = c :: r /\ voikko_set_case CT_FIRST_UPPER d = upper c :: r.
Proof.
  intros [|c r] (A & B); [elim A; constructor|]. exists c, r. split; auto. cbn [voikko_set_case]. f_equal.
  inversion B as [|? ? _ B']; subst. clear A B. induction B' as [|x l H _ IH]; cbn [map]; auto. f_equal; auto.
  destruct (Z.eq_dec (lower x) x); auto. exfalso. apply (proj1 H). exists (lower x). apply case_pair_lower. auto.
Qed.

Lemma set_upper : forall d, voikko_set_case CT_ALL_UPPER d = map upper d.
Proof. intros [|c r]; auto. Qed.

Lemma adapt_ok : forall h n l, exists l', adapt_case h n l = Ok l' /\ Forall2 (case_follows (accept_all_uppercase h) n) l l'.
Proof.
  intros h n l. unfold adapt_case. destruct (first_spec n) as (b & -> & Hb). cbn [bind]. eexists. split; [reflexivity|].
  pose proof (casetype_capitals n) as HC. destruct (ct_eqb (voikko_casetype n) CT_ALL_UPPER) eqn:C.
  - assert (AC : all_capitals n) by (apply HC; auto). assert (b = false) as ->.
    { destruct b; auto. destruct (proj1 Hb eq_refl) as (_ & X). destruct AC. tauto. }
    cbn [andb]. destruct (accept_all_uppercase h).
    + rewrite <- (map_id l) at 1. induction l as [|d l IH]; cbn [map]; constructor; auto. rewrite set_upper.
      split; [auto|split; [intros _ X; destruct AC; tauto|tauto]].
    + induction l as [|d l IH]; constructor; auto. split; [auto|split; [intros _ X; destruct AC; tauto|tauto]].
  - assert (AC : ~ all_capitals n) by (intros X; apply HC in X; congruence). cbn [andb]. destruct b.
    + destruct (proj1 Hb eq_refl) as (B1 & B2). induction l as [|d l IH]; cbn [map]; constructor; auto.
      destruct (ct_eqb (voikko_casetype d) CT_ALL_LOWER) eqn:D.
      * apply casetype_small in D. split; [tauto|]. split; [intros _ _ _; apply set_first; auto|tauto].
      * assert (~ small_text d) by (intros X; apply casetype_small in X; congruence). split; [tauto|]. split; [tauto|auto].
    + induction l as [|d l IH]; constructor; auto. split; [tauto|]. split; [|auto]. intros X Y. assert (false = true) by (apply Hb; auto). discriminate.
Qed.

(** ** Apostrophes and hyphens *)

Lemma conv_unit : forall o c, existsb (fun p => (o =? fst p) && (c =? snd p)) CONV_1TO1 = true <-> unit_of [o] [c].
Proof.
  intros o c. cbn [CONV_1TO1 existsb fst snd]. rewrite !orb_true_iff, !andb_true_iff, !Z.eqb_eq. split.
  - intros [(-> & ->)|[(-> & ->)|[(-> & ->)|X]]]; [constructor|constructor|constructor|discriminate].
  - intros H. inversion H; subst; auto.
Qed.

Lemma unconvert_spec : forall o c, (unit_of [o] [c] /\ unconvert o c = o) \/ (~ unit_of [o] [c] /\ unconvert o c = c).
Proof.
  intros o c. unfold unconvert. pose proof (conv_unit o c) as H. destruct (existsb _ CONV_1TO1); [left; split; auto; apply H; auto|].
  right. split; auto. intros X. apply H in X. discriminate.
Qed.

Lemma respelt_step : forall c d o, respelt c d -> respelt c (unconvert o d).
Proof.
  intros c d o H. destruct (unconvert_spec o d) as [(U & ->)|(_ & ->)]; auto. destruct H as [->|H]; [right; auto|].
  exfalso. inversion U; subst; inversion H.
Qed.

Lemma same_text_upd : forall x m i c d, same_text x m -> nth_error m i = Some c -> (forall a, respelt a c -> respelt a d) -> same_text x (upd m i d).
Proof.
  intros x m i c d F. revert i. induction F as [|a b x m R F IH]; intros [|i] H K; cbn in *; try discriminate; constructor; auto.
  - injection H as ->. auto.
  - apply IH; auto.
Qed.

Lemma leading_ok : forall orig n i x m, (i + n <= length orig)%nat -> (i + n <= length m)%nat -> same_text x m ->
  exists m' j, reformat_leading orig n i m = Ok (m', j) /\ same_text x m' /\ length m' = length m /\ (i <= j <= i + n)%nat.
Proof.
  intros orig. induction n as [|n IH]; intros i x m L1 L2 F; cbn [reformat_leading].
  - exists m, i. split; auto. split; auto. split; auto. lia.
  - destruct (rd_lt _ orig i ltac:(lia)) as (o & -> & _). cbn [bind]. destruct (rd_lt _ m i ltac:(lia)) as (c & -> & Hc). cbn [bind].
    destruct (o =? c).
    + destruct (IH (S i) x m ltac:(lia) ltac:(lia) F) as (m' & j & E & F' & L & J). exists m', j. split; auto. split; auto. split; auto. lia.
    + rewrite wr_lt by lia. cbn [bind]. assert (F1 : same_text x (upd m i (unconvert o c))).
      { eapply same_text_upd; eauto. intros a. apply respelt_step. }
      destruct (negb _).
      * exists (upd m i (unconvert o c)), i. split; auto. split; auto. split; [apply upd_length|lia].
      * destruct (IH (S i) x (upd m i (unconvert o c)) ltac:(lia) ltac:(rewrite upd_length; lia) F1) as (m' & j & E & F' & L & J).
        exists m', j. split; auto. split; auto. split; [rewrite L; apply upd_length|lia].
Qed.

Lemma trailing_ok : forall orig len n i x m, (1 <= i)%nat -> (len <= length orig)%nat -> (i + n <= len + 1)%nat -> (i + n <= length m + 1)%nat -> same_text x m ->
  exists m', reformat_trailing orig len n i m = Ok m' /\ same_text x m'.
Proof.
  intros orig len. induction n as [|n IH]; intros i x m I L1 L2 L3 F; cbn [reformat_trailing]; [eauto|].
  unfold rd_back. destruct (Nat.ltb_spec len i); [lia|]. destruct (rd_lt _ orig (len - i) ltac:(lia)) as (o & -> & _). cbn [bind].
  destruct (Nat.ltb_spec (length m) i); [lia|]. destruct (rd_lt _ m (length m - i) ltac:(lia)) as (c & -> & Hc). cbn [bind].
  destruct (o =? c); [apply IH; auto; lia|]. rewrite wr_lt by lia. cbn [bind].
  assert (F1 : same_text x (upd m (length m - i) (unconvert o c))).
  { eapply same_text_upd; eauto. intros a. apply respelt_step. }
  destruct (negb _); [eauto|]. apply IH; auto; try lia. rewrite upd_length. lia.
Qed.

Lemma same_text_refl : forall x, same_text x x.
Proof. induction x; constructor; auto. left; auto. Qed.

Lemma reformat_ok : forall orig len m, (len <= length orig)%nat -> exists m', voikko_cset_reformat orig len m = Ok m' /\ same_text m m'.
Proof.
  intros orig len m L. unfold voikko_cset_reformat. destruct (_ || _) eqn:G; [exists m; split; auto; apply same_text_refl|].
  destruct (leading_ok orig (Nat.min len (length m)) 0 m m ltac:(lia) ltac:(lia) (same_text_refl m)) as (m1 & j & -> & F & L1 & J). cbn [bind].
  apply trailing_ok; auto; lia.
Qed.

Lemma reformat_all_ok : forall orig len l, (len <= length orig)%nat -> exists l', reformat_all orig len l = Ok l' /\ Forall2 same_text l l'.
Proof.
  intros orig len l L. induction l as [|m l (t & IH & F)]; cbn [reformat_all]; [eauto|].
  destruct (reformat_ok orig len m L) as (m' & -> & Fm). cbn [bind]. rewrite IH. cbn [bind]. eauto.
Qed.

(** The unchanged beginning and end of a word keep the original's spelling. *)
Lemma leading_prefix : forall a a' rest o n mrest i pre pre' k, Forall2 respelt a' a -> o <> n -> ~ unit_of [o] [n] ->
  length pre = i -> length pre' = i -> (length a < k)%nat ->
  reformat_leading (pre ++ a ++ o :: rest) k i (pre' ++ a' ++ n :: mrest) = Ok (pre' ++ a ++ n :: mrest, (i + length a)%nat).
Proof.
  intros a a' rest o n mrest i pre pre' k F. revert i pre pre' k. induction F as [|c' c a' a R F IH]; intros i pre pre' k N U L1 L2 K.
  - destruct k as [|k]; [cbn in K; lia|]. cbn [reformat_leading app]. rewrite (proj2 (rd_ok _ _ i o)) by (rewrite <- L1; apply nth_mid). cbn [bind].
    rewrite (proj2 (rd_ok _ _ i n)) by (rewrite <- L2; apply nth_mid). cbn [bind]. destruct (Z.eqb_spec o n); [contradiction|].
    destruct (unconvert_spec o n) as [(X & _)|(_ & ->)]; [contradiction|]. rewrite wr_lt by (rewrite app_length; cbn; lia). cbn [bind].
    rewrite (upd_len _ pre' _ _ i n L2). destruct (Z.eqb_spec o n); [contradiction|]. cbn [negb length]. rewrite Nat.add_0_r. auto.
  - destruct k as [|k]; [cbn in K; lia|]. cbn [reformat_leading app]. rewrite (proj2 (rd_ok _ _ i c)) by (rewrite <- L1; apply nth_mid). cbn [bind].
    rewrite (proj2 (rd_ok _ _ i c')) by (rewrite <- L2; apply nth_mid). cbn [bind].
    assert (St : reformat_leading (pre ++ c :: a ++ o :: rest) k (S i) (pre' ++ c :: a' ++ n :: mrest) =
                 Ok (pre' ++ c :: a ++ n :: mrest, (i + length (c :: a))%nat)).
    { specialize (IH (S i) (pre ++ [c]) (pre' ++ [c]) k N U). rewrite <- !app_assoc in IH. cbn [app] in IH. rewrite IH.
      - f_equal. f_equal. cbn [length]. lia.
      - rewrite app_length. cbn. lia.
      - rewrite app_length. cbn. lia.
      - cbn in K. lia. }
    destruct (Z.eqb_spec c c') as [<-|Nc]; [exact St|].
    destruct R as [R|R]; [congruence|]. destruct (unconvert_spec c c') as [(_ & ->)|(X & _)]; [|contradiction].
    rewrite wr_lt by (rewrite app_length; cbn; lia). cbn [bind]. rewrite (upd_len _ pre' _ _ i c L2). rewrite Z.eqb_refl. cbn [negb]. exact St.
Qed.

Lemma forall2_len : forall A B (R : A -> B -> Prop) l l', Forall2 R l l' -> length l = length l'.
Proof. intros A B R l l' F. induction F; cbn; auto. Qed.

Lemma nth_upd : forall A (l : list A) i c p, (i < length l)%nat -> nth_error (upd l i c) p = if Nat.eqb p i then Some c else nth_error l p.
Proof.
  induction l as [|x l IH]; intros [|i] c [|p] H; cbn in *; auto; try lia. rewrite IH by lia. destruct (Nat.eqb p i); auto.
Qed.

Lemma trailing_nth : forall orig len n i m m', (1 <= i)%nat -> (i + n <= len + 1)%nat -> (i + n <= length m + 1)%nat ->
  reformat_trailing orig len n i m = Ok m' ->
  length m' = length m /\
  (forall p, (p + i + n <= length m)%nat -> nth_error m' p = nth_error m p) /\
  (forall p, (length m < p + i)%nat -> nth_error m' p = nth_error m p) /\
  (forall q, (q <= n)%nat ->
     (forall k, (i <= k < i + q)%nat -> exists o c, nth_error orig (len - k) = Some o /\ nth_error m (length m - k) = Some c /\ respelt c o) ->
     forall k, (i <= k < i + q)%nat -> nth_error m' (length m - k) = nth_error orig (len - k)).
Proof.
  intros orig len. induction n as [|n IH]; intros i m m' I L2 L3 H; cbn [reformat_trailing] in H.
  - injection H as <-. split; auto. split; auto. split; auto. intros q Q _ k K. lia.
  - unfold rd_back in H. destruct (Nat.ltb_spec len i); [lia|]. apply bind_ok in H as (o & Ho & H).
    destruct (Nat.ltb_spec (length m) i); [lia|]. apply bind_ok in H as (c & Hc & H). apply rd_ok in Ho, Hc.
    destruct (Z.eqb_spec o c) as [<-|Noc].
    + destruct (IH (S i) m m' ltac:(lia) ltac:(lia) ltac:(lia) H) as (A & B & C & D). split; auto. split; [intros p P; apply B; lia|].
      split; [intros p P; apply C; lia|]. intros q Q K k Hk. destruct q as [|q]; [lia|]. destruct (Nat.eq_dec k i) as [->|Nk].
      * rewrite C by lia. congruence.
      * apply (D q ltac:(lia)); [|lia]. intros k' Hk'. apply K. lia.
    + rewrite wr_lt in H by lia. cbn [bind] in H. set (u := unconvert o c) in *. set (m1 := upd m (length m - i) u) in *.
      assert (L1 : length m1 = length m) by apply upd_length.
      assert (N1 : forall p, nth_error m1 p = if Nat.eqb p (length m - i) then Some u else nth_error m p) by (intros p; apply nth_upd; lia).
      destruct (Z.eqb_spec o u) as [Eu|Nu]; cbn [negb] in H.
      * destruct (IH (S i) m1 m' ltac:(lia) ltac:(lia) ltac:(lia) H) as (A & B & C & D). rewrite L1 in *. split; auto. split; [|split].
        -- intros p P. rewrite B by lia. rewrite N1. destruct (Nat.eqb_spec p (length m - i)); [lia|auto].
        -- intros p P. rewrite C by lia. rewrite N1. destruct (Nat.eqb_spec p (length m - i)); [lia|auto].
        -- intros q Q K k Hk. destruct q as [|q]; [lia|]. destruct (Nat.eq_dec k i) as [->|Nk].
           ++ rewrite C by lia. rewrite N1, Nat.eqb_refl. congruence.
           ++ apply (D q ltac:(lia)); [|lia]. intros k' Hk'. destruct (K k' ltac:(lia)) as (o' & c' & K1 & K2 & K3). exists o', c'. split; auto. split; auto.
              rewrite N1. destruct (Nat.eqb_spec (length m - k') (length m - i)); [lia|auto].
      * injection H as <-. split; auto. split; [|split].
        -- intros p P. rewrite N1. destruct (Nat.eqb_spec p (length m - i)); [lia|auto].
        -- intros p P. rewrite N1. destruct (Nat.eqb_spec p (length m - i)); [lia|auto].
        -- intros q Q K k Hk. destruct q as [|q]; [lia|]. exfalso. destruct (K i ltac:(lia)) as (o' & c' & K1 & K2 & K3).
           assert (o' = o) by congruence. assert (c' = c) by congruence. subst o' c'. destruct K3 as [K3|K3]; [congruence|].
           unfold u in Nu. destruct (unconvert_spec o c) as [(_ & X)|(X & _)]; [congruence|contradiction].
Qed.

Lemma nth_ext_eq : forall A (l l' : list A), (forall p, nth_error l p = nth_error l' p) -> l = l'.
Proof.
  induction l as [|x l IH]; intros [|y l'] H; auto; try (specialize (H O); discriminate).
  pose proof (H O) as H0. cbn in H0. injection H0 as <-. f_equal. apply IH. intros p. apply (H (S p)).
Qed.

Lemma frame_split : forall A (m a b : list A) k, length m = (length a + k + length b)%nat ->
  (forall p, (p < length a)%nat -> nth_error m p = nth_error a p) ->
  (forall p, (p < length b)%nat -> nth_error m (length a + k + p) = nth_error b p) ->
  exists mid, m = a ++ mid ++ b /\ length mid = k.
Proof.
  intros A m a b k L H1 H2. exists (firstn k (skipn (length a) m)).
  assert (Lf : length (firstn k (skipn (length a) m)) = k) by (rewrite firstn_length_le; auto; rewrite skipn_length; lia).
  split; auto. rewrite <- (firstn_skipn (length a) m) at 1. f_equal.
  - apply nth_ext_eq. intros p. destruct (Nat.lt_ge_cases p (length a)) as [X|X].
    + rewrite <- H1 by auto. rewrite <- (firstn_skipn (length a) m) at 2. rewrite nth_error_app1; auto. rewrite firstn_length_le by lia. auto.
    + rewrite (proj2 (nth_error_None _ _)) by (rewrite firstn_length_le by lia; auto). symmetry. apply nth_error_None. auto.
  - rewrite <- (firstn_skipn k (skipn (length a) m)) at 1. f_equal. rewrite skipn_skipn. apply nth_ext_eq. intros p.
    destruct (Nat.lt_ge_cases p (length b)) as [X|X].
    + rewrite <- H2 by auto. rewrite <- (firstn_skipn (length a + k) m) at 2. rewrite nth_error_app2 by (rewrite firstn_length_le; lia).
      f_equal. rewrite firstn_length_le; lia.
    + rewrite (proj2 (nth_error_None _ _)) by (rewrite skipn_length; lia). symmetry. apply nth_error_None. auto.
Qed.

Lemma reformat_frame : forall a o x b a' n y b', Forall2 respelt a' a -> Forall2 respelt b' b -> o <> n -> ~ unit_of [o] [n] ->
  exists mid, voikko_cset_reformat ((a ++ o :: x ++ b) ++ [0]) (length (a ++ o :: x ++ b)) (a' ++ n :: y ++ b') = Ok (a ++ mid ++ b) /\
    length mid = S (length y).
Proof.
  intros a o x b a' n y b' Fa Fb N U. unfold voikko_cset_reformat.
  assert (La : length a' = length a) by (eapply forall2_len; eauto). assert (Lb : length b' = length b) by (eapply forall2_len; eauto).
  set (len := length (a ++ o :: x ++ b)). set (m := a' ++ n :: y ++ b').
  assert (Ll : len = (length a + S (length x) + length b)%nat) by (unfold len; rewrite app_length; cbn [length]; rewrite app_length; lia).
  assert (Lm : length m = (length a + S (length y) + length b)%nat) by (unfold m; rewrite app_length; cbn [length]; rewrite app_length; lia).
  destruct ((len <? 1)%nat || (length m <? 1)%nat) eqn:G; [lia|].
  rewrite <- app_assoc. cbn [app].
  pose proof (leading_prefix a a' ((x ++ b) ++ [0]) o n (y ++ b') 0 [] [] (Nat.min len (length m)) Fa N U eq_refl eq_refl ltac:(lia)) as E.
  cbn [app Nat.add] in E. unfold m at 2. rewrite E. cbn [bind].
  set (m1 := a ++ n :: y ++ b'). assert (Lm1 : length m1 = length m) by (unfold m1, m; rewrite !app_length; cbn [length]; lia).
  destruct (trailing_ok (a ++ o :: (x ++ b) ++ [0]) len (Nat.min len (length m) - length a) 1 m1 m1 ltac:(lia)) as (m' & E' & _); try lia.
  { rewrite app_length. cbn [length]. rewrite !app_length. cbn [length]. lia. }
  { apply same_text_refl. }
  rewrite E'. apply trailing_nth in E'; [|lia|lia|lia]. destruct E' as (A & B & _ & D).
  destruct (frame_split _ m' a b (S (length y))) as (mid & -> & Lmid); [lia| | |eauto].
  - intros p P. rewrite B by lia. unfold m1. rewrite nth_error_app1; auto.
  - intros p P. specialize (D (length b) ltac:(lia)). rewrite Lm1 in D.
    replace (length a + S (length y) + p)%nat with (length m - (length b - p))%nat by lia. rewrite D; [|clear D|lia].
    + replace (len - (length b - p))%nat with (length a + (1 + (length x + p)))%nat by lia. rewrite nth_mid_plus. cbn [Nat.add nth_error].
      rewrite <- app_assoc. rewrite nth_mid_plus. apply nth_error_app1. auto.
    + intros k K. replace (len - k)%nat with (length a + (1 + (length x + (length b - k))))%nat by lia.
      replace (length m - k)%nat with (length a + (1 + (length y + (length b - k))))%nat by lia.
      unfold m1. rewrite !nth_mid_plus. cbn [Nat.add nth_error]. rewrite <- app_assoc, !nth_mid_plus.
      destruct (nth_error b' (length b - k)) as [c|] eqn:Ec; [|apply nth_error_None in Ec; lia].
      destruct (nth_error b (length b - k)) as [o'|] eqn:Eo; [|apply nth_error_None in Eo; lia].
      exists o', c. split; [rewrite nth_error_app1 by lia; auto|]. split; auto.
      clear - Fb Ec Eo. revert Ec Eo. generalize (length b - k)%nat. induction Fb; intros [|j] Ec Eo; cbn in *; try discriminate.
      * congruence.
      * eauto.
Qed.

(** A word that differs from the original in apostrophes and hyphens only
    becomes the original. *)
Lemma leading_whole : forall a a' rest i pre pre', Forall2 respelt a' a -> length pre = i -> length pre' = i ->
  reformat_leading (pre ++ a ++ rest) (length a) i (pre' ++ a') = Ok (pre' ++ a, (i + length a)%nat).
Proof.
  intros a a' rest i pre pre' F. revert i pre pre'. induction F as [|c' c a' a R F IH]; intros i pre pre' L1 L2; cbn [length reformat_leading].
  - rewrite Nat.add_0_r. auto.
  - cbn [app]. rewrite (proj2 (rd_ok _ _ i c)) by (rewrite <- L1; apply nth_mid). cbn [bind].
    rewrite (proj2 (rd_ok _ _ i c')) by (rewrite <- L2; apply nth_mid). cbn [bind].
    assert (St : reformat_leading (pre ++ c :: a ++ rest) (length a) (S i) (pre' ++ c :: a') = Ok (pre' ++ c :: a, (i + S (length a))%nat)).
    { specialize (IH (S i) (pre ++ [c]) (pre' ++ [c])). rewrite <- !app_assoc in IH. cbn [app] in IH. rewrite IH.
      - f_equal. f_equal. lia.
      - rewrite app_length. cbn. lia.
      - rewrite app_length. cbn. lia. }
    destruct (Z.eqb_spec c c') as [<-|Nc]; [exact St|].
    destruct R as [R|R]; [congruence|]. destruct (unconvert_spec c c') as [(_ & ->)|(X & _)]; [|contradiction].
    rewrite wr_lt by (rewrite app_length; cbn; lia). cbn [bind]. rewrite (upd_len _ pre' _ _ i c L2). rewrite Z.eqb_refl. cbn [negb]. exact St.
Qed.

Lemma reformat_whole : forall w m, Forall2 respelt m w -> voikko_cset_reformat (w ++ [0]) (length w) m = Ok w.
Proof.
  intros w m F. assert (L : length m = length w) by (eapply forall2_len; eauto). unfold voikko_cset_reformat. rewrite L, Nat.min_id.
  destruct (_ || _) eqn:G.
  - destruct w as [|c w]; [|cbn in G; lia]. destruct m; [auto|discriminate].
  - pose proof (leading_whole w m [0] 0 [] [] F eq_refl eq_refl) as E. cbn [app Nat.add] in E. rewrite E. cbn [bind]. rewrite Nat.sub_diag. auto.
Qed.

(** ** The whole *)

Lemma forall2_trans : forall A B C (R : A -> B -> Prop) (Q : B -> C -> Prop) (P : A -> C -> Prop) l m n,
  (forall a b c, R a b -> Q b c -> P a c) -> Forall2 R l m -> Forall2 Q m n -> Forall2 P l n.
Proof.
  intros A B C R Q P l m n H F. revert n. induction F; intros k G; inversion G; subst; constructor; eauto.
Qed.

Lemma suggest_shape : forall gen h word n dot core s, voikko_normalise word = Ok n -> searched h n dot core ->
  (2 <= length word <= LIBVOIKKO_MAX_WORD_CHARS)%nat -> n <> [] -> (ignore_dot h = true -> length n <> 2%nat) ->
  (length core <= length word + 1)%nat -> gen (new_status core 15) = Ok s -> (dot = true -> Forall (fun x => fst x <> []) (found s)) ->
  exists o, voikkoSuggestUcs4 gen h word = Ok o /\
    match o with
    | None => found s = []
    | Some l => found s <> [] /\ exists ranked, stably_sorted (found s) ranked /\ Forall2 (returned h core dot) (firstn 5 ranked) l
    end.
Proof.
  intros gen h word n dot core s En Hs Lw Nn Hd Lc Eg Hdot. unfold voikkoSuggestUcs4.
  destruct ((length word <=? 1)%nat || _) eqn:G; [lia|]. rewrite En. cbn [bind].
  destruct (ignore_dot h && Nat.eqb (length n) 2) eqn:G2.
  { apply andb_true_iff in G2 as (G3 & G4). apply Nat.eqb_eq in G4. elim (Hd G3 G4). }
  assert (X : (if ignore_dot h then c <- rd_back n (length n) 1 ;; Ok (c =? 0x2E) else Ok false) = Ok dot /\ (if dot then removelast n else n) = core).
  { unfold searched in Hs. destruct n as [|c n _] using rev_ind; [congruence|]. unfold rd_back. rewrite app_length. cbn [length].
    destruct (Nat.ltb_spec (length n + 1) 1); [lia|]. replace (length n + 1 - 1)%nat with (length n) by lia.
    rewrite (proj2 (rd_ok _ _ _ c)) by apply nth_mid. cbn [bind]. destruct dot.
    - destruct Hs as (-> & Hs). apply snoc_inj in Hs as (-> & ->). split; auto. apply removelast_last.
    - destruct Hs as (-> & Hs). split; auto. destruct (ignore_dot h); auto. destruct (Z.eqb_spec c 0x2E); auto. subst c. elim (Hs eq_refl n eq_refl). }
  destruct X as (X1 & X2). rewrite X1. cbn [bind]. rewrite X2. change (MAX_SUGGESTIONS * 3)%nat with 15%nat. rewrite Eg. cbn [bind].
  destruct (found s) as [|e f] eqn:Ef; [exists None; auto|]. rewrite <- Ef in *.
  destruct (sort_ok (found s)) as (sorted & -> & St & Ls). cbn [bind]. unfold getSuggestions.
  destruct (get_ok (firstn MAX_SUGGESTIONS sorted) dot) as (l1 & -> & F1).
  { intros D. specialize (Hdot D). rewrite Forall_forall in *. intros y Hy. apply Hdot. destruct St as (P & _).
    eapply Permutation_in; [apply Permutation_sym; eauto|]. eapply In_firstn; eauto. }
  cbn [bind]. destruct (adapt_ok h core l1) as (l2 & -> & F2). cbn [bind].
  destruct (reformat_all_ok (word ++ [0]) (length core) l2) as (l3 & -> & F3); [rewrite app_length; cbn; lia|]. cbn [bind].
  exists (Some l3). split; auto. split; [rewrite Ef; discriminate|]. exists sorted. split; auto.
  eapply forall2_trans; [|exact F1|]. 2:{ eapply forall2_trans; [|exact F2|exact F3]. intros a b c A B. exact (ex_intro (fun z => case_follows (accept_all_uppercase h) core a z /\ same_text z c) b (conj A B)). }
  intros a b c A (z & B & C). exists b, z. auto.
Qed.
