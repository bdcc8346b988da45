(** * Invariants of the search: splitting of words *)
From Verif Require Import Base BaseFacts CharModel CharSpec CharProofs SpellerBase SpellSpec CacheModel AnalysisModel AnalyzerBase HyphModel
  HyphSpec HyphProofs AdapterModel TweaksSpec TweaksProofs SuggestModel SuggestSpec SuggestProofs SuggestProofs2 SuggestEdits SuggestInv.

Definition bumped (s s' : status) (k : nat) : Prop :=
  sword s' = sword s /\ maxCost s' = maxCost s /\ maxSuggestions s' = maxSuggestions s /\ found s' = found s /\
  currentCost s' = (currentCost s + k)%nat /\ length (lookups s') = (length (lookups s) + k)%nat.

Lemma bumped_trans : forall a b c i j, bumped a b i -> bumped b c j -> bumped a c (i + j).
Proof. intros a b c i j (A1 & A2 & A3 & A4 & A5 & A6) (B1 & B2 & B3 & B4 & B5 & B6). repeat split; try congruence; lia. Qed.

Lemma bumped_one : forall s w, bumped s (charge (looked s w)) 1.
Proof. intros. repeat split; cbn; auto; try lia. rewrite app_length. auto. Qed.

Lemma same_nonzero : forall c d, lower d = lower c -> c <> 0 -> d <> 0.
Proof. intros c d H N ->. apply (lower_nonzero c N). rewrite <- H. reflexivity. Qed.

Lemma In_skipn : forall A n (l : list A) x, In x (skipn n l) -> In x l.
Proof. intros A n l x H. rewrite <- (firstn_skipn n l). apply in_or_app. auto. Qed.
Lemma In_firstn : forall A n (l : list A) x, In x (firstn n l) -> In x l.
Proof. intros A n l x H. rewrite <- (firstn_skipn n l). apply in_or_app. auto. Qed.

Lemma skipn_len : forall A (a l : list A) k, length a = k -> skipn k (a ++ l) = l.
Proof. intros A a l k <-. apply skipn_mid. Qed.
Lemma firstn_len : forall A (a l : list A) k, length a = k -> firstn k (a ++ l) = a.
Proof. intros A a l k <-. apply firstn_mid. Qed.

Lemma not_upper_lower : forall c, isUpper c = false -> lower c = c.
Proof.
  intros c H. unfold isUpper in H. lia.
Qed.

Section Split.
Variable an : analyzer.
Hypothesis GA : good_analyzer an.

(** The verdict decides whether the part fits. *)
Lemma fits_ok : forall v r p, spellWithPriority an v = Ok (r, p) -> fits an v -> r = SPELL_OK \/ r = SPELL_CAP_FIRST.
Proof.
  intros v r p Ep (a & st & I & St & Gr). pose proof (GA false v) as G. destruct (with_priority_ok an v G) as (r' & p' & Ep' & H).
  rewrite Ep in Ep'. injection Ep' as <- <-. destruct H as [(_ & _ & X)|(N & _ & H)]; [rewrite X in I; destruct I|].
  destruct (handle_ok v a _ G I) as (q & pq & st' & _ & St' & Gr' & W). assert (st' = st) by congruence. subst st'.
  destruct (H a q pq I W) as (As & _).
  destruct Gr as [Gr|Gr]; pose proof (graded_fun _ _ _ _ Gr Gr'); subst q; inversion As; auto.
Qed.

Lemma rank_ok : forall v r p, spellWithPriority an v = Ok (r, p) -> r <> SPELL_FAILED -> word_rank an v p.
Proof.
  intros v r p Ep N. pose proof (GA false v) as G. destruct (with_priority_ok an v G) as (r' & p' & Ep' & H).
  rewrite Ep in Ep'. injection Ep' as <- <-. destruct H as [(X & _)|(_ & H1 & H2)]; [congruence|]. exists r. auto.
Qed.

Lemma part_ok : forall s c p len, (1 <= len)%nat ->
  exists ok c' prio s', spell_part an s (c :: p) len = Ok (ok, c' :: p, prio, s') /\ lower c' = lower c /\
    0 <= prio <= MAXRANK /\ bumped s s' 1 /\
    (ok = true -> (0 < prio /\ word_rank an (lower c :: firstn (len - 1) p) prio) /\ (case_blind_analyzer an -> good_part an (c' :: firstn (len - 1) p))) /\
    (fits an (lower c :: firstn (len - 1) p) -> ok = true).
Proof.
  intros s c p len L. unfold spell_part. change (rd (c :: p) 0) with (@Ok Z c). cbn [bind].
  set (d := if isUpper c then lower c else c).
  assert (Dl : lower c = d) by (unfold d; destruct (isUpper c) eqn:U; [auto|apply not_upper_lower; auto]).
  assert (Eq : (if isUpper c then wr (c :: p) 0 (lower c) else Ok (c :: p)) = Ok (d :: p)) by (unfold d; destruct (isUpper c); reflexivity).
  rewrite Eq. cbn [bind]. rewrite Dl. replace len with (S (len - 1)) by lia. cbn [firstn]. set (q := firstn (len - 1) p).
  pose proof (GA false (d :: q)) as G. destruct (with_priority_ok an (d :: q) G) as (r & prio & Ep & _).
  pose proof (with_priority_range an _ r prio G Ep) as (R1 & R2). rewrite Ep. cbn [bind].
  change (rd (d :: p) 0) with (@Ok Z d). cbn [bind].
  assert (Ld : lower d = d) by (rewrite <- Dl; apply lower_lower).
  destruct (isUpper c || match r with SPELL_CAP_FIRST => true | _ => false end) eqn:T.
  - change (wr (d :: p) 0 (upper d)) with (Ok (upper d :: p)). cbn [bind]. eexists _, (upper d), prio, _. split; [reflexivity|].
    split; [rewrite lower_upper; auto|]. split; auto. split; [apply bumped_one|]. replace (S (len - 1) - 1)%nat with (len - 1)%nat by lia. fold q.
    split; [|intros F; destruct (fits_ok _ _ _ Ep F) as [ -> | -> ]; auto].
    intros K. destruct r; try discriminate; (split; [split; [apply R2; discriminate|eapply rank_ok; [eauto|discriminate]]|]); intros CB.
    + exists (d :: q). split; [eapply ok_well_written; eauto|]. right. eauto.
    + exists (upper d :: q). split; [eapply first_well_written; eauto|]. left; auto.
  - cbn [bind]. apply orb_false_iff in T as (T1 & T2). eexists _, d, prio, _. split; [reflexivity|]. split; auto. split; auto.
    split; [apply bumped_one|]. replace (S (len - 1) - 1)%nat with (len - 1)%nat by lia. fold q.
    split; [|intros F; destruct (fits_ok _ _ _ Ep F) as [ -> | -> ]; auto].
    intros K. destruct r; try discriminate. split; [split; [apply R2; discriminate|eapply rank_ok; [eauto|discriminate]]|]. intros CB. exists (d :: q). split; [eapply ok_well_written; eauto|left; auto].
Qed.

Lemma first_part_ok : forall s c p len, (2 <= len <= length (c :: p))%nat ->
  exists ok c' prio s' k, first_part an s (c :: p) len = Ok (ok, c' :: p, prio, s') /\ lower c' = lower c /\
    0 <= prio <= MAXRANK /\ bumped s s' k /\ (k <= 2)%nat /\
    (ok = true -> (0 < prio /\ exists v, (lower c :: firstn (len - 1) p = v \/ lower c :: firstn (len - 1) p = v ++ [0x2E]) /\ word_rank an v prio) /\ (case_blind_analyzer an ->
       exists p1 dot, c' :: firstn (len - 1) p = p1 ++ dot /\ (dot = [] \/ dot = [0x2E]) /\ good_part an p1)) /\
    (fits an (lower c :: firstn (len - 1) p) \/
     (nth_error p (len - 2) = Some 0x2E /\ fits an (lower c :: firstn (len - 2) p)) -> ok = true).
Proof.
  intros s c p len L. unfold first_part. destruct (part_ok s c p len ltac:(lia)) as (ok & c' & prio & s' & -> & Lc & R & B & H & F). cbn [bind].
  destruct ok.
  - exists true, c', prio, s', 1%nat. do 4 (split; [solve [auto]|]). split; [lia|]. split; auto. intros _. destruct (H eq_refl) as ((H1 & H3) & H2).
    split; [split; eauto|]. intros CB. exists (c' :: firstn (len - 1) p), []. rewrite app_nil_r. split; [auto|split; auto].
  - unfold rd_back. destruct (Nat.ltb_spec len 1); [lia|].
    destruct (rd_lt _ (c' :: p) (len - 1)) as (x & Ex & Nx); [cbn [length] in *; lia|]. rewrite Ex. cbn [bind].
    destruct (Z.eqb_spec x 0x2E); cbn [negb].
    + destruct (part_ok s' c' p (len - 1) ltac:(lia)) as (ok2 & c2 & prio2 & s2 & -> & Lc2 & R2 & B2 & H2 & F2).
      exists ok2, c2, prio2, s2, 2%nat. split; auto. split; [congruence|]. split; auto. split; [apply (bumped_trans _ _ _ 1 1 B B2)|]. split; auto.
      subst x. replace (len - 1 - 1)%nat with (len - 2)%nat in * by lia. replace (len - 1)%nat with (S (len - 2)) in * by lia. cbn [nth_error] in Nx.
      pose proof (firstn_S_nth _ p (len - 2) 0x2E Nx) as Fs. split.
      * intros K. destruct (H2 K) as ((H3 & H5) & H4). rewrite Lc in H5. split.
        -- split; auto. exists (lower c :: firstn (len - 2) p). split; auto. right. cbn [app]. f_equal. auto.
        -- intros CB. exists (c2 :: firstn (len - 2) p), [0x2E]. split; [|split; auto]. cbn [app]. f_equal. auto.
      * intros [X|(_ & X)]; [apply F in X; discriminate|]. apply F2. rewrite Lc. auto.
    + exists false, c', prio, s', 1%nat. do 4 (split; [solve [auto]|]). split; [lia|]. split; [discriminate|].
      intros [X|(X & _)]; [apply F in X; discriminate|]. exfalso. replace (len - 1)%nat with (S (len - 2)) in Nx by lia. cbn [nth_error] in Nx. congruence.
Qed.

Lemma copy_prefix : forall u dst rest at_, ~ In 0 u -> (at_ + length u <= length dst)%nat ->
  copy dst at_ (u ++ rest) (length u) = Ok (firstn at_ dst ++ u ++ skipn (at_ + length u) dst).
Proof.
  induction u as [|c u IH]; intros dst rest at_ N L; cbn [length app copy].
  - cbn [app]. rewrite Nat.add_0_r, firstn_skipn. auto.
  - rewrite wr_lt by (cbn in L; lia). cbn [bind]. assert (c <> 0) by (intros ->; apply N; left; auto).
    destruct (Z.eqb_spec c 0); [contradiction|]. rewrite IH; [|intros X; apply N; right; auto|rewrite upd_length; cbn in L; lia].
    rewrite firstn_upd by (cbn in L; lia). f_equal. rewrite <- app_assoc. f_equal. cbn [app]. f_equal. f_equal.
    rewrite upd_split by (cbn in L; lia). replace (S at_ + length u)%nat with (at_ + S (length u))%nat by lia.
    rewrite skipn_app. rewrite firstn_length_le by (cbn in L; lia). rewrite skipn_all2 by (rewrite firstn_length_le by (cbn in L; lia); lia).
    cbn [app]. replace (at_ + S (length u) - at_)%nat with (S (length u)) by lia.
    change (skipn (S (length u)) (c :: skipn (S at_) dst)) with (skipn (length u) (skipn (S at_) dst)).
    rewrite skipn_skipn. f_equal. lia.
Qed.

Lemma copy_prefix_len : forall u dst rest at_ k, length u = k -> ~ In 0 u -> (at_ + length u <= length dst)%nat ->
  copy dst at_ (u ++ rest) k = Ok (firstn at_ dst ++ u ++ skipn (at_ + length u) dst).
Proof. intros u dst rest at_ k <-. apply copy_prefix. Qed.

Lemma upd_len : forall A (a : list A) c b k t, length a = k -> upd (a ++ c :: b) k t = a ++ t :: b.
Proof. intros A a c b k t <-. apply upd_mid. Qed.

Lemma cstr_app : forall u rest, ~ In 0 u -> cstr (u ++ 0 :: rest) = u.
Proof.
  induction u as [|c u IH]; intros rest N; cbn [app cstr]; auto.
  destruct (Z.eqb_spec c 0); [elim N; left; auto|]. rewrite IH; auto. intros X; apply N; right; auto.
Qed.

Variable w0 : list Z.
Hypothesis NUL : ~ In 0 w0.
Variable M : nat.
Variable E : list Z -> list Z -> Prop.
Notation Inv := (Inv an w0 M E).

(** The first buffer: its initial may have been capitalised, and only the
    characters before the current split position matter. *)
Definition part1_ok (n : nat) (part1 : list Z) : Prop :=
  exists a0 t0 c1 t1, w0 = a0 :: t0 /\ part1 = c1 :: t1 /\ lower c1 = lower a0 /\ length t1 = length w0 /\ firstn n t1 = firstn n t0.

Lemma firstn_upd_below : forall A (l : list A) i c n, (n <= i)%nat -> firstn n (upd l i c) = firstn n l.
Proof. induction l as [|x l IH]; intros [|i] c [|n] H; cbn; auto; try lia. f_equal. apply IH. lia. Qed.

Lemma room_of : forall s, Inv s -> shouldAbort s = false -> (length (found s) < 15)%nat.
Proof.
  intros s (_ & _ & A3 & A4 & _) Ab. unfold shouldAbort in Ab. rewrite A3 in Ab. destruct (Nat.eqb_spec (length (found s)) 15); [discriminate|lia].
Qed.

Lemma split_step_ok : forall n s part1, Inv s -> shouldAbort s = false -> (1 <= n)%nat -> (n + 3 <= length w0)%nat -> part1_ok n part1 ->
  exists s' part1', split_step an (n + 1) s part1 = Ok (s', part1') /\ Inv s' /\ part1_ok n part1' /\
    (forall b, (nth_error w0 (S n) = Some 0x2D /\ b = skipn (S (S n)) w0) \/ (nth_error w0 (S n) <> Some 0x2D /\ b = skipn (S n) w0) ->
       fits an (small_first (firstn (S n) w0)) \/ (nth_error w0 n = Some 0x2E /\ fits an (small_first (firstn n w0))) ->
       fits an (small_first b) -> exists y, In y (found s') /\ same_letters (fst y) (firstn (S n) w0 ++ 0x20 :: b)).
Proof.
  intros n s part1 I Ab Hn Ln (a0 & t0 & c1 & t1 & W & -> & Lc & Lt & Ft). pose proof I as (A1 & A2 & A3 & A4 & A5 & A6 & A7).
  destruct (abort_cost M s Ab A2) as (C1 & C2).
  unfold split_step. unfold zword, wlen. rewrite A1.
  destruct (word_at w0 (n + 1) ltac:(lia)) as (x & Hx). rewrite (rd_word w0 (n + 1) x Hx). cbn [bind].
  rewrite wr_lt by (cbn [length]; lia). cbn [bind]. rewrite Nat.add_1_r. cbn [upd]. set (t1' := upd t1 n 0).
  assert (Lt' : length t1' = length w0) by (unfold t1'; rewrite upd_length; auto).
  assert (Ft' : firstn n t1' = firstn n t0) by (unfold t1'; rewrite firstn_upd_below by lia; auto).
  assert (Tn : t1' = firstn n t0 ++ 0 :: skipn (S n) t1) by (unfold t1'; rewrite upd_split by lia; rewrite Ft; auto).
  destruct (first_part_ok s c1 t1' (S n)) as (ok & c1' & prio1 & s1 & k & -> & L1 & R1 & B & Kk & H1 & Fit1); [cbn [length]; lia|]. cbn [bind].
  replace (S n - 1)%nat with n in * by lia. replace (S n - 2)%nat with (n - 1)%nat in * by lia. rewrite Lc, Ft' in H1, Fit1.
  assert (Nn : nth_error t1' (n - 1) = nth_error t0 (n - 1)).
  { rewrite <- (firstn_skipn n t1'), <- (firstn_skipn n t0) at 1. rewrite Ft'. assert (length (firstn n t0) = n) by (rewrite <- Ft', firstn_length_le; lia).
    rewrite !nth_error_app1 by lia. auto. }
  assert (Nf : firstn (n - 1) t1' = firstn (n - 1) t0).
  { assert (X : firstn (n - 1) (firstn n t1') = firstn (n - 1) (firstn n t0)) by congruence. rewrite !firstn_firstn in X.
    replace (Nat.min (n - 1) n) with (n - 1)%nat in X by lia. auto. }
  rewrite Nn, Nf in Fit1.
  assert (Fit1' : fits an (small_first (firstn (S n) w0)) \/ (nth_error w0 n = Some 0x2E /\ fits an (small_first (firstn n w0))) -> ok = true).
  { rewrite W. destruct n as [|n']; [lia|]. replace (S n' - 1)%nat with n' in * by lia. exact Fit1. }
  pose proof B as (B1 & B2 & B3 & B4 & B5 & B6).
  assert (P1 : part1_ok n (c1' :: t1')) by (exists a0, t0, c1', t1'; repeat split; auto; congruence).
  destruct ok; cbn [negb].
  2:{ exists s1, (c1' :: t1'). split; auto. split; [|split; [auto|intros b _ X; apply Fit1' in X; discriminate]].
      rewrite <- B1 in A1. repeat split; try congruence; try lia. rewrite B4. auto. }
  set (k2 := if x =? 0x2D then 1%nat else O). assert (K2 : (k2 <= 1)%nat) by (unfold k2; destruct (x =? 0x2D); lia).
  rewrite B1, A1. set (u := skipn (S n + k2) w0).
  assert (Lu : length u = (length w0 - S n - k2)%nat) by (unfold u; rewrite skipn_length; lia).
  assert (Nu : ~ In 0 u) by (intros X; apply NUL; unfold u in X; eapply In_skipn; eauto).
  assert (Su : skipn (S n + k2) (w0 ++ [0]) = u ++ [0]).
  { rewrite skipn_app. unfold u. replace (S n + k2 - length w0)%nat with O by lia. auto. }
  rewrite Su. rewrite <- Lu. rewrite copy_full; [|auto|unfold fresh; rewrite repeat_length; lia]. cbn [bind].
  set (rest := skipn (S n + 1 + length u + 1) (fresh (length w0 + 2))).
  assert (Fl : length (firstn (S n + 1) (fresh (length w0 + 2))) = (S n + 1)%nat) by (rewrite firstn_length_le; auto; unfold fresh; rewrite repeat_length; lia).
  rewrite (skipn_len _ _ _ _ Fl), (firstn_len _ _ _ _ Fl).
  destruct u as [|c2 u'] eqn:Eu; [cbn in Lu; lia|].
  change ((c2 :: u') ++ 0 :: rest) with (c2 :: (u' ++ 0 :: rest)).
  destruct (part_ok s1 c2 (u' ++ 0 :: rest) (length (c2 :: u'))) as (ok2 & c2' & prio2 & s2 & -> & L2 & R2 & BB & H2 & Fit2); [cbn; lia|]. cbn [bind].
  cbn [length] in H2, Fit2. replace (S (length u') - 1)%nat with (length u') in H2, Fit2 by lia. rewrite firstn_mid in H2, Fit2.
  assert (Ub : forall b, (nth_error w0 (S n) = Some 0x2D /\ b = skipn (S (S n)) w0) \/ (nth_error w0 (S n) <> Some 0x2D /\ b = skipn (S n) w0) -> b = c2 :: u').
  { rewrite Nat.add_1_r in Hx. unfold k2 in Eu. rewrite Hx. intros b [(X & ->)|(X & ->)].
    - injection X as ->. rewrite <- Eu. unfold u, k2. f_equal. cbn. lia.
    - destruct (Z.eqb_spec x 0x2D); [congruence|]. rewrite <- Eu. unfold u, k2. destruct (Z.eqb_spec x 0x2D); [congruence|]. f_equal. lia. }
  pose proof (bumped_trans _ _ _ _ _ B BB) as (D1 & D2 & D3 & D4 & D5 & D6).
  unfold MAXRANK in *. rewrite ck_fits by lia. cbn [bind].
  assert (K3 : 1 <= 1 + Z.of_nat k2 * 5 <= 6) by lia. rewrite ck_fits by nia. cbn [bind].
  assert (I2 : Inv s2) by (repeat split; try congruence; try lia; rewrite D4; auto).
  destruct ok2.
  2:{ exists s2, (c1' :: t1'). split; auto. split; auto. split; auto. intros b Hb _ X. rewrite (Ub b Hb) in X. apply Fit2 in X. discriminate. }
  set (v1 := c1' :: firstn n t0). set (v2 := c2' :: u').
  assert (Nt0 : ~ In 0 (a0 :: t0)) by (rewrite <- W; auto).
  assert (N1 : ~ In 0 v1).
  { intros [X|X]; [|apply Nt0; right; eapply In_firstn; eauto]. apply (same_nonzero a0 c1'); [congruence| |auto]. intros ->. apply Nt0. left; auto. }
  assert (N2 : ~ In 0 v2).
  { intros [X|X]; [|apply Nu; right; auto]. apply (same_nonzero c2 c2'); [congruence| |auto]. intros ->. apply Nu. left; auto. }
  assert (Lv1 : length v1 = S n).
  { unfold v1. cbn [length]. rewrite firstn_length_le; auto. rewrite W in Ln. cbn [length] in Ln. lia. }
  rewrite Tn. change (c1' :: firstn n t0 ++ 0 :: skipn (S n) t1) with (v1 ++ 0 :: skipn (S n) t1).
  set (F := firstn (S n + 1) (fresh (length w0 + 2))) in *.
  rewrite (copy_prefix_len v1 _ _ 0 (S n) Lv1); [|auto|rewrite app_length; cbn [length]; lia]. cbn [bind firstn app Nat.add].
  assert (SkF : exists j, skipn (length v1) (F ++ c2' :: u' ++ 0 :: rest) = j :: v2 ++ 0 :: rest).
  { rewrite Lv1. destruct F as [|j F'] using rev_ind; [cbn in Fl; lia|]. clear IHF'. rewrite app_length in Fl. cbn [length] in Fl.
    rewrite <- app_assoc. replace (S n) with (length F') by lia. rewrite skipn_mid. exists j. reflexivity. }
  destruct SkF as (j & ->). rewrite wr_lt by (rewrite app_length; cbn [length]; lia). cbn [bind].
  rewrite (upd_len _ v1 _ _ _ _ Lv1).
  replace (v1 ++ 0x20 :: v2 ++ 0 :: rest) with ((v1 ++ 0x20 :: v2) ++ 0 :: rest) by (rewrite <- app_assoc; auto).
  rewrite cstr_app by (intros X; apply in_app_or in X as [X|[X|X]]; [auto|discriminate|auto]).
  destruct (H1 eq_refl) as (P1' & G1). destruct (H2 eq_refl) as (P2' & G2).
  pose proof I2 as (Z1 & Z2 & Z3 & Z4 & Z5 & Z6 & Z7).
  destruct (add_inv an w0 M E s2 (v1 ++ 0x20 :: v2) ((prio1 + prio2) * (1 + Z.of_nat k2 * 5)) (12 * 737280)) as (s3 & -> & I3 & Hit); auto; try nia.
  2:{ cbn [bind]. exists s3, (v1 ++ 0 :: skipn (S n) t1). split; auto. split; auto.
      replace (v1 ++ 0 :: skipn (S n) t1) with (c1' :: t1') by (rewrite Tn; auto). split; auto. intros b Hb _ _. rewrite (Ub b Hb).
      destruct Hit as (p' & Hit); [rewrite D4, D3, A3; apply room_of; auto|]. exists (v1 ++ 0x20 :: v2, p'). split; auto. cbn [fst].
      unfold same_letters, v1, v2. rewrite W. cbn [firstn]. rewrite !map_app. cbn [map]. rewrite L1, Lc, L2. auto. }
  assert (Ssep : skipn (S n) w0 = (if x =? 0x2D then [0x2D] else []) ++ c2 :: u').
  { rewrite Nat.add_1_r in Hx. unfold k2 in Eu. destruct (Z.eqb_spec x 0x2D).
    - subst x. rewrite (skipn_cons_nth _ w0 (S n) 0x2D Hx). cbn [app]. f_equal. rewrite <- Eu. unfold u. f_equal. unfold k2. lia.
    - cbn [app]. rewrite <- Eu. unfold u, k2. f_equal. lia. }
  split; [|split; [|split; [|split]]].
  - intros CB NS. right. specialize (G1 CB). specialize (G2 CB). destruct G1 as (p1 & dot & Ep & Hd & Gp).
    exists p1, dot, v2. split; [|split; [auto|split; auto]].
    rewrite app_assoc, <- Ep. auto.
  - intros _. unfold v1. discriminate.
  - nia.
  - right. exists (firstn (S n) w0), (if x =? 0x2D then [0x2D] else []), (c2 :: u'), v1, v2.
    split; [rewrite <- Ssep, firstn_skipn; auto|]. split; [destruct (x =? 0x2D); auto|].
    split; [rewrite firstn_length_le by lia; lia|]. split; [rewrite <- Ssep, skipn_length; lia|].
    split; [|split; [|auto]].
    + unfold same_letters, v1. rewrite W. cbn [firstn map]. f_equal. congruence.
    + unfold same_letters, v2. cbn [map]. f_equal. auto.
  - right. destruct P1' as (P1' & vv & Hv & Rv). destruct P2' as (P2' & Rv2). exists v1, v2, vv, (lower c2 :: u'), prio1, prio2.
    split; auto. split; [|split; [|split; [auto|split; [auto|]]]].
    + assert (Sv : same_letters v1 (lower a0 :: firstn n t0)) by (unfold same_letters, v1; cbn [map]; rewrite lower_lower; f_equal; congruence).
      destruct Hv as [<-|Hv]; [left; auto|right; rewrite <- Hv; auto].
    + unfold same_letters, v2. cbn [map]. rewrite lower_lower. f_equal. auto.
    + f_equal. rewrite app_length. cbn [length]. unfold v2. cbn [length] in *. rewrite Lv1.
      unfold k2 in *. destruct (x =? 0x2D); destruct (Nat.eqb_spec (S n + S (S (length u'))) (length w0)); lia.
Qed.

Lemma split_loop_ok : forall n s part1, Inv s -> (n <> O -> shouldAbort s = false /\ (n + 3 <= length w0)%nat) -> part1_ok n part1 ->
  exists s', split_loop an n s part1 = Ok s' /\ Inv s'.
Proof.
  induction n as [|n IH]; intros s part1 I H P; cbn [split_loop]; [eauto|]. destruct (H ltac:(discriminate)) as (Ab & L).
  pose proof I as (A1 & _). unfold zword. rewrite A1.
  assert (P' : part1_ok n part1).
  { destruct P as (a0 & t0 & c1 & t1 & W & W2 & Lc & Lt & Ft). exists a0, t0, c1, t1. repeat (split; [solve [auto]|]).
    assert (X : firstn n (firstn (S n) t1) = firstn n (firstn (S n) t0)) by congruence. rewrite !firstn_firstn in X.
    replace (Nat.min n (S n)) with n in X by lia. auto. }
  destruct (word_at w0 (S n + 1 - 2) ltac:(lia)) as (x1 & X1). rewrite (rd_word _ _ _ X1). cbn [bind].
  destruct (word_at w0 (S n + 1 - 1) ltac:(lia)) as (x2 & X2). rewrite (rd_word _ _ _ X2). cbn [bind].
  destruct (word_at w0 (S n + 1 + 1) ltac:(lia)) as (x3 & X3). rewrite (rd_word _ _ _ X3). cbn [bind].
  destruct (_ || _).
  - apply IH; auto. intros _. split; auto. lia.
  - destruct (split_step_ok (S n) s part1 I Ab) as (s' & part1' & -> & I' & Q & _); auto; try lia. cbn [bind].
    destruct (shouldAbort s') eqn:Ab'; [eauto|]. apply IH; auto; [intros _; split; auto; lia|].
    destruct Q as (a0 & t0 & c1 & t1 & W & W2 & Lc & Lt & Ft). exists a0, t0, c1, t1. repeat (split; [solve [auto]|]).
    assert (X : firstn n (firstn (S n) t1) = firstn n (firstn (S n) t0)) by congruence. rewrite !firstn_firstn in X.
    replace (Nat.min n (S n)) with n in X by lia. auto.
Qed.

Lemma gen_split_ok : forall s, (2 <= length w0)%nat -> Inv s -> shouldAbort s = false -> exists s', gen_split_word an s = Ok s' /\ Inv s'.
Proof.
  intros s L I Ab. pose proof I as (A1 & _). unfold gen_split_word, zword, wlen. rewrite A1.
  rewrite copy_short; [|auto|unfold fresh; rewrite repeat_length; lia|lia]. cbn [bind firstn app Nat.add]. rewrite firstn_all.
  assert (F : skipn (length w0) (fresh (length w0 + 1)) = [JUNK]).
  { unfold fresh. rewrite repeat_app. rewrite skipn_len by apply repeat_length. auto. }
  rewrite F. rewrite wr_lt by (rewrite app_length; cbn; lia). cbn [bind]. rewrite upd_mid.
  destruct (Nat.ltb_spec (length w0) 2); [lia|]. apply split_loop_ok; auto; [intros; split; auto; lia|].
  destruct w0 as [|a0 t0] eqn:W; [cbn in L; lia|]. exists a0, t0, a0, (t0 ++ [0]). split; auto. split; auto. split; auto.
  split; [rewrite W, app_length; cbn; lia|]. cbn [length]. rewrite firstn_app.
  replace (S (length t0) - 3 - length t0)%nat with O by lia. cbn [firstn]. rewrite app_nil_r. auto.
Qed.

Definition fine (g : status -> res status) : Prop :=
  forall s, Inv s -> shouldAbort s = false -> exists s', g s = Ok s' /\ Inv s'.

Lemma run_fine : forall gs s, Forall fine gs -> Inv s -> exists s', run_generators gs s = Ok s' /\ Inv s'.
Proof.
  induction gs as [|g gs IH]; intros s F I; cbn [run_generators]; [eauto|]. destruct (shouldAbort s) eqn:Ab; [eauto|].
  inversion F as [|? ? Fg Fgs]; subst. destruct (Fg s I Ab) as (s' & -> & I'). cbn [bind]. auto.
Qed.

Lemma fine_cand : forall g cand, (forall s, sword s = w0 -> shouldAbort s = false -> g s = try_all an (cand w0) s) ->
  (forall v, In v (cand w0) -> E w0 v) -> fine g.
Proof. intros g cand H C s I Ab. pose proof I as (A1 & _). rewrite (H s A1 Ab). apply (try_inv an GA); auto. Qed.

Lemma strategy_fine : forall st, budget st = M -> Forall fine (primaryGenerators st) -> Forall fine (generators st) ->
  exists s', strategy_generate st (new_status w0 15) = Ok s' /\ Inv s'.
Proof.
  intros st B F1 F2. unfold strategy_generate. rewrite B.
  assert (I0 : Inv (setMaxCost (new_status w0 15) M)) by (repeat split; cbn; auto; try lia; intros [|i] y H; discriminate).
  destruct (run_fine _ _ F1 I0) as (s1 & -> & I1). cbn [bind]. destruct (0 <? length (found s1))%nat; [eauto|]. apply run_fine; auto.
Qed.
End Split.

(** ** The strategies *)

Lemma in_cand_soft : forall w v, In v (cand_soft_hyphens w) <-> In SHY w /\ v = without_shy w.
Proof.
  intros w v. unfold cand_soft_hyphens. destruct (mem 0xAD w) eqn:E.
  - apply mem_In in E. split; [intros [<-|[]]; auto|intros (_ & ->); left; auto].
  - split; [intros []|]. intros (H & _). apply mem_In in H. change SHY with 0xAD in H. congruence.
Qed.

Lemma cand_case_spec : forall w v : list Z, In v [w] <-> v = w.
Proof. intros. split; [intros [->|[]]; auto|intros ->; left; auto]. Qed.

Section Strategies.
Variable an : analyzer.
Hypothesis GA : good_analyzer an.
Variable w : list Z.
Hypothesis NUL : ~ In 0 w.

Lemma letters_sub : forall l l' v, incl l l' -> inserted_letter l w v -> inserted_letter l' w v.
Proof. intros l l' v H (a & c & b & I & X). exists a, c, b. split; auto. Qed.

Lemma typing_fines : forall n, (2 <= length w)%nat -> (vowel_count w <= 32)%nat ->
  Forall (fine an w n typing_edit) (primaryGenerators (typing_strategy an n)) /\ Forall (fine an w n typing_edit) (generators (typing_strategy an n)).
Proof.
  intros n L V. assert (NE : w <> []) by (intros ->; cbn in L; lia).
  assert (Rep : forall t, In t [REPLACEMENTS_1; REPLACEMENTS_2; REPLACEMENTS_3; REPLACEMENTS_4; REPLACEMENTS_5] ->
            fine an w n typing_edit (gen_replacement an t)).
  { intros t Ht. apply (fine_cand an GA w n typing_edit _ (cand_replacement t)).
    - intros s <- Ab. apply gen_replacement_try; auto.
    - intros v Hv. apply in_cand_replacement in Hv. unfold typing_edit. do 9 right. left. eauto. }
  assert (Two : forall t, In t [REPLACEMENTS_1; REPLACEMENTS_2; REPLACEMENTS_3; REPLACEMENTS_4] ->
            fine an w n typing_edit (gen_replace_two an t)).
  { intros t Ht. apply (fine_cand an GA w n typing_edit _ (cand_replace_two t)).
    - intros s <- Ab. apply gen_replace_two_try; auto.
    - intros v Hv. apply in_cand_replace_two in Hv. unfold typing_edit. do 10 right. eauto. }
  assert (Ins : forall l, incl l (COMMON_LETTERS ++ OTHER_LETTERS) -> fine an w n typing_edit (gen_insertion an l)).
  { intros l Hl. apply (fine_cand an GA w n typing_edit _ (cand_insertion l)).
    - intros s <- Ab. apply gen_insertion_try; auto.
    - intros v Hv. apply in_cand_insertion in Hv; auto. unfold typing_edit. do 6 right. left. eapply letters_sub; eauto. }
  assert (I1 : incl COMMON_LETTERS (COMMON_LETTERS ++ OTHER_LETTERS)) by (apply incl_appl, incl_refl).
  assert (I2 : incl OTHER_LETTERS (COMMON_LETTERS ++ OTHER_LETTERS)) by (apply incl_appr, incl_refl).
  cbn [typing_strategy primaryGenerators generators]. split.
  - constructor; [|constructor; [|constructor]].
    + apply (fine_cand an GA w n typing_edit _ (fun w => [w])); [intros s <- Ab; apply gen_case_change_try|].
      intros v Hv. apply cand_case_spec in Hv. left. auto.
    + apply (fine_cand an GA w n typing_edit _ cand_soft_hyphens); [intros s <- Ab; apply gen_soft_hyphens_try|].
      intros v Hv. apply in_cand_soft in Hv. right. left. auto.
  - constructor; [|constructor; [|constructor; [|constructor; [|constructor; [|]]]]].
    + apply (fine_cand an GA w n typing_edit _ cand_vowel); [intros s <- Ab; apply gen_vowel_try; auto|].
      intros v Hv. apply in_cand_vowel in Hv. do 2 right. left. auto.
    + apply Rep. cbn [In]; tauto.
    + apply (fine_cand an GA w n typing_edit _ cand_deletion); [intros s <- Ab; apply gen_deletion_try; auto|].
      intros v Hv. apply in_cand_deletion in Hv. do 3 right. left. auto.
    + apply (fine_cand an GA w n typing_edit _ cand_special); [intros s <- Ab; apply gen_insert_special_try; auto|].
      intros v Hv. apply in_cand_special in Hv. do 4 right. destruct Hv; [left|right; left]; auto.
    + intros s I Ab. apply (gen_split_ok an GA w); auto.
    + repeat (constructor; [first [apply Ins; assumption | apply Rep; cbn [In]; tauto | apply Two; cbn [In]; tauto | idtac]|]); [| |constructor].
      * apply (fine_cand an GA w n typing_edit _ cand_swap); [intros s <- Ab; apply gen_swap_try; auto|].
        intros v Hv. apply in_cand_swap in Hv. do 7 right. left. auto.
      * apply (fine_cand an GA w n typing_edit _ cand_delete_two); [intros s <- Ab; apply gen_delete_two_try; auto|].
        intros v Hv. apply in_cand_delete_two in Hv. do 8 right. left. auto.
Qed.

Lemma typing_fine : forall n, (2 <= length w)%nat -> (vowel_count w <= 32)%nat ->
  exists s', strategy_generate (typing_strategy an n) (new_status w 15) = Ok s' /\ Inv an w n typing_edit s'.
Proof. intros n L V. destruct (typing_fines n L V). apply (strategy_fine an w n typing_edit); auto. Qed.

Lemma ocr_fine : forall n,
  exists s', strategy_generate (ocr_strategy an n) (new_status w 15) = Ok s' /\ Inv an w n ocr_edit s'.
Proof.
  intros n. apply (strategy_fine an w n ocr_edit); [reflexivity| |]; cbn [ocr_strategy primaryGenerators generators].
  - constructor; [|constructor].
    apply (fine_cand an GA w n ocr_edit _ (fun w => [w])); [intros s <- Ab; apply gen_case_change_try|].
    intros v Hv. apply cand_case_spec in Hv. left. auto.
  - constructor; [|constructor; [|constructor]].
    + apply (fine_cand an GA w n ocr_edit _ (cand_replacement OCR_REPLACEMENTS)).
      * intros s <- Ab. apply gen_replacement_try; auto.
      * intros v Hv. apply in_cand_replacement in Hv. right. left. auto.
    + apply (fine_cand an GA w n ocr_edit _ (fun w => cand_multi OCR_REPLACEMENTS 2 0 w)).
      * intros s <- Ab. apply gen_multi_try; auto.
      * intros v Hv. apply in_cand_multi2 in Hv. right. right. auto.
Qed.
End Strategies.
