(** * Suggestions: known words among the tried ones are found *)
From Verif Require Import Base BaseFacts CharModel CharSpec CharProofs SpellerBase SpellSpec SpellProofs AnalysisModel AnalyzerBase
  HyphModel HyphSpec HyphProofs AdapterModel TweaksModel TweaksSpec TweaksProofs
  SuggestModel SuggestSpec SuggestProofs SuggestProofs2 SuggestEdits SuggestInv SuggestInv2.

Definition hit (v : list Z) (s : status) : Prop := exists x, In x (found s) /\ same_letters (fst x) v.
Definition cap (s : status) : Prop := (length (found s) <= maxSuggestions s)%nat.
(** Candidates are only added, within the limit. *)
Definition grows (s s' : status) : Prop :=
  sword s' = sword s /\ maxSuggestions s' = maxSuggestions s /\ incl (found s) (found s') /\ (cap s -> cap s').

Lemma grows_refl : forall s, grows s s.
Proof. intros s. repeat split; auto using incl_refl. Qed.
Lemma grows_trans : forall a b c, grows a b -> grows b c -> grows a c.
Proof. intros a b c (A & B & C & D) (A' & B' & C' & D'). repeat split; try congruence; auto. eapply incl_tran; eauto. Qed.
Lemma grows_charge : forall s v, grows s (charge (looked s v)).
Proof. intros s v. repeat split; auto using incl_refl. Qed.
Lemma hit_grows : forall v s s', grows s s' -> hit v s -> hit v s'.
Proof. intros v s s' (_ & _ & G & _) (x & I & L). exists x. auto. Qed.

Lemma add_grows : forall s w p s', addSuggestion s w p = Ok s' -> grows s s'.
Proof.
  intros s w p s' H. unfold addSuggestion in H. destruct (_ <? _)%nat eqn:E.
  - apply bind_ok in H as (q & _ & H). injection H as <-. repeat split; cbn; auto; [apply incl_appl, incl_refl|].
    unfold cap. cbn. rewrite app_length. cbn. lia.
  - injection H as <-. apply grows_refl.
Qed.

Lemma add_hits : forall s w p s' v, addSuggestion s w p = Ok s' -> same_letters w v -> (length (found s) < maxSuggestions s)%nat -> hit v s'.
Proof.
  intros s w p s' v H L C. unfold addSuggestion in H. destruct (Nat.ltb_spec (length (found s)) (maxSuggestions s)); [|lia].
  apply bind_ok in H as (q & _ & H). injection H as <-. exists (w, q). split; auto. cbn. apply in_or_app. right. left. auto.
Qed.

Lemma room : forall s, cap s -> shouldAbort s = false -> (length (found s) < maxSuggestions s)%nat.
Proof. intros s C H. unfold shouldAbort in H. unfold cap in C. destruct (Nat.eqb_spec (length (found s)) (maxSuggestions s)); [discriminate|lia]. Qed.

Section Hits.
Variable an : analyzer.
Hypothesis GA : good_analyzer an.

Lemma suggest_grows : forall s v s', suggestForBuffer an s v = Ok s' -> grows s s'.
Proof.
  intros s v s' H. unfold suggestForBuffer in H. destruct (shouldAbort s); [injection H as <-; apply grows_refl|].
  apply bind_ok in H as ((r & p) & _ & H). destruct r.
  - injection H as <-. apply grows_charge.
  - eapply grows_trans; [apply grows_charge|eapply add_grows; eauto].
  - destruct v; [discriminate|]. eapply grows_trans; [apply grows_charge|eapply add_grows; eauto].
  - destruct (an false v) as [|a l].
    + injection H as <-. eapply grows_trans; apply grows_charge.
    + destruct (a STRUCTURE); [|discriminate]. apply bind_ok in H as (x & _ & H).
      eapply grows_trans; [apply grows_charge|]. eapply grows_trans; [apply grows_charge|eapply add_grows; eauto].
Qed.

Lemma suggest_hits : forall s v s', suggestForBuffer an s v = Ok s' -> cap s -> shouldAbort s = false -> an false v <> [] -> hit v s'.
Proof.
  intros s v s' H C Ab N. pose proof (room s C Ab) as R. unfold suggestForBuffer in H. rewrite Ab in H.
  destruct (with_priority_ok an v (GA false v)) as (r & p & Ep & K). rewrite Ep in H. cbn [bind] in H.
  destruct K as [(-> & _ & X)|(Nr & _)]; [contradiction|]. destruct r; [contradiction| | |].
  - eapply add_hits; eauto. reflexivity.
  - destruct v; [discriminate|]. eapply add_hits; eauto. apply same_upper.
  - destruct (an false v) as [|a l] eqn:Ea; [contradiction|]. pose proof (GA false v) as G. rewrite Ea in G.
    destruct (good_structure_of _ a G ltac:(left; auto)) as (st & Es & _). rewrite Es in H.
    pose proof (good_no_nul _ a st G ltac:(left; auto) Es) as Nu. destruct (recase_ok v st Nu) as (x & Rx & L & _). rewrite Rx in H. cbn [bind] in H.
    eapply add_hits; eauto.
Qed.

(** What one lookup may add. *)
Lemma suggest_adds : forall s v s' x, suggestForBuffer an s v = Ok s' -> In x (found s') -> In x (found s) \/ same_letters (fst x) v.
Proof.
  assert (Add : forall s w p s' v x, addSuggestion s w p = Ok s' -> same_letters w v -> In x (found s') -> In x (found s) \/ same_letters (fst x) v).
  { intros s w p s' v x H L I. unfold addSuggestion in H. destruct (_ <? _)%nat.
    - apply bind_ok in H as (q & _ & H). injection H as <-. cbn in I. apply in_app_or in I as [I|[<-|[]]]; auto.
    - injection H as <-. auto. }
  intros s v s' x H I. unfold suggestForBuffer in H. destruct (shouldAbort s); [injection H as <-; auto|].
  apply bind_ok in H as ((r & p) & _ & H). destruct r.
  - injection H as <-. auto.
  - destruct (Add _ _ _ _ v x H eq_refl I) as [X|X]; auto.
  - destruct v as [|c v]; [discriminate|]. destruct (Add _ _ _ _ (c :: v) x H (same_upper c v) I) as [X|X]; auto.
  - destruct (an false v) as [|a l] eqn:Ea; [injection H as <-; auto|]. pose proof (GA false v) as G. rewrite Ea in G.
    destruct (good_structure_of _ a G ltac:(left; auto)) as (st & Es & _). rewrite Es in H.
    pose proof (good_no_nul _ a st G ltac:(left; auto) Es) as Nu. destruct (recase_ok v st Nu) as (y & Rx & L & _). rewrite Rx in H. cbn [bind] in H.
    destruct (Add _ _ _ _ v x H L I) as [X|X]; auto.
Qed.

Lemma try_grows : forall l s s', try_all an l s = Ok s' -> grows s s'.
Proof.
  induction l as [|v l IH]; intros s s' H; cbn [try_all] in H; [injection H as <-; apply grows_refl|].
  apply bind_ok in H as (s1 & H1 & H2). eapply grows_trans; [eapply suggest_grows; eauto|eauto].
Qed.

Lemma try_hits : forall l s s', try_all an l s = Ok s' -> cap s -> shouldAbort s' = false -> forall v, In v l -> an false v <> [] -> hit v s'.
Proof.
  induction l as [|u l IH]; intros s s' H C Ab v I N; cbn [try_all] in H; [destruct I|].
  apply bind_ok in H as (s1 & H1 & H2). destruct (shouldAbort s) eqn:A0.
  { rewrite suggest_abort in H1 by auto. injection H1 as <-. rewrite try_abort in H2 by auto. injection H2 as <-. congruence. }
  assert (C1 : cap s1) by (apply (suggest_grows _ _ _ H1); auto). destruct I as [<-|I].
  - eapply hit_grows; [eapply try_grows; eauto|]. eapply suggest_hits; eauto.
  - eapply IH; eauto.
Qed.

Lemma try_adds : forall l s s' x, try_all an l s = Ok s' -> In x (found s') -> In x (found s) \/ exists v, In v l /\ same_letters (fst x) v.
Proof.
  induction l as [|v l IH]; intros s s' x H I; cbn [try_all] in H; [injection H as <-; auto|].
  apply bind_ok in H as (s1 & H1 & H2). destruct (IH _ _ _ H2 I) as [I1|(u & Iu & L)]; [|right; exists u; split; [right|]; auto].
  destruct (suggest_adds _ _ _ _ H1 I1); auto. right. exists v. split; [left|]; auto.
Qed.

Variable w : list Z.

(** The generator looks up all words given by [E] and adds the known ones. *)
Definition hits (g : status -> res status) (E : list Z -> Prop) : Prop :=
  forall s s', sword s = w -> cap s -> shouldAbort s = false -> g s = Ok s' ->
    grows s s' /\ (shouldAbort s' = false -> forall v, E v -> an false v <> [] -> hit v s').

Lemma hits_cand : forall g cand, (forall s, sword s = w -> shouldAbort s = false -> g s = try_all an (cand w) s) -> hits g (fun v => In v (cand w)).
Proof.
  intros g cand H s s' W C Ab E. rewrite H in E by auto. split; [eapply try_grows; eauto|]. intros A v I N. eapply try_hits; eauto.
Qed.

Lemma part_grows : forall s p n ok p' q s', spell_part an s p n = Ok (ok, p', q, s') -> grows s s'.
Proof.
  intros s p n ok p' q s' H. unfold spell_part in H. apply bind_ok in H as (c & _ & H). apply bind_ok in H as (p1 & _ & H).
  apply bind_ok in H as ((r & pr) & _ & H). apply bind_ok in H as (c1 & _ & H). apply bind_ok in H as (p2 & _ & H).
  injection H as _ _ _ <-. apply grows_charge.
Qed.

Lemma first_grows : forall s p n ok p' q s', first_part an s p n = Ok (ok, p', q, s') -> grows s s'.
Proof.
  intros s p n ok p' q s' H. unfold first_part in H. apply bind_ok in H as ((((ok1 & p1) & q1) & s1) & H1 & H). apply part_grows in H1.
  destruct ok1; [injection H as _ _ _ <-; auto|]. apply bind_ok in H as (c & _ & H). destruct (negb _); [injection H as _ _ _ <-; auto|].
  apply part_grows in H. eapply grows_trans; eauto.
Qed.

Lemma step_grows : forall i s p s' p', split_step an i s p = Ok (s', p') -> grows s s'.
Proof.
  intros i s p s' p' H. unfold split_step in H. apply bind_ok in H as (c & _ & H). apply bind_ok in H as (p1 & _ & H).
  apply bind_ok in H as ((((ok1 & p2) & q1) & s1) & H1 & H). apply first_grows in H1.
  destruct (negb ok1); [injection H as <- _; auto|]. apply bind_ok in H as (sg & _ & H).
  apply bind_ok in H as ((((ok2 & p3) & q2) & s2) & H2 & H). apply part_grows in H2.
  apply bind_ok in H as (sum & _ & H). apply bind_ok in H as (pr & _ & H). destruct ok2.
  - apply bind_ok in H as (sg1 & _ & H). apply bind_ok in H as (sg2 & _ & H). apply bind_ok in H as (s3 & H3 & H). injection H as <- _.
    apply add_grows in H3. eapply grows_trans; [eauto|]. eapply grows_trans; eauto.
  - injection H as <- _. eapply grows_trans; eauto.
Qed.

Lemma loop_grows : forall n s p s', split_loop an n s p = Ok s' -> grows s s'.
Proof.
  induction n as [|n IH]; intros s p s' H; cbn [split_loop] in H; [injection H as <-; apply grows_refl|].
  apply bind_ok in H as (c1 & _ & H). apply bind_ok in H as (c2 & _ & H). apply bind_ok in H as (c3 & _ & H). destruct (_ || _); [eauto|].
  apply bind_ok in H as ((s1 & p1) & H1 & H). apply step_grows in H1. destruct (shouldAbort s1); [injection H as <-; auto|].
  eapply grows_trans; eauto.
Qed.

(** Parts that fit are found at every split position the loop reaches. *)
Lemma loop_hits : forall M E n s p s', ~ In 0 w -> Inv an w M E s -> (n <> O -> shouldAbort s = false /\ (n + 3 <= length w)%nat) -> part1_ok w n p ->
  split_loop an n s p = Ok s' -> shouldAbort s' = false ->
  forall m b, (1 <= m <= n)%nat -> nth_error w (m - 1) <> Some 0x2D -> nth_error w m <> Some 0x2D -> nth_error w (S (S m)) <> Some 0x2D ->
    (nth_error w (S m) = Some 0x2D /\ b = skipn (S (S m)) w) \/ (nth_error w (S m) <> Some 0x2D /\ b = skipn (S m) w) ->
    fits an (small_first (firstn (S m) w)) \/ (nth_error w m = Some 0x2E /\ fits an (small_first (firstn m w))) ->
    fits an (small_first b) -> hit (firstn (S m) w ++ 0x20 :: b) s'.
Proof.
  intros M E. induction n as [|n IH]; intros s p s' NUL I H P L A m b Hm N1 N2 N3 B F1 F2; [lia|].
  cbn [split_loop] in L. destruct (H ltac:(discriminate)) as (Ab & Ln). pose proof I as (A1 & _). unfold zword in L. rewrite A1 in L.
  destruct (word_at w (S n + 1 - 2) ltac:(lia)) as (x1 & X1). rewrite (rd_word _ _ _ X1) in L. cbn [bind] in L.
  destruct (word_at w (S n + 1 - 1) ltac:(lia)) as (x2 & X2). rewrite (rd_word _ _ _ X2) in L. cbn [bind] in L.
  destruct (word_at w (S n + 1 + 1) ltac:(lia)) as (x3 & X3). rewrite (rd_word _ _ _ X3) in L. cbn [bind] in L.
  assert (Pn : forall q, part1_ok w (S n) q -> part1_ok w n q).
  { intros q (a0 & t0 & c1 & t1 & W & W2 & Lc & Lt & Ft). exists a0, t0, c1, t1. repeat (split; [solve [auto]|]).
    assert (X : firstn n (firstn (S n) t1) = firstn n (firstn (S n) t0)) by congruence. rewrite !firstn_firstn in X.
    replace (Nat.min n (S n)) with n in X by lia. auto. }
  destruct ((x1 =? 0x2D) || (x2 =? 0x2D) || (x3 =? 0x2D)) eqn:T.
  - eapply (IH s p s'); eauto; [intros _; split; auto; lia|]. destruct (Nat.eq_dec m (S n)) as [->|]; [|lia]. exfalso.
    replace (S n - 1)%nat with (S n + 1 - 2)%nat in N1 by lia. replace (S n + 1 - 1)%nat with (S n) in X2 by lia.
    replace (S n + 1 + 1)%nat with (S (S (S n))) in X3 by lia. rewrite X1 in N1. rewrite X2 in N2. rewrite X3 in N3.
    assert (x1 <> 0x2D) by congruence. assert (x2 <> 0x2D) by congruence. assert (x3 <> 0x2D) by congruence. lia.
  - destruct (split_step_ok an GA w NUL M E (S n) s p I Ab ltac:(lia) ltac:(lia) P) as (s1 & p1 & Es & I1 & P1 & K).
    rewrite Es in L. cbn [bind] in L.
    destruct (Nat.eq_dec m (S n)) as [->|].
    + apply (hit_grows _ s1 s').
      * destruct (shouldAbort s1); [injection L as <-; apply grows_refl|eapply loop_grows; eauto].
      * destruct (K b B F1 F2) as (y & Iy & Sy). exists y. auto.
    + destruct (shouldAbort s1) eqn:Ab1; [injection L as <-; congruence|]. eapply (IH s1 p1 s'); eauto; [intros _; split; auto; lia|lia].
Qed.

Lemma gen_split_hits : forall M E s s', ~ In 0 w -> (2 <= length w)%nat -> Inv an w M E s -> shouldAbort s = false -> gen_split_word an s = Ok s' ->
  shouldAbort s' = false -> forall a b, split_known an w a b -> hit (a ++ 0x20 :: b) s'.
Proof.
  intros M E s s' NUL L I Ab H A a b (sep & W & Sep & La & Lb & Ha & Hb & F1 & F2). pose proof I as (A1 & _).
  unfold gen_split_word, zword, wlen in H. rewrite A1 in H.
  rewrite copy_short in H; [|auto|unfold fresh; rewrite repeat_length; lia|lia]. cbn [bind firstn app Nat.add] in H. rewrite firstn_all in H.
  assert (F : skipn (length w) (fresh (length w + 1)) = [JUNK]).
  { unfold fresh. rewrite repeat_app. rewrite skipn_len by apply repeat_length. auto. }
  rewrite F in H. rewrite wr_lt in H by (rewrite app_length; cbn; lia). cbn [bind] in H. rewrite upd_mid in H.
  destruct (Nat.ltb_spec (length w) 2); [lia|].
  assert (Lw : length w = (length a + length (sep ++ b))%nat) by (rewrite W, app_length; auto).
  assert (Ea : firstn (length a) w = a) by (rewrite W; apply firstn_mid).
  assert (Eb : skipn (length a) w = sep ++ b) by (rewrite W; apply skipn_mid).
  destruct a as [|y a0 _] using rev_ind; [cbn in La; lia|]. destruct a0 as [|x a1 _] using rev_ind; [cbn in La; lia|].
  rewrite !app_length in *. cbn [length] in *. replace (length a1 + 1 + 1)%nat with (S (S (length a1))) in * by lia.
  destruct (Ha a1 x y) as (Nx & Ny); [rewrite <- app_assoc; auto|].
  assert (Nth : forall k, nth_error w (S (S (length a1)) + k) = nth_error (sep ++ b) k).
  { intros k. rewrite W, nth_error_app2; rewrite !app_length; cbn [length]; [|lia].
    replace (S (S (length a1)) + k - (length a1 + 1 + 1))%nat with k by lia. auto. }
  rewrite <- Ea. eapply (loop_hits M E (length w - 3)); eauto.
  - intros _. split; auto. lia.
  - destruct w as [|a2 t0] eqn:Ew; [cbn in L; lia|]. exists a2, t0, a2, (t0 ++ [0]). split; auto. split; auto. split; auto.
    split; [rewrite app_length; cbn; lia|]. cbn [length]. rewrite firstn_app.
    replace (S (length t0) - 3 - length t0)%nat with O by lia. cbn [firstn]. rewrite app_nil_r. auto.
  - lia.
  - replace (S (length a1) - 1)%nat with (length a1) by lia. rewrite W, <- !app_assoc. cbn [app]. rewrite nth_mid. congruence.
  - rewrite W, <- (app_assoc (a1 ++ [x])). cbn [app]. replace (S (length a1)) with (length (a1 ++ [x])) by (rewrite app_length; cbn; lia). rewrite nth_mid. congruence.
  - replace (S (S (S (length a1)))) with (S (S (length a1)) + 1)%nat by lia. rewrite Nth. destruct (sep ++ b) as [|u [|v r]]; [discriminate|discriminate|].
    cbn. specialize (Hb u v r eq_refl). congruence.
  - pose proof (Nth 0%nat) as N0. rewrite Nat.add_0_r in N0. rewrite N0. destruct Sep as [->|(-> & Nb)].
    + left. split; auto. replace (S (S (S (length a1)))) with (S (S (length a1)) + 1)%nat by lia. rewrite <- skipn_skipn, Eb. auto.
    + right. cbn [app] in *. split; [|rewrite Eb; auto]. destruct b as [|z b]; [discriminate|]. cbn. intros X. injection X as ->. apply (Nb b); auto.
  - rewrite Ea. destruct F1 as [F1|(a' & Ea' & F1)]; auto. right. apply snoc_inj in Ea' as (<- & ->). split.
    + rewrite W, <- (app_assoc (a1 ++ [x])). cbn [app]. replace (S (length a1)) with (length (a1 ++ [x])) by (rewrite app_length; cbn; lia). apply nth_mid.
    + replace (firstn (S (length a1)) w) with (a1 ++ [x]); auto. rewrite W, <- (app_assoc (a1 ++ [x])).
      replace (S (length a1)) with (length (a1 ++ [x])) by (rewrite app_length; cbn; lia). rewrite firstn_mid. auto.
Qed.

Lemma split_hits : hits (gen_split_word an) (fun _ => False).
Proof.
  intros s s' _ _ _ H. split; [|intros _ v []]. unfold gen_split_word in H. apply bind_ok in H as (p1 & _ & H). apply bind_ok in H as (p2 & _ & H).
  destruct (_ <? _)%nat; [discriminate|]. eapply loop_grows; eauto.
Qed.

Lemma run_hits : forall gs Es, Forall2 hits gs Es -> forall s s', sword s = w -> cap s -> run_generators gs s = Ok s' ->
  grows s s' /\ (shouldAbort s' = false -> forall E v, In E Es -> E v -> an false v <> [] -> hit v s').
Proof.
  intros gs Es F. induction F as [|g E gs Es Hg F IH]; intros s s' W C H; cbn [run_generators] in H.
  { injection H as <-. split; [apply grows_refl|]. intros _ E v []. }
  destruct (shouldAbort s) eqn:Ab; [injection H as <-; split; [apply grows_refl|congruence]|].
  apply bind_ok in H as (s1 & H1 & H2). destruct (Hg s s1 W C Ab H1) as (G1 & X1).
  pose proof G1 as (W1 & _ & _ & C1). destruct (IH s1 s' ltac:(congruence) (C1 C) H2) as (G2 & X2). split; [eapply grows_trans; eauto|].
  intros A E' v [<-|I] Ev N; [|eapply X2; eauto]. eapply hit_grows; [exact G2|]. apply X1; auto.
  destruct gs; cbn [run_generators] in H2; [injection H2 as <-; auto|]. destruct (shouldAbort s1) eqn:A1; auto. injection H2 as <-. congruence.
Qed.

(** A known word is only suggested in other letter case (or without soft
    hyphens). *)
Lemma known_only : forall st s, strategy_generate st (new_status w 15) = Ok s -> (1 <= budget st)%nat ->
  (primaryGenerators st = [gen_case_change an] \/ primaryGenerators st = [gen_case_change an; gen_soft_hyphens an]) ->
  an false w <> [] -> found s <> [] /\ forall x, In x (found s) -> same_letters (fst x) w \/ (In SHY w /\ same_letters (fst x) (without_shy w)).
Proof.
  intros st s H B P N. unfold strategy_generate in H. set (s0 := setMaxCost (new_status w 15) (budget st)) in *.
  apply bind_ok in H as (s1 & H1 & H2).
  assert (A0 : shouldAbort s0 = false). { unfold s0, shouldAbort. cbn [new_status setMaxCost found maxSuggestions currentCost maxCost length Nat.eqb]. replace (0 <? budget st)%nat with true by lia. auto. }
  assert (C0 : cap s0) by (unfold cap, s0; cbn; lia).
  assert (F1 : found s1 <> [] /\ forall x, In x (found s1) -> same_letters (fst x) w \/ (In SHY w /\ same_letters (fst x) (without_shy w))).
  { destruct P as [P|P]; rewrite P in H1; cbn [run_generators] in H1; rewrite A0, gen_case_change_try in H1; change (sword s0) with w in H1;
      apply bind_ok in H1 as (t1 & T1 & H1); rewrite try_single in T1; destruct (suggest_hits _ _ _ T1 C0 A0 N) as (x0 & I0 & L0);
      pose proof (suggest_grows _ _ _ T1) as (W1 & _).
    - injection H1 as <-. split; [intros X; rewrite X in I0; destruct I0|]. intros x I. destruct (suggest_adds _ _ _ x T1 I) as [[]|L]; auto.
    - destruct (shouldAbort t1).
      { injection H1 as <-. split; [intros X; rewrite X in I0; destruct I0|]. intros x I. destruct (suggest_adds _ _ _ x T1 I) as [[]|L]; auto. }
      rewrite gen_soft_hyphens_try in H1. rewrite W1 in H1. change (sword s0) with w in H1. apply bind_ok in H1 as (t2 & T2 & H1). injection H1 as <-.
      split.
      + apply try_grows in T2 as (_ & _ & I2 & _). intros X. apply I2 in I0. rewrite X in I0. destruct I0.
      + intros x I. destruct (try_adds _ _ _ x T2 I) as [I1|(v & Iv & L)].
        * destruct (suggest_adds _ _ _ x T1 I1) as [[]|L]; auto.
        * apply in_cand_soft in Iv as (Sh & ->). auto. }
  destruct F1 as (Ne & F1). destruct (Nat.ltb_spec 0 (length (found s1))) as [L|L].
  - injection H2 as <-. auto.
  - destruct (found s1); [contradiction|cbn in L; lia].
Qed.

Hypothesis NUL : ~ In 0 w.
Hypothesis LEN : (2 <= length w)%nat.
Hypothesis VOW : (vowel_count w <= 32)%nat.

Definition typing_cands : list (list Z -> Prop) :=
  map (fun (c : list Z -> list (list Z)) v => In v (c w))
    [cand_vowel; cand_replacement REPLACEMENTS_1; cand_deletion; cand_special; fun _ => [];
     cand_replace_two REPLACEMENTS_1; cand_replacement REPLACEMENTS_2; cand_insertion COMMON_LETTERS; cand_swap; cand_replacement REPLACEMENTS_3;
     cand_insertion OTHER_LETTERS; cand_replacement REPLACEMENTS_4; cand_replace_two REPLACEMENTS_2; cand_replace_two REPLACEMENTS_3;
     cand_replace_two REPLACEMENTS_4; cand_delete_two; cand_replacement REPLACEMENTS_5].

Lemma typing_hits : forall n, Forall2 hits (generators (typing_strategy an n)) typing_cands.
Proof.
  intros n. assert (NE : w <> []) by (intros ->; cbn in LEN; lia).
  assert (Rep : forall t, hits (gen_replacement an t) (fun v => In v (cand_replacement t w))).
  { intros t. apply (hits_cand _ (cand_replacement t)). intros s <- Ab. apply gen_replacement_try; auto. }
  assert (Two : forall t, hits (gen_replace_two an t) (fun v => In v (cand_replace_two t w))).
  { intros t. apply (hits_cand _ (cand_replace_two t)). intros s <- Ab. apply gen_replace_two_try; auto. }
  assert (Ins : forall t, hits (gen_insertion an t) (fun v => In v (cand_insertion t w))).
  { intros t. apply (hits_cand _ (cand_insertion t)). intros s <- Ab. apply gen_insertion_try; auto. }
  cbn [typing_strategy generators]. unfold typing_cands. cbn [map].
  repeat match goal with |- Forall2 _ (_ :: _) _ => constructor; [first [apply Rep|apply Two|apply Ins|idtac]|] end; [| | | | | |constructor].
  - apply (hits_cand _ cand_vowel). intros s <- Ab. apply gen_vowel_try; auto.
  - apply (hits_cand _ cand_deletion). intros s <- Ab. apply gen_deletion_try; auto.
  - apply (hits_cand _ cand_special). intros s <- Ab. apply gen_insert_special_try; auto.
  - intros s s' A B C D. destruct (split_hits s s' A B C D) as (G & _). split; auto. intros _ v [].
  - apply (hits_cand _ cand_swap). intros s <- Ab. apply gen_swap_try; auto.
  - apply (hits_cand _ cand_delete_two). intros s <- Ab. apply gen_delete_two_try; auto.
Qed.

Lemma ocr_hits : forall n, Forall2 hits (generators (ocr_strategy an n))
  [(fun v => In v (cand_replacement OCR_REPLACEMENTS w)); (fun v => In v (cand_multi OCR_REPLACEMENTS 2 0 w))].
Proof.
  intros n. cbn [ocr_strategy generators]. constructor; [|constructor; [|constructor]].
  - apply (hits_cand _ (cand_replacement OCR_REPLACEMENTS)). intros s <- Ab. apply gen_replacement_try; auto.
  - apply (hits_cand _ (fun w => cand_multi OCR_REPLACEMENTS 2 0 w)). intros s <- Ab. apply gen_multi_try; auto.
Qed.

Lemma typing_cover : forall v, typing_edit w v -> v = w \/ (In SHY w /\ v = without_shy w) \/ exists E, In E typing_cands /\ E v.
Proof.
  assert (NE : w <> []) by (intros ->; cbn in LEN; lia).
  assert (K : forall c v, In v (c w) -> In (fun v => In v (c w)) typing_cands -> exists E, In E typing_cands /\ E v) by (intros c v H I; eexists; split; [exact I|exact H]).
  intros v [H|[H|[H|[H|[H|[H|[H|[H|[H|[(t & It & H)|(t & It & H)]]]]]]]]]]; auto; right; right.
  - apply (K cand_vowel); [apply in_cand_vowel; auto|]. unfold typing_cands. cbn [map In]. tauto.
  - apply (K cand_deletion); [apply in_cand_deletion; auto|]. unfold typing_cands. cbn [map In]. tauto.
  - apply (K cand_special); [apply in_cand_special; auto|]. unfold typing_cands. cbn [map In]. tauto.
  - apply (K cand_special); [apply in_cand_special; auto|]. unfold typing_cands. cbn [map In]. tauto.
  - destruct H as (a & c & b & I & X). apply in_app_or in I as [I|I].
    + apply (K (cand_insertion COMMON_LETTERS)); [apply in_cand_insertion; auto; exists a, c, b; auto|]. unfold typing_cands. cbn [map In]. tauto.
    + apply (K (cand_insertion OTHER_LETTERS)); [apply in_cand_insertion; auto; exists a, c, b; auto|]. unfold typing_cands. cbn [map In]. tauto.
  - apply (K cand_swap); [apply in_cand_swap; auto|]. unfold typing_cands. cbn [map In]. tauto.
  - apply (K cand_delete_two); [apply in_cand_delete_two; auto|]. unfold typing_cands. cbn [map In]. tauto.
  - apply (K (cand_replacement t)); [apply in_cand_replacement; auto|]. unfold typing_cands. cbn [map In].
    destruct It as [<-|[<-|[<-|[<-|[<-|[]]]]]]; tauto.
  - apply (K (cand_replace_two t)); [apply in_cand_replace_two; auto|]. unfold typing_cands. cbn [map In].
    destruct It as [<-|[<-|[<-|[<-|[]]]]]; tauto.
Qed.

(** The primary generators find nothing for unknown words. *)
Lemma primary_nothing : forall n s1, run_generators (primaryGenerators (typing_strategy an n)) (setMaxCost (new_status w 15) n) = Ok s1 ->
  an false w = [] -> (In SHY w -> an false (without_shy w) = []) -> found s1 = [] /\ sword s1 = w /\ maxSuggestions s1 = 15%nat.
Proof.
  intros n s1 H1 N1 N2. cbn [typing_strategy primaryGenerators] in H1. set (s0 := setMaxCost (new_status w 15) n) in *.
  { cbn [run_generators] in H1. destruct (shouldAbort s0); [injection H1 as <-; auto|].
    rewrite gen_case_change_try in H1. change (sword s0) with w in H1. apply bind_ok in H1 as (t1 & T1 & H1).
    assert (G1 : grows s0 t1) by (eapply try_grows; eauto).
    assert (X1 : found t1 = []).
    { destruct (found t1) as [|x l] eqn:E; auto. exfalso. rewrite try_single in T1. unfold suggestForBuffer in T1. destruct (shouldAbort s0).
      - injection T1 as <-. discriminate.
      - unfold spellWithPriority in T1. rewrite N1 in T1. cbn [bind] in T1. injection T1 as <-. discriminate. }
    pose proof G1 as (W1 & M1 & _). destruct (shouldAbort t1); [injection H1 as <-; auto|].
    rewrite gen_soft_hyphens_try in H1. rewrite W1 in H1. change (sword s0) with w in H1. apply bind_ok in H1 as (t2 & T2 & H1).
    assert (G2 : grows t1 t2) by (eapply try_grows; eauto). pose proof G2 as (W2 & M2 & _). injection H1 as <-.
    split; [|split; [rewrite W2; exact W1|rewrite M2; exact M1]]. destruct (found t2) as [|x l] eqn:E; auto. exfalso.
    destruct (mem SHY w) eqn:Sh.
    - unfold cand_soft_hyphens in T2. change 0xAD with SHY in T2. rewrite Sh in T2.
      apply mem_In in Sh. specialize (N2 Sh). change (filter (fun c => negb (c =? SHY)) w) with (without_shy w) in T2.
      rewrite try_single in T2. unfold suggestForBuffer in T2. destruct (shouldAbort t1).
      + injection T2 as <-. congruence.
      + unfold spellWithPriority in T2. rewrite N2 in T2. cbn [bind] in T2. injection T2 as <-. cbn in E. congruence.
    - unfold cand_soft_hyphens in T2. change 0xAD with SHY in T2. rewrite Sh in T2. injection T2 as <-. congruence. }
Qed.

(** Known edits are found if the search is not stopped. *)
Lemma typing_complete : forall n s, strategy_generate (typing_strategy an n) (new_status w 15) = Ok s -> shouldAbort s = false ->
  an false w = [] -> (In SHY w -> an false (without_shy w) = []) -> forall v, typing_edit w v -> an false v <> [] -> hit v s.
Proof.
  intros n s H Ab N1 N2 v Hv Nv. unfold strategy_generate in H.
  apply bind_ok in H as (s1 & H1 & H2). destruct (primary_nothing n s1 H1 N1 N2) as (F1 & W1 & M1). rewrite F1 in H2. cbn [length Nat.ltb Nat.leb] in H2.
  destruct (run_hits _ _ (typing_hits n) s1 s W1 ltac:(unfold cap; rewrite F1; cbn; lia) H2) as (_ & X).
  destruct (typing_cover v Hv) as [->|[(Sh & ->)|(E & IE & Ev)]]; [contradiction|elim Nv; auto|eapply X; eauto].
Qed.

Lemma run_app : forall g1 g2 s s', run_generators (g1 ++ g2) s = Ok s' -> shouldAbort s' = false ->
  exists s1, run_generators g1 s = Ok s1 /\ run_generators g2 s1 = Ok s'.
Proof.
  induction g1 as [|g g1 IH]; intros g2 s s' H Ab; cbn [app run_generators] in *; [eauto|].
  destruct (shouldAbort s) eqn:A; [injection H as <-; congruence|]. apply bind_ok in H as (t & Ht & H). rewrite Ht. cbn [bind]. auto.
Qed.

Lemma run_alive : forall gs s s', run_generators gs s = Ok s' -> shouldAbort s' = false -> shouldAbort s = false.
Proof.
  intros [|g gs] s s' H Ab; cbn [run_generators] in H; [congruence|]. destruct (shouldAbort s) eqn:A; auto. congruence.
Qed.

(** Splits into known words are found if the search is not stopped. *)
Lemma splits_complete : forall n s, strategy_generate (typing_strategy an n) (new_status w 15) = Ok s -> shouldAbort s = false ->
  an false w = [] -> (In SHY w -> an false (without_shy w) = []) -> forall a b, split_known an w a b -> hit (a ++ 0x20 :: b) s.
Proof.
  intros n s H Ab N1 N2 a b K. unfold strategy_generate in H. apply bind_ok in H as (s1 & H1 & H2).
  destruct (primary_nothing n s1 H1 N1 N2) as (F1 & W1 & M1). rewrite F1 in H2. cbn [length Nat.ltb Nat.leb] in H2.
  destruct (typing_fines an GA w NUL n LEN VOW) as (P1 & P2).
  assert (I0 : Inv an w n typing_edit (setMaxCost (new_status w 15) n)) by (repeat split; cbn; auto; try lia; intros [|i] y X; discriminate).
  destruct (run_fine _ _ _ _ _ _ P1 I0) as (t & Et & I1). change (budget (typing_strategy an n)) with n in H1. rewrite Et in H1. injection H1 as ->.
  cbn [typing_strategy generators] in H2, P2.
  match type of H2 with run_generators (?g1 :: ?g2 :: ?g3 :: ?g4 :: ?g5 :: ?r) _ = _ =>
    change (run_generators ([g1; g2; g3; g4] ++ ([g5] ++ r)) s1 = Ok s) in H2; change (Forall (fine an w n typing_edit) ([g1; g2; g3; g4] ++ ([g5] ++ r))) in P2 end.
  apply Forall_app in P2 as (P2 & _).
  destruct (run_app _ _ _ _ H2 Ab) as (s2 & E2 & H3). destruct (run_fine _ _ _ _ _ _ P2 I1) as (t & Et2 & I2). rewrite E2 in Et2. injection Et2 as <-.
  destruct (run_app _ _ _ _ H3 Ab) as (s3 & E3 & H4). pose proof (run_alive _ _ _ H4 Ab) as A3. pose proof (run_alive _ _ _ E3 A3) as A2.
  cbn [run_generators] in E3. rewrite A2 in E3. apply bind_ok in E3 as (s3' & E3 & X). injection X as ->.
  apply (hit_grows _ s3 s).
  - clear - H4 GA LEN VOW NUL I2 E3 A2. pose proof (typing_hits n) as T. cbn [typing_strategy generators] in T. unfold typing_cands in T. cbn [map] in T.
    do 5 (inversion T as [|? ? ? ? _ T']; subst; clear T; rename T' into T).
    destruct (split_hits s2 s3) as ((W3 & M3 & _ & C3) & _); auto; [apply I2|unfold cap; destruct I2 as (_ & _ & -> & I2 & _); auto|].
    eapply (run_hits _ _ T); eauto; [destruct I2 as (I2 & _); congruence|]. apply C3. unfold cap. destruct I2 as (_ & _ & -> & I2 & _). auto.
  - eapply gen_split_hits; eauto.
Qed.

Lemma ocr_complete : forall n s, strategy_generate (ocr_strategy an n) (new_status w 15) = Ok s -> shouldAbort s = false ->
  an false w = [] -> forall v, ocr_edit w v -> an false v <> [] -> hit v s.
Proof.
  intros n s H Ab N1 v Hv Nv. unfold strategy_generate in H. cbn [ocr_strategy budget primaryGenerators] in H.
  apply bind_ok in H as (s1 & H1 & H2). set (s0 := setMaxCost (new_status w 15) n) in *.
  assert (F1 : found s1 = [] /\ sword s1 = w).
  { cbn [run_generators] in H1. destruct (shouldAbort s0); [injection H1 as <-; auto|].
    rewrite gen_case_change_try in H1. change (sword s0) with w in H1. apply bind_ok in H1 as (t1 & T1 & H1). injection H1 as <-.
    assert (G1 : grows s0 t1) by (eapply try_grows; eauto). pose proof G1 as (W1 & _). split; auto.
    destruct (found t1) as [|x l] eqn:E; auto. exfalso. rewrite try_single in T1. unfold suggestForBuffer in T1. destruct (shouldAbort s0).
      - injection T1 as <-. discriminate.
      - unfold spellWithPriority in T1. rewrite N1 in T1. cbn [bind] in T1. injection T1 as <-. discriminate. }
  destruct F1 as (F1 & W1). rewrite F1 in H2. cbn [length Nat.ltb Nat.leb] in H2.
  destruct (run_hits _ _ (ocr_hits n) s1 s W1 ltac:(unfold cap; rewrite F1; cbn; lia) H2) as (_ & X).
  destruct Hv as [->|[Hv|Hv]]; [contradiction| |].
  - eapply X; [auto|left; reflexivity|apply in_cand_replacement; auto|auto].
  - eapply X; [auto|right; left; reflexivity|apply in_cand_multi2; auto|auto].
Qed.

End Hits.
