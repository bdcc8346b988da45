(** * Invariants of the search for suggestions *)
From Verif Require Import Base BaseFacts CharModel CharSpec CharProofs SpellerBase SpellSpec CacheModel AnalysisModel AnalyzerBase HyphModel
  HyphSpec HyphProofs AdapterModel TweaksSpec TweaksProofs SuggestModel SuggestSpec SuggestProofs SuggestProofs2 SuggestEdits.

(** ** Ranks *)

Lemma zlist_eqb_eq : forall a b, zlist_eqb a b = true <-> a = b.
Proof.
  induction a as [|x a IH]; destruct b as [|y b]; cbn [zlist_eqb]; split; intros H; try congruence; auto; try discriminate.
  - apply andb_true_iff in H as (A & B). apply IH in B. apply Z.eqb_eq in A. congruence.
  - injection H as -> ->. rewrite Z.eqb_refl. cbn. apply IH. auto.
Qed.

Lemma has_value_spec : forall a k v, has_value a k v = true <-> a k = Some v.
Proof.
  intros a k v. unfold has_value. destruct (a k) as [x|]; [|split; discriminate]. rewrite zlist_eqb_eq. split; congruence.
Qed.

Lemma case_rows : forall n p, case_weight n p <-> In (n, p) INFLECTION_PRIORITIES.
Proof.
  intros n p. split.
  - intros []; cbn [INFLECTION_PRIORITIES In]; auto 20.
  - cbn [INFLECTION_PRIORITIES In]. intros H. repeat (destruct H as [H|H]; [injection H as <- <-; constructor|]). destruct H.
Qed.

Lemma inflection_spec : forall rows a p, inflection_priority rows a = p ->
  (exists n, In (n, p) rows /\ a SIJAMUOTO = Some (wstr n)) \/ (p = 4 /\ forall n q, In (n, q) rows -> a SIJAMUOTO <> Some (wstr n)).
Proof.
  induction rows as [|(n, q) r IH]; intros a p H; cbn [inflection_priority] in H.
  - right. split; [auto|intros n q []].
  - destruct (has_value a SIJAMUOTO (wstr n)) eqn:V.
    + left. exists n. subst q. apply has_value_spec in V. split; [left; auto|auto].
    + destruct (IH a p H) as [(m & I & E)|(E & F)].
      * left. exists m. split; [right; auto|auto].
      * right. split; auto. intros m q' [X|X]; [|eauto]. injection X as <- <-. intros X. apply has_value_spec in X. congruence.
Qed.

Lemma base_spec : forall a, base_weight a (getPriorityFromWordClassAndInflection a).
Proof.
  intros a. unfold getPriorityFromWordClassAndInflection. destruct (existsb _ NOUN_CLASSES) eqn:N.
  - assert (M : nominal a).
    { apply existsb_exists in N as (n & I & V). apply has_value_spec in V. exists n. auto. }
    unfold getPriorityFromNounInflection. destruct (inflection_spec INFLECTION_PRIORITIES a _ eq_refl) as [(n & I & E)|(E & F)].
    + eapply bw_case; eauto. apply case_rows. auto.
    + rewrite E. apply bw_no_case; auto. intros n p C. apply case_rows in C. eauto.
  - apply bw_other. intros (n & I & E). apply has_value_spec in E.
    assert (X : existsb (fun n => has_value a CLASS (wstr n)) NOUN_CLASSES = true) by (apply existsb_exists; exists n; auto). congruence.
Qed.

Lemma rows_fun : forall n p m q, case_weight n p -> case_weight m q -> wstr n = wstr m -> p = q.
Proof. intros n p m q H K E. destruct H, K; try reflexivity; vm_compute in E; discriminate. Qed.

Lemma base_fun : forall a p q, base_weight a p -> base_weight a q -> p = q.
Proof.
  intros a p q H K. inversion H as [n p' N C E|N F|N]; subst; inversion K as [n2 p2 N2 C2 E2|N2 F2|N2]; subst; try contradiction; auto.
  - apply (rows_fun n p n2 q); auto. congruence.
  - exfalso. eapply F2; eauto.
  - exfalso. eapply F; eauto.
Qed.

Lemma base_range : forall a p, base_weight a p -> 2 <= p <= 60.
Proof. intros a p [n q _ C _| |]; try lia. destruct C; lia. Qed.

Lemma count_borders_spec : forall st k, (k < 5)%nat -> count_borders st k = Nat.min 5 (k + count_occ Z.eq_dec st 0x3D).
Proof.
  induction st as [|s st IH]; intros k K; cbn [count_borders count_occ]; [lia|].
  destruct (Z.eqb_spec s 0x3D).
  - destruct (Z.eq_dec s 0x3D); [|congruence]. destruct (Nat.eqb_spec (S k) 5); [lia|]. rewrite IH by lia. f_equal. lia.
  - destruct (Z.eq_dec s 0x3D); [congruence|]. apply IH; auto.
Qed.

Lemma parts_spec : forall st, getPriorityFromStructure st = parts_weight st.
Proof.
  intros st. unfold getPriorityFromStructure, parts_weight. rewrite count_borders_spec by lia. cbn [Nat.add].
  assert (H : (Nat.min 5 (count_occ Z.eq_dec st 0x3D%Z) <= 5)%nat) by lia. revert H. generalize (Nat.min 5 (count_occ Z.eq_dec st 0x3D)).
  intros n H. do 6 (destruct n as [|n]; [reflexivity|]). lia.
Qed.

Lemma parts_range : forall st, 1 <= parts_weight st <= 4096.
Proof.
  intros st. unfold parts_weight. assert (H : (Nat.min 5 (count_occ Z.eq_dec st 0x3D%Z) - 1 <= 4)%nat) by lia.
  revert H. generalize (Nat.min 5 (count_occ Z.eq_dec st 0x3D%Z) - 1)%nat. intros n H. do 5 (destruct n as [|n]; [vm_compute; split; discriminate|]). lia.
Qed.

Definition MAXRANK : Z := 737280.

Lemma weighs_range : forall w a r p, weighs w a r p -> 0 < p <= MAXRANK.
Proof.
  intros w a r p (b & st & B & _ & _ & ->). apply base_range in B. pose proof (parts_range st). unfold MAXRANK.
  assert (1 <= verdict_weight r <= 3) by (destruct r; cbn; lia).
  assert (2 <= b * parts_weight st <= 245760) by nia. nia.
Qed.

Lemma handle_ok : forall w a l, good_analyses l -> In a l ->
  exists r p st, handleAnalysis w a = Ok (r, p) /\ a STRUCTURE = Some st /\ graded w st r /\ weighs w a r p.
Proof.
  intros w a l G I. destruct (good_structure_of l a G I) as (st & E & Hst). pose proof (good_no_nul l a st G I E) as N.
  destruct (match_ok w st N) as (r & M & Gr). unfold handleAnalysis. rewrite E.
  pose proof (base_spec a) as B. pose proof (base_range a _ B) as BR. pose proof (parts_range st) as PR. rewrite parts_spec.
  assert (V : 1 <= verdict_weight r <= 3) by (destruct r; cbn; lia).
  assert (X : 2 <= getPriorityFromWordClassAndInflection a * parts_weight st <= 245760) by nia.
  rewrite ck_fits by lia. cbn [bind]. rewrite M. cbn [bind].
  assert (VW : getPriorityFromSpellResult r = verdict_weight r) by (destruct r; auto; destruct Gr). rewrite VW.
  rewrite ck_fits by nia. cbn [bind]. exists r, (getPriorityFromWordClassAndInflection a * parts_weight st * verdict_weight r), st.
  split; auto. split; auto. split; auto. exists (getPriorityFromWordClassAndInflection a), st. auto.
Qed.

Lemma weighs_fun : forall w a r r' p p', weighs w a r p -> weighs w a r' p' -> r = r' /\ p = p'.
Proof.
  intros w a r r' p p' (b & st & B & E & G & ->) (b' & st' & B' & E' & G' & ->). assert (st' = st) by congruence. subst st'.
  pose proof (graded_fun _ _ _ _ G G'). subst r'. rewrite (base_fun _ _ _ B B'). auto.
Qed.

Lemma rank_eq : forall a b, a <> SPELL_FAILED -> b <> SPELL_FAILED -> Nat.eqb (rank a) (rank b) = true <-> a = b.
Proof. intros [] [] A B; try congruence; cbn; split; congruence. Qed.

(** The best verdict of the analyses considered so far, with its smallest
    rank. *)
Definition best_so_far (w : list Z) (l : list analysis) (r : spellresult) (p : Z) : Prop :=
  r <> SPELL_FAILED /\ (exists a, In a l /\ weighs w a r p) /\
  forall a q p', In a l -> weighs w a q p' -> as_good r q /\ (q = r -> p <= p').

Lemma priority_loop_ok : forall w l done r p, good_analyses l -> best_so_far w done r p ->
  exists r' p', priority_loop w l r p = Ok (r', p') /\ best_so_far w (done ++ l) r' p'.
Proof.
  intros w. induction l as [|a l IH]; intros done r p G B; cbn [priority_loop].
  - exists r, p. rewrite app_nil_r. auto.
  - destruct (handle_ok w a (a :: l) G (or_introl eq_refl)) as (q & pq & st & -> & Est & Gr & W). cbn [bind].
    assert (NQ : q <> SPELL_FAILED) by (intros ->; destruct Gr).
    assert (Gl : good_analyses l) by (inversion G; auto).
    destruct B as (NR & (b & Ib & Wb) & Ball).
    replace (done ++ a :: l) with ((done ++ [a]) ++ l) by (rewrite <- app_assoc; auto).
    destruct (improves r q) eqn:I; [|destruct (Nat.eqb (rank r) (rank q) && (pq <? p)) eqn:T].
    + apply IH; auto. split; auto. split; [exists a; split; auto; apply in_or_app; right; left; auto|].
      apply improves_spec in I; auto. pose proof (as_good_total r q NR NQ I) as QR.
      intros x qx px Hx Wx. apply in_app_or in Hx as [Hx|[<-|[]]].
      * destruct (Ball x qx px Hx Wx) as (A1 & A2). split; [eapply as_good_trans; eauto|]. intros ->. elim I. auto.
      * destruct (weighs_fun _ _ _ _ _ _ W Wx) as (-> & ->). split; [constructor|lia].
    + apply andb_true_iff in T as (T1 & T2). apply rank_eq in T1; auto. subst q. apply IH; auto. split; auto.
      split; [exists a; split; auto; apply in_or_app; right; left; auto|]. intros x qx px Hx Wx. apply in_app_or in Hx as [Hx|[<-|[]]].
      * destruct (Ball x qx px Hx Wx) as (A1 & A2). split; auto. intros E. specialize (A2 E). lia.
      * destruct (weighs_fun _ _ _ _ _ _ W Wx) as (<- & <-). split; [constructor|lia].
    + apply IH; auto. split; auto. split; [exists b; split; auto; apply in_or_app; auto|].
      assert (RQ : as_good r q) by (destruct r, q; cbn in I; try discriminate; try congruence; constructor). intros x qx px Hx Wx. apply in_app_or in Hx as [Hx|[<-|[]]]; [eauto|].
      destruct (weighs_fun _ _ _ _ _ _ W Wx) as (<- & <-). split; auto. intros ->.
      assert (X : Nat.eqb (rank r) (rank r) = true) by (apply Nat.eqb_refl). rewrite X in T. cbn in T. lia.
Qed.

(** [spellWithPriority] is total. *)
Lemma with_priority_ok : forall an w, good_analyses (an false w) -> exists r p, spellWithPriority an w = Ok (r, p) /\
  ((r = SPELL_FAILED /\ p = 0 /\ an false w = []) \/ best_so_far w (an false w) r p).
Proof.
  intros an w G. unfold spellWithPriority. destruct (an false w) as [|a l] eqn:E.
  - exists SPELL_FAILED, 0. auto.
  - cbn [priority_loop]. destruct (handle_ok w a (a :: l) G (or_introl eq_refl)) as (q & pq & st & -> & Est & Gr & W). cbn [bind].
    assert (NQ : q <> SPELL_FAILED) by (intros ->; destruct Gr). replace (improves SPELL_FAILED q) with true by (destruct q; auto).
    destruct (priority_loop_ok w l [a] q pq) as (r & p & -> & B).
    + inversion G; auto.
    + split; auto. split; [exists a; split; [left; auto|auto]|]. intros x qx px [<-|[]] Wx.
      destruct (weighs_fun _ _ _ _ _ _ W Wx) as (<- & <-). split; [constructor|lia].
    + exists r, p. split; auto.
Qed.

Lemma with_priority_range : forall an w r p, good_analyses (an false w) -> spellWithPriority an w = Ok (r, p) ->
  0 <= p <= MAXRANK /\ (r <> SPELL_FAILED -> 0 < p).
Proof.
  intros an w r p G E. destruct (with_priority_ok an w G) as (r' & p' & E' & H). rewrite E in E'. injection E' as <- <-.
  destruct H as [(-> & -> & _)|(N & (a & _ & W) & _)]; [unfold MAXRANK; split; [lia|congruence]|].
  apply weighs_range in W. split; [lia|intros; lia].
Qed.

(** ** Words that are written well *)

Lemma nonempty_analysed : forall an w, good_analyses (an false w) -> forall r p, spellWithPriority an w = Ok (r, p) -> r <> SPELL_FAILED ->
  exists a st, In a (an false w) /\ a STRUCTURE = Some st /\ graded w st r /\ weighs w a r p.
Proof.
  intros an w G r p E N. destruct (with_priority_ok an w G) as (r' & p' & E' & H). rewrite E in E'. injection E' as <- <-.
  destruct H as [(-> & _)|(_ & (a & I & W) & _)]; [congruence|]. pose proof W as (b & st & B & S1 & Gr & _). exists a, st. auto.
Qed.

Lemma ok_well_written : forall an w p, good_analyses (an false w) -> spellWithPriority an w = Ok (SPELL_OK, p) -> well_written an w.
Proof.
  intros an w p G E. destruct (nonempty_analysed an w G _ _ E ltac:(discriminate)) as (a & st & I & S1 & Gr & _). exists a, st. auto.
Qed.

Lemma lower_upper : forall c, lower (upper c) = lower c.
Proof. intros c. destruct (case_laws c) as (_ & _ & C & _). auto. Qed.
Lemma upper_lower : forall c, upper (lower c) = upper c.
Proof. intros c. destruct (case_laws c) as (_ & _ & _ & D). auto. Qed.
Lemma lower_lower : forall c, lower (lower c) = lower c.
Proof. intros c. destruct (case_laws c) as (A & _). auto. Qed.
Lemma upper_upper : forall c, upper (upper c) = upper c.
Proof. intros c. destruct (case_laws c) as (_ & B & _). auto. Qed.
Lemma not_small_upper : forall c, ~ small (upper c).
Proof. intros c H. apply isLower_spec in H. rewrite isLower_upper in H. discriminate. Qed.
Lemma not_capital_lower : forall c, c <> SCHWA -> ~ (capital (lower c) \/ lower c = SCHWA).
Proof. intros c N H. apply isUpper_spec in H. rewrite isUpper_lower in H by auto. discriminate. Qed.

Lemma graded_first : forall c r st, graded (c :: r) st SPELL_CAP_FIRST -> graded (upper c :: r) st SPELL_OK.
Proof.
  intros c r st (NW & (c' & s & E & F & Sm & Sy)). cbn in E. injection E as <-. split.
  - intros (i & d & s' & D & F' & H). destruct i as [|i].
    + cbn [nth_error] in D. injection D as <-. rewrite F in F'. injection F' as <-. destruct H as [(_ & H)|(_ & _ & H)]; [lia|congruence].
    + apply NW. exists (S i), d, s'. auto.
  - intros (d & s' & D & F' & Sm' & _). cbn in D. injection D as <-. eapply not_small_upper; eauto.
Qed.

Lemma first_well_written : forall an c r p, case_blind_analyzer an -> good_analyses (an false (c :: r)) ->
  spellWithPriority an (c :: r) = Ok (SPELL_CAP_FIRST, p) -> well_written an (upper c :: r).
Proof.
  intros an c r p CB G E. destruct (nonempty_analysed an _ G _ _ E ltac:(discriminate)) as (a & st & I & S1 & Gr & _).
  exists a, st. split; [|split; [auto|apply graded_first; auto]].
  rewrite (CB (upper c :: r) (c :: r)); auto. cbn [map]. rewrite lower_upper. auto.
Qed.

Lemma recase_ok : forall w st, ~ In 0 st -> exists v, recase w (st ++ [0]) = Ok v /\ map lower v = map lower w /\
  (~ In SCHWA w -> forall i c s, nth_error v i = Some c -> nth_error (symbols st) i = Some s ->
     ((s = 0x70 \/ s = 0x71) -> ~ (capital c \/ c = SCHWA)) /\ ((s = 0x69 \/ s = 0x6A) -> ~ small c)).
Proof.
  induction w as [|c w IH]; intros st N; cbn [recase].
  - exists []. split; auto. split; auto. intros _ [|i] c s H; discriminate.
  - destruct (skip_borders_ok st N) as (st' & -> & Sy & N' & Hd & _). cbn [bind]. destruct st' as [|s st'].
    + cbn [app]. change (rd [0] 0) with (@Ok Z 0). cbn [bind Z.eqb]. exists (c :: w). split; auto. split; auto.
      intros _ i d s D F. rewrite <- Sy in F. cbn in F. destruct i; discriminate.
    + destruct (Hd s st' eq_refl) as (A1 & A2 & A3). change (rd ((s :: st') ++ [0]) 0) with (@Ok Z s). cbn [bind].
      destruct (Z.eqb_spec s 0); [contradiction|]. cbn [app skipn]. destruct (IH st') as (v & -> & L & H); [intros X; apply N'; right; auto|].
      cbn [bind]. eexists. split; [reflexivity|]. split.
      * cbn [map]. f_equal; auto. destruct (_ || _); [apply lower_upper|]. destruct (_ || _); [apply lower_lower|auto].
      * intros NS i d s' D F. rewrite A3 in F. destruct i as [|i].
        -- cbn in D, F. injection F as <-. split; intros Hs.
           ++ replace ((s =? 0x69) || (s =? 0x6A)) with false in D by lia. replace ((s =? 0x70) || (s =? 0x71)) with true in D by lia.
              injection D as <-. apply not_capital_lower. intros ->. apply NS. left; auto.
           ++ replace ((s =? 0x69) || (s =? 0x6A)) with true in D by lia. injection D as <-. apply not_small_upper.
        -- cbn in D, F. apply (H ltac:(intros X; apply NS; right; auto) i d s' D F).
Qed.

Lemma error_well_written : forall an w p a st l v, case_blind_analyzer an -> no_schwa an -> an false w = a :: l ->
  good_analyses (an false w) -> spellWithPriority an w = Ok (SPELL_CAP_ERROR, p) -> a STRUCTURE = Some st ->
  recase w (st ++ [0]) = Ok v -> well_written an v.
Proof.
  intros an w p a st l v CB NS E G _ S1 R. pose proof (good_no_nul _ a st G ltac:(rewrite E; left; auto) S1) as N.
  destruct (recase_ok w st N) as (v' & R' & L & H). rewrite R in R'. injection R' as <-.
  assert (NS' : ~ In SCHWA w) by (intros X; apply NS in X; congruence). specialize (H NS').
  exists a, st. split; [rewrite (CB v w L), E; left; auto|]. split; auto. split.
  - intros (i & c & s & C & F & X). destruct (H i c s C F) as (H1 & H2). destruct X as [(X1 & X2)|(X1 & X2 & _)]; [apply H1 in X2|apply H2 in X2]; auto.
  - intros (c & s & C & F & X1 & X2). destruct (H 0%nat c s C F) as (H1 & H2). apply H2 in X2; auto.
Qed.

(** ** The invariant of a search *)

Lemma abort_cost : forall M s, shouldAbort s = false -> maxCost s = M -> (currentCost s <= 2 * M - 1)%nat /\ (1 <= M)%nat.
Proof.
  intros M s H <-. unfold shouldAbort in H. destruct (Nat.eqb _ _); [discriminate|].
  destruct (Nat.ltb_spec (currentCost s) (maxCost s)); [lia|]. destruct (Nat.eqb _ 0); [|discriminate]. cbn [andb] in H.
  destruct (Nat.ltb_spec (currentCost s) (2 * maxCost s)); [lia|discriminate].
Qed.

Section Inv.
Variable an : analyzer.
Hypothesis GA : good_analyzer an.
Variable w0 : list Z.
Variable M : nat.
Variable E : list Z -> list Z -> Prop.

Definition entry_ok (x : list Z) (p : Z) : Prop :=
  (case_blind_analyzer an -> no_schwa an -> good_suggestion an x) /\
  (an false [] = [] -> x <> []) /\ 0 < p /\ comes_from E w0 x /\ candidate_rank an w0 x p.
Definition entries_ok (l : list (list Z * Z)) : Prop :=
  forall i y, nth_error l i = Some y -> exists p, snd y = p * (Z.of_nat i + 5) /\ entry_ok (fst y) p.

Definition Inv (s : status) : Prop :=
  sword s = w0 /\ maxCost s = M /\ maxSuggestions s = 15%nat /\ (length (found s) <= 15)%nat /\
  length (lookups s) = currentCost s /\ (currentCost s <= 2 * M + 2)%nat /\ entries_ok (found s).

Lemma add_inv : forall s w p k, sword s = w0 -> maxCost s = M -> maxSuggestions s = 15%nat -> (length (found s) <= 15)%nat ->
  length (lookups s) = currentCost s -> (currentCost s <= 2 * M + 2)%nat -> entries_ok (found s) ->
  entry_ok w p -> 0 < p <= k -> 19 * k <= 2147483647 ->
  exists s', addSuggestion s w p = Ok s' /\ Inv s' /\ ((length (found s) < maxSuggestions s)%nat -> exists p', In (w, p') (found s')).
Proof.
  intros s w p k A1 A2 A3 A4 A5 A6 A7 H Hp Hk. unfold addSuggestion. destruct (Nat.ltb_spec (length (found s)) (maxSuggestions s)).
  - rewrite ck_fits by nia. cbn [bind]. eexists. split; [reflexivity|].
    split; [|intros _; eexists; cbn [found]; apply in_or_app; right; left; reflexivity]. repeat split; cbn; auto.
    + rewrite app_length. cbn. lia.
    + intros i y Hy. destruct (Nat.lt_ge_cases i (length (found s))) as [Hi|Hi].
      * rewrite nth_error_app1 in Hy by auto. apply A7; auto.
      * rewrite nth_error_app2 in Hy by auto. destruct (i - length (found s))%nat as [|j] eqn:Ej; [|destruct j; discriminate].
        injection Hy as <-. exists p. cbn [fst snd]. split; auto. f_equal. f_equal. f_equal. lia.
  - exists s. split; auto. split; [|lia]. repeat split; auto.
Qed.

Lemma same_upper : forall c r, same_letters (upper c :: r) (c :: r).
Proof. intros. unfold same_letters. cbn [map]. rewrite lower_upper. auto. Qed.

Lemma suggest_inv : forall s v, Inv s -> E w0 v -> exists s', suggestForBuffer an s v = Ok s' /\ Inv s'.
Proof.
  intros s v I Ev. unfold suggestForBuffer. destruct (shouldAbort s) eqn:Ab; [eauto|].
  pose proof I as (A1 & A2 & A3 & A4 & A5 & A6 & A7). destruct (abort_cost M s Ab A2) as (C1 & C2).
  pose proof (GA false v) as G. destruct (with_priority_ok an v G) as (r & p & Ep & H). pose proof (with_priority_range an v r p G Ep) as (R1 & R2).
  rewrite Ep. cbn [bind].
  assert (Emp : forall x : list Z, length x = length v -> an false [] = [] -> r <> SPELL_FAILED -> x <> []).
  { intros x L Hn Nr ->. destruct v; [|discriminate]. destruct H as [(Hr & _)|(_ & (a & Ia & _) & _)]; [congruence|]. rewrite Hn in Ia. destruct Ia. }
  assert (Good : forall (x : list Z) q, length x = length v -> same_letters x v -> r <> SPELL_FAILED ->
            (case_blind_analyzer an -> no_schwa an -> well_written an x) -> q = p -> entry_ok x q).
  { intros x q L Sx Nr W ->. split; [intros; left; auto|]. split; [intros; apply (Emp x); auto|]. split; [apply R2; auto|].
    split; [left; exists v; auto|]. left. exists v. split; auto. destruct H as [(X & _)|(_ & H1 & H2)]; [contradiction|]. exists r. auto. }
  assert (LL : length (lookups s ++ [v]) = S (currentCost s)) by (rewrite app_length; cbn; lia).
  destruct r.
  - eexists. split; [reflexivity|]. repeat split; cbn; auto; lia.
  - destruct (add_inv (charge (looked s v)) v p MAXRANK) as (s' & -> & I' & _); cbn [charge looked sword maxCost maxSuggestions found currentCost lookups]; auto; try lia.
    + apply Good; auto; try discriminate; [reflexivity|]. intros _ _. eapply ok_well_written; eauto.
    + split; [apply R2; discriminate|lia].
    + unfold MAXRANK. lia.
    + eauto.
  - destruct v as [|c v].
    { exfalso. destruct (nonempty_analysed an [] G _ _ Ep ltac:(discriminate)) as (a & st & _ & _ & (_ & (c & s1 & X & _)) & _). discriminate. }
    destruct (add_inv (charge (looked s (c :: v))) (upper c :: v) p MAXRANK) as (s' & -> & I' & _);
      cbn [charge looked sword maxCost maxSuggestions found currentCost lookups]; auto; try lia.
    + apply Good; auto; try discriminate; [apply same_upper|]. intros CB _. eapply first_well_written; eauto.
    + split; [apply R2; discriminate|lia].
    + unfold MAXRANK. lia.
    + eauto.
  - destruct (an false v) as [|a l] eqn:Ea.
    + eexists. split; [reflexivity|]. repeat split; cbn; auto; try lia. rewrite app_length, LL. cbn. lia.
    + destruct (good_structure_of _ a G ltac:(left; auto)) as (st & Es & _). rewrite Es.
      pose proof (good_no_nul _ a st G ltac:(left; auto) Es) as N. destruct (recase_ok v st N) as (x & Rx & L & _). rewrite Rx. cbn [bind].
      destruct (add_inv (charge (looked (charge (looked s v)) v)) x p MAXRANK) as (s' & -> & I' & _);
        cbn [charge looked sword maxCost maxSuggestions found currentCost lookups]; auto; try lia.
      * rewrite app_length, LL. cbn. lia.
      * apply Good; auto; try discriminate.
        -- rewrite <- (map_length lower x), L, map_length. auto.
        -- intros CB NS. eapply (error_well_written an v p a st l x); eauto.
      * split; [apply R2; discriminate|lia].
      * unfold MAXRANK. lia.
      * eauto.
Qed.

Lemma try_inv : forall l s, Inv s -> (forall v, In v l -> E w0 v) -> exists s', try_all an l s = Ok s' /\ Inv s'.
Proof.
  induction l as [|v l IH]; intros s I H; cbn [try_all]; [eauto|].
  destruct (suggest_inv s v I (H v (or_introl eq_refl))) as (s1 & -> & I1). cbn [bind]. apply IH; auto. intros u Hu. apply H. right; auto.
Qed.
End Inv.
