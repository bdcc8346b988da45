(** * Proofs about the paragraph analysis. *)
From Verif Require Import Base BaseFacts CharModel TokenModel TokenSpec TokenProofs SpellerBase SentenceModel SentenceSpec SentenceProofs
  AnalysisModel AnalyzerBase GcCacheModel ParaModel GrammarSpec.

Lemma weq_iff : forall (a : analysis) k s, weq (a k) s = true <-> has a k s.
Proof. intros a k s. unfold weq, has. destruct (a k); [rewrite zlist_eqb_eq|]; split; congruence. Qed.
Lemma weq_false : forall (a : analysis) k s, weq (a k) s = false <-> ~ has a k s.
Proof. intros a k s. rewrite <- weq_iff. destruct (weq (a k) s); split; congruence. Qed.
Lemma absent_iff : forall v, absent v = true <-> v = None.
Proof. intros []; cbn; split; congruence. Qed.

(** Boolean readings of one analysis. *)
Definition lowb (a : analysis) : bool :=
  match a STRUCTURE with
  | Some s => match nth_error s 1 with Some c => (c =? 0x70) || (c =? 0x71) | None => false end
  | None => false
  end.
Definition geob (a : analysis) : bool := negb (lowb a) && weq (a CLASS) "paikannimi" && weq (a SIJAMUOTO) "omanto".
Definition conjb (word : list Z) (a : analysis) : bool :=
  weq (a CLASS) "sidesana" || (weq (a CLASS) "kieltosana" && match rev word with c :: _ => c =? 0xE4 | [] => false end).
Definition posb (a : analysis) : bool :=
  weq (a CLASS) "teonsana" && weq (a NEGATIVE) "false" &&
  negb ((absent (a MOOD) || weq (a MOOD) "conditional") && (absent (a PERSON) || weq (a PERSON) "3")).
Definition maybeb (a : analysis) : bool :=
  absent (a CLASS) ||
  (weq (a CLASS) "teonsana" && negb (weq (a MOOD) "A-infinitive") && negb (weq (a MOOD) "E-infinitive") &&
   negb (weq (a NEGATIVE) "true")).
Definition mainb (a : analysis) : bool := weq (a CLASS) "teonsana" && weq (a MOOD) "indicative".
Definition negb_ (a : analysis) : bool := weq (a CLASS) "kieltosana".

Lemma lowb_iff : forall a, lowb a = true <-> lower_initial a.
Proof.
  intros a. unfold lowb, lower_initial. destruct (a STRUCTURE) as [s|].
  - destruct (nth_error s 1) as [c|] eqn:E.
    + split; [intros H; exists s, c; repeat split; auto; lia|]. intros (s' & c' & A & B & C). injection A as <-.
      rewrite E in B. injection B as <-. lia.
    + split; [discriminate|]. intros (s' & c' & A & B & C). injection A as <-. congruence.
  - split; [discriminate|]. intros (s' & c' & A & B & C). discriminate.
Qed.
Lemma conjb_iff : forall w a, conjb w a = true <-> conjunction_in w a.
Proof.
  intros w a. unfold conjb, conjunction_in. rewrite orb_true_iff, andb_true_iff, !weq_iff.
  enough ((match rev w with c :: _ => c =? 0xE4 | [] => false end) = true <-> exists v, w = v ++ [0xE4]) as E by (rewrite E; tauto).
  split.
  - intros H. destruct (rev w) as [|c r] eqn:R; [discriminate|]. apply Z.eqb_eq in H. subst c.
    exists (rev r). rewrite <- (rev_involutive w), R. reflexivity.
  - intros [v ->]. rewrite rev_app_distr. reflexivity.
Qed.
Lemma posb_iff : forall a, posb a = true <-> positive_verb a.
Proof.
  intros a. unfold posb, positive_verb. rewrite !andb_true_iff, !weq_iff, negb_true_iff.
  rewrite <- not_true_iff_false, andb_true_iff, !orb_true_iff, !absent_iff, !weq_iff. tauto.
Qed.
Lemma maybeb_iff : forall a, maybeb a = true <-> maybe_main_verb a.
Proof.
  intros a. unfold maybeb, maybe_main_verb. rewrite orb_true_iff, !andb_true_iff, !negb_true_iff, absent_iff, weq_iff, !weq_false. tauto.
Qed.
Lemma mainb_iff : forall a, mainb a = true <-> indicative_verb a.
Proof. intros a. unfold mainb, indicative_verb. rewrite andb_true_iff, !weq_iff. tauto. Qed.
Lemma geob_iff : forall a, geob a = true <-> place_name_genitive a.
Proof.
  intros a. unfold geob, place_name_genitive. rewrite !andb_true_iff, negb_true_iff, !weq_iff, <- lowb_iff.
  destruct (lowb a); intuition congruence.
Qed.

(** One analysis. *)
Lemma case_step_ok : forall a t, a STRUCTURE <> None ->
  case_step a t = Ok (let t := if lowb a then t else set_firstLetterLcase t false in
                      if geob a then set_isGeographicalNameInGenitive t true else t).
Proof.
  intros a t N. unfold case_step, geob, lowb. destruct (a STRUCTURE) as [s|]; [|congruence].
  destruct (length s <? 2)%nat eqn:L.
  - cbn [bind]. destruct (nth_error s 1) eqn:E.
    + assert (1 < length s)%nat by (apply nth_error_Some; congruence). lia.
    + cbn. reflexivity.
  - destruct (nth_error s 1) as [c|] eqn:E.
    + apply rd_ok in E. rewrite E. cbn [bind].
      replace (negb (negb (c =? 0x70) && negb (c =? 0x71))) with ((c =? 0x70) || (c =? 0x71)) by lia.
      destruct ((c =? 0x70) || (c =? 0x71)); reflexivity.
    + apply nth_error_None in E. lia.
Qed.

Lemma conjunction_step_ok : forall a t, g_str t <> [] ->
  conjunction_step a t = Ok (if conjb (g_str t) a then set_possibleConjunction t true else set_isConjunction t false).
Proof.
  intros a t N. unfold conjunction_step, conjb. destruct (weq (a CLASS) "sidesana"); [reflexivity|].
  destruct (weq (a CLASS) "kieltosana"); [|reflexivity]. unfold tokenlen.
  assert (exists r c, g_str t = r ++ [c]) as (r & c & E) by (destruct (exists_last N) as (r & c & E); eauto).
  rewrite E, rev_app_distr, app_length. cbn [rev app length].
  replace (Nat.eqb (length r + 1) 0) with false by lia.
  replace (length r + 1 - 1)%nat with (length r) by lia.
  replace (rd (r ++ [c]) (length r)) with (Ok c); [reflexivity|]. symmetry. apply rd_ok.
  rewrite nth_error_app2, Nat.sub_diag by lia. reflexivity.
Qed.

Lemma weq_excl : forall v s s', weq v s = true -> wstr s <> wstr s' -> weq v s' = false.
Proof.
  intros [w|] s s'; cbn; [|discriminate]. rewrite zlist_eqb_eq. intros -> N.
  destruct (zlist_eqb (wstr s) (wstr s')) eqn:E; auto. apply zlist_eqb_eq in E. congruence.
Qed.
Lemma weq_present : forall v s, weq v s = true -> absent v = false.
Proof. intros [w|] s; cbn; congruence. Qed.

Definition keeps (t t' : gtoken) : Prop :=
  g_type t' = g_type t /\ g_str t' = g_str t /\ g_pos t' = g_pos t /\ possibleSentenceStart t' = possibleSentenceStart t.

Lemma weq_absent : forall v s, absent v = true -> weq v s = false.
Proof. intros [w|] s; cbn; congruence. Qed.

Lemma clear_positive : forall (b : bool) t, (if b then set_isPositiveVerb t false else t) = set_isPositiveVerb t (isPositiveVerb t && negb b).
Proof. intros [] []; cbn; rewrite ?andb_false_r, ?andb_true_r; reflexivity. Qed.
Lemma raise_possible : forall (b : bool) t, (if b then set_possibleMainVerb t true else t) = set_possibleMainVerb t (possibleMainVerb t || b).
Proof. intros [] []; cbn; rewrite ?orb_false_r, ?orb_true_r; reflexivity. Qed.
Lemma clear_main : forall (b : bool) t, (if b then set_isMainVerb t false else t) = set_isMainVerb t (isMainVerb t && negb b).
Proof. intros [] []; cbn; rewrite ?andb_false_r, ?andb_true_r; reflexivity. Qed.

Lemma verb_step_ok : forall a t, verb_step a t =
  set_isVerbNegative (set_isMainVerb (set_possibleMainVerb
    (set_isPositiveVerb t (isPositiveVerb t && posb a)) (possibleMainVerb t || maybeb a)) (isMainVerb t && mainb a))
    (isVerbNegative t && negb_ a).
Proof.
  intros a t. unfold verb_step, posb, maybeb, mainb, negb_.
  pose proof (fun s => weq_absent (a CLASS) s) as WC. pose proof (weq_excl (a CLASS) "kieltosana" "teonsana") as KT.
  pose proof (weq_absent (a MOOD) "A-infinitive") as M1. pose proof (weq_absent (a MOOD) "E-infinitive") as M2.
  pose proof (weq_absent (a MOOD) "indicative") as M3. pose proof (weq_absent (a NEGATIVE) "false") as N1.
  pose proof (weq_absent (a NEGATIVE) "true") as N2.
  pose proof (WC "kieltosana"%string) as C1. pose proof (WC "teonsana"%string) as C2. clear WC.
  assert (wstr "kieltosana" <> wstr "teonsana") as D by discriminate.
  generalize dependent (weq (a CLASS) "kieltosana"). intros k KT C1. generalize dependent (weq (a CLASS) "teonsana"). intros te C2 KT.
  specialize (fun H => KT H D). clear D.
  generalize dependent (absent (a CLASS)). intros ac C1 C2.
  generalize dependent (weq (a MOOD) "A-infinitive"). intros mA M1. generalize dependent (weq (a MOOD) "E-infinitive"). intros mE M2.
  generalize dependent (weq (a MOOD) "indicative"). intros mI M3. generalize dependent (weq (a MOOD) "conditional"). intros mC.
  generalize dependent (absent (a MOOD)). intros am M1 M2 M3.
  generalize dependent (weq (a NEGATIVE) "false"). intros nf N1. generalize dependent (weq (a NEGATIVE) "true"). intros nt N2.
  generalize dependent (absent (a NEGATIVE)). intros an N1 N2.
  generalize (absent (a PERSON)), (weq (a PERSON) "3"). intros ap p3.
  rewrite clear_positive, raise_possible, clear_main.
  destruct ac; [rewrite C1, C2 by reflexivity; destruct t; cbn; rewrite !andb_false_r, !orb_true_r; reflexivity|].
  destruct k; [rewrite KT by reflexivity; destruct t; cbn; rewrite ?andb_false_r, ?orb_false_r, ?andb_true_r; reflexivity|].
  destruct te; [|destruct t; cbn; rewrite ?andb_false_r, ?orb_false_r; reflexivity].
  assert (negb (an || negb nf || (am || mC) && (ap || p3)) = true && nf && negb ((am || mC) && (ap || p3))) as ->.
  { destruct an; [rewrite N1 by reflexivity|]; destruct nf, ((am || mC) && (ap || p3)); reflexivity. }
  assert ((am || negb mA && negb mE) && (an || negb nt) = false || true && negb mA && negb mE && negb nt) as ->.
  { destruct am; [rewrite M1, M2 by reflexivity|]; (destruct an; [rewrite N2 by reflexivity|]); destruct mA, mE, nt; reflexivity. }
  assert (negb (am || negb mI) = true && mI) as -> by (destruct am; [rewrite M3 by reflexivity|]; destruct mI; reflexivity).
  destruct t. cbn. rewrite ?andb_false_r. reflexivity.
Qed.

(** The loop: flags that all analyses must confirm, and flags that one suffices for. *)
Lemma analyses_loop_ok : forall l first isset t, g_str t <> [] -> (forall a, In a l -> a STRUCTURE <> None) ->
  exists t', analyses_loop l first isset t = Ok t' /\ keeps t t' /\
    isValidWord t' = isValidWord t || negb (Nat.eqb (length l) 0) /\
    firstLetterLcase t' = firstLetterLcase t && forallb lowb l /\
    isGeographicalNameInGenitive t' = isGeographicalNameInGenitive t || existsb geob l /\
    possibleGeographicalName t' = possibleGeographicalName t || existsb (fun a => weq (a POSSIBLE_GEOGRAPHICAL_NAME) "true") l /\
    possibleMainVerb t' = possibleMainVerb t || existsb maybeb l /\
    isMainVerb t' = isMainVerb t && forallb mainb l /\
    isVerbNegative t' = isVerbNegative t && forallb negb_ l /\
    isPositiveVerb t' = isPositiveVerb t && forallb posb l /\
    isConjunction t' = isConjunction t && forallb (conjb (g_str t)) l /\
    possibleConjunction t' = possibleConjunction t || existsb (conjb (g_str t)) l.
Proof.
  induction l as [|a l IH]; intros first isset t N S.
  - exists t. split; [reflexivity|]. split; [repeat split|]. cbn.
    rewrite !orb_false_r, !andb_true_r. repeat split.
  - cbn [analyses_loop].
    rewrite case_step_ok by (apply S; left; auto). cbn [bind].
    set (t1 := if geob a then _ else _).
    assert (g_str t1 = g_str t) as E1 by (subst t1; destruct (lowb a), (geob a); reflexivity).
    rewrite conjunction_step_ok by (rewrite E1; auto). cbn [bind]. rewrite E1.
    set (t2 := if conjb (g_str t) a then _ else _).
    match goal with |- context [follower_step a isset ?x] => set (t3 := x) end.
    destruct (follower_step a isset t3) as [b t4] eqn:F.
    assert (t3 = t4 \/ exists f, t4 = set_verbFollowerType t3 f) as F4.
    { revert F. unfold follower_step. repeat match goal with |- context [if ?b then _ else _] => destruct b end;
      intros F; injection F as <- <-; eauto. }
    destruct (IH false b t4) as (t' & E & K & R).
    { destruct F4 as [<-|[f ->]]; subst t3 t2 t1; unfold required_step, verb_step;
      repeat match goal with |- context [if ?b then _ else _] => destruct b end; auto. }
    { intros; apply S; right; auto. }
    exists t'. split; [exact E|].
    assert (keeps t t4 /\ isValidWord t4 = true /\
            firstLetterLcase t4 = firstLetterLcase t && lowb a /\
            isGeographicalNameInGenitive t4 = isGeographicalNameInGenitive t || geob a /\
            possibleGeographicalName t4 = possibleGeographicalName t || weq (a POSSIBLE_GEOGRAPHICAL_NAME) "true" /\
            possibleMainVerb t4 = possibleMainVerb t || maybeb a /\
            isMainVerb t4 = isMainVerb t && mainb a /\
            isVerbNegative t4 = isVerbNegative t && negb_ a /\
            isPositiveVerb t4 = isPositiveVerb t && posb a /\
            isConjunction t4 = isConjunction t && conjb (g_str t) a /\
            possibleConjunction t4 = possibleConjunction t || conjb (g_str t) a) as (K4 & A1 & A2 & A3 & A4 & A5 & A6 & A7 & A8 & A9 & A10).
    { clear IH E K R S N. subst t3. rewrite verb_step_ok in *.
      assert (forall x, exists f, required_step first a x = set_requireFollowingVerb x f) as RQ.
      { intros x. unfold required_step. cbv zeta. destruct (fv_eqb (infinitive (a REQUIRE_FOLLOWING_VERB)) FOLLOWING_VERB_NONE || first); [eauto|].
        destruct (fv_eqb (requireFollowingVerb x) (infinitive (a REQUIRE_FOLLOWING_VERB))); cbn [negb]; [|eauto].
        exists (requireFollowingVerb x). destruct x; reflexivity. }
      match goal with F4 : required_step first a ?x = t4 \/ _ |- _ => destruct (RQ x) as [f Q]; rewrite Q in F4; clear Q RQ end.
      destruct F4 as [<-|[f' ->]]; subst t2 t1; destruct t as [x1 x2 x3 x4 x5 x6 x7 x8 x9 xa xb xc xd xe xf xg]; unfold keeps;
      cbn [g_str] in *; destruct (weq (a POSSIBLE_GEOGRAPHICAL_NAME) "true"), (conjb x2 a), (lowb a), (geob a); cbn;
      repeat rewrite ?andb_false_r, ?andb_true_r, ?orb_true_r, ?orb_false_r; repeat split. }
    destruct R as (B1 & B2 & B3 & B4 & B5 & B6 & B7 & B8 & B9 & B10).
    destruct K4 as (X1 & X2 & X3 & X4). destruct K as (Y1 & Y2 & Y3 & Y4). rewrite X2 in *.
    split; [unfold keeps; repeat split; congruence|].
    rewrite B1, B2, B3, B4, B5, B6, B7, B8, B9, B10, A1, A2, A3, A4, A5, A6, A7, A8, A9, A10. cbn [length Nat.eqb forallb existsb negb].
    rewrite !orb_true_r, !andb_assoc, !orb_assoc. repeat split.
Qed.

(** ** Following verbs *)
Definition req (first : bool) (a : analysis) (f : FollowingVerbType) : FollowingVerbType :=
  let r := infinitive (a REQUIRE_FOLLOWING_VERB) in
  if fv_eqb r FOLLOWING_VERB_NONE || first then r else if negb (fv_eqb f r) then FOLLOWING_VERB_NONE else f.
Definition agentb (a : analysis) : bool := weq (a PARTICIPLE) "agent" && weq (a SIJAMUOTO) "vajanto".
Definition fol (a : analysis) (isset : bool) (f : FollowingVerbType) : bool * FollowingVerbType :=
  let r := infinitive (a MOOD) in
  if negb (fv_eqb r FOLLOWING_VERB_NONE) then
    if negb isset then (true, r) else if negb (fv_eqb f r) then (isset, FOLLOWING_VERB_NONE) else (isset, f)
  else if agentb a then (isset, FOLLOWING_VERB_NONE) else (isset, f).

Lemma loop_cons : forall a l first isset t t', analyses_loop (a :: l) first isset t = Ok t' ->
  exists t4 isset', analyses_loop l false isset' t4 = Ok t' /\
    requireFollowingVerb t4 = req first a (requireFollowingVerb t) /\
    (isset', verbFollowerType t4) = fol a isset (verbFollowerType t).
Proof.
  intros a l first isset t t' H. cbn [analyses_loop] in H.
  apply bind_ok in H. destruct H as (t1 & C & H).
  apply bind_ok in H. destruct H as (t2 & D & H).
  assert (requireFollowingVerb t1 = requireFollowingVerb t /\ verbFollowerType t1 = verbFollowerType t) as (R1 & V1).
  { unfold case_step in C. destruct (a STRUCTURE); [|discriminate]. apply bind_ok in C. destruct C as (b & _ & C).
    destruct b; [injection C as <-; auto|]. injection C as <-. destruct (weq (a CLASS) _ && _); auto. }
  assert (requireFollowingVerb t2 = requireFollowingVerb t1 /\ verbFollowerType t2 = verbFollowerType t1) as (R2 & V2).
  { unfold conjunction_step in D. apply bind_ok in D. destruct D as (b & _ & D). injection D as <-. destruct b; auto. }
  cbv zeta in H. rewrite verb_step_ok in H.
  match type of H with context [required_step first a ?x] => set (t3 := x) in * end.
  assert (requireFollowingVerb t3 = requireFollowingVerb t /\ verbFollowerType t3 = verbFollowerType t) as (R3 & V3).
  { subst t3. destruct (weq (a POSSIBLE_GEOGRAPHICAL_NAME) _); cbn; split; congruence. }
  clearbody t3. clear - H R3 V3.
  destruct (follower_step a isset (required_step first a t3)) as [b t4] eqn:F.
  exists t4, b. split; [exact H|]. rewrite <- R3, <- V3. clear H R3 V3.
  unfold follower_step, agentb, fol, req in *. unfold agentb. fold (agentb a) in *.
  assert (exists f, required_step first a t3 = set_requireFollowingVerb t3 f /\ f = req first a (requireFollowingVerb t3)) as (f & E & Ef).
  { unfold required_step, req. cbv zeta. destruct (fv_eqb _ FOLLOWING_VERB_NONE || first); [eauto|].
    destruct (fv_eqb (requireFollowingVerb t3) (infinitive (a REQUIRE_FOLLOWING_VERB))); cbn [negb]; [|eauto].
    eexists. split; [|reflexivity]. destruct t3; reflexivity. }
  rewrite E in F. change (req first a (requireFollowingVerb t3)) with (req first a (requireFollowingVerb t3)) in Ef.
  unfold req in Ef. rewrite <- Ef. clear Ef E.
  unfold agentb in *. cbv zeta in *.
  destruct (negb (fv_eqb (infinitive (a MOOD)) FOLLOWING_VERB_NONE)).
  - destruct (negb isset); [injection F as <- <-; auto|]. cbn [verbFollowerType set_requireFollowingVerb] in F.
    destruct (negb (fv_eqb (verbFollowerType t3) _)); injection F as <- <-; auto.
  - destruct (_ && _); injection F as <- <-; auto.
Qed.

Lemma fv_eqb_eq : forall a b, fv_eqb a b = true <-> a = b.
Proof. intros [] []; cbn; split; congruence. Qed.

Lemma loop_required : forall l isset t t', analyses_loop l false isset t = Ok t' ->
  requireFollowingVerb t' =
  if forallb (fun a => fv_eqb (infinitive (a REQUIRE_FOLLOWING_VERB)) (requireFollowingVerb t)) l then requireFollowingVerb t
  else FOLLOWING_VERB_NONE.
Proof.
  induction l as [|a l IH]; intros isset t t' H; [injection H as <-; reflexivity|].
  apply loop_cons in H. destruct H as (t4 & i' & H & R & _). apply IH in H. rewrite H, R. clear. cbn [forallb]. unfold req.
  destruct (infinitive (a REQUIRE_FOLLOWING_VERB)), (requireFollowingVerb t); cbn; auto; match goal with |- context [forallb ?g l] => destruct (forallb g l) end; reflexivity.
Qed.

Lemma infinitive_iff : forall (a : analysis) k f, f <> FOLLOWING_VERB_NONE ->
  (infinitive (a k) = f <-> exists s, infinitive_name f = Some s /\ has a k s).
Proof.
  intros a k f N. unfold infinitive.
  pose proof (weq_iff a k "A-infinitive") as W1. pose proof (weq_iff a k "MA-infinitive") as W2.
  pose proof (weq_excl (a k) "A-infinitive" "MA-infinitive") as X.
  assert (wstr "A-infinitive" <> wstr "MA-infinitive") as D by discriminate. specialize (fun H => X H D). clear D.
  destruct f; [congruence| |]; cbn [infinitive_name].
  - split.
    + intros H. exists "A-infinitive"%string. split; auto. apply W1. destruct (weq (a k) "A-infinitive"); auto.
      destruct (weq (a k) "MA-infinitive"); discriminate.
    + intros (s & [= <-] & H). apply W1 in H. rewrite H. auto.
  - split.
    + intros H. exists "MA-infinitive"%string. split; auto. apply W2. destruct (weq (a k) "A-infinitive"); [discriminate|].
      destruct (weq (a k) "MA-infinitive"); auto; discriminate.
    + intros (s & [= <-] & H). apply W2 in H. destruct (weq (a k) "A-infinitive"); [rewrite X in H by auto; discriminate|]. rewrite H. auto.
Qed.

Lemma not_infinitive : forall a, infinitive (a MOOD) = FOLLOWING_VERB_NONE <-> forall g, ~ is_infinitive g a.
Proof.
  intros a. split.
  - intros H g (s & G & P). assert (g <> FOLLOWING_VERB_NONE) as N by (intros ->; discriminate).
    apply N. rewrite <- H. symmetry. apply infinitive_iff; eauto.
  - intros H. destruct (infinitive (a MOOD)) eqn:E; auto; exfalso;
    (eapply H; apply (infinitive_iff a MOOD) in E; [exact E|discriminate]).
Qed.

(** [verbFollowerType] once it is set. *)
Lemma loop_follower_set : forall l first t t' f, f <> FOLLOWING_VERB_NONE -> analyses_loop l first true t = Ok t' ->
  (verbFollowerType t' = f <-> verbFollowerType t = f /\
     Forall (fun b => is_infinitive f b \/ ((forall g, ~ is_infinitive g b) /\ ~ agent_abessive b)) l).
Proof.
  induction l as [|a l IH]; intros first t t' f N H; [injection H as <-; intuition|].
  apply loop_cons in H. destruct H as (t4 & i' & H & _ & V).
  assert (agentb a = true <-> agent_abessive a) as AG by (unfold agentb, agent_abessive; rewrite andb_true_iff, !weq_iff; tauto).
  assert (i' = true) as ->.
  { unfold fol in V. cbn [negb] in V. destruct (negb _); [destruct (negb _)|destruct (agentb a)]; injection V as -> _; auto. }
  rewrite (IH _ _ _ _ N H). rewrite Forall_cons_iff.
  enough (verbFollowerType t4 = f <-> verbFollowerType t = f /\ (is_infinitive f a \/ (forall g, ~ is_infinitive g a) /\ ~ agent_abessive a)) as -> by tauto.
  rewrite <- (not_infinitive a), <- AG. unfold is_infinitive. rewrite <- (infinitive_iff a MOOD f N).
  unfold fol in V. cbn [negb] in V. clear - V N.
  destruct (infinitive (a MOOD)), (verbFollowerType t), (agentb a), f; cbn in V; injection V as ->; intuition congruence.
Qed.

Lemma loop_follower : forall l first t t' f, f <> FOLLOWING_VERB_NONE -> verbFollowerType t = FOLLOWING_VERB_NONE ->
  analyses_loop l first false t = Ok t' ->
  (verbFollowerType t' = f <->
   exists l1 a l2, l = l1 ++ a :: l2 /\ is_infinitive f a /\ Forall (fun b => forall g, ~ is_infinitive g b) l1 /\
     Forall (fun b => is_infinitive f b \/ ((forall g, ~ is_infinitive g b) /\ ~ agent_abessive b)) l2).
Proof.
  induction l as [|a l IH]; intros first t t' f N T H.
  { injection H as <-. rewrite T. split; [congruence|]. intros ([|] & ? & ? & X & _); discriminate. }
  apply loop_cons in H. destruct H as (t4 & i' & H & _ & V). unfold fol in V. cbn [negb] in V.
  destruct (fv_eqb (infinitive (a MOOD)) FOLLOWING_VERB_NONE) eqn:Q; cbn [negb] in V.
  - apply fv_eqb_eq in Q. assert (i' = false /\ verbFollowerType t4 = FOLLOWING_VERB_NONE) as (-> & T4) by (destruct (agentb a); injection V as -> ->; auto).
    rewrite (IH _ _ _ _ N T4 H). pose proof (proj1 (not_infinitive a) Q) as QN. split.
    + intros (l1 & b & l2 & -> & P). exists (a :: l1), b, l2. split; [reflexivity|]. rewrite Forall_cons_iff. tauto.
    + intros (l1 & b & l2 & E & P & F1 & F2). destruct l1 as [|c l1]; injection E as <- ->; [elim (QN _ P)|].
      inversion F1; subst. exists l1, b, l2. auto.
  - injection V as -> V. rewrite (loop_follower_set _ _ _ _ _ N H). rewrite V.
    split.
    + intros (E & F). exists [], a, l. split; [reflexivity|]. split; [apply (infinitive_iff a MOOD); auto|]. split; [constructor|auto].
    + intros (l1 & b & l2 & E & P & F1 & F2). destruct l1 as [|c l1]; injection E as <- ->.
      * split; auto. apply (infinitive_iff a MOOD); auto.
      * inversion F1; subst. exfalso. rewrite (proj2 (not_infinitive a)) in Q by auto. discriminate.
Qed.

(** ** One token *)
Lemma Exists_existsb : forall {A} (f : A -> bool) (P : A -> Prop), (forall a, f a = true <-> P a) -> forall l, existsb f l = true <-> Exists P l.
Proof. intros A f P H l. rewrite existsb_exists, Exists_exists. split; intros (x & I & X); exists x; split; auto; apply H; auto. Qed.
Lemma Forall_forallb_iff : forall {A} (f : A -> bool) (P : A -> Prop), (forall a, f a = true <-> P a) -> forall l, forallb f l = true <-> Forall P l.
Proof. intros A f P H l. rewrite forallb_forall, Forall_forall. split; intros X a I; apply H; auto. Qed.

Lemma analyseToken_ok : forall an ty str pos, structured an -> str <> [] ->
  exists t, analyseToken an ty str pos = Ok t /\ g_type t = ty /\ g_str t = str /\ g_pos t = pos /\ possibleSentenceStart t = false /\
    (ty = TOKEN_WORD -> word_flags (readings an str) t) /\
    (ty <> TOKEN_WORD -> isConjunction t = false /\ isVerbNegative t = false /\ isValidWord t = false /\ possibleMainVerb t = false /\
       possibleConjunction t = false /\ requireFollowingVerb t = FOLLOWING_VERB_NONE).
Proof.
  intros an ty str pos S N. unfold analyseToken.
  destruct ty; try (eexists; split; [reflexivity|]; repeat split; auto; congruence).
  change (strip_special str) with (cstr (filter (fun c => negb (c =? 0xAD)) str)). fold (readings an str).
  match goal with |- context [analyses_loop _ true false ?x] => set (t0 := x) end.
  destruct (analyses_loop_ok (readings an str) true false t0) as (t & E & (K1 & K2 & K3 & K4) & B1 & B2 & B3 & B4 & B5 & B6 & B7 & B8 & B9 & B10).
  { exact N. } { intros a I. eapply S; eauto. }
  rewrite E. cbn [bind]. subst t0. cbn in K1, K2, K3, K4, B1, B2, B3, B4, B5, B6, B7, B8, B9, B10.
  set (t0 := set_firstLetterLcase _ true) in E.
  set (l := readings an str) in *. clearbody l.
  destruct l as [|a l].
  - cbn in B1. rewrite B1. cbn [negb]. eexists. split; [reflexivity|]. cbn in E. injection E as <-.
    split; [reflexivity|]. split; [reflexivity|]. split; [reflexivity|]. split; [reflexivity|]. split; [|congruence]. intros _.
    unfold word_flags. cbn [isValidWord firstLetterLcase isGeographicalNameInGenitive possibleGeographicalName possibleMainVerb isMainVerb
      isVerbNegative isPositiveVerb isConjunction possibleConjunction requireFollowingVerb verbFollowerType
      set_isVerbNegative set_isMainVerb set_isConjunction set_isPositiveVerb set_isValidWord t0 set_firstLetterLcase].
    assert (forall P : analysis -> Prop, Exists P [] <-> False) as EX by (intros P; split; [intros X; inversion X|tauto]).
    rewrite !EX. repeat (split; [intuition congruence|]). split; [split; [constructor|auto]|].
    do 8 (split; [intuition congruence|]).
    split; [intuition congruence|]. intros f F. split; [congruence|]. intros ([|] & ? & ? & X & _); discriminate.
  - cbn [length Nat.eqb negb] in B1. rewrite B1. cbn [negb]. eexists. split; [reflexivity|].
    split; [auto|]. split; [auto|]. split; [auto|]. split; [auto|]. split; [|congruence]. intros _.
    unfold word_flags. cbv zeta. rewrite B1, B2, B3, B4, B5, B6, B7, B8, B9, B10, K2.
    rewrite (Exists_existsb _ _ geob_iff), (Exists_existsb _ _ maybeb_iff), (Exists_existsb _ _ (conjb_iff str)).
    rewrite (Forall_forallb_iff _ _ lowb_iff), (Forall_forallb_iff _ _ mainb_iff), (Forall_forallb_iff _ _ posb_iff), (Forall_forallb_iff _ _ (conjb_iff str)).
    rewrite (Forall_forallb_iff negb_ negative_word (fun a => weq_iff a CLASS "kieltosana")).
    rewrite (Exists_existsb _ _ (fun a => weq_iff a POSSIBLE_GEOGRAPHICAL_NAME "true")).
    assert (forall P : Prop, P <-> a :: l <> [] /\ P) as AL by (intros P; split; [split; [discriminate|auto]|tauto]).
    split; [split; [discriminate|auto]|].
    split; [apply iff_refl|]. split; [apply iff_refl|]. split; [apply iff_refl|]. split; [apply iff_refl|].
    split; [apply AL|]. split; [apply AL|]. split; [apply AL|]. split; [apply AL|]. split; [apply iff_refl|]. split.
    + intros f F. rewrite <- AL. apply loop_cons in E. destruct E as (t4 & i & E & R & _). apply loop_required in E.
      unfold req in R. rewrite orb_true_r in R. rewrite R in E. rewrite E. rewrite Forall_cons_iff. unfold requires at 1.
      rewrite <- (infinitive_iff a REQUIRE_FOLLOWING_VERB f F).
      rewrite <- (Forall_forallb_iff (fun b => fv_eqb (infinitive (b REQUIRE_FOLLOWING_VERB)) f) (requires f)).
      2:{ intros b. rewrite fv_eqb_eq. apply (infinitive_iff b REQUIRE_FOLLOWING_VERB f F). }
      split.
      * intros X. match type of X with (if ?b then _ else _) = _ => destruct b eqn:Q end; [|congruence]. split; [auto|]. rewrite X in Q. auto.
      * intros (-> & Q). rewrite Q. auto.
    + intros f F. exact (loop_follower _ true t0 t f F eq_refl E).
Qed.
