(** * Properties of the back ends on the weighted transducer (C55-C58). *)
From Coq Require Import Sorted Permutation.
From Verif Require Import Base BaseFacts CharModel CharProofs CacheModel AnalysisModel HyphModel SpellerBase SuggestModel SuggestSpec SuggestOut FstModel FstFileModel FstSpec
  WfstModel WfstSpec WfstProps WfstProofs FstLookup WfstLookup VfstModel VfstSpec VfstProofs VfstSuggestProofs.

(** ** C55: the speller *)

(** The answer for a word is a function of the word: a speller never fails, and
    it gives the same answer after any other words as when it was new. *)
Theorem C55_speller_history : forall W, good_weighted W -> exists answer : list Z -> spellresult,
  forall c word, speller_used W c -> exists c', vfst_spell W c word = Ok (answer word, c') /\ speller_used W c'.
Proof.
  intros W G. exists (verdict W). intros c word U. destruct (spell_spec W c word G (speller_used_wused W c G U)) as (c' & E & _).
  exists c'. split; [exact E|]. econstructor; [exact U|exact E].
Qed.

(** Words called correct are accepted by the transducer as they are, words that
    need a capital letter start with a small letter and are accepted with the
    capital one.  No other mistake in letter case is reported. *)
Theorem C55_speller_sound : forall W c word r c', good_weighted W -> speller_used W c -> vfst_spell W c word = Ok (r, c') ->
  match r with
  | SPELL_OK => accepted W word
  | SPELL_CAP_FIRST => exists first rest, word = first :: rest /\ isLower first = true /\ accepted W (upper first :: rest)
  | SPELL_CAP_ERROR => False
  | SPELL_FAILED => True
  end.
Proof.
  intros W c word r c' G U E. destruct (spell_spec W c word G (speller_used_wused W c G U)) as (c2 & E2 & _).
  rewrite E in E2. injection E2 as -> _. unfold verdict. destruct (finds W word) eqn:F; [now apply finds_sound|].
  destruct word as [|first rest]; [exact I|]. destruct (isLower first) eqn:L; cbn [andb]; [|exact I].
  destruct (finds W (upper first :: rest)) eqn:F2; [|exact I]. exists first, rest. split; [reflexivity|]. split; [exact L|]. now apply finds_sound.
Qed.

Lemma verdict_cases : forall W word, (finds W word = true /\ verdict W word = SPELL_OK) \/ (finds W word = false /\
  ((exists first rest, word = first :: rest /\ isLower first = true /\ finds W (upper first :: rest) = true /\ verdict W word = SPELL_CAP_FIRST) \/
   ((forall first rest, word = first :: rest -> isLower first = true -> finds W (upper first :: rest) = false) /\ verdict W word = SPELL_FAILED))).
Proof.
  intros W word. unfold verdict. destruct (finds W word); [left; auto|]. right. split; [reflexivity|]. destruct word as [|first rest]; [right; split; [discriminate|reflexivity]|].
  destruct (isLower first && finds W (upper first :: rest)) eqn:F; [left|right].
  - apply andb_true_iff in F. destruct F. exists first, rest. auto.
  - split; [|reflexivity]. intros f r X LO. injection X as <- <-. rewrite LO, andb_true_l in F. exact F.
Qed.

Lemma length_other : forall (a b : Z) l n, (length (a :: l) <= n)%nat -> (length (b :: l) <= n)%nat.
Proof. intros a b l n H. exact H. Qed.

(** For words of at most 255 characters, in a table in the order of the
    compiler, without two flags in one state: the answer is right unless the
    transducer stops at a limit. *)
Theorem C55_speller_exact_partial : forall W c word r c',
  good_weighted W -> in_file_order W -> one_flag W -> speller_used W c -> (length word <= 255)%nat ->
  ~ gives_up W word -> (forall first rest, word = first :: rest -> ~ gives_up W (upper first :: rest)) ->
  vfst_spell W c word = Ok (r, c') -> right_answer W word r.
Proof.
  intros W c word r c' G O1 O2 U L N1 N2 E. destruct (spell_spec W c word G (speller_used_wused W c G U)) as (c2 & E2 & _).
  rewrite E in E2. apply ok_pair in E2. destruct E2 as [-> _]. clear E c'.
  assert (NO : forall w, (length w <= MAX_WORD)%nat -> ~ gives_up W w -> finds W w = false -> ~ accepted W w).
  { intros w LW NW F AC. pose proof (finds_complete W w G O1 O2 LW NW AC) as X. rewrite F in X. discriminate. }
  destruct (verdict_cases W word) as [[F ->]|[F [(first & rest & X & LO & F2 & ->)|[F2 ->]]]].
  - apply right_ok. now apply finds_sound.
  - subst word. apply right_capital; [now apply NO|exact LO|]. now apply finds_sound.
  - apply right_failed; [now apply NO|]. intros first rest X LO. specialize (F2 first rest X LO).
    apply NO; [|exact (N2 first rest X)|exact F2]. subst word. exact (length_other first (upper first) rest _ L).
Qed.

(** "Ab" and "ba". *)
Definition vdict : wtransducer := mk_wfst
  [wcell' 1 1 2 0 1; wcell' 3 3 3 0 0; wcell' 3 3 4 0 0; wcell' 2 2 4 0 0; wfinal 5 0]
  [(65, 1); (97, 2); (98, 3)] [[]; wstr "A"; wstr "a"; wstr "b"] [] 0 1.

Example vdict_good : good_weighted vdict /\ in_file_order vdict /\ one_flag vdict.
Proof.
  split; [apply (good_weightedb_good vdict [0; 2; 3; 4]%nat); vm_compute; reflexivity|].
  split; [apply orderedb_ordered; vm_compute; reflexivity|apply one_flagb_one; vm_compute; reflexivity].
Qed.

Definition spells (W : wtransducer) (word : list Z) : option spellresult :=
  match vfst_spell W (new_wconfiguration (w_featureCount W) BUFFER_SIZE) word with Ok (r, _) => Some r | _ => None end.

Example C55_vdict : spells vdict (wstr "Ab") = Some SPELL_OK /\ spells vdict (wstr "ab") = Some SPELL_CAP_FIRST /\
  spells vdict (wstr "ba") = Some SPELL_OK /\ spells vdict (wstr "Ba") = Some SPELL_FAILED /\ spells vdict (wstr "a") = Some SPELL_FAILED /\
  spells vdict [] = Some SPELL_FAILED.
Proof. repeat split; vm_compute; reflexivity. Qed.

(** A test for [gives_up], for the examples. *)
Definition limitb (o : woutcome) : bool := match o with WTooLong | WTooDeep | WLoopLimit => true | _ => false end.
Lemma limit_limitb : forall o, limit o -> limitb o = true.
Proof. intros o [-> | [-> | ->]]; reflexivity. Qed.

Definition givesb (W : wtransducer) (word : list Z) : bool :=
  match wprepare W (new_wconfiguration (w_featureCount W) BUFFER_SIZE) word with
  | Ok (true, c) => match wnext W c BUFFER_SIZE with Ok (o, _, _) => limitb o | _ => false end
  | _ => false
  end.

Lemma givesb_gives : forall W word, givesb W word = false -> ~ gives_up W word.
Proof.
  intros W word H (c & o & c' & n & P & N & L). unfold givesb in H. rewrite P, N in H. rewrite (limit_limitb o L) in H. discriminate H.
Qed.

(** The hypotheses of the exact theorem hold of "ab", and its conclusion says
    that "Ab" is a word. *)
Example C55_exact_ab : right_answer vdict (wstr "ab") SPELL_CAP_FIRST.
Proof.
  destruct vdict_good as (G & O1 & O2).
  assert (E : exists c', vfst_spell vdict (new_wconfiguration 0 BUFFER_SIZE) (wstr "ab") = Ok (SPELL_CAP_FIRST, c')) by (eexists; vm_compute; reflexivity).
  destruct E as [c' E]. eapply C55_speller_exact_partial; [exact G|exact O1|exact O2|apply speller_new|vm_compute; lia| | |exact E].
  - apply givesb_gives. vm_compute. reflexivity.
  - intros first rest X. injection X as <- <-. apply givesb_gives. vm_compute. reflexivity.
Qed.

(** An accepted word that is called wrong, because a flag that is not satisfied
    is in the same state before one that is.  Neither the length nor another
    limit has to do with it. *)
Theorem C55_speller_refuted : exists W word c', good_weighted W /\ in_file_order W /\ accepted W word /\ ~ gives_up W word /\
  vfst_spell W (new_wconfiguration (w_featureCount W) BUFFER_SIZE) word = Ok (SPELL_FAILED, c').
Proof.
  assert (E : exists c', vfst_spell wtwo (new_wconfiguration 1 BUFFER_SIZE) (wstr "a") = Ok (SPELL_FAILED, c')) by (eexists; vm_compute; reflexivity).
  destruct E as [c' E]. exists wtwo, (wstr "a"), c'.
  split; [apply (good_weightedb_good wtwo [0; 1; 3]%nat); vm_compute; reflexivity|].
  split; [apply orderedb_ordered; vm_compute; reflexivity|]. split; [|split; [apply givesb_gives; vm_compute; reflexivity|exact E]].
  exists [0; 2; 3]%nat, (wstr "A+"). unfold waccepts, accepts.
  change (wstr "A+") with (wstr "A+" ++ [] ++ @nil Z).
  eapply path_read with (t := mk_cell 3 5 1 0).
  - exists 0%nat, false. repeat split; try reflexivity; try (cbn; lia); discriminate.
  - cbn. unfold FINAL. lia.
  - reflexivity.
  - reflexivity.
  - eapply path_flag with (t := mk_cell 2 0 3 0) (o := mk_ofv Operation_P 0 3).
    + exists 2%nat, false. repeat split; try reflexivity; try (cbn; lia); discriminate.
    + cbn. lia.
    + reflexivity.
    + eapply flag_P; reflexivity.
    + reflexivity.
    + eapply path_final with (t := mk_cell FINAL 0 0 0); [|reflexivity]. exists 3%nat, false. repeat split; try reflexivity; try (cbn; lia); discriminate.
Qed.

(** A limit can also be the reason: here "a" is accepted, but an epsilon
    transition back to the first state is tried before it. *)
Definition vloop : wtransducer := mk_wfst [wcell' 0 0 0 0 1; wcell' 1 1 2 0 0; wfinal 0 0] [(97, 1)] [[]; wstr "a"] [] 0 1.
Example C55_limit : givesb vloop (wstr "a") = true /\ spells vloop (wstr "a") = Some SPELL_FAILED.
Proof. split; vm_compute; reflexivity. Qed.

(** ** C56: the analyser *)

(** The analyses of a word are a function of the word: the analyser never fails,
    and it gives the same list after any other words as when it was new. *)
Theorem C56_analyzer_history : forall W prob, good_weighted W -> exists answer : bool -> list Z -> list analysis,
  forall c word full, analyzer_used W prob c -> exists c', vfst_analyze W prob c word full = Ok (answer full word, c') /\ analyzer_used W prob c'.
Proof.
  intros W prob G.
  exists (fun full word => match vfst_analyze W prob (new_wconfiguration (w_featureCount W) BUFFER_SIZE) word full with Ok (l, _) => l | _ => [] end).
  intros c word full U. destruct (analyze_spec W prob c word full G (analyzer_used_wused W prob c G U)) as (l & c' & E & _ & [d' D] & _).
  rewrite D. exists c'. split; [exact E|]. econstructor; [exact U|exact E].
Qed.

Lemma analysis_of_path : forall W prob full p out, path_analysis W prob full p out
  (add (if full then add no_attributes FSTOUTPUT out else no_attributes) WEIGHT (prob (to_int16 (path_weight W p)))).
Proof.
  intros W prob full p out. unfold path_analysis, add, no_attributes. destruct full.
  - split; [reflexivity|]. split; [reflexivity|]. intros k K1 K2. destruct k; try reflexivity; congruence.
  - split; [reflexivity|]. split; [reflexivity|]. intros k K1 K2. destruct k; try reflexivity; congruence.
Qed.

Lemma before_all : forall W word paths p out, good_weighted W -> (forall q o, In (q, o) paths -> waccepts W word q o) -> waccepts W word p out ->
  (forall q o p' o', In (q, o) paths -> waccepts W word p' o' -> before p' q -> In (p', o') paths) ->
  In p (map fst paths) \/ Forall (fun q => before q p) (map fst paths).
Proof.
  intros W word paths p out G S A D.
  assert (X : forall q o, In (q, o) paths -> In p (map fst paths) \/ before q p).
  { intros q o I. destruct (path_total (forget W) (proj2 (proj1 G)) _ _ _ _ _ _ (S q o I) _ _ _ _ _ A) as [->|[B|B]].
    - left. apply in_map_iff. exists (p, o). auto.
    - right. exact B.
    - left. apply in_map_iff. exists (p, out). split; [reflexivity|]. eapply D; eauto. }
  assert (Y : forall l, incl l paths -> In p (map fst paths) \/ Forall (fun q => before q p) (map fst l)).
  { induction l as [|[q o] l IH]; intros I; [right; constructor|]. destruct IH as [IH|IH]; [intros z Z; apply I; now right|now left|].
    destruct (X q o (I _ (or_introl eq_refl))) as [X1|X1]; [now left|]. right. constructor; assumption. }
  apply Y, incl_refl.
Qed.

(** The list of analyses for a word, with the paths they are from. *)
Lemma analyze_paths : forall W prob c word full l c', good_weighted W -> analyzer_used W prob c ->
  vfst_analyze W prob c word full = Ok (l, c') ->
  (length l <= 99)%nat /\
  exists paths : list (list nat * list Z), StronglySorted before (map fst paths) /\
    (forall p out, In (p, out) paths -> waccepts W (voikko_set_case CT_ALL_LOWER word) p out) /\
    Forall2 (fun '(p, out) a => path_analysis W prob full p out a) paths l /\
    (in_file_order W -> one_flag W -> (length word <= 255)%nat -> ~ stops_early W word ->
     forall p out, waccepts W (voikko_set_case CT_ALL_LOWER word) p out -> In p (map fst paths) \/ (length l = 99%nat /\ Forall (fun q => before q p) (map fst paths))).
Proof.
  intros W prob c word full l c' G U E. pose proof (analyzer_used_wused W prob c G U) as WU.
  destruct (analyze_spec W prob c word full G WU) as (l2 & c2 & E2 & _ & _ & H). rewrite E in E2. apply ok_pair in E2. destruct E2 as [-> ->]. cbn zeta in H.
  destruct H as [[-> H]|(c1 & results & e & L & P & K & N1 & N2 & ->)].
  { split; [cbn; lia|]. exists []. split; [constructor|]. split; [intros p out []|]. split; [constructor|].
    intros _ _ LW _ p out A. exfalso. destruct H as [H|H]; [unfold MAX_WORD in H; lia|]. apply H. apply (accepted_known W _ (proj1 (proj2 G))). exists p, out. exact A. }
  pose proof buffer_word as BW. assert (LL : (length (voikko_set_case CT_ALL_LOWER word) <= BUFFER_SIZE)%nat) by (rewrite set_case_length; lia).
  assert (LR : (length results <= 99)%nat) by (destruct e; [specialize (N2 ltac:(discriminate)); cbn in N2; lia|specialize (N1 eq_refl); cbn in N1; lia]).
  rewrite map_length. split; [exact LR|].
  destruct (wlookup_paths _ _ _ _ _ _ _ _ _ _ G buffer_two WU LL buffer_pos P K) as (KN & M & M1 & M2 & M3 & M4). rewrite (proj1 KN eq_refl) in *.
  exists M. split; [exact M2|]. split; [exact M3|]. split.
  { rewrite <- M1. clear. induction M as [|[p out] M IH]; cbn [map]; constructor; [apply analysis_of_path|exact IH]. }
  intros O1 O2 _ NS p out A. destruct (M4 (conj O1 O2)) as [D1 D2].
  destruct e as [o|].
  - left. assert (o = WEnd) as ->.
    { destruct (C38_weighted_history W _ c _ true c1 BUFFER_SIZE results (Some o) c2 G buffer_two WU LL buffer_pos P K) as (d3 & d4 & X1 & X2).
      assert (NF : forall out w, o <> WFound out w).
      { clear - K. remember (Some o) as e eqn:X. induction K; try discriminate; [auto|]. injection X as ->. assumption. }
      destruct o as [o w| | | |]; [destruct (NF o w eq_refl)|reflexivity| | |];
        exfalso; apply NS; (do 4 eexists; split; [exact X1|split; [exact X2|unfold limit; tauto]]). }
    apply in_map_iff. exists (p, out). split; [reflexivity|]. apply D2; [reflexivity|exact A].
  - destruct (before_all W _ M p out G M3 A D1) as [B|B]; [now left|]. right. split; [|exact B]. specialize (N1 eq_refl). cbn in N1. exact N1.
Qed.

(** There are at most 99 analyses.  They are those of different accepting paths
    for the word in small letters, in the order of the table. *)
Theorem C56_analyzer_sound : forall W prob c word full l c', good_weighted W -> analyzer_used W prob c ->
  vfst_analyze W prob c word full = Ok (l, c') ->
  (length l <= 99)%nat /\
  exists paths : list (list nat * list Z), StronglySorted before (map fst paths) /\
    (forall p out, In (p, out) paths -> waccepts W (voikko_set_case CT_ALL_LOWER word) p out) /\
    Forall2 (fun '(p, out) a => path_analysis W prob full p out a) paths l.
Proof.
  intros W prob c word full l c' G U E. destruct (analyze_paths W prob c word full l c' G U E) as (L & paths & A & B & C & _). eauto.
Qed.

(** No accepting path is left out, for words of at most 255 characters that do
    not lead the transducer to a limit, in a table in the order of the compiler
    without two flags in one state.  The exception is a word with more than 99
    paths: then the analyses are those of the first 99. *)
Theorem C56_analyzer_complete_partial : forall W prob c word full l c',
  good_weighted W -> in_file_order W -> one_flag W -> analyzer_used W prob c -> (length word <= 255)%nat -> ~ stops_early W word ->
  vfst_analyze W prob c word full = Ok (l, c') ->
  exists paths : list (list nat * list Z), Forall2 (fun '(p, out) a => path_analysis W prob full p out a) paths l /\
    forall p out, waccepts W (voikko_set_case CT_ALL_LOWER word) p out ->
      In p (map fst paths) \/ (length l = 99%nat /\ Forall (fun q => before q p) (map fst paths)).
Proof.
  intros W prob c word full l c' G O1 O2 U L NS E. destruct (analyze_paths W prob c word full l c' G U E) as (_ & paths & A & B & C & D). eauto.
Qed.

(** "a" with two analyses, also for "A". *)
Definition vtwo : wtransducer := mk_wfst [wcell' 1 1 2 7 1; wcell' 1 2 2 3 0; wfinal 1 0] [(97, 1)] [[]; wstr "x"; wstr "y"] [] 0 1.
Definition shown_analyses (W : wtransducer) (full : bool) (word : list Z) : option (list (option (list Z) * option (list Z))) :=
  match vfst_analyze W (fun w => [w]) (new_wconfiguration (w_featureCount W) BUFFER_SIZE) word full with
  | Ok (l, _) => Some (map (fun a => (a FSTOUTPUT, a WEIGHT)) l)
  | _ => None
  end.
Example C56_vtwo : good_weighted vtwo /\ in_file_order vtwo /\ one_flag vtwo /\
  shown_analyses vtwo true (wstr "A") = Some [(Some (wstr "x"), Some [8]); (Some (wstr "y"), Some [4])] /\
  shown_analyses vtwo false (wstr "a") = Some [(None, Some [8]); (None, Some [4])].
Proof.
  split; [apply (good_weightedb_good vtwo [0; 2]%nat); vm_compute; reflexivity|].
  split; [apply orderedb_ordered; vm_compute; reflexivity|]. split; [apply one_flagb_one; vm_compute; reflexivity|]. split; vm_compute; reflexivity.
Qed.

Definition vhundred : wtransducer := mk_wfst
  (wcell' 1 1 100 0 99 :: map (fun i => wcell' 1 (Z.of_nat i) 100 0 0) (seq 2 99) ++ [wfinal 0 0])
  [(97, 1)] ([] :: map (fun i => [1000 + Z.of_nat i]) (seq 1 100)) [] 0 1.

(** A word with 100 accepting paths has only 99 analyses: here the text that the
    last path writes is in none of them. *)
Theorem C56_analyzer_refuted : exists W prob word p out l c',
  good_weighted W /\ in_file_order W /\ one_flag W /\ waccepts W (voikko_set_case CT_ALL_LOWER word) p out /\
  vfst_analyze W prob (new_wconfiguration (w_featureCount W) BUFFER_SIZE) word true = Ok (l, c') /\
  forall a, In a l -> a FSTOUTPUT <> Some out.
Proof.
  assert (E : exists l c', vfst_analyze vhundred (fun w => [w]) (new_wconfiguration 0 BUFFER_SIZE) (wstr "a") true = Ok (l, c')) by (eexists; eexists; vm_compute; reflexivity).
  assert (S : match vfst_analyze vhundred (fun w => [w]) (new_wconfiguration 0 BUFFER_SIZE) (wstr "a") true with
    | Ok (l, _) => forallb (fun a => match a FSTOUTPUT with Some o => negb (zlist_eqb o [1100]) | None => true end) l | _ => false end = true) by (vm_compute; reflexivity).
  destruct E as (l & c' & E). rewrite E in S. exists vhundred, (fun w => [w]), (wstr "a"), [99; 100]%nat, [1100], l, c'.
  split; [apply (good_weightedb_good vhundred [0; 100]%nat); vm_compute; reflexivity|].
  split; [apply orderedb_ordered; vm_compute; reflexivity|]. split; [apply one_flagb_one; vm_compute; reflexivity|].
  split; [|split; [exact E|]].
  - replace (voikko_set_case CT_ALL_LOWER (wstr "a")) with (wstr "a") by (vm_compute; reflexivity). unfold waccepts, accepts.
    change [1100] with ([1100] ++ @nil Z). eapply path_read with (t := mk_cell 1 100 100 0).
    + exists 99%nat, false. repeat split; try reflexivity; try (cbn; lia); discriminate.
    + cbn. unfold FINAL. lia.
    + reflexivity.
    + reflexivity.
    + eapply path_final with (t := mk_cell FINAL 0 0 0); [|reflexivity]. exists 100%nat, false. repeat split; try reflexivity; try (cbn; lia); discriminate.
  - rewrite forallb_forall in S. intros a I X. specialize (S a I). cbn beta in S. rewrite X, zlist_eqb_refl in S. discriminate S.
Qed.

(** ** C57: suggestions *)
Lemma suggester_ready : forall queue E A ce ca, good_weighted E -> plain_error_model E -> good_weighted A -> suggester_used queue E A ce ca -> ready E A ce ca.
Proof.
  intros queue E A ce ca GE PE GA. induction 1 as [|ce ca fuel s s' ce' ca' U IH L G]; [apply new_ready; assumption|].
  rewrite generate_weights in G. apply bind_ok in G. destruct G as ([[o ws] [x y]] & G & H).
  pose proof (weights_spec E A GE PE GA fuel ce ca (sword s) (shouldAbort (setMaxCost s 100)) IH L) as S. rewrite G in S. destruct S as (R & _).
  apply bind_ok in H. destruct H as (s2 & _ & H). apply ok_pair in H. destruct H as [_ H]. injection H as -> ->. exact R.
Qed.

Lemma sound_range : forall E A word ws u w, sound_weights E A word ws -> In (u, w) ws -> -65536 <= w <= 65536.
Proof.
  intros E A word ws u w [_ S] I. destruct (S u w I) as (p & q & out & _ & _ & -> & _).
  pose proof (int16_range (path_weight A q)). pose proof (int16_range (path_weight E p)). lia.
Qed.

Lemma new_abort : forall word max, shouldAbort (setMaxCost (new_status word max) 100) = Nat.eqb 0 max.
Proof. intros word max. unfold shouldAbort, setMaxCost, new_status. cbn [SuggestModel.found maxSuggestions length]. destruct (Nat.eqb 0 max); reflexivity. Qed.

(** One call, as the table of weights and what is made of it. *)
Lemma generate_spec : forall queue E A, good_weighted E -> plain_error_model E -> good_weighted A -> (forall l, Permutation (queue l) l) ->
  forall fuel ce ca word max, ready E A ce ca -> (length word <= BUFFER_SIZE)%nat -> Z.of_nat max <= 30000 ->
  match weights_of E A fuel ce ca word (Nat.eqb 0 max) with
  | Ok (o, ws, cs) => exists s', vfst_generate fuel queue E A ce ca (new_status word max) = Ok (s', cs) /\ SuggestModel.found s' = priced 0 (firstn max (queue ws))
  | UB => False
  | Fuel => (fuel < digits E ^ BUFFER_SIZE)%nat /\ vfst_generate fuel queue E A ce ca (new_status word max) = Fuel
  end.
Proof.
  intros queue E A GE PE GA Q fuel ce ca word max R L M. rewrite generate_weights. rewrite new_abort.
  pose proof (weights_spec E A GE PE GA fuel ce ca word (Nat.eqb 0 max) R L) as S. cbn [new_status sword].
  destruct (weights_of E A fuel ce ca word (Nat.eqb 0 max)) as [[[o ws] [x y]]| |]; cbn [bind].
  - destruct S as (_ & S & _). rewrite add_suggestions_spec; cbn [setMaxCost new_status maxSuggestions SuggestModel.found length].
    + cbn [bind]. eexists. split; [reflexivity|]. cbn [SuggestModel.found app]. rewrite Nat.sub_0_r. reflexivity.
    + exact M.
    + lia.
    + intros u w I. apply (Permutation_in _ (Q ws)) in I. eapply sound_range; eassumption.
  - exact S.
  - auto.
Qed.

Lemma weights_more : forall E A fuel ce ca word stop r, weights_of E A fuel ce ca word stop = Ok r -> forall fuel', (fuel <= fuel')%nat ->
  weights_of E A fuel' ce ca word stop = Ok r.
Proof.
  intros E A fuel ce ca word stop r H fuel' L. unfold weights_of in *. apply bind_ok in H. destruct H as ([kn c] & P & H). rewrite P. cbn [bind].
  destruct (kn && negb stop); [|exact H]. eapply loop_more; eassumption.
Qed.

(** For a plain error model and any dictionary: the search for suggestions ends,
    nothing goes wrong in it, and what it finds is a function of the word and the
    number of suggestions, whatever words were corrected before. *)
Theorem C57_suggest_total : forall queue E A, priority_queue queue -> good_weighted E -> plain_error_model E -> good_weighted A ->
  exists suggest : list Z -> nat -> list (list Z * Z),
  forall ce ca word max, suggester_used queue E A ce ca -> (length word <= 2000)%nat -> Z.of_nat max <= 30000 ->
  exists fuel0, forall fuel, (fuel0 <= fuel)%nat -> exists s' ce' ca',
    vfst_generate fuel queue E A ce ca (new_status word max) = Ok (s', (ce', ca')) /\ SuggestModel.found s' = suggest word max /\
    suggester_used queue E A ce' ca'.
Proof.
  intros queue E A Q GE PE GA. assert (Q' : forall l, Permutation (queue l) l) by (intros l; apply Q).
  assert (HF : exists F, F = (digits E ^ BUFFER_SIZE)%nat) by eauto. destruct HF as [F HF].
  exists (fun word max => match weights_of E A F (new_wconfiguration (w_featureCount E) BUFFER_SIZE) (new_wconfiguration (w_featureCount A) BUFFER_SIZE) word (Nat.eqb 0 max) with
    | Ok (_, ws, _) => priced 0 (firstn max (queue ws)) | _ => [] end).
  intros ce ca word max U L M. change 2000%nat with BUFFER_SIZE in L. exists F. intros fuel LF.
  pose proof (suggester_ready queue E A ce ca GE PE GA U) as R. pose proof (new_ready E A GE) as RN.
  pose proof (weights_spec E A GE PE GA F ce ca word (Nat.eqb 0 max) R L) as S. rewrite <- HF in S.
  destruct (weights_of E A F ce ca word (Nat.eqb 0 max)) as [[[o ws] [ce' ca']]| |] eqn:W; [|contradiction|lia].
  destruct S as (R' & _ & S & _). destruct (S _ _ RN) as [ds WN]. rewrite WN.
  pose proof (generate_spec queue E A GE PE GA Q' fuel ce ca word max R L M) as G. rewrite (weights_more _ _ _ _ _ _ _ _ W fuel LF) in G.
  destruct G as (s' & G1 & G2). exists s', ce', ca'. split; [exact G1|]. split; [exact G2|].
  eapply suggester_word; [exact U| |exact G1]. exact L.
Qed.

Lemma NoDup_firstn : forall (X : Type) (l : list X) n, NoDup l -> NoDup (firstn n l).
Proof.
  induction l as [|a l IH]; intros n H; [rewrite firstn_nil; constructor|]. inversion H; subst. destruct n as [|n]; cbn [firstn]; [constructor|].
  constructor; [|now apply IH]. intros I. apply H2. rewrite <- (firstn_skipn n l). apply in_or_app. now left.
Qed.

Lemma firstn_in : forall (X : Type) (l : list X) n x, In x (firstn n l) -> In x l.
Proof. intros X l n x I. rewrite <- (firstn_skipn n l). apply in_or_app. now left. Qed.

(** Every suggestion is something the error model writes for the word, and is
    accepted by the dictionary.  None is given twice, and there are not more
    than asked for. *)
Theorem C57_suggest_sound : forall queue E A fuel ce ca word max s' cs, priority_queue queue -> good_weighted E -> plain_error_model E -> good_weighted A ->
  suggester_used queue E A ce ca -> (length word <= 2000)%nat -> Z.of_nat max <= 30000 ->
  vfst_generate fuel queue E A ce ca (new_status word max) = Ok (s', cs) ->
  NoDup (map fst (SuggestModel.found s')) /\ (length (SuggestModel.found s') <= max)%nat /\
  forall u x, In (u, x) (SuggestModel.found s') -> (exists p, waccepts E word p u) /\ accepted A u.
Proof.
  intros queue E A fuel ce ca word max s' cs Q GE PE GA U L M G. change 2000%nat with BUFFER_SIZE in L.
  assert (Q' : forall l, Permutation (queue l) l) by (intros l; apply Q). pose proof (suggester_ready queue E A ce ca GE PE GA U) as R.
  pose proof (generate_spec queue E A GE PE GA Q' fuel ce ca word max R L M) as H.
  pose proof (weights_spec E A GE PE GA fuel ce ca word (Nat.eqb 0 max) R L) as S.
  destruct (weights_of E A fuel ce ca word (Nat.eqb 0 max)) as [[[o ws] [x y]]| |]; [|contradiction|destruct H as [_ H]; rewrite G in H; discriminate H].
  destruct H as (s2 & H1 & H2). rewrite G in H1. apply ok_pair in H1. destruct H1 as [-> _]. rewrite H2. destruct S as (_ & [S1 S2] & _).
  assert (F : forall l i, map fst (priced i l) = map fst l) by (induction l as [|[u w] l IH]; intros i; cbn; [reflexivity|now rewrite IH]).
  rewrite F, priced_length. split; [|split].
  - rewrite <- firstn_map. apply NoDup_firstn. eapply Permutation_NoDup; [|exact S1]. apply Permutation_map, Permutation_sym, Q'.
  - rewrite firstn_length. lia.
  - intros u x' I. apply (in_map fst) in I. rewrite F in I. cbn [fst] in I. rewrite <- firstn_map in I. apply firstn_in in I.
    apply in_map_iff in I. destruct I as ([v w] & X & I). cbn [fst] in X. subst v. apply (Permutation_in _ (Q' ws)) in I.
    destruct (S2 u w I) as (p & q & out & A1 & A2 & _). split; [eauto|]. exists q, out. exact A2.
Qed.

(** Without limits, in tables in the order of the compiler and with at most one
    flag in a state of the dictionary: the suggestions are the best corrections,
    as many as asked for, the best first.  Each is recorded with its weight times
    its place plus five. *)
Theorem C57_suggest_exact_partial : forall queue E A fuel ce ca word max s' cs, priority_queue queue ->
  good_weighted E -> plain_error_model E -> in_file_order E -> good_weighted A -> in_file_order A -> one_flag A ->
  suggester_used queue E A ce ca -> (length word <= 2000)%nat -> 0 < Z.of_nat max <= 30000 ->
  (forall p u, waccepts E word p u -> ~ gives_up A u) -> ~ error_model_stops E A word ->
  vfst_generate fuel queue E A ce ca (new_status word max) = Ok (s', cs) ->
  exists all : list (list Z * Z), NoDup (map fst all) /\ (forall u w, In (u, w) all <-> correction E A word u w) /\
    StronglySorted by_weight all /\ SuggestModel.found s' = priced 0 (firstn max all).
Proof.
  intros queue E A fuel ce ca word max s' cs Q GE PE OE GA OA FA U L M NG NS G. change 2000%nat with BUFFER_SIZE in L.
  assert (Q' : forall l, Permutation (queue l) l) by (intros l; apply Q). pose proof (suggester_ready queue E A ce ca GE PE GA U) as R.
  pose proof (generate_spec queue E A GE PE GA Q' fuel ce ca word max R L ltac:(lia)) as H.
  pose proof (weights_spec E A GE PE GA fuel ce ca word (Nat.eqb 0 max) R L) as S.
  destruct (weights_of E A fuel ce ca word (Nat.eqb 0 max)) as [[[o ws] [x y]]| |] eqn:W; [|contradiction|destruct H as [_ H]; rewrite G in H; discriminate H].
  destruct H as (s2 & H1 & H2). rewrite G in H1. apply ok_pair in H1. destruct H1 as [-> _]. destruct S as (_ & S & SN & S3). destruct S as [S1 S2].
  assert (EX : exact_search E A word) by (split; [exact OE|split; [exact OA|split; [exact FA|exact NG]]]).
  assert (NM : Nat.eqb 0 max = false) by (apply Nat.eqb_neq; lia).
  assert (o = WEnd) as ->.
  { destruct (SN _ _ (new_ready E A GE)) as [ds WN]. rewrite NM in *. clear SN S3 W. unfold weights_of in WN. cbn [negb] in WN. apply bind_ok in WN.
    destruct WN as ([kn c] & P & WN). rewrite andb_true_r in WN. destruct kn; [|apply ok_triple in WN; symmetry; apply WN].
    assert (NF : forall u w, o <> WFound u w).
    { intros u w ->. exact (loop_not_found _ _ _ _ _ _ _ _ _ _ WN). }
    destruct o as [u w| | | |]; [destruct (NF u w eq_refl)|reflexivity| | |]; exfalso; apply NS; exists fuel, c;
      (do 3 eexists; split; [exact P|split; [exact WN|unfold limit; tauto]]). }
  specialize (S3 NM EX eq_refl).
  assert (MIN : forall u x, In (u, x) ws -> forall wa p, first_weight A u wa -> waccepts E word p u -> x <= wa + to_int16 (path_weight E p)).
  { intros u v I wa p FW AC. destruct (S2 u v I) as (p1 & q1 & out1 & A1 & A2 & A3 & A4).
    destruct (S3 p u AC) as (wa' & x' & B1 & B2 & B3); [exists q1, out1; exact A2|].
    assert (x' = v). { clear - S1 I B2. induction ws as [|[k z] ws IH]; [destruct I|]. cbn [map fst] in S1. inversion S1; subst.
      destruct I as [I|I], B2 as [B|B].
      - congruence.
      - injection I as -> ->. destruct H1. apply in_map_iff. now exists (u, x').
      - injection B as -> ->. destruct H1. apply in_map_iff. now exists (u, v).
      - auto. }
    subst x'. rewrite (first_weight_fun A u wa wa' (proj2 (proj1 GA)) FW B1). exact B3. }
  exists (queue ws). split; [|split; [|split; [apply Q|exact H2]]].
  - eapply Permutation_NoDup; [|exact S1]. apply Permutation_map, Permutation_sym, Q'.
  - intros u w. split.
    + intros I. apply (Permutation_in _ (Q' ws)) in I. destruct (S2 u w I) as (p & q & out & A1 & A2 & -> & A4).
      exists p, (to_int16 (path_weight A q)). split; [exact A1|]. split; [exact (A4 EX)|]. split; [reflexivity|].
      intros p' A'. specialize (MIN _ _ I _ p' (A4 EX) A'). lia.
    + intros (p & wa & A1 & A2 & -> & A4). apply (Permutation_in _ (Permutation_sym (Q' ws))).
      destruct A2 as (q & out & A2 & A5 & A6). destruct (S3 p u A1) as (wa' & v & B1 & B2 & B3); [exists q, out; exact A2|].
      assert (wa = wa') by (eapply first_weight_fun; [exact (proj2 (proj1 GA))| |exact B1]; exists q, out; auto). subst wa'.
      destruct (S2 u v B2) as (p1 & q1 & out1 & C1 & C2 & C3 & C4). specialize (C4 EX). rewrite (first_weight_fun A u _ wa (proj2 (proj1 GA)) C4 B1) in C3.
      specialize (A4 p1 C1). replace (wa + to_int16 (path_weight E p)) with v by lia. exact B2.
Qed.

(** ** Examples for the suggestions *)

(** A queue: insertion by weight. *)
Fixpoint queue_insert (x : list Z * Z) (l : list (list Z * Z)) : list (list Z * Z) :=
  match l with [] => [x] | y :: r => if snd x <=? snd y then x :: l else y :: queue_insert x r end.
Definition a_queue (l : list (list Z * Z)) : list (list Z * Z) := fold_right queue_insert [] l.

Lemma a_queue_sorts : priority_queue a_queue.
Proof.
  assert (P : forall l x, Permutation (queue_insert x l) (x :: l)).
  { induction l as [|y l IH]; intros x; cbn [queue_insert]; [apply Permutation_refl|]. destruct (snd x <=? snd y); [apply Permutation_refl|].
    eapply Permutation_trans; [apply perm_skip, IH|apply perm_swap]. }
  intros l. induction l as [|x l [IH1 IH2]]; [split; constructor|]. cbn [a_queue fold_right]. fold (a_queue l). split.
  - eapply Permutation_trans; [apply P|apply perm_skip, IH1].
  - revert IH2. generalize (a_queue l). clear - P. induction l as [|y l IH]; intros S; cbn [queue_insert]; [repeat constructor|].
    inversion S as [|a b S1 S2]; subst. destruct (snd x <=? snd y) eqn:C.
    + apply Z.leb_le in C. constructor; [exact S|]. constructor; [exact C|]. eapply Forall_impl; [|exact S2]. intros z Z. unfold by_weight in *. lia.
    + apply Z.leb_gt in C. constructor; [now apply IH|]. apply (Permutation_Forall (Permutation_sym (P l x))). constructor; [unfold by_weight; lia|exact S2].
Qed.

(** An error model that exchanges "a" and "b", at a cost of 10, and a dictionary
    of the words "ab" and "bb". *)
Definition verr : wtransducer := mk_wfst
  [wfinal 0 4; wcell' 1 1 0 0 0; wcell' 1 2 0 10 0; wcell' 2 1 0 10 0; wcell' 2 2 0 0 0]
  [(97, 1); (98, 2)] [[]; wstr "a"; wstr "b"] [] 0 1.
Definition vwords : wtransducer := mk_wfst
  [wcell' 1 1 2 0 1; wcell' 2 2 3 1 0; wcell' 2 2 4 0 0; wcell' 2 2 4 0 0; wfinal 1 0]
  [(97, 1); (98, 2)] [[]; wstr "a"; wstr "b"] [] 0 1.

Definition plainb (E : wtransducer) : bool :=
  (w_firstNormalChar E =? 1) && forallb (fun s => negb (zlist_eqb s [])) (skipn 1 (w_symbolToString E)) &&
  forallb (fun c => (0 <=? w_symOut c) && (w_symOut c <? 65536)) (wtransitions E).
Lemma plainb_plain : forall E, plainb E = true -> plain_error_model E.
Proof.
  intros E H. unfold plainb in H. rewrite !andb_true_iff in H. destruct H as ((H1 & H2) & H3). split; [lia|]. rewrite forallb_forall in *. split.
  - intros i s I N ->. assert (In [] (skipn 1 (w_symbolToString E))).
    { destruct i as [|i]; [lia|]. apply nth_error_In with i. rewrite nth_error_skipn. exact N. }
    specialize (H2 _ H). discriminate H2.
  - apply Forall_forall. intros c I. specialize (H3 c I). lia.
Qed.

Example C57_good : good_weighted verr /\ plain_error_model verr /\ in_file_order verr /\ good_weighted vwords /\ in_file_order vwords /\ one_flag vwords.
Proof.
  split; [apply (good_weightedb_good verr [0]%nat); vm_compute; reflexivity|]. split; [apply plainb_plain; vm_compute; reflexivity|].
  split; [apply orderedb_ordered; vm_compute; reflexivity|].
  split; [apply (good_weightedb_good vwords [0; 2; 3; 4]%nat); vm_compute; reflexivity|].
  split; [apply orderedb_ordered; vm_compute; reflexivity|apply one_flagb_one; vm_compute; reflexivity].
Qed.

Definition suggestions (fuel : nat) (E A : wtransducer) (word : list Z) (max : nat) : res (list (list Z * Z)) :=
  '(s, _) <- vfst_generate fuel a_queue E A (new_wconfiguration (w_featureCount E) BUFFER_SIZE) (new_wconfiguration (w_featureCount A) BUFFER_SIZE) (new_status word max) ;;
  Ok (SuggestModel.found s).

Example C57_aa : suggestions 20 verr vwords (wstr "aa") 5 = Ok [(wstr "ab", 11 * 5); (wstr "bb", 22 * 6)] /\
  suggestions 20 verr vwords (wstr "aa") 1 = Ok [(wstr "ab", 11 * 5)] /\ suggestions 20 verr vwords (wstr "b") 5 = Ok [].
Proof. repeat split; vm_compute; reflexivity. Qed.

Lemma ends_not_stops : forall fuel E A word c ws cs, wprepare E (new_wconfiguration (w_featureCount E) BUFFER_SIZE) word = Ok (true, c) ->
  candidates_loop fuel E A c (new_wconfiguration (w_featureCount A) BUFFER_SIZE) [] = Ok (WEnd, ws, cs) -> ~ error_model_stops E A word.
Proof.
  intros fuel E A word c ws cs P L (fuel' & c' & o & ws' & cs' & P' & L' & LI). rewrite P in P'. apply ok_pair in P'. destruct P' as [_ <-].
  apply (loop_more _ _ _ _ _ _ _) with (fuel' := (fuel + fuel')%nat) in L; [|lia]. apply (loop_more _ _ _ _ _ _ _) with (fuel' := (fuel + fuel')%nat) in L'; [|lia].
  rewrite L in L'. apply ok_triple in L'. destruct L' as (<- & _). destruct LI as [LI | [LI | LI]]; discriminate LI.
Qed.

(** All hypotheses of the exact theorem hold for "aa", so that these are all
    corrections. *)
Example C57_exact_aa : forall u w, correction verr vwords (wstr "aa") u w <-> (u = wstr "ab" /\ w = 11) \/ (u = wstr "bb" /\ w = 22).
Proof.
  destruct C57_good as (G1 & G2 & G3 & G4 & G5 & G6).
  assert (OUT : forall p u, waccepts verr (wstr "aa") p u -> ~ gives_up vwords u).
  { assert (K : exists c1 c2, wprepare verr (new_wconfiguration 0 20) (wstr "aa") = Ok (true, c1) /\
      wlookup verr 20 c1 [(wstr "aa", 0); (wstr "ab", 10); (wstr "ba", 10); (wstr "bb", 20)] (Some WEnd) c2).
    { eexists. eexists. split; [vm_compute; reflexivity|]. apply (wcollect_lookup 5). vm_compute. reflexivity. }
    destruct K as (c1 & c2 & K1 & K2).
    assert (FE : one_flag verr) by (apply one_flagb_one; vm_compute; reflexivity).
    destruct (C37_weighted_partial verr 20 _ (wstr "aa") c1 20 _ c2 G1 G3 FE ltac:(lia) (wused_new _ _) ltac:(cbn; lia) ltac:(lia) K1 K2) as (paths & P1 & _ & P2).
    intros p u A. apply P2 in A. apply (in_map snd) in A. rewrite P1 in A. cbn [map fst snd In] in A. apply givesb_gives.
    destruct A as [<-|[<-|[<-|[<-|[]]]]]; vm_compute; reflexivity. }
  assert (NS : ~ error_model_stops verr vwords (wstr "aa")).
  { assert (K : exists c ws cs, wprepare verr (new_wconfiguration 0 BUFFER_SIZE) (wstr "aa") = Ok (true, c) /\
      candidates_loop 20 verr vwords c (new_wconfiguration 0 BUFFER_SIZE) [] = Ok (WEnd, ws, cs)) by (do 3 eexists; split; [vm_compute; reflexivity|]; vm_compute; reflexivity).
    destruct K as (c & ws & cs & K1 & K2). exact (ends_not_stops 20 verr vwords (wstr "aa") c ws cs K1 K2). }
  assert (K : exists s' cs, vfst_generate 20 a_queue verr vwords (new_wconfiguration 0 BUFFER_SIZE) (new_wconfiguration 0 BUFFER_SIZE) (new_status (wstr "aa") 5) = Ok (s', cs) /\
    SuggestModel.found s' = [(wstr "ab", 55); (wstr "bb", 132)]) by (do 2 eexists; split; [vm_compute; reflexivity|]; vm_compute; reflexivity).
  destruct K as (s' & cs & K1 & K2).
  destruct (C57_suggest_exact_partial a_queue verr vwords 20 _ _ (wstr "aa") 5 s' cs a_queue_sorts G1 G2 G3 G4 G5 G6 (suggester_new _ _ _) ltac:(cbn; lia) ltac:(lia) OUT NS K1)
    as (all & _ & A2 & _ & A4).
  assert (X : all = [(wstr "ab", 11); (wstr "bb", 22)]).
  { rewrite K2 in A4. destruct all as [|[u1 w1] [|[u2 w2] [|[u3 w3] all]]]; cbn [firstn priced] in A4; try discriminate A4.
    injection A4 as <- W1 <- W2. repeat f_equal; lia. }
  intros u w. rewrite <- A2, X. cbn [In]. split.
  - intros [H|[H|[]]]; injection H as <- <-; auto.
  - intros [[-> ->]|[-> ->]]; auto.
Qed.

(** *** Error models with flags

    Going back over a flag, [backtrackToOutputDepth] leaves the level of the
    flags as it is. *)
Definition vflags : wtransducer := mk_wfst
  [wcell' 3 4 2 0 1; wcell' 3 5 3 0 0; wcell' 1 0 4 0 0; wcell' 2 0 4 0 0; wfinal 0 0]
  [(97, 3); (120, 4); (121, 5)] [[]; []; []; wstr "a"; wstr "x"; wstr "y"]
  [mk_ofv Operation_P 0 0; mk_ofv Operation_P 0 2; mk_ofv Operation_R 0 2] 1 3.
Definition vy : wtransducer := mk_wfst [wcell' 2 2 1 0 0; wfinal 0 0] [(120, 1); (121, 2)] [[]; wstr "x"; wstr "y"] [] 0 1.

(** With flags in the error model a suggestion can be wrong: the flag set on the
    way to "x", which is not in the dictionary, is still set when "y" is tried,
    and "y" is suggested although the error model does not write it. *)
Theorem C57_suggest_sound_refuted : exists queue E A fuel word max s' cs u x, priority_queue queue /\ good_weighted E /\ in_file_order E /\ one_flag E /\
  good_weighted A /\ in_file_order A /\ one_flag A /\
  vfst_generate fuel queue E A (new_wconfiguration (w_featureCount E) BUFFER_SIZE) (new_wconfiguration (w_featureCount A) BUFFER_SIZE) (new_status word max) = Ok (s', cs) /\
  In (u, x) (SuggestModel.found s') /\ forall p, ~ waccepts E word p u.
Proof.
  assert (K : exists s' cs, vfst_generate 20 a_queue vflags vy (new_wconfiguration 1 BUFFER_SIZE) (new_wconfiguration 0 BUFFER_SIZE) (new_status (wstr "a") 5) = Ok (s', cs) /\
    In (wstr "y", 0) (SuggestModel.found s')) by (do 2 eexists; split; [vm_compute; reflexivity|]; vm_compute; left; reflexivity).
  destruct K as (s' & cs & K1 & K2). exists a_queue, vflags, vy, 20%nat, (wstr "a"), 5%nat, s', cs, (wstr "y"), 0.
  assert (G1 : good_weighted vflags) by (apply (good_weightedb_good vflags [0; 2; 3; 4]%nat); vm_compute; reflexivity).
  assert (G2 : in_file_order vflags) by (apply orderedb_ordered; vm_compute; reflexivity).
  assert (G3 : one_flag vflags) by (apply one_flagb_one; vm_compute; reflexivity).
  split; [exact a_queue_sorts|]. split; [exact G1|]. split; [exact G2|]. split; [exact G3|].
  split; [apply (good_weightedb_good vy [0; 1]%nat); vm_compute; reflexivity|].
  split; [apply orderedb_ordered; vm_compute; reflexivity|]. split; [apply one_flagb_one; vm_compute; reflexivity|].
  split; [exact K1|]. split; [exact K2|].
  assert (L : exists c1 c2, wprepare vflags (new_wconfiguration 1 20) (wstr "a") = Ok (true, c1) /\ wlookup vflags 20 c1 [(wstr "x", 0)] (Some WEnd) c2).
  { eexists. eexists. split; [vm_compute; reflexivity|]. apply (wcollect_lookup 5). vm_compute. reflexivity. }
  destruct L as (c1 & c2 & L1 & L2).
  destruct (C37_weighted_partial vflags 20 _ (wstr "a") c1 20 _ c2 G1 G2 G3 ltac:(lia) (wused_new _ _) ltac:(cbn; lia) ltac:(lia) L1 L2) as (paths & P1 & _ & P2).
  intros p A. apply P2 in A. apply (in_map snd) in A. rewrite P1 in A. cbn [map fst snd In] in A. destruct A as [A|[]]. discriminate A.
Qed.

Definition vmany : wtransducer := mk_wfst
  (wcell' 2 3 25 0 24 :: map (fun _ => wcell' 2 3 25 0 0) (seq 1 24) ++ map (fun i => wcell' 1 0 (Z.of_nat i) 0 0) (seq 26 100) ++ [wfinal 0 0])
  [(97, 2); (120, 3)] [[]; []; wstr "a"; wstr "x"] [mk_ofv Operation_P 0 0; mk_ofv Operation_P 0 2] 1 2.

(** With more flags, the array of flags is overrun. *)
Theorem C57_suggest_memory_refuted : exists queue E A fuel word max, priority_queue queue /\ good_weighted E /\ in_file_order E /\ one_flag E /\
  good_weighted A /\ in_file_order A /\ one_flag A /\
  vfst_generate fuel queue E A (new_wconfiguration (w_featureCount E) BUFFER_SIZE) (new_wconfiguration (w_featureCount A) BUFFER_SIZE) (new_status word max) = UB.
Proof.
  exists a_queue, vmany, vy, 40%nat, (wstr "a"), 5%nat.
  split; [exact a_queue_sorts|]. split; [apply (good_weightedb_good vmany (0 :: seq 25 101)%nat); vm_compute; reflexivity|].
  split; [apply orderedb_ordered; vm_compute; reflexivity|]. split; [apply one_flagb_one; vm_compute; reflexivity|].
  split; [apply (good_weightedb_good vy [0; 1]%nat); vm_compute; reflexivity|].
  split; [apply orderedb_ordered; vm_compute; reflexivity|]. split; [apply one_flagb_one; vm_compute; reflexivity|].
  vm_compute. reflexivity.
Qed.

(** ** C58: the order in which the suggestions are shown *)

Definition in_order (l : list (list Z * Z)) : Prop := forall i x y, nth_error l i = Some x -> nth_error l (S i) = Some y -> snd x <= snd y.

Lemma shift_sorted : forall l i x, in_order l -> nth_error l i = Some x -> sort_shift l i x = Ok l.
Proof.
  intros l i x O N. assert (W : wr l i x = Ok l).
  { assert (L : (i < length l)%nat) by (apply nth_error_Some; congruence). apply wr_ok. split; [exact L|]. symmetry. now apply upd_same_id. }
  destruct i as [|i]; cbn [sort_shift]; [exact W|]. destruct (nth_error l i) as [y|] eqn:Y.
  - rewrite (proj2 (rd_ok _ _ _ _) Y). cbn [bind]. specialize (O i y x Y N). replace (snd x <? snd y) with false by lia. exact W.
  - apply nth_error_None in Y. assert (S i < length l)%nat by (apply nth_error_Some; congruence). lia.
Qed.

Lemma sort_sorted : forall l, in_order l -> sortSuggestions l = Ok l.
Proof.
  intros l O. unfold sortSuggestions. assert (X : forall n i, (i + n <= length l)%nat -> for_loop n i (fun i l => current <- rd l i ;; sort_shift l i current) l = Ok l).
  { induction n as [|n IH]; intros i L; cbn [for_loop]; [reflexivity|]. destruct (nth_error l i) as [x|] eqn:N.
    - rewrite (proj2 (rd_ok _ _ _ _) N). cbn [bind]. rewrite (shift_sorted l i x O N). cbn [bind]. apply IH. lia.
    - apply nth_error_None in N. lia. }
  apply X. lia.
Qed.

Lemma priced_nth : forall l k i x, nth_error (priced k l) i = Some x -> exists w, nth_error l i = Some (fst x, w) /\ snd x = w * (k + Z.of_nat i + 5).
Proof.
  induction l as [|[u w] l IH]; intros k i x N; [destruct i; discriminate|]. cbn [priced] in N. destruct i as [|i]; cbn [nth_error] in N.
  - injection N as <-. exists w. split; [reflexivity|]. cbn [snd]. lia.
  - destruct (IH _ _ _ N) as (w' & A & B). exists w'. split; [exact A|]. rewrite B. lia.
Qed.

Lemma priced_texts : forall l k, map fst (priced k l) = map fst l.
Proof. induction l as [|[u w] l IH]; intros k; cbn [priced map fst]; [reflexivity|]. now rewrite IH. Qed.

Lemma sorted_nth : forall l i x y, StronglySorted by_weight l -> nth_error l i = Some x -> nth_error l (S i) = Some y -> snd x <= snd y.
Proof.
  induction l as [|a l IH]; intros i x y S X Y; [destruct i; discriminate|]. inversion S as [|b c S1 S2]; subst. destruct i as [|i].
  - cbn in X, Y. injection X as <-. rewrite Forall_forall in S2. apply S2. apply (nth_error_In l 0). exact Y.
  - exact (IH i x y S1 X Y).
Qed.

(** Weights that are not negative keep their order through the priorities: what
    is found best first is shown best first. *)
Theorem C58_order_partial : forall l : list (list Z * Z), StronglySorted by_weight l -> Forall (fun x => 0 <= snd x) l ->
  exists shown, sortSuggestions (priced 0 l) = Ok shown /\ map fst shown = map fst l.
Proof.
  intros l S P. exists (priced 0 l). split; [|apply priced_texts]. apply sort_sorted. intros i x y X Y.
  destruct (priced_nth _ _ _ _ X) as (w & A & ->). destruct (priced_nth _ _ _ _ Y) as (w' & B & ->).
  pose proof (sorted_nth l i _ _ S A B) as LE. cbn [snd] in LE. rewrite Forall_forall in P.
  pose proof (P _ (nth_error_In _ _ A)) as P1. cbn [snd] in P1. nia.
Qed.

Example C58_aa : sortSuggestions (priced 0 [(wstr "ab", 11); (wstr "bb", 22)]) = Ok [(wstr "ab", 55); (wstr "bb", 132)].
Proof. vm_compute. reflexivity. Qed.

Definition vnegative : wtransducer := mk_wfst
  [wfinal (-20) 4; wcell' 1 1 0 0 0; wcell' 1 2 0 1 0; wcell' 2 1 0 1 0; wcell' 2 2 0 0 0]
  [(97, 1); (98, 2)] [[]; wstr "a"; wstr "b"] [] 0 1.

(** With negative weights the order is not kept: of two corrections with the
    weights -18 and -16 the worse is shown first, because -16 times 6 is less than
    -18 times 5. *)
Theorem C58_order_refuted : exists E A word max s' cs shown better worse w w' x x',
  good_weighted E /\ plain_error_model E /\ in_file_order E /\ good_weighted A /\
  vfst_generate 20 a_queue E A (new_wconfiguration (w_featureCount E) BUFFER_SIZE) (new_wconfiguration (w_featureCount A) BUFFER_SIZE) (new_status word max) = Ok (s', cs) /\
  SuggestModel.found s' = priced 0 [(better, w); (worse, w')] /\ w < w' /\ sortSuggestions (SuggestModel.found s') = Ok shown /\ shown = [(worse, x'); (better, x)].
Proof.
  assert (K : exists s' cs, vfst_generate 20 a_queue vnegative vwords (new_wconfiguration 0 BUFFER_SIZE) (new_wconfiguration 0 BUFFER_SIZE) (new_status (wstr "aa") 5) = Ok (s', cs) /\
    SuggestModel.found s' = priced 0 [(wstr "ab", -18); (wstr "bb", -16)]) by (do 2 eexists; split; [vm_compute; reflexivity|]; vm_compute; reflexivity).
  destruct K as (s' & cs & K1 & K2).
  exists vnegative, vwords, (wstr "aa"), 5%nat, s', cs, [(wstr "bb", -96); (wstr "ab", -90)], (wstr "ab"), (wstr "bb"), (-18), (-16), (-90), (-96).
  split; [apply (good_weightedb_good vnegative [0]%nat); vm_compute; reflexivity|]. split; [apply plainb_plain; vm_compute; reflexivity|].
  split; [apply orderedb_ordered; vm_compute; reflexivity|]. split; [apply C57_good|]. split; [exact K1|]. split; [exact K2|]. split; [lia|].
  split; [rewrite K2; vm_compute; reflexivity|reflexivity].
Qed.

Print Assumptions C55_speller_history.
Print Assumptions C55_speller_sound.
Print Assumptions C55_speller_exact_partial.
Print Assumptions C55_speller_refuted.
Print Assumptions C56_analyzer_history.
Print Assumptions C56_analyzer_sound.
Print Assumptions C56_analyzer_complete_partial.
Print Assumptions C56_analyzer_refuted.
Print Assumptions C57_suggest_total.
Print Assumptions C57_suggest_sound.
Print Assumptions C57_suggest_exact_partial.
Print Assumptions C57_suggest_sound_refuted.
Print Assumptions C57_suggest_memory_refuted.
Print Assumptions C58_order_partial.
Print Assumptions C58_order_refuted.
