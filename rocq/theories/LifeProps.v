(** * C77: everything that belongs to a handle is released exactly once *)
From Verif Require Import Base SetupModel SetupProofs LifeModel LifeSpec LifeProofs LifeHistory.
From Coq Require Import Permutation.

(** Back ends of an ordinary Finnish dictionary, of one in an archive of HFST, and of
    an experimental one; builds with and without these. *)
Definition finnish : dictionary := mkDict empty_tag (wstr "/d") (wstr "finnishVfst")
  (wstr "FinnishSpellerTweaksWrapper(AnalyzerToSpellerAdapter(currentAnalyzer),currentAnalyzer)")
  (wstr "FinnishSuggestionStrategy(currentAnalyzer)") (wstr "AnalyzerToFinnishHyphenatorAdapter(currentAnalyzer)") (wstr "finnishVfst") true.
Definition archived : dictionary := mkDict empty_tag (wstr "/d/se.zhfst") (wstr "null") (wstr "hfst") (wstr "hfst")
  (wstr "AnalyzerToFinnishHyphenatorAdapter(currentAnalyzer)") (wstr "null") true.
Definition experimental (hyphenation : list Z) : dictionary := mkDict empty_tag (wstr "/d") (wstr "vfst") (wstr "vfst") (wstr "vfst") hyphenation (wstr "null") true.
Definition usual_build : build := mkBuild true false.
Definition test_build : build := mkBuild true true.
Definition usual_files : files := mkFiles (Good false 3) (Good true 2) (Good false 2) (Good false 1) true.
Definition empty_heap : heap := mkHeap [] 0%nat.
Definition initial : heap := mkHeap [2; 0]%nat 5%nat.

Lemma finnish_ordinary : ordinary (inl finnish). Proof. repeat split; discriminate. Qed.
Lemma archived_ordinary : ordinary (inl archived). Proof. repeat split; discriminate. Qed.
Lemma usual_mappable : mappable usual_files. Proof. repeat split; discriminate. Qed.

(** When the last handle has been closed, what is in use is what was in use at the
    beginning: whatever was opened, whatever options were set, in whichever order
    handles were closed, and although some could not be opened.  What is missing:
    failures because of damaged files and the experimental suggestions (see the
    refutations). *)
Theorem C77_balanced_partial : forall b h0 h, history b h0 [] h -> Permutation (live h) (live h0).
Proof. intros b h0 h H. apply history_inv in H. destruct H as (_ & H). exact H. Qed.
Print Assumptions C77_balanced_partial.

(** No call is undefined or throws: a handle can be opened or a message is
    given, options can be set and a handle can be closed, at any time. *)
Theorem C77_safe_partial : forall b h0 vs h, history b h0 vs h ->
  (forall loaded f, ordinary loaded -> mappable f -> exists r h', voikkoInit b loaded f h = Ret r h' /\ match r with inr e => e <> [] | inl _ => True end) /\
  (forall v s, In v vs -> exists v' h', set_option b v s h = Ret v' h') /\
  (forall v, In v vs -> exists h', voikkoTerminate v h = Ret tt h').
Proof.
  intros b h0 vs h H. destruct (history_inv _ _ _ _ H) as (F & P).
  assert (Own : forall v, In v vs -> fitting b v /\ exists rest, Permutation (live h) (of_handle v ++ rest)).
  { intros v I. rewrite Forall_forall in F. split; [auto|]. apply in_split in I. destruct I as (l & r & ->).
    exists (flat_map of_handle l ++ flat_map of_handle r ++ live h0). rewrite P, flat_map_app. cbn [flat_map]. perm. }
  split; [|split].
  - intros loaded f O M. pose proof (init_spec b loaded f h O M) as I. destruct (voikkoInit b loaded f h) as [[v|e] h'|e h'|]; try contradiction; eexists; eexists; (split; [reflexivity|]); tauto.
  - intros v s I. destruct (Own v I) as (Fv & rest & Pv). destruct (set_spec b v s h rest Fv Pv) as (v' & h' & E & _). eauto.
  - intros v I. destruct (Own v I) as (Fv & rest & Pv). destruct (terminate_spec b v Fv h rest Pv) as (h' & E & _). eauto.
Qed.
Print Assumptions C77_safe_partial.

(** What the components of an open handle own and what they use of each other is in
    use, whatever happened to other handles. *)
Theorem C77_uses_partial : forall b h0 vs h v x, history b h0 vs h -> In v vs -> In x (of_handle v) \/ In x (referred v) -> In x (live h).
Proof.
  intros b h0 vs h v x H I X. destruct (history_inv _ _ _ _ H) as (F & P). rewrite Forall_forall in F.
  assert (X' : In x (of_handle v)) by (destruct X as [X|X]; [exact X|exact (fitting_refers b v x (F v I) X)]).
  apply (Permutation_in x (Permutation_sym P)). apply in_or_app. left. apply in_flat_map. exists v. auto.
Qed.
Print Assumptions C77_uses_partial.

(** Open handles have nothing in common, neither with each other nor with what was
    in use before. *)
Theorem C77_separate_partial : forall b h0 vs h, sound h0 -> history b h0 vs h -> NoDup (flat_map of_handle vs ++ live h0).
Proof.
  intros b h0 vs h S0 H. destruct (history_inv _ _ _ _ H) as (_ & P). destruct (history_sound _ _ _ _ S0 H) as (N & _). exact (Permutation_NoDup P N).
Qed.
Print Assumptions C77_separate_partial.

(** A handle that cannot be opened takes nothing away from the others, whatever is
    wrong with the files, and leaves nothing behind if no file is damaged. *)
Theorem C77_failure_partial : forall b loaded f h e h', ordinary loaded -> mappable f -> voikkoInit b loaded f h = Ret (inr e) h' ->
  e <> [] /\ (exists lost, Permutation (live h') (lost ++ live h)) /\ (undamaged f -> Permutation (live h') (live h)).
Proof.
  intros b loaded f h e h' O M E. pose proof (init_spec b loaded f h O M) as I. rewrite E in I. destruct I as (N & lost & P & L).
  split; auto. split; [eauto|]. intros U. rewrite (L U) in P. exact P.
Qed.
Print Assumptions C77_failure_partial.

(** *** Examples *)

Definition value {A} (default : A) (o : out A) : A := match o with Ret a _ => a | _ => default end.
Definition after {A} (o : out A) : heap := match o with Ret _ h | Throw _ h => h | Undefined => empty_heap end.
Definition no_handle : vhandle := mkHandle 0 finnish (NullAnalyzer 0) (FixedSpeller 0) (NullGenerator 0) (mkHyphenator 0 0) (mkGrammar 0 0 [] 0) None.
Definition opened (r : vhandle + list Z) : vhandle := match r with inl v => v | inr _ => no_handle end.

(** Two handles are opened, a third cannot be because its transducer is missing, the
    options of the first are changed, and the first is closed before the second. *)
Definition run1 := voikkoInit usual_build (inl finnish) usual_files initial.
Definition first1 := opened (value (inr []) run1).
Definition run2 := voikkoInit usual_build (inl archived) usual_files (after run1).
Definition second1 := opened (value (inr []) run2).
Definition no_morphology : files := mkFiles Missing (Good true 2) (Good false 2) (Good false 1) true.
Definition run3 := voikkoInit usual_build (inl finnish) no_morphology (after run2).
Definition run4 := set_option usual_build first1 (SetOcr true usual_files) (after run3).
Definition first2 := value no_handle run4.
Definition run5 := set_option usual_build first2 (SetCacheSize (-1)) (after run4).
Definition first3 := value no_handle run5.
Definition run6 := voikkoTerminate first3 (after run5).
Definition run7 := voikkoTerminate second1 (after run6).
Lemma both_open : history usual_build initial [second1; first1] (after run2).
Proof.
  apply (hi_open usual_build initial [first1] (after run1) (inl archived) usual_files second1 (after run2)); [|exact archived_ordinary|exact usual_mappable|vm_compute; reflexivity].
  apply (hi_open usual_build initial [] initial (inl finnish) usual_files first1 (after run1)); [constructor|exact finnish_ordinary|exact usual_mappable|vm_compute; reflexivity].
Qed.
Lemma all_steps : history usual_build initial [] (after run7).
Proof.
  apply (hi_close usual_build initial [] [] second1 (after run6)); [|vm_compute; reflexivity].
  apply (hi_close usual_build initial [second1] [] first3 (after run5)); [|vm_compute; reflexivity].
  apply (hi_set usual_build initial [second1] [] first2 (after run4) (SetCacheSize (-1))); [|vm_compute; reflexivity].
  apply (hi_set usual_build initial [second1] [] first1 (after run3) (SetOcr true usual_files)); [|vm_compute; reflexivity].
  apply (hi_fail usual_build initial [second1; first1] (after run2) (inl finnish) no_morphology (wstr "Unweighted transducer file could not be read") (after run3));
    [exact both_open|exact finnish_ordinary|vm_compute; tauto|vm_compute; reflexivity].
Qed.
Example C77_balanced_ex : history usual_build initial [] (after run7) /\ live (after run7) = [2; 0]%nat /\
  length (live (after run2)) = 66%nat /\ length (live (after run5)) = 47%nat.
Proof. split; [exact all_steps|]. repeat split; vm_compute; reflexivity. Qed.
Example C77_uses_ex : history usual_build initial [second1; first1] (after run2) /\ length (of_handle first1) = 52%nat /\ length (referred first1) = 3%nat.
Proof. split; [exact both_open|]. split; vm_compute; reflexivity. Qed.
Example C77_separate_ex : sound initial /\ history usual_build initial [second1; first1] (after run2).
Proof. split; [|exact both_open]. split; [repeat constructor; cbn; intuition discriminate|]. repeat constructor. Qed.
Example C77_safe_ex : history usual_build initial [second1; first1] (after run2) /\ In first1 [second1; first1] /\ ordinary (inl finnish) /\ mappable no_morphology.
Proof. split; [exact both_open|]. split; [right; left; reflexivity|]. split; [exact finnish_ordinary|]. repeat split; discriminate. Qed.
Example C77_failure_ex : ordinary (inl finnish) /\ undamaged no_morphology /\
  voikkoInit usual_build (inl finnish) no_morphology (after run2) = Ret (inr (wstr "Unweighted transducer file could not be read")) (after run3).
Proof. split; [exact finnish_ordinary|]. split; [vm_compute; tauto|]. vm_compute. reflexivity. Qed.

(** Nothing of a handle that has been closed is in use any more. *)
Theorem C77_closed_partial : forall b h0 vs ws v h h', sound h0 -> history b h0 (vs ++ v :: ws) h -> voikkoTerminate v h = Ret tt h' ->
  forall i, In i (of_handle v) -> ~ In i (live h').
Proof.
  intros b h0 vs ws v h h' S0 H E i I J.
  pose proof (hi_close _ _ _ _ _ _ _ H E) as H'. destruct (history_inv _ _ _ _ H') as (_ & P').
  pose proof (C77_separate_partial _ _ _ _ S0 H) as N. rewrite flat_map_app in N. cbn [flat_map] in N.
  apply (Permutation_in i P') in J. rewrite flat_map_app in J. apply in_split in I. destruct I as (x & y & I). rewrite I in N.
  assert (Q : Permutation ((flat_map of_handle vs ++ (x ++ i :: y) ++ flat_map of_handle ws) ++ live h0) (i :: x ++ y ++ ((flat_map of_handle vs ++ flat_map of_handle ws) ++ live h0))) by perm.
  apply (Permutation_NoDup Q) in N. inversion N as [|? ? A B]; subst. apply A. rewrite !in_app_iff in *. tauto.
Qed.
Print Assumptions C77_closed_partial.
Example C77_closed_ex : sound initial /\ history usual_build initial ([second1] ++ first1 :: []) (after run2) /\ exists h', voikkoTerminate first1 (after run2) = Ret tt h'.
Proof. split; [exact (proj1 C77_separate_ex)|]. split; [exact both_open|]. eexists. vm_compute. reflexivity. Qed.

(** ** What is false *)

(** With an empty mor.vfst opening a handle is undefined: the file cannot be mapped
    and is read all the same. *)
Theorem C77_empty_refuted : ~ (forall b loaded f h, ordinary loaded -> exists r h', voikkoInit b loaded f h = Ret r h').
Proof.
  intros H. destruct (H usual_build (inl finnish) (mkFiles Empty (Good true 2) (Good false 2) (Good false 1) true) initial finnish_ordinary) as (r & h' & E).
  vm_compute in E. discriminate.
Qed.
Print Assumptions C77_empty_refuted.

(** A handle that cannot be opened leaves something behind ... *)
Definition leaves (b : build) (d : dictionary) (f : files) (n : nat) : Prop :=
  exists e h', voikkoInit b (inl d) f initial = Ret (inr e) h' /\ length (live h') = (length (live initial) + n)%nat.
(** ... the mapped file, if mor.vfst is not a transducer; *)
Theorem C77_header_refuted : leaves usual_build finnish (mkFiles Foreign (Good true 2) (Good false 2) (Good false 1) true) 1.
Proof. eexists. eexists. split; [vm_compute; reflexivity|]. vm_compute. reflexivity. Qed.
Print Assumptions C77_header_refuted.
(** ... the symbols that have been read, too, if one of them is malformed; *)
Theorem C77_flag_refuted : leaves usual_build finnish (mkFiles (BadFlag true 6) (Good true 2) (Good false 2) (Good false 1) true) 8.
Proof. eexists. eexists. split; [vm_compute; reflexivity|]. vm_compute. reflexivity. Qed.
Print Assumptions C77_flag_refuted.
(** ... five checks of the grammar checker, if autocorr.vfst is missing; *)
Theorem C77_autocorrect_refuted : leaves usual_build finnish (mkFiles (Good false 3) Missing (Good false 2) (Good false 1) true) 5.
Proof. eexists. eexists. split; [vm_compute; reflexivity|]. vm_compute. reflexivity. Qed.
Print Assumptions C77_autocorrect_refuted.
(** ... the object of the HFST library, if an archive cannot be read; *)
Theorem C77_zhfst_refuted : leaves usual_build archived (mkFiles (Good false 3) (Good true 2) (Good false 2) (Good false 1) false) 1.
Proof. eexists. eexists. split; [vm_compute; reflexivity|]. vm_compute. reflexivity. Qed.
Print Assumptions C77_zhfst_refuted.
(** ... the error model and buffers of experimental suggestions, if a later component
    cannot be made, although no file is damaged. *)
Theorem C77_experimental_refuted : undamaged usual_files /\ leaves test_build (experimental (wstr "no")) usual_files 7.
Proof. split; [vm_compute; tauto|]. eexists. eexists. split; [vm_compute; reflexivity|]. vm_compute. reflexivity. Qed.
Print Assumptions C77_experimental_refuted.

Definition run_x := voikkoInit test_build (inl (experimental (wstr "AnalyzerToFinnishHyphenatorAdapter(currentAnalyzer)"))) usual_files initial.
Definition handle_x := opened (value (inr []) run_x).
(** A handle with experimental suggestions: setting the OCR option loses their error
    model and buffers, also when the handle is closed. *)
Theorem C77_ocr_refuted : exists v h v' h' h'',
  voikkoInit test_build (inl (experimental (wstr "AnalyzerToFinnishHyphenatorAdapter(currentAnalyzer)"))) usual_files initial = Ret (inl v) h /\
  set_option test_build v (SetOcr true usual_files) h = Ret v' h' /\ voikkoTerminate v' h' = Ret tt h'' /\
  length (live h'') = (length (live initial) + 7)%nat.
Proof.
  exists handle_x, (after run_x). eexists. eexists. eexists. split; [vm_compute; reflexivity|]. split; [vm_compute; reflexivity|].
  split; [vm_compute; reflexivity|]. vm_compute. reflexivity.
Qed.
Print Assumptions C77_ocr_refuted.

(** If err.vfst has been removed by then, the option throws an exception at the caller
    (the C interface does not allow for that), and closing the handle afterwards
    releases the suggestions a second time. *)
Theorem C77_ocr_exception_refuted : exists v h e h',
  voikkoInit test_build (inl (experimental (wstr "AnalyzerToFinnishHyphenatorAdapter(currentAnalyzer)"))) usual_files initial = Ret (inl v) h /\
  set_option test_build v (SetOcr true (mkFiles (Good false 3) (Good true 2) (Good false 2) Missing true)) h = Throw e h' /\
  voikkoTerminate v h' = Undefined.
Proof.
  exists handle_x, (after run_x). eexists. eexists. split; [vm_compute; reflexivity|]. split; [vm_compute; reflexivity|]. vm_compute. reflexivity.
Qed.
Print Assumptions C77_ocr_exception_refuted.
