(** * Properties of verdicts: analyses, compound hyphens and soft hyphens *)
From Verif Require Import Base BaseFacts CharSpec CharModel CharProofs Utf8Spec SpellerBase HandleModel SpellModel SpellSpec SpellProofs SpellProps
  AnalysisModel AnalyzerBase HyphModel HyphSpec HyphProofs HyphProps AdapterModel TweaksModel TweaksSpec TweaksProofs.

(** ** A small dictionary for the examples *)

(** Analyses of the words of a list; capital letters of the text are ignored, as
    the Finnish analyser does. *)
Fixpoint find_word (d : list (list Z * list analysis)) (w : list Z) : list analysis :=
  match d with
  | [] => []
  | (v, l) :: r => if zlist_eqb v w then l else find_word r w
  end.
Definition from_list (d : list (list Z * list analysis)) : analyzer := fun _ w => find_word d (map lower w).
Definition free_word (s : list Z) : analysis := add (with_structure s) MALAGA_VAPAA_JALKIOSA (wstr "true").

Definition words : list (list Z * list analysis) :=
  [(wstr "talo", [with_structure (wstr "=pppp")]);
   (wstr "matti", [with_structure (wstr "=ipppp")]);
   (wstr "sana", [free_word (wstr "=pppp")]);
   (wstr "popopisto", [with_structure (wstr "=ppp=pppppp")]);
   (wstr "syysilta", [with_structure (wstr "=ppp=ppppp"); with_structure (wstr "=pppp=pppp")]);
   (wstr "syyspeli", [with_structure (wstr "=pppp=pppp")])].

Lemma from_list_good : forall d, Forall (fun e => good_analyses (snd e)) d -> good_analyzer (from_list d).
Proof.
  intros d F full w. unfold from_list. induction F as [|(v, l) d H _ IH]; cbn [find_word]; [constructor|]. destruct (zlist_eqb v (map lower w)); auto.
Qed.
Lemma words_good : good_analyzer (from_list words).
Proof.
  apply from_list_good.
  repeat (constructor; [repeat (constructor; [eexists; split; [reflexivity|apply good_structure_check; reflexivity]|]); constructor|]). constructor.
Qed.

Lemma lower_idem : forall w, map lower (map lower w) = map lower w.
Proof. intros w. rewrite map_map. apply map_ext. intros c. destruct (case_laws c) as (-> & _). auto. Qed.

(** ** C45: the best analysis decides *)

(** The verdict on a word is the best one that any of its analyses gives; a word
    without analyses is unknown. *)
Theorem C45_best_analysis : forall an w, good_analyses (an false w) -> exists r, adapter_spell an w = Ok r /\
  (r = SPELL_FAILED <-> an false w = []) /\
  (r <> SPELL_FAILED -> exists a st, In a (an false w) /\ a STRUCTURE = Some st /\ graded w st r) /\
  (forall a st q, In a (an false w) -> a STRUCTURE = Some st -> graded w st q -> as_good r q).
Proof. apply adapter_ok. Qed.
Print Assumptions C45_best_analysis.
Definition ambiguous_case : analyzer := from_list [(wstr "koti", [with_structure (wstr "=iiii"); with_structure (wstr "=ippp"); with_structure (wstr "=pppp")]);
  (wstr "oslo", [with_structure (wstr "=iiii"); with_structure (wstr "=ippp")])].
Example C45_best_analysis_ex :
  adapter_spell ambiguous_case (wstr "koti") = Ok SPELL_OK /\ adapter_spell ambiguous_case (wstr "oslo") = Ok SPELL_CAP_FIRST /\
  adapter_spell ambiguous_case (wstr "oslO") = Ok SPELL_CAP_ERROR /\ adapter_spell ambiguous_case (wstr "KOTI") = Ok SPELL_OK /\
  adapter_spell ambiguous_case (wstr "talo") = Ok SPELL_FAILED /\ good_analyses (ambiguous_case false (wstr "koti")).
Proof.
  do 5 (split; [vm_compute; reflexivity|]).
  repeat (constructor; [eexists; split; [reflexivity|apply good_structure_check; reflexivity]|]). constructor.
Qed.

(** Every analysis gives exactly one verdict. *)
Theorem C45_verdict_of_analysis : forall w st, ~ In 0 st -> exists r, matchWordAndAnalysis w st = Ok r /\ forall q, graded w st q <-> q = r.
Proof.
  intros w st N. destruct (match_ok w st N) as (r & E & G). exists r. split; auto. intros q. split; [intros; eapply graded_fun; eauto|intros ->; auto].
Qed.
Print Assumptions C45_verdict_of_analysis.
Example C45_verdict_of_analysis_ex :
  matchWordAndAnalysis (wstr "Matti") (wstr "=ipppp") = Ok SPELL_OK /\ matchWordAndAnalysis (wstr "matti") (wstr "=ipppp") = Ok SPELL_CAP_FIRST /\
  matchWordAndAnalysis (wstr "maTti") (wstr "=ipppp") = Ok SPELL_CAP_ERROR /\ matchWordAndAnalysis (wstr "aku-matti") (wstr "ppp-=ipppp") = Ok SPELL_CAP_ERROR.
Proof. repeat split; vm_compute; reflexivity. Qed.

(** ** C13: dictionaries built on an analyser *)

(** A dictionary built directly on an analyser that ignores capital letters
    decides without regard to capital letters whether it knows a word. *)
Theorem C13_analyzer_dictionary_case_blind : forall an sp, good_analyzer an -> (forall full w, an full (map lower w) = an full w) ->
  (forall w, adapter_spell an w = Ok (sp w)) -> case_blind sp.
Proof.
  intros an sp G B I v H E. apply H. destruct (adapter_ok an v (G false v)) as (r & R1 & R2 & _). destruct (adapter_ok an (map lower v) (G false (map lower v))) as (q & Q1 & Q2 & _).
  rewrite I in R1. rewrite I in Q1. inversion R1. inversion Q1. subst r q. apply R2. rewrite <- B. apply Q2. auto.
Qed.
Print Assumptions C13_analyzer_dictionary_case_blind.
Example C13_analyzer_dictionary_case_blind_ex : (forall full w, from_list words full (map lower w) = from_list words full w) /\
  adapter_spell (from_list words) (wstr "MATTI") = Ok SPELL_CAP_ERROR /\ adapter_spell (from_list words) (wstr "matti") = Ok SPELL_CAP_FIRST.
Proof. split; [intros full w; unfold from_list; rewrite lower_idem; auto|]. split; vm_compute; reflexivity. Qed.

(** The answers of the Finnish speller as a dictionary. *)
Definition finnish (an : analyzer) : env := fun b w => match finnish_speller an b w with Ok r => r | _ => SPELL_FAILED end.

(** With the Finnish treatment of hyphens and ACCEPT_EXTRA_HYPHENS this fails:
    turning on ACCEPT_ALL_UPPERCASE may reject an accepted word in capitals. *)
Theorem C13_finnish_all_uppercase_refuted :
  ~ (forall an h w, good_analyzer an -> (forall full v, an full (map lower v) = an full v) ->
       accepted (finnish an) h w -> accepted (finnish an) (with_all_uppercase h true) w).
Proof.
  intros H. destruct init_ok as (h & E & _).
  set (an := from_list [(wstr "aabcde", [with_structure (wstr "=piiiii")])]).
  set (h0 := with_extra_hyphens (with_spellerCache (with_all_uppercase h false) None) true).
  assert (unicode_word (wstr "AAB-CDE")) as U by (repeat constructor; cbn; lia).
  assert (good_analyzer an) as G.
  { apply from_list_good. constructor; [|constructor]. constructor; [|constructor]. eexists. split; [reflexivity|]. apply good_structure_check. reflexivity. }
  specialize (H an h0 (wstr "AAB-CDE") G). specialize (H ltac:(intros full v; unfold an, from_list; rewrite lower_idem; auto)).
  destruct (spell_exact (finnish an) h0 (wstr "AAB-CDE") U I) as (r & h' & A & _ & B & _).
  destruct (spell_exact (finnish an) (with_all_uppercase h0 true) (wstr "AAB-CDE") U I) as (r2 & h2 & A2 & _ & B2 & _).
  unfold h0 in A, A2. vm_compute in E. injection E as <-. vm_compute in A. vm_compute in A2. injection A as <- _. injection A2 as <- _.
  assert (0 = VOIKKO_SPELL_OK) as X by (apply B2, H, B; reflexivity). discriminate.
Qed.
Print Assumptions C13_finnish_all_uppercase_refuted.

(** ** C18: compound hyphens *)

(** The speller always answers; the recursion ends and reads only inside the
    word. *)
Theorem C18_total : forall tw, good_analyzer (tw_analyzer tw) -> (forall v, unicode_word v -> exists r, inner tw v = Ok r) ->
  forall w, unicode_word w -> exists r, tweaks_spell tw w = Ok r.
Proof.
  intros tw G I w U. rewrite tweaks_eq. apply (spell_with_total tw (plain tw) (w ++ [0])); auto.
  - intros v UV _. apply plain_total; auto.
  - rewrite app_length. cbn. lia.
Qed.
Print Assumptions C18_total.

Theorem C18_finnish_total : forall an, good_analyzer an -> forall b, implements (finnish_speller an b) (finnish an b).
Proof.
  intros an G b w U. unfold finnish. destruct (C18_total (mkTweaks (adapter_spell an) an b) G) with (w := w) as (r & E); auto.
  - intros v _. destruct (adapter_ok an v (G false v)) as (r & E & _). exists r. auto.
  - unfold finnish_speller. rewrite E. auto.
Qed.
Print Assumptions C18_finnish_total.
Example C18_total_ex : good_analyzer (from_list words) /\
  finnish_speller (from_list words) true (wstr "a-b-c-d-e-talo") = Ok SPELL_FAILED /\ finnish_speller (from_list words) true (wstr "ta-lo") = Ok SPELL_OK.
Proof. split; [apply words_good|]. split; vm_compute; reflexivity. Qed.

(** A word the dictionary knows is never rejected, and a word it finds correct
    stays correct. *)
Theorem C18_never_rejects : forall tw w, good_analyzer (tw_analyzer tw) -> (forall v, unicode_word v -> exists r, inner tw v = Ok r) ->
  unicode_word w -> ~ In SHY w ->
  (known (inner tw) w -> known (tweaks_spell tw) w) /\
  (inner tw w = Ok SPELL_OK -> tweaks_spell tw w = Ok SPELL_OK).
Proof.
  intros tw w G I U N. rewrite tweaks_plain by auto. unfold known. setoid_rewrite tweaks_plain; auto. rewrite plain_eq.
  destruct (body_ok tw (plain tw) w G I) as (q0 & r & E0 & E & C); auto; [intros; apply plain_total; auto|]. rewrite E, E0. split.
  - intros (q & X & Q). inversion X. subst q. exists r. split; auto. intros RF.
    destruct C as [(X2 & _)|(_ & _ & a & b & a2 & b2 & _ & _ & [(_ & X2)|[(_ & (_ & _ & X2) & _)|(_ & _ & [(_ & X2 & _)|(_ & [(_ & X2 & _)|(X2 & _)])])]])]; congruence.
  - intros X. inversion X. subst q0. destruct C as [[-> _]|(X2 & _)]; [auto|congruence].
Qed.
Print Assumptions C18_never_rejects.

(** Words without an interior hyphen get exactly the verdict of the
    dictionary. *)
Theorem C18_no_hyphen_exact : forall tw w, good_analyzer (tw_analyzer tw) -> (forall v, unicode_word v -> exists r, inner tw v = Ok r) ->
  unicode_word w -> ~ In SHY w -> (forall a b, a <> [] -> b <> [] -> w <> a ++ 0x2D :: b) ->
  tweaks_spell tw w = inner tw w.
Proof.
  intros tw w G I U N H. rewrite tweaks_plain by auto. rewrite plain_eq.
  destruct (body_ok tw (plain tw) w G I) as (q0 & r & E0 & E & C); auto; [intros; apply plain_total; auto|]. rewrite E, E0.
  destruct C as [[-> _]|(_ & _ & a & b & a2 & b2 & (X & Y & x & a' & A & _) & _)]; [auto|]. elim (H a b); auto. subst a. discriminate.
Qed.
Print Assumptions C18_no_hyphen_exact.

(** Exactly which words are accepted in addition to those the dictionary knows:
    with ACCEPT_EXTRA_HYPHENS those that are correct without their first interior
    hyphen; those where the hyphen separates equal vowel-consonant pairs of a
    known word; those made of an accepted word and a part that may end any
    compound; and those where the hyphen makes clear which one of the compounds
    that are spelt alike is meant. *)
Theorem C18_accepted_exactly : forall tw w, good_analyzer (tw_analyzer tw) -> (forall v, unicode_word v -> exists r, inner tw v = Ok r) ->
  unicode_word w -> ~ In SHY w ->
  (known (tweaks_spell tw) w <->
     known (inner tw) w \/
     ((3 < length w)%nat /\
      ((exists a b, first_split w a b /\
          ((tw_extra_hyphens tw = true /\ (1 < length a)%nat /\ (forall b', b <> 0x2D :: b') /\ tweaks_spell tw (a ++ b) = Ok SPELL_OK) \/
           (same_pair a b /\ known (inner tw) (a ++ b)) \/
           ambiguous (tw_analyzer tw) (a ++ b) (length a))) \/
       (exists a b, last_split w a b /\ known (tweaks_spell tw) a /\ free_end (tw_analyzer tw) b)))).
Proof.
  intros tw w G I U N.
  destruct (body_ok tw (plain tw) w G I) as (q0 & r & E0 & E & C); auto; [intros; apply plain_total; auto|]. rewrite <- plain_eq, <- tweaks_plain in E by auto.
  assert (K : known (tweaks_spell tw) w <-> r <> SPELL_FAILED).
  { unfold known. rewrite E. split; [intros (q & X & Q); congruence|]. intros X. exists r. auto. }
  assert (K0 : known (inner tw) w <-> q0 <> SPELL_FAILED).
  { unfold known. rewrite E0. split; [intros (q & X & Q); congruence|]. intros X. exists q0. auto. }
  assert (NSPLIT : forall a b, w = a ++ 0x2D :: b -> ~ In SHY (a ++ b)).
  { intros a b X Y. apply N. rewrite X. apply in_app_or in Y. apply in_or_app. destruct Y; [auto|right; right; auto]. }
  assert (NA : forall a b, w = a ++ 0x2D :: b -> ~ In SHY a) by (intros a b X Y; apply (NSPLIT a b X); apply in_or_app; auto).
  assert (TP : forall a, spell_with (plain tw) tw a = tweaks_spell tw a) by (intros; rewrite tweaks_eq; auto).
  rewrite K, K0. destruct C as [(-> & C)|(Q0 & L & a & b & a2 & b2 & FS & LS & C)].
  - split; [auto|]. intros [X|(L & X)]; [auto|]. destruct C as [-> | [C|C]]; [discriminate|lia|].
    destruct X as [(a & b & FS & _)|(a & b & LS & _)]; [elim (C a b); auto|]. exfalso.
    (* a word with a last interior hyphen has a first one *)
    destruct LS as (X & NE & y & b' & Y & _). destruct (find_from 0x2D (firstn (length w - 2) (skipn 1 w)) 1) as [k|] eqn:FI.
    + destruct (first_split_find w k L FI) as (a3 & b3 & FS & _). elim (C a3 b3). auto.
    + apply (first_split_none w L FI a b); auto. subst b. destruct b'; discriminate.
  - assert (FX : forall P : list Z -> list Z -> Prop, (exists a' b', first_split w a' b' /\ P a' b') <-> P a b).
    { intros P. split; [intros (a' & b' & X & Y); destruct (first_split_unique w a b a' b' FS X) as (-> & ->); auto|]. eauto. }
    assert (LX : forall P : list Z -> list Z -> Prop, (exists a' b', last_split w a' b' /\ P a' b') <-> P a2 b2).
    { intros P. split; [intros (a' & b' & X & Y); destruct (last_split_unique w a2 b2 a' b' LS X) as (-> & ->); auto|]. eauto. }
    pose proof (FX (fun a b => (tw_extra_hyphens tw = true /\ (1 < length a)%nat /\ (forall b', b <> 0x2D :: b') /\ tweaks_spell tw (a ++ b) = Ok SPELL_OK) \/
           (same_pair a b /\ known (inner tw) (a ++ b)) \/ ambiguous (tw_analyzer tw) (a ++ b) (length a))) as F1.
    pose proof (LX (fun a b => known (tweaks_spell tw) a /\ free_end (tw_analyzer tw) b)) as L1. cbv beta in F1, L1. rewrite F1, L1. clear FX LX F1 L1.
    assert (EXQ : extra_ok tw (plain tw) a b <-> tw_extra_hyphens tw = true /\ (1 < length a)%nat /\ (forall b', b <> 0x2D :: b') /\ tweaks_spell tw (a ++ b) = Ok SPELL_OK).
    { unfold extra_ok. rewrite tweaks_plain; [tauto|]. apply NSPLIT. apply FS. }
    assert (PQ : same_pair a b /\ known (inner tw) (a ++ b) <-> exists q, pair_q tw a b q) by (unfold pair_q, known; split; [intros (X & q & Y & Z0)|intros (q & X & Y & Z0)]; eauto).
    assert (FQ : known (tweaks_spell tw) a2 /\ free_end (tw_analyzer tw) b2 <-> exists q, free_q tw (plain tw) a2 b2 q).
    { unfold free_q, known. rewrite <- TP. split; [intros ((q & X & Y) & Z0)|intros (q & X & Y & Z0)]; eauto. }
    rewrite <- EXQ, PQ, FQ. clear EXQ PQ FQ.
    destruct C as [(X & ->)|[(X & Y & Z0)|(X & Y & [Z0|(Z1 & [(Z2 & Z3 & _)|(-> & Z2)])])]].
    + split; [auto|discriminate].
    + split; [intros _; right; split; auto; left; right; left; eauto|]. intros _. apply Y.
    + split; [intros _; right; split; auto; right; eauto|]. intros _. apply Z0.
    + split; [intros _; right; split; auto|]. auto.
    + split; [auto|]. intros [W|(_ & [[W|[(q & W)|W]]|(q & W)])]; [exact W|tauto| | |elim (Z1 q); auto]; intros ->.
      * pose proof (Y q W) as AG. destruct W as (_ & _ & QN). inversion AG; congruence.
      * apply Z2; auto.
Qed.
Print Assumptions C18_accepted_exactly.
Example C18_accepted_exactly_ex : let fi := finnish_speller (from_list words) in
  fi false (wstr "syy-silta") = Ok SPELL_OK /\ fi false (wstr "syys-ilta") = Ok SPELL_OK /\ fi false (wstr "sy-ysilta") = Ok SPELL_FAILED /\
  fi false (wstr "syys-peli") = Ok SPELL_FAILED /\ fi true (wstr "syys-peli") = Ok SPELL_OK /\ fi true (wstr "s-yyspeli") = Ok SPELL_FAILED /\
  fi true (wstr "sy-ys-pe-li") = Ok SPELL_OK /\ fi true (wstr "syys--peli") = Ok SPELL_FAILED /\
  fi false (wstr "pop-opisto") = Ok SPELL_OK /\ fi false (wstr "popo-pisto") = Ok SPELL_FAILED /\
  fi false (wstr "talo-sana") = Ok SPELL_OK /\ fi false (wstr "matti-sana") = Ok SPELL_CAP_FIRST /\ fi false (wstr "sana-talo") = Ok SPELL_FAILED.
Proof. repeat split; vm_compute; reflexivity. Qed.

(** The verdict is never worse than that of the dictionary, unless the first part
    of a compound with a free ending is worse. *)
Theorem C18_no_worse_partial : forall tw w, good_analyzer (tw_analyzer tw) -> (forall v, unicode_word v -> exists r, inner tw v = Ok r) ->
  unicode_word w -> ~ In SHY w ->
  (forall a b q q0, last_split w a b -> free_end (tw_analyzer tw) b -> tweaks_spell tw a = Ok q -> q <> SPELL_FAILED -> inner tw w = Ok q0 -> as_good q q0) ->
  exists q0 r, inner tw w = Ok q0 /\ tweaks_spell tw w = Ok r /\ as_good r q0.
Proof.
  intros tw w G I U N H.
  destruct (body_ok tw (plain tw) w G I) as (q0 & r & E0 & E & C); auto; [intros; apply plain_total; auto|]. rewrite <- plain_eq, <- tweaks_plain in E by auto.
  exists q0, r. split; auto. split; auto.
  assert (T : r <> SPELL_FAILED -> ~ as_good q0 r -> as_good r q0).
  { intros X Y. destruct (spell_failed q0) eqn:F; [destruct q0; try discriminate; constructor|]. apply as_good_total; auto. intros ->. discriminate. }
  destruct C as [(-> & _)|(_ & _ & a & b & a2 & b2 & FS & LS & [(_ & ->)|[(_ & (_ & _ & X) & Y)|(_ & _ & [(X & Y & Z0)|(_ & [(_ & X & Y)|(-> & _)])])]])]; try (constructor; fail); auto.
  apply (H a2 b2 r q0); auto. rewrite tweaks_eq. auto.
Qed.
Print Assumptions C18_no_worse_partial.
Example C18_no_worse_partial_ex : adapter_spell (from_list words) (wstr "matti-sana") = Ok SPELL_FAILED /\
  finnish_speller (from_list words) false (wstr "matti") = Ok SPELL_CAP_FIRST /\ finnish_speller (from_list words) false (wstr "matti-sana") = Ok SPELL_CAP_FIRST.
Proof. repeat split; vm_compute; reflexivity. Qed.

(** Otherwise it may be worse: the dictionary wants a capital initial, the verdict
    is that the capitals are wrong everywhere. *)
Theorem C18_no_worse_refuted : exists an w, good_analyzer an /\ unicode_word w /\ ~ In SHY w /\
  adapter_spell an w = Ok SPELL_CAP_FIRST /\ finnish_speller an false w = Ok SPELL_CAP_ERROR.
Proof.
  exists (from_list [(wstr "ab-cd", [with_structure (wstr "=ip-=pp")]); (wstr "ab", [with_structure (wstr "=pi")]); (wstr "cd", [free_word (wstr "=pp")])]), (wstr "ab-cd").
  split.
  { apply from_list_good. repeat (constructor; [repeat (constructor; [eexists; split; [reflexivity|apply good_structure_check; reflexivity]|]); constructor|]). constructor. }
  split; [repeat constructor; cbn; lia|]. split; [cbn; intuition discriminate|]. split; vm_compute; reflexivity.
Qed.
Print Assumptions C18_no_worse_refuted.

(** ** C17: soft hyphens *)

(** A word with soft hyphens is accepted exactly when every soft hyphen stands
    between two other characters, the word without them is accepted, and the
    hyphenator allows a break at each of them; its verdict is then that of the
    word without them. *)
Theorem C17_soft_hyphens : forall tw w, good_analyzer (tw_analyzer tw) -> (forall v, unicode_word v -> exists r, inner tw v = Ok r) ->
  unicode_word w -> In SHY w ->
  exists r, tweaks_spell tw w = Ok r /\
    (r <> SPELL_FAILED -> tweaks_spell tw (without_shy w) = Ok r) /\
    (r <> SPELL_FAILED <-> shy_well_placed w /\ known (tweaks_spell tw) (without_shy w) /\
       exists p, allPossibleHyphenPositions (tw_analyzer tw) tweaks_hyphenator (without_shy w) = Ok (Some p) /\ breaks_at_shys p w).
Proof.
  intros tw w G I U IN.
  assert (unicode_word (without_shy w)) as U'.
  { unfold unicode_word, without_shy in *. rewrite Forall_forall in *. intros c X. apply filter_In in X. destruct X. auto. }
  assert (~ In SHY (without_shy w)) as NS. { unfold without_shy. intros X. apply filter_In in X. destruct X as (_ & X). discriminate. }
  assert (TP : tweaks_spell tw (without_shy w) = plain tw (without_shy w)) by (apply tweaks_plain; auto).
  destruct (shy_ok (plain tw) tw w G U (plain_total tw G I _ U') IN) as (r & E & A & B). exists r. rewrite tweaks_eq. split; auto. rewrite TP. split; auto.
  rewrite B. unfold known. rewrite TP. tauto.
Qed.
Print Assumptions C17_soft_hyphens.
Example C17_soft_hyphens_ex : let fi := finnish_speller (from_list words) false in
  fi ([0x74; 0x61; SHY] ++ wstr "lo") = Ok SPELL_OK /\ fi ([0x74; SHY] ++ wstr "alo") = Ok SPELL_FAILED /\
  fi ([SHY] ++ wstr "talo") = Ok SPELL_FAILED /\ fi (wstr "talo" ++ [SHY]) = Ok SPELL_FAILED /\ fi ([0x74; 0x61; SHY; SHY] ++ wstr "lo") = Ok SPELL_FAILED /\
  fi (wstr "syys" ++ [SHY] ++ wstr "pe" ++ [SHY] ++ wstr "li") = Ok SPELL_OK /\ fi (wstr "syys" ++ [SHY] ++ wstr "pel" ++ [SHY] ++ wstr "i") = Ok SPELL_FAILED /\
  allPossibleHyphenPositions (from_list words) tweaks_hyphenator (wstr "syyspeli") = Ok (Some (wstr "    - - ")).
Proof. repeat split; vm_compute; reflexivity. Qed.

(** Soft hyphens may be put wherever the hyphenator (set to hyphenate unknown
    words and to allow ugly hyphenation, with minimum length 3 and final dots
    ignored) shows a break. *)
Theorem C17_hyphenator_breaks : forall an b h w p, good_analyzer an -> unicode_word w -> In SHY w ->
  hyphUgly h = true -> hyphUnknown h = true -> hyphMinLength h = 3 -> hyphIgnoreDot h = true ->
  voikkoHyphenateUcs4 an h (without_shy w) = Ok (Some p) -> breaks_at_shys p w -> shy_well_placed w ->
  finnish_speller an b w = finnish_speller an b (without_shy w).
Proof.
  intros an b h w p G U IN H1 H2 H3 H4 HY BR WP.
  assert (unicode_word (without_shy w)) as U'.
  { unfold unicode_word, without_shy in *. rewrite Forall_forall in *. intros c X. apply filter_In in X. destruct X. auto. }
  set (tw := mkTweaks (adapter_spell an) an b). assert (I : forall v, unicode_word v -> exists r, inner tw v = Ok r).
  { intros v _. destruct (adapter_ok an v (G false v)) as (r & E & _). exists r. auto. }
  destruct (C17_soft_hyphens tw w G I U IN) as (r & E & A & B). unfold finnish_speller. fold tw. rewrite E.
  destruct (C18_total tw G I (without_shy w) U') as (q & Q). rewrite Q.
  assert (O : handle_hyph h = tweaks_hyphenator) by (unfold handle_hyph, tweaks_hyphenator; rewrite H1, H2, H3, H4; reflexivity).
  unfold voikkoHyphenateUcs4 in HY. rewrite O in HY. destruct (all_positions_ok an (without_shy w) G U') as (o & AP & _ & AQ).
  destruct (AQ p HY) as (p' & -> & PP).
  destruct (spell_failed r) eqn:F.
  - destruct r; try discriminate. destruct (spell_failed q) eqn:FQ; [destruct q; try discriminate; auto|]. exfalso. apply B; auto. split; auto. split.
    + exists q. split; auto. intros ->. discriminate.
    + exists p'. split; auto. intros x y X. apply PP. eauto.
  - rewrite <- Q. symmetry. apply A. intros ->. discriminate.
Qed.
Print Assumptions C17_hyphenator_breaks.
Example C17_hyphenator_breaks_ex : exists h0 h, voikkoInit = Ok h0 /\ voikkoSetIntegerOption h0 9 3 = Ok (1, h) /\
  let h1 := snd (voikkoSetBooleanOption (snd (voikkoSetBooleanOption h 15 true)) 0 true) in
  hyphUgly h1 = true /\ hyphUnknown h1 = true /\ hyphMinLength h1 = 3 /\ hyphIgnoreDot h1 = true /\
  voikkoHyphenateUcs4 (from_list words) h1 (wstr "syyspeli") = Ok (Some (wstr "    - - ")) /\
  breaks_at_shys (wstr "    - - ") (wstr "syys" ++ [SHY] ++ wstr "peli") /\ shy_well_placed (wstr "syys" ++ [SHY] ++ wstr "peli").
Proof.
  eexists. eexists. split; [reflexivity|]. split; [reflexivity|]. do 4 (split; [reflexivity|]). split; [vm_compute; reflexivity|]. split.
  - intros a b H. assert (In (length (without_shy a)) (shy_positions 0 (wstr "syys" ++ [SHY] ++ wstr "peli"))) as K by (apply shy_positions_spec; exists a, b; auto).
    change (shy_positions 0 (wstr "syys" ++ [SHY] ++ wstr "peli")) with [4%nat] in K. destruct K as [<-|[]]. reflexivity.
  - apply well_placed_ok. reflexivity.
Qed.

(** ** C16: capitals and the structures of the analyses *)

Lemma common_word_ok : forall an w a st, good_analyses (an false w) -> no_capital w -> In a (an false w) -> a STRUCTURE = Some st ->
  common_word (length w) st -> adapter_spell an w = Ok SPELL_OK.
Proof.
  intros an w a st G NC I A C. destruct (adapter_ok an w G) as (r & -> & _ & _ & B). f_equal.
  assert (graded w st SPELL_OK) as GR.
  { assert (forall i c s, nth_error w i = Some c -> nth_error (symbols st) i = Some s -> s <> 0x69 /\ s <> 0x6A) as K.
    { intros i c s X Y. apply (C i s); auto. apply nth_error_lt in X. auto. }
    split.
    - intros (i & c & s & X & Y & [(P & _)|(_ & P & _)]).
      + apply nth_error_In in X. unfold no_capital in NC. rewrite Forall_forall in NC. specialize (NC c X). tauto.
      + destruct (K i c s X Y). tauto.
    - intros (c & s & X & Y & _ & P). destruct (K 0%nat c s X Y). tauto. }
  specialize (B a st SPELL_OK I A GR). inversion B; auto.
Qed.

Lemma name_ok : forall an w c r a st, good_analyses (an false w) -> no_capital w -> w = c :: r -> small c -> In a (an false w) -> a STRUCTURE = Some st ->
  name (length w) st -> (forall a' st', In a' (an false w) -> a' STRUCTURE = Some st' -> initial_capital st') -> adapter_spell an w = Ok SPELL_CAP_FIRST.
Proof.
  intros an w c r a st G NC W SM I A ((s0 & S1 & S2) & C) ALL. destruct (adapter_ok an w G) as (q & -> & F & GQ & B). f_equal.
  assert (graded w st SPELL_CAP_FIRST) as GR.
  { split.
    - intros (i & d & s & X & Y & [(P & _)|(_ & P & NZ)]).
      + apply nth_error_In in X. unfold no_capital in NC. rewrite Forall_forall in NC. specialize (NC d X). tauto.
      + destruct (C i s); auto; [apply nth_error_lt in X; lia|tauto].
    - exists c, s0. split; [rewrite W; auto|auto]. }
  specialize (B a st SPELL_CAP_FIRST I A GR). inversion B as [| |r0|]; subst; auto. exfalso.
  assert (SPELL_OK <> SPELL_FAILED) as X by discriminate. destruct (GQ X) as (a' & st' & I' & A' & (_ & NN)). apply NN.
  destruct (ALL a' st' I' A') as (s' & S1' & S2'). exists c, s'. auto.
Qed.

(** The capitalisation rules for the Finnish speller, in terms of the structures
    of the analyses of a word in small letters without interior hyphen. *)
Theorem C16_finnish : forall an h c r, good_analyzer an -> unicode_word (c :: r) -> ~ In SHY (c :: r) ->
  (forall a b, a <> [] -> b <> [] -> c :: r <> a ++ 0x2D :: b) ->
  all_small (c :: r) -> small c -> ~ no_small r -> (length (c :: r) <= 255)%nat ->
  voikko_normalise (c :: r) = Ok (c :: r) -> voikko_normalise (upper c :: r) = Ok (upper c :: r) ->
  voikko_normalise (map upper (c :: r)) = Ok (map upper (c :: r)) ->
  ~ exempt h (c :: r) -> ~ exempt h (upper c :: r) ->
  (ignore_dot h = false \/ forall u, r <> u ++ [0x2E]) ->
  ((exists a st, In a (an false (c :: r)) /\ a STRUCTURE = Some st /\ common_word (length (c :: r)) st) ->
     accepted (finnish an) h (c :: r) /\
     (accepted (finnish an) h (upper c :: r) <-> accept_first_uppercase h = true) /\
     (accept_all_uppercase h = true -> accepted (finnish an) h (map upper (c :: r)))) /\
  ((exists a st, In a (an false (c :: r)) /\ a STRUCTURE = Some st /\ name (length (c :: r)) st) ->
   (forall a st, In a (an false (c :: r)) -> a STRUCTURE = Some st -> initial_capital st) ->
     ~ accepted (finnish an) h (c :: r) /\ accepted (finnish an) h (upper c :: r) /\
     (accept_all_uppercase h = true -> accepted (finnish an) h (map upper (c :: r)))).
Proof.
  intros an h c r G U NS NH H1 H2 H3 H4 H5 H6 H7 H8 H9 H10.
  destruct (C16_capitals (finnish an) h c r H1 H2 H3 H4 H5 H6 H7 H8 H9 H10) as (OKS & FIRST).
  assert (forall q, adapter_spell an (c :: r) = Ok q -> q <> SPELL_FAILED -> verdict (finnish an (accept_extra_hyphens h)) (accept_missing_hyphens h) (c :: r) q) as V.
  { intros q E N. assert (finnish an (accept_extra_hyphens h) (c :: r) = q) as <-; [|apply verdict_known].
    - unfold finnish, finnish_speller. rewrite C18_no_hyphen_exact; auto; cbn [inner]; [rewrite E; auto|].
      intros v _. destruct (adapter_ok an v (G false v)) as (x & X & _). eauto.
    - unfold finnish, finnish_speller. rewrite C18_no_hyphen_exact; auto; cbn [inner]; [rewrite E; auto|].
      intros v _. destruct (adapter_ok an v (G false v)) as (x & X & _). eauto. }
  split.
  - intros (a & st & I & A & C). apply OKS. apply V; [|discriminate]. apply (common_word_ok an (c :: r) a st); auto. apply H1.
  - intros (a & st & I & A & C) ALL. apply FIRST. apply V; [|discriminate]. apply (name_ok an (c :: r) c r a st); auto. apply H1.
Qed.
Print Assumptions C16_finnish.
Example C16_finnish_ex : exists h, voikkoInit = Ok h /\ accept_first_uppercase h = true /\ accept_all_uppercase h = true /\
  map (fun w => result_of (voikkoSpellUcs4 (finnish (from_list words)) h w)) [wstr "talo"; wstr "Talo"; wstr "TALO"; wstr "matti"; wstr "Matti"; wstr "MATTI"; wstr "maTTi"] =
  [Ok 1; Ok 1; Ok 1; Ok 0; Ok 1; Ok 1; Ok 0] /\
  common_word 4 (wstr "=pppp") /\ name 5 (wstr "=ipppp").
Proof.
  eexists. split; [reflexivity|]. do 2 (split; [reflexivity|]). split; [vm_compute; reflexivity|].
  assert (K : forall i s, nth_error [0x70; 0x70; 0x70; 0x70] i = Some s -> s <> 0x69 /\ s <> 0x6A).
  { intros i s E. apply nth_error_In in E. cbn in E. lia. }
  split; [intros i s _ E; apply (K i s); exact E|]. split; [exists 0x69; split; [reflexivity|auto]|].
  intros i s (I0 & _) E. destruct i as [|i]; [lia|]. apply (K i s). exact E.
Qed.
