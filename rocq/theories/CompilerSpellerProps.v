(** * From the text of a list of words to the answers of the speller: property C72. *)
From Coq Require Import Permutation Sorted.
From Verif Require Import Base BaseFacts CharModel CharProofs AnalysisModel SpellerBase FstModel FstFileModel FstSpec FstProps WfstModel WfstSpec VfstModel VfstSpec VfstProofs VfstProps
  Utf8Spec CompilerModel CompilerSpec CompilerSymbols CompilerReading CompilerLoading CompilerTable CompilerProofs CompilerWeights CompilerWeightProps
  CompilerTextModel CompilerTextSpec CompilerTextProofs CompilerTextProps CompilerSpellerSpec CompilerSpellerProofs.

Lemma word_list_one_flag : forall A, word_list A -> one_flag_each A.
Proof. intros A [W _] q q1 q2 op f v op' f' v' o o' z z' I1 I2. destruct (W _ _ _ _ _ I1) as [(c & X) _]. discriminate. Qed.

(** The file of a list of words can be loaded, and whatever words the speller has
    been used for before, its answer for a word of at most 255 characters is
    right.  Every longer word is called wrong. *)
Theorem C72_speller : forall weight_of_text weight_of_zero A text file,
  weighted_text_form (fun z w => a_word w /\ weight_of_text w = Some z) A text -> writable (map fst A) -> fitting_weighted A -> word_list A ->
  voikkovfstc_w_text weight_of_text weight_of_zero false text = Ok (Some file) ->
  exists W, load_weighted file = Ok (Loaded W) /\
    forall c word, speller_used W c -> exists r c', vfst_spell W c word = Ok (r, c') /\ speller_used W c' /\
      ((length word <= 255)%nat -> spelling A word r) /\ ((255 < length word)%nat -> r = SPELL_FAILED).
Proof.
  intros wt wz A text file TX WR FIT WL E. rewrite (weighted_text_same wt wz _ (fun z w H => H) A text false TX WR) in E. injection E as E.
  destruct (compiled_weighted A file FIT E) as (W & LD & G & ORD & FL & SAME). specialize (FL (word_list_one_flag A WL)).
  destruct (compiled_layout A file FIT E) as (W' & D & fs & vs & offsets & LD' & SL & TL & DISTINCT). assert (W' = W) by congruence. subst W'.
  pose proof (reads_compiled A D fs vs offsets W WL SL TL DISTINCT) as RL. exists W. split; auto. intros c word U.
  destruct (C55_speller_history W G) as (answer & H). destruct (H c word U) as (c' & SP & U'). exists (answer word), c'. conjs; auto.
  - intros L. assert (right_answer W word (answer word)) as R.
    { apply (C55_speller_exact_partial W c word (answer word) c'); auto; [exact (never_gives_up W _ word G RL L)|]. intros first rest ->. exact (never_gives_up W _ (upper first :: rest) G RL L). }
    assert (forall w, VfstSpec.accepted W w <-> listed A w) as SAME'.
    { intros w. unfold VfstSpec.accepted, listed. split.
      - intros (p & out & X). exists out, (path_weight W p). apply SAME. eauto.
      - intros (out & z & X). apply SAME in X. destruct X as (p & X & _). eauto. }
    inversion R as [w AC HW HR|first rest N LO AC HW HR|w N NO HW HR]; subst.
    + constructor. apply SAME'. auto.
    + constructor; auto; rewrite <- SAME'; auto.
    + constructor; [rewrite <- SAME'; auto|]. intros first rest EW LO. rewrite <- SAME'. eauto.
  - intros L. destruct (spell_spec W c word G (speller_used_wused W c G U)) as (c2 & E2 & _). rewrite SP in E2. assert (answer word = verdict W word) as -> by congruence.
    assert (forall w, (255 < length w)%nat -> finds W w = false) as LONG by (intros w B; unfold finds, MAX_WORD; replace (255 <? length w)%nat with true by (symmetry; apply Nat.ltb_lt; auto); reflexivity).
    unfold verdict. rewrite LONG by auto. destruct word as [|first rest]; [reflexivity|]. rewrite (LONG (upper first :: rest)) by exact L. rewrite andb_false_r. reflexivity.
Qed.
Print Assumptions C72_speller.

(** If no state is marked as final twice, a word in the list, with its letters made
    small, has one analysis, with its text and weight; other words have none. *)
Theorem C72_analyzer : forall weight_of_text weight_of_zero A text file,
  weighted_text_form (fun z w => a_word w /\ weight_of_text w = Some z) A text -> writable (map fst A) -> fitting_weighted A -> word_list A -> one_final_each A ->
  voikkovfstc_w_text weight_of_text weight_of_zero false text = Ok (Some file) ->
  exists W, load_weighted file = Ok (Loaded W) /\
    forall prob c word full, analyzer_used W prob c -> (length word <= 255)%nat -> exists l c', vfst_analyze W prob c word full = Ok (l, c') /\ analyzer_used W prob c' /\
      ((exists out z a, accepted_with A (voikko_set_case CT_ALL_LOWER word) out z /\ l = [a] /\ a FSTOUTPUT = (if full then Some out else None) /\ a WEIGHT = Some (prob (to_int16 z)) /\
          forall k, k <> FSTOUTPUT -> k <> WEIGHT -> a k = None) \/
       (~ listed A (voikko_set_case CT_ALL_LOWER word) /\ l = [])).
Proof.
  intros wt wz A text file TX WR FIT WL OF E. rewrite (weighted_text_same wt wz _ (fun z w H => H) A text false TX WR) in E. injection E as E.
  destruct (compiled_weighted A file FIT E) as (W & LD & G & ORD & FL & SAME). specialize (FL (word_list_one_flag A WL)).
  destruct (compiled_layout A file FIT E) as (W' & D & fs & vs & offsets & LD' & SL & TL & DISTINCT). assert (W' = W) by congruence. subst W'.
  pose proof (reads_compiled A D fs vs offsets W WL SL TL DISTINCT) as RL. exists W. split; auto. intros prob c word full U L.
  destruct (C56_analyzer_history W prob G) as (answer & H). destruct (H c word full U) as (c' & AN & U'). exists (answer full word), c'. conjs; auto.
  destruct (analyze_paths W prob c word full _ c' G U AN) as (_ & paths & S & P & F & X). specialize (X ORD FL L (never_stops_early W _ word G RL L)).
  set (low := voikko_set_case CT_ALL_LOWER word) in *. assert (placed_state offsets 0) as P0 by (exists 0%nat; apply (tl_start _ _ _ _ (wtl_table _ _ _ _ TL))).
  assert (forall p out p' out', waccepts W low p out -> waccepts W low p' out' -> p' = p /\ out' = out) as ONE.
  { intros p out p' out' A1 A2. unfold waccepts, accepts in *. eapply (one_path A D fs vs offsets W WL SL TL DISTINCT OF); eauto. }
  destruct paths as [|[p out] paths].
  - right. inversion F. split; auto. intros (out & z & AC). apply SAME in AC. destruct AC as (p & AC & _). destruct (X p out AC) as [[]|[X1 _]]. match goal with Y : [] = _ |- _ => rewrite <- Y in X1 end. discriminate.
  - left. assert (paths = []) as ->.
    { destruct paths as [|[p2 out2] paths]; auto. exfalso. destruct (ONE p out p2 out2) as [-> _]; [apply P; left; auto|apply P; right; left; auto|].
      cbn [map fst] in S. inversion S as [|? ? S1 S2]; subst. inversion S2 as [|? ? S3 S4]; subst. exact (FstProps.before_irreflexive _ S3). }
    inversion F as [|? a ? l PA F']; subst. inversion F'; subst. destruct PA as (PA1 & PA2 & PA3). exists out, (path_weight W p), a. conjs; auto.
    apply SAME. exists p. split; auto. apply P. left. auto.
Qed.
Print Assumptions C72_analyzer.

(** ** Dictionaries *)

(** The words "ja" and "Oo", the second with a tag. *)
Definition words_text : list Z :=
  tab_line [wstr "0"; wstr "1"; wstr "j"; wstr "j"; wstr "0.0"] ++
  tab_line [wstr "0"; wstr "2"; wstr "O"; wstr "[Lee]"; wstr "0.3"] ++
  tab_line [wstr "1"; wstr "3"; wstr "a"; wstr "a"; wstr "0.1"] ++
  tab_line [wstr "2"; wstr "3"; wstr "o"; wstr "o"; wstr "0.0"] ++
  tab_line [wstr "3"; wstr "0.5"].
Definition words : list (item * Z) :=
  [ (Arc 0 1 (Letter 0x6A) (Letter 0x6A), 0);
    (Arc 0 2 (Letter 0x4F) (Tag (wstr "Lee]")), 30);
    (Arc 1 3 (Letter 0x61) (Letter 0x61), 10);
    (Arc 2 3 (Letter 0x6F) (Letter 0x6F), 0);
    (Final 3, 50) ].

Example words_form : weighted_text_form (fun z w => a_word w /\ one_digit_weight w = Some z) words words_text.
Proof.
  assert (forall q q' i o z n n' w A r, digits_of q n -> digits_of q' n' -> a_word w -> one_digit_weight w = Some z ->
    weighted_text_form (fun z w => a_word w /\ one_digit_weight w = Some z) A r ->
    weighted_text_form (fun z w => a_word w /\ one_digit_weight w = Some z) ((Arc q q' i o, z) :: A) (([] ++ n ++ [9] ++ n' ++ [9] ++ symbol_field i ++ [9] ++ symbol_field o ++ [9] ++ w) ++ [10] ++ r)) as L.
  { intros q q' i o z n n' w A r D1 D2 A1 A2 F. constructor; auto. apply weighted_arc_text; auto using tab_gap. constructor. }
  unfold words_text, words.
  apply (L 0%nat 1%nat (Letter 0x6A) (Letter 0x6A) 0 (wstr "0") (wstr "1") (wstr "0.0")); [apply (one_digit 0); lia|apply (one_digit 1); lia|split; [discriminate|repeat constructor; unfold white; cbn; lia]|reflexivity|].
  apply (L 0%nat 2%nat (Letter 0x4F) (Tag (wstr "Lee]")) 30 (wstr "0") (wstr "2") (wstr "0.3")); [apply (one_digit 0); lia|apply (one_digit 2); lia|split; [discriminate|repeat constructor; unfold white; cbn; lia]|reflexivity|].
  apply (L 1%nat 3%nat (Letter 0x61) (Letter 0x61) 10 (wstr "1") (wstr "3") (wstr "0.1")); [apply (one_digit 1); lia|apply (one_digit 3); lia|split; [discriminate|repeat constructor; unfold white; cbn; lia]|reflexivity|].
  apply (L 2%nat 3%nat (Letter 0x6F) (Letter 0x6F) 0 (wstr "2") (wstr "3") (wstr "0.0")); [apply (one_digit 2); lia|apply (one_digit 3); lia|split; [discriminate|repeat constructor; unfold white; cbn; lia]|reflexivity|].
  apply (weighted_text_line _ (Final 3, 50) [] (wstr "3" ++ [9] ++ wstr "0.5") []); [|constructor].
  apply (weighted_final_text _ 3 [] (wstr "3") [9] (wstr "0.5") 50); [constructor|apply (one_digit 3); lia|apply tab_gap|]. split; [split; [discriminate|repeat constructor; unfold white; cbn; lia]|reflexivity].
Qed.
Example words_hypotheses : writable (map fst words) /\ fitting_weighted words /\ word_list words /\ one_final_each words.
Proof.
  split; [split; repeat constructor; try discriminate; unfold white; cbn; lia|]. split; [split|split].
  - unfold fitting. conjs.
    + repeat constructor; try discriminate; unfold encodable; cbn; try lia; intuition discriminate.
    + exists 0x61. cbn. auto 20.
    + intros l N I. apply NoDup_incl_length in I; auto. cbn in I. lia.
    + vm_compute. discriminate.
  - repeat constructor; cbn; lia.
  - split.
    + intros q q' s o z I. cbn in I. repeat (destruct I as [I|I]; [first [discriminate I|injection I as <- <- <- <- <-; split; [eexists; reflexivity|cbn; lia]]|]). contradiction.
    + intros k l q q1 q2 s o1 o2 z1 z2 E1 E2. do 6 (destruct k as [|k]; [do 6 (destruct l as [|l]; [first [reflexivity|cbn in E1, E2; congruence]|]); destruct l; discriminate|]). destruct k; discriminate.
  - intros k l q z1 z2 E1 E2. do 6 (destruct k as [|k]; [do 6 (destruct l as [|l]; [first [reflexivity|cbn in E1, E2; congruence]|]); destruct l; discriminate|]). destruct k; discriminate.
Qed.
Example words_answers : exists file W, voikkovfstc_w_text one_digit_weight 0 false words_text = Ok (Some file) /\ load_weighted file = Ok (Loaded W) /\
  map (spells W) [wstr "ja"; wstr "Oo"; wstr "oo"; wstr "Ja"; wstr "jaa"; wstr "j"; wstr "xy"] =
    map Some [SPELL_OK; SPELL_OK; SPELL_CAP_FIRST; SPELL_FAILED; SPELL_FAILED; SPELL_FAILED; SPELL_FAILED] /\
  shown_analyses W true (wstr "Ja") = Some [(Some (wstr "ja"), Some [60])] /\ shown_analyses W true (wstr "Oo") = Some [].
Proof. do 2 eexists. split; [vm_compute; reflexivity|]. split; [vm_compute; reflexivity|]. split; [vm_compute; reflexivity|]. split; vm_compute; reflexivity. Qed.

(** Without the bound on what is written for a letter the speller is wrong: it
    wants to have less than 2000 characters of output, although it does not use
    them. *)
Definition wordy : list (item * Z) := [(Arc 0 0 (Letter 0x61) (Tag (wstr "1234567")), 0); (Final 0, 0)].
Theorem C72_output_bound_needed : exists A file W word,
  fitting_weighted A /\ (forall q q' s o z, In (Arc q q' s o, z) A -> exists c, s = Letter c) /\
  (forall k l q q1 q2 s o1 o2 z1 z2, nth_error A k = Some (Arc q q1 s o1, z1) -> nth_error A l = Some (Arc q q2 s o2, z2) -> k = l) /\
  voikkovfstc_w false (map weighted_line A) = Some file /\ load_weighted file = Ok (Loaded W) /\
  (length word <= 255)%nat /\ listed A word /\ spells W word = Some SPELL_FAILED.
Proof.
  exists wordy. do 2 eexists. exists (repeat 0x61 250). split.
  { split.
    - unfold fitting. conjs.
      + repeat constructor; try discriminate; unfold encodable; cbn; try lia; intuition discriminate.
      + exists 0x61. cbn. auto 20.
      + intros l N I. apply NoDup_incl_length in I; auto. cbn in I. lia.
      + vm_compute. discriminate.
    - repeat constructor; cbn; lia. }
  split. { intros q q' s o z [I|[I|[]]]; [injection I as <- <- <- <- <-; eauto|discriminate]. }
  split. { intros [ | [ | [ | k] ] ] [ | [ | [ | l] ] ] q q1 q2 s o1 o2 z1 z2 E1 E2; try discriminate. reflexivity. }
  split; [vm_compute; reflexivity|]. split; [vm_compute; reflexivity|]. split; [rewrite repeat_length; lia|]. split; [|vm_compute; reflexivity].
  unfold listed, accepted_with. induction (250%nat) as [ | n IH]; cbn [repeat].
  - exists [], 0. apply wrun_final. right. left. reflexivity.
  - destruct IH as (out & z & R). do 2 eexists. eapply wrun_letter; [left; reflexivity|exact R].
Qed.
Print Assumptions C72_output_bound_needed.
