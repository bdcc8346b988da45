(** * The meaning of capitalisation errors (C52). *)
From Verif Require Import Base BaseFacts CharModel TokenModel TokenSpec TokenProofs SpellerBase SentenceModel SentenceProofs AnalysisModel AnalyzerBase Utf8Model
  GcCacheModel HandleModel ParaModel RulesModel GrammarModel GrammarSpec RulesSpec CapSpec ParaProofs ParaLoops RulesProofs AutocorrectProofs CapProofs
  GrammarCallSpec GrammarProofs GrammarProps RuleMeaning RulesFound RulesProps CapMeaning.

(** Which of the errors found are capitalisation errors. *)
Lemma engine_cap : forall tr o p hi l, p <> [] -> Forall (good_sentence hi) p -> rule_engine tr o p = Ok l ->
  exists c, capitalization o p = Ok c /\ Forall (cap_error p) c /\ forall e, In (error_code e) [6; 7; 12] -> (In e l <-> In e c).
Proof.
  intros tr o p hi l N G E. unfold rule_engine in E.
  destruct (sentences_errors tr o p) as [l1| |] eqn:E1; try discriminate. cbn [bind] in E.
  destruct (capitalization_ok o p) as (l2 & X2 & F2).
  { eapply Forall_impl; [|exact G]. intros s (NE & L & _). split; auto. eapply located_nonempty; eauto. }
  rewrite X2 in E. cbn [bind] in E. destruct (end_punctuation o p) as [l3| |] eqn:E3; try discriminate. cbn [bind] in E. injection E as <-.
  exists l2. split; [auto|]. split; [auto|]. intros e C. rewrite !in_app_iff. split; [|auto]. intros [I|[I|I]]; [|exact I|].
  - exfalso. destruct (sentences_meaning tr o p hi l1 G E1) as (A & _). destruct (A e I) as (s & _ & [X|[(X & _)|[X|X]]]).
    + rewrite X in C. cbn in C. intuition lia.
    + rewrite X in C. cbn in C. intuition lia.
    + inversion X; subst; cbn in C; intuition lia.
    + inversion X; subst; cbn in C; intuition lia.
  - exfalso. assert (Forall (fun s => s_tokens s <> []) p) as NT by (eapply Forall_impl; [|exact G]; intros s (NE & _); auto).
    apply (end_meaning o p l3 NT N E3) in I. inversion I; subst. cbn in C. intuition lia.
Qed.

(** In any text: error 7 is reported only for words that start with neither a
    capital letter nor a digit and may not start a sentence as they are, error 6
    only for known words that start with a capital letter and may be written with
    a small one, error 12 only for closing parentheses.  The span is the word. *)
Theorem C52_reported : forall b o d text p l e, structured (b_analyzer b) -> text_ok text ->
  analyseParagraph (b_speller b) (b_analyzer b) d text = Ok (Some p) -> find_errors b o d text = Ok l -> In e l ->
  (error_code e = 7 -> exists w, In w (flat_map s_tokens p) /\ word w /\ needs_capital w e) /\
  (error_code e = 6 -> exists w, In w (flat_map s_tokens p) /\ word w /\ needs_small w e) /\
  (error_code e = 12 -> exists t c, In t (flat_map s_tokens p) /\ mark t c /\ In c [0x29; 0x5D] /\ e = mk_error 12 (g_pos t) 1 []).
Proof.
  intros b o d text p l e S (N & Z) E F I. destruct (found_engine _ _ _ _ _ _ S N E F) as (PN & G & Y & NO).
  assert (worth_checking p = true <-> checked p) as CI by (apply checked_iff; auto; eapply Forall_impl; [|exact G]; intros s (NE & _); auto).
  destruct (worth_checking p). 2:{ rewrite NO in I; [destruct I|]. intros X. apply CI in X. discriminate. }
  destruct (engine_cap _ _ _ _ _ PN G (Y (proj1 CI eq_refl))) as (c & _ & FC & IC). rewrite Forall_forall in FC.
  assert (forall t, In t (flat_map s_tokens p) -> g_str t <> [] /\ ~ In 0 (g_str t)) as TK.
  { intros t It. split.
    - apply in_flat_map in It. destruct It as (s & Is & Its). rewrite Forall_forall in G. destruct (G s Is) as (_ & L & _). apply located_nonempty in L.
      rewrite Forall_forall in L. auto.
    - intros X. apply Z. destruct (sure_sentences_exist (b_speller b) d text) as (ss & H & CC & _).
      destruct (paragraph_ok MAX_SENTENCES_IN_PARAGRAPH (b_speller b) (b_analyzer b) d text 0 ss S H) as [(_ & p' & E' & D & _)|(_ & E')];
        rewrite analyse_unfold, E' in E; [|discriminate]. injection E as ->.
      rewrite <- CC. apply (concat_firstn _ MAX_SENTENCES_IN_PARAGRAPH). rewrite <- (describes_concat _ _ _ D). eapply token_in_text; eauto. }
  assert (In (error_code e) [6; 7; 12] -> cap_error p e) as CE by (intros X; apply FC; apply IC; auto).
  split; [|split]; intros C; specialize (CE ltac:(rewrite C; cbn; tauto)); destruct CE as [t s It W A B P CF|t s It W A B P Q R L V T CF|t It P X]; try discriminate C.
  - exists t. split; [auto|]. split; [apply word_iff; auto|]. split; [auto|]. split; [auto|]. split; [auto|]. exists s. split; [|reflexivity].
    apply change_iff; [apply TK; auto|apply TK; auto|exact CF].
  - exists t. split; [auto|]. split; [apply word_iff; auto|]. repeat (split; [solve [auto]|]). split.
    + destruct (nth_error (g_str t) 1) as [x|] eqn:Q1; [exists x; auto|]. apply nth_error_None in Q1. unfold tokenlen in L. lia.
    + exists s. split; [|reflexivity]. apply change_iff; [apply TK; auto|apply TK; auto|exact CF].
  - exists t, (chr0 t). split; [auto|]. split; [split; [apply punct_iff; auto|reflexivity]|]. split; [cbn; destruct X; auto|]. reflexivity.
Qed.
Print Assumptions C52_reported.
Example C52_reported_ex :
  (l <- find_errors toy no_options false (wstr "kissa ei Luen.) Matti luen.") ;; Ok (map (fun e => (error_code e, startpos e, errorlen e, suggestions e)) l)) =
  Ok [(7, 0%nat, 5%nat, [wstr "Kissa"]); (6, 9%nat, 4%nat, [wstr "luen"]); (12, 14%nat, 1%nat, [])].
Proof. vm_compute. reflexivity. Qed.

(** In simple texts the check is exact: every word but a final one is compared
    with the punctuation before it, and the errors 6, 7 and 12 are exactly those
    described. *)
Theorem C52_plain : forall b o d text p l e, structured (b_analyzer b) -> text <> [] ->
  analyseParagraph (b_speller b) (b_analyzer b) d text = Ok (Some p) -> find_errors b o d text = Ok l ->
  checked p -> plain_paragraph p -> accept_titles o = false -> accept_bulleted o = false ->
  In (error_code e) [6; 7; 12] ->
  (In e l <-> capital_error (flat_map s_tokens p) e).
Proof.
  intros b o d text p l e S N E F CP PP AT AB C. destruct (found_engine _ _ _ _ _ _ S N E F) as (PN & G & Y & _).
  destruct (engine_cap _ _ _ _ _ PN G (Y CP)) as (c & EC & _ & IC). rewrite (IC e C).
  apply (plain_meaning o p c PN); auto. eapply Forall_impl; [|exact G]. intros s (NE & L & _). split; auto. eapply located_nonempty; eauto.
Qed.
Print Assumptions C52_plain.

(** The hypotheses are met by ordinary texts. *)
Definition plainb (t : gtoken) : bool :=
  negb (existsb (Z.eqb 0) (g_str t)) &&
  (if is_wordt t then negb (isInteger (text_of t)) && negb (isGeographicalNameInGenitive t) && negb (hd 0 (g_str t) =? 0x201C)
   else negb (existsb (Z.eqb (hd 0 (g_str t))) [0x22; 0xBB; 0x201C; 0x201D; 0x28; 0x29; 0x5B; 0x5D; 9])).
Lemma plainb_sound : forall t, plainb t = true -> plain_token t.
Proof.
  intros t H. unfold plainb in H. apply andb_true_iff in H. destruct H as (H1 & H2). split; [|split].
  - intros X. apply negb_true_iff in H1. assert (existsb (Z.eqb 0) (g_str t) = true) by (apply existsb_exists; exists 0; auto). congruence.
  - intros W X. destruct (is_wordt t) eqn:T; [apply word_iff in T; contradiction|]. apply negb_true_iff in H2.
    assert (existsb (Z.eqb (hd 0 (g_str t))) [0x22; 0xBB; 0x201C; 0x201D; 0x28; 0x29; 0x5B; 0x5D; 9] = true); [|congruence].
    apply existsb_exists. exists (hd 0 (g_str t)). split; [exact X|apply Z.eqb_refl].
  - intros W. apply word_iff in W. rewrite W in H2. apply andb_true_iff in H2. destruct H2 as (H2 & H3). apply andb_true_iff in H2. destruct H2 as (H2 & H4).
    apply negb_true_iff in H2, H3, H4. apply Z.eqb_neq in H3. auto.
Qed.
Definition simple_text : list Z := wstr "kissa Ei luen. matti, Luen ja Kissa! Ei Luen, luen.".
Example C52_plain_ex : exists p, analyseParagraph (b_speller toy) (b_analyzer toy) false simple_text = Ok (Some p) /\
  checked p /\ plain_paragraph p /\
  code_spans (find_errors toy no_options false simple_text) =
    Some [(7, 0%nat, 5%nat); (6, 6%nat, 2%nat); (7, 15%nat, 5%nat); (6, 22%nat, 4%nat); (6, 30%nat, 5%nat); (6, 40%nat, 4%nat)].
Proof.
  set (r := analyseParagraph (b_speller toy) (b_analyzer toy) false simple_text).
  assert (match r with
          | Ok (Some p) => forallb (fun s => forallb plainb (s_tokens s) && existsb (fun t => is_wordt t && existsb isLower (g_str t)) (s_tokens s)) p &&
                           Nat.eqb (length p) 3 && match flat_map s_tokens p with t :: _ => is_wordt t | [] => false end
          | _ => false end = true) as X by (vm_compute; reflexivity).
  destruct r as [[p|]| |]; try discriminate. apply andb_true_iff in X. destruct X as (X & X3). apply andb_true_iff in X. destruct X as (X1 & X2).
  apply Nat.eqb_eq in X2. rewrite forallb_forall in X1. exists p. split; [reflexivity|]. split; [intros s ->; discriminate|]. split.
  - split.
    + apply Forall_forall. intros s I. specialize (X1 s I). apply andb_true_iff in X1. destruct X1 as (A & B). rewrite forallb_forall in A. split.
      * apply Forall_forall. intros t It. apply plainb_sound. auto.
      * apply existsb_exists in B. destruct B as (w & Iw & B). apply andb_true_iff in B. destruct B as (B1 & B2). apply existsb_exists in B2. destruct B2 as (c & Ic & B2).
        exists w, c. split; [auto|]. split; [apply word_iff; auto|]. auto.
    + intros a w q E NW _ t It. destruct a as [|x a]; [destruct It|]. rewrite E in X3. cbn [app] in X3. apply word_iff in X3. elim (NW x); [left; auto|auto].
  - vm_compute. reflexivity.
Qed.

(** The suggestion of error 7 need not change the word. *)
Theorem C52_useless_refuted : exists text l e, find_errors toy no_options false text = Ok l /\ In e l /\ error_code e = 7 /\
  suggestions e = [firstn (errorlen e) (skipn (startpos e) text)].
Proof.
  exists (wstr "-kissa luen."), [mk_error 7 0 6 [wstr "-kissa"]], (mk_error 7 0 6 [wstr "-kissa"]).
  split; [vm_compute; reflexivity|]. split; [left; reflexivity|]. split; reflexivity.
Qed.
Print Assumptions C52_useless_refuted.

(** A word at the very end of the paragraph is not checked. *)
Theorem C52_last_refuted : exists text, code_spans (find_errors toy (mk_gc_options false true false) false (text ++ wstr ".")) = Some [(6, 11%nat, 5%nat)] /\
  code_spans (find_errors toy (mk_gc_options false true false) false text) = Some [].
Proof. exists (wstr "Matti luen Kissa"). split; vm_compute; reflexivity. Qed.
Print Assumptions C52_last_refuted.
