(** * Properties of the Python interface (C79, C80, C81). *)
From Coq Require Import Permutation Sorted.
From Verif Require Import Base BaseFacts CharModel TokenModel TokenSpec TokenProofs SpellerBase SentenceModel SentenceSpec SentenceProofs SentenceProps
  AnalyzerBase CacheModel GcCacheModel HandleModel ParaModel RulesModel GrammarModel GrammarSpec GrammarCallSpec
  RulesProofs GrammarProofs GrammarProps PyModel PySpec PyProofs.

(** ** C79: tokens and sentences *)

(** [tokens] returns for every text, also one with NUL characters, the tokens
    that the library finds between the NULs and a token for each NUL.  The list
    is uniquely determined, its tokens concatenate to the text, none is empty,
    and a NUL occurs only as a token of its own. *)
Theorem C79_tokens : forall ignore_dot text, exists toks,
  py_tokens ignore_dot text = Ok toks /\
  token_list (nextToken ignore_dot) text toks /\
  (forall toks', token_list (nextToken ignore_dot) text toks' -> toks' = toks) /\
  concat (map snd toks) = text /\
  Forall (fun tk => snd tk <> []) toks /\
  (forall tk, In tk toks -> In 0 (snd tk) -> tk = (TOKEN_UNKNOWN, [0])).
Proof.
  intros d text. destruct (py_tokens_ok d text) as (toks & E & T). exists toks. split; [auto|]. split; [auto|].
  split; [intros; eapply token_list_unique; eauto|]. now apply token_list_concat with (d := d).
Qed.
Print Assumptions C79_tokens.

(** A text without NUL has the tokens of the library. *)
Theorem C79_plain : forall ignore_dot text toks, ~ In 0 text ->
  (py_tokens ignore_dot text = Ok toks <-> token_seq (nextToken ignore_dot) text toks).
Proof.
  intros d text toks N. destruct (py_tokens_ok d text) as (l & E & T). rewrite E. split.
  - intros Q. injection Q as <-. inversion T; subst; auto. elim N. apply in_or_app. right. now left.
  - intros S. f_equal. eapply token_list_unique; [exact T|]. now constructor.
Qed.
Print Assumptions C79_plain.

Example C79_tokens_ex :
  py_tokens false (wstr "kissa, " ++ [0; 0] ++ wstr "koira." ++ [0]) =
  Ok [(TOKEN_WORD, wstr "kissa"); (TOKEN_PUNCTUATION, wstr ","); (TOKEN_WHITESPACE, wstr " "); (TOKEN_UNKNOWN, [0]); (TOKEN_UNKNOWN, [0]);
      (TOKEN_WORD, wstr "koira"); (TOKEN_PUNCTUATION, wstr "."); (TOKEN_UNKNOWN, [0])].
Proof. vm_compute. reflexivity. Qed.

(** [sentences] returns for every text without NUL the sentences of the
    library.  They concatenate to the text, none is empty, and the last one, and
    no other, says that no sentence follows. *)
Theorem C79_sentences : forall spell ignore_dot text, ~ In 0 text -> text <> [] -> exists ss last,
  py_sentences spell ignore_dot text = Ok (ss ++ [(last, SENTENCE_NONE)]) /\
  sentence_seq (sentence_next spell ignore_dot) text (map fst ss ++ [last]) /\
  concat (map fst ss ++ [last]) = text /\
  Forall (fun s => s <> []) (map fst ss ++ [last]) /\
  Forall (fun s => snd s <> SENTENCE_NONE) ss.
Proof.
  intros spell d text Z NE. unfold py_sentences, isValidInput. apply mem_false in Z. rewrite Z. cbn [negb].
  destruct (sentences_loop_ok spell d (S (length text)) [] text) as (ss & ty & last & E & S & -> & F); [lia|auto|].
  cbn [app length] in E. exists ss, last. split; [exact E|]. split; [auto|].
  destruct (sentence_seq_exists spell d text) as (ss' & S' & C & N). rewrite (sentence_seq_unique _ _ _ _ S S'). auto.
Qed.
Print Assumptions C79_sentences.

(** The empty text has no sentences, and a text with a NUL is not split at all:
    so the results always concatenate to the text. *)
Theorem C79_sentences_all : forall spell ignore_dot text, exists ss,
  py_sentences spell ignore_dot text = Ok ss /\ concat (map fst ss) = text /\
  (In 0 text -> ss = [(text, SENTENCE_NONE)]) /\ (text = [] -> ss = []).
Proof.
  intros spell d text. destruct (mem 0 text) eqn:Z.
  - exists [(text, SENTENCE_NONE)]. unfold py_sentences, isValidInput. rewrite Z. cbn [negb map fst concat]. rewrite app_nil_r.
    repeat split; auto. intros ->. discriminate.
  - pose proof Z as Z'. apply mem_false in Z'. destruct text as [|c r]; [exists []; repeat split; auto; intros []|].
    destruct (C79_sentences spell d (c :: r) Z') as (ss & last & E & _ & C & _); [discriminate|].
    exists (ss ++ [(last, SENTENCE_NONE)]). split; [auto|]. rewrite map_app. cbn [map fst]. split; [auto|]. split; [intros Q; contradiction|discriminate].
Qed.
Print Assumptions C79_sentences_all.

Example C79_sentences_ex :
  py_sentences (fun _ => SPELL_FAILED) false (wstr "Kissa tuli. Koira meni! Ei") =
    Ok [(wstr "Kissa tuli. ", SENTENCE_PROBABLE); (wstr "Koira meni! ", SENTENCE_PROBABLE); (wstr "Ei", SENTENCE_NONE)] /\
  py_sentences (fun _ => SPELL_FAILED) false (wstr "Ei! On!" ++ [0]) = Ok [(wstr "Ei! On!" ++ [0], SENTENCE_NONE)].
Proof. split; vm_compute; reflexivity. Qed.

(** The sentence detection of the library itself would split such a text. *)
Example C79_nul : exists text, In 0 text /\
  (exists ss, py_sentences (fun _ => SPELL_FAILED) false text = Ok ss /\ length ss = 1%nat) /\
  (exists ss, sentence_seq (sentence_next (fun _ => SPELL_FAILED) false) text ss /\ length ss = 3%nat).
Proof.
  exists (wstr "Ei! On!" ++ [0]). split; [vm_compute; tauto|]. split; [eexists; split; vm_compute; reflexivity|].
  exists [wstr "Ei! "; wstr "On!"; [0]]. split; [|reflexivity].
  apply (sseq_step _ (wstr "Ei! On!" ++ [0]) SENTENCE_PROBABLE 4 false); [vm_compute; reflexivity|discriminate|].
  apply (sseq_step _ (wstr "On!" ++ [0]) SENTENCE_PROBABLE 3 false); [vm_compute; reflexivity|discriminate|].
  apply (sseq_end _ [0] 1 false). vm_compute. reflexivity.
Qed.

(** ** C80: grammar errors of a text of several paragraphs *)

(** [grammarErrors] ends, for every text without NUL and every history of the
    handle, and returns for each line of the text the errors that the library
    finds in it, moved to where the line is in the text.  The number of steps
    the loops need has a bound; with any number of steps above it the result is
    the same.  The options of the handle are kept. *)
Theorem C80_errors : forall b h text, structured (b_analyzer b) -> never_empty (b_autocorrect b) -> reached b h -> ~ In 0 text ->
  exists steps lines l h', (forall fuel, (steps <= fuel)%nat -> py_grammarErrors fuel b h text = Ok (l, h')) /\
    lines_of text lines /\ (forall lines', lines_of text lines' -> lines' = lines) /\
    errors_of b (gc_options_of h) 0 lines l /\ (forall l', errors_of b (gc_options_of h) 0 lines l' -> l' = l) /\
    reached b h' /\ gc_options_of h' = gc_options_of h.
Proof.
  intros b h text S N R Z. pose proof (split_lines text) as L.
  destruct (paragraphs_ok b S N (split_at 10 text []) 0 h [] R (lines_no_nul _ _ L Z)) as (steps & l & h' & E & EO & R' & O).
  exists steps, (split_at 10 text []), l, h'. split.
  { intros fuel F. unfold py_grammarErrors, isValidInput. apply mem_false in Z. rewrite Z. cbn [negb]. now rewrite E. }
  split; [auto|]. split; [intros; eapply lines_unique; eauto|]. split; [auto|]. split; [intros; eapply errors_unique; eauto|]. auto.
Qed.
Print Assumptions C80_errors.

(** The errors are in the order of the text, each lies inside one line of the
    text, is not empty and has a known code. *)
Theorem C80_spans : forall b h text fuel l h', structured (b_analyzer b) -> never_empty (b_autocorrect b) -> reached b h -> ~ In 0 text ->
  py_grammarErrors fuel b h text = Ok (l, h') ->
  Forall (fun e => (0 < errorlen e)%nat /\ 1 <= error_code e <= 18 /\ inside_line text (startpos e) (errorlen e)) l /\
  StronglySorted (fun e f => (startpos e <= startpos f)%nat) l.
Proof.
  intros b h text fuel l h' S N R Z E.
  destruct (C80_errors b h text S N R Z) as (steps & lines & l2 & h2 & E2 & L & _ & EO & _).
  pose proof (grammarErrors_mono fuel (Nat.max fuel steps) b h text _ ltac:(lia) E) as K. rewrite E2 in K by lia. injection K as -> ->.
  destruct (errors_inside b (gc_options_of h) S N text lines L Z [] l (or_introl eq_refl) EO) as (F & SS). split; [|auto].
  eapply Forall_impl; [|exact F]. cbn. tauto.
Qed.
Print Assumptions C80_spans.

(** Two handles with the same options report the same errors, whatever was
    done with them before. *)
Theorem C80_history : forall b h1 h2 text, structured (b_analyzer b) -> never_empty (b_autocorrect b) ->
  reached b h1 -> reached b h2 -> gc_options_of h1 = gc_options_of h2 ->
  exists steps l, forall fuel, (steps <= fuel)%nat -> exists h1' h2',
    py_grammarErrors fuel b h1 text = Ok (l, h1') /\ py_grammarErrors fuel b h2 text = Ok (l, h2').
Proof.
  intros b h1 h2 text S N R1 R2 O. destruct (mem 0 text) eqn:Z.
  - exists 0%nat, []. intros fuel _. exists h1, h2. unfold py_grammarErrors, isValidInput. rewrite Z. auto.
  - apply mem_false in Z. destruct (C80_errors b h1 text S N R1 Z) as (s1 & lines & l & h1' & E1 & L & _ & EO & _).
    destruct (C80_errors b h2 text S N R2 Z) as (s2 & lines' & l' & h2' & E2 & _ & U & _ & U2 & _).
    rewrite (U _ L), O in EO. rewrite (U2 _ EO) in *. exists (Nat.max s1 s2), l'. intros fuel F. exists h1', h2'. rewrite E1, E2 by lia. auto.
Qed.
Print Assumptions C80_history.

(** A text with a NUL is not checked. *)
Theorem C80_nul : forall b h text fuel, In 0 text -> py_grammarErrors fuel b h text = Ok ([], h).
Proof. intros b h text fuel Z. unfold py_grammarErrors, isValidInput. apply mem_In in Z. now rewrite Z. Qed.
Print Assumptions C80_nul.
Example C80_nul_ex : exists h text, voikkoInit = Ok h /\ (exists l h', py_grammarErrors 20 toy h text = Ok (l, h') /\ l <> []) /\
  forall fuel, py_grammarErrors fuel toy h (text ++ [10; 0]) = Ok ([], h).
Proof.
  eexists. exists (wstr "On ,, ei."). split; [reflexivity|]. split; [do 2 eexists; split; [vm_compute; reflexivity|discriminate]|].
  intros fuel. reflexivity.
Qed.

Definition py_spans (r : res (list gc_error * handle)) : option (list (Z * nat * nat)) :=
  match r with Ok (l, _) => code_spans (Ok l) | _ => None end.
Example C80_ex : exists h, voikkoInit = Ok h /\ reached toy2 h /\
  py_spans (py_grammarErrors 20 toy2 h (wstr "ei luen ,, joten kuten" ++ [10; 10] ++ wstr "On  ei." ++ [10])) =
  Some [(13, 0%nat, 7%nat); (7, 0%nat, 2%nat); (3, 7%nat, 2%nat); (4, 8%nat, 2%nat); (1, 11%nat, 11%nat); (9, 17%nat, 5%nat); (2, 26%nat, 2%nat)].
Proof.
  eexists. split; [reflexivity|]. split; [apply reached_init; reflexivity|]. vm_compute. reflexivity.
Qed.

(** ** C81: the order of dictionaries *)

(** Dictionaries compare as equal exactly if all their strings are equal, no
    dictionary comes before itself, and of two different dictionaries at least
    one comes before the other.  Missing: that only one of them does. *)
Theorem C81_order_partial : forall a b,
  (dict_eq a b = true <-> a = b) /\ dict_lt a a = false /\ (a <> b -> dict_lt a b = true \/ dict_lt b a = true).
Proof.
  intros [l s v d] [l' s' v' d']. unfold dict_eq, dict_lt. cbn [d_language d_script d_variant d_description]. split.
  - rewrite !andb_true_iff, !str_eq_iff. split; [intros (((-> & ->) & ->) & ->); reflexivity|intros Q; injection Q; auto].
  - rewrite !str_lt_irrefl. split; [reflexivity|]. intros N.
    destruct (str_lt l l') eqn:A1; auto. destruct (str_lt l' l) eqn:A2; auto.
    destruct (str_lt s s') eqn:B1; auto. destruct (str_lt s' s) eqn:B2; auto.
    destruct (str_lt v v') eqn:C1; auto. destruct (str_lt v' v) eqn:C2; auto.
    destruct (str_lt d d') eqn:D1; auto. destruct (str_lt d' d) eqn:D2; auto.
    elim N. apply str_lt_total in A1, B1, C1, D1; auto. congruence.
Qed.
Print Assumptions C81_order_partial.

(** Two dictionaries can each come before the other, so that the result of
    sorting a list of dictionaries depends on the order it had: the variant is
    compared although the languages differ. *)
Theorem C81_order_refuted : exists a b, d_language a = wstr "fi" /\ d_variant a = wstr "standard" /\ d_language b = wstr "se" /\ d_variant b = wstr "default" /\
  dict_lt a b = true /\ dict_lt b a = true.
Proof.
  exists (mk_dict (wstr "fi") [] (wstr "standard") (wstr "x")), (mk_dict (wstr "se") [] (wstr "default") (wstr "x")).
  repeat split; vm_compute; reflexivity.
Qed.
Print Assumptions C81_order_refuted.
Example C81_ex : dict_lt (mk_dict (wstr "fi") [] (wstr "a") []) (mk_dict (wstr "fi") [] (wstr "b") []) = true.
Proof. reflexivity. Qed.
