(** * Properties of the JavaScript interface (C89, C90, C91). *)
From Coq Require Import Permutation Sorted.
From Verif Require Import Base BaseFacts CharModel TokenModel TokenSpec TokenProofs Utf8Model Utf8Spec Utf8Proofs SpellerBase SentenceModel SentenceSpec SentenceProofs
  AnalyzerBase CacheModel GcCacheModel HandleModel ParaModel RulesModel GrammarModel GrammarSpec GrammarCallSpec
  RulesProofs GrammarProofs GrammarProps PyModel PySpec PyProofs JavaModel JavaSpec JavaProofs JsModel JsSpec JsProofs.

(** ** C89: tokens *)

(** For strings of NULs and characters with one unit, except U+FFFE and U+FFFF,
    [tokens] ends and returns the tokens that repeated calls of the library find
    between NULs and each NUL as a token of its own.  They concatenate to the
    string and none is empty.  Missing: surrogates and the two characters. *)
Theorem C89_tokens_partial : forall enc, writes_utf8 enc -> forall ignore_dot text, Forall (fun u => plain u \/ u = 0) text -> exists toks,
  (forall fuel, (length text < fuel)%nat -> js_tokens enc fuel ignore_dot text = Ok toks) /\
  token_list (fun w => nextTokenCstr ignore_dot (utf8_text w)) text toks /\
  (forall toks', token_list (fun w => nextTokenCstr ignore_dot (utf8_text w)) text toks' -> toks' = toks) /\
  concat (map snd toks) = text /\ Forall (fun tk => snd tk <> [] /\ fst tk <> TOKEN_NONE) toks.
Proof.
  intros enc W d text A. destruct (js_tokens_ok enc W d (S (length text)) (S (length text)) [] text [] A) as (toks & _ & T); try lia.
  exists toks. split.
  { intros fuel L. destruct (js_tokens_ok enc W d fuel (S (length text)) [] text [] A) as (toks' & E & T'); try lia.
    rewrite (token_list_unique _ _ _ _ T' T) in E. exact E. }
  split; [exact T|]. split; [intros toks' T'; eapply token_list_unique; eauto|]. eapply js_list_concat; eauto.
Qed.
Print Assumptions C89_tokens_partial.

(** With the unit 0xFFFF the library returns no token and the loop goes on
    forever, whatever the number of steps. *)
Theorem C89_ends_refuted : forall enc fuel ignore_dot, enc [] = [] -> enc [0xFFFF] = [0xEF; 0xBF; 0xBF] -> js_tokens enc fuel ignore_dot [0xFFFF] = Fuel.
Proof.
  intros enc fuel d E0 E1. unfold js_tokens. cbn [length js_tokens_loop].
  change (find_from 0 [0xFFFF] 0) with (@None nat). cbn [skipn].
  assert (js_tokensNonNull enc fuel d [0xFFFF] = Fuel) as ->; [|reflexivity].
  unfold js_tokensNonNull. rewrite E1. cbn [length].
  induction fuel as [|fuel IH]; [reflexivity|]. cbn [js_nonnull_loop]. change (0 <? 3)%nat with true. cbn iota.
  replace (nextTokenCstr d (firstn 3 (skipn 0 [0xEF; 0xBF; 0xBF]))) with (@Ok (token_type * nat) (TOKEN_NONE, 0%nat)) by (destruct d; vm_compute; reflexivity).
  cbn [bind]. change (slice [0xFFFF] 0 (0 + 0)) with (@nil Z). rewrite E0. cbn [length].
  change (0 + 0)%nat with 0%nat. change (3 - 0)%nat with 3%nat. rewrite IH. reflexivity.
Qed.
Print Assumptions C89_ends_refuted.

(** UTF-8 is such an encoding. *)
Example C89_enc : writes_utf8 getBytes /\ writes_utf8 utf8_text /\ utf8_text [] = [] /\ utf8_text [0xFFFF] = [0xEF; 0xBF; 0xBF].
Proof. split; [intros s; apply getBytes_plain|]. split; [intros s _; reflexivity|]. split; reflexivity. Qed.
Example C89_ex : Forall (fun u => plain u \/ u = 0) (wstr "oi " ++ [0; 0xE4] ++ wstr "ei.") /\
  js_tokens utf8_text 20 false (wstr "oi " ++ [0; 0xE4] ++ wstr "ei.") =
  Ok [(TOKEN_WORD, wstr "oi"); (TOKEN_WHITESPACE, wstr " "); (TOKEN_UNKNOWN, [0]); (TOKEN_WORD, 0xE4 :: wstr "ei"); (TOKEN_PUNCTUATION, wstr ".")].
Proof.
  split; [|vm_compute; reflexivity].
  repeat (constructor; [first [left; split; cbn; lia|right; reflexivity]|]). constructor.
Qed.

(** ** C90: sentences *)

(** For strings of characters with one unit, except U+FFFE and U+FFFF, the
    result is that of the library, whatever the memory for lengths holds at
    first.  Missing: surrogates and the two characters. *)
Theorem C90_sentences_partial : forall enc, writes_utf8 enc -> forall len spell ignore_dot text, Forall plain text -> text <> [] -> exists ss last,
  (forall fuel, (length text < fuel)%nat -> js_sentences enc len fuel spell ignore_dot text = Ok (ss ++ [(last, SENTENCE_NONE)])) /\
  sentence_seq (sentence_next spell ignore_dot) text (map fst ss ++ [last]) /\
  concat (map fst ss ++ [last]) = text /\ Forall (fun s => snd s <> SENTENCE_NONE) ss.
Proof.
  intros enc W len spell d text P NE.
  assert (Forall some_unit text) as SU by (eapply Forall_impl; [|exact P]; intros u (A & _); exact A).
  destruct (jsentences_ok spell d (S (length text)) text len P ltac:(lia) NE) as (ss & last & E & S & F).
  destruct (jsentences_concat spell d (length text) text len ltac:(lia) SU) as (all & E2 & C & _).
  rewrite E2 in E by lia. injection E as ->. exists ss, last. split.
  { intros fuel L. unfold js_sentences, isValidInput. rewrite (proj2 (mem_false 0 text) (plain_no_nul _ P)). cbn [negb].
    rewrite (W _ P), js_sentences_same by auto. now apply E2. }
  split; [auto|]. split; [|auto]. rewrite map_app in C. exact C.
Qed.
Print Assumptions C90_sentences_partial.

(** A string with a NUL is one sentence; the empty string has none. *)
Theorem C90_other : forall enc len fuel spell ignore_dot text,
  (In 0 text -> js_sentences enc len fuel spell ignore_dot text = Ok [(text, SENTENCE_NONE)]) /\
  (text = [] -> writes_utf8 enc -> js_sentences enc len (S fuel) spell ignore_dot text = Ok []).
Proof.
  intros enc len fuel spell d text. split.
  - intros Z. unfold js_sentences, isValidInput. apply mem_In in Z. now rewrite Z.
  - intros -> W. unfold js_sentences. rewrite (W []) by constructor. reflexivity.
Qed.
Print Assumptions C90_other.

(** With the unit 0xFFFF the library stores no length.  If the memory for it
    holds 0, the loop goes on forever. *)
Theorem C90_ends_refuted : forall enc fuel spell ignore_dot, enc [] = [] -> enc [0xFFFF] = [0xEF; 0xBF; 0xBF] ->
  js_sentences enc 0 fuel spell ignore_dot [0xFFFF] = Fuel.
Proof.
  intros enc fuel spell d E0 E1. unfold js_sentences. change (negb (isValidInput [0xFFFF])) with false. cbn iota. rewrite E1. cbn [length].
  induction fuel as [|fuel IH]; [reflexivity|]. cbn [js_sentences_loop]. change (0 <? 3)%nat with true. cbn iota.
  change (sentence_next_cstr spell d (firstn 3 [0xEF; 0xBF; 0xBF])) with (@Ok (sentence_type * option nat * bool) (SENTENCE_NONE, None, d)). cbn [bind].
  change (slice [0xFFFF] 0 0) with (@nil Z). rewrite E0. cbn [length skipn]. change (3 - 0)%nat with 3%nat. rewrite IH. reflexivity.
Qed.
Print Assumptions C90_ends_refuted.

Example C90_ex : Forall plain (wstr "Ei! On.") /\
  js_sentences utf8_text 7 20 (fun _ => SPELL_FAILED) false (wstr "Ei! On.") = Ok [(wstr "Ei! ", SENTENCE_PROBABLE); (wstr "On.", SENTENCE_NONE)].
Proof. split; [|vm_compute; reflexivity]. repeat (constructor; [split; cbn; lia|]). constructor. Qed.

(** ** C91: grammar errors *)

(** For strings of characters with one unit, except U+FFFE and U+FFFF,
    [grammarErrors] ends and returns for each line the errors that the library
    finds in it, moved to where the line is: in the order of the text, each
    inside one line.  Carriage returns end lines as newlines do.  Missing:
    surrogates and the two characters. *)
Theorem C91_errors_partial : forall enc, writes_utf8 enc -> forall b h text, structured (b_analyzer b) -> never_empty (b_autocorrect b) -> reached b h ->
  Forall plain text ->
  exists text' lines l steps h', newlines text text' /\ lines_of text' lines /\ errors_of b (gc_options_of h) 0 lines l /\
    (forall fuel, (steps <= fuel)%nat -> js_grammarErrors enc fuel b h text = Ok (l, h')) /\
    reached b h' /\ gc_options_of h' = gc_options_of h /\
    Forall (fun e => (0 < errorlen e)%nat /\ 1 <= error_code e <= 18 /\ inside_line text' (startpos e) (errorlen e)) l /\
    StronglySorted (fun e f => (startpos e <= startpos f)%nat) l.
Proof.
  intros enc W b h text S N R P. set (text' := map (fun c => if c =? 13 then 10 else c) text).
  assert (Forall plain text') as P' by (unfold text'; clear - P; induction P as [|c r C P IH]; cbn [map]; constructor; auto; destruct (c =? 13); [split; lia|auto]).
  pose proof (split_lines text') as L. pose proof (lines_plain _ _ L P') as PL.
  destruct (paragraphs_ok b S N (split_at 10 text' []) 0 h [] R) as (steps & l & h' & E & EO & R' & O).
  { eapply Forall_impl; [|exact PL]. intros p. apply plain_no_nul. }
  exists text', (split_at 10 text' []), l, steps, h'. split; [unfold text'; clear; induction text; cbn; constructor; auto|].
  split; [auto|]. split; [auto|]. split.
  { intros fuel F. unfold js_grammarErrors, isValidInput. rewrite (proj2 (mem_false 0 text) (plain_no_nul _ P)). cbn [negb].
    fold text'. rewrite js_paragraphs_same, jparagraphs_same by auto. now apply E. }
  split; [auto|]. split; [auto|].
  destruct (errors_inside b (gc_options_of h) S N text' _ L (plain_no_nul _ P') [] l (or_introl eq_refl) EO) as (F & SS). split; [|auto].
  eapply Forall_impl; [|exact F]. cbn. tauto.
Qed.
Print Assumptions C91_errors_partial.

(** A text with a NUL is not checked. *)
Theorem C91_nul : forall enc b h text fuel, In 0 text -> js_grammarErrors enc fuel b h text = Ok ([], h).
Proof. intros enc b h text fuel Z. unfold js_grammarErrors, isValidInput. apply mem_In in Z. now rewrite Z. Qed.
Print Assumptions C91_nul.

(** Behind a character with two units errors are reported one unit too early, if
    such a character is written as UTF-8. *)
Theorem C91_position_refuted : exists h text l h' e, voikkoInit = Ok h /\
  js_grammarErrors getBytes 20 toy h text = Ok (l, h') /\ In e l /\ error_code e = 4 /\
  firstn (errorlen e) (skipn (startpos e) text) = wstr " ,".
Proof.
  eexists. exists ([0xD83D; 0xDE00] ++ wstr " luen ,, ei."). eexists. eexists. eexists. split; [reflexivity|].
  split; [vm_compute; reflexivity|]. split; [right; right; left; reflexivity|]. split; vm_compute; reflexivity.
Qed.
Print Assumptions C91_position_refuted.

Example C91_ex : exists h, voikkoInit = Ok h /\ reached toy2 h /\ Forall plain (wstr "ei luen ,, joten kuten" ++ [13; 10] ++ wstr "On  ei." ++ [10]) /\
  js_grammarErrors utf8_text 20 toy2 h (wstr "ei luen ,, joten kuten" ++ [13; 10] ++ wstr "On  ei." ++ [10]) =
  py_grammarErrors 20 toy2 h (wstr "ei luen ,, joten kuten" ++ [10; 10] ++ wstr "On  ei." ++ [10]).
Proof.
  eexists. split; [reflexivity|]. split; [apply reached_init; reflexivity|]. split; [|vm_compute; reflexivity].
  repeat (constructor; [split; cbn; lia|]). constructor.
Qed.
