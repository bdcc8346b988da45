(** * Properties of the Java interface (C82, C83, C84). *)
From Coq Require Import Permutation Sorted.
From Verif Require Import Base BaseFacts CharModel TokenModel TokenSpec TokenProofs Utf8Model Utf8Spec Utf8Proofs SpellerBase SentenceModel SentenceSpec SentenceProofs
  AnalyzerBase CacheModel GcCacheModel HandleModel ParaModel RulesModel GrammarModel GrammarSpec GrammarCallSpec
  RulesProofs GrammarProofs GrammarProps PyModel PySpec PyProofs JavaModel JavaSpec JavaProofs.

(** ** C82: tokens *)

(** For every string without the units 0xFFFE and 0xFFFF [tokens] ends and
    returns the tokens that repeated calls of the library find between NULs and
    surrogates, and each NUL and each surrogate as a token of its own.  The
    tokens concatenate to the string, none is empty, and the offset of each is
    where its text is.  Missing: strings with the two excluded units. *)
Theorem C82_tokens_partial : forall ignore_dot text, Forall (fun u => plain u \/ single u) text -> exists toks,
  (forall fuel, (length text < fuel)%nat -> java_tokens fuel ignore_dot text = Ok (positions 0 toks)) /\
  unit_tokens (fun w => nextTokenCstr ignore_dot (utf8_text w)) text toks /\
  (forall toks', unit_tokens (fun w => nextTokenCstr ignore_dot (utf8_text w)) text toks' -> toks' = toks) /\
  concat (map snd toks) = text /\
  Forall (fun tk => snd tk <> [] /\ fst tk <> TOKEN_NONE) toks /\
  (forall t s p, In (t, s, p) (positions 0 toks) -> In (t, s) toks /\ firstn (length s) (skipn p text) = s).
Proof.
  intros d text A. destruct (jtokens_ok d (S (length text)) (S (length text)) [] text [] A) as (toks & _ & T); try lia.
  change (unit_tokens (jnext d) text toks) in T. exists toks. destruct (unit_concat d text toks T) as (C & F). split.
  { intros fuel L. destruct (jtokens_ok d fuel (S (length text)) [] text [] A) as (toks' & E & T'); try lia.
    rewrite (unit_unique _ _ _ _ T' T) in E. exact E. }
  split; [exact T|]. split; [intros; eapply unit_unique; eauto|]. split; [auto|]. split; [auto|].
  intros t s p I. destruct (positions_at toks [] t s p I) as (I2 & E). cbn [app] in E. rewrite C in E. auto.
Qed.
Print Assumptions C82_tokens_partial.

(** Each of these calls finds a token of the kind its type says, at the
    beginning of the text or of a part of it that starts there. *)
Theorem C82_calls_partial : forall ignore_dot w, Forall plain w -> w <> [] -> exists t n m,
  nextTokenCstr ignore_dot (utf8_text w) = Ok (t, n) /\ t <> TOKEN_NONE /\ (0 < n <= length w)%nat /\ token_ok (firstn m w) t n.
Proof. exact jnext_ok. Qed.
Print Assumptions C82_calls_partial.

(** With the unit 0xFFFF the library returns no token and the loop goes on
    forever, whatever the number of steps. *)
Theorem C82_ends_refuted : forall fuel ignore_dot, java_tokens fuel ignore_dot [0xFFFF] = Fuel.
Proof.
  intros fuel d. unfold java_tokens. cbn [length jtokens_loop].
  change (indexOfSpecialUnknown [0xFFFF] 0) with (@None nat). change (substring [0xFFFF] 0 1) with (Ok [0xFFFF]). cbn [bind].
  assert (tokensNonNull fuel d [0xFFFF] 0 = Fuel) as ->; [|reflexivity].
  unfold tokensNonNull. change (getBytes [0xFFFF]) with [0xEF; 0xBF; 0xBF]. cbn [length].
  induction fuel as [|fuel IH]; [reflexivity|]. cbn [nonnull_loop]. change (0 <? 3)%nat with true. cbn iota.
  replace (nextTokenCstr d (firstn 3 (skipn 0 [0xEF; 0xBF; 0xBF]))) with (@Ok (token_type * nat) (TOKEN_NONE, 0%nat)) by (destruct d; vm_compute; reflexivity).
  cbn [bind]. change (substring [0xFFFF] 0 (0 + 0)) with (@Ok (list Z) []). cbn [bind length]. change (length (getBytes [])) with 0%nat.
  change (0 + 0)%nat with 0%nat. change (3 - 0)%nat with 3%nat. rewrite IH. reflexivity.
Qed.
Print Assumptions C82_ends_refuted.

Example C82_ex : Forall (fun u => plain u \/ single u) (wstr "oi " ++ [0xD83D; 0xDE00] ++ wstr "ei." ++ [0; 0xE4]) /\
  java_tokens 20 false (wstr "oi " ++ [0xD83D; 0xDE00] ++ wstr "ei." ++ [0; 0xE4]) =
  Ok [(TOKEN_WORD, wstr "oi", 0%nat); (TOKEN_WHITESPACE, wstr " ", 2%nat); (TOKEN_UNKNOWN, [0xD83D], 3%nat); (TOKEN_UNKNOWN, [0xDE00], 4%nat);
      (TOKEN_WORD, wstr "ei", 5%nat); (TOKEN_PUNCTUATION, wstr ".", 7%nat); (TOKEN_UNKNOWN, [0], 8%nat); (TOKEN_WORD, [0xE4], 9%nat)].
Proof.
  split; [|vm_compute; reflexivity].
  repeat (constructor; [first [left; split; cbn; lia|right; unfold single; cbn; lia]|]). constructor.
Qed.

(** ** C83: sentences *)

(** For strings of characters with one unit, except U+FFFE and U+FFFF, the
    result is that of the library: the sentences concatenate to the text and
    only the last one says that no sentence follows.  Missing: surrogates. *)
Theorem C83_sentences_partial : forall spell ignore_dot text, Forall plain text -> text <> [] -> exists ss last,
  (forall fuel, (length text < fuel)%nat -> java_sentences fuel spell ignore_dot text = Ok (ss ++ [(last, SENTENCE_NONE)])) /\
  sentence_seq (sentence_next spell ignore_dot) text (map fst ss ++ [last]) /\
  concat (map fst ss ++ [last]) = text /\ Forall (fun s => snd s <> SENTENCE_NONE) ss.
Proof.
  intros spell d text P NE.
  assert (Forall some_unit text) as SU by (eapply Forall_impl; [|exact P]; intros u (A & _); exact A).
  destruct (jsentences_ok spell d (S (length text)) text 0 P ltac:(lia) NE) as (ss & last & E & S & F).
  destruct (jsentences_concat spell d (length text) text 0 ltac:(lia) SU) as (all & E2 & C & _).
  rewrite E2 in E by lia. injection E as ->. exists ss, last. split.
  { intros fuel L. unfold java_sentences, isValidInput. rewrite (proj2 (mem_false 0 text) (plain_no_nul _ P)). cbn [negb]. now apply E2. }
  split; [auto|]. split; [|auto]. rewrite map_app in C. exact C.
Qed.
Print Assumptions C83_sentences_partial.

(** Also with surrogates nothing is lost: for every string without the units
    0xFFFE and 0xFFFF [sentences] ends and its results concatenate to the
    string. *)
Theorem C83_concat_partial : forall spell ignore_dot text, Forall (fun u => 0 <= u < 0xFFFE) text -> exists ss,
  (forall fuel, (length text < fuel)%nat -> java_sentences fuel spell ignore_dot text = Ok ss) /\
  concat (map fst ss) = text /\ Forall (fun s => fst s <> []) ss.
Proof.
  intros spell d text F. unfold java_sentences, isValidInput. destruct (mem 0 text) eqn:Z; cbn [negb].
  - exists [(text, SENTENCE_NONE)]. cbn [map fst concat]. rewrite app_nil_r. repeat split; auto. constructor; [|auto]. cbn. intros ->. discriminate.
  - apply mem_false in Z. apply jsentences_concat; [lia|]. rewrite Forall_forall in *. intros u I. specialize (F u I). unfold some_unit.
    assert (u <> 0) by (intros ->; auto). lia.
Qed.
Print Assumptions C83_concat_partial.

(** A character with two units moves the boundaries behind it: the library
    counts characters, and the interface takes the number for one of units.
    The space behind the first sentence becomes part of the second. *)
Theorem C83_boundaries_refuted : exists text,
  sentence_seq (sentence_next (fun _ => SPELL_FAILED) false) (chars text) [0x1F600 :: wstr " oi! "; wstr "Ei."] /\
  (forall fuel, (20 < fuel)%nat -> java_sentences fuel (fun _ => SPELL_FAILED) false text =
     Ok [([0xD83D; 0xDE00] ++ wstr " oi!", SENTENCE_PROBABLE); (wstr " Ei.", SENTENCE_NONE)]).
Proof.
  exists ([0xD83D; 0xDE00] ++ wstr " oi! Ei."). split.
  - apply (sseq_step _ (0x1F600 :: wstr " oi! Ei.") SENTENCE_PROBABLE 6 false); [vm_compute; reflexivity|discriminate|].
    apply (sseq_end _ (wstr "Ei.") 3 false). vm_compute. reflexivity.
  - destruct (C83_concat_partial (fun _ => SPELL_FAILED) false ([0xD83D; 0xDE00] ++ wstr " oi! Ei.")) as (ss & E & _).
    + repeat (constructor; [cbn; lia|]). constructor.
    + assert (Ok ss = Ok [([0xD83D; 0xDE00] ++ wstr " oi!", SENTENCE_PROBABLE); (wstr " Ei.", SENTENCE_NONE)]) as Q
        by (rewrite <- (E 21%nat) by (cbn; lia); vm_compute; reflexivity).
      intros fuel L. rewrite E by (cbn; lia). exact Q.
Qed.
Print Assumptions C83_boundaries_refuted.

(** With the unit 0xFFFF the loop goes on forever. *)
Theorem C83_ends_refuted : forall fuel spell ignore_dot, java_sentences fuel spell ignore_dot [0xFFFF] = Fuel.
Proof.
  intros fuel spell d. unfold java_sentences. change (negb (isValidInput [0xFFFF])) with false. cbn iota.
  induction fuel as [|fuel IH]; [reflexivity|]. cbn [jsentences_loop]. change (Nat.ltb 0 (length (getBytes [0xFFFF]))) with true. cbn iota.
  change (sentence_next_cstr spell d (getBytes [0xFFFF])) with (@Ok (sentence_type * option nat * bool) (SENTENCE_NONE, None, d)). cbn [bind].
  change (substring [0xFFFF] 0 0) with (@Ok (list Z) []). cbn [bind skipn]. rewrite IH. reflexivity.
Qed.
Print Assumptions C83_ends_refuted.

Example C83_ex : Forall plain (wstr "Ei! On.") /\
  java_sentences 20 (fun _ => SPELL_FAILED) false (wstr "Ei! On.") = Ok [(wstr "Ei! ", SENTENCE_PROBABLE); (wstr "On.", SENTENCE_NONE)].
Proof. split; [|vm_compute; reflexivity]. repeat (constructor; [split; cbn; lia|]). constructor. Qed.

(** ** C84: grammar errors *)

(** For strings of characters with one unit, except U+FFFE and U+FFFF,
    [grammarErrors] ends and returns for each line the errors that the library
    finds in it, moved to where the line is: in the order of the text, each
    inside one line.  Carriage returns end lines as newlines do.  Missing:
    surrogates. *)
Theorem C84_errors_partial : forall b h text, structured (b_analyzer b) -> never_empty (b_autocorrect b) -> reached b h -> Forall plain text ->
  exists text' lines l steps h', newlines text text' /\ lines_of text' lines /\ errors_of b (gc_options_of h) 0 lines l /\
    (forall fuel, (steps <= fuel)%nat -> java_grammarErrors fuel b h text = Ok (l, h')) /\
    reached b h' /\ gc_options_of h' = gc_options_of h /\
    Forall (fun e => (0 < errorlen e)%nat /\ 1 <= error_code e <= 18 /\ inside_line text' (startpos e) (errorlen e)) l /\
    StronglySorted (fun e f => (startpos e <= startpos f)%nat) l.
Proof.
  intros b h text S N R P. set (text' := map (fun c => if c =? 13 then 10 else c) text).
  assert (Forall plain text') as P' by (unfold text'; clear - P; induction P as [|c r C P IH]; cbn [map]; constructor; auto; destruct (c =? 13); [split; lia|auto]).
  pose proof (split_lines text') as L. destruct (jsplit_spec text') as (k & J).
  pose proof (lines_plain _ _ L P') as PL. rewrite J in PL. apply Forall_app in PL. destruct PL as (PL & _).
  destruct (paragraphs_ok b S N (jsplit text') 0 h [] R) as (steps & l & h' & E & EO & R' & O).
  { eapply Forall_impl; [|exact PL]. intros p. apply plain_no_nul. }
  apply (errors_of_app _ _ k) in EO. rewrite <- J in EO.
  exists text', (split_at 10 text' []), l, steps, h'. split; [unfold text'; clear; induction text; cbn; constructor; auto|].
  split; [auto|]. split; [auto|]. split.
  { intros fuel F. unfold java_grammarErrors, isValidInput. rewrite (proj2 (mem_false 0 text) (plain_no_nul _ P)). cbn [negb].
    fold text'. rewrite jparagraphs_same by auto. now apply E. }
  split; [auto|]. split; [auto|].
  destruct (errors_inside b (gc_options_of h) S N text' _ L (plain_no_nul _ P') [] l (or_introl eq_refl) EO) as (F & SS). split; [|auto].
  eapply Forall_impl; [|exact F]. cbn. tauto.
Qed.
Print Assumptions C84_errors_partial.

(** Behind a character with two units errors are reported one unit too early:
    the span of two commas starts at the space before them. *)
Theorem C84_position_refuted : exists h text l h' e, voikkoInit = Ok h /\
  java_grammarErrors 20 toy h text = Ok (l, h') /\ In e l /\ error_code e = 4 /\
  firstn (errorlen e) (skipn (startpos e) (chars text)) = wstr ",," /\
  firstn (errorlen e) (skipn (startpos e) text) = wstr " ,".
Proof.
  eexists. exists ([0xD83D; 0xDE00] ++ wstr " luen ,, ei."). eexists. eexists. eexists. split; [reflexivity|].
  split; [vm_compute; reflexivity|]. split; [right; right; left; reflexivity|]. repeat split; vm_compute; reflexivity.
Qed.
Print Assumptions C84_position_refuted.

(** A text with a NUL is not checked. *)
Theorem C84_nul : forall b h text fuel, In 0 text -> java_grammarErrors fuel b h text = Ok ([], h).
Proof. intros b h text fuel Z. unfold java_grammarErrors, isValidInput. apply mem_In in Z. now rewrite Z. Qed.
Print Assumptions C84_nul.

Example C84_ex : exists h, voikkoInit = Ok h /\ reached toy2 h /\ Forall plain (wstr "ei luen ,, joten kuten" ++ [13; 10] ++ wstr "On  ei." ++ [10]) /\
  java_grammarErrors 20 toy2 h (wstr "ei luen ,, joten kuten" ++ [13; 10] ++ wstr "On  ei." ++ [10]) =
  py_grammarErrors 20 toy2 h (wstr "ei luen ,, joten kuten" ++ [10; 10] ++ wstr "On  ei." ++ [10]).
Proof.
  eexists. split; [reflexivity|]. split; [apply reached_init; reflexivity|]. split; [|vm_compute; reflexivity].
  repeat (constructor; [split; cbn; lia|]). constructor.
Qed.
