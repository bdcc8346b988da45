(** * Properties of the C# interface (C85, C86, C87). *)
From Coq Require Import Permutation Sorted.
From Verif Require Import Base BaseFacts CharModel TokenModel TokenSpec TokenProofs Utf8Model Utf8Spec Utf8Proofs SpellerBase SentenceModel SentenceSpec SentenceProofs
  AnalyzerBase CacheModel GcCacheModel HandleModel ParaModel RulesModel GrammarModel GrammarSpec GrammarCallSpec
  RulesProofs GrammarProofs GrammarProps PyModel PySpec PyProofs JavaModel JavaSpec JavaProofs CsModel CsSpec CsProofs.

(** ** C85: tokens *)

(** For every string without the units 0xFFFE and 0xFFFF [Tokens] ends without
    an exception; its tokens concatenate to the string, none is empty, and each
    NUL is a token of its own.  Missing: strings with the two excluded units. *)
Theorem C85_concat_partial : forall ignore_dot text, Forall (fun u => 0 <= u < 0xFFFE) text -> exists toks,
  (forall fuel, (length text < fuel)%nat -> cs_tokens fuel ignore_dot text = Ok toks) /\
  concat (map snd toks) = text /\ Forall (fun tk => snd tk <> [] /\ fst tk <> TOKEN_NONE) toks /\
  (forall tk, In tk toks -> In 0 (snd tk) -> tk = (TOKEN_UNKNOWN, [0])).
Proof.
  intros d text A. destruct (cs_tokens_ok d (S (length text)) (S (length text)) [] text []) as (toks & _ & E & C & F & Z & _); try lia.
  { eapply Forall_impl; [|exact A]. cbn. unfold some_unit. intros. lia. }
  exists toks. split; [|auto]. intros fuel L. unfold cs_tokens. cbn [app length] in E. now rewrite E by auto.
Qed.
Print Assumptions C85_concat_partial.

(** For strings of characters with one unit, except U+FFFE and U+FFFF, the
    tokens are those that repeated calls of the library find between NULs.
    Missing: surrogates. *)
Theorem C85_tokens_partial : forall ignore_dot text, Forall (fun u => plain u \/ u = 0) text -> exists toks,
  (forall fuel, (length text < fuel)%nat -> cs_tokens fuel ignore_dot text = Ok toks) /\
  token_list (fun w => nextTokenCstr ignore_dot (utf8_text w)) text toks /\
  (forall toks', token_list (fun w => nextTokenCstr ignore_dot (utf8_text w)) text toks' -> toks' = toks).
Proof.
  intros d text A. destruct (cs_tokens_ok d (S (length text)) (S (length text)) [] text []) as (toks & _ & E & _ & _ & _ & T); try lia.
  { eapply Forall_impl; [|exact A]. cbn. unfold some_unit, plain. intros a [(P & _)|P]; lia. }
  exists toks. split; [intros fuel L; unfold cs_tokens; cbn [app length] in E; now rewrite E by auto|].
  split; [now apply T|]. intros toks' T'. eapply token_list_unique; [exact T'|now apply T].
Qed.
Print Assumptions C85_tokens_partial.

(** With the unit 0xFFFF the library returns no token and the loop goes on
    forever, whatever the number of steps. *)
Theorem C85_ends_refuted : forall fuel ignore_dot, cs_tokens fuel ignore_dot [0xFFFF] = Fuel.
Proof.
  intros fuel d. unfold cs_tokens. cbn [length cs_tokens_loop].
  change (find_from 0 [0xFFFF] 0) with (@None nat). change (substring [0xFFFF] 0 1) with (Ok [0xFFFF]). cbn [bind].
  assert (cs_nonnull fuel d [0xFFFF] = Fuel) as ->; [|reflexivity].
  induction fuel as [|fuel IH]; [reflexivity|]. cbn [cs_nonnull]. change (s2n [0xFFFF]) with [0xEF; 0xBF; 0xBF]. cbn [length].
  change (0 <? 3)%nat with true. cbn iota.
  replace (nextTokenCstr d [0xEF; 0xBF; 0xBF]) with (@Ok (token_type * nat) (TOKEN_NONE, 0%nat)) by (destruct d; vm_compute; reflexivity).
  cbn [bind]. change (substring [0xFFFF] 0 0) with (@Ok (list Z) []). cbn [bind skipn]. rewrite IH. reflexivity.
Qed.
Print Assumptions C85_ends_refuted.

Example C85_ex : Forall (fun u => 0 <= u < 0xFFFE) (wstr "oi " ++ [0xD83D; 0xDE00] ++ wstr "ei." ++ [0; 0xE4]) /\
  cs_tokens 20 false (wstr "oi " ++ [0xD83D; 0xDE00] ++ wstr "ei." ++ [0; 0xE4]) =
  Ok [(TOKEN_WORD, wstr "oi"); (TOKEN_WHITESPACE, wstr " "); (TOKEN_UNKNOWN, [0xD83D]); (TOKEN_UNKNOWN, [0xDE00]);
      (TOKEN_WORD, wstr "ei"); (TOKEN_PUNCTUATION, wstr "."); (TOKEN_UNKNOWN, [0]); (TOKEN_WORD, [0xE4])].
Proof. split; [|vm_compute; reflexivity]. repeat (constructor; [cbn; lia|]). constructor. Qed.

Example C85_plain_ex : Forall (fun u => plain u \/ u = 0) (wstr "ei." ++ [0; 0xE4]).
Proof. repeat (constructor; [first [left; split; cbn; lia|right; reflexivity]|]). constructor. Qed.

(** ** C86: sentences *)

(** For strings of characters with one unit, except U+FFFE and U+FFFF, the
    result is that of the library.  Missing: surrogates. *)
Theorem C86_sentences_partial : forall spell ignore_dot text, Forall plain text -> text <> [] -> exists ss last,
  (forall fuel, (length text < fuel)%nat -> cs_sentences fuel spell ignore_dot text = Ok (ss ++ [(last, SENTENCE_NONE)])) /\
  sentence_seq (sentence_next spell ignore_dot) text (map fst ss ++ [last]) /\
  concat (map fst ss ++ [last]) = text /\ Forall (fun s => snd s <> SENTENCE_NONE) ss.
Proof.
  intros spell d text P NE.
  assert (Forall some_unit text) as SU by (eapply Forall_impl; [|exact P]; intros u (A & _); exact A).
  destruct (jsentences_ok spell d (S (length text)) text 0 P ltac:(lia) NE) as (ss & last & E & S & F).
  destruct (cs_sentences_concat spell d (length text) text 0 ltac:(lia) SU) as (all & E2 & C & _).
  rewrite <- cs_sentences_same, E2 in E by (auto; lia). injection E as ->. exists ss, last. split.
  { intros fuel L. unfold cs_sentences, isValidInput. rewrite (proj2 (mem_false 0 text) (plain_no_nul _ P)). cbn [negb]. now apply E2. }
  split; [auto|]. split; [|auto]. rewrite map_app in C. exact C.
Qed.
Print Assumptions C86_sentences_partial.

(** Also with surrogates nothing is lost. *)
Theorem C86_concat_partial : forall spell ignore_dot text, Forall (fun u => 0 <= u < 0xFFFE) text -> exists ss,
  (forall fuel, (length text < fuel)%nat -> cs_sentences fuel spell ignore_dot text = Ok ss) /\
  concat (map fst ss) = text /\ Forall (fun s => fst s <> []) ss.
Proof.
  intros spell d text F. unfold cs_sentences, isValidInput. destruct (mem 0 text) eqn:Z; cbn [negb].
  - exists [(text, SENTENCE_NONE)]. cbn [map fst concat]. rewrite app_nil_r. repeat split; auto. constructor; [|auto]. cbn. intros ->. discriminate.
  - apply mem_false in Z. apply cs_sentences_concat; [lia|]. rewrite Forall_forall in *. intros u I. specialize (F u I). unfold some_unit.
    assert (u <> 0) by (intros ->; auto). lia.
Qed.
Print Assumptions C86_concat_partial.

(** A character with two units moves the boundaries behind it. *)
Theorem C86_boundaries_refuted : exists text,
  sentence_seq (sentence_next (fun _ => SPELL_FAILED) false) (cs_chars text) [0x1F600 :: wstr " oi! "; wstr "Ei."] /\
  (forall fuel, (20 < fuel)%nat -> cs_sentences fuel (fun _ => SPELL_FAILED) false text =
     Ok [([0xD83D; 0xDE00] ++ wstr " oi!", SENTENCE_PROBABLE); (wstr " Ei.", SENTENCE_NONE)]).
Proof.
  exists ([0xD83D; 0xDE00] ++ wstr " oi! Ei."). split.
  - apply (sseq_step _ (0x1F600 :: wstr " oi! Ei.") SENTENCE_PROBABLE 6 false); [vm_compute; reflexivity|discriminate|].
    apply (sseq_end _ (wstr "Ei.") 3 false). vm_compute. reflexivity.
  - destruct (C86_concat_partial (fun _ => SPELL_FAILED) false ([0xD83D; 0xDE00] ++ wstr " oi! Ei.")) as (ss & E & _).
    + repeat (constructor; [cbn; lia|]). constructor.
    + assert (Ok ss = Ok [([0xD83D; 0xDE00] ++ wstr " oi!", SENTENCE_PROBABLE); (wstr " Ei.", SENTENCE_NONE)]) as Q
        by (rewrite <- (E 21%nat) by (cbn; lia); vm_compute; reflexivity).
      intros fuel L. rewrite E by (cbn; lia). exact Q.
Qed.
Print Assumptions C86_boundaries_refuted.

(** With the unit 0xFFFF the loop goes on forever. *)
Theorem C86_ends_refuted : forall fuel spell ignore_dot, cs_sentences fuel spell ignore_dot [0xFFFF] = Fuel.
Proof.
  intros fuel spell d. unfold cs_sentences. change (negb (isValidInput [0xFFFF])) with false. cbn iota.
  induction fuel as [|fuel IH]; [reflexivity|]. cbn [cs_sentences_loop]. change (Nat.ltb 0 (length (s2n [0xFFFF]))) with true. cbn iota.
  change (sentence_next_cstr spell d (s2n [0xFFFF])) with (@Ok (sentence_type * option nat * bool) (SENTENCE_NONE, None, d)). cbn [bind].
  change (substring [0xFFFF] 0 0) with (@Ok (list Z) []). cbn [bind skipn]. rewrite IH. reflexivity.
Qed.
Print Assumptions C86_ends_refuted.

Example C86_ex : Forall plain (wstr "Ei! On.") /\
  cs_sentences 20 (fun _ => SPELL_FAILED) false (wstr "Ei! On.") = Ok [(wstr "Ei! ", SENTENCE_PROBABLE); (wstr "On.", SENTENCE_NONE)].
Proof. split; [|vm_compute; reflexivity]. repeat (constructor; [split; cbn; lia|]). constructor. Qed.

(** ** C87: grammar errors *)

(** For strings of characters with one unit, except U+FFFE and U+FFFF,
    [GrammarErrors] ends and returns for each line the errors that the library
    finds in it.  Their positions are those in the text in which each carriage
    return before a newline has been removed.  Missing: surrogates, and
    positions in the text itself. *)
Theorem C87_errors_partial : forall b h text, structured (b_analyzer b) -> never_empty (b_autocorrect b) -> reached b h -> Forall plain text ->
  exists text' lines l steps h', unix_text text text' /\ (forall t, unix_text text t -> t = text') /\
    lines_of text' lines /\ errors_of b (gc_options_of h) 0 lines l /\
    (forall fuel, (steps <= fuel)%nat -> cs_grammarErrors fuel b h text = Ok (l, h')) /\
    reached b h' /\ gc_options_of h' = gc_options_of h /\
    Forall (fun e => (0 < errorlen e)%nat /\ 1 <= error_code e <= 18 /\ inside_line text' (startpos e) (errorlen e)) l /\
    StronglySorted (fun e f => (startpos e <= startpos f)%nat) l.
Proof.
  intros b h text S N R P. destruct (unix_exists (length text) text (le_n _)) as (text' & U). pose proof (unix_plain _ _ U P) as P'.
  pose proof (split_lines text') as L. pose proof (lines_plain _ _ L P') as PL.
  destruct (paragraphs_ok b S N (split_at 10 text' []) 0 h [] R) as (steps & l & h' & E & EO & R' & O).
  { eapply Forall_impl; [|exact PL]. intros p. apply plain_no_nul. }
  exists text', (split_at 10 text' []), l, steps, h'. split; [auto|]. split; [intros; eapply unix_unique; eauto|]. split; [auto|]. split; [auto|]. split.
  { intros fuel F. unfold cs_grammarErrors, isValidInput. rewrite (proj2 (mem_false 0 text) (plain_no_nul _ P)). cbn [negb].
    rewrite (regex_unix _ _ U), cs_paragraphs_same, jparagraphs_same by auto. now apply E. }
  split; [auto|]. split; [auto|].
  destruct (errors_inside b (gc_options_of h) S N text' _ L (plain_no_nul _ P') [] l (or_introl eq_refl) EO) as (F & SS). split; [|auto].
  eapply Forall_impl; [|exact F]. cbn. tauto.
Qed.
Print Assumptions C87_errors_partial.

(** If no carriage return is followed by a newline, the positions are those in
    the text. *)
Theorem C87_positions_partial : forall b h text, structured (b_analyzer b) -> never_empty (b_autocorrect b) -> reached b h ->
  Forall plain text -> no_crlf text ->
  exists lines l steps h', lines_of text lines /\ errors_of b (gc_options_of h) 0 lines l /\
    (forall fuel, (steps <= fuel)%nat -> cs_grammarErrors fuel b h text = Ok (l, h')) /\
    Forall (fun e => (0 < errorlen e)%nat /\ 1 <= error_code e <= 18 /\ inside_line text (startpos e) (errorlen e)) l.
Proof.
  intros b h text S N R P C. destruct (C87_errors_partial b h text S N R P) as (text' & lines & l & steps & h' & U & _ & L & EO & E & _ & _ & F & _).
  rewrite (unix_same _ _ U C) in *. exists lines, l, steps, h'. auto.
Qed.
Print Assumptions C87_positions_partial.

(** Behind a carriage return and a newline errors are reported one unit too
    early: the span of two commas in the second line starts at the space before
    them, although each character of the text is one unit. *)
Theorem C87_crlf_refuted : exists h text l h' e, voikkoInit = Ok h /\ Forall plain text /\
  cs_grammarErrors 20 toy h text = Ok (l, h') /\ In e l /\ error_code e = 4 /\
  firstn (errorlen e) (skipn (startpos e) text) = wstr " ,".
Proof.
  eexists. exists (wstr "Ei." ++ [13; 10] ++ wstr "Luen ,, ei."). eexists. eexists. eexists. split; [reflexivity|].
  split; [repeat (constructor; [split; cbn; lia|]); constructor|].
  split; [vm_compute; reflexivity|]. split; [right; left; reflexivity|]. split; vm_compute; reflexivity.
Qed.
Print Assumptions C87_crlf_refuted.

(** A text with a NUL is not checked. *)
Theorem C87_nul : forall b h text fuel, In 0 text -> cs_grammarErrors fuel b h text = Ok ([], h).
Proof. intros b h text fuel Z. unfold cs_grammarErrors, isValidInput. apply mem_In in Z. now rewrite Z. Qed.
Print Assumptions C87_nul.

Example C87_ex : exists h, voikkoInit = Ok h /\ reached toy2 h /\ Forall plain (wstr "ei luen ,, joten kuten" ++ [13; 10] ++ wstr "On  ei." ++ [10]) /\
  cs_grammarErrors 20 toy2 h (wstr "ei luen ,, joten kuten" ++ [13; 10] ++ wstr "On  ei." ++ [10]) =
  py_grammarErrors 20 toy2 h (wstr "ei luen ,, joten kuten" ++ [10] ++ wstr "On  ei." ++ [10]).
Proof.
  eexists. split; [reflexivity|]. split; [apply reached_init; reflexivity|]. split; [|vm_compute; reflexivity].
  repeat (constructor; [split; cbn; lia|]). constructor.
Qed.

Example C87_positions_ex : exists h l h', voikkoInit = Ok h /\ reached toy2 h /\
  Forall plain (wstr "Ei." ++ [10; 13] ++ wstr "Luen ,, ei.") /\ no_crlf (wstr "Ei." ++ [10; 13] ++ wstr "Luen ,, ei.") /\
  cs_grammarErrors 20 toy2 h (wstr "Ei." ++ [10; 13] ++ wstr "Luen ,, ei.") = Ok (l, h') /\ l <> [].
Proof.
  do 3 eexists. split; [reflexivity|]. split; [apply reached_init; reflexivity|].
  split; [repeat (constructor; [split; cbn; lia|]); constructor|]. split.
  - intros a b E. cbn in E. repeat (destruct a as [|? a]; cbn in E; [discriminate|injection E as _ E]). destruct a; discriminate.
  - split; [vm_compute; reflexivity|discriminate].
Qed.
