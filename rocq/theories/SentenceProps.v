(** * Properties of sentence detection (C07). *)
From Verif Require Import Base BaseFacts CharModel TokenModel TokenSpec Utf8Model Utf8Spec Utf8Proofs TokenProofs SpellerBase
  SentenceModel SentenceSpec SentenceProofs.

(** C07: for every text, speller and option value the call terminates without
    undefined behaviour, leaves the option as it was, and either reports the
    whole text or a proper boundary that falls between two tokens, after at
    least one terminator token, outside quotations, with the next sentence not
    starting with whitespace. *)
Theorem C07_boundaries : forall spell ignore_dot text, exists toks ty n,
  token_seq (nextToken false) text toks /\
  sentence_next spell ignore_dot text = Ok (ty, n, ignore_dot) /\
  ((ty = SENTENCE_NONE /\ n = length text) \/
   ((ty = SENTENCE_PROBABLE \/ ty = SENTENCE_POSSIBLE) /\ (0 < n < length text)%nat /\
    exists before next after, toks = before ++ next :: after /\
      text_of before = firstn n text /\ text_of (next :: after) = skipn n text /\
      fst next <> TOKEN_WHITESPACE /\ Exists terminator before /\ quote_parity before false)).
Proof. exact sentence_shape. Qed.
Print Assumptions C07_boundaries.
Example C07_boundaries_ex :
  sentence_next (fun _ => SPELL_FAILED) true (wstr "En tule. Menen!") = Ok (SENTENCE_PROBABLE, 9%nat, true) /\
  sentence_next (fun _ => SPELL_OK) true (wstr "esim. on lyhenne") = Ok (SENTENCE_POSSIBLE, 6%nat, true) /\
  sentence_next (fun _ => SPELL_FAILED) false (wstr """Ei. Niin"", Matti sanoi. Juu") = Ok (SENTENCE_PROBABLE, 25%nat, false).
Proof. repeat split; vm_compute; reflexivity. Qed.

(** C07: repeated calls split any text into finitely many non-empty sentences
    that concatenate to the text, in exactly one way. *)
Theorem C07_sentences_partition : forall spell ignore_dot text, exists ss,
  sentence_seq (sentence_next spell ignore_dot) text ss /\
  (forall ss', sentence_seq (sentence_next spell ignore_dot) text ss' -> ss' = ss) /\
  concat ss = text /\ (text <> [] -> Forall (fun s => s <> []) ss).
Proof.
  intros. destruct (sentence_seq_exists spell ignore_dot text) as (ss & S & C & N). exists ss. split; auto.
  split; auto. intros. eapply sentence_seq_unique; eauto.
Qed.
Print Assumptions C07_sentences_partition.
Example C07_sentences_partition_ex :
  sentence_seq (sentence_next (fun _ => SPELL_FAILED) false) (wstr "Ei. Jo! On") [wstr "Ei. "; wstr "Jo! "; wstr "On"].
Proof.
  eapply sseq_step with (n := 4%nat); [reflexivity|discriminate|].
  eapply sseq_step with (n := 4%nat); [reflexivity|discriminate|].
  exact (sseq_end _ (wstr "On") 2%nat false eq_refl).
Qed.

(** C07: exact placement.  If no quotation mark precedes the first terminator,
    the sentence ends right after that terminator and the whitespace following
    it; the end is PROBABLE exactly when the terminator is unambiguous
    and is not glued to a following word. *)
Theorem C07_first_terminator : forall spell ignore_dot text pre term ws rest,
  token_seq (nextToken false) text (pre ++ term :: ws ++ rest) ->
  Forall (fun tk => ~ terminator tk /\ ~ quote tk) pre -> terminator term ->
  Forall (fun tk => fst tk = TOKEN_WHITESPACE) ws ->
  (forall tk r, rest = tk :: r -> fst tk <> TOKEN_WHITESPACE) ->
  match rest with
  | [] => sentence_next spell ignore_dot text = Ok (SENTENCE_NONE, length text, ignore_dot)
  | next :: _ =>
      exists ty, sentence_next spell ignore_dot text = Ok (ty, length (text_of (pre ++ term :: ws)), ignore_dot) /\
        ((ty = SENTENCE_PROBABLE /\ certain_end spell pre term /\ (ws <> [] \/ fst next <> TOKEN_WORD)) \/
         (ty = SENTENCE_POSSIBLE /\ (~ certain_end spell pre term \/ (ws = [] /\ fst next = TOKEN_WORD))))
  end.
Proof. intros. eapply loop_exact; eauto. Qed.
Print Assumptions C07_first_terminator.
Example C07_first_terminator_ex : (* hypotheses hold for "Ei. Jo" *)
  token_seq (nextToken false) (wstr "Ei. Jo")
    ([(TOKEN_WORD, wstr "Ei")] ++ (TOKEN_PUNCTUATION, wstr ".") :: [(TOKEN_WHITESPACE, wstr " ")] ++ [(TOKEN_WORD, wstr "Jo")]) /\
  terminator (TOKEN_PUNCTUATION, wstr ".") /\ ~ terminator (TOKEN_WORD, wstr "Ei").
Proof.
  split; [|split].
  - cbn [app]. eapply seq_step with (n := 2%nat); [reflexivity|discriminate|].
    eapply seq_step with (n := 1%nat); [reflexivity|discriminate|].
    eapply seq_step with (n := 1%nat); [reflexivity|discriminate|].
    eapply seq_step with (n := 2%nat); [reflexivity|discriminate|].
    eapply seq_end; reflexivity.
  - split; auto. exists 0x2E, []. simpl. auto 8.
  - intros [Q _]. discriminate.
Qed.

(** C07: a text without terminator tokens is a single sentence. *)
Theorem C07_no_terminator : forall spell ignore_dot text toks,
  token_seq (nextToken false) text toks -> Forall (fun tk => ~ terminator tk) toks ->
  sentence_next spell ignore_dot text = Ok (SENTENCE_NONE, length text, ignore_dot).
Proof. intros. eapply loop_no_terminator; eauto. Qed.
Print Assumptions C07_no_terminator.

(** C07: the UTF-8 entry point gives the same answer on well-formed NUL-free
    text; on malformed text it answers SENTENCE_NONE and stores no length. *)
Theorem C07_utf8_agrees : forall spell ignore_dot bytes w, encodes bytes w -> ~ In 0 w ->
  sentence_next_cstr spell ignore_dot bytes =
    bind (sentence_next spell ignore_dot w) (fun '(t, n, d) => Ok (t, Some n, d)).
Proof.
  intros spell d bytes w [E ->] Z. unfold sentence_next_cstr. rewrite ucs4FromUtf8_encoded by auto. cbn [bind].
  rewrite cstr_no_nul by auto. reflexivity.
Qed.
Print Assumptions C07_utf8_agrees.
Theorem C07_utf8_malformed : forall spell ignore_dot bytes, Forall byte bytes -> (forall w, ~ encodes bytes w) ->
  sentence_next_cstr spell ignore_dot bytes = Ok (SENTENCE_NONE, None, ignore_dot).
Proof.
  intros spell d bytes B N. unfold sentence_next_cstr.
  destruct (ucs4FromUtf8_total bytes B) as [(w & E & D)|[E _]]; [elim (N w); auto|]. rewrite E. reflexivity.
Qed.
Print Assumptions C07_utf8_malformed.
Example C07_utf8_ex :
  sentence_next_cstr (fun _ => SPELL_FAILED) false (wstr "Ei! Jo") = Ok (SENTENCE_PROBABLE, Some 4%nat, false) /\
  sentence_next_cstr (fun _ => SPELL_FAILED) false [0x45; 0xFF] = Ok (SENTENCE_NONE, None, false).
Proof. split; reflexivity. Qed.
