(** * Properties of hyphenation patterns in the interfaces (C97). *)
From Verif Require Import Base BaseFacts CharModel CharProofs Utf8Model Utf8Spec Utf8Proofs AnalysisModel AnalyzerBase
  GcCacheModel HandleModel HyphModel HyphSpec HyphProofs HyphProps PyModel PySpec PyProofs JavaModel JavaSpec JavaProofs JsSpec
  CsModel CsProofs CsHyphModel CsHyphProps IfHyphProps IfPatModel.

(** A pattern for a word: one of the three characters for each character of the
    word, and no break before the first. *)
Definition pattern_for (word p : list Z) : Prop :=
  length p = length word /\ Forall (fun c => c = 0x20 \/ c = 0x2D \/ c = 0x3D) p /\ ~ is_break p 0.

(** Python returns the pattern of the library for all words, also long ones, of
    characters that can be encoded.  Missing: other characters. *)
Theorem C97_python_partial : forall an h word t l, hyph_word word -> looked_up an (hyphIgnoreDot h) word t l -> good_analyses l ->
  exists p, py_pattern an h word = Ok p /\ voikkoHyphenateUcs4 an h word = Ok (Some p) /\ pattern_for word p.
Proof.
  intros an h word t l W LU G. destruct (C24_pattern_shape an h word t l W LU G) as (p & E & S). exists p. split; [|split; auto].
  unfold py_pattern. rewrite valid_word by auto. now rewrite E.
Qed.
Print Assumptions C97_python_partial.

(** Java, C# and JavaScript return the same pattern as Python for words of
    characters with one unit, except U+FFFE and U+FFFF, that have at most 255
    bytes in UTF-8.  Missing: longer words and surrogates. *)
Theorem C97_units_partial : forall enc an h word t l, writes_utf8 enc -> Forall plain word -> (length (utf8_text word) <= 255)%nat ->
  looked_up an (hyphIgnoreDot h) word t l -> good_analyses l ->
  exists p, py_pattern an h word = Ok p /\ java_pattern an h word = Ok p /\ GetHyphenationPattern an h word = Ok (Some p) /\
    js_pattern enc an h word = Ok p /\ pattern_for word p.
Proof.
  intros enc an h word t l WE P L LU G. pose proof (plain_word word P) as W.
  destruct (C97_python_partial an h word t l W LU G) as (p & E & U & S). exists p.
  assert (voikkoHyphenateCstr an h (utf8_text word) = Ok (Some p)) as C.
  { rewrite C24_utf8_agrees by auto. replace (length (utf8_text word) <=? 255)%nat with true by lia. exact U. }
  split; [auto|]. unfold java_pattern, GetHyphenationPattern, js_pattern. rewrite valid_word by auto.
  rewrite (getBytes_plain word), (s2n_plain word), (WE word), C by auto. auto.
Qed.
Print Assumptions C97_units_partial.

(** A word with a NUL has a pattern without breaks, as long as the word. *)
Theorem C97_nul : forall enc an h word, In 0 word -> exists p, length p = length word /\ (forall i, ~ is_break p i) /\
  py_pattern an h word = Ok p /\ java_pattern an h word = Ok p /\ GetHyphenationPattern an h word = Ok (Some p) /\ js_pattern enc an h word = Ok p.
Proof.
  intros enc an h word Z. exists (repeat 0x20 (length word)). split; [apply repeat_length|]. split.
  - intros i [B|B]; apply nth_error_In, repeat_spec in B; discriminate.
  - unfold py_pattern, java_pattern, GetHyphenationPattern, js_pattern, isValidInput. apply mem_In in Z. rewrite Z. auto.
Qed.
Print Assumptions C97_nul.

(** Longer words have a pattern in Python only: an exception in Java, null in C#,
    and an empty pattern in JavaScript. *)
Theorem C97_long_refuted : forall enc an h word, writes_utf8 enc -> Forall plain word -> (255 < length (utf8_text word))%nat ->
  java_pattern an h word = UB /\ GetHyphenationPattern an h word = Ok None /\ js_pattern enc an h word = Ok [].
Proof.
  intros enc an h word WE P L. pose proof (plain_word word P) as W.
  assert (voikkoHyphenateCstr an h (utf8_text word) = Ok None) as C.
  { rewrite C24_utf8_agrees by auto. replace (length (utf8_text word) <=? 255)%nat with false by lia. reflexivity. }
  unfold java_pattern, GetHyphenationPattern, js_pattern. rewrite valid_word by auto.
  rewrite (getBytes_plain word), (s2n_plain word), (WE word), C by auto. auto.
Qed.
Print Assumptions C97_long_refuted.
Example C97_long_ex : writes_utf8 utf8_text /\ Forall plain (repeat 0x61 256) /\ (255 < length (utf8_text (repeat 0x61%Z 256)))%nat.
Proof. split; [intros s _; reflexivity|]. apply C92_long_ex. Qed.

(** With a character of two units the pattern is shorter than the string. *)
Theorem C97_length_refuted : exists an h word p, Forall (fun u => 0 < u < 0xFFFE) word /\ java_pattern an h word = Ok p /\
  GetHyphenationPattern an h word = Ok (Some p) /\ (length p < length word)%nat.
Proof.
  exists an_example, h_example, ([0xD83D; 0xDE00] ++ wstr "ananas"), (wstr "  - -  ").
  split; [repeat (constructor; [cbn; lia|]); constructor|]. split; [vm_compute; reflexivity|]. split; [vm_compute; reflexivity|]. cbn. lia.
Qed.
Print Assumptions C97_length_refuted.

Example C97_ex : py_pattern an_example h_example (wstr "rei'itys") = Ok (wstr "   = -  ") /\
  java_pattern an_example h_example (wstr "linja-auto") = Ok (wstr "   - =  - ") /\
  js_pattern utf8_text an_example h_example (wstr "linja-auto") = Ok (wstr "   - =  - ") /\
  hyph_word (wstr "linja-auto") /\ Forall plain (wstr "linja-auto") /\
  looked_up an_example (hyphIgnoreDot h_example) (wstr "linja-auto") (wstr "linja-auto") (an_example false (wstr "linja-auto")) /\
  good_analyses (an_example false (wstr "linja-auto")).
Proof.
  do 3 (split; [vm_compute; reflexivity|]). destruct C92_ex as (_ & _ & _ & P & LU & G). split; [now apply plain_word|]. auto.
Qed.
