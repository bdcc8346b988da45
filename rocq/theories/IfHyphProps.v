(** * Properties of hyphenation in the Python, Java and JavaScript interfaces
    (C93). *)
From Verif Require Import Base BaseFacts CharModel CharProofs Utf8Model Utf8Spec Utf8Proofs AnalysisModel AnalyzerBase
  GcCacheModel HandleModel HyphModel HyphSpec HyphProofs HyphProps PyModel PySpec PyProofs JavaModel JavaSpec JavaProofs JsSpec
  CsHyphProps IfHyphModel.

(** What the interfaces should return for a word and a separator that hold no
    NUL: the UTF-8 form of the word with the separator inserted at the breaks of
    its pattern. *)
Definition good_result (an : analyzer) (h : handle) (word sep : list Z) (allow : bool) (result : res (list Z)) : Prop :=
  exists p r, voikkoHyphenateUcs4 an h word = Ok (Some p) /\ result = Ok (utf8_text r) /\
    (if allow then hyphenated sep p word r else inserted sep (fun i => nth_error p i = Some 0x2D) 0 word r).

Lemma call_ok : forall an h word sep allow t l, hyph_word word -> (length (utf8_text word) <= 255)%nat -> hyph_word sep ->
  looked_up an (hyphIgnoreDot h) word t l -> good_analyses l ->
  exists p r, voikkoHyphenateUcs4 an h word = Ok (Some p) /\
    voikkoInsertHyphensCstr an h (utf8_text word) (utf8_text sep) allow = Ok (Some (utf8_text r)) /\
    (if allow then hyphenated sep p word r else inserted sep (fun i => nth_error p i = Some 0x2D) 0 word r).
Proof.
  intros an h word sep allow t l W L WS LU G. destruct allow.
  - apply (C26_context_changes an h word sep t l W L WS LU G).
  - apply (C26_insert_exact an h word sep t l W L WS LU G).
Qed.
Lemma valid_word : forall w, hyph_word w -> negb (isValidInput w) = false.
Proof. intros w (_ & Z). unfold isValidInput. apply mem_false in Z. now rewrite Z. Qed.

(** In Python, words of at most 255 bytes are hyphenated as their patterns say.
    Missing: longer words, and characters that [hyph_word] does not allow. *)
Theorem C93_python_partial : forall an h word sep allow t l, hyph_word word -> (length (utf8_text word) <= 255)%nat -> hyph_word sep ->
  looked_up an (hyphIgnoreDot h) word t l -> good_analyses l ->
  good_result an h word sep allow (py_hyphenate an h word sep allow).
Proof.
  intros an h word sep allow t l W L WS LU G. destruct (call_ok an h word sep allow t l W L WS LU G) as (p & r & E & I & H).
  exists p, r. split; [auto|]. split; [|auto]. unfold py_hyphenate. rewrite !valid_word by auto. cbn [orb]. now rewrite I.
Qed.
Print Assumptions C93_python_partial.

(** The same in Java for characters with one unit.  Missing: longer words and
    surrogates. *)
Theorem C93_java_partial : forall an h word sep allow t l, Forall plain word -> (length (utf8_text word) <= 255)%nat -> Forall plain sep ->
  looked_up an (hyphIgnoreDot h) word t l -> good_analyses l ->
  good_result an h word sep allow (java_hyphenate an h word sep allow).
Proof.
  intros an h word sep allow t l W L WS LU G.
  destruct (call_ok an h word sep allow t l (plain_word _ W) L (plain_word _ WS) LU G) as (p & r & E & I & H).
  exists p, r. split; [auto|]. split; [|auto]. unfold java_hyphenate. rewrite !valid_word by now apply plain_word. cbn [orb].
  rewrite !getBytes_plain by auto. now rewrite I.
Qed.
Print Assumptions C93_java_partial.

(** The same in JavaScript for characters with one unit.  Missing: longer words
    and surrogates. *)
Theorem C93_js_partial : forall enc, writes_utf8 enc -> forall an h word sep allow t l, Forall plain word -> (length (utf8_text word) <= 255)%nat ->
  Forall plain sep -> looked_up an (hyphIgnoreDot h) word t l -> good_analyses l ->
  good_result an h word sep allow (js_hyphenate enc an h word sep allow).
Proof.
  intros enc WE an h word sep allow t l W L WS LU G.
  destruct (call_ok an h word sep allow t l (plain_word _ W) L (plain_word _ WS) LU G) as (p & r & E & I & H).
  exists p, r. split; [auto|]. split; [|auto]. unfold js_hyphenate. rewrite !valid_word by now apply plain_word. cbn [orb].
  rewrite !(WE word), !(WE sep) by auto. now rewrite I.
Qed.
Print Assumptions C93_js_partial.

(** A word is returned as it is if it or the separator holds a NUL. *)
Theorem C93_nul : forall enc an h word sep allow, In 0 word \/ In 0 sep ->
  py_hyphenate an h word sep allow = Ok (utf8_text word) /\ java_hyphenate an h word sep allow = Ok (getBytes word) /\
  js_hyphenate enc an h word sep allow = Ok (enc word).
Proof.
  intros enc an h word sep allow Z.
  assert (negb (isValidInput word) || negb (isValidInput sep) = true) as V.
  { unfold isValidInput. destruct Z as [Z|Z]; apply mem_In in Z; rewrite Z; cbn; [reflexivity|apply orb_true_r]. }
  unfold py_hyphenate, java_hyphenate, js_hyphenate. rewrite V. auto.
Qed.
Print Assumptions C93_nul.

(** Every longer word leads to a crash in Python and an exception in Java; in
    JavaScript the result is an empty string. *)
Theorem C93_long_refuted : forall enc, writes_utf8 enc -> forall an h word sep allow, Forall plain word -> (255 < length (utf8_text word))%nat -> Forall plain sep ->
  py_hyphenate an h word sep allow = UB /\ java_hyphenate an h word sep allow = UB /\ js_hyphenate enc an h word sep allow = Ok [].
Proof.
  intros enc WE an h word sep allow W L WS.
  assert (voikkoInsertHyphensCstr an h (utf8_text word) (utf8_text sep) allow = Ok None) as I.
  { unfold voikkoInsertHyphensCstr, LIBVOIKKO_MAX_WORD_CHARS. replace (255 <? length (utf8_text word))%nat with true by lia. reflexivity. }
  unfold py_hyphenate, java_hyphenate, js_hyphenate. rewrite !valid_word by now apply plain_word. cbn [orb].
  rewrite (WE word), (WE sep), (getBytes_plain word), (getBytes_plain sep) by auto. rewrite I. auto.
Qed.
Print Assumptions C93_long_refuted.
Example C93_long_ex : writes_utf8 utf8_text /\ Forall plain (repeat 0x61 256) /\ (255 < length (utf8_text (repeat 0x61%Z 256)))%nat /\ Forall plain [0xAD].
Proof.
  split; [intros s _; reflexivity|]. split; [apply C92_long_ex|]. split; [apply C92_long_ex|]. constructor; [split; lia|constructor].
Qed.

Example C93_ex : py_hyphenate an_example h_example (wstr "linja-auto") [0xAD] false = Ok (wstr "lin" ++ [0xC2; 0xAD] ++ wstr "ja-au" ++ [0xC2; 0xAD] ++ wstr "to") /\
  java_hyphenate an_example h_example (wstr "rei'itys") (wstr "-") true = Ok (wstr "rei-i-tys") /\
  js_hyphenate utf8_text an_example h_example (wstr "rei'itys") (wstr "-") false = Ok (wstr "rei'i-tys") /\
  Forall plain (wstr "linja-auto") /\ hyph_word (wstr "linja-auto") /\ hyph_word [0xAD] /\
  looked_up an_example (hyphIgnoreDot h_example) (wstr "linja-auto") (wstr "linja-auto") (an_example false (wstr "linja-auto")) /\
  good_analyses (an_example false (wstr "linja-auto")).
Proof.
  do 3 (split; [vm_compute; reflexivity|]). destruct C92_ex as (_ & _ & _ & P & LU & G). split; [auto|]. split; [now apply plain_word|].
  split; [apply plain_word; constructor; [split; lia|constructor]|]. auto.
Qed.
