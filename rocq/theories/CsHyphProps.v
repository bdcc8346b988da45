(** * Properties of hyphenation in the C# interface (C92). *)
From Verif Require Import Base BaseFacts CharModel CharProofs Utf8Model Utf8Spec Utf8Proofs AnalysisModel AnalyzerBase
  GcCacheModel HandleModel HyphModel HyphSpec HyphProofs HyphProps PyModel PySpec PyProofs JavaModel JavaSpec JavaProofs CsModel CsProofs CsHyphModel.

Lemma hyphenate_loop_ok : forall p w r, hyphenated [0x2D] p w r -> forall pre acc,
  hyphenate_loop (pre ++ w) p (length pre) acc = Ok (acc ++ r).
Proof.
  intros p w r H. induction H; intros pre acc; cbn [hyphenate_loop].
  - now rewrite app_nil_r.
  - change (32 =? 32) with true. cbn iota. rewrite rd_at. cbn [bind]. specialize (IHhyphenated (pre ++ [c]) (acc ++ [c])).
    rewrite <- !app_assoc, app_length in IHhyphenated. exact IHhyphenated.
  - change (45 =? 32) with false. change (45 =? 45) with true. cbn iota. rewrite rd_at. cbn [bind].
    specialize (IHhyphenated (pre ++ [c]) ((acc ++ [45]) ++ [c])). rewrite <- !app_assoc, app_length in IHhyphenated. rewrite <- !app_assoc. exact IHhyphenated.
  - change (61 =? 32) with false. change (61 =? 45) with false. change (61 =? 61) with true. cbn iota.
    specialize (IHhyphenated (pre ++ [45]) (acc ++ [45])). rewrite <- !app_assoc, app_length in IHhyphenated. exact IHhyphenated.
  - change (61 =? 32) with false. change (61 =? 45) with false. change (61 =? 61) with true. cbn iota.
    specialize (IHhyphenated (pre ++ [c]) (acc ++ [45])). rewrite <- !app_assoc, app_length in IHhyphenated. exact IHhyphenated.
Qed.

Lemma plain_word : forall w, Forall plain w -> hyph_word w.
Proof. intros w P. split; [now apply plain_encodable|now apply plain_no_nul]. Qed.

(** For words of characters with one unit, except U+FFFE and U+FFFF, that have at
    most 255 bytes in UTF-8, [Hyphenate] returns the word with hyphens where the
    pattern has them, which is also what the library's own function for
    inserting hyphens returns.  Missing: longer words and surrogates. *)
Theorem C92_word_partial : forall an h word t l, Forall plain word -> (length (utf8_text word) <= 255)%nat ->
  looked_up an (hyphIgnoreDot h) word t l -> good_analyses l ->
  exists p r, voikkoHyphenateUcs4 an h word = Ok (Some p) /\ GetHyphenationPattern an h word = Ok (Some p) /\
    cs_Hyphenate an h word = Ok r /\ hyphenated [0x2D] p word r /\
    voikkoInsertHyphensCstr an h (utf8_text word) [0x2D] true = Ok (Some (utf8_text r)).
Proof.
  intros an h word t l P L LU G. pose proof (plain_word word P) as W.
  assert (hyph_word [0x2D]) as WS by (split; [constructor; [unfold encodable; lia|auto]|intros [Q|[]]; discriminate]).
  destruct (C26_context_changes an h word [0x2D] t l W L WS LU G) as (p & r & E & I & H). exists p, r.
  assert (GetHyphenationPattern an h word = Ok (Some p)) as GP.
  { unfold GetHyphenationPattern, isValidInput. rewrite (proj2 (mem_false 0 word) (proj2 W)). cbn [negb].
    rewrite s2n_plain, C24_utf8_agrees by auto. replace (length (utf8_text word) <=? 255)%nat with true by lia. exact E. }
  split; [auto|]. split; [auto|]. split; [|auto]. unfold cs_Hyphenate. rewrite GP. cbn [bind]. apply (hyphenate_loop_ok p word r H [] []).
Qed.
Print Assumptions C92_word_partial.

(** A word with a NUL is returned as it is. *)
Theorem C92_nul : forall an h word, In 0 word -> cs_Hyphenate an h word = Ok word.
Proof.
  intros an h word Z. unfold cs_Hyphenate, GetHyphenationPattern, isValidInput. apply mem_In in Z. rewrite Z. cbn [negb bind].
  assert (forall w, hyphenated [0x2D] (repeat 0x20 (length w)) w w) as H by (intros w; induction w; cbn; constructor; auto).
  apply (hyphenate_loop_ok _ _ _ (H word) [] []).
Qed.
Print Assumptions C92_nul.

(** Every longer word leads to an exception, because the library returns no
    pattern. *)
Theorem C92_long_refuted : forall an h word, Forall plain word -> (255 < length (utf8_text word))%nat -> cs_Hyphenate an h word = UB.
Proof.
  intros an h word P L. pose proof (plain_word word P) as W. unfold cs_Hyphenate, GetHyphenationPattern, isValidInput.
  rewrite (proj2 (mem_false 0 word) (proj2 W)). cbn [negb].
  rewrite s2n_plain, C24_utf8_agrees by auto. replace (length (utf8_text word) <=? 255)%nat with false by lia. reflexivity.
Qed.
Print Assumptions C92_long_refuted.
Example C92_long_ex : Forall plain (repeat 0x61 256) /\ (255 < length (utf8_text (repeat 0x61%Z 256)))%nat.
Proof.
  split; [|apply Nat.ltb_lt; vm_compute; reflexivity]. apply Forall_forall. intros u I. apply repeat_spec in I. subst u. split; lia.
Qed.

(** A word with a character of two units loses its last unit, and the hyphens
    behind the character are in the wrong places. *)
Theorem C92_units_refuted : exists an h word, Forall (fun u => 0 < u < 0xFFFE) word /\
  word = [0xD83D; 0xDE00] ++ wstr "ananas" /\ cs_Hyphenate an h word = Ok ([0xD83D; 0xDE00] ++ wstr "-an-ana").
Proof.
  exists an_example, h_example, ([0xD83D; 0xDE00] ++ wstr "ananas"). split; [repeat (constructor; [cbn; lia|]); constructor|]. split; [reflexivity|].
  vm_compute. reflexivity.
Qed.
Print Assumptions C92_units_refuted.

Example C92_ex : cs_Hyphenate an_example h_example (wstr "rei'itys") = Ok (wstr "rei-i-tys") /\
  cs_Hyphenate an_example h_example (wstr "linja-auto") = Ok (wstr "lin-ja-au-to") /\
  cs_Hyphenate an_example h_example (wstr "kissanruoka") = Ok (wstr "kis-san-ruo-ka") /\
  Forall plain (wstr "linja-auto") /\ looked_up an_example (hyphIgnoreDot h_example) (wstr "linja-auto") (wstr "linja-auto") (an_example false (wstr "linja-auto")) /\
  good_analyses (an_example false (wstr "linja-auto")).
Proof.
  do 3 (split; [vm_compute; reflexivity|]). split; [repeat (constructor; [split; cbn; lia|]); constructor|].
  split; [apply looked_up_whole; left; vm_compute; discriminate|].
  constructor; [|constructor]. eexists. split; [reflexivity|]. apply good_structure_check. reflexivity.
Qed.
