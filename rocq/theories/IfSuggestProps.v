(** * Properties of suggestions in the Python, Java, C# and JavaScript interfaces
    (C95). *)
From Verif Require Import Base BaseFacts CharModel CharSpec CharProofs SpellerBase HandleModel AnalyzerBase Utf8Model Utf8Spec Utf8Proofs
  SpellSpec SuggestModel SuggestSpec SuggestProps PyModel PySpec PyProofs JavaModel JavaSpec JavaProofs CsModel CsProofs JsSpec
  HyphModel IfSuggestModel IfSpellProps.

Lemma rd_some : forall (pre : list (list Z)) x (r : list (option (list Z))), rd (map Some pre ++ x :: r) (length pre) = Ok x.
Proof.
  intros pre x r. unfold rd. rewrite nth_error_app2; rewrite map_length; [|lia]. now rewrite Nat.sub_diag.
Qed.
Lemma extract_ok : forall l pre acc, extract (length (c_array l)) (map Some pre ++ c_array l) (length pre) acc = Ok (acc ++ l).
Proof.
  unfold c_array. induction l as [|s l IH]; intros pre acc; cbn [map app length extract]; rewrite rd_some; cbn [bind].
  - now rewrite app_nil_r.
  - specialize (IH (pre ++ [s]) (acc ++ [s])). rewrite map_app, (app_length pre), <- !app_assoc in IH. cbn [map app length] in IH. exact IH.
Qed.
Lemma strings_of_ok : forall o, strings_of o = Ok (match o with None => [] | Some l => l end).
Proof. intros [l|]; [|reflexivity]. unfold strings_of. exact (extract_ok l [] []). Qed.

Lemma py_extract_ok : forall l pre acc, ~ In [] l -> py_extract (length (c_array l)) (map Some pre ++ c_array l) (length pre) acc = Ok (acc ++ l).
Proof.
  unfold c_array. induction l as [|s l IH]; intros pre acc N; cbn [map app length py_extract]; rewrite rd_some; cbn [bind].
  - now rewrite app_nil_r.
  - destruct s as [|c r]; [elim N; now left|]. specialize (IH (pre ++ [c :: r]) (acc ++ [c :: r]) ltac:(intros I; apply N; now right)).
    rewrite map_app, (app_length pre), <- !app_assoc in IH. cbn [map app length] in IH. exact IH.
Qed.

(** What the library suggests for a word. *)
Definition suggests (gen : status -> res status) (h : handle) (word : list Z) (l : list (list Z)) : Prop :=
  (l = [] /\ voikkoSuggestUcs4 gen h word = Ok None) \/ (l <> [] /\ voikkoSuggestUcs4 gen h word = Ok (Some l)).

(** Python returns what the library suggests, for every string without NULs.
    Missing: lists with an empty suggestion. *)
Theorem C95_python_partial : forall gen h word l, ~ In 0 word -> suggests gen h word l -> ~ In [] l -> py_suggest gen h word = Ok l.
Proof.
  intros gen h word l N [(-> & E)|(_ & E)] NE; unfold py_suggest; rewrite valid_no_nul by auto; cbn [negb]; rewrite E; cbn [bind]; [reflexivity|].
  exact (py_extract_ok l [] [] NE).
Qed.
Print Assumptions C95_python_partial.

(** If there were an empty suggestion, Python would lose those behind it. *)
Theorem C95_empty_refuted : forall gen h word a b, ~ In 0 word -> ~ In [] a -> suggests gen h word (a ++ [] :: b) ->
  py_suggest gen h word = Ok a.
Proof.
  intros gen h word a b N NA [(X & _)|(_ & E)]; [destruct a; discriminate|].
  unfold py_suggest. rewrite valid_no_nul by auto. cbn [negb]. rewrite E. cbn [bind].
  assert (forall l pre acc, ~ In [] l -> py_extract (length (c_array (l ++ [] :: b))) (map Some pre ++ c_array (l ++ [] :: b)) (length pre) acc = Ok (acc ++ l)) as H.
  { unfold c_array. induction l as [|s l IH]; intros pre acc M; cbn [map app length py_extract]; rewrite rd_some; cbn [bind].
    - now rewrite app_nil_r.
    - destruct s as [|c r]; [elim M; now left|]. specialize (IH (pre ++ [c :: r]) (acc ++ [c :: r]) ltac:(intros I; apply M; now right)).
      rewrite (map_app Some pre), (app_length pre), <- !app_assoc in IH. cbn [map app length] in IH. exact IH. }
  exact (H a [] [] NA).
Qed.
Print Assumptions C95_empty_refuted.
Example C95_empty_ex : exists h, HandleModel.voikkoInit = Ok h /\
  suggests (fixed_list [(wstr "aa", 1); ([], 2); (wstr "bb", 3)]) h (wstr "abc") ([wstr "aa"] ++ [] :: [wstr "bb"]).
Proof. eexists. split; [reflexivity|]. right. split; [discriminate|]. vm_compute. reflexivity. Qed.

(** So do the others, in UTF-8, for words of characters with one unit, except
    U+FFFE and U+FFFF, that have at most 255 bytes.  Missing: longer words,
    surrogates, and suggestions that cannot be encoded. *)
Theorem C95_units_partial : forall enc gen h word l, writes_utf8 enc -> Forall JavaSpec.plain word -> (length (utf8_text word) <= 255)%nat ->
  suggests gen h word l -> Forall (Forall encodable) l ->
  java_suggest gen h word = Ok (map utf8_text l) /\ cs_Suggest gen h word = Ok (map utf8_text l) /\
  js_suggest enc gen h word = Ok (map utf8_text l).
Proof.
  intros enc gen h word l WE P L S F. destruct (units_word word P) as (_ & EN & N).
  assert ((c <- voikkoSuggestCstr gen h (utf8_text word) ;; strings_of c) = Ok (map utf8_text l)) as A.
  { destruct (C49_suggest_utf8 gen h word (utf8_text word) (conj EN eq_refl) N L) as (H1 & H2). destruct S as [(-> & E)|(Ne & E)].
    - rewrite (H1 E). reflexivity.
    - rewrite (H2 l E Ne F). cbn [bind]. apply strings_of_ok. }
  unfold java_suggest, cs_Suggest, js_suggest. rewrite valid_no_nul by auto. cbn [negb].
  rewrite (getBytes_plain word), (s2n_plain word), (WE word) by auto. auto.
Qed.
Print Assumptions C95_units_partial.

(** Nothing is suggested for a word with a NUL. *)
Theorem C95_nul : forall enc gen h word, In 0 word ->
  py_suggest gen h word = Ok [] /\ java_suggest gen h word = Ok [] /\ cs_Suggest gen h word = Ok [] /\ js_suggest enc gen h word = Ok [].
Proof. intros enc gen h word I. unfold py_suggest, java_suggest, cs_Suggest, js_suggest. rewrite invalid_nul by auto. auto. Qed.
Print Assumptions C95_nul.

(** The comments on the functions promise the word itself for a correct word, but
    a word of one character gets no suggestion, correct or not. *)
Theorem C95_correct_refuted : forall enc gen h c, writes_utf8 enc -> JavaSpec.plain c ->
  py_suggest gen h [c] = Ok [] /\ java_suggest gen h [c] = Ok [] /\ cs_Suggest gen h [c] = Ok [] /\ js_suggest enc gen h [c] = Ok [].
Proof.
  intros enc gen h c WE P. assert (Forall JavaSpec.plain [c]) as F by (constructor; auto). destruct (units_word _ F) as (U & _ & N).
  assert (suggests gen h [c] []) as S by (left; split; [auto|]; apply C19_nothing; auto).
  split; [apply C95_python_partial; auto|]. apply (C95_units_partial enc gen h [c] []); auto.
  unfold utf8_text. cbn [map concat]. rewrite app_nil_r. destruct P as (R & _). pose proof (rfc3629_len c). lia.
Qed.
Print Assumptions C95_correct_refuted.

(** A list that the library gives for a word of 128 letters is lost outside
    Python. *)
Theorem C95_long_refuted : exists gen h word l, Forall JavaSpec.plain word /\ suggests gen h word l /\ l <> [] /\ py_suggest gen h word = Ok l /\
  forall enc, writes_utf8 enc -> java_suggest gen h word = Ok [] /\ cs_Suggest gen h word = Ok [] /\ js_suggest enc gen h word = Ok [].
Proof.
  destruct SpellProps.init_ok as (h & E & _). vm_compute in E. injection E as E.
  exists (fun s => addSuggestion s (wstr "talo") 1), h, (repeat 0xE4 128), [wstr "talo"].
  assert (Forall JavaSpec.plain (repeat 0xE4 128)) as P.
  { apply Forall_forall. intros c C. apply repeat_spec in C. subst c. split; lia. }
  destruct (units_word _ P) as (_ & _ & N).
  assert (suggests (fun s => addSuggestion s (wstr "talo") 1) h (repeat 0xE4 128) [wstr "talo"]) as S.
  { right. split; [discriminate|]. rewrite <- E. vm_compute. reflexivity. }
  split; [auto|]. split; [auto|]. split; [discriminate|]. split; [apply C95_python_partial; auto; intros [X|[]]; discriminate|].
  intros enc WE. unfold java_suggest, cs_Suggest, js_suggest. rewrite valid_no_nul by auto. cbn [negb].
  rewrite getBytes_plain, s2n_plain, WE by auto.
  assert (voikkoSuggestCstr (fun s => addSuggestion s (wstr "talo") 1) h (utf8_text (repeat 0xE4 128)) = Ok None) as X.
  { unfold voikkoSuggestCstr, LIBVOIKKO_MAX_WORD_CHARS. assert (length (utf8_text (repeat 0xE4 128)) = 256%nat) as -> by (vm_compute; reflexivity). reflexivity. }
  rewrite X. auto.
Qed.
Print Assumptions C95_long_refuted.

Example C95_ex : exists h, HandleModel.voikkoInit = Ok h /\ writes_utf8 utf8_text /\ Forall JavaSpec.plain (wstr "Taalo") /\
  (length (utf8_text (wstr "Taalo")) <= 255)%nat /\ suggests (suggest_with toy false) h (wstr "Taalo") [wstr "Talo"] /\
  Forall (Forall encodable) [wstr "Talo"] /\
  py_suggest (suggest_with toy false) h (wstr "Taalo") = Ok [wstr "Talo"] /\ java_suggest (suggest_with toy false) h (wstr "Taalo") = Ok [wstr "Talo"] /\
  cs_Suggest (suggest_with toy false) h (wstr "Taalo") = Ok [wstr "Talo"] /\ js_suggest utf8_text (suggest_with toy false) h (wstr "Taalo") = Ok [wstr "Talo"] /\
  cs_Suggest (fixed_list [(wstr "aa", 5); (wstr "bb", 2)]) h (wstr "abc") = Ok [wstr "bb"; wstr "aa"].
Proof.
  eexists. split; [reflexivity|]. split; [intros s _; reflexivity|]. split; [repeat constructor; cbn; lia|]. split; [vm_compute; lia|].
  split; [right; split; [discriminate|vm_compute; reflexivity]|].
  split; [constructor; [|constructor]; apply Forall_forall; intros c I; vm_compute in I; unfold encodable; lia|].
  repeat split; vm_compute; reflexivity.
Qed.
