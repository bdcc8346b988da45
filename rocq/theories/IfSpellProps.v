(** * Properties of spell checking in the Python, Java, C# and JavaScript
    interfaces (C94). *)
From Verif Require Import Base BaseFacts CharModel CharSpec CharProofs SpellerBase CacheModel GcCacheModel HandleModel
  Utf8Model Utf8Spec Utf8Proofs SpellModel SpellSpec SpellProofs SpellProps PyModel PySpec PyProofs JavaModel JavaSpec JavaProofs
  CsModel CsProofs JsSpec IfSpellModel.

(** A call ends without an exception and its answer says whether [yes] holds. *)
Definition answers (result : res (bool * handle)) (yes : Prop) : Prop :=
  exists b h', result = Ok (b, h') /\ (b = true <-> yes).

Lemma valid_no_nul : forall w, ~ In 0 w -> isValidInput w = true.
Proof. intros w Z. unfold isValidInput. apply mem_false in Z. now rewrite Z. Qed.
Lemma invalid_nul : forall w, In 0 w -> isValidInput w = false.
Proof. intros w Z. unfold isValidInput. apply mem_In in Z. now rewrite Z. Qed.
Lemma units_word : forall w, Forall JavaSpec.plain w -> unicode_word w /\ Forall encodable w /\ ~ In 0 w.
Proof.
  intros w P. split; [|split].
  - eapply Forall_impl; [|exact P]. intros c (A & B). unfold code_point. lia.
  - now apply plain_encodable.
  - now apply plain_no_nul.
Qed.

(** Python: for every string, also with NULs, the answer is whether the string
    has no NUL and is accepted by the specification of C08. *)
Theorem C94_python : forall sp h word, reachable sp h -> Forall (fun c => c = 0 \/ code_point c) word ->
  answers (py_spell sp h word) (~ In 0 word /\ accepted sp h word).
Proof.
  intros sp h word R F. unfold py_spell. destruct (in_dec Z.eq_dec 0 word) as [I|N].
  - rewrite invalid_nul by auto. cbn [negb]. exists false, h. split; [reflexivity|]. split; [discriminate|tauto].
  - rewrite valid_no_nul by auto. cbn [negb].
    assert (unicode_word word) as U.
    { apply Forall_forall. intros c C. rewrite Forall_forall in F. destruct (F c C) as [->|?]; [contradiction|auto]. }
    destruct (C08_spell_exact sp h word R U) as (r & h' & E & [->| ->] & A); rewrite E; cbn [bind].
    + exists true, h'. split; [reflexivity|]. tauto.
    + exists false, h'. split; [reflexivity|]. split; [discriminate|]. intros (_ & Y). apply A in Y. discriminate.
Qed.
Print Assumptions C94_python.

(** Java, C# and JavaScript: the same for words of characters with one unit,
    except U+FFFE and U+FFFF, that have at most 255 bytes in UTF-8.  Missing:
    longer words and surrogates. *)
Theorem C94_units_partial : forall enc sp h word, writes_utf8 enc -> reachable sp h -> Forall JavaSpec.plain word ->
  (length (utf8_text word) <= 255)%nat ->
  answers (java_spell sp h word) (accepted sp h word) /\ answers (cs_Spell sp h word) (accepted sp h word) /\
  answers (js_spell enc sp h word) (accepted sp h word).
Proof.
  intros enc sp h word WE R P L. destruct (units_word word P) as (U & EN & N).
  assert (answers ('(s, h') <- voikkoSpellCstr sp h (utf8_text word) ;; Ok (s =? 1, h')) (accepted sp h word)) as A.
  { rewrite (C09_utf8_agrees_partial sp h word (utf8_text word) U (conj EN eq_refl) L).
    destruct (C08_spell_exact sp h word R U) as (r & h' & E & [->| ->] & A); rewrite E; cbn [bind].
    - exists true, h'. split; [reflexivity|]. tauto.
    - exists false, h'. split; [reflexivity|]. split; [discriminate|]. intros Y. apply A in Y. discriminate. }
  unfold java_spell, cs_Spell, js_spell. rewrite valid_no_nul by auto. cbn [negb].
  rewrite (getBytes_plain word), (s2n_plain word), (WE word) by auto. auto.
Qed.
Print Assumptions C94_units_partial.

(** A word with a NUL is wrong in all interfaces, and the library is not asked. *)
Theorem C94_nul : forall enc sp h word, In 0 word ->
  py_spell sp h word = Ok (false, h) /\ java_spell sp h word = Ok (false, h) /\ cs_Spell sp h word = Ok (false, h) /\
  js_spell enc sp h word = Ok (false, h).
Proof. intros enc sp h word I. unfold py_spell, java_spell, cs_Spell, js_spell. rewrite invalid_nul by auto. auto. Qed.
Print Assumptions C94_nul.

(** The limit counts characters in Python and bytes elsewhere: a word of 128
    letters that the dictionary knows is right in Python only. *)
Theorem C94_long_refuted : exists sp h word, reachable sp h /\ Forall JavaSpec.plain word /\ accepted sp h word /\
  (exists h', py_spell sp h word = Ok (true, h')) /\
  forall enc, writes_utf8 enc -> java_spell sp h word = Ok (false, h) /\ cs_Spell sp h word = Ok (false, h) /\ js_spell enc sp h word = Ok (false, h).
Proof.
  destruct init_ok as (h & E & _). exists (fun _ _ => SPELL_OK), h, (repeat 0xE4 128).
  assert (reachable (fun _ _ => SPELL_OK) h) as R by now apply reach_init.
  assert (Forall JavaSpec.plain (repeat 0xE4 128)) as P.
  { apply Forall_forall. intros c C. apply repeat_spec in C. subst c. split; lia. }
  assert (exists h', py_spell (fun _ _ => SPELL_OK) h (repeat 0xE4 128) = Ok (true, h')) as (h' & Y).
  { vm_compute in E. injection E as E. rewrite <- E. eexists. vm_compute. reflexivity. }
  split; [auto|]. split; [auto|]. split; [|split; [eauto|]].
  - destruct (C94_python (fun _ _ => SPELL_OK) h (repeat 0xE4 128) R) as (b & h2 & E2 & A).
    + destruct (units_word _ P) as (U & _ & _). unfold unicode_word in U. eapply Forall_impl; [|exact U]. intros c C. now right.
    + rewrite Y in E2. injection E2 as <- _. now apply A.
  - intros enc WE. destruct (units_word _ P) as (_ & _ & N). unfold java_spell, cs_Spell, js_spell. rewrite valid_no_nul by auto. cbn [negb].
    rewrite getBytes_plain, s2n_plain, WE by auto. assert (voikkoSpellCstr (fun _ _ => SPELL_OK) h (utf8_text (repeat 0xE4 128)) = Ok (0, h)) as X.
    { unfold voikkoSpellCstr, MAX_WORD_CHARS. assert (length (utf8_text (repeat 0xE4 128)) = 256%nat) as -> by (vm_compute; reflexivity). reflexivity. }
    rewrite X. auto.
Qed.
Print Assumptions C94_long_refuted.

Definition answer_of (m : res (bool * handle)) : res bool := '(r, _) <- m ;; Ok r.
Example C94_ex : exists h, voikkoInit = Ok h /\ reachable toy h /\ writes_utf8 utf8_text /\ Forall JavaSpec.plain (wstr "Matti") /\
  (length (utf8_text (wstr "Matti")) <= 255)%nat /\
  map (fun w => answer_of (py_spell toy h w)) [wstr "talo"; wstr "matti"; wstr "talo" ++ [0]] = [Ok true; Ok false; Ok false] /\
  map (fun w => answer_of (java_spell toy h w)) [wstr "Matti"; wstr "matti"; 0 :: wstr "talo"] = [Ok true; Ok false; Ok false] /\
  map (fun w => answer_of (cs_Spell toy h w)) [wstr "Matti"; wstr "matti"; 0 :: wstr "talo"] = [Ok true; Ok false; Ok false] /\
  map (fun w => answer_of (js_spell utf8_text toy h w)) [wstr "Matti"; wstr "matti"; 0 :: wstr "talo"] = [Ok true; Ok false; Ok false].
Proof.
  eexists. split; [reflexivity|]. split; [apply reach_init; reflexivity|]. split; [intros s _; reflexivity|].
  split; [repeat constructor; cbn; lia|]. split; [vm_compute; lia|]. repeat split; vm_compute; reflexivity.
Qed.
