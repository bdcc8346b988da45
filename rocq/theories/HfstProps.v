(** * Spell checking with an HFST dictionary: C73. *)
From Verif Require Import Base BaseFacts CharModel CharSpec CharProofs SpellerBase CacheModel CacheProofs HandleModel SpellModel SpellSpec SpellProofs SpellProps
  Utf8Model Utf8Spec Utf8Proofs Utf8Props SuggestModel HfstModel HfstSpec HfstProofs.

(** For every word that has a UTF-8 form the speller gives the specified
    judgement; it fails exactly when there is none. *)
Theorem C73_speller : forall d caps_ok w, Forall encodable w ->
  exists r, hfst_spell d caps_ok w = Ok r /\ (forall r', hfst_verdict d caps_ok w r' -> r' = r) /\
  (r <> SPELL_FAILED -> hfst_verdict d caps_ok w r).
Proof.
  intros d a w E. exists (hfst_fun d a w). split; [apply hfst_spell_ok, E|]. split.
  - intros r' V. apply verdict_fun in V. destruct V as [<- _]. reflexivity.
  - intros N. apply verdict_fun. auto.
Qed.
Print Assumptions C73_speller.

(** Other words are undefined behaviour: the HFST library is given a null
    pointer. *)
Theorem C73_unencodable_refuted : forall d caps_ok w, Forall (fun c => - 2 ^ 31 <= c < 2 ^ 31) w -> ~ Forall encodable w ->
  hfst_spell d caps_ok w = UB.
Proof. intros d a w R N. unfold hfst_spell, doSpell. rewrite (C01_encode_rejects w R N). reflexivity. Qed.
Print Assumptions C73_unencodable_refuted.
Example C73_unencodable_ex : unicode_word [0x61; 0xD800] /\ Forall (fun c => - 2 ^ 31 <= c < 2 ^ 31) [0x61; 0xD800] /\ ~ Forall encodable [0x61; 0xD800].
Proof.
  split; [repeat constructor; unfold code_point; lia|]. split; [repeat constructor; lia|]. intros H.
  inversion H as [|? ? _ H']; subst. inversion H' as [|? ? X _]; subst. unfold encodable in X. lia.
Qed.

(** The answer of the spelling function, for a word that has a UTF-8 form and is
    checked at all: it is correct exactly when it is in the dictionary in a way
    that justifies its capital letters.  Nothing that has no UTF-8 form is
    looked up: [f] is arbitrary there. *)
Theorem C73_accepted : forall d h f w n, hfst_used d h -> answers_as d h f -> Forall encodable w -> ~ In 0 w -> w <> [] -> (length w <= 255)%nat ->
  voikko_normalise w = Ok n -> ~ exempt h n -> accept_missing_hyphens h = false ->
  exists r h', voikkoSpellUcs4 (fun _ => f) h w = Ok (r, h') /\ (r = VOIKKO_SPELL_OK \/ r = VOIKKO_SPELL_FAILED) /\
  (r = VOIKKO_SPELL_OK <-> exists v, form (ignore_dot h) n v /\ in_dictionary d h n v).
Proof.
  intros d h f w n U A E NZ NE L NW X M. rewrite (spell_ext f _ (answers_fun d h f A) h w E).
  destruct (spell_exact (fun _ => hfst_fun d (accept_all_uppercase h)) h w (encodable_code_point w E NZ) (used_ok d h U)) as (r & h' & S & R & C & _).
  exists r, h'. split; [exact S|]. split; [exact R|]. rewrite C, (accepted_fun _ h w n NE L NW). split.
  - intros [Y|(v & F & J)]; [contradiction|]. exists v. split; [exact F|]. now apply (dictionary_justified d h (ignore_dot h) n v M F).
  - intros (v & F & J). right. exists v. split; [exact F|]. now apply (dictionary_justified d h (ignore_dot h) n v M F).
Qed.
Print Assumptions C73_accepted.

(** The dictionary's own words are accepted, with ACCEPT_FIRST_UPPERCASE and
    ACCEPT_ALL_UPPERCASE on (as they are at the start), whatever the other
    options are and whatever has been checked before; a word in capitals must
    begin with a letter. *)
Theorem C73_own_words_partial : forall d h f w n, hfst_used d h -> answers_as d h f -> Forall encodable w -> ~ In 0 w -> w <> [] -> (length w <= 255)%nat ->
  voikko_normalise w = Ok n -> accept_first_uppercase h = true -> accept_all_uppercase h = true ->
  knows d n -> ~ In SCHWA n -> (all_capitals n -> exists c r, n = c :: r /\ capital c) ->
  exists h', voikkoSpellUcs4 (fun _ => f) h w = Ok (VOIKKO_SPELL_OK, h').
Proof.
  intros d h f w n U A E NZ NE L NW FU AU K NS FC. rewrite (spell_ext f _ (answers_fun d h f A) h w E).
  destruct (spell_exact (fun _ => hfst_fun d (accept_all_uppercase h)) h w (encodable_code_point w E NZ) (used_ok d h U)) as (rr & h' & S & R & C & _).
  exists h'. rewrite S. do 2 f_equal. apply C. apply (accepted_fun _ h w n NE L NW). right. exists n. split; [constructor|].
  apply (dictionary_found d h (ignore_dot h) n n ltac:(constructor)).
  destruct (voikko_casetype n) eqn:CT.
  - (* no letters *)
    assert (~ all_small n) by (rewrite <- shape_small; congruence). assert (~ capitalised n) by (rewrite <- shape_capitalised; congruence).
    assert (~ all_capitals n) by (rewrite <- shape_capitals; congruence).
    destruct n as [|c r]; [apply in_exact; auto; tauto|]. destruct (Z.eq_dec (lower c) c) as [Q|Q].
    + apply in_exact; auto; [tauto|]. cbn [small_first]. now rewrite Q.
    + apply (in_exact_proper d h (c :: r) (c :: r) c r); auto; [tauto|]. exists (lower c). apply case_pair_lower. auto.
  - apply shape_small in CT. apply in_small; auto.
  - apply shape_capitalised in CT. destruct (hknows d (map lower n)) eqn:KL; [apply in_common; auto|]. apply hknows_not in KL.
    pose proof CT as (_ & c & r & -> & CC & _). apply (in_proper d h (c :: r) (c :: r) c r); auto. destruct CC as [CC| ->]; [exact CC|]. elim NS. now left.
  - assert (~ all_small n) by (rewrite <- shape_small; congruence). assert (~ capitalised n) by (rewrite <- shape_capitalised; congruence).
    assert (~ all_capitals n) by (rewrite <- shape_capitals; congruence).
    destruct n as [|c r]; [apply in_exact; auto; tauto|]. destruct (Z.eq_dec (lower c) c) as [Q|Q].
    + apply in_exact; auto; [tauto|]. cbn [small_first]. now rewrite Q.
    + apply (in_exact_proper d h (c :: r) (c :: r) c r); auto; [tauto|]. exists (lower c). apply case_pair_lower. auto.
  - apply shape_capitals in CT. destruct (FC CT) as (c & r & -> & CC). apply (in_capitals d h (c :: r) (c :: r) c r); auto. intros I. apply NS. now right.
Qed.
Print Assumptions C73_own_words_partial.

(** A dictionary for the examples. *)
Definition hlist (l : list (list Z)) : acceptor := fun b => existsb (fun w => zlist_eqb b (utf8_text w)) l.
Definition hwords : acceptor := hlist [wstr "talo"; wstr "Matti"; wstr "USA"; wstr "iPhone"; wstr "3D"; wstr "McDonald"].

Example C73_speller_ex : map (hfst_spell hwords true) [wstr "talo"; wstr "matti"; wstr "usa"; wstr "iphone"; wstr "mcDonald"] =
  [Ok SPELL_OK; Ok SPELL_CAP_FIRST; Ok SPELL_CAP_ERROR; Ok SPELL_FAILED; Ok SPELL_CAP_FIRST] /\ hfst_spell hwords false (wstr "usa") = Ok SPELL_FAILED.
Proof. split; vm_compute; reflexivity. Qed.

Lemma hfst_fun_answers : forall d h, answers_as d h (hfst_fun d (accept_all_uppercase h)).
Proof. intros d h v E. apply hfst_spell_ok, E. Qed.

Definition spells (d : acceptor) (h : handle) (w : list Z) : res Z :=
  '(r, _) <- voikkoSpellUcs4 (fun _ => hfst_fun d (accept_all_uppercase h)) h w ;; Ok r.

Example C73_accepted_ex : exists h, voikkoInit = Ok h /\ hfst_used hwords h /\ accept_missing_hyphens h = false /\
  accept_first_uppercase h = true /\ accept_all_uppercase h = true /\
  map (spells hwords h) [wstr "talo"; wstr "Talo"; wstr "TALO"; wstr "matti"; wstr "Matti"; wstr "MATTI"; wstr "USA"; wstr "usa"; wstr "iPhone"; wstr "McDonald"; wstr "Usa"] =
  [Ok 1; Ok 1; Ok 1; Ok 0; Ok 1; Ok 1; Ok 1; Ok 0; Ok 1; Ok 1; Ok 0].
Proof.
  eexists. split; [reflexivity|]. split; [apply used_init; reflexivity|]. do 3 (split; [reflexivity|]). vm_compute. reflexivity.
Qed.

Lemma not_nonword : forall w, voikko_is_nonword w = Ok false -> ~ nonword w.
Proof. intros w E N. destruct (is_nonword_spec w) as (r & A & B). assert (r = false) by congruence. subst r. apply B in N. discriminate. Qed.

(** Without that condition it is false: a dictionary has the word "3D", and the
    word "3D" is an error. *)
Theorem C73_own_words_refuted : exists d h f w, hfst_used d h /\ answers_as d h f /\ Forall encodable w /\ ~ In 0 w /\ w <> [] /\ (length w <= 255)%nat /\
  voikko_normalise w = Ok w /\ accept_first_uppercase h = true /\ accept_all_uppercase h = true /\ knows d w /\ ~ In SCHWA w /\ ~ exempt h w /\
  exists h', voikkoSpellUcs4 (fun _ => f) h w = Ok (VOIKKO_SPELL_FAILED, h').
Proof.
  destruct voikkoInit as [h| |] eqn:I; [|vm_compute in I; discriminate|vm_compute in I; discriminate].
  exists hwords, h, (hfst_fun hwords (accept_all_uppercase h)), (wstr "3D"). split; [apply used_init, I|]. split; [apply hfst_fun_answers|].
  split; [repeat constructor; cbn; lia|]. split; [cbn; lia|]. split; [discriminate|]. split; [cbn; lia|]. split; [reflexivity|].
  assert (H : voikkoInit = Ok h) by exact I. vm_compute in H. injection H as <-.
  split; [reflexivity|]. split; [reflexivity|]. split; [reflexivity|]. split; [unfold SCHWA; cbn; lia|]. split; [intros X; destruct X as [X1 X2|X1 X2|X1 X2]; [discriminate X1|discriminate X1|revert X2; apply not_nonword; vm_compute; reflexivity]|].
  eexists. vm_compute. reflexivity.
Qed.
Print Assumptions C73_own_words_refuted.

(** With ACCEPT_FIRST_UPPERCASE off, a name is rejected if the dictionary has the
    same word in small letters too. *)
Theorem C73_name_refuted : exists d h f w, hfst_used d h /\ answers_as d h f /\ Forall encodable w /\ ~ In 0 w /\ w <> [] /\ (length w <= 255)%nat /\
  voikko_normalise w = Ok w /\ knows d w /\ capitalised w /\ ~ exempt h w /\
  exists h', voikkoSpellUcs4 (fun _ => f) h w = Ok (VOIKKO_SPELL_FAILED, h').
Proof.
  destruct voikkoInit as [h| |] eqn:I; [|vm_compute in I; discriminate|vm_compute in I; discriminate].
  exists (hlist [wstr "ilo"; wstr "Ilo"]), (snd (voikkoSetBooleanOption h 6 false)), (hfst_fun (hlist [wstr "ilo"; wstr "Ilo"]) (accept_all_uppercase (snd (voikkoSetBooleanOption h 6 false)))), (wstr "Ilo").
  split; [apply used_bool; [apply used_init, I|lia|lia]|]. split; [apply hfst_fun_answers|].
  split; [repeat constructor; cbn; lia|]. split; [cbn; lia|]. split; [discriminate|]. split; [cbn; lia|]. split; [reflexivity|]. split; [reflexivity|].
  split; [apply shape_capitalised; reflexivity|]. assert (H : voikkoInit = Ok h) by exact I. vm_compute in H. injection H as <-.
  split; [intros X; destruct X as [X1 X2|X1 X2|X1 X2]; [discriminate X1|discriminate X1|revert X2; apply not_nonword; vm_compute; reflexivity]|]. eexists. vm_compute. reflexivity.
Qed.
Print Assumptions C73_name_refuted.
