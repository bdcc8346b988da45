(** * Properties of spell checking (C08-C14, C16) and of options (C27). *)
From Verif Require Import Base BaseFacts CharModel CharSpec CharProofs SpellerBase CacheModel CacheProofs
  GcCacheModel HandleModel Utf8Model Utf8Spec Utf8Proofs SpellModel SpellSpec SpellProofs.

(** ** Invariant of reachable handles *)
Lemma init_ok : exists h, voikkoInit = Ok h /\ forall f, cache_ok f (spellerCache h).
Proof.
  unfold voikkoInit. destruct (new_cache_ok 0) as (c & E & _); [lia|]. rewrite E. cbn [bind].
  eexists. split; [reflexivity|]. intros f. cbn. eapply consistent_new; eauto. lia.
Qed.

Lemma bool_keeps_cache : forall h o b, spellerCache (snd (voikkoSetBooleanOption h o b)) = spellerCache h.
Proof.
  intros h o b. unfold voikkoSetBooleanOption.
  repeat match goal with
  | |- context [match ?x with _ => _ end] => is_var x; destruct x; try reflexivity
  | |- context [let '(_, _) := ?x in _] => destruct x; reflexivity
  end.
Qed.

Lemma bool_keeps_dict : forall h o b, (o = 11 -> b = accept_extra_hyphens h) -> (o = 12 -> b = accept_missing_hyphens h) ->
  forall sp, dict sp (snd (voikkoSetBooleanOption h o b)) = dict sp h.
Proof.
  intros h o b A B sp. unfold dict.
  assert (accept_extra_hyphens (snd (voikkoSetBooleanOption h o b)) = accept_extra_hyphens h /\
          accept_missing_hyphens (snd (voikkoSetBooleanOption h o b)) = accept_missing_hyphens h) as (-> & ->); [|auto].
  unfold voikkoSetBooleanOption.
  repeat match goal with
  | |- context [match ?x with _ => _ end] => is_var x; destruct x; try (split; reflexivity)
  | |- context [let '(_, _) := ?x in _] => destruct x; split; reflexivity
  end.
  - cbn. rewrite A; auto.
  - cbn. rewrite B; auto.
Qed.

Lemma int_keeps : forall sp h o v r h', (o = 17 -> v <= 18) -> voikkoSetIntegerOption h o v = Ok (r, h') ->
  cache_ok (dict sp h) (spellerCache h) -> dict sp h' = dict sp h /\ cache_ok (dict sp h) (spellerCache h').
Proof.
  intros sp h o v r h' L E C. unfold voikkoSetIntegerOption in E.
  assert (forall c', 0 <= v -> v <= 18 -> new_cache v = Ok c' -> consistent (dict sp h) c') as N by (intros; eapply consistent_new; eauto; lia).
  assert (o = 9 \/ o = 17 \/ (o <> 9 /\ o <> 17)) as [-> |[-> |(O1 & O2)]] by lia.
  - injection E as <- <-. split; auto.
  - specialize (L eq_refl). destruct (spellerCache h) as [c|] eqn:SC.
    + destruct (negb (sizeParam c =? v)); [destruct (Z.leb_spec 0 v)|].
      * destruct (new_cache v) as [c'| |] eqn:NC; try discriminate. cbn [bind] in E. injection E as <- <-. split; auto. apply N; auto.
      * injection E as <- <-. split; auto. exact I.
      * injection E as <- <-. rewrite SC. auto.
    + destruct (Z.leb_spec 0 v).
      * destruct (new_cache v) as [c'| |] eqn:NC; try discriminate. cbn [bind] in E. injection E as <- <-. split; auto. apply N; auto.
      * injection E as <- <-. rewrite SC. auto.
  - assert (Ok (0, h) = Ok (r, h')) as E'.
    { rewrite <- E. destruct o as [|p|p]; try reflexivity. do 5 (try (destruct p as [p|p|]; try reflexivity; try lia)). }
    injection E' as <- <-. auto.
Qed.

Lemma encodable_code_point : forall w, Forall encodable w -> ~ In 0 w -> unicode_word w.
Proof.
  intros w F N. unfold unicode_word. rewrite Forall_forall in *. intros x Hx. destruct (F x Hx) as (A & _).
  unfold code_point. assert (x <> 0) by (intros ->; auto). lia.
Qed.

Lemma cstr_encodable : forall w, Forall encodable w -> unicode_word (cstr w).
Proof.
  intros w F. apply encodable_code_point; [|apply cstr_nul_free].
  induction F; cbn [cstr]; [constructor|]. destruct (x =? 0); constructor; auto.
Qed.

Lemma cstr_spell_cases : forall sp h w, Forall (fun b => 0 <= b <= 255) w ->
  voikkoSpellCstr sp h w = Ok (VOIKKO_SPELL_OK, h) \/ voikkoSpellCstr sp h w = Ok (VOIKKO_SPELL_FAILED, h) \/
  voikkoSpellCstr sp h w = Ok (VOIKKO_CHARSET_CONVERSION_FAILED, h) \/
  (exists v, unicode_word v /\ voikkoSpellCstr sp h w = voikkoSpellUcs4 sp h v).
Proof.
  intros sp h w B. unfold voikkoSpellCstr. destruct (Nat.eqb (length w) 0); auto. destruct (MAX_WORD_CHARS <? length w)%nat; auto.
  destruct (ucs4FromUtf8_total w) as [(v & E & D)|[E _]].
  { auto. }
  - rewrite E. cbn [bind]. right; right; right. exists (cstr v). split; auto. apply cstr_encodable. apply D.
  - rewrite E. cbn [bind]. auto.
Qed.

Lemma reachable_ok : forall sp h, reachable sp h -> cache_ok (dict sp h) (spellerCache h).
Proof.
  intros sp h R. induction R as [h E|h o b R IH A B|h o v r h' R IH L E|h w r h' R IH U E|h w r h' R IH U E].
  - destruct init_ok as (h' & E' & C). rewrite E in E'. injection E' as <-. apply C.
  - rewrite bool_keeps_cache. destruct (spellerCache h) as [c|] eqn:SC; [|exact I].
    rewrite bool_keeps_dict; auto.
    + intros O. destruct (A O); auto; discriminate.
    + intros O. destruct (B O); auto; discriminate.
  - destruct (int_keeps sp h o v r h' L E IH) as (D & C). rewrite D. auto.
  - destruct (spell_exact sp h w U IH) as (r' & h2 & E' & _ & _ & SB). rewrite E in E'. injection E' as <- <-.
    rewrite (same_dict _ sp _ _ SB). apply SB.
  - assert (forall r2 h2, voikkoSpellCstr sp h w = Ok (r2, h2) -> h2 = h' ) as EQ by (intros r2 h2 X; congruence).
    assert (Forall (fun b => 0 <= b <= 255) w) as U' by (eapply Forall_impl; [|exact U]; cbn; intros; lia).
    destruct (cstr_spell_cases sp h w U') as [X|[X|[X|(v & UV & X)]]]; try (apply EQ in X; subst; auto).
    destruct (spell_exact sp h v UV IH) as (r' & h2 & E' & _ & _ & SB). rewrite <- X, E in E'. injection E' as <- <-.
    rewrite (same_dict _ sp _ _ SB). apply SB.
Qed.

(** ** C08 *)

(** On every reachable handle a spelling call terminates without undefined
    behaviour, returns SPELL_OK or SPELL_FAILED and nothing else, and accepts
    exactly the words the specification accepts. *)
Theorem C08_spell_exact : forall sp h w, reachable sp h -> unicode_word w ->
  exists r h', voikkoSpellUcs4 sp h w = Ok (r, h') /\ (r = VOIKKO_SPELL_OK \/ r = VOIKKO_SPELL_FAILED) /\
  (r = VOIKKO_SPELL_OK <-> accepted sp h w).
Proof.
  intros sp h w R U. destruct (spell_exact sp h w U (reachable_ok _ _ R)) as (r & h' & A & B & C & _). eauto.
Qed.
Print Assumptions C08_spell_exact.

(** The empty word is correct and a word of more than 255 characters is not,
    whatever the dictionary and the options say. *)
Theorem C08_limits : forall sp h w,
  voikkoSpellUcs4 sp h [] = Ok (VOIKKO_SPELL_OK, h) /\
  ((length w > 255)%nat -> voikkoSpellUcs4 sp h w = Ok (VOIKKO_SPELL_FAILED, h)).
Proof.
  intros. split; [reflexivity|]. intros L. unfold voikkoSpellUcs4.
  destruct (Nat.eqb_spec (length w) 0); [lia|]. unfold MAX_WORD_CHARS.
  destruct (Nat.ltb_spec 255 (length w)); [auto|lia].
Qed.
Print Assumptions C08_limits.

(** A small dictionary for the examples: knows "talo" as a common word,
    "matti" as a name and "-aa-" only between hyphens. *)
Definition toy : env := fun _ w =>
  if zlist_eqb w (wstr "talo") then SPELL_OK
  else if zlist_eqb w (wstr "matti") then SPELL_CAP_FIRST
  else if zlist_eqb w (wstr "-aa-") then SPELL_OK
  else SPELL_FAILED.

Definition result_of (m : res (Z * handle)) : res Z := '(r, _) <- m ;; Ok r.
Definition results_of (m : res (list Z * handle)) : res (list Z) := '(r, _) <- m ;; Ok r.

Example C08_spell_exact_ex : exists h, voikkoInit = Ok h /\ reachable toy h /\
  results_of (spell_all toy h (map wstr ["talo"; "Talo"; "TALO"; "tAlo"; "matti"; "Matti"; "a@b.fi"; "aa"; "talo."]%string)) =
  Ok [1; 1; 1; 0; 0; 1; 1; 0; 0].
Proof.
  eexists. split; [reflexivity|]. split; [apply reach_init; reflexivity|]. vm_compute. reflexivity.
Qed.

(** ** C09 *)

(** The UTF-8 interface agrees with the wide one on words of at most 255
    bytes. *)
Theorem C09_utf8_agrees_partial : forall sp h w bytes, unicode_word w -> encodes bytes w -> (length bytes <= 255)%nat ->
  voikkoSpellCstr sp h bytes = voikkoSpellUcs4 sp h w.
Proof.
  intros sp h w bytes U (F & ->) L. unfold voikkoSpellCstr.
  destruct (Nat.eqb_spec (length (utf8_text w)) 0) as [Z0|N0].
  { pose proof (utf8_text_len w). assert (length w = O) by lia. destruct w; [reflexivity|discriminate]. }
  unfold MAX_WORD_CHARS. rewrite (proj2 (Nat.ltb_ge 255 _)) by auto.
  rewrite ucs4FromUtf8_encoded by auto. cbn [bind]. rewrite cstr_no_nul; auto. apply nul_free. exact U.
Qed.
Print Assumptions C09_utf8_agrees_partial.
Example C09_utf8_agrees_partial_ex : exists h, voikkoInit = Ok h /\
  unicode_word [0x6D; 0xE4] /\ encodes [0x6D; 0xC3; 0xA4] [0x6D; 0xE4] /\
  result_of (voikkoSpellCstr (fun _ w => if zlist_eqb w [0x6D; 0xE4] then SPELL_OK else SPELL_FAILED) h [0x6D; 0xC3; 0xA4]) = Ok 1.
Proof.
  eexists. split; [reflexivity|]. split; [repeat constructor; cbn; lia|]. split; [split; [repeat constructor; lia|reflexivity]|]. vm_compute. reflexivity.
Qed.

(** Malformed UTF-8 of at most 255 bytes is reported as such and changes
    nothing. *)
Theorem C09_malformed : forall sp h bytes, Forall byte bytes -> bytes <> [] -> (length bytes <= 255)%nat ->
  (forall w, ~ encodes bytes w) -> voikkoSpellCstr sp h bytes = Ok (VOIKKO_CHARSET_CONVERSION_FAILED, h).
Proof.
  intros sp h bytes B N L M. unfold voikkoSpellCstr.
  destruct (Nat.eqb_spec (length bytes) 0) as [Z0|_]. { destruct bytes; [congruence|discriminate]. }
  unfold MAX_WORD_CHARS. rewrite (proj2 (Nat.ltb_ge 255 _)) by auto.
  destruct (ucs4FromUtf8_total bytes B) as [(v & E & D)|[E _]]; [elim (M v); auto|]. rewrite E. reflexivity.
Qed.
Print Assumptions C09_malformed.
Example C09_malformed_ex : exists h, voikkoInit = Ok h /\ result_of (voikkoSpellCstr toy h [0x61; 0xC3]) = Ok 3.
Proof. eexists. split; [reflexivity|]. reflexivity. Qed.

(** The byte limit makes the two interfaces disagree on long words with
    non-ASCII letters: 128 letters take 256 bytes. *)
Theorem C09_utf8_agrees_refuted :
  ~ (forall sp h w bytes, reachable sp h -> unicode_word w -> encodes bytes w ->
       result_of (voikkoSpellCstr sp h bytes) = result_of (voikkoSpellUcs4 sp h w)).
Proof.
  intros H. destruct init_ok as (h & E & _). vm_compute in E. injection E as E.
  specialize (H (fun _ _ => SPELL_OK) h (repeat 0xE4 128) (utf8_text (repeat 0xE4 128))).
  assert (forall A (P : A -> Prop) x n, P x -> Forall P (repeat x n)) as FR.
  { intros A P x n Hx. induction n; cbn; constructor; auto. }
  assert (result_of (voikkoSpellCstr (fun _ _ => SPELL_OK) h (utf8_text (repeat 0xE4 128))) =
          result_of (voikkoSpellUcs4 (fun _ _ => SPELL_OK) h (repeat 0xE4 128))) as X.
  { apply H.
    - apply reach_init. rewrite <- E. vm_compute. reflexivity.
    - apply FR. unfold code_point; lia.
    - split; [|reflexivity]. apply FR. repeat split; lia. }
  rewrite <- E in X. vm_compute in X. discriminate.
Qed.
Print Assumptions C09_utf8_agrees_refuted.

(** ** C10 *)
Lemma same_dict_none : forall sp h, dict sp (with_spellerCache h None) = dict sp h.
Proof. reflexivity. Qed.

Lemma accepted_cache : forall sp h c w, accepted sp (with_spellerCache h c) w <-> accepted sp h w.
Proof.
  assert (forall sp h c w, accepted sp h w -> accepted sp (with_spellerCache h c) w) as A.
  { intros sp h c w H. inversion H as [|w' n N L E X|w' n v N L E X Y]; subst.
    - constructor.
    - eapply accepted_exempt; eauto. destruct X; [apply exempt_number|apply exempt_capitals|apply exempt_nonword]; auto.
    - eapply accepted_found; eauto. destruct Y.
      + apply just_small; auto.
      + apply just_capitalised_common; auto.
      + apply just_capitalised_proper; auto.
      + eapply just_capitals; eauto.
      + apply just_exact; auto.
      + eapply just_exact_proper; eauto. }
  intros. split; auto. intros H. apply (A _ _ (spellerCache h)) in H.
  destruct h; exact H.
Qed.

Lemma spell_all_agree : forall sp ws h1 h2, Forall unicode_word ws ->
  cache_ok (dict sp h1) (spellerCache h1) -> cache_ok (dict sp h2) (spellerCache h2) ->
  with_spellerCache h1 None = with_spellerCache h2 None ->
  exists rs k1 k2, spell_all sp h1 ws = Ok (rs, k1) /\ spell_all sp h2 ws = Ok (rs, k2).
Proof.
  intros sp ws. induction ws as [|w ws IH]; intros h1 h2 F C1 C2 E.
  - exists [], h1, h2. auto.
  - inversion F as [|? ? Fw Fws]; subst. unfold spell_all. cbn [map do_calls do_call].
    destruct (spell_exact sp h1 w Fw C1) as (r1 & k1 & E1 & R1 & A1 & S1).
    destruct (spell_exact sp h2 w Fw C2) as (r2 & k2 & E2 & R2 & A2 & S2).
    rewrite E1, E2. cbn [bind].
    assert (accepted sp h1 w <-> accepted sp h2 w) as AA.
    { rewrite <- (accepted_cache sp h1 None), <- (accepted_cache sp h2 None), E. reflexivity. }
    assert (r1 = r2) as <-.
    { destruct R1 as [-> | ->], R2 as [-> | ->]; auto; exfalso.
      - assert (VOIKKO_SPELL_FAILED = VOIKKO_SPELL_OK) by tauto. discriminate.
      - assert (VOIKKO_SPELL_FAILED = VOIKKO_SPELL_OK) by tauto. discriminate. }
    destruct (IH k1 k2) as (rs & m1 & m2 & G1 & G2); auto.
    { rewrite (same_dict _ sp _ _ S1). apply S1. } { rewrite (same_dict _ sp _ _ S2). apply S2. }
    { destruct S1 as (-> & _). destruct S2 as (-> & _). exact E. }
    unfold spell_all in G1, G2. rewrite G1, G2. cbn [bind]. eauto.
Qed.

(** For any fixed option values, any sequence of spelling calls gives the same
    answers with a cache of any size from 0 to 18 as without a cache. *)
Theorem C10_cache_invisible : forall sp h size cache ws, 0 <= size <= 18 -> new_cache size = Ok cache -> Forall unicode_word ws ->
  exists answers h1 h2,
    spell_all sp (with_spellerCache h (Some cache)) ws = Ok (answers, h1) /\
    spell_all sp (with_spellerCache h None) ws = Ok (answers, h2).
Proof.
  intros sp h size cache ws S1 N F. apply spell_all_agree; auto.
  - eapply consistent_new; eauto.
  - exact I.
Qed.
Print Assumptions C10_cache_invisible.
(** The two words collide in the cache: the second evicts the first. *)
Example C10_cache_invisible_ex : exists cache h, new_cache 0 = Ok cache /\ voikkoInit = Ok h /\
  hash_code cache (wstr "a") = Ok 1 /\ hash_code cache (wstr "i") = Ok 1 /\
  results_of (spell_all (fun _ w => if zlist_eqb w (wstr "a") then SPELL_CAP_FIRST else SPELL_OK)
     (with_spellerCache h (Some cache)) (map wstr ["a"; "i"; "a"; "i"; "i"]%string)) = Ok [0; 1; 0; 1; 1].
Proof. eexists. eexists. split; [reflexivity|]. split; [reflexivity|]. vm_compute. repeat split; reflexivity. Qed.

(** ** C11 *)

(** After any history in which ACCEPT_EXTRA_HYPHENS and ACCEPT_MISSING_HYPHENS
    change only while the cache is switched off, a spelling call gives the
    answer of a handle with the same option values that has no memory of
    earlier calls. *)
Theorem C11_history_independent_partial : forall sp h w, reachable sp h -> unicode_word w ->
  exists r, result_of (voikkoSpellUcs4 sp h w) = Ok r /\
            result_of (voikkoSpellUcs4 sp (with_spellerCache h None) w) = Ok r /\
            (r = VOIKKO_SPELL_OK <-> accepted sp h w).
Proof.
  intros sp h w R U.
  destruct (spell_exact sp h w U (reachable_ok _ _ R)) as (r1 & k1 & E1 & R1 & A1 & _).
  destruct (spell_exact sp (with_spellerCache h None) w U) as (r2 & k2 & E2 & R2 & A2 & _); [exact I|].
  rewrite accepted_cache in A2. rewrite E1, E2. cbn. exists r1. split; auto. split; auto.
  f_equal. destruct R1 as [-> | ->], R2 as [-> | ->]; auto; exfalso;
  assert (VOIKKO_SPELL_FAILED = VOIKKO_SPELL_OK) by tauto; discriminate.
Qed.
Print Assumptions C11_history_independent_partial.
Example C11_history_independent_partial_ex : exists h0 h answers, voikkoInit = Ok h0 /\
  do_calls toy h0 [Spell (wstr "aa"); SetInt 17 (-1); SetBool 12 true; SetInt 17 2; SetBool 6 false;
                   Spell (wstr "aa"); Spell (wstr "Talo"); SetInt 17 (-1); SetBool 12 false; SetInt 17 0] = Ok (answers, h) /\
  answers = [0; 1; 1; 1; 1; 1; 0; 1; 1; 1] /\ result_of (voikkoSpellUcs4 toy h (wstr "aa")) = Ok 0.
Proof. eexists. eexists. eexists. split; [reflexivity|]. split; [vm_compute; reflexivity|]. vm_compute. auto. Qed.

(** Without that proviso the claim is false: an answer found while missing
    hyphens were accepted stays in the cache after the option is switched
    off. *)
Theorem C11_history_independent_refuted :
  ~ (forall sp h0 cs answers h w, voikkoInit = Ok h0 -> do_calls sp h0 cs = Ok (answers, h) -> unicode_word w ->
       result_of (voikkoSpellUcs4 sp h w) = result_of (voikkoSpellUcs4 sp (with_spellerCache h None) w)).
Proof.
  intros H. destruct init_ok as (h0 & E & _).
  destruct (do_calls toy h0 [SetBool 12 true; Spell (wstr "aa"); SetBool 12 false]) as [[answers h]| |] eqn:D;
    [|vm_compute in E; injection E as <-; vm_compute in D; discriminate|vm_compute in E; injection E as <-; vm_compute in D; discriminate].
  specialize (H toy h0 _ _ _ (wstr "aa") E D). vm_compute in E. injection E as <-. vm_compute in D. injection D as <- <-.
  assert (unicode_word (wstr "aa")) as U by (repeat constructor; cbn; lia).
  specialize (H U). vm_compute in H. discriminate.
Qed.
Print Assumptions C11_history_independent_refuted.

(** ** C12 *)

(** For size parameters 0 to 18 and every word of Unicode characters, the
    positions computed by the cache lie inside its two tables, and words of
    different length or different hash value use disjoint positions. *)
Theorem C12_addresses : forall size cache, 0 <= size <= 18 -> new_cache size = Ok cache ->
  (forall w, unicode_word w -> (1 <= length w <= 10)%nat -> exists hash a m,
     hash_code cache w = Ok hash /\ cache_offset cache w hash = Ok a /\ result_offset cache w hash = Ok m /\
     0 <= a /\ a + Z.of_nat (length w) <= Z.of_nat (length (words cache)) /\
     0 <= m < Z.of_nat (length (spellResults cache))) /\
  (forall u v hu hv' au av mu mv, unicode_word u -> unicode_word v ->
     (1 <= length u <= 10)%nat -> (1 <= length v <= 10)%nat ->
     hash_code cache u = Ok hu -> hash_code cache v = Ok hv' -> (length u <> length v \/ hu <> hv') ->
     cache_offset cache u hu = Ok au -> cache_offset cache v hv' = Ok av ->
     result_offset cache u hu = Ok mu -> result_offset cache v hv' = Ok mv ->
     mu <> mv /\ (au + Z.of_nat (length u) <= av \/ av + Z.of_nat (length v) <= au)).
Proof.
  intros size cache S1 N. destruct (new_cache_ok size S1) as (c & E & WF & SP & _). rewrite N in E. injection E as <-.
  split.
  - intros w U L. destruct (offsets_ok cache WF w U L) as (A & B & C & D1 & D2 & D3 & D4).
    do 3 eexists. split; [exact A|]. split; [exact B|]. split; [exact C|]. lia.
  - intros u v hu hv' au av mu mv Uu Uv Lu Lv Hu Hv D Au Av Mu Mv.
    destruct (offsets_ok cache WF u Uu Lu) as (A1 & B1 & C1 & _). destruct (offsets_ok cache WF v Uv Lv) as (A2 & B2 & C2 & _).
    rewrite A1 in Hu. injection Hu as <-. rewrite A2 in Hv. injection Hv as <-.
    rewrite B1 in Au. rewrite B2 in Av. rewrite C1 in Mu. rewrite C2 in Mv. injection Au as <-. injection Av as <-. injection Mu as <-. injection Mv as <-.
    apply slots_disjoint; auto. rewrite SP. lia.
Qed.
Print Assumptions C12_addresses.
Example C12_addresses_ex : exists cache, new_cache 0 = Ok cache /\
  hash_code cache (wstr "talo") = Ok 104 /\ cache_offset cache (wstr "talo") 104 = Ok 688 /\ result_offset cache (wstr "talo") 104 = Ok 216.
Proof. eexists. split; [reflexivity|]. vm_compute. repeat split; reflexivity. Qed.

(** Every look-up and update on a cache that only the library has written to is
    free of undefined behaviour, including words of any length. *)
Theorem C12_cached_calls_safe : forall sp h ws, reachable sp h -> Forall unicode_word ws ->
  exists answers h', spell_all sp h ws = Ok (answers, h').
Proof.
  intros sp h ws R F. destruct (spell_all_agree sp ws h h F) as (rs & k & _ & E & _); auto using reachable_ok. eauto.
Qed.
Print Assumptions C12_cached_calls_safe.
Example C12_cached_calls_safe_ex : exists h, voikkoInit = Ok h /\ reachable toy h /\
  Forall unicode_word [wstr "abcdefghijkl"; [0x10FFFF; 0x61]].
Proof. eexists. split; [reflexivity|]. split; [apply reach_init; reflexivity|]. repeat constructor; cbn; lia. Qed.

(** Larger size parameters are accepted by the interface but overflow. *)
Theorem C12_size_refuted : forall h, exists size, size < 2 ^ 31 /\ int_value h 17 <> Some size /\ voikkoSetIntegerOption h 17 size = UB.
Proof.
  intros h. assert (forall n, 19 <= n <= 20 -> new_cache n = UB) as A.
  { intros n Hn. assert (n = 19 \/ n = 20) as [-> | ->] by lia; reflexivity. }
  exists (if Z.eq_dec (match spellerCache h with Some c => sizeParam c | None => 0 end) 19 then 20 else 19).
  cbn [int_value]. unfold voikkoSetIntegerOption. destruct (spellerCache h) as [c|].
  - destruct (Z.eq_dec (sizeParam c) 19) as [E|E].
    + split; [lia|]. split; [congruence|]. rewrite (proj2 (Z.eqb_neq _ _)) by lia. cbn [negb]. rewrite A by lia. reflexivity.
    + split; [lia|]. split; [congruence|]. rewrite (proj2 (Z.eqb_neq _ _)) by lia. cbn [negb]. rewrite A by lia. reflexivity.
  - destruct (Z.eq_dec 0 19); [lia|]. split; [lia|]. split; [congruence|]. rewrite A by lia. reflexivity.
Qed.
Print Assumptions C12_size_refuted.

(** A word containing a negative [wchar_t] value, or one far above the Unicode
    range, drives the cache outside its tables. *)
Theorem C12_any_wchar_refuted : exists h, voikkoInit = Ok h /\
  voikkoSpellUcs4 toy h [0x61; -100] = UB /\ voikkoSpellUcs4 toy h [0x61; 0x7FFFFFFF] = UB.
Proof. eexists. split; [reflexivity|]. split; vm_compute; reflexivity. Qed.
Print Assumptions C12_any_wchar_refuted.

(** ** C13 *)
Ltac mono H :=
  inversion H as [|w' n N L E X|w' n v N L E X Y]; subst;
  [constructor
  |eapply accepted_exempt; eauto; destruct X; [apply exempt_number|apply exempt_capitals|apply exempt_nonword]; auto
  |apply (accepted_found _ _ _ n v); [exact N|exact L|exact E| |]; [inversion X; subst; constructor; auto|];
   destruct Y; [apply just_small|apply just_capitalised_common|apply just_capitalised_proper|eapply just_capitals|apply just_exact|eapply just_exact_proper]; eauto].

Lemma verdict_missing : forall f b v r, verdict f b v r -> verdict f true v r.
Proof. intros f b v r H. inversion H; subst; [apply verdict_known|eapply verdict_hyphens]; eauto. Qed.

(** Switching on one of these options never makes an accepted word
    rejected. *)
Theorem C13_monotone : forall sp h w, accepted sp h w ->
  accepted sp (with_ignore_dot h true) w /\ accepted sp (with_ignore_numbers h true) w /\
  accepted sp (with_ignore_uppercase h true) w /\ accepted sp (with_ignore_nonwords h true) w /\
  accepted sp (with_first_uppercase h true) w /\ accepted sp (with_missing_hyphens h true) w.
Proof.
  intros sp h w H. repeat split; mono H; cbn; eauto using verdict_missing.
Qed.
Print Assumptions C13_monotone.

Lemma hyphenated_lower : forall v v', hyphenated v v' -> hyphenated (map lower v) (map lower v').
Proof.
  assert (forall c, lower c = 0x2D -> c = 0x2D) as LH.
  { intros c H. destruct (Z_lt_dec c 0x600); [destruct (Z_lt_dec c 0)|].
    - rewrite lower_id_out in H; lia.
    - assert (negb (lower c =? 0x2D) || (c =? 0x2D) = true) as E.
      { apply (zrange_forallb (fun c => negb (lower c =? 0x2D) || (c =? 0x2D)) 0x600); [vm_compute; reflexivity|].
        change (Z.of_nat 0x600) with 0x600. lia. }
      rewrite H in E. cbn in E. lia.
    - rewrite lower_id_out in H; lia. }
  assert (forall v, starts_with_hyphen (map lower v) <-> starts_with_hyphen v) as S1.
  { intros v. split; intros (r & H).
    - destruct v as [|c t]; [discriminate|]. cbn in H. injection H as H _. apply LH in H. subst c. exists t. reflexivity.
    - subst v. exists (map lower r). reflexivity. }
  assert (forall v, ends_with_hyphen (map lower v) <-> ends_with_hyphen v) as S2.
  { intros v. split; intros (r & H).
    - destruct v as [|c t _] using rev_ind; [destruct r; discriminate|].
      rewrite map_app in H. cbn in H. apply app_inj_tail in H. destruct H as (_ & H). apply LH in H. subst c. exists t. reflexivity.
    - subst v. exists (map lower r). rewrite map_app. reflexivity. }
  intros v v' H. inversion H; subst; cbn [map]; rewrite ?map_app; cbn [map]; change (lower 0x2D) with 0x2D; constructor; rewrite ?S1, ?S2; auto.
Qed.

Lemma lower_small_first : forall v, map lower (small_first v) = map lower v.
Proof. intros [|c r]; cbn [small_first map]; auto. destruct (case_laws c) as (-> & _). reflexivity. Qed.

Lemma verdict_lower : forall f b v r, case_blind f -> verdict f b v r -> exists r', verdict f b (map lower v) r'.
Proof.
  intros f b v r CB H. inversion H as [v0 K|v0 v' K M L Hy K']; subst.
  - exists (f (map lower v)). apply verdict_known. auto.
  - destruct (f (map lower v)) eqn:E; [|exists SPELL_OK|exists SPELL_CAP_FIRST|exists SPELL_CAP_ERROR]; try (rewrite <- E; apply verdict_known; congruence).
    exists (f (map lower v')). eapply verdict_hyphens; eauto using hyphenated_lower. rewrite map_length; auto.
Qed.

(** The same for ACCEPT_ALL_UPPERCASE, for dictionaries that decide without
    regard to capital letters whether they know a word (as those built on the
    morphological analyser do, theorem [C13_analyzer_dictionary_case_blind]). *)
Theorem C13_monotone_all_uppercase : forall sp h w, (forall b, case_blind (sp b)) ->
  accepted sp h w -> accepted sp (with_all_uppercase h true) w.
Proof.
  intros sp h w CB H.
  inversion H as [|w' n N L E X|w' n v N L E X Y]; subst.
  - constructor.
  - eapply accepted_exempt; eauto; destruct X; [apply exempt_number|apply exempt_capitals|apply exempt_nonword]; auto.
  - apply (accepted_found _ _ _ n v); [exact N|exact L|exact E|inversion X; subst; constructor; auto|].
    assert (all_capitals n \/ ~ all_capitals n) as [AC|AC].
    { pose proof (shape_capitals n) as SC. destruct (voikko_casetype n); [right|right|right|right|left]; try tauto; intros A; apply SC in A; discriminate. }
    + destruct Y; eauto using just_small, just_capitalised_common, just_capitalised_proper, just_capitals.
      * destruct (verdict_lower _ _ _ _ (CB (accept_extra_hyphens h)) H3) as (r' & V). rewrite lower_small_first in V. eapply just_capitals; eauto.
      * destruct (verdict_lower _ _ _ _ (CB (accept_extra_hyphens h)) H6) as (r' & V). rewrite lower_small_first in V. eapply just_capitals; eauto.
    + destruct Y; [apply just_small|apply just_capitalised_common|apply just_capitalised_proper|eapply just_capitals|apply just_exact|eapply just_exact_proper]; eauto; intros; tauto.
Qed.
Print Assumptions C13_monotone_all_uppercase.

(** What [accepted] means for an actual call on a fresh handle: see
    [C08_spell_exact].  The options matter: *)
Example C13_monotone_ex : exists h, voikkoInit = Ok h /\
  result_of (voikkoSpellUcs4 toy h (wstr "talo.")) = Ok 0 /\
  result_of (voikkoSpellUcs4 toy (with_ignore_dot h true) (wstr "talo.")) = Ok 1 /\
  result_of (voikkoSpellUcs4 toy h (wstr "x1")) = Ok 0 /\
  result_of (voikkoSpellUcs4 toy (with_ignore_numbers h true) (wstr "x1")) = Ok 1 /\
  result_of (voikkoSpellUcs4 toy h (wstr "XY")) = Ok 0 /\
  result_of (voikkoSpellUcs4 toy (with_ignore_uppercase h true) (wstr "XY")) = Ok 1 /\
  result_of (voikkoSpellUcs4 toy (with_first_uppercase h false) (wstr "Talo")) = Ok 0 /\
  result_of (voikkoSpellUcs4 toy (with_missing_hyphens h true) (wstr "aa")) = Ok 1 /\
  result_of (voikkoSpellUcs4 toy (with_all_uppercase h false) (wstr "TALO")) = Ok 0 /\ case_blind (fun w => SPELL_OK).
Proof. eexists. split; [reflexivity|]. repeat (split; [vm_compute; reflexivity|]). intros v H; auto. Qed.

(** For an arbitrary dictionary the last one fails. *)
Theorem C13_monotone_all_uppercase_refuted :
  ~ (forall sp h w, accepted sp h w -> accepted sp (with_all_uppercase h true) w).
Proof.
  intros H. destruct init_ok as (h & E & _).
  set (sp := fun (_ : bool) w => if zlist_eqb w (wstr "aB") then SPELL_OK else SPELL_FAILED).
  assert (unicode_word (wstr "AB")) as U by (repeat constructor; cbn; lia).
  specialize (H sp (with_spellerCache (with_all_uppercase h false) None) (wstr "AB")).
  destruct (spell_exact sp (with_spellerCache (with_all_uppercase h false) None) (wstr "AB") U I) as (r & h' & A & _ & B & _).
  destruct (spell_exact sp (with_all_uppercase (with_spellerCache (with_all_uppercase h false) None) true) (wstr "AB") U I) as (r2 & h2 & A2 & _ & B2 & _).
  vm_compute in E. injection E as <-. vm_compute in A. vm_compute in A2. injection A as <- _. injection A2 as <- _.
  assert (0 = VOIKKO_SPELL_OK) as X by (apply B2, H, B; reflexivity). discriminate.
Qed.
Print Assumptions C13_monotone_all_uppercase_refuted.

(** ** C14: equivalent spellings are spell checked alike *)
Theorem C14_spelling_alike : forall sp h u v, reachable sp h -> respelled u v -> unicode_word u -> unicode_word v ->
  (length u <= 255)%nat -> (length v <= 255)%nat ->
  exists r, result_of (voikkoSpellUcs4 sp h u) = Ok r /\ result_of (voikkoSpellUcs4 sp h v) = Ok r.
Proof.
  intros sp h u v R RS Uu Uv Lu Lv.
  destruct (spell_exact sp h u Uu (reachable_ok _ _ R)) as (r1 & k1 & E1 & R1 & A1 & _).
  destruct (spell_exact sp h v Uv (reachable_ok _ _ R)) as (r2 & k2 & E2 & R2 & A2 & _).
  rewrite E1, E2. cbn. exists r1. split; auto. f_equal.
  assert (accepted sp h u <-> accepted sp h v) as AA.
  { assert (u <> [] /\ v <> []) as (Nu & Nv).
    { inversion RS as [a b base mark x C|a b c l C C']; subst; (split; [destruct a; discriminate|]); destruct a; try discriminate.
      inversion C; subst; discriminate. }
    rewrite (accepted_fun sp h u _ Nu Lu (normalise_ok u)), (accepted_fun sp h v _ Nv Lv (normalise_ok v)).
    rewrite (respelled_norm _ _ RS). reflexivity. }
  destruct R1 as [-> | ->], R2 as [-> | ->]; auto; exfalso;
  assert (VOIKKO_SPELL_FAILED = VOIKKO_SPELL_OK) by tauto; discriminate.
Qed.
Print Assumptions C14_spelling_alike.
Example C14_spelling_alike_ex : exists h, voikkoInit = Ok h /\ respelled [0x61; 0x308; 0x61] [0xE4; 0x61] /\
  result_of (voikkoSpellUcs4 (fun _ w => if zlist_eqb w [0xE4; 0x61] then SPELL_OK else SPELL_FAILED) h [0x61; 0x308; 0x61]) = Ok 1.
Proof.
  eexists. split; [reflexivity|]. split; [|vm_compute; reflexivity].
  apply (respell_accent [] [0x61] 0x61 0x308 0xE4). unfold composes, composed_with. cbn. auto 10.
Qed.

(** ** C16 *)
Lemma small_lower : forall w, no_capital w -> map lower w = w.
Proof.
  induction 1 as [|c w (H & _) F IH]; cbn [map]; auto. rewrite IH. f_equal.
  destruct (Z.eq_dec (lower c) c); auto. elim H. exists (lower c). apply case_pair_lower. auto.
Qed.

Lemma no_dot_form : forall h n v, (ignore_dot h = false \/ forall u, n <> u ++ [0x2E]) -> form (ignore_dot h) n v -> v = n.
Proof. intros h n v D F. inversion F; subst; auto. destruct D as [D|D]; [congruence|]. elim (D v); auto. Qed.

Section C16.
  Variables (sp : env) (h : handle) (c : Z) (r : list Z).
  Let w := c :: r.
  Let W := upper c :: r.
  Let CAPS := map upper w.
  (** [w] is written in small letters, begins with a letter and has another
      one; all three spellings are in standard form. *)
  Hypothesis Hsmall : all_small w.
  Hypothesis Hc : small c.
  Hypothesis Hr : ~ no_small r.
  Hypothesis Hlen : (length w <= 255)%nat.
  Hypothesis Nw : voikko_normalise w = Ok w.
  Hypothesis NW : voikko_normalise W = Ok W.
  Hypothesis NC : voikko_normalise CAPS = Ok CAPS.
  (** No rule that skips checking applies. *)
  Hypothesis Xw : ~ exempt h w.
  Hypothesis XW : ~ exempt h W.
  Hypothesis Dot : ignore_dot h = false \/ forall u, r <> u ++ [0x2E].

  Let V := verdict (sp (accept_extra_hyphens h)) (accept_missing_hyphens h).

  Lemma upper_c : isUpper (upper c) = true.
  Proof. apply isUpper_upper. apply isLower_spec; auto. Qed.

  Lemma lower_W : map lower W = w.
  Proof.
    unfold W, w. cbn [map]. destruct (case_laws c) as (_ & _ & -> & _).
    change (lower c :: map lower r) with (map lower w). apply small_lower. apply Hsmall.
  Qed.

  Lemma W_shape : capitalised W.
  Proof.
    split.
    - intros H. apply Hr. inversion H; auto.
    - exists (upper c), r. split; auto. split; [apply isUpper_spec, upper_c|]. destruct Hsmall as (_ & H). inversion H; auto.
  Qed.

  Lemma dot_cons : forall x, ignore_dot h = false \/ forall u, x :: r <> u ++ [0x2E].
  Proof.
    intros x. destruct Dot as [D|D]; [left; auto|]. right. intros [|y u] E; cbn in E; injection E as -> E.
    - apply Hr. rewrite E. constructor.
    - elim (D u); auto.
  Qed.

  Lemma accepted_small : accepted sp h w <-> V w SPELL_OK.
  Proof.
    assert (w <> []) as N by discriminate. pose proof (accepted_fun sp h w w N Hlen Nw) as AF.
    destruct Hsmall as (A & B). split.
    - intros H. apply AF in H. destruct H as [H|(v & F & J)]; [tauto|]. apply no_dot_form in F; [|apply dot_cons]. subst v.
      assert (~ capitalised w) as NCp.
      { intros (_ & x & y & E & D & _). unfold w in E. injection E as <- <-. inversion B; tauto. }
      assert (~ all_capitals w) as NA by (intros (_ & X); tauto).
      destruct J as [H1 H2|H1 H0 H2|H1 H2|q H1 H0 H2|H1 H1' H1'' H2|c' q H1 H1' H1'' H0 H0' H0'' H2];
        try (exfalso; tauto).
      rewrite small_lower in H2 by auto. exact H2.
    - intros H. apply AF. right. exists w. split; [constructor|]. apply just_small; [split; auto|]. rewrite small_lower; auto.
  Qed.

  Lemma accepted_capitalised : accepted sp h W <-> (V w SPELL_OK /\ accept_first_uppercase h = true) \/ V w SPELL_CAP_FIRST.
  Proof.
    assert (W <> []) as N by discriminate. pose proof (accepted_fun sp h W W N Hlen NW) as AF.
    pose proof W_shape as WS. assert (~ all_small W) as NS.
    { intros (_ & B). inversion B as [|? ? (B1 & B2) _]; subst. pose proof upper_c as U. apply isUpper_spec in U. tauto. }
    assert (~ all_capitals W) as NCp. { intros (_ & B). destruct WS as (WS & _). auto. }
    split.
    - intros H. apply AF in H. destruct H as [H|(v & F & J)]; [tauto|]. apply no_dot_form in F; [|apply dot_cons]. subst v.
      destruct J as [H1 H2|H1 H0 H2|H1 H2|q H1 H0 H2|H1 H1' H1'' H2|c' q H1 H1' H1'' H0 H0' H0'' H2]; try tauto; rewrite lower_W in H2; tauto.
    - intros H. apply AF. right. exists W. split; [constructor|]. destruct H as [(H & H')|H].
      + apply just_capitalised_common; auto. rewrite lower_W. auto.
      + apply just_capitalised_proper; auto. rewrite lower_W. auto.
  Qed.

  Lemma accepted_caps : accept_all_uppercase h = true -> (exists q, V w q) -> accepted sp h CAPS.
  Proof.
    intros A (q & H).
    assert (CAPS <> []) as N by discriminate.
    assert (length CAPS <= 255)%nat as L by (unfold CAPS; rewrite map_length; auto).
    apply (accepted_fun sp h CAPS CAPS N L NC). right. exists CAPS. split; [constructor|].
    eapply just_capitals; [|exact A|].
    - apply shape_capitals. apply (casetype_all_upper w). intros X. unfold no_cased in X. inversion X; tauto.
    - unfold CAPS. rewrite map_map. rewrite (map_ext _ lower); [|intros x; apply case_laws].
      rewrite small_lower; [exact H|apply Hsmall].
  Qed.
End C16.

(** A word the dictionary knows in small letters is accepted in small letters,
    with a capital initial exactly when ACCEPT_FIRST_UPPERCASE is on, and in
    capitals when ACCEPT_ALL_UPPERCASE is on.  A word it knows only with a
    capital initial is rejected in small letters, accepted with a capital
    initial, and in capitals when ACCEPT_ALL_UPPERCASE is on. *)
Theorem C16_capitals : forall sp h c r,
  all_small (c :: r) -> small c -> ~ no_small r -> (length (c :: r) <= 255)%nat ->
  voikko_normalise (c :: r) = Ok (c :: r) -> voikko_normalise (upper c :: r) = Ok (upper c :: r) ->
  voikko_normalise (map upper (c :: r)) = Ok (map upper (c :: r)) ->
  ~ exempt h (c :: r) -> ~ exempt h (upper c :: r) ->
  (ignore_dot h = false \/ forall u, r <> u ++ [0x2E]) ->
  let judged := verdict (sp (accept_extra_hyphens h)) (accept_missing_hyphens h) (c :: r) in
  (judged SPELL_OK ->
     accepted sp h (c :: r) /\
     (accepted sp h (upper c :: r) <-> accept_first_uppercase h = true) /\
     (accept_all_uppercase h = true -> accepted sp h (map upper (c :: r)))) /\
  (judged SPELL_CAP_FIRST ->
     ~ accepted sp h (c :: r) /\ accepted sp h (upper c :: r) /\
     (accept_all_uppercase h = true -> accepted sp h (map upper (c :: r)))).
Proof.
  intros sp h c r H1 H2 H3 H4 H5 H6 H7 H8 H9 H10 judged.
  assert (forall f b v x y, verdict f b v x -> verdict f b v y -> x = y) as VU.
  { intros f b v x y A B. apply verdict_hw in A. apply verdict_hw in B. destruct A as (<- & _), B as (<- & _). auto. }
  pose proof (accepted_small sp h c r H1 H3 H4 H5 H8 H10) as A.
  pose proof (accepted_capitalised sp h c r H1 H2 H3 H4 H6 H9 H10) as B.
  pose proof (accepted_caps sp h c r H1 H2 H4 H7) as C. unfold judged. split; intros J.
  - split; [tauto|]. split; [|intros; apply C; eauto]. rewrite B. split; [|tauto]. intros [X|X]; [tauto|]. pose proof (VU _ _ _ _ _ J X). discriminate.
  - split; [|split; [tauto|intros; apply C; eauto]]. intros X. apply A in X. pose proof (VU _ _ _ _ _ J X). discriminate.
Qed.
Print Assumptions C16_capitals.
Example C16_capitals_ex : exists h, voikkoInit = Ok h /\ all_small (wstr "talo") /\ small 0x74 /\ ~ no_small (wstr "alo") /\
  voikko_normalise (wstr "talo") = Ok (wstr "talo") /\ voikko_normalise (wstr "Talo") = Ok (wstr "Talo") /\
  voikko_normalise (wstr "TALO") = Ok (wstr "TALO") /\
  verdict (toy false) false (wstr "talo") SPELL_OK /\ verdict (toy false) false (wstr "matti") SPELL_CAP_FIRST /\ ignore_dot h = false.
Proof.
  eexists. split; [reflexivity|]. split; [apply shape_small; reflexivity|]. split; [apply isLower_spec; reflexivity|].
  split; [intros H; apply no_small_iff in H; discriminate|]. repeat (split; [reflexivity|]).
  split; [apply verdict_hw; split; [reflexivity|discriminate]|]. split; [apply verdict_hw; split; [reflexivity|discriminate]|]. reflexivity.
Qed.
