(** * Properties of characters, case, normalisation and non-words
    (C14, C15, C44). *)
From Verif Require Import Base BaseFacts CharModel CharSpec CharProofs.

(** ** C15: letter case *)

(** Lower- and upper-casing implement exactly the capital/small pairs of the
    specification, in both directions. *)
Theorem C15_case_pairs : forall u l,
  (case_pair u l <-> (u <> l /\ lower u = l)) /\ (case_pair u l <-> (u <> l /\ upper l = u)).
Proof. intros; split; [apply case_pair_lower | apply case_pair_upper]. Qed.
Print Assumptions C15_case_pairs.
Example C15_case_pairs_ex : case_pair 196 228 /\ lower 196 = 228 /\ upper 228 = 196.
Proof. repeat split; try reflexivity. apply case_pair_lower. split; [lia|reflexivity]. Qed.

(** Characters without case are left alone; conversions are idempotent and
    mutually inverse up to case, for every character value. *)
Theorem C15_case_laws : forall c,
  lower (lower c) = lower c /\ upper (upper c) = upper c /\
  lower (upper c) = lower c /\ upper (lower c) = upper c /\
  (~ capital c -> lower c = c) /\ (~ small c -> upper c = c) /\ ~ (capital c /\ small c).
Proof.
  intros c. destruct (case_laws c) as (A & B & C & D). repeat split; auto.
  - intros N. destruct (Z.eq_dec (lower c) c); auto. elim N. exists (lower c). apply case_pair_lower. auto.
  - intros N. destruct (Z.eq_dec (upper c) c); auto. elim N. exists (upper c). apply case_pair_upper. auto.
  - intros [U L]. apply (upper_lower_excl c); [apply isUpper_spec; auto | apply isLower_spec; auto].
Qed.
Print Assumptions C15_case_laws.
Example C15_case_laws_ex : capital 0x411 /\ small 0x431 /\ ~ capital 0x31.
Proof.
  repeat split.
  - exists 0x431. apply case_pair_lower. split; [lia|reflexivity].
  - apply isLower_spec. reflexivity.
  - intros H. assert (isUpper 0x31 = true) as E by (apply isUpper_spec; auto). discriminate.
Qed.

(** Classification of a word's case means what its name says. *)
Theorem C15_casetype_meaning : forall w,
  match voikko_casetype w with
  | CT_NO_LETTERS => no_cased w
  | CT_ALL_UPPER => ~ no_cased w /\ no_small w
  | CT_ALL_LOWER => ~ no_small w /\ no_capital w
  | CT_FIRST_UPPER => ~ no_small w /\ exists c r, w = c :: r /\ (capital c \/ c = SCHWA) /\ no_capital r
  | CT_COMPLEX => ~ no_small w /\ exists c r, w = c :: r /\ ~ no_capital r
  end.
Proof. exact casetype_cases. Qed.
Print Assumptions C15_casetype_meaning.
Example C15_casetype_meaning_ex :
  map voikko_casetype [wstr "12"; wstr "EU"; wstr "talo"; wstr "Talo"; wstr "eMail"] =
  [CT_NO_LETTERS; CT_ALL_UPPER; CT_ALL_LOWER; CT_FIRST_UPPER; CT_COMPLEX].
Proof. reflexivity. Qed.

(** Re-casing a word keeps its length and produces a word of the requested
    class, provided it has cased letters where needed (and no schwa, which has
    no small form). *)
Theorem C15_recase : forall w,
  (forall ct, length (voikko_set_case ct w) = length w) /\
  (~ In SCHWA w -> ~ no_cased w -> voikko_casetype (voikko_set_case CT_ALL_LOWER w) = CT_ALL_LOWER) /\
  (~ no_cased w -> voikko_casetype (voikko_set_case CT_ALL_UPPER w) = CT_ALL_UPPER) /\
  (forall c r, w = c :: r -> ~ In SCHWA w -> (capital c \/ small c) -> ~ no_cased r ->
     voikko_casetype (voikko_set_case CT_FIRST_UPPER w) = CT_FIRST_UPPER).
Proof.
  intros w. repeat split.
  - intros; apply set_case_length.
  - apply casetype_all_lower.
  - apply casetype_all_upper.
  - intros c r ->. apply casetype_first_upper.
Qed.
Print Assumptions C15_recase.
Example C15_recase_ex : ~ no_cased (wstr "tALo") /\ voikko_set_case CT_FIRST_UPPER (wstr "tALo") = wstr "Talo".
Proof. split; [apply not_no_cased; reflexivity | reflexivity]. Qed.

(** Re-casing twice is the same as re-casing once, and only the last request
    matters: lower-casing forgets any earlier re-casing. *)
Theorem C15_recase_idempotent : forall ct w,
  voikko_set_case ct (voikko_set_case ct w) = voikko_set_case ct w /\
  voikko_set_case CT_ALL_LOWER (voikko_set_case ct w) = voikko_set_case CT_ALL_LOWER w.
Proof.
  assert (forall l, map lower (map lower l) = map lower l) as LL.
  { intros. rewrite map_map. apply map_ext. intros; apply case_laws. }
  assert (forall l, map lower (map upper l) = map lower l) as LU.
  { intros. rewrite map_map. apply map_ext. intros; apply case_laws. }
  assert (forall l, map upper (map upper l) = map upper l) as UU.
  { intros. rewrite map_map. apply map_ext. intros; apply case_laws. }
  intros ct [|c r]; [destruct ct; auto|].
  destruct (case_laws c) as (A & B & C & D).
  destruct ct; cbn [voikko_set_case map]; rewrite ?A, ?B, ?C, ?LL, ?LU, ?UU; auto.
Qed.
Print Assumptions C15_recase_idempotent.
Example C15_recase_idempotent_ex : voikko_set_case CT_ALL_LOWER (voikko_set_case CT_ALL_UPPER [0xE4; 0x69; 0x74; 0x69]) = [0xE4; 0x69; 0x74; 0x69].
Proof. reflexivity. Qed.

(** Case-insensitive comparison is an equivalence relation coarser than
    equality and compatible with re-casing. *)
Theorem C15_equals_ignore_case : forall a b c,
  (equalsIgnoreCase a b = true <-> map lower a = map lower b) /\
  equalsIgnoreCase a a = true /\
  (equalsIgnoreCase a b = true -> equalsIgnoreCase b a = true) /\
  (equalsIgnoreCase a b = true -> equalsIgnoreCase b c = true -> equalsIgnoreCase a c = true) /\
  (forall ct, equalsIgnoreCase (voikko_set_case ct a) a = true).
Proof.
  assert (forall a b, equalsIgnoreCase a b = true <-> map lower a = map lower b) as E.
  { intros a b. unfold equalsIgnoreCase. destruct (Nat.eqb_spec (length a) (length b)); simpl.
    - apply zlist_eqb_eq.
    - split; [discriminate|]. intros H. apply (f_equal (@length Z)) in H. rewrite !map_length in H. congruence. }
  intros a b c. rewrite !E. repeat split; auto; try (apply E); try congruence.
  intros ct. apply E. destruct (C15_recase_idempotent ct a) as [_ H].
  destruct a as [|x a]; [destruct ct; auto|].
  assert (forall l, l <> [] -> voikko_set_case CT_ALL_LOWER l = map lower l) as V by (intros [|? ?]; [congruence|auto]).
  rewrite V in H.
  - rewrite H. auto.
  - intros Q. apply (f_equal (@length Z)) in Q. rewrite set_case_length in Q. discriminate.
Qed.
Print Assumptions C15_equals_ignore_case.
Example C15_equals_ignore_case_ex : equalsIgnoreCase (wstr "Helsinki") (wstr "HELSINKI") = true.
Proof. reflexivity. Qed.

(** Changing case never changes "is a letter", except that the library does
    not regard U+00C0 as a letter. *)
Theorem C15_letters_stay_letters : forall c, get_char_type c = CHAR_LETTER ->
  get_char_type (lower c) = CHAR_LETTER /\ (c <> 0xE0 -> get_char_type (upper c) = CHAR_LETTER).
Proof.
  intros c H. destruct (letter_case c) as [A B].
  - unfold is_letter. rewrite H. auto.
  - unfold is_letter in *. split; [|intros N; specialize (B N)].
    + destruct (get_char_type (lower c)); congruence.
    + destruct (get_char_type (upper c)); congruence.
Qed.
Print Assumptions C15_letters_stay_letters.
Example C15_letters_stay_letters_ex : get_char_type 0xE4 = CHAR_LETTER.
Proof. reflexivity. Qed.

(** The unrestricted claim is false: the capital of a-with-grave is not
    classified as a letter. *)
Theorem C15_letters_stay_letters_refuted :
  ~ (forall c, get_char_type c = CHAR_LETTER -> get_char_type (upper c) = CHAR_LETTER).
Proof. intros H. specialize (H 0xE0 eq_refl). vm_compute in H. discriminate. Qed.
Print Assumptions C15_letters_stay_letters_refuted.

(** Lower-casing does not always produce a word classified as lower case. *)
Theorem C15_recase_schwa_refuted :
  ~ (forall w, ~ no_cased w -> voikko_casetype (voikko_set_case CT_ALL_LOWER w) = CT_ALL_LOWER).
Proof.
  intros H. assert (~ no_cased [SCHWA]) as N by (apply not_no_cased; reflexivity).
  specialize (H [SCHWA] N). vm_compute in H. discriminate.
Qed.
Print Assumptions C15_recase_schwa_refuted.

(** ** C14: normalisation *)

(** Normalisation always stays inside its buffer, grows a word at most
    threefold and leaves a word without replaceable characters unchanged. *)
Theorem C14_normalise_safe : forall w, exists out, voikko_normalise w = Ok out /\
  (length out <= 3 * length w)%nat /\ (w <> [] -> out <> []) /\ (plain w -> out = w).
Proof.
  intros w. exists (norm_loop w). repeat split.
  - apply normalise_ok.
  - apply norm_loop_len.
  - apply norm_loop_nonempty.
  - apply plain_norm.
Qed.
Print Assumptions C14_normalise_safe.
Example C14_normalise_safe_ex : plain (wstr "abc") /\ norm_loop [0xFB03; 0x61; 0x308] = wstr "ffi" ++ [0xE4].
Proof.
  split; [|reflexivity]. split.
  - intros c H [l U]. simpl in H.
    repeat (destruct H as [H|H]; [subst; inversion U|]). destruct H.
  - intros a b u v x E C. apply composes_facts in C. destruct C as (_ & _ & C & _).
    assert (In v (wstr "abc")) as I by (rewrite E; apply in_or_app; right; right; left; auto).
    revert C. simpl in I. repeat (destruct I as [I|I]; [subst; apply not_combining_dec; reflexivity|]). destruct I.
Qed.

(** Spellings that differ in the form of an accented letter, an apostrophe, a
    hyphen, a ligature or a degree sign have the same normal form. *)
Theorem C14_equivalent_spellings : forall u v, respelled u v -> voikko_normalise u = voikko_normalise v.
Proof. intros u v H. rewrite !normalise_ok. f_equal. apply respelled_norm; auto. Qed.
Print Assumptions C14_equivalent_spellings.
Example C14_equivalent_spellings_ex : respelled (wstr "p" ++ 0x61 :: 0x308 :: wstr "iva") (wstr "p" ++ 0xE4 :: wstr "iva").
Proof. apply respell_accent. apply find2_composes. reflexivity. Qed.

(** Normalisation is idempotent unless a ligature or degree sign is directly
    followed by a combining mark. *)
Theorem C14_idempotent_partial : forall w n,
  (forall a b c m, w = a ++ c :: m :: b -> ends_in_letter c -> ~ combining m) ->
  voikko_normalise w = Ok n -> voikko_normalise n = Ok n.
Proof.
  intros w n H E. rewrite normalise_ok in *. injection E as <-. f_equal. apply norm_plain. auto.
Qed.
Print Assumptions C14_idempotent_partial.
Example C14_idempotent_partial_ex : voikko_normalise [0x61; 0x308; 0x2019] = Ok [0xE4; 0x27].
Proof. reflexivity. Qed.

(** Without that condition it is not idempotent: LATIN SMALL LIGATURE FI
    followed by COMBINING GRAVE ACCENT. *)
Theorem C14_idempotent_refuted :
  ~ (forall w n, voikko_normalise w = Ok n -> voikko_normalise n = Ok n).
Proof. intros H. specialize (H [0xFB01; 0x300] _ eq_refl). vm_compute in H. discriminate. Qed.
Print Assumptions C14_idempotent_refuted.

(** ** C44: non-words *)

(** The non-word test never reads outside the word and recognises exactly the
    three documented shapes. *)
Theorem C44_nonword_exact : forall w, exists r, voikko_is_nonword w = Ok r /\
  (r = true <-> url_like w \/ email_like w \/ www_like w).
Proof. exact is_nonword_spec. Qed.
Print Assumptions C44_nonword_exact.
Example C44_nonword_exact_ex :
  voikko_is_nonword (wstr "http://a.fi") = Ok true /\ voikko_is_nonword (wstr "a@b.c") = Ok true /\
  voikko_is_nonword (wstr "www.a.fi") = Ok true /\ voikko_is_nonword (wstr "a@.cde") = Ok false.
Proof. repeat split; reflexivity. Qed.

(** The documentation in the source says that something must follow the last
    dot of a www-address; the code does not require it. *)
Theorem C44_www_needs_tail_refuted :
  ~ (forall w, voikko_is_nonword w = Ok true -> url_like w \/ email_like w \/
       exists x b c, w = wstr "www." ++ (x :: b) ++ [0x2E] ++ c /\ x <> 0x2E /\ c <> []).
Proof.
  intros H. specialize (H (wstr "www.ab.") eq_refl).
  destruct H as [H|[H|H]].
  - destruct H as (a & b & c & E & N & _).
    assert (In 0x2F (wstr "www.ab.")) as I by (rewrite E; apply in_or_app; right; left; auto).
    simpl in I. intuition lia.
  - destruct H as (a & x & b & c & E & N & _).
    assert (In 0x40 (wstr "www.ab.")) as I by (rewrite E; apply in_or_app; right; left; auto).
    simpl in I. intuition lia.
  - destruct H as (x & b & c & E & N & C). cbn in E. injection E as <- E.
    destruct b as [|b1 [|b2 [|b3 b]]]; cbn in E; try (injection E; intros; subst; congruence || lia).
Qed.
Print Assumptions C44_www_needs_tail_refuted.
