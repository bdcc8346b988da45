(** * Properties of UTF-8 conversion (C01, C02). *)
From Verif Require Import Base BaseFacts Utf8Model Utf8Spec Utf8Proofs.

(** C01: any encodable text survives encoding and decoding; the encoded form
    is the standard one and fits the buffer the library allocates
    ([utf8FromUcs4] never returns [UB]). *)
Theorem C01_roundtrip : forall w, Forall encodable w ->
  exists bytes, utf8FromUcs4 w = Ok (Some bytes) /\ bytes = utf8_text w /\
                Forall byte bytes /\ (length bytes + 1 <= 6 * length w + 1)%nat /\
                ucs4FromUtf8 bytes = Ok (Some w).
Proof.
  intros w H. exists (utf8_text w). repeat split.
  - rewrite utf8FromUcs4_ok. destruct (append_all_encoded w H) as [-> _]. auto.
  - apply utf8_text_bytes; auto.
  - pose proof (utf8_text_len w). lia.
  - apply ucs4FromUtf8_encoded; auto.
Qed.
Print Assumptions C01_roundtrip.
Example C01_roundtrip_ex : Forall encodable [0x70; 0xE4; 0x20AC; 0x1F600] /\
  utf8FromUcs4 [0x70; 0xE4; 0x20AC; 0x1F600] =
    Ok (Some [0x70; 0xC3; 0xA4; 0xE2; 0x82; 0xAC; 0xF0; 0x9F; 0x98; 0x80]).
Proof. split; [repeat constructor; lia | reflexivity]. Qed.

(** C01: encoding fails cleanly on every other sequence of [wchar_t] values. *)
Theorem C01_encode_rejects : forall w, Forall (fun c => - 2 ^ 31 <= c < 2 ^ 31) w ->
  ~ Forall encodable w -> utf8FromUcs4 w = Ok None.
Proof. intros w R H. rewrite utf8FromUcs4_ok. f_equal. apply append_all_none; auto. Qed.
Print Assumptions C01_encode_rejects.
Example C01_encode_rejects_ex : utf8FromUcs4 [0x61; 0xD800] = Ok None /\ utf8FromUcs4 [-1] = Ok None.
Proof. split; reflexivity. Qed.

(** C02: a byte string is decoded exactly when it is well-formed, and then to
    the unique text it encodes; decoding never reads past the end ([UB]). *)
Theorem C02_decode_exact : forall bytes w, Forall byte bytes ->
  (ucs4FromUtf8 bytes = Ok (Some w) <-> encodes bytes w).
Proof.
  intros bytes w B. split.
  - intros H. destruct (ucs4FromUtf8_total bytes B) as [(w' & E & D)|[E _]]; congruence.
  - intros [E ->]. apply ucs4FromUtf8_encoded; auto.
Qed.
Print Assumptions C02_decode_exact.
Theorem C02_decode_rejects : forall bytes, Forall byte bytes ->
  (ucs4FromUtf8 bytes = Ok None <-> forall w, ~ encodes bytes w).
Proof.
  intros bytes B. split.
  - intros H w E. apply (C02_decode_exact bytes w B) in E. congruence.
  - intros H. destruct (ucs4FromUtf8_total bytes B) as [(w' & E & D)|[E _]]; auto. elim (H w'); auto.
Qed.
Print Assumptions C02_decode_rejects.
Theorem C02_decode_unique : forall bytes w w', encodes bytes w -> encodes bytes w' -> w = w'.
Proof. exact encodes_unique. Qed.
Print Assumptions C02_decode_unique.
Example C02_decode_ex : (* overlong, truncated, stray trail byte, surrogate, U+FFFF *)
  map ucs4FromUtf8 [[0xC0; 0x80]; [0x61; 0xE2; 0x82]; [0x80]; [0xED; 0xA0; 0x80]; [0xEF; 0xBF; 0xBF]; [0x61; 0xC3; 0xB6]] =
  [Ok None; Ok None; Ok None; Ok None; Ok None; Ok (Some [0x61; 0xF6])].
Proof. reflexivity. Qed.

(** C02: the length-limited conversion used by the UTF-8 tokenizer is memory
    safe for arbitrary bytes, and on well-formed text yields exactly the first
    [maxChars] characters. *)
Theorem C02_decode_prefix : forall bytes maxChars, Forall byte bytes ->
  (exists o, ucs4FromUtf8_max bytes maxChars = Ok o) /\
  (forall w, encodes bytes w -> ucs4FromUtf8_max bytes maxChars = Ok (Some (firstn maxChars w))).
Proof.
  intros bytes m B. split.
  - apply ucs4FromUtf8_max_safe; auto.
  - intros w [E ->]. apply ucs4FromUtf8_max_encoded; auto.
Qed.
Print Assumptions C02_decode_prefix.
Example C02_decode_prefix_ex : ucs4FromUtf8_max (utf8_text (wstr "abcdef")) 4 = Ok (Some (wstr "abcd")).
Proof. reflexivity. Qed.

(** C02, full claim "malformed input is always reported" is false for the
    length-limited conversion: it validates nothing when the text is long. *)
Theorem C02_prefix_validates_refuted :
  ~ (forall bytes maxChars, Forall byte bytes -> (forall w, ~ encodes bytes w) ->
       ucs4FromUtf8_max bytes maxChars = Ok None).
Proof.
  intros H. specialize (H [0x61; 0x61; 0x61; 0x61; 0x61; 0x61; 0x61; 0xFF] 1%nat).
  assert (ucs4FromUtf8_max [0x61; 0x61; 0x61; 0x61; 0x61; 0x61; 0x61; 0xFF] 1 = Ok None) as E.
  { apply H.
    - repeat constructor; unfold byte; lia.
    - apply C02_decode_rejects; [repeat constructor; unfold byte; lia | reflexivity]. }
  vm_compute in E. discriminate.
Qed.
Print Assumptions C02_prefix_validates_refuted.
