(** * Independent specification of UTF-8 (RFC 3629, section 3). *)
From Verif Require Import Base.

(** Code points the library accepts: Unicode scalar values except the two
    non-characters U+FFFE and U+FFFF. *)
Definition encodable (c : Z) : Prop :=
  0 <= c <= 0x10FFFF /\ ~ (0xD800 <= c <= 0xDFFF) /\ c <> 0xFFFE /\ c <> 0xFFFF.

(** The encoding of one code point: the bit groups of the RFC's table written
    with division and remainder. *)
Definition rfc3629 (c : Z) : list Z :=
  if c <? 128 then [c]
  else if c <? 2048 then [192 + c / 64; 128 + c mod 64]
  else if c <? 65536 then [224 + c / 4096; 128 + (c / 64) mod 64; 128 + c mod 64]
  else [240 + c / 262144; 128 + (c / 4096) mod 64; 128 + (c / 64) mod 64; 128 + c mod 64].

Definition utf8_text (w : list Z) : list Z := concat (map rfc3629 w).

Definition byte (b : Z) : Prop := 0 <= b <= 255.

(** [bytes] is well-formed UTF-8 for the text [w]. *)
Definition encodes (bytes w : list Z) : Prop := Forall encodable w /\ bytes = utf8_text w.
