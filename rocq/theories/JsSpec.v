(** * Specification of the JavaScript interface. *)
From Verif Require Import Base Utf8Spec JavaSpec.

(** The functions that write strings as UTF-8 do so for all strings of
    characters with one unit. *)
Definition writes_utf8 (enc : list Z -> list Z) : Prop := forall s, Forall plain s -> enc s = utf8_text s.
