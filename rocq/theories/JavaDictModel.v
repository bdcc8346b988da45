(** * Dictionaries of the Java interface.

    Models [compareTo], [equals] and [hashCode] of
    [libvoikko/java/src/main/java/org/puimula/libvoikko/Dictionary.java] (called
    Dictionary.java below) for dictionaries whose four strings are not null, as
    those made by [Voikko.listDicts] are.  [PyModel.dict] holds the strings, as
    UTF-16 units. *)
From Verif Require Import Base PyModel.

(** [String.compareTo] of the Java library: the difference of the first units
    that differ, or else of the lengths. *)
Fixpoint string_compareTo (a b : list Z) : Z :=
  match a, b with
  | x :: a', y :: b' => if x =? y then string_compareTo a' b' else x - y
  | _, _ => Z.of_nat (length a) - Z.of_nat (length b)
  end.

(** [compareTo], Dictionary.java:76-90. *)
Definition dict_compareTo (this arg0 : dict) : Z :=
  let cmp := string_compareTo (d_language this) (d_language arg0) in
  if negb (cmp =? 0) then cmp
  else
    let cmp := string_compareTo (d_script this) (d_script arg0) in
    if negb (cmp =? 0) then cmp
    else
      let cmp := string_compareTo (d_variant this) (d_variant arg0) in
      if negb (cmp =? 0) then cmp
      else string_compareTo (d_description this) (d_description arg0).

(** Arithmetic of [int]: 32 bits, modulo [2^32]. *)
Definition int32 (n : Z) : Z := (n + 0x80000000) mod 0x100000000 - 0x80000000.

(** [String.hashCode] of the Java library. *)
Definition string_hashCode (s : list Z) : Z := fold_left (fun h c => int32 (31 * h + c)) s 0.

(** [hashCode], Dictionary.java:92-103. *)
Definition dict_hashCode (this : dict) : Z :=
  let result := 1 in
  let result := int32 (31 * result + string_hashCode (d_description this)) in
  let result := int32 (31 * result + string_hashCode (d_language this)) in
  let result := int32 (31 * result + string_hashCode (d_script this)) in
  int32 (31 * result + string_hashCode (d_variant this)).

(** [equals], Dictionary.java:105-134, for another dictionary. *)
Definition dict_equals (this other : dict) : bool :=
  if negb (str_eq (d_description this) (d_description other)) then false
  else if negb (str_eq (d_language this) (d_language other)) then false
  else if negb (str_eq (d_script this) (d_script other)) then false
  else if negb (str_eq (d_variant this) (d_variant other)) then false
  else true.
