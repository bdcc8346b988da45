(** * Specification of the order of dictionaries. *)
From Verif Require Import Base PyModel.

(** A string comes before another if it is the beginning of the other, or if it
    has the smaller unit where the two differ first. *)
Definition string_before (a b : list Z) : Prop :=
  (exists y r, b = a ++ y :: r) \/
  (exists p x y r s, a = p ++ x :: r /\ b = p ++ y :: s /\ x < y).

(** Dictionaries come in the order of their languages, those of one language in
    the order of their scripts, then variants, then descriptions. *)
Definition dict_before (a b : dict) : Prop :=
  string_before (d_language a) (d_language b) \/
  (d_language a = d_language b /\
   (string_before (d_script a) (d_script b) \/
    (d_script a = d_script b /\
     (string_before (d_variant a) (d_variant b) \/
      (d_variant a = d_variant b /\ string_before (d_description a) (d_description b)))))).

(** The strings of Java: 16 bit units, and a length that fits in an [int]. *)
Definition java_string (s : list Z) : Prop := Forall (fun u => 0 <= u <= 0xFFFF) s /\ Z.of_nat (length s) <= 0x7FFFFFFF.
Definition java_dict (d : dict) : Prop :=
  java_string (d_language d) /\ java_string (d_script d) /\ java_string (d_variant d) /\ java_string (d_description d).
