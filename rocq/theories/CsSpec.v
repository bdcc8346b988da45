(** * Specification of the C# interface. *)
From Verif Require Import Base.

(** A text in which no carriage return is followed by a newline. *)
Definition no_crlf (text : list Z) : Prop := forall a b, text <> a ++ 13 :: 10 :: b.

(** The same text with a newline in the place of each carriage return and
    newline. *)
Inductive unix_text : list Z -> list Z -> Prop :=
| unix_nil : unix_text [] []
| unix_crlf : forall text text', unix_text text text' -> unix_text (13 :: 10 :: text) (10 :: text')
| unix_other : forall c text text', (c = 13 -> forall r, text <> 10 :: r) -> unix_text text text' -> unix_text (c :: text) (c :: text').
