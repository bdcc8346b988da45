(** * The text form of a transducer. *)
From Verif Require Import Base FstModel CompilerModel CompilerSpec.

(** White space within a line: the space, the tab, and the vertical tab, form feed
    and carriage return. *)
Definition white (c : Z) : Prop := c = 0x20 \/ c = 0x09 \/ c = 0x0B \/ c = 0x0C \/ c = 0x0D.
Definition blank (l : list Z) : Prop := Forall white l.
Definition gap (l : list Z) : Prop := blank l /\ l <> [].

(** [digits_of q l]: the digits [l] are the number [q], perhaps with zeros before
    it. *)
Inductive digits_of : nat -> list Z -> Prop :=
| one_digit d : (d < 10)%nat -> digits_of d [48 + Z.of_nat d]
| more_digits q l d : digits_of q l -> (d < 10)%nat -> digits_of (10 * q + d) (l ++ [48 + Z.of_nat d]).

(** What can be the text of a field: one or more characters other than white space
    and newline. *)
Definition a_word (l : list Z) : Prop := l <> [] /\ Forall (fun c => ~ white c /\ c <> 10) l.

(** The lines of final states and of transitions.  After the fields of a
    transition there may be anything. *)
Inductive line_text : item -> list Z -> Prop :=
| final_text q before n : blank before -> digits_of q n -> line_text (Final q) (before ++ n)
| arc_text q q' i o before n g1 n' g2 g3 after : blank before -> digits_of q n -> gap g1 -> digits_of q' n' -> gap g2 -> gap g3 ->
    (after = [] \/ exists c more, after = c :: more /\ white c) -> ~ In 10 after ->
    line_text (Arc q q' i o) (before ++ n ++ g1 ++ n' ++ g2 ++ symbol_field i ++ g3 ++ symbol_field o ++ after).
Inductive text_form : list item -> list Z -> Prop :=
| text_nil : text_form [] []
| text_line i A l r : line_text i l -> text_form A r -> text_form (i :: A) (l ++ [10] ++ r).

(** With weights.  [number z l]: the text [l] has the weight [z]. *)
Inductive weighted_line_text (number : Z -> list Z -> Prop) : item * Z -> list Z -> Prop :=
| plain_final_text q before n : blank before -> digits_of q n -> weighted_line_text number (Final q, 0) (before ++ n)
| weighted_final_text q before n g1 w z : blank before -> digits_of q n -> gap g1 -> number z w ->
    weighted_line_text number (Final q, z) (before ++ n ++ g1 ++ w)
| weighted_arc_text q q' i o z before n g1 n' g2 g3 g4 w : blank before -> digits_of q n -> gap g1 -> digits_of q' n' -> gap g2 -> gap g3 -> gap g4 ->
    number z w ->
    weighted_line_text number (Arc q q' i o, z) (before ++ n ++ g1 ++ n' ++ g2 ++ symbol_field i ++ g3 ++ symbol_field o ++ g4 ++ w).
Inductive weighted_text_form (number : Z -> list Z -> Prop) : list (item * Z) -> list Z -> Prop :=
| weighted_text_nil : weighted_text_form number [] []
| weighted_text_line i A l r : weighted_line_text number i l -> weighted_text_form number A r -> weighted_text_form number (i :: A) (l ++ [10] ++ r).

(** Transducers that can be written so: the fields of symbols have no white space
    and the numbers of states are below 2^32. *)
Definition writable (A : list item) : Prop :=
  Forall (fun s => a_word (symbol_field s)) (symbols_of A) /\
  Forall (fun i => match i with Final q => Z.of_nat q < 2 ^ 32 | Arc q q' _ _ => Z.of_nat q < 2 ^ 32 /\ Z.of_nat q' < 2 ^ 32 end) A.

(** [signed q l]: a number that may have a sign.  With a minus sign, numbers of 32
    bits without a sign are counted down from 2^32. *)
Definition signed (q : Z) (l : list Z) : Prop :=
  exists v n, digits_of v n /\ Z.of_nat v < 2 ^ 32 /\
    ((l = n \/ l = 0x2B :: n) /\ q = Z.of_nat v \/ l = 0x2D :: n /\ q = (2 ^ 32 - Z.of_nat v) mod 2 ^ 32).
