(** * Dictionaries that are lists of words. *)
From Verif Require Import Base CharModel SpellerBase FstModel CompilerSpec.

(** Every transition reads a letter and writes at most seven characters, and no
    state has two transitions for one letter. *)
Definition word_list (A : list (item * Z)) : Prop :=
  (forall q q' s o z, In (Arc q q' s o, z) A -> (exists c, s = Letter c) /\ (length (written o) <= 7)%nat) /\
  (forall k l q q1 q2 s o1 o2 z1 z2, nth_error A k = Some (Arc q q1 s o1, z1) -> nth_error A l = Some (Arc q q2 s o2, z2) -> k = l).

(** No state is marked as final twice. *)
Definition one_final_each (A : list (item * Z)) : Prop :=
  forall k l q z1 z2, nth_error A k = Some (Final q, z1) -> nth_error A l = Some (Final q, z2) -> k = l.

Definition listed (A : list (item * Z)) (word : list Z) : Prop := exists out z, accepted_with A word out z.

(** The answer of a speller: correct, if the word is in the list; to be written
    with a capital, if it starts with a small letter and is in the list with a
    capital one; wrong otherwise. *)
Inductive spelling (A : list (item * Z)) : list Z -> spellresult -> Prop :=
| spelling_ok word : listed A word -> spelling A word SPELL_OK
| spelling_capital first rest : ~ listed A (first :: rest) -> isLower first = true -> listed A (upper first :: rest) -> spelling A (first :: rest) SPELL_CAP_FIRST
| spelling_wrong word : ~ listed A word -> (forall first rest, word = first :: rest -> isLower first = true -> ~ listed A (upper first :: rest)) ->
    spelling A word SPELL_FAILED.
