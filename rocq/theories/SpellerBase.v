(** * The speller interface.

    Models [spellchecker/Speller.hpp]. *)
From Verif Require Import Base.

(** [enum spellresult], spellchecker/Speller.hpp:42. *)
Inductive spellresult : Type := SPELL_FAILED | SPELL_OK | SPELL_CAP_FIRST | SPELL_CAP_ERROR.

Definition spell_failed (r : spellresult) : bool :=
  match r with SPELL_FAILED => true | _ => false end.

(** [Speller::spell(word, wlen)], spellchecker/Speller.hpp:47-56, is called with a
    pointer and a length.  A speller is a total function of the [wlen]
    characters it is given: it keeps no state that influences its answers.
    (Proved for the transducer backend elsewhere, assumed for plug-in
    backends.) *)
Definition speller := list Z -> spellresult.
