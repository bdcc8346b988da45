(** * Specification of the Java interface. *)
From Verif Require Import Base CharModel TokenModel TokenSpec Utf8Spec SpellerBase SentenceModel SentenceSpec
  GcCacheModel ParaModel RulesModel GrammarModel GrammarSpec GrammarCallSpec PySpec.

(** A unit that is a token of its own: NUL and the surrogates. *)
Definition single (u : Z) : Prop := u = 0 \/ 0xD800 <= u <= 0xDFFF.
(** A unit that is a character, but not one of the two that the library's
    UTF-8 functions reject (U+FFFE and U+FFFF). *)
Definition plain (u : Z) : Prop := 0 < u < 0xFFFE /\ ~ 0xD800 <= u <= 0xDFFF.

(** The tokens of a string, each with the position where it starts: those of
    the pieces between the single units, as a caller of [next] sees them, and a
    token of an unknown type for each single unit. *)
Fixpoint positions (pos : nat) (toks : list (token_type * list Z)) : list (token_type * list Z * nat) :=
  match toks with
  | [] => []
  | tk :: r => (fst tk, snd tk, pos) :: positions (pos + length (snd tk)) r
  end.
Inductive unit_tokens (next : list Z -> res (token_type * nat)) : list Z -> list (token_type * list Z) -> Prop :=
| ut_last : forall text toks, Forall plain text -> token_seq next text toks -> unit_tokens next text toks
| ut_single : forall piece toks u text rest, Forall plain piece -> single u -> token_seq next piece toks -> unit_tokens next text rest ->
    unit_tokens next (piece ++ u :: text) (toks ++ (TOKEN_UNKNOWN, [u]) :: rest).

(** Carriage returns end lines too. *)
Definition newlines (text text' : list Z) : Prop :=
  Forall2 (fun c c' => c' = (if Z.eqb c 13 then 10 else c)) text text'.
