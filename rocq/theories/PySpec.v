(** * Specification of the Python interface. *)
From Coq Require Import Sorted.
From Verif Require Import Base CharModel TokenModel TokenSpec SpellerBase SentenceModel SentenceSpec
  GcCacheModel ParaModel RulesModel GrammarModel GrammarSpec GrammarCallSpec.

(** The tokens of a text in which NUL characters may occur: those of the pieces
    between the NULs, as the library finds them, and one token of an unknown
    type for each NUL. *)
Inductive token_list (next : list Z -> res (token_type * nat)) : list Z -> list (token_type * list Z) -> Prop :=
| tl_last : forall text toks, ~ In 0 text -> token_seq next text toks -> token_list next text toks
| tl_nul : forall piece toks text rest, ~ In 0 piece -> token_seq next piece toks -> token_list next text rest ->
    token_list next (piece ++ 0 :: text) (toks ++ (TOKEN_UNKNOWN, [0]) :: rest).

(** The lines of a text: they hold no newline, and the text is the lines with a
    newline between each and the next. *)
Inductive lines_of : list Z -> list (list Z) -> Prop :=
| lines_last : forall line, ~ In 10 line -> lines_of line [line]
| lines_more : forall line text rest, ~ In 10 line -> lines_of text rest -> lines_of (line ++ 10 :: text) (line :: rest).

(** The same error at a position that is [n] characters later. *)
Definition later (n : nat) (e f : gc_error) : Prop :=
  startpos f = (n + startpos e)%nat /\ errorlen f = errorlen e /\ error_code f = error_code e /\ suggestions f = suggestions e.

(** The errors of consecutive lines, the first of which starts at position
    [pos] of the text: for each line the errors of the library, moved to where
    the line is. *)
Inductive errors_of (b : gc_backend) (o : gc_options) : nat -> list (list Z) -> list gc_error -> Prop :=
| eo_nil : forall pos, errors_of b o pos [] []
| eo_empty : forall pos lines l, errors_of b o (pos + 1) lines l -> errors_of b o pos ([] :: lines) l
| eo_line : forall pos line lines found here l, line <> [] ->
    error_list b o line found -> Forall2 (later pos) found here ->
    errors_of b o (pos + length line + 1) lines l ->
    errors_of b o pos (line :: lines) (here ++ l).

(** A span of the text that lies inside one of its lines. *)
Definition inside_line (text : list Z) (start len : nat) : Prop :=
  exists before line after, text = before ++ line ++ after /\ ~ In 10 line /\
    (before = [] \/ exists p, before = p ++ [10]) /\ (after = [] \/ exists p, after = 10 :: p) /\
    (length before <= start)%nat /\ (start + len <= length before + length line)%nat.
