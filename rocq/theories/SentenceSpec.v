(** * Independent specification of sentence detection. *)
From Verif Require Import Base CharModel TokenModel TokenSpec SpellerBase SentenceModel.

Definition token := (token_type * list Z)%type.
Definition text_of (toks : list token) : list Z := concat (map snd toks).

Definition punct_starting (set : list Z) (tk : token) : Prop :=
  fst tk = TOKEN_PUNCTUATION /\ exists c r, snd tk = c :: r /\ In c set.
(** Tokens that can end a sentence: ! ? . ... (also as one character) and ':'.
    A NUL character inside the text also counts. *)
Definition terminator : token -> Prop := punct_starting [0; 0x21; 0x3F; 0x2E; 0x2026; 0x3A].
(** Quotation marks. *)
Definition quote : token -> Prop := punct_starting [0x22; 0xBB; 0x201C; 0x201D].

Inductive quote_parity : list token -> bool -> Prop :=
| qp_nil : quote_parity [] false
| qp_quote : forall tk r b, quote tk -> quote_parity r b -> quote_parity (tk :: r) (negb b)
| qp_other : forall tk r b, ~ quote tk -> quote_parity r b -> quote_parity (tk :: r) b.

(** [word] followed by a dot may be one word: an initial, an ordinal number or
    date, or something the speller knows with its dot. *)
Definition dot_belongs (spell : speller) (word : list Z) : Prop :=
  (exists c, word = [c] /\ isUpper c = true) \/
  Forall (fun c => c = 0x2E \/ c = 0x2D \/ digit c) word \/
  spell (word ++ [0x2E]) <> SPELL_FAILED.

(** The terminator ends the sentence for certain: '!' or '?' (or NUL), or a
    single dot that does not belong to the preceding word. *)
Definition certain_end (spell : speller) (pre : list token) (term : token) : Prop :=
  (exists c, snd term = [c] /\ In c [0; 0x21; 0x3F]) \/
  (snd term = [0x2E] /\
   ~ exists pre' word, pre = pre' ++ [(TOKEN_WORD, word)] /\ dot_belongs spell word).

(** The sequence of sentences a caller sees when it calls [next] repeatedly. *)
Inductive sentence_seq (next : list Z -> res (sentence_type * nat * bool)) : list Z -> list (list Z) -> Prop :=
| sseq_end : forall text n d, next text = Ok (SENTENCE_NONE, n, d) -> sentence_seq next text [firstn n text]
| sseq_step : forall text ty n d rest,
    next text = Ok (ty, n, d) -> ty <> SENTENCE_NONE ->
    sentence_seq next (skipn n text) rest ->
    sentence_seq next text (firstn n text :: rest).
