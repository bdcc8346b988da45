(** * Independent specification of tokens. *)
From Verif Require Import Base CharModel TokenModel.

(** Whitespace: the Unicode White_Space characters (as of Unicode 6.0). *)
Definition whitespace (c : Z) : Prop :=
  In c [9; 10; 11; 12; 13; 32; 0x85; 0xA0; 0x1680; 0x180E; 0x2000; 0x2001; 0x2002; 0x2003; 0x2004;
        0x2005; 0x2006; 0x2007; 0x2008; 0x2009; 0x200A; 0x2028; 0x2029; 0x202F; 0x205F; 0x3000].
Definition digit (c : Z) : Prop := 48 <= c <= 57.
(** Letters: Latin (except U+00C0), Cyrillic, Canadian syllabics, f-ligatures. *)
Definition letter (c : Z) : Prop :=
  65 <= c <= 90 \/ 97 <= c <= 122 \/ (193 <= c <= 687 /\ c <> 215 /\ c <> 247) \/
  0x400 <= c <= 0x481 \/ 0x48A <= c <= 0x527 \/ 0x1400 <= c <= 0x15C3 \/ 0xFB00 <= c <= 0xFB04.
(** Punctuation; the library also treats NUL as punctuation. *)
Definition punctuation (c : Z) : Prop :=
  In c [0; 0x21; 0x22; 0x26; 0x27; 0x28; 0x29; 0x2C; 0x2D; 0x2E; 0x2F; 0x3A; 0x3B; 0x3F; 0x5B; 0x5D; 0x7B; 0x7D;
        0xAD; 0xBB; 0x2010; 0x2011; 0x2013; 0x2014; 0x2019; 0x201C; 0x201D; 0x2026].
(** Word-initial hyphens (NUL included, see above). *)
Definition initial_hyphen (c : Z) : Prop := c = 0x2D \/ c = 0x2010 \/ c = 0x2011 \/ c = 0.

(** What a token of a given type at the beginning of a text looks like. *)
Definition token_ok (text : list Z) (t : token_type) (n : nat) : Prop :=
  match t with
  | TOKEN_NONE => text = [] /\ n = O
  | TOKEN_WHITESPACE =>
      Forall whitespace (firstn n text) /\ (forall c, nth_error text n = Some c -> ~ whitespace c)
  | TOKEN_PUNCTUATION =>
      (exists c r, text = c :: r /\ punctuation c /\ n = 1%nat) \/
      (exists r, text = 0x2E :: 0x2E :: 0x2E :: r /\ n = 3%nat)
  | TOKEN_UNKNOWN =>
      exists c r, text = c :: r /\ n = 1%nat /\ ~ whitespace c /\ ~ digit c /\ ~ letter c /\ ~ punctuation c
  | TOKEN_WORD =>
      Forall (fun c => ~ whitespace c) (firstn n text) /\
      exists c r, text = c :: r /\ (letter c \/ digit c \/ (initial_hyphen c /\ (2 <= n)%nat))
  end.

(** The sequence of tokens a caller sees when it calls [next] repeatedly,
    advancing by the returned length each time, until TOKEN_NONE. *)
Inductive token_seq (next : list Z -> res (token_type * nat)) : list Z -> list (token_type * list Z) -> Prop :=
| seq_end : forall text n, next text = Ok (TOKEN_NONE, n) -> token_seq next text []
| seq_step : forall text t n rest,
    next text = Ok (t, n) -> t <> TOKEN_NONE ->
    token_seq next (skipn n text) rest ->
    token_seq next text ((t, firstn n text) :: rest).
