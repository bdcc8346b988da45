(** * What the capitalisation check is supposed to find. *)
From Verif Require Import Base CharModel TokenModel SpellerBase SentenceModel AnalysisModel AnalyzerBase Utf8Model
  GcCacheModel ParaModel RulesModel GrammarSpec RulesSpec.

(** A word that should start with a capital letter and does not. *)
Definition needs_capital (w : gtoken) (e : gc_error) : Prop :=
  isUpper (hd 0 (g_str w)) = false /\ isDigit (hd 0 (g_str w)) = false /\ possibleSentenceStart w = false /\
  exists s, offered (upper (hd 0 (g_str w)) :: tl (g_str w)) s /\ e = mk_error 7 (g_pos w) (len w) s.
(** A word that should start with a small letter: a known word that may be
    written so and is not possibly the start of a sentence, a place name, an
    abbreviation in capital letters or something like "A-kissa" or "EU:n". *)
Definition needs_small (w : gtoken) (e : gc_error) : Prop :=
  isUpper (hd 0 (g_str w)) = true /\ isValidWord w = true /\ firstLetterLcase w = true /\ possibleSentenceStart w = false /\
  possibleGeographicalName w = false /\ voikko_casetype (g_str w) <> CT_ALL_UPPER /\
  (exists c, nth_error (g_str w) 1 = Some c /\ c <> 0x2D /\ c <> 0x3A) /\
  exists s, offered (lower (hd 0 (g_str w)) :: tl (g_str w)) s /\ e = mk_error 6 (g_pos w) (len w) s.

(** The last punctuation mark, except commas, ends a sentence. *)
Definition ends_sentence (seps : list gtoken) : Prop :=
  exists l1 t l2, seps = l1 ++ t :: l2 /\ punct t /\ ~ starts t 0x2C /\ (exists c, starts t c /\ In c [0; 0x2E; 0x3F; 0x21]) /\
    forall u, In u l2 -> punct u -> starts u 0x2C.

(** [word_at toks first seps w]: [w] is a word of the list, but not its last
    token, [seps] are the tokens between it and the word before, [first] says that
    there is none. *)
Inductive word_at (toks : list gtoken) : bool -> list gtoken -> gtoken -> Prop :=
| at_first : forall seps w r, toks = seps ++ w :: r -> r <> [] -> (forall t, In t seps -> ~ word t) -> word w -> word_at toks true seps w
| at_later : forall l v seps w r, toks = l ++ v :: seps ++ w :: r -> r <> [] -> word v -> (forall t, In t seps -> ~ word t) -> word w -> word_at toks false seps w.

(** Tokens of simple texts: no NUL, quotation marks, brackets or tabulators, no
    integers and no place names in the genitive. *)
Definition plain_token (t : gtoken) : Prop :=
  ~ In 0 (g_str t) /\
  (~ word t -> ~ In (hd 0 (g_str t)) [0x22; 0xBB; 0x201C; 0x201D; 0x28; 0x29; 0x5B; 0x5D; 9]) /\
  (word t -> isInteger (text_of t) = false /\ isGeographicalNameInGenitive t = false /\ hd 0 (g_str t) <> 0x201C).
(** A sentence of simple texts has a word with a small letter. *)
Definition plain_sentence (s : gsentence) : Prop :=
  Forall plain_token (s_tokens s) /\ exists w c, In w (s_tokens s) /\ word w /\ In c (g_str w) /\ isLower c = true.
Definition plain_paragraph (p : list gsentence) : Prop :=
  Forall plain_sentence p /\
  forall a w r, flat_map s_tokens p = a ++ w :: r -> (forall t, In t a -> ~ word t) -> word w -> forall t, In t a -> text_of t <> wstr "-".

(** The errors: a word is checked against the punctuation before it. *)
Definition capital_error (toks : list gtoken) (e : gc_error) : Prop :=
  exists first seps w, word_at toks first seps w /\
    ((first = true \/ ends_sentence seps) /\ needs_capital w e \/
     ~ (first = true \/ ends_sentence seps) /\ needs_small w e).
