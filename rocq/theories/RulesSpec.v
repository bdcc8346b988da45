(** * What the rules of the grammar checker are supposed to find.

    Errors are described through the tokens of a sentence, their text and the
    statements about words explained by [word_flags] in [GrammarSpec]. *)
From Verif Require Import Base CharModel TokenModel SpellerBase SentenceModel AnalysisModel AnalyzerBase Utf8Model
  GcCacheModel ParaModel RulesModel GrammarSpec.

Definition word (t : gtoken) : Prop := g_type t = TOKEN_WORD.
Definition space (t : gtoken) : Prop := g_type t = TOKEN_WHITESPACE.
Definition punct (t : gtoken) : Prop := g_type t = TOKEN_PUNCTUATION.
(** The token starts with the character [c]. *)
Definition starts (t : gtoken) (c : Z) : Prop := hd 0 (g_str t) = c.
Definition mark (t : gtoken) (c : Z) : Prop := punct t /\ starts t c.
Definition len (t : gtoken) : nat := length (g_str t).
(** The text of the token up to the first NUL, if there is one. *)
Definition text_of (t : gtoken) : list Z := cstr (g_str t).

(** Tokens that follow each other. *)
Definition next2 (toks : list gtoken) (a b : gtoken) : Prop := exists l1 l2, toks = l1 ++ a :: b :: l2.
Definition next3 (toks : list gtoken) (a b c : gtoken) : Prop := exists l1 l2, toks = l1 ++ a :: b :: c :: l2.

(** The strings offered for a text: its UTF-8 encoding, or nothing if it cannot
    be encoded. *)
Definition offered (w : list Z) (s : list (list Z)) : Prop :=
  exists o, utf8FromUcs4 w = Ok o /\ s = match o with Some b => [cstr b] | None => [] end.

Definition quotation_mark (c : Z) : Prop := In c [0; 0x22; 0xBB; 0x201D].
Definition foreign (t : gtoken) : Prop := mark t 0x201C.
Definition may_be_repeated (t : gtoken) : Prop :=
  In (text_of t) [wstr "ollut"; wstr "olleet"; wstr "sill" ++ [0xE4]].

(** [local_error s e]: sentence [s] contains the error [e]. *)
Inductive local_error (s : gsentence) : gc_error -> Prop :=
(** More than one whitespace character. *)
| le_whitespace : forall t, In t (s_tokens s) -> space t -> (1 < len t)%nat ->
    local_error s (mk_error 2 (g_pos t) (len t) [wstr " "])
(** Space before comma. *)
| le_space_comma : forall a b, next2 (s_tokens s) a b -> space a -> len a = 1%nat -> mark b 0x2C ->
    local_error s (mk_error 3 (g_pos a) 2 [wstr ","])
(** Two commas, not at the start of the sentence. *)
| le_commas : forall l1 a b l2, s_tokens s = l1 ++ a :: b :: l2 -> l1 <> [] -> mark a 0x2C -> mark b 0x2C ->
    local_error s (mk_error 4 (g_pos a) 2 [wstr ","])
(** The sentence starts with punctuation other than ( ) ' - and dashes or
    quotation marks.  The character before is marked as well. *)
| le_starter : forall t r c, s_tokens s = t :: r -> mark t c -> ~ In c [0x28; 0x29; 0x27; 0x2D; 0x201C; 0x2013; 0x2014] -> ~ quotation_mark c ->
    local_error s (mk_error 5 (g_pos t - 1) (if Nat.eqb (g_pos t) 0 then 1 else 2) [])
(** The same word twice. *)
| le_repeat : forall a b c sugg, next3 (s_tokens s) a b c -> word a -> space b -> word c ->
    map lower (text_of a) = map lower (text_of c) -> isDigit (hd 0 (g_str a)) = false -> ~ may_be_repeated a -> offered (g_str a) sugg ->
    local_error s (mk_error 8 (g_pos a) (len a + len b + len c) sugg)
(** A full stop, quotation mark and comma: the stop should be removed.  Nothing
    is reported after a foreign quotation mark. *)
| le_quote_stop : forall l1 a b c l2 q sugg, s_tokens s = l1 ++ a :: b :: c :: l2 -> (forall t, In t l1 -> ~ foreign t) ->
    mark a 0x2E -> mark b q -> quotation_mark q -> mark c 0x2C -> offered [q; 0x2C; 0] sugg ->
    local_error s (mk_error 10 (g_pos a) 3 sugg)
(** After ! or ? the comma should be removed. *)
| le_quote_other : forall l1 a b c l2 x q sugg, s_tokens s = l1 ++ a :: b :: c :: l2 -> (forall t, In t l1 -> ~ foreign t) ->
    mark a x -> (x = 0x21 \/ x = 0x3F) -> mark b q -> quotation_mark q -> mark c 0x2C -> offered [x; q; 0] sugg ->
    local_error s (mk_error 10 (g_pos a) 3 sugg)
(** The first foreign quotation mark, if at least two tokens follow. *)
| le_foreign : forall l1 a b c l2 sugg, s_tokens s = l1 ++ a :: b :: c :: l2 -> (forall t, In t l1 -> ~ foreign t) ->
    foreign a -> offered [0x201D] sugg ->
    local_error s (mk_error 11 (g_pos a) 1 sugg)
(** A negative verb and a verb that cannot follow it. *)
| le_negative : forall a b c, next3 (s_tokens s) a b c -> word a -> space b -> word c ->
    isVerbNegative a = true -> isPositiveVerb c = true ->
    local_error s (mk_error 13 (g_pos a) (len a + len b + len c) [])
(** A wrong infinitive. *)
| le_A_infinitive : forall a b c, next3 (s_tokens s) a b c -> word a -> space b -> word c ->
    requireFollowingVerb a = FOLLOWING_VERB_A_INFINITIVE -> verbFollowerType c = FOLLOWING_VERB_MA_INFINITIVE ->
    local_error s (mk_error 14 (g_pos a) (len a + len b + len c) [])
| le_MA_infinitive : forall a b c, next3 (s_tokens s) a b c -> word a -> space b -> word c ->
    requireFollowingVerb a = FOLLOWING_VERB_MA_INFINITIVE -> verbFollowerType c = FOLLOWING_VERB_A_INFINITIVE ->
    local_error s (mk_error 15 (g_pos a) (len a + len b + len c) [])
(** A conjunction other than "vaan" before the final full stop. *)
| le_conjunction : forall l c d e, s_tokens s = l ++ c :: d :: e -> (e = [] \/ exists w, e = [w] /\ space w) ->
    isConjunction c = true -> text_of c <> wstr "vaan" -> punct d -> text_of d = wstr "." ->
    local_error s (mk_error 16 (g_pos c) (len c) []).

(** No main verb: [missing_verb_in o s e].  Every word is known and none may be
    a main verb, there are at least two words, the last token (except
    whitespace) is a full stop or question mark. *)
Inductive missing_verb_in (o : gc_options) (s : gsentence) : gc_error -> Prop :=
| mv_here : forall f r l1 z l2, s_tokens s = f :: r -> ~ punct f ->
    ~ (accept_bulleted o = true /\ s_pos s = 0%nat /\ (isLower (hd 0 (g_str f)) = true \/ firstLetterLcase f = false)) ->
    (forall t, In t (s_tokens s) -> ~ starts t 9) ->
    (forall t, In t (s_tokens s) -> word t -> isValidWord t = true /\ possibleMainVerb t = false /\ isVerbNegative t = false) ->
    (2 <= length (filter is_wordt (s_tokens s)))%nat ->
    s_tokens s = l1 ++ z :: l2 -> ~ space z -> Forall space l2 ->
    (exists c, starts z c /\ In c [0; 0x2E; 0x3F]) -> text_of z <> wstr "..." ->
    missing_verb_in o s (mk_error 17 (s_pos s) (length (concat (map g_str (l1 ++ [z])))) []).

(** Two main verbs without punctuation or conjunction between them, except the
    same word twice with one token between. *)
Definition main_verb (t : gtoken) : Prop := word t /\ isMainVerb t = true /\ possibleConjunction t = false.
Definition between (t : gtoken) : Prop := ~ punct t /\ (word t -> isMainVerb t = false /\ possibleConjunction t = false).
Definition same_word (v t : gtoken) : Prop := len v = len t /\ text_of v = text_of t.
Definition extra_verb_error (v : gtoken) (mid : list gtoken) (t : gtoken) : gc_error :=
  mk_error 18 (g_pos v) (length (concat (map g_str (v :: mid ++ [t])))) [].
Inductive extra_verb_in (o : gc_options) (s : gsentence) : gc_error -> Prop :=
| ev_here : forall l1 v mid t l2, s_tokens s = l1 ++ v :: mid ++ t :: l2 ->
    main_verb v -> Forall between mid -> main_verb t -> ~ (length mid = 1%nat /\ same_word v t) ->
    (forall x, In x (l1 ++ v :: mid ++ [t]) -> ~ starts x 9) -> extra_verb_in o s (extra_verb_error v mid t).

(** Where verbs are counted at all. *)
Definition verbs_counted (o : gc_options) (s : gsentence) : Prop :=
  exists f r, s_tokens s = f :: r /\ ~ punct f /\
    ~ (accept_bulleted o = true /\ s_pos s = 0%nat /\ (isLower (hd 0 (g_str f)) = true \/ firstLetterLcase f = false)).
(** A token that starts a new clause. *)
Definition clause_border (t : gtoken) : Prop := punct t \/ (word t /\ possibleConjunction t = true).
(** Words that may be the start of the phrases "siina missa" and "kavi miten". *)
Definition phrase_start (t : gtoken) : Prop :=
  exists r, g_str t = wstr "siin" ++ [0xE4] ++ r \/ g_str t = [0x6B; 0xE4] ++ wstr "vi" ++ r.
(** The first two main verbs of a clause. *)
Inductive first_verbs (o : gc_options) (s : gsentence) : gc_error -> Prop :=
| fv_here : forall l0 m0 v mid t l2, s_tokens s = l0 ++ m0 ++ v :: mid ++ t :: l2 ->
    (l0 = [] \/ exists l x, l0 = l ++ [x] /\ clause_border x) -> Forall between m0 ->
    main_verb v -> Forall between mid -> main_verb t -> ~ (length mid = 1%nat /\ same_word v t) ->
    (forall x, In x (l0 ++ m0 ++ v :: mid ++ [t]) -> ~ starts x 9) ->
    (forall x, In x (m0 ++ v :: mid ++ [t]) -> ~ phrase_start x) ->
    first_verbs o s (extra_verb_error v mid t).

(** The paragraph does not end in punctuation. *)
Inductive unfinished (o : gc_options) (p : list gsentence) : gc_error -> Prop :=
| unfinished_here : forall q s l t, p = q ++ [s] -> s_tokens s = l ++ [t] -> ~ punct t ->
    ~ (accept_titles o = true /\ q = []) -> accept_unfinished o = false -> accept_bulleted o = false ->
    unfinished o p (mk_error 9 (g_pos t) (len t) []).

(** A paragraph that is checked: everything but single sentences without
    whitespace, of which only a word with at most one token after it is. *)
Definition checked (p : list gsentence) : Prop :=
  forall s, p = [s] -> (exists t, In t (s_tokens s) /\ space t) \/
    exists w r, s_tokens s = w :: r /\ word w /\ (length r <= 1)%nat.

(** The errors of a paragraph with the codes 2 to 5, 8 to 11 and 13 to 17. *)
Definition paragraph_error (o : gc_options) (p : list gsentence) (e : gc_error) : Prop :=
  (exists s, In s p /\ (local_error s e \/ missing_verb_in o s e)) \/ unfinished o p e.
Definition described_code (c : Z) : Prop := In c [2; 3; 4; 5; 8; 9; 10; 11; 13; 14; 15; 16; 17].

(** A sentence without opening square brackets and without adjacent words. *)
Definition simple_sentence (s : gsentence) : Prop :=
  (forall t, In t (s_tokens s) -> ~ mark t 0x5B) /\
  (forall a b, next2 (s_tokens s) a b -> ~ (word a /\ word b)).
