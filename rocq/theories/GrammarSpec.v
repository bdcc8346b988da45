(** * Independent specification of grammar checking. *)
From Verif Require Import Base CharModel TokenModel TokenSpec SpellerBase SentenceModel AnalysisModel AnalyzerBase
  GcCacheModel ParaModel.

(** ** Sentences and tokens of a paragraph *)

(** The first sentence of a text that ends for certain: boundaries that are
    only possible are passed over.  [sure_sentence next text s rest ty]. *)
Inductive sure_sentence (next : list Z -> res (sentence_type * nat * bool)) :
  list Z -> list Z -> list Z -> sentence_type -> Prop :=
| sure_here : forall text ty n d, next text = Ok (ty, n, d) -> ty <> SENTENCE_POSSIBLE ->
    sure_sentence next text (firstn n text) (skipn n text) ty
| sure_later : forall text n d s rest ty, next text = Ok (SENTENCE_POSSIBLE, n, d) ->
    sure_sentence next (skipn n text) s rest ty ->
    sure_sentence next text (firstn n text ++ s) rest ty.

(** The sentences of a paragraph. *)
Inductive sure_sentences (next : list Z -> res (sentence_type * nat * bool)) : list Z -> list (list Z) -> Prop :=
| sures_end : forall text s rest, sure_sentence next text s rest SENTENCE_NONE -> sure_sentences next text [s]
| sures_step : forall text s rest ty ss, sure_sentence next text s rest ty -> ty <> SENTENCE_NONE ->
    sure_sentences next rest ss -> sure_sentences next text (s :: ss).

(** A sentence of at most 500 tokens. *)
Definition short_sentence (s : list Z) : Prop :=
  exists toks, token_seq (nextToken false) s toks /\ (length toks <= 500)%nat.

(** [describes pos ss p]: the analysed sentences [p] are the sentences [ss],
    which start at position [pos] of the text: same tokens, in order, each with
    its true position. *)
Inductive describes : nat -> list (list Z) -> list gsentence -> Prop :=
| describes_nil : forall pos, describes pos [] []
| describes_cons : forall pos s ss g p,
    s_pos g = pos ->
    token_seq (nextToken false) s (map (fun t => (g_type t, g_str t)) (s_tokens g)) ->
    (forall i t, nth_error (s_tokens g) i = Some t ->
       g_pos t = (pos + length (concat (map g_str (firstn i (s_tokens g)))))%nat) ->
    describes (pos + length s) ss p ->
    describes pos (s :: ss) (g :: p).

(** Every analysis has a structure, as those of the Finnish backends do. *)
Definition structured (an : analyzer) : Prop := forall w a, In a (an false w) -> a STRUCTURE <> None.

(** ** Words *)

(** [has a K s]: attribute [K] of analysis [a] has value [s]. *)
Definition has (a : analysis) (k : Key) (s : string) : Prop := a k = Some (wstr s).

(** The analysis requires a capital initial or does not forbid it: the second
    character of the structure is neither 'p' nor 'q'. *)
Definition capital_allowed (a : analysis) : Prop :=
  forall s c, a STRUCTURE = Some s -> nth_error s 1 = Some c -> c <> 0x70 /\ c <> 0x71.
Definition lower_initial (a : analysis) : Prop :=
  exists s c, a STRUCTURE = Some s /\ nth_error s 1 = Some c /\ (c = 0x70 \/ c = 0x71).

(** A conjunction, or a negative like "enka" that contains one. *)
Definition conjunction_in (word : list Z) (a : analysis) : Prop :=
  has a CLASS "sidesana" \/ (has a CLASS "kieltosana" /\ exists w, word = w ++ [0xE4]).
Definition negative_word (a : analysis) : Prop := has a CLASS "kieltosana".
Definition indicative_verb (a : analysis) : Prop := has a CLASS "teonsana" /\ has a MOOD "indicative".
(** A verb that cannot follow a negative: "luen", but not "lue" or "lukisi". *)
Definition positive_verb (a : analysis) : Prop :=
  has a CLASS "teonsana" /\ has a NEGATIVE "false" /\
  ~ ((a MOOD = None \/ has a MOOD "conditional") /\ (a PERSON = None \/ has a PERSON "3")).
(** Something that may be the main verb; words without a class count. *)
Definition maybe_main_verb (a : analysis) : Prop :=
  a CLASS = None \/
  (has a CLASS "teonsana" /\ ~ has a MOOD "A-infinitive" /\ ~ has a MOOD "E-infinitive" /\ ~ has a NEGATIVE "true").
Definition place_name_genitive (a : analysis) : Prop :=
  ~ lower_initial a /\ has a CLASS "paikannimi" /\ has a SIJAMUOTO "omanto".

(** The name of an infinitive. *)
Definition infinitive_name (f : FollowingVerbType) : option string :=
  match f with
  | FOLLOWING_VERB_NONE => None
  | FOLLOWING_VERB_A_INFINITIVE => Some "A-infinitive"%string
  | FOLLOWING_VERB_MA_INFINITIVE => Some "MA-infinitive"%string
  end.

(** The analyses of a word: those of the word without soft hyphens.  (The
    analyser is given a C string.) *)
Definition readings (an : analyzer) (word : list Z) : list analysis :=
  an false (cstr (filter (fun c => negb (c =? 0xAD)) word)).

(** What a reading requires of a following verb, and which infinitive it is. *)
Definition requires (f : FollowingVerbType) (a : analysis) : Prop :=
  exists s, infinitive_name f = Some s /\ has a REQUIRE_FOLLOWING_VERB s.
Definition is_infinitive (f : FollowingVerbType) (a : analysis) : Prop :=
  exists s, infinitive_name f = Some s /\ has a MOOD s.
(** A form like "tekematta". *)
Definition agent_abessive (a : analysis) : Prop := has a PARTICIPLE "agent" /\ has a SIJAMUOTO "vajanto".

(** The flags of a word with readings [l].  Statements about the word are made
    when all readings agree, possibilities when one reading does. *)
Definition word_flags (l : list analysis) (t : gtoken) : Prop :=
  let all P := l <> [] /\ Forall P l in
  let some P := Exists P l in
  (isValidWord t = true <-> l <> []) /\
  (firstLetterLcase t = true <-> Forall lower_initial l) /\
  (isGeographicalNameInGenitive t = true <-> some place_name_genitive) /\
  (possibleGeographicalName t = true <-> some (fun a => has a POSSIBLE_GEOGRAPHICAL_NAME "true")) /\
  (possibleMainVerb t = true <-> some maybe_main_verb) /\
  (isMainVerb t = true <-> all indicative_verb) /\
  (isVerbNegative t = true <-> all negative_word) /\
  (isPositiveVerb t = true <-> all positive_verb) /\
  (isConjunction t = true <-> all (conjunction_in (g_str t))) /\
  (possibleConjunction t = true <-> some (conjunction_in (g_str t))) /\
  (forall f, f <> FOLLOWING_VERB_NONE -> (requireFollowingVerb t = f <-> all (requires f))) /\
  (forall f, f <> FOLLOWING_VERB_NONE ->
     (verbFollowerType t = f <->
      exists l1 a l2, l = l1 ++ a :: l2 /\ is_infinitive f a /\
        Forall (fun b => forall g, ~ is_infinitive g b) l1 /\
        Forall (fun b => is_infinitive f b \/ ((forall g, ~ is_infinitive g b) /\ ~ agent_abessive b)) l2)).

(** Punctuation after which a sentence may start within the sentence. *)
Definition separator (ty : token_type) (s : list Z) : Prop :=
  ty = TOKEN_PUNCTUATION /\
  (length s = 3%nat \/ exists c, s = [c] /\ In c [0; 0x2E; 0x3A; 0x2026; 0x2013; 0x2014]).

(** [may_start toks i]: token [i] is the first word after a separator. *)
Definition may_start (toks : list gtoken) (i : nat) : Prop :=
  exists t j u, nth_error toks i = Some t /\ g_type t = TOKEN_WORD /\
    (j < i)%nat /\ nth_error toks j = Some u /\ separator (g_type u) (g_str u) /\
    (forall k v, (j < k < i)%nat -> nth_error toks k = Some v -> g_type v <> TOKEN_WORD).
