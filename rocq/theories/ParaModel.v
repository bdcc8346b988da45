(** * Paragraph analysis of the Finnish grammar checker.

    Models [grammar/FinnishAnalysis.cpp], [grammar/Token.hpp],
    [grammar/Sentence.hpp] and [grammar/Paragraph.hpp]. *)
From Verif Require Import Base CharModel TokenModel SpellerBase SentenceModel AnalysisModel AnalyzerBase.

(** [enum FollowingVerbType], grammar/Token.hpp:42-46. *)
Inductive FollowingVerbType : Type := FOLLOWING_VERB_NONE | FOLLOWING_VERB_A_INFINITIVE | FOLLOWING_VERB_MA_INFINITIVE.

(** [class Token], grammar/Token.hpp:51-115.  [g_str] holds the [tokenlen]
    characters of [str]; the terminating NUL that follows them in memory is
    implicit.  [analyses] is never used by the Finnish checker. *)
Record gtoken : Type := mk_gtoken {
  g_type : token_type;
  g_str : list Z;
  g_pos : nat;
  isValidWord : bool;
  firstLetterLcase : bool;
  possibleSentenceStart : bool;
  isGeographicalNameInGenitive : bool;
  possibleGeographicalName : bool;
  possibleMainVerb : bool;
  isMainVerb : bool;
  isVerbNegative : bool;
  isPositiveVerb : bool;
  isConjunction : bool;
  possibleConjunction : bool;
  requireFollowingVerb : FollowingVerbType;
  verbFollowerType : FollowingVerbType
}.

Definition tokenlen (t : gtoken) : nat := length (g_str t).

(** [str[0]]: always inside the buffer because of the terminator. *)
Definition chr0 (t : gtoken) : Z := hd 0 (g_str t).

(** Assignments to single fields. *)
Definition set_isValidWord (t : gtoken) (x : bool) : gtoken := mk_gtoken (g_type t) (g_str t) (g_pos t) x (firstLetterLcase t) (possibleSentenceStart t) (isGeographicalNameInGenitive t) (possibleGeographicalName t) (possibleMainVerb t) (isMainVerb t) (isVerbNegative t) (isPositiveVerb t) (isConjunction t) (possibleConjunction t) (requireFollowingVerb t) (verbFollowerType t).
Definition set_firstLetterLcase (t : gtoken) (x : bool) : gtoken := mk_gtoken (g_type t) (g_str t) (g_pos t) (isValidWord t) x (possibleSentenceStart t) (isGeographicalNameInGenitive t) (possibleGeographicalName t) (possibleMainVerb t) (isMainVerb t) (isVerbNegative t) (isPositiveVerb t) (isConjunction t) (possibleConjunction t) (requireFollowingVerb t) (verbFollowerType t).
Definition set_possibleSentenceStart (t : gtoken) (x : bool) : gtoken := mk_gtoken (g_type t) (g_str t) (g_pos t) (isValidWord t) (firstLetterLcase t) x (isGeographicalNameInGenitive t) (possibleGeographicalName t) (possibleMainVerb t) (isMainVerb t) (isVerbNegative t) (isPositiveVerb t) (isConjunction t) (possibleConjunction t) (requireFollowingVerb t) (verbFollowerType t).
Definition set_isGeographicalNameInGenitive (t : gtoken) (x : bool) : gtoken := mk_gtoken (g_type t) (g_str t) (g_pos t) (isValidWord t) (firstLetterLcase t) (possibleSentenceStart t) x (possibleGeographicalName t) (possibleMainVerb t) (isMainVerb t) (isVerbNegative t) (isPositiveVerb t) (isConjunction t) (possibleConjunction t) (requireFollowingVerb t) (verbFollowerType t).
Definition set_possibleGeographicalName (t : gtoken) (x : bool) : gtoken := mk_gtoken (g_type t) (g_str t) (g_pos t) (isValidWord t) (firstLetterLcase t) (possibleSentenceStart t) (isGeographicalNameInGenitive t) x (possibleMainVerb t) (isMainVerb t) (isVerbNegative t) (isPositiveVerb t) (isConjunction t) (possibleConjunction t) (requireFollowingVerb t) (verbFollowerType t).
Definition set_possibleMainVerb (t : gtoken) (x : bool) : gtoken := mk_gtoken (g_type t) (g_str t) (g_pos t) (isValidWord t) (firstLetterLcase t) (possibleSentenceStart t) (isGeographicalNameInGenitive t) (possibleGeographicalName t) x (isMainVerb t) (isVerbNegative t) (isPositiveVerb t) (isConjunction t) (possibleConjunction t) (requireFollowingVerb t) (verbFollowerType t).
Definition set_isMainVerb (t : gtoken) (x : bool) : gtoken := mk_gtoken (g_type t) (g_str t) (g_pos t) (isValidWord t) (firstLetterLcase t) (possibleSentenceStart t) (isGeographicalNameInGenitive t) (possibleGeographicalName t) (possibleMainVerb t) x (isVerbNegative t) (isPositiveVerb t) (isConjunction t) (possibleConjunction t) (requireFollowingVerb t) (verbFollowerType t).
Definition set_isVerbNegative (t : gtoken) (x : bool) : gtoken := mk_gtoken (g_type t) (g_str t) (g_pos t) (isValidWord t) (firstLetterLcase t) (possibleSentenceStart t) (isGeographicalNameInGenitive t) (possibleGeographicalName t) (possibleMainVerb t) (isMainVerb t) x (isPositiveVerb t) (isConjunction t) (possibleConjunction t) (requireFollowingVerb t) (verbFollowerType t).
Definition set_isPositiveVerb (t : gtoken) (x : bool) : gtoken := mk_gtoken (g_type t) (g_str t) (g_pos t) (isValidWord t) (firstLetterLcase t) (possibleSentenceStart t) (isGeographicalNameInGenitive t) (possibleGeographicalName t) (possibleMainVerb t) (isMainVerb t) (isVerbNegative t) x (isConjunction t) (possibleConjunction t) (requireFollowingVerb t) (verbFollowerType t).
Definition set_isConjunction (t : gtoken) (x : bool) : gtoken := mk_gtoken (g_type t) (g_str t) (g_pos t) (isValidWord t) (firstLetterLcase t) (possibleSentenceStart t) (isGeographicalNameInGenitive t) (possibleGeographicalName t) (possibleMainVerb t) (isMainVerb t) (isVerbNegative t) (isPositiveVerb t) x (possibleConjunction t) (requireFollowingVerb t) (verbFollowerType t).
Definition set_possibleConjunction (t : gtoken) (x : bool) : gtoken := mk_gtoken (g_type t) (g_str t) (g_pos t) (isValidWord t) (firstLetterLcase t) (possibleSentenceStart t) (isGeographicalNameInGenitive t) (possibleGeographicalName t) (possibleMainVerb t) (isMainVerb t) (isVerbNegative t) (isPositiveVerb t) (isConjunction t) x (requireFollowingVerb t) (verbFollowerType t).
Definition set_requireFollowingVerb (t : gtoken) (x : FollowingVerbType) : gtoken := mk_gtoken (g_type t) (g_str t) (g_pos t) (isValidWord t) (firstLetterLcase t) (possibleSentenceStart t) (isGeographicalNameInGenitive t) (possibleGeographicalName t) (possibleMainVerb t) (isMainVerb t) (isVerbNegative t) (isPositiveVerb t) (isConjunction t) (possibleConjunction t) x (verbFollowerType t).
Definition set_verbFollowerType (t : gtoken) (x : FollowingVerbType) : gtoken := mk_gtoken (g_type t) (g_str t) (g_pos t) (isValidWord t) (firstLetterLcase t) (possibleSentenceStart t) (isGeographicalNameInGenitive t) (possibleGeographicalName t) (possibleMainVerb t) (isMainVerb t) (isVerbNegative t) (isPositiveVerb t) (isConjunction t) (possibleConjunction t) (requireFollowingVerb t) x.

(** Attribute values are C strings: [weq (a K) "lit"] is
    [value && wcscmp(L"lit", value) == 0]. *)
Definition weq (v : option (list Z)) (s : string) : bool :=
  match v with Some w => zlist_eqb w (wstr s) | None => false end.
Definition absent (v : option (list Z)) : bool := match v with Some _ => false | None => true end.

(** The lines of [analyseToken] that use the structure,
    grammar/FinnishAnalysis.cpp:94-103.  A missing structure would be a NULL
    pointer passed to [wcslen]. *)
Definition case_step (a : analysis) (t : gtoken) : res gtoken :=
  match a STRUCTURE with
  | None => UB
  | Some s =>
      low <- (if (length s <? 2)%nat then Ok false
              else c <- rd s 1 ;; Ok (negb (negb (c =? 0x70) && negb (c =? 0x71)))) ;;
      if (low : bool) then Ok t
      else
        let t := set_firstLetterLcase t false in
        Ok (if weq (a CLASS) "paikannimi" && weq (a SIJAMUOTO) "omanto"
            then set_isGeographicalNameInGenitive t true else t)
  end.

(** grammar/FinnishAnalysis.cpp:105-111. *)
Definition conjunction_step (a : analysis) (t : gtoken) : res gtoken :=
  conj <- (if weq (a CLASS) "sidesana" then Ok true
           else if weq (a CLASS) "kieltosana" then
             (if Nat.eqb (tokenlen t) 0 then UB
              else c <- rd (g_str t) (tokenlen t - 1) ;; Ok (c =? 0xE4))
           else Ok false) ;;
  Ok (if (conj : bool) then set_possibleConjunction t true else set_isConjunction t false).

(** grammar/FinnishAnalysis.cpp:113-141. *)
Definition verb_step (a : analysis) (t : gtoken) : gtoken :=
  if absent (a CLASS) then
    set_isVerbNegative (set_isMainVerb (set_possibleMainVerb (set_isPositiveVerb t false) true) false) false
  else if weq (a CLASS) "kieltosana" then set_isMainVerb (set_isPositiveVerb t false) false
  else if weq (a CLASS) "teonsana" then
    let mood := a MOOD in let person := a PERSON in let negative := a NEGATIVE in
    let t := if absent negative || negb (weq negative "false") ||
                ((absent mood || weq mood "conditional") && (absent person || weq person "3"))
             then set_isPositiveVerb t false else t in
    let t := if (absent mood || (negb (weq mood "A-infinitive") && negb (weq mood "E-infinitive"))) &&
                (absent negative || negb (weq negative "true"))
             then set_possibleMainVerb t true else t in
    let t := if absent mood || negb (weq mood "indicative") then set_isMainVerb t false else t in
    set_isVerbNegative t false
  else set_isVerbNegative (set_isMainVerb (set_isPositiveVerb t false) false) false.

Definition fv_eqb (a b : FollowingVerbType) : bool :=
  match a, b with
  | FOLLOWING_VERB_NONE, FOLLOWING_VERB_NONE
  | FOLLOWING_VERB_A_INFINITIVE, FOLLOWING_VERB_A_INFINITIVE
  | FOLLOWING_VERB_MA_INFINITIVE, FOLLOWING_VERB_MA_INFINITIVE => true
  | _, _ => false
  end.

(** The classification used twice, grammar/FinnishAnalysis.cpp:147-154 and
    163-170. *)
Definition infinitive (v : option (list Z)) : FollowingVerbType :=
  if weq v "A-infinitive" then FOLLOWING_VERB_A_INFINITIVE
  else if weq v "MA-infinitive" then FOLLOWING_VERB_MA_INFINITIVE
  else FOLLOWING_VERB_NONE.

(** grammar/FinnishAnalysis.cpp:146-161; [first] is [it == analyses->begin()]. *)
Definition required_step (first : bool) (a : analysis) (t : gtoken) : gtoken :=
  let requiredType := infinitive (a REQUIRE_FOLLOWING_VERB) in
  if fv_eqb requiredType FOLLOWING_VERB_NONE || first then set_requireFollowingVerb t requiredType
  else if negb (fv_eqb (requireFollowingVerb t) requiredType) then set_requireFollowingVerb t FOLLOWING_VERB_NONE
  else t.

(** grammar/FinnishAnalysis.cpp:162-182; [isset] is [verbFollowerTypeSet]. *)
Definition follower_step (a : analysis) (isset : bool) (t : gtoken) : bool * gtoken :=
  let followerType := infinitive (a MOOD) in
  if negb (fv_eqb followerType FOLLOWING_VERB_NONE) then
    if negb isset then (true, set_verbFollowerType t followerType)
    else if negb (fv_eqb (verbFollowerType t) followerType)
         then (isset, set_verbFollowerType t FOLLOWING_VERB_NONE)
         else (isset, t)
  else if weq (a PARTICIPLE) "agent" && weq (a SIJAMUOTO) "vajanto"
       then (isset, set_verbFollowerType t FOLLOWING_VERB_NONE)
       else (isset, t).

(** The loop over the analyses, grammar/FinnishAnalysis.cpp:83-184. *)
Fixpoint analyses_loop (l : list analysis) (first isset : bool) (t : gtoken) : res gtoken :=
  match l with
  | [] => Ok t
  | a :: rest =>
      let t := set_isValidWord t true in
      t <- case_step a t ;;
      t <- conjunction_step a t ;;
      let t := verb_step a t in
      let t := if weq (a POSSIBLE_GEOGRAPHICAL_NAME) "true" then set_possibleGeographicalName t true else t in
      let t := required_step first a t in
      let '(isset, t) := follower_step a isset t in
      analyses_loop rest false isset t
  end.

(** [stripSpecialCharsForMalaga], utils/StringUtils.cpp:206-217, followed by
    [wcslen]. *)
Definition strip_special (w : list Z) : list Z := cstr (filter (fun c => negb (c =? 0xAD)) w).

(** [FinnishAnalysis::analyseToken], grammar/FinnishAnalysis.cpp:53-192.  The
    token record is built here: type, text and position are set by the caller. *)
Definition analyseToken (an : analyzer) (ty : token_type) (str : list Z) (pos : nat) : res gtoken :=
  let t := mk_gtoken ty str pos false false false false false false true true true true false
             FOLLOWING_VERB_NONE FOLLOWING_VERB_NONE in
  match ty with
  | TOKEN_WORD =>
      t <- analyses_loop (an false (strip_special str)) true false (set_firstLetterLcase t true) ;;
      Ok (if negb (isValidWord t)
          then set_isVerbNegative (set_isMainVerb (set_isConjunction (set_isPositiveVerb t false) false) false) false
          else t)
  | _ => Ok (set_isVerbNegative (set_isConjunction (set_firstLetterLcase t false) false) false)
  end.

(** [class Sentence], grammar/Sentence.hpp:39-63. *)
Record gsentence : Type := mk_gsentence {
  s_pos : nat;
  s_type : sentence_type;
  s_tokens : list gtoken
}.

Definition MAX_TOKENS_IN_SENTENCE : nat := 500.
Definition MAX_SENTENCES_IN_PARAGRAPH : nat := 200.

(** May the next word start a sentence after this token?
    grammar/FinnishAnalysis.cpp:224-226. *)
Definition separates (ty : token_type) (str : list Z) : bool :=
  match ty with
  | TOKEN_PUNCTUATION =>
      (Nat.eqb (length str) 1 && wcschr [0x2E; 0x3A; 0x2026; 0x2013; 0x2014] (hd 0 str)) || Nat.eqb (length str) 3
  | _ => false
  end.

Definition is_word (ty : token_type) : bool := match ty with TOKEN_WORD => true | _ => false end.

(** The loop of [FinnishAnalysis::analyseSentence],
    grammar/FinnishAnalysis.cpp:202-237, with [n] rounds left, [text] the rest
    of the sentence and [offset] its offset from the start of the sentence.
    [ignore_dot] is 0 around the call of the tokenizer and restored afterwards. *)
Fixpoint analyseSentence_loop (n : nat) (an : analyzer) (text : list Z) (sentencepos offset : nat) (start : bool)
    : res (option (list gtoken)) :=
  match n with
  | O => Ok None
  | S n' =>
      '(ty, len) <- nextToken false text ;;
      match ty with
      | TOKEN_NONE => Ok (Some [])
      | _ =>
          let tstr := firstn len text in
          t <- analyseToken an ty tstr (sentencepos + offset) ;;
          let '(t, start) :=
            if start && is_word ty then (set_possibleSentenceStart t true, false)
            else if separates ty tstr then (t, true)
            else (t, start) in
          if Nat.eqb (length text - len) 0 then Ok (Some [t])
          else
            o <- analyseSentence_loop n' an (skipn len text) sentencepos (offset + len) start ;;
            Ok match o with Some l => Some (t :: l) | None => None end
      end
  end.
Definition analyseSentence (an : analyzer) (text : list Z) (sentencepos : nat) : res (option (list gtoken)) :=
  analyseSentence_loop MAX_TOKENS_IN_SENTENCE an text sentencepos 0 false.

(** The inner loop of [analyseParagraph], grammar/FinnishAnalysis.cpp:249-256:
    type of the last boundary found and length of the sentence.  ([ignore_dot]
    is left as it was by [Sentence::next] and has no influence on it.) *)
Fixpoint find_sentence (fuel : nat) (spell : speller) (ignore_dot : bool) (text : list Z) (sentencelen : nat)
    : res (sentence_type * nat) :=
  match fuel with
  | O => Fuel
  | S f =>
      '(st, len, _) <- sentence_next spell ignore_dot text ;;
      match st with
      | SENTENCE_POSSIBLE => find_sentence f spell ignore_dot (skipn len text) (sentencelen + len)
      | _ => Ok (st, (sentencelen + len)%nat)
      end
  end.

(** The outer loop of [analyseParagraph], grammar/FinnishAnalysis.cpp:246-267,
    with room for [n] more sentences; [text] starts at position [pos].  [None]
    is the NULL pointer. *)
Fixpoint analyseParagraph_loop (n : nat) (spell : speller) (an : analyzer) (ignore_dot : bool) (text : list Z) (pos : nat)
    : res (option (list gsentence)) :=
  match n with
  | O => Ok (Some [])
  | S n' =>
      '(st, sentencelen) <- find_sentence (length text + 1) spell ignore_dot text 0 ;;
      o <- analyseSentence an (firstn sentencelen text) pos ;;
      match o with
      | None => Ok None
      | Some toks =>
          let s := mk_gsentence pos st toks in
          match st with
          | SENTENCE_NONE | SENTENCE_NO_START => Ok (Some [s])
          | _ =>
              r <- analyseParagraph_loop n' spell an ignore_dot (skipn sentencelen text) (pos + sentencelen) ;;
              Ok match r with Some l => Some (s :: l) | None => None end
          end
      end
  end.

(** [FinnishAnalysis::analyseParagraph], grammar/FinnishAnalysis.cpp:241-269.
    (When a later sentence is too long the sentences found before are deleted
    again and NULL is returned.) *)
Definition analyseParagraph (spell : speller) (an : analyzer) (ignore_dot : bool) (text : list Z)
    : res (option (list gsentence)) :=
  analyseParagraph_loop MAX_SENTENCES_IN_PARAGRAPH spell an ignore_dot text 0.
