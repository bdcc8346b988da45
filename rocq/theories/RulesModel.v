(** * The rules of the Finnish grammar checker.

    Models [grammar/FinnishRuleEngine.cpp] and the files of
    [grammar/FinnishRuleEngine/].  No rule reads the error list, so each rule is
    modelled as the list of errors it passes to [GcCache::appendError], in the
    order of the calls.  A token array is a list; [rest] is the part of it that
    starts at the loop index.  Subtractions of [size_t] values that would wrap
    around are reported as [UB]. *)
From Verif Require Import Base CharModel TokenModel SentenceModel Utf8Model GcCacheModel ParaModel.

(** Error codes, grammar/error.hpp:35-52. *)
Definition GCERR_INVALID_SPELLING : Z := 1.
Definition GCERR_EXTRA_WHITESPACE : Z := 2.
Definition GCERR_SPACE_BEFORE_PUNCTUATION : Z := 3.
Definition GCERR_EXTRA_COMMA : Z := 4.
Definition GCERR_INVALID_SENTENCE_STARTER : Z := 5.
Definition GCERR_WRITE_FIRST_LOWERCASE : Z := 6.
Definition GCERR_WRITE_FIRST_UPPERCASE : Z := 7.
Definition GCERR_REPEATING_WORD : Z := 8.
Definition GCERR_TERMINATING_PUNCTUATION_MISSING : Z := 9.
Definition GCERR_INVALID_PUNCTUATION_AT_END_OF_QUOTATION : Z := 10.
Definition GCERR_FOREIGN_QUOTATION_MARK : Z := 11.
Definition GCERR_MISPLACED_CLOSING_PARENTHESIS : Z := 12.
Definition GCERR_NEGATIVE_VERB_MISMATCH : Z := 13.
Definition GCERR_A_INFINITIVE_REQUIRED : Z := 14.
Definition GCERR_MA_INFINITIVE_REQUIRED : Z := 15.
Definition GCERR_MISPLACED_SIDESANA : Z := 16.
Definition GCERR_MISSING_MAIN_VERB : Z := 17.
Definition GCERR_EXTRA_MAIN_VERB : Z := 18.

Definition is_punct (t : gtoken) : bool := match g_type t with TOKEN_PUNCTUATION => true | _ => false end.
Definition is_space (t : gtoken) : bool := match g_type t with TOKEN_WHITESPACE => true | _ => false end.
Definition is_wordt (t : gtoken) : bool := is_word (g_type t).

(** [a - b] on [size_t] values that must not wrap around. *)
Definition usub (a b : nat) : res nat := if (b <=? a)%nat then Ok (a - b)%nat else UB.

(** A suggestion made from [n] wide characters with
    [StringUtils::utf8FromUcs4]: readers of the suggestion stop at the first
    NUL; a failed conversion leaves the NULL that ends the array. *)
Definition suggestion (w : list Z) : res (list (list Z)) :=
  o <- utf8FromUcs4 w ;; Ok match o with Some b => [cstr b] | None => [] end.

(** [wcsncmp(str, lit, n) == 0] for a literal of [n] characters without NUL. *)
Fixpoint starts_with (lit str : list Z) : bool :=
  match lit, str with
  | [], _ => true
  | c :: l, d :: s => (c =? d) && starts_with l s
  | _ :: _, [] => false
  end.

(** [wcscmp(str, lit) == 0]. *)
Definition str_is (t : gtoken) (lit : list Z) : bool := zlist_eqb (cstr (g_str t)) lit.

(** [gc_local_punctuation], grammar/FinnishRuleEngine/checks.cpp:45-118;
    [first] is [i == 0]. *)
Fixpoint local_punctuation (first : bool) (rest : list gtoken) : list gc_error :=
  match rest with
  | [] => []
  | t :: rest1 =>
      match g_type t with
      | TOKEN_WHITESPACE =>
          if (1 <? tokenlen t)%nat then
            mk_error GCERR_EXTRA_WHITESPACE (g_pos t) (tokenlen t) [wstr " "] :: local_punctuation false rest1
          else
            match rest1 with
            | t2 :: _ =>
                if negb (is_punct t2) || negb (chr0 t2 =? 0x2C) then local_punctuation false rest1
                else mk_error GCERR_SPACE_BEFORE_PUNCTUATION (g_pos t) 2 [wstr ","] :: local_punctuation false rest1
            | [] => local_punctuation false rest1
            end
      | TOKEN_PUNCTUATION =>
          let other :=
            if first then
              if wcschr [0x28; 0x29; 0x27; 0x2D; 0x201C; 0x2013; 0x2014] (chr0 t) || isFinnishQuotationMark (chr0 t)
              then local_punctuation false rest1
              else (if Nat.eqb (g_pos t) 0 then mk_error GCERR_INVALID_SENTENCE_STARTER 0 1 []
                    else mk_error GCERR_INVALID_SENTENCE_STARTER (g_pos t - 1) 2 []) :: local_punctuation false rest1
            else
              match rest1 with
              | t2 :: _ =>
                  if chr0 t =? 0x2C then
                    if negb (is_punct t2) || negb (chr0 t2 =? 0x2C) then local_punctuation false rest1
                    else mk_error GCERR_EXTRA_COMMA (g_pos t) 2 [wstr ","] :: local_punctuation false rest1
                  else local_punctuation false rest1
              | [] => local_punctuation false rest1
              end in
          if chr0 t =? 0x5B then
            match rest1 with
            | _ :: t3 :: rest3 => if chr0 t3 =? 0x5D then local_punctuation false rest3 else other
            | _ => other
            end
          else other
      | TOKEN_NONE | TOKEN_WORD | TOKEN_UNKNOWN => local_punctuation false rest1
      end
  end.

(** [gc_punctuation_of_quotations], grammar/FinnishRuleEngine/checks.cpp:120-185. *)
Fixpoint punctuation_of_quotations (rest : list gtoken) : res (list gc_error) :=
  match rest with
  | [] => Ok []
  | t :: rest1 =>
      match rest1 with
      | t1 :: t2 :: _ =>
          if negb (is_punct t) then punctuation_of_quotations rest1
          else if chr0 t =? 0x201C then
            s <- suggestion [0x201D] ;;
            Ok [mk_error GCERR_FOREIGN_QUOTATION_MARK (g_pos t) 1 s]
          else if negb (is_punct t1) then punctuation_of_quotations rest1
          else if negb (isFinnishQuotationMark (chr0 t1)) then punctuation_of_quotations rest1
          else if negb (is_punct t2) then punctuation_of_quotations rest1
          else if negb (chr0 t2 =? 0x2C) then punctuation_of_quotations rest1
          else
            let quoteChar := chr0 t1 in
            if chr0 t =? 0x2E then
              s <- suggestion [quoteChar; 0x2C; 0] ;;
              l <- punctuation_of_quotations rest1 ;;
              Ok (mk_error GCERR_INVALID_PUNCTUATION_AT_END_OF_QUOTATION (g_pos t) 3 s :: l)
            else if (chr0 t =? 0x21) || (chr0 t =? 0x3F) then
              s <- suggestion [if chr0 t =? 0x21 then 0x21 else 0x3F; quoteChar; 0] ;;
              l <- punctuation_of_quotations rest1 ;;
              Ok (mk_error GCERR_INVALID_PUNCTUATION_AT_END_OF_QUOTATION (g_pos t) 3 s :: l)
            else punctuation_of_quotations rest1
      | _ => Ok []
      end
  end.

(** The words that may be repeated, grammar/FinnishRuleEngine/checks.cpp:206-208. *)
Definition repeatable (t : gtoken) : bool :=
  str_is t (wstr "ollut") || str_is t (wstr "olleet") || str_is t (wstr "sill" ++ [0xE4]).

(** [gc_repeating_words], grammar/FinnishRuleEngine/checks.cpp:187-223. *)
Fixpoint repeating_words (rest : list gtoken) : res (list gc_error) :=
  match rest with
  | t :: ((t1 :: ((t2 :: rest3) as rest2)) as rest1) =>
      if negb (is_wordt t) then repeating_words rest1
      else if negb (is_space t1) then repeating_words rest2
      else if negb (is_wordt t2) then repeating_words rest3
      else if negb (equalsIgnoreCase (cstr (g_str t)) (cstr (g_str t2))) then repeating_words rest2
      else if isDigit (chr0 t) then repeating_words rest2
      else if repeatable t then repeating_words rest2
      else
        s <- suggestion (g_str t) ;;
        l <- repeating_words rest1 ;;
        Ok (mk_error GCERR_REPEATING_WORD (g_pos t) (tokenlen t + tokenlen t1 + tokenlen t2) s :: l)
  | _ => Ok []
  end.

(** The three options the rules look at. *)
Record gc_options : Type := mk_gc_options {
  accept_titles : bool;
  accept_unfinished : bool;
  accept_bulleted : bool
}.

(** [gc_end_punctuation], grammar/FinnishRuleEngine/checks.cpp:225-238.  An
    empty paragraph or sentence would make it read before the array. *)
Definition end_punctuation (o : gc_options) (p : list gsentence) : res (list gc_error) :=
  if accept_titles o && Nat.eqb (length p) 1 then Ok []
  else if accept_unfinished o then Ok []
  else if accept_bulleted o then Ok []
  else
    match rev p with
    | [] => UB
    | s :: _ =>
        match rev (s_tokens s) with
        | [] => UB
        | t :: _ =>
            if is_punct t then Ok []
            else Ok [mk_error GCERR_TERMINATING_PUNCTUATION_MISSING (g_pos t) (tokenlen t) []]
        end
    end.

(** Is the error of line 81-85 of MissingVerbCheck.cpp suppressed because the
    repeating words rule applies?  Lines 78-80. *)
Definition same_verb_repeated (i lastVerb : nat) (t v : gtoken) : bool :=
  negb (negb (Nat.eqb i (lastVerb + 2)) || negb (Nat.eqb (tokenlen t) (tokenlen v)) ||
        negb (zlist_eqb (cstr (g_str t)) (cstr (g_str v)))).

(** State of the loop of [MissingVerbCheck::check]:
    wordCount, lastNonWhitespace, foundVerbInSentence, foundVerbInCurrentClause
    and lastVerbStartToken. *)
Record mv_state : Type := mk_mv {
  mv_words : nat;
  mv_last : option gtoken;
  mv_found : bool;
  mv_clause : bool;
  mv_verb : nat
}.

(** One word in [MissingVerbCheck::check],
    grammar/FinnishRuleEngine/MissingVerbCheck.cpp:55-93: new values of
    foundVerbInCurrentClause and lastVerbStartToken, and the error reported. *)
Definition verb_clause (tokens : list gtoken) (i : nat) (t : gtoken) (next2 : option gtoken) (clause : bool) (verb : nat)
    : res (bool * nat * list gc_error) :=
  let follows a b := match next2 with
                     | Some t2 => starts_with a (g_str t) && starts_with b (g_str t2)
                     | None => false
                     end in
  if possibleConjunction t then Ok (false, verb, [])
  else if follows (wstr "siin" ++ [0xE4]) (wstr "miss" ++ [0xE4]) then Ok (false, verb, [])
  else if follows ([0x6B; 0xE4] ++ wstr "vi") (wstr "miten") then Ok (false, verb, [])
  else if isMainVerb t then
    if clause then
      v <- rd tokens verb ;;
      if same_verb_repeated i verb t v then Ok (false, verb, [])
      else
        len <- usub (g_pos t + tokenlen t) (g_pos v) ;;
        Ok (false, verb, [mk_error GCERR_EXTRA_MAIN_VERB (g_pos v) len []])
    else Ok (true, i, [])
  else Ok (clause, verb, []).

(** The loop, grammar/FinnishRuleEngine/MissingVerbCheck.cpp:49-101: errors
    reported and the final state, [None] if the check returns at a tabulator. *)
Fixpoint missing_verb_loop (tokens rest : list gtoken) (i : nat) (s : mv_state) : res (list gc_error * option mv_state) :=
  match rest with
  | [] => Ok ([], Some s)
  | t :: rest1 =>
      if chr0 t =? 9 then Ok ([], None)
      else
        '(s, e) <-
          (if is_wordt t then
             let found := mv_found s || negb (isValidWord t) || possibleMainVerb t || isVerbNegative t in
             '(clause, verb, e) <- verb_clause tokens i t (nth_error rest1 1) (mv_clause s) (mv_verb s) ;;
             Ok (mk_mv (S (mv_words s)) (mv_last s) found clause verb, e)
           else if is_punct t then Ok (mk_mv (mv_words s) (mv_last s) (mv_found s) false (mv_verb s), [])
           else Ok (s, [])) ;;
        let s := if is_space t then s else mk_mv (mv_words s) (Some t) (mv_found s) (mv_clause s) (mv_verb s) in
        '(l, r) <- missing_verb_loop tokens rest1 (S i) s ;;
        Ok (e ++ l, r)
  end.

(** [MissingVerbCheck::check], grammar/FinnishRuleEngine/MissingVerbCheck.cpp:35-110.
    (For an empty sentence the first token would be uninitialised.) *)
Definition missing_verb (o : gc_options) (s : gsentence) : res (list gc_error) :=
  first <- rd (s_tokens s) 0 ;;
  if is_punct first then Ok []
  else if accept_bulleted o && Nat.eqb (s_pos s) 0 && (isLower (chr0 first) || negb (firstLetterLcase first)) then Ok []
  else
    '(l, r) <- missing_verb_loop (s_tokens s) (s_tokens s) 0 (mk_mv 0 None false false 0) ;;
    match r with
    | None => Ok l
    | Some st =>
        if mv_found st || (mv_words st <? 2)%nat then Ok l
        else
          match mv_last st with
          | None => UB
          | Some last =>
              if negb (wcschr (wstr ".?") (chr0 last)) || str_is last (wstr "...") then Ok l
              else
                len <- usub (g_pos last + tokenlen last) (s_pos s) ;;
                Ok (l ++ [mk_error GCERR_MISSING_MAIN_VERB (s_pos s) len []])
          end
    end.

(** [NegativeVerbCheck::check], grammar/FinnishRuleEngine/NegativeVerbCheck.cpp:36-52. *)
Fixpoint negative_verb (rest : list gtoken) : res (list gc_error) :=
  match rest with
  | [] => Ok []
  | t :: rest1 =>
      match rest1 with
      | t1 :: t2 :: _ =>
          e <- (if is_wordt t && is_space t1 && is_wordt t2 && isVerbNegative t && isPositiveVerb t2 then
                  len <- usub (g_pos t2 + tokenlen t2) (g_pos t) ;;
                  Ok [mk_error GCERR_NEGATIVE_VERB_MISMATCH (g_pos t) len []]
                else Ok []) ;;
          l <- negative_verb rest1 ;; Ok (e ++ l)
      | _ => Ok []
      end
  end.

(** [CompoundVerbCheck::check], grammar/FinnishRuleEngine/CompoundVerbCheck.cpp:36-60. *)
Fixpoint compound_verb (rest : list gtoken) : res (list gc_error) :=
  match rest with
  | [] => Ok []
  | t :: rest1 =>
      match rest1 with
      | t1 :: t2 :: _ =>
          e <- (if is_wordt t && is_space t1 && is_wordt t2 then
                  match requireFollowingVerb t, verbFollowerType t2 with
                  | FOLLOWING_VERB_A_INFINITIVE, FOLLOWING_VERB_MA_INFINITIVE =>
                      len <- usub (g_pos t2 + tokenlen t2) (g_pos t) ;;
                      Ok [mk_error GCERR_A_INFINITIVE_REQUIRED (g_pos t) len []]
                  | FOLLOWING_VERB_MA_INFINITIVE, FOLLOWING_VERB_A_INFINITIVE =>
                      len <- usub (g_pos t2 + tokenlen t2) (g_pos t) ;;
                      Ok [mk_error GCERR_MA_INFINITIVE_REQUIRED (g_pos t) len []]
                  | _, _ => Ok []
                  end
                else Ok []) ;;
          l <- compound_verb rest1 ;; Ok (e ++ l)
      | _ => Ok []
      end
  end.

(** [SidesanaCheck::check], grammar/FinnishRuleEngine/SidesanaCheck.cpp:36-52. *)
Definition sidesana (tokens : list gtoken) : res (list gc_error) :=
  match rev tokens with
  | [] => UB
  | last :: before =>
      let l := if is_space last then before else last :: before in
      match l with
      | t1 :: t2 :: _ =>
          if isConjunction t2 && negb (str_is t2 (wstr "vaan")) && is_punct t1 && str_is t1 (wstr ".")
          then Ok [mk_error GCERR_MISPLACED_SIDESANA (g_pos t2) (tokenlen t2) []]
          else Ok []
      | _ => Ok []
      end
  end.

(** ** Autocorrect rules *)

(** [transducer->prepare] followed by one [transducer->nextPrefix],
    grammar/FinnishRuleEngine/VfstAutocorrectCheck.cpp:128-130: output string and
    length of the prefix of the input that was consumed.  The transducer is a
    parameter. *)
Definition prefix_lookup := list Z -> option (list Z * nat).

Definition BUFFER_SIZE : Z := 20000.

(** The characters of a token that go to the input buffer,
    grammar/FinnishRuleEngine/VfstAutocorrectCheck.cpp:102-109: [wcschr] of soft
    hyphen also finds NUL. *)
Definition kept (c : Z) : bool := negb (wcschr [0xAD] c).

(** [tokenStr], lines 92-98 and 102-103: the characters read from it.
    [StringUtils::copy] copies up to the first NUL; reading beyond the copy is
    [UB]. *)
Definition token_string (lowerFirst first : bool) (t : gtoken) : res (list Z) :=
  if lowerFirst && first then
    let copy := match cstr (g_str t) with c :: r => lower c :: r ++ [0] | [] => [lower 0] end in
    if (tokenlen t <=? length copy)%nat then Ok (firstn (tokenlen t) copy) else UB
  else Ok (g_str t).

(** What the first loop has collected: the input buffer, the word starts
    (normalized and original) and the vectors of token boundaries (normalized,
    original) without their initial zero. *)
Record ac_input : Type := mk_ac {
  ac_buffer : list Z;
  ac_starts : list (nat * nat);
  ac_bounds : list (nat * nat)
}.

(** The loop over the tokens,
    grammar/FinnishRuleEngine/VfstAutocorrectCheck.cpp:74-119; [norm] and [orig]
    are [sentenceLengthUtf] (also the last of [ucsNormalizedPositions]) and
    [sentenceLengthUcs].  [None]: the sentence is too long. *)
Fixpoint collect (lowerFirst first : bool) (rest : list gtoken) (norm orig : nat) : res (option ac_input) :=
  match rest with
  | [] => Ok (Some (mk_ac [] [] []))
  | t :: rest1 =>
      let start := if is_wordt t then [(norm, orig)] else [] in
      w <- (if is_space t then Ok (if BUFFER_SIZE <=? Z.of_nat norm then None else Some [0x20])
            else if BUFFER_SIZE <=? Z.of_nat (norm + tokenlen t) then Ok None
            else str <- token_string lowerFirst first t ;; Ok (Some (filter kept str))) ;;
      match w with
      | None => Ok None
      | Some w =>
          let norm' := (norm + length w)%nat in
          let orig' := (orig + tokenlen t)%nat in
          r <- collect lowerFirst false rest1 norm' orig' ;;
          Ok match r with
             | None => None
             | Some a => Some (mk_ac (w ++ ac_buffer a) (start ++ ac_starts a) ((norm', orig') :: ac_bounds a))
             end
      end
  end.

(** The search for [lengthCorrection],
    grammar/FinnishRuleEngine/VfstAutocorrectCheck.cpp:145-156; [prev] is the
    pair with index [n - 1], [None] for [n = 0]. *)
Fixpoint length_correction (bounds : list (nat * nat)) (prev : option (nat * nat)) (startPos prefixLength corr : nat)
    : res nat :=
  match bounds with
  | [] => Ok corr
  | (nPos, oPos) :: rest =>
      corr <- (if (oPos <=? startPos)%nat then usub oPos nPos else Ok corr) ;;
      if (startPos + prefixLength <? nPos)%nat then
        match prev with
        | None => UB
        | Some (n1, o1) => d <- usub o1 n1 ;; usub d corr
        end
      else length_correction rest (Some (nPos, oPos)) startPos prefixLength corr
  end.

(** The loop over the word starts,
    grammar/FinnishRuleEngine/VfstAutocorrectCheck.cpp:122-169: errors and
    [needLowering]. *)
Fixpoint autocorrect_loop (tr : prefix_lookup) (s : gsentence) (lowerFirst : bool) (a : ac_input)
    (starts : list (nat * nat)) : res (list gc_error * bool) :=
  match starts with
  | [] => Ok ([], false)
  | (position, ucsPosition) :: rest =>
      if lowerFirst && (0 <? position)%nat then Ok ([], false)
      else
        match tr (skipn position (ac_buffer a)) with
        | Some (out, prefixLength) =>
            let bounds := (0%nat, 0%nat) :: ac_bounds a in
            if negb (existsb (fun b => Nat.eqb (ucsPosition + prefixLength) (fst b)) bounds)
            then autocorrect_loop tr s lowerFirst a rest
            else
              let startPos := (s_pos s + ucsPosition)%nat in
              corr <- length_correction bounds None startPos prefixLength 0 ;;
              let out := if lowerFirst then match out with c :: r => upper c :: r | [] => [] end else out in
              sugg <- suggestion out ;;
              '(l, needLowering) <- autocorrect_loop tr s lowerFirst a rest ;;
              Ok (mk_error GCERR_INVALID_SPELLING startPos (prefixLength + corr) sugg :: l, needLowering)
        | None =>
            first <- rd (s_tokens s) 0 ;;
            '(l, needLowering) <- autocorrect_loop tr s lowerFirst a rest ;;
            Ok (l, (negb lowerFirst && Nat.eqb position 0 && isUpper (chr0 first)) || needLowering)
        end
  end.

(** [VfstAutocorrectCheck::check] with its three arguments,
    grammar/FinnishRuleEngine/VfstAutocorrectCheck.cpp:65-171. *)
Definition autocorrect_pass (tr : prefix_lookup) (s : gsentence) (lowerFirst : bool) : res (list gc_error * bool) :=
  o <- collect lowerFirst true (s_tokens s) 0 0 ;;
  match o with
  | None => Ok ([], false)
  | Some a => autocorrect_loop tr s lowerFirst a (ac_starts a)
  end.

(** [VfstAutocorrectCheck::check], lines 59-63. *)
Definition autocorrect (tr : prefix_lookup) (s : gsentence) : res (list gc_error) :=
  '(l, again) <- autocorrect_pass tr s false ;;
  if (again : bool) then ('(l2, _) <- autocorrect_pass tr s true ;; Ok (l ++ l2)) else Ok l.

(** ** Capitalization *)

(** [CapitalizationContext], grammar/FinnishRuleEngine/CapitalizationCheck.cpp:45-54;
    pointers to tokens are the tokens themselves, [None] is NULL. *)
Record cap_context : Type := mk_cap {
  currentSentence : nat;
  currentToken : nat;
  tokenBeforeNextWord : option gtoken;
  nextWord : option gtoken;
  quotes : list Z;
  sentenceEnded : bool
}.

Inductive cap_state : Type := INITIAL | UPPER | LOWER | DONT_CARE | QUOTED.

(** [shouldSkipSentence], CapitalizationCheck.cpp:64-89. *)
Fixpoint shouldSkip (tokens : list gtoken) : bool :=
  match tokens with
  | [] => true
  | t :: rest =>
      if chr0 t =? 0x201C then true
      else if negb (is_wordt t) then shouldSkip rest
      else if existsb isLower (g_str t) then false
      else shouldSkip rest
  end.

(** The loop of [getTokenAndAdvance], CapitalizationCheck.cpp:93-103, on the
    sentences from index [cs] on. *)
Fixpoint skip_sentences (rest : list gsentence) (cs : nat) : nat * option gsentence :=
  match rest with
  | [] => (cs, None)
  | s :: rest1 => if shouldSkip (s_tokens s) then skip_sentences rest1 (S cs) else (cs, Some s)
  end.

(** [getTokenAndAdvance], CapitalizationCheck.cpp:91-112, on the pair
    (currentSentence, currentToken). *)
Definition getTokenAndAdvance (p : list gsentence) (cs ct : nat) : res (option gtoken * nat * nat) :=
  match skip_sentences (skipn cs p) cs with
  | (cs, None) => Ok (None, cs, ct)
  | (cs, Some s) =>
      t <- rd (s_tokens s) ct ;;
      let ct := S ct in
      if Nat.eqb (length (s_tokens s)) ct then Ok (Some t, S cs, 0%nat) else Ok (Some t, cs, ct)
  end.

(** The loop of [getTokensUntilNextWord], CapitalizationCheck.cpp:117-129:
    separators, tokenBeforeNextWord, nextWord, currentSentence, currentToken. *)
Fixpoint until_next_word (fuel : nat) (p : list gsentence) (cs ct : nat) (before : option gtoken)
    : res (list gtoken * option gtoken * option gtoken * nat * nat) :=
  match fuel with
  | O => Fuel
  | S f =>
      '(o, cs, ct) <- getTokenAndAdvance p cs ct ;;
      match o with
      | None => Ok ([], before, None, cs, ct)
      | Some t =>
          if is_wordt t then Ok ([], before, Some t, cs, ct)
          else
            '(l, b, w, cs, ct) <- until_next_word f p cs ct (Some t) ;;
            Ok (t :: l, b, w, cs, ct)
      end
  end.

(** Bound for the number of tokens that can be read. *)
Definition total_tokens (p : list gsentence) : nat := length (flat_map s_tokens p).

(** [getTokensUntilNextWord], CapitalizationCheck.cpp:114-131. *)
Definition getTokensUntilNextWord (p : list gsentence) (c : cap_context) : res (list gtoken * cap_context) :=
  '(l, b, w, cs, ct) <- until_next_word (total_tokens p + 1) p (currentSentence c) (currentToken c) (nextWord c) ;;
  Ok (l, mk_cap cs ct b w (quotes c) (sentenceEnded c)).

(** [containsToken], CapitalizationCheck.cpp:133-142. *)
Definition containsToken (tokens : list gtoken) (text : list Z) : bool := existsb (fun t => str_is t text) tokens.

(** [lastPunctuationEndsSentence], CapitalizationCheck.cpp:144-153. *)
Definition lastPunctuationEndsSentence (tokens : list gtoken) : bool :=
  match find (fun t => is_punct t && negb (chr0 t =? 0x2C)) (rev tokens) with
  | Some t => wcschr (wstr ".?!") (chr0 t)
  | None => false
  end.

(** [placeNameInInstitutionName], CapitalizationCheck.cpp:155-158. *)
Definition placeNameInInstitutionName (word : gtoken) (separators : list gtoken) : bool :=
  isGeographicalNameInGenitive word &&
  match separators with [t] => chr0 t =? 0x20 | _ => false end.

(** The loop of [pushAndPopQuotes], CapitalizationCheck.cpp:161-202: errors,
    hasQuotes, quotes (top first), sentenceEnded. *)
Fixpoint push_pop (tokens : list gtoken) (hasQuotes : bool) (qs : list Z) (ended : bool)
    : list gc_error * bool * list Z * bool :=
  match tokens with
  | [] => ([], hasQuotes, qs, ended)
  | t :: rest =>
      if negb (is_punct t) then push_pop rest hasQuotes qs ended
      else
        let c := chr0 t in
        if isFinnishQuotationMark c then
          push_pop rest true
            (match qs with
             | [] => [c]
             | previous :: qs' => if previous =? c then qs' else c :: qs
             end) ended
        else if (c =? 0x28) || (c =? 0x5B) then push_pop rest hasQuotes (c :: qs) ended
        else if (c =? 0x29) || (c =? 0x5D) then
          match qs with
          | [] =>
              let '(l, h, q, e) := push_pop rest hasQuotes qs ended in
              (mk_error GCERR_MISPLACED_CLOSING_PARENTHESIS (g_pos t) 1 [] :: l, h, q, e)
          | top :: qs' =>
              if (top =? 0x28) || (top =? 0x5B) then push_pop rest hasQuotes qs' ended
              else push_pop rest hasQuotes qs ended
          end
        else if wcschr (wstr ".!?") c then push_pop rest hasQuotes qs true
        else push_pop rest hasQuotes qs ended
  end.

(** [pushAndPopQuotes], CapitalizationCheck.cpp:161-202. *)
Definition pushAndPopQuotes (c : cap_context) (tokens : list gtoken) : list gc_error * bool * cap_context :=
  let '(l, h, q, e) := push_pop tokens false (quotes c) (sentenceEnded c) in
  (l, h, mk_cap (currentSentence c) (currentToken c) (tokenBeforeNextWord c) (nextWord c) q e).

Definition set_ended (c : cap_context) (b : bool) : cap_context :=
  mk_cap (currentSentence c) (currentToken c) (tokenBeforeNextWord c) (nextWord c) (quotes c) b.

Definition no_quotes (c : cap_context) : bool := match quotes c with [] => true | _ => false end.

(** Result of a state function: errors reported, next state, context. *)
Definition cap_result := res (list gc_error * cap_state * cap_context).

(** [inInitial], CapitalizationCheck.cpp:204-218. *)
Definition inInitial (o : gc_options) (p : list gsentence) (c : cap_context) : cap_result :=
  '(separators, c) <- getTokensUntilNextWord p c ;;
  let '(l, _, c) := pushAndPopQuotes c separators in
  if negb (no_quotes c) then Ok (l, QUOTED, c)
  else if accept_bulleted o then Ok (l, DONT_CARE, c)
  else if containsToken separators (wstr "-") then Ok (l, DONT_CARE, c)
  else Ok (l, UPPER, c).

(** [isListItemAndClosingParenthesis], CapitalizationCheck.cpp:220-228. *)
Definition isListItemAndClosingParenthesis (word : gtoken) (separators : list gtoken) : bool :=
  match separators with
  | t :: _ => (chr0 t =? 0x29) && isPossibleListItem (cstr (g_str word))
  | [] => false
  end.

(** The replacement word of lines 247-249 and 289-291: [new wchar_t[tokenlen]]
    with a changed first character and [wcsncpy] of the rest, which stops
    copying at a NUL and pads with NUL. *)
Definition change_first (f : Z -> Z) (word : gtoken) : res (list (list Z)) :=
  match g_str word with
  | [] => UB
  | c :: r => suggestion (f c :: cstr r ++ repeat 0 (length r - length (cstr r)))
  end.

(** Lines 240-253: the error of [inUpper]. *)
Definition upper_error (word : gtoken) : res (list gc_error) :=
  if negb (isUpper (chr0 word)) && negb (isDigit (chr0 word)) && negb (possibleSentenceStart word) then
    s <- change_first upper word ;;
    Ok [mk_error GCERR_WRITE_FIRST_UPPERCASE (g_pos word) (tokenlen word) s]
  else Ok [].

(** Lines 276-295: the error of [inLower]. *)
Definition lower_error (word : gtoken) : res (list gc_error) :=
  b <- (if isValidWord word && firstLetterLcase word && isUpper (chr0 word) &&
           negb (possibleSentenceStart word) && (1 <? tokenlen word)%nat
        then
          c <- rd (g_str word) 1 ;;
          Ok (negb (c =? 0x2D) && negb (c =? 0x3A) &&
              negb (match voikko_casetype (g_str word) with CT_ALL_UPPER => true | _ => false end) &&
              negb (possibleGeographicalName word))
        else Ok false) ;;
  if (b : bool) then
    s <- change_first lower word ;;
    Ok [mk_error GCERR_WRITE_FIRST_LOWERCASE (g_pos word) (tokenlen word) s]
  else Ok [].

(** [inUpper], CapitalizationCheck.cpp:230-272. *)
Definition inUpper (o : gc_options) (p : list gsentence) (c : cap_context) : cap_result :=
  match nextWord c with
  | None => UB
  | Some word =>
      let tokenBeforeWord := tokenBeforeNextWord c in
      '(separators, c) <- getTokensUntilNextWord p c ;;
      if isListItemAndClosingParenthesis word separators then
        let '(l, _, c) := pushAndPopQuotes c (tl separators) in Ok (l, DONT_CARE, c)
      else
        e <- upper_error word ;;
        let '(l, _, c) := pushAndPopQuotes c separators in
        let l := e ++ l in
        if negb (no_quotes c) then Ok (l, QUOTED, c)
        else if containsToken separators [9] || placeNameInInstitutionName word separators then Ok (l, DONT_CARE, c)
        else if accept_titles o && isChapterNumber (cstr (g_str word)) then Ok (l, DONT_CARE, c)
        else if isInteger (cstr (g_str word)) &&
                match tokenBeforeWord with Some t => negb (is_space t) | None => false end
        then Ok (l, DONT_CARE, c)
        else if lastPunctuationEndsSentence separators then Ok (l, UPPER, set_ended c true)
        else Ok (l, LOWER, c)
  end.

(** [inLower], CapitalizationCheck.cpp:274-315. *)
Definition inLower (o : gc_options) (p : list gsentence) (c : cap_context) : cap_result :=
  match nextWord c with
  | None => UB
  | Some word =>
      e <- lower_error word ;;
      '(separators, c) <- getTokensUntilNextWord p c ;;
      if isListItemAndClosingParenthesis word separators then
        let '(l, _, c) := pushAndPopQuotes c (tl separators) in Ok (e ++ l, DONT_CARE, c)
      else
        let '(l, _, c) := pushAndPopQuotes c separators in
        let l := e ++ l in
        if negb (no_quotes c) then Ok (l, QUOTED, c)
        else if containsToken separators [9] || placeNameInInstitutionName word separators then Ok (l, DONT_CARE, c)
        else if lastPunctuationEndsSentence separators then Ok (l, UPPER, set_ended c true)
        else Ok (l, LOWER, c)
  end.

(** [inDontCare], CapitalizationCheck.cpp:317-341. *)
Definition inDontCare (o : gc_options) (p : list gsentence) (c : cap_context) : cap_result :=
  '(separators, c') <- getTokensUntilNextWord p c ;;
  listItem <- (match separators with
               | [] => Ok false
               | t :: _ => if negb (chr0 t =? 0x29) then Ok false
                           else match nextWord c with
                                | None => UB
                                | Some word => Ok (isListItemAndClosingParenthesis word separators)
                                end
               end) ;;
  if (listItem : bool) then
    let '(l, _, c) := pushAndPopQuotes c' (tl separators) in Ok (l, DONT_CARE, c)
  else
    let '(l, _, c') := pushAndPopQuotes c' separators in
    if negb (no_quotes c') then Ok (l, QUOTED, c')
    else if containsToken separators [9] then Ok (l, DONT_CARE, c')
    else
      chapter <- (if accept_titles o
                  then match nextWord c with None => UB | Some word => Ok (isChapterNumber (cstr (g_str word))) end
                  else Ok false) ;;
      if (chapter : bool) then Ok (l, DONT_CARE, c')
      else if lastPunctuationEndsSentence separators then Ok (l, UPPER, set_ended c' true)
      else Ok (l, LOWER, c').

(** [inQuoted], CapitalizationCheck.cpp:343-358. *)
Definition inQuoted (o : gc_options) (p : list gsentence) (c : cap_context) : cap_result :=
  '(separators, c) <- getTokensUntilNextWord p c ;;
  let '(l, hadQuotes, c) := pushAndPopQuotes c separators in
  if negb (no_quotes c) then Ok (l, QUOTED, c)
  else if lastPunctuationEndsSentence separators then Ok (l, UPPER, set_ended c false)
  else if hadQuotes || sentenceEnded c then Ok (l, DONT_CARE, set_ended c false)
  else Ok (l, LOWER, c).

(** [stateFunctions], CapitalizationCheck.cpp:360. *)
Definition stateFunctions (s : cap_state) : gc_options -> list gsentence -> cap_context -> cap_result :=
  match s with
  | INITIAL => inInitial
  | UPPER => inUpper
  | LOWER => inLower
  | DONT_CARE => inDontCare
  | QUOTED => inQuoted
  end.

(** The loop condition of [CapitalizationCheck::check], lines 373-374. *)
Definition cap_continues (p : list gsentence) (c : cap_context) : bool :=
  match nth_error p (currentSentence c) with
  | Some s => (currentToken c + 1 <=? length (s_tokens s))%nat
  | None => false
  end.

(** [CapitalizationCheck::check], CapitalizationCheck.cpp:362-377. *)
Fixpoint cap_loop (fuel : nat) (o : gc_options) (p : list gsentence) (s : cap_state) (c : cap_context)
    : res (list gc_error) :=
  if negb (cap_continues p c) then Ok []
  else
    match fuel with
    | O => Fuel
    | S f =>
        '(e, s, c) <- stateFunctions s o p c ;;
        l <- cap_loop f o p s c ;; Ok (e ++ l)
    end.
Definition capitalization (o : gc_options) (p : list gsentence) : res (list gc_error) :=
  cap_loop (total_tokens p + length p) o p INITIAL (mk_cap 0 0 None None [] false).

(** ** The rule engine *)

(** The checks of one sentence, grammar/FinnishRuleEngine.cpp:47-60 and 71-80.
    [tr] is present when the grammar backend is "finnishVfst".
    ([RelativePronounCheck] does nothing.) *)
Definition sentence_errors (tr : option prefix_lookup) (o : gc_options) (s : gsentence) : res (list gc_error) :=
  let toks := s_tokens s in
  quot <- punctuation_of_quotations toks ;;
  rep <- repeating_words toks ;;
  mv <- missing_verb o s ;;
  neg <- negative_verb toks ;;
  cv <- compound_verb toks ;;
  side <- sidesana toks ;;
  ac <- match tr with Some t => autocorrect t s | None => Ok [] end ;;
  Ok (local_punctuation true toks ++ quot ++ rep ++ mv ++ neg ++ cv ++ side ++ ac).

Fixpoint sentences_errors (tr : option prefix_lookup) (o : gc_options) (p : list gsentence) : res (list gc_error) :=
  match p with
  | [] => Ok []
  | s :: rest => e <- sentence_errors tr o s ;; l <- sentences_errors tr o rest ;; Ok (e ++ l)
  end.

(** [FinnishRuleEngine::check], grammar/FinnishRuleEngine.cpp:69-86: all errors
    in the order in which they are added to the error list. *)
Definition rule_engine (tr : option prefix_lookup) (o : gc_options) (p : list gsentence) : res (list gc_error) :=
  l <- sentences_errors tr o p ;;
  c <- capitalization o p ;;
  e <- end_punctuation o p ;;
  Ok (l ++ c ++ e).
