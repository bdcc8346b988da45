(** * The C# interface.

    Models [Tokens], [Sentences] and [GrammarErrors] of
    [libvoikko/cs/libvoikko/Voikko.cs] (called Voikko.cs below).

    A string is the list of its UTF-16 code units, as in [JavaModel].  [UB]
    stands for the exception thrown by [Substring] for a length that exceeds
    the string.  The loops have no bound of their own: [fuel] is a parameter. *)
From Verif Require Import Base CharModel TokenModel SpellerBase SentenceModel AnalyzerBase Utf8Spec
  GcCacheModel HandleModel ParaModel RulesModel GrammarModel PyModel JavaModel.

(** The characters of a string as [Encoding.UTF8] sees them: pairs of
    surrogates are one character, surrogates without a partner become U+FFFD. *)
Fixpoint cs_chars (s : list Z) : list Z :=
  match s with
  | [] => []
  | u :: r =>
      if surrogate u then
        match r with
        | v :: r' =>
            if (u <? 0xDC00) && (0xDC00 <=? v) && (v <=? 0xDFFF)
            then 0x10000 + (u - 0xD800) * 0x400 + (v - 0xDC00) :: cs_chars r'
            else 0xFFFD :: cs_chars r
        | [] => [0xFFFD]
        end
      else u :: cs_chars r
  end.

(** [ByteArray.s2n], ByteArray.cs:62-79, without the NUL at the end, which the
    callers do not count. *)
Definition s2n (s : list Z) : list Z := utf8_text (cs_chars s).

(** The loop of [tokensNonNull], Voikko.cs:361-371.  The constants of
    [TokenType] are in the order of the library's numbers.  A token has only a
    type and a text. *)
Fixpoint cs_nonnull (fuel : nat) (ignore_dot : bool) (text : list Z) : res (list (token_type * list Z)) :=
  match fuel with
  | O => Fuel
  | S fuel' =>
      if (0 <? length (s2n text))%nat then
        '(tokenType, tokenLen) <- nextTokenCstr ignore_dot (s2n text) ;;
        tokenText <- substring text 0 tokenLen ;;
        rest <- cs_nonnull fuel' ignore_dot (skipn tokenLen text) ;;
        Ok ((tokenType, tokenText) :: rest)
      else Ok []
  end.

(** The loop of [Tokens], Voikko.cs:343-348, and what follows it.  Its number of
    rounds is at most the number of units; [rounds] counts them.  [from] is the
    position where the next search starts. *)
Fixpoint cs_tokens_loop (rounds fuel : nat) (ignore_dot : bool) (text : list Z) (lastStart from : nat)
    (allTokens : list (token_type * list Z)) : res (list (token_type * list Z)) :=
  match rounds with
  | O => Fuel
  | S rounds' =>
      match find_from 0 text from with
      | Some i =>
          piece <- substring text lastStart i ;;
          l <- cs_nonnull fuel ignore_dot piece ;;
          cs_tokens_loop rounds' fuel ignore_dot text (i + 1) (i + 1) ((allTokens ++ l) ++ [(TOKEN_UNKNOWN, [0])])
      | None =>
          piece <- substring text lastStart (length text) ;;
          l <- cs_nonnull fuel ignore_dot piece ;;
          Ok (allTokens ++ l)
      end
  end.

(** [Tokens], Voikko.cs:339-351. *)
Definition cs_tokens (fuel : nat) (ignore_dot : bool) (text : list Z) : res (list (token_type * list Z)) :=
  cs_tokens_loop (S (length text)) fuel ignore_dot text 0 0 [].

(** The loop of [Sentences], Voikko.cs:391-401; [len] is the number that
    [sentenceLenByRef] holds. *)
Fixpoint cs_sentences_loop (fuel : nat) (spell : speller) (ignore_dot : bool) (text : list Z) (len : nat)
    : res (list (list Z * sentence_type)) :=
  match fuel with
  | O => Fuel
  | S fuel' =>
      if (0 <? length (s2n text))%nat then
        '(sentenceType, written, ignore_dot') <- sentence_next_cstr spell ignore_dot (s2n text) ;;
        let sentenceLen := match written with Some n => n | None => len end in
        tokenText <- substring text 0 sentenceLen ;;
        rest <- cs_sentences_loop fuel' spell ignore_dot' (skipn sentenceLen text) sentenceLen ;;
        Ok ((tokenText, sentenceType) :: rest)
      else Ok []
  end.

(** [Sentences], Voikko.cs:376-405. *)
Definition cs_sentences (fuel : nat) (spell : speller) (ignore_dot : bool) (text : list Z) : res (list (list Z * sentence_type)) :=
  if negb (isValidInput text) then Ok [(text, SENTENCE_NONE)]
  else cs_sentences_loop fuel spell ignore_dot text 0.

(** [appendErrorsFromParagraph], Voikko.cs:259-274, and [getGrammarError],
    Voikko.cs:276-297 (see [PyModel.moved]). *)
Fixpoint cs_grammar_loop (fuel : nat) (b : gc_backend) (h : handle) (paragraph : list Z) (offset : nat) (skipErrors : Z)
    (errorList : list gc_error) : res (list gc_error * handle) :=
  match fuel with
  | O => Fuel
  | S fuel' =>
      '(cError, h') <- voikkoNextGrammarErrorCstr b h (s2n paragraph) 0 skipErrors ;;
      match cError with
      | None => Ok (errorList, h')
      | Some e => cs_grammar_loop fuel' b h' paragraph offset (skipErrors + 1) (errorList ++ [moved offset e])
      end
  end.

(** [Regex.Split(text, "\\r?\\n")] of the C# library: the pieces between
    newlines, without a carriage return before the newline; [cur] is the piece
    being read. *)
Fixpoint regex_split (text cur : list Z) : list (list Z) :=
  match text with
  | [] => [cur]
  | x :: r =>
      if x =? 10 then cur :: regex_split r []
      else
        match r with
        | y :: r' => if (x =? 13) && (y =? 10) then cur :: regex_split r' [] else regex_split r (cur ++ [x])
        | [] => regex_split r (cur ++ [x])
        end
  end.

(** The loop of [GrammarErrors], Voikko.cs:250-254. *)
Fixpoint cs_paragraphs_loop (fuel : nat) (b : gc_backend) (h : handle) (paragraphs : list (list Z)) (offset : nat)
    (errorList : list gc_error) : res (list gc_error * handle) :=
  match paragraphs with
  | [] => Ok (errorList, h)
  | p :: r =>
      '(errorList', h') <- cs_grammar_loop fuel b h p offset 0 errorList ;;
      cs_paragraphs_loop fuel b h' r (offset + length p + 1) errorList'
  end.

(** [GrammarErrors], Voikko.cs:239-257: the errors and the handle afterwards. *)
Definition cs_grammarErrors (fuel : nat) (b : gc_backend) (h : handle) (text : list Z) : res (list gc_error * handle) :=
  if negb (isValidInput text) then Ok ([], h)
  else cs_paragraphs_loop fuel b h (regex_split text []) 0 [].
