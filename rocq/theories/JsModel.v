(** * The JavaScript interface.

    Models [tokens], [sentences] and [grammarErrors] of
    [libvoikko/js/libvoikko_api.js] (called libvoikko_api.js below).

    A string is the list of its UTF-16 code units.  The functions that write a
    string as UTF-8 ([lengthBytesUTF8], [stringToUTF8]) and the conversion of
    string arguments belong to the compiler that builds the library for
    JavaScript; they are the parameter [enc].  The loops have no bound of their
    own: [fuel] is a parameter.  [substring] of JavaScript cuts off positions
    beyond the end, as [PyModel.slice] does. *)
From Verif Require Import Base CharModel TokenModel SpellerBase SentenceModel AnalyzerBase
  GcCacheModel HandleModel ParaModel RulesModel GrammarModel PyModel.

(** The loop of [tokensNonNull], libvoikko_api.js:65-76.  A negative [bytesLen]
    is 0 here; both end the loop.  The list [tokenTypes] is in the order of the
    library's numbers. *)
Fixpoint js_nonnull_loop (enc : list Z -> list Z) (fuel : nat) (ignore_dot : bool) (text textBytes : list Z)
    (textStart bytesStart bytesLen : nat) : res (list (token_type * list Z)) :=
  match fuel with
  | O => Fuel
  | S fuel' =>
      if (0 <? bytesLen)%nat then
        '(tokenType, tokenLen) <- nextTokenCstr ignore_dot (firstn bytesLen (skipn bytesStart textBytes)) ;;
        let tokenText := slice text textStart (textStart + tokenLen) in
        let tokenBytes := length (enc tokenText) in
        rest <- js_nonnull_loop enc fuel' ignore_dot text textBytes (textStart + length tokenText)
                  (bytesStart + tokenBytes) (bytesLen - tokenBytes) ;;
        Ok ((tokenType, tokenText) :: rest)
      else Ok []
  end.

(** [tokensNonNull], libvoikko_api.js:56-80. *)
Definition js_tokensNonNull (enc : list Z -> list Z) (fuel : nat) (ignore_dot : bool) (text : list Z) : res (list (token_type * list Z)) :=
  js_nonnull_loop enc fuel ignore_dot text (enc text) 0 0 (length (enc text)).

(** The loop of [tokens], libvoikko_api.js:264-268, and what follows it.  Its
    number of rounds is at most the number of units; [rounds] counts them.
    [from] is the position where the next search starts. *)
Fixpoint js_tokens_loop (enc : list Z -> list Z) (rounds fuel : nat) (ignore_dot : bool) (text : list Z) (lastStart from : nat)
    (allTokens : list (token_type * list Z)) : res (list (token_type * list Z)) :=
  match rounds with
  | O => Fuel
  | S rounds' =>
      match find_from 0 text from with
      | Some i =>
          l <- js_tokensNonNull enc fuel ignore_dot (slice text lastStart i) ;;
          js_tokens_loop enc rounds' fuel ignore_dot text (i + 1) (i + 1) ((allTokens ++ l) ++ [(TOKEN_UNKNOWN, [0])])
      | None =>
          l <- js_tokensNonNull enc fuel ignore_dot (skipn lastStart text) ;;
          Ok (allTokens ++ l)
      end
  end.

(** [tokens], libvoikko_api.js:260-271. *)
Definition js_tokens (enc : list Z -> list Z) (fuel : nat) (ignore_dot : bool) (text : list Z) : res (list (token_type * list Z)) :=
  js_tokens_loop enc (S (length text)) fuel ignore_dot text 0 0 [].

(** The loop of [sentences], libvoikko_api.js:285-295.  [textBytes] are the
    bytes from [textBytesPtr] on, [len] is the number that [sentenceLenByRef]
    holds. *)
Fixpoint js_sentences_loop (enc : list Z -> list Z) (fuel : nat) (spell : speller) (ignore_dot : bool) (text textBytes : list Z)
    (textLen len : nat) : res (list (list Z * sentence_type)) :=
  match fuel with
  | O => Fuel
  | S fuel' =>
      if (0 <? textLen)%nat then
        '(sentenceType, written, ignore_dot') <- sentence_next_cstr spell ignore_dot (firstn textLen textBytes) ;;
        let sentenceLen := match written with Some n => n | None => len end in
        let sentenceText := slice text 0 sentenceLen in
        let sentenceLenBytes := length (enc sentenceText) in
        rest <- js_sentences_loop enc fuel' spell ignore_dot' (skipn sentenceLen text) (skipn sentenceLenBytes textBytes)
                  (textLen - sentenceLenBytes) sentenceLen ;;
        Ok ((sentenceText, sentenceType) :: rest)
      else Ok []
  end.

(** [sentences], libvoikko_api.js:273-299.  [len] is what the memory from
    [mallocPtr] holds at first. *)
Definition js_sentences (enc : list Z -> list Z) (len fuel : nat) (spell : speller) (ignore_dot : bool) (text : list Z)
    : res (list (list Z * sentence_type)) :=
  if negb (isValidInput text) then Ok [(text, SENTENCE_NONE)]
  else js_sentences_loop enc fuel spell ignore_dot text (enc text) (length (enc text)) len.

(** [appendErrorsFromParagraph], libvoikko_api.js:148-160, and
    [getGrammarError], libvoikko_api.js:128-147 (see [PyModel.moved]). *)
Fixpoint js_grammar_loop (enc : list Z -> list Z) (fuel : nat) (b : gc_backend) (h : handle) (paragraph : list Z) (offset : nat)
    (skipErrors : Z) (errorList : list gc_error) : res (list gc_error * handle) :=
  match fuel with
  | O => Fuel
  | S fuel' =>
      '(cError, h') <- voikkoNextGrammarErrorCstr b h (enc paragraph) 0 skipErrors ;;
      match cError with
      | None => Ok (errorList, h')
      | Some e => js_grammar_loop enc fuel' b h' paragraph offset (skipErrors + 1) (errorList ++ [moved offset e])
      end
  end.

(** The loop of [grammarErrors], libvoikko_api.js:219-223. *)
Fixpoint js_paragraphs_loop (enc : list Z -> list Z) (fuel : nat) (b : gc_backend) (h : handle) (paragraphs : list (list Z)) (offset : nat)
    (errorList : list gc_error) : res (list gc_error * handle) :=
  match paragraphs with
  | [] => Ok (errorList, h)
  | p :: r =>
      '(errorList', h') <- js_grammar_loop enc fuel b h p offset 0 errorList ;;
      js_paragraphs_loop enc fuel b h' r (offset + length p + 1) errorList'
  end.

(** [grammarErrors], libvoikko_api.js:211-225: the errors and the handle
    afterwards.  [split] of JavaScript keeps empty pieces, as [PyModel.split_at]
    does. *)
Definition js_grammarErrors (enc : list Z -> list Z) (fuel : nat) (b : gc_backend) (h : handle) (text : list Z) : res (list gc_error * handle) :=
  if negb (isValidInput text) then Ok ([], h)
  else js_paragraphs_loop enc fuel b h (split_at 10 (map (fun c => if c =? 13 then 10 else c) text) []) 0 [].
