(** * The Java interface.

    Models [tokens], [sentences] and [grammarErrors] of
    [libvoikko/java/src/main/java/org/puimula/libvoikko/Voikko.java] (called
    Voikko.java below).

    A Java string is the list of its UTF-16 code units (0 to 0xFFFF).  [UB]
    stands for the exception thrown by [substring] for a position outside the
    string.  The loops have no bound of their own: [fuel] is a parameter. *)
From Verif Require Import Base CharModel TokenModel SpellerBase SentenceModel AnalyzerBase Utf8Spec
  GcCacheModel HandleModel ParaModel RulesModel GrammarModel PyModel.

Definition surrogate (u : Z) : bool := (0xD800 <=? u) && (u <=? 0xDFFF).

(** The characters of a string as [String.getBytes(UTF8)] of the Java library
    sees them: pairs of surrogates are one character, surrogates without a
    partner become a question mark. *)
Fixpoint chars (s : list Z) : list Z :=
  match s with
  | [] => []
  | u :: r =>
      if surrogate u then
        match r with
        | v :: r' =>
            if (u <? 0xDC00) && (0xDC00 <=? v) && (v <=? 0xDFFF)
            then 0x10000 + (u - 0xD800) * 0x400 + (v - 0xDC00) :: chars r'
            else 0x3F :: chars r
        | [] => [0x3F]
        end
      else u :: chars r
  end.

(** [string.getBytes(UTF8)]; the byte arrays of [s2n] and [s2bb],
    ByteArray.java:61-85, without the NUL that [s2n] adds. *)
Definition getBytes (s : list Z) : list Z := utf8_text (chars s).

(** [s.substring(i, j)]. *)
Definition substring (s : list Z) (i j : nat) : res (list Z) :=
  if (i <=? j)%nat && (j <=? length s)%nat then Ok (slice s i j) else UB.

(** [indexOfSpecialUnknown], Voikko.java:328-337: [i] is the position of the
    first unit of [s]; [None] is [-1]. *)
Fixpoint special_at (s : list Z) (i : nat) : option nat :=
  match s with
  | [] => None
  | c :: r => if (c =? 0) || surrogate c then Some i else special_at r (S i)
  end.
Definition indexOfSpecialUnknown (text : list Z) (startFrom : nat) : option nat := special_at (skipn startFrom text) startFrom.

(** A token: its type, text and start offset (Token.java:34-45). *)
Definition jtoken := (token_type * list Z * nat)%type.

(** The loop of [tokensNonNull], Voikko.java:347-358.  A negative [bytesLen] is
    0 here; both end the loop.  The constants of [TokenType] are in the order
    of the library's numbers. *)
Fixpoint nonnull_loop (fuel : nat) (ignore_dot : bool) (text textBytes : list Z) (lastStart textStart bytesStart bytesLen : nat)
    : res (list jtoken) :=
  match fuel with
  | O => Fuel
  | S fuel' =>
      if (0 <? bytesLen)%nat then
        '(tokenType, tokenLen) <- nextTokenCstr ignore_dot (firstn bytesLen (skipn bytesStart textBytes)) ;;
        tokenText <- substring text textStart (textStart + tokenLen) ;;
        let tokenBytes := length (getBytes tokenText) in
        rest <- nonnull_loop fuel' ignore_dot text textBytes lastStart (textStart + length tokenText)
                  (bytesStart + tokenBytes) (bytesLen - tokenBytes) ;;
        Ok ((tokenType, tokenText, (lastStart + textStart)%nat) :: rest)
      else Ok []
  end.

(** [tokensNonNull], Voikko.java:339-360. *)
Definition tokensNonNull (fuel : nat) (ignore_dot : bool) (text : list Z) (lastStart : nat) : res (list jtoken) :=
  nonnull_loop fuel ignore_dot text (getBytes text) lastStart 0 0 (length (getBytes text)).

(** The loop of [tokens], Voikko.java:319-324, and what follows it.  Its number
    of rounds is at most the number of units; [rounds] counts them.  [from] is
    the position where the next search starts. *)
Fixpoint jtokens_loop (rounds fuel : nat) (ignore_dot : bool) (text : list Z) (lastStart from : nat) (allTokens : list jtoken)
    : res (list jtoken) :=
  match rounds with
  | O => Fuel
  | S rounds' =>
      match indexOfSpecialUnknown text from with
      | Some i =>
          piece <- substring text lastStart i ;;
          l <- tokensNonNull fuel ignore_dot piece lastStart ;;
          c <- rd text i ;;
          jtokens_loop rounds' fuel ignore_dot text (i + 1) (i + 1) ((allTokens ++ l) ++ [(TOKEN_UNKNOWN, [c], i)])
      | None =>
          piece <- substring text lastStart (length text) ;;
          l <- tokensNonNull fuel ignore_dot piece lastStart ;;
          Ok (allTokens ++ l)
      end
  end.

(** [tokens], Voikko.java:315-326. *)
Definition java_tokens (fuel : nat) (ignore_dot : bool) (text : list Z) : res (list jtoken) :=
  jtokens_loop (S (length text)) fuel ignore_dot text 0 0 [].

(** The loop of [sentences], Voikko.java:379-388; [len] is the number that
    [sentenceLenByRef] holds. *)
Fixpoint jsentences_loop (fuel : nat) (spell : speller) (ignore_dot : bool) (text : list Z) (len : nat)
    : res (list (list Z * sentence_type)) :=
  match fuel with
  | O => Fuel
  | S fuel' =>
      if (0 <? length (getBytes text))%nat then
        '(sentenceType, written, ignore_dot') <- sentence_next_cstr spell ignore_dot (getBytes text) ;;
        let sentenceLen := match written with Some n => n | None => len end in
        tokenText <- substring text 0 sentenceLen ;;
        rest <- jsentences_loop fuel' spell ignore_dot' (skipn sentenceLen text) sentenceLen ;;
        Ok ((tokenText, sentenceType) :: rest)
      else Ok []
  end.

(** [sentences], Voikko.java:367-390. *)
Definition java_sentences (fuel : nat) (spell : speller) (ignore_dot : bool) (text : list Z) : res (list (list Z * sentence_type)) :=
  if negb (isValidInput text) then Ok [(text, SENTENCE_NONE)]
  else jsentences_loop fuel spell ignore_dot text 0.

(** [appendErrorsFromParagraph], Voikko.java:236-250, and [getGrammarError],
    Voikko.java:252-272 (see [PyModel.moved]). *)
Fixpoint jgrammar_loop (fuel : nat) (b : gc_backend) (h : handle) (paragraph : list Z) (offset : nat) (skipErrors : Z)
    (errorList : list gc_error) : res (list gc_error * handle) :=
  match fuel with
  | O => Fuel
  | S fuel' =>
      '(cError, h') <- voikkoNextGrammarErrorCstr b h (getBytes paragraph) 0 skipErrors ;;
      match cError with
      | None => Ok (errorList, h')
      | Some e => jgrammar_loop fuel' b h' paragraph offset (skipErrors + 1) (errorList ++ [moved offset e])
      end
  end.

(** [text.split("\\n")] of the Java library: empty pieces at the end are left
    out, unless there is only one piece. *)
Fixpoint drop_empty (l : list (list Z)) : list (list Z) :=
  match l with
  | [] => []
  | p :: r => match drop_empty r, p with [], [] => [] | r', _ => p :: r' end
  end.
Definition jsplit (text : list Z) : list (list Z) :=
  match split_at 10 text [] with
  | [p] => [p]
  | l => drop_empty l
  end.

(** The loop of [grammarErrors], Voikko.java:229-232. *)
Fixpoint jparagraphs_loop (fuel : nat) (b : gc_backend) (h : handle) (paragraphs : list (list Z)) (offset : nat)
    (errorList : list gc_error) : res (list gc_error * handle) :=
  match paragraphs with
  | [] => Ok (errorList, h)
  | p :: r =>
      '(errorList', h') <- jgrammar_loop fuel b h p offset 0 errorList ;;
      jparagraphs_loop fuel b h' r (offset + length p + 1) errorList'
  end.

(** [grammarErrors], Voikko.java:222-234. *)
Definition java_grammarErrors (fuel : nat) (b : gc_backend) (h : handle) (text : list Z) : res (list gc_error * handle) :=
  if negb (isValidInput text) then Ok ([], h)
  else jparagraphs_loop fuel b h (jsplit (map (fun c => if c =? 13 then 10 else c) text)) 0 [].
