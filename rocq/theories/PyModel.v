(** * The Python interface.

    Models the parts of [libvoikko/python/libvoikko.py] that do more than pass
    one call on to the library: [tokens], [sentences], [grammarErrors] and the
    comparison of dictionaries.

    A Python string is the list of its code points; [len] is its length.  A
    string given to the library by [ctypes] is followed by a NUL.  Classes that
    only hold values ([Token], [Sentence]) are pairs. *)
From Verif Require Import Base CharModel TokenModel SpellerBase SentenceModel AnalyzerBase
  GcCacheModel HandleModel ParaModel RulesModel GrammarModel.

(** [s[i:j]] for [0 <= i], [0 <= j]: positions beyond the end are cut off. *)
Definition slice (s : list Z) (i j : nat) : list Z := firstn (j - i) (skipn i s).

(** [s.find(c, start)] for one character [c]; [None] is [-1]. *)
Fixpoint find_at (c : Z) (s : list Z) (i : nat) : option nat :=
  match s with
  | [] => None
  | x :: r => if x =? c then Some i else find_at c r (S i)
  end.
Definition find_from (c : Z) (s : list Z) (start : nat) : option nat := find_at c (skipn start s) start.

(** [__isValidInput], libvoikko.py:471-472. *)
Definition isValidInput (text : list Z) : bool := negb (mem 0 text).

(** The loop of [__splitTokens], libvoikko.py:724-732.  The library is given a
    pointer into the buffer made by [create_unicode_buffer] and the remaining
    length. *)
Fixpoint split_loop (fuel : nat) (ignore_dot : bool) (uniText : list Z) (position textLen : nat)
    : res (list (token_type * list Z)) :=
  match fuel with
  | O => Fuel
  | S fuel' =>
      if (0 <? textLen)%nat then
        '(tokenType, tokenLen) <- nextToken ignore_dot (firstn textLen (skipn position (uniText ++ [0]))) ;;
        if is_none tokenType then Ok []
        else
          rest <- split_loop fuel' ignore_dot uniText (position + tokenLen) (textLen - tokenLen) ;;
          Ok ((tokenType, slice uniText position (position + tokenLen)) :: rest)
      else Ok []
  end.

(** [__splitTokens], libvoikko.py:716-733. *)
Definition splitTokens (ignore_dot : bool) (text : list Z) : res (list (token_type * list Z)) :=
  split_loop (S (length text)) ignore_dot text 0 (length text).

(** The loop of [tokens], libvoikko.py:706-713, and what follows it; [acc] is
    the list [tokens] so far. *)
Fixpoint tokens_loop (fuel : nat) (ignore_dot : bool) (text : list Z) (startIndex : nat) (acc : list (token_type * list Z))
    : res (list (token_type * list Z)) :=
  match fuel with
  | O => Fuel
  | S fuel' =>
      match find_from 0 text startIndex with
      | None =>
          l <- splitTokens ignore_dot (skipn startIndex text) ;;
          Ok (acc ++ l)
      | Some i =>
          l <- splitTokens ignore_dot (slice text startIndex i) ;;
          tokens_loop fuel' ignore_dot text (i + 1) ((acc ++ l) ++ [(TOKEN_UNKNOWN, [0])])
      end
  end.

(** [Voikko.tokens], libvoikko.py:702-714, on a handle with the given setting of
    the option to ignore dots. *)
Definition py_tokens (ignore_dot : bool) (text : list Z) : res (list (token_type * list Z)) :=
  tokens_loop (S (length text)) ignore_dot text 0 [].

(** The loop of [sentences], libvoikko.py:745-757.  The library changes the
    option to ignore dots for a while, so the option is passed on. *)
Definition is_snone (t : sentence_type) : bool := match t with SENTENCE_NONE => true | _ => false end.
Fixpoint sentences_loop (fuel : nat) (spell : speller) (ignore_dot : bool) (uniText : list Z) (position textLen : nat)
    : res (list (list Z * sentence_type)) :=
  match fuel with
  | O => Fuel
  | S fuel' =>
      if (0 <? textLen)%nat then
        '(sentenceType, sentenceLen, ignore_dot') <-
          sentence_next spell ignore_dot (firstn textLen (skipn position uniText ++ [0])) ;;
        let sentence := (slice uniText position (position + sentenceLen), sentenceType) in
        if is_snone sentenceType then Ok [sentence]
        else
          rest <- sentences_loop fuel' spell ignore_dot' uniText (position + sentenceLen) (textLen - sentenceLen) ;;
          Ok (sentence :: rest)
      else Ok []
  end.

(** [Voikko.sentences], libvoikko.py:735-758. *)
Definition py_sentences (spell : speller) (ignore_dot : bool) (text : list Z) : res (list (list Z * sentence_type)) :=
  if negb (isValidInput text) then Ok [(text, SENTENCE_NONE)]
  else sentences_loop (S (length text)) spell ignore_dot text 0 (length text).

(** [__grammarParagraph], libvoikko.py:634-652.  A [GrammarError] object is the
    error of the library with the position moved ([__getGrammarError],
    libvoikko.py:611-632); the message, which depends only on the code and the
    language, is left out and the suggestions stay UTF-8 strings.  The loop has
    no bound of its own: [fuel] is a parameter. *)
Definition moved (offset : nat) (e : gc_error) : gc_error :=
  mk_error (error_code e) (offset + startpos e) (errorlen e) (suggestions e).
Fixpoint grammar_loop (fuel : nat) (b : gc_backend) (h : handle) (paragraph : list Z) (offset : nat) (skipErrors : Z)
    (errorList : list gc_error) : res (list gc_error * handle) :=
  match fuel with
  | O => Fuel
  | S fuel' =>
      '(cError, h') <- voikkoNextGrammarErrorUcs4 b h (paragraph ++ [0]) (length paragraph) 0 skipErrors ;;
      match cError with
      | None => Ok (errorList, h')
      | Some e => grammar_loop fuel' b h' paragraph offset (skipErrors + 1) (errorList ++ [moved offset e])
      end
  end.
Definition grammarParagraph (fuel : nat) (b : gc_backend) (h : handle) (paragraph : list Z) (offset : nat)
    : res (list gc_error * handle) :=
  grammar_loop fuel b h paragraph offset 0 [].

(** [text.split(c)] for one character [c] (the built-in method): [cur] is the
    piece being read. *)
Fixpoint split_at (c : Z) (text cur : list Z) : list (list Z) :=
  match text with
  | [] => [cur]
  | x :: r => if x =? c then cur :: split_at c r [] else split_at c r (cur ++ [x])
  end.

(** The loop of [grammarErrors], libvoikko.py:666-668. *)
Fixpoint paragraphs_loop (fuel : nat) (b : gc_backend) (h : handle) (paragraphs : list (list Z)) (offset : nat)
    (errorList : list gc_error) : res (list gc_error * handle) :=
  match paragraphs with
  | [] => Ok (errorList, h)
  | p :: r =>
      '(l, h') <- grammarParagraph fuel b h p offset ;;
      paragraphs_loop fuel b h' r (offset + length p + 1) (errorList ++ l)
  end.

(** [Voikko.grammarErrors], libvoikko.py:654-669: the errors and the handle
    afterwards. *)
Definition py_grammarErrors (fuel : nat) (b : gc_backend) (h : handle) (text : list Z) : res (list gc_error * handle) :=
  if negb (isValidInput text) then Ok ([], h)
  else paragraphs_loop fuel b h (split_at 10 text []) 0 [].

(** [Dictionary], libvoikko.py:99-106: its four strings. *)
Record dict : Type := mk_dict { d_language : list Z; d_script : list Z; d_variant : list Z; d_description : list Z }.

(** [a < b] for Python strings. *)
Fixpoint str_lt (a b : list Z) : bool :=
  match a, b with
  | _, [] => false
  | [], _ :: _ => true
  | x :: a', y :: b' => (x <? y) || ((x =? y) && str_lt a' b')
  end.
(** [a == b] for Python strings. *)
Fixpoint str_eq (a b : list Z) : bool :=
  match a, b with
  | [], [] => true
  | x :: a', y :: b' => (x =? y) && str_eq a' b'
  | _, _ => false
  end.

(** [Dictionary.__lt__], libvoikko.py:111-120, for two dictionaries. *)
Definition dict_lt (self other : dict) : bool :=
  if str_lt (d_language self) (d_language other) then true
  else if str_lt (d_script self) (d_script other) then true
  else if str_lt (d_variant self) (d_variant other) then true
  else str_lt (d_description self) (d_description other).

(** [Dictionary.__eq__], libvoikko.py:122-129, for two dictionaries. *)
Definition dict_eq (self other : dict) : bool :=
  str_eq (d_language self) (d_language other) && str_eq (d_script self) (d_script other) &&
  str_eq (d_variant self) (d_variant other) && str_eq (d_description self) (d_description other).
