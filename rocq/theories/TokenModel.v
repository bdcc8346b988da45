(** * Tokenizer.

    Models [tokenizer/Tokenizer.cpp] and [tokenizer/interface.cpp].  A text of
    [textlen] characters is the list of exactly these characters: any access at
    an index [>= textlen] is [UB].  The only field of the handle that is used
    is [ignore_dot]. *)
From Verif Require Import Base CharModel Utf8Model.

(** [enum voikko_token_type], voikko_enums.h. *)
Inductive token_type : Type :=
| TOKEN_NONE | TOKEN_WORD | TOKEN_PUNCTUATION | TOKEN_WHITESPACE | TOKEN_UNKNOWN.

(** The e-mail loop of [findUrlOrEmail], tokenizer/Tokenizer.cpp:43-89.  [n] is
    the number of remaining iterations, [i + n = textlen]. *)
Fixpoint email_loop (text : list Z) (n i : nat) (foundAt foundDot : bool) : res nat :=
  match n with
  | O => Ok (if foundAt && foundDot then length text else O)
  | S n' =>
      c <- rd text i ;;
      match get_char_type c with
      | CHAR_WHITESPACE => Ok (if foundAt && foundDot then i else O)
      | CHAR_UNKNOWN =>
          if c =? 0x40 then
            if foundAt then Ok O else email_loop text n' (S i) true foundDot
          else if negb (wcschr (wstr "#$%*+=^_`|~") c) then
            Ok (if foundAt && foundDot then i else O)
          else email_loop text n' (S i) foundAt foundDot
      | CHAR_DIGIT | CHAR_LETTER => email_loop text n' (S i) foundAt foundDot
      | CHAR_PUNCTUATION =>
          if (c =? 0x2E) && foundAt then
            stop <- (if Nat.eqb (i + 1) (length text) then Ok true
                     else d <- rd text (i + 1) ;;
                          Ok match get_char_type d with CHAR_WHITESPACE => true | _ => false end) ;;
            if (stop : bool) then Ok (if foundDot then i else O)
            else email_loop text n' (S i) foundAt true
          else if negb (wcschr (wstr "!&'-/?{}.") c) then
            Ok (if foundAt && foundDot then i else O)
          else email_loop text n' (S i) foundAt foundDot
      end
  end.

(** The URL loop of [findUrlOrEmail], tokenizer/Tokenizer.cpp:90-112. *)
Fixpoint url_loop (text : list Z) (n i : nat) : res nat :=
  match n with
  | O => Ok (length text)
  | S n' =>
      c <- rd text i ;;
      match get_char_type c with
      | CHAR_WHITESPACE => Ok i
      | CHAR_UNKNOWN =>
          if negb (wcschr (wstr "=#%") c) then Ok i else url_loop text n' (S i)
      | CHAR_DIGIT | CHAR_LETTER => url_loop text n' (S i)
      | CHAR_PUNCTUATION =>
          if c =? 0x2E then
            stop <- (if Nat.eqb (i + 1) (length text) then Ok true
                     else d <- rd text (i + 1) ;;
                          Ok match get_char_type d with CHAR_WHITESPACE => true | _ => false end) ;;
            if (stop : bool) then Ok i else url_loop text n' (S i)
          else url_loop text n' (S i)
      end
  end.

(** [findUrlOrEmail], tokenizer/Tokenizer.cpp:35-113. *)
Definition findUrlOrEmail (text : list Z) : res nat :=
  let textlen := length text in
  notUrl <- (if (textlen <? 12)%nat then Ok true
             else p1 <- prefix_eq (wstr "http://") text ;;
                  if (p1 : bool) then Ok false
                  else p2 <- prefix_eq (wstr "https://") text ;; Ok (negb p2)) ;;
  if (notUrl : bool) then
    if (textlen <? 6)%nat then Ok O
    else email_loop text textlen O false false
  else
    c4 <- rd text 4 ;;
    let start := if c4 =? 0x73 then 8%nat else 7%nat in
    url_loop text (textlen - start) start.

(** The main loop of [word_length], tokenizer/Tokenizer.cpp:131-206; [n] is
    the number of characters left, [wlen + n = textlen]. *)
Fixpoint word_loop (ignore_dot : bool) (text : list Z) (n wlen : nat)
    (processing_number seenLetters : bool) : res nat :=
  let adot := if ignore_dot then 1%nat else 0%nat in
  match n with
  | O => Ok (length text)
  | S n' =>
      c <- rd text wlen ;;
      match get_char_type c with
      | CHAR_LETTER => word_loop ignore_dot text n' (S wlen) false true
      | CHAR_DIGIT => word_loop ignore_dot text n' (S wlen) true seenLetters
      | CHAR_WHITESPACE | CHAR_UNKNOWN => Ok wlen
      | CHAR_PUNCTUATION =>
          if (c =? 0x27) || (c =? 0x2019) || (c =? 0x3A) then
            if Nat.eqb (wlen + 1) (length text) then Ok wlen
            else
              d <- rd text (wlen + 1) ;;
              match get_char_type d with
              | CHAR_LETTER => word_loop ignore_dot text n' (S wlen) processing_number seenLetters
              | _ => Ok wlen
              end
          else if (c =? 0x2D) || (c =? 0xAD) || (c =? 0x2010) || (c =? 0x2011) then
            if Nat.eqb (wlen + 1) (length text) then Ok (wlen + 1)%nat
            else
              d <- rd text (wlen + 1) ;;
              if isFinnishQuotationMark d then Ok (wlen + 1)%nat
              else
                match get_char_type d with
                | CHAR_LETTER | CHAR_DIGIT =>
                    word_loop ignore_dot text n' (S wlen) processing_number seenLetters
                | CHAR_WHITESPACE | CHAR_UNKNOWN => Ok (wlen + 1)%nat
                | CHAR_PUNCTUATION => if d =? 0x2C then Ok (wlen + 1)%nat else Ok wlen
                end
          else if c =? 0x2E then
            if Nat.eqb (wlen + 1) (length text) then Ok (wlen + adot)%nat
            else
              d <- rd text (wlen + 1) ;;
              match get_char_type d with
              | CHAR_LETTER => word_loop ignore_dot text n' (S wlen) processing_number seenLetters
              | CHAR_DIGIT =>
                  if seenLetters then Ok (wlen + adot)%nat
                  else word_loop ignore_dot text n' (S wlen) processing_number seenLetters
              | CHAR_WHITESPACE | CHAR_UNKNOWN | CHAR_PUNCTUATION => Ok (wlen + adot)%nat
              end
          else if c =? 0x2C then
            if negb processing_number then Ok wlen
            else if Nat.eqb (wlen + 1) (length text) then Ok wlen
            else
              d <- rd text (wlen + 1) ;;
              match get_char_type d with
              | CHAR_DIGIT => word_loop ignore_dot text n' (S wlen) processing_number seenLetters
              | _ => Ok wlen
              end
          else Ok wlen
      end
  end.

(** [word_length], tokenizer/Tokenizer.cpp:115-208. *)
Definition word_length (ignore_dot : bool) (text : list Z) : res nat :=
  urlLength <- findUrlOrEmail text ;;
  if negb (Nat.eqb urlLength 0) then Ok urlLength
  else word_loop ignore_dot text (length text) O false false.

(** The whitespace loop of [nextToken], tokenizer/Tokenizer.cpp:219-228. *)
Fixpoint ws_loop (text : list Z) (n i : nat) : res nat :=
  match n with
  | O => Ok (length text)
  | S n' =>
      c <- rd text i ;;
      match get_char_type c with
      | CHAR_WHITESPACE => ws_loop text n' (S i)
      | _ => Ok i
      end
  end.

(** [Tokenizer::nextToken], tokenizer/Tokenizer.cpp:210-255, which is also
    [voikkoNextTokenUcs4], tokenizer/interface.cpp:36-40.  Result: token type
    and the value stored in [*tokenlen]. *)
Definition nextToken (ignore_dot : bool) (text : list Z) : res (token_type * nat) :=
  let textlen := length text in
  if Nat.eqb textlen 0 then Ok (TOKEN_NONE, O)
  else
    c <- rd text 0 ;;
    match get_char_type c with
    | CHAR_LETTER | CHAR_DIGIT =>
        n <- word_length ignore_dot text ;; Ok (TOKEN_WORD, n)
    | CHAR_WHITESPACE =>
        n <- ws_loop text (textlen - 1) 1 ;; Ok (TOKEN_WHITESPACE, n)
    | CHAR_PUNCTUATION =>
        if wcschr [0x2D; 0x2010; 0x2011] c then
          if Nat.eqb textlen 1 then Ok (TOKEN_PUNCTUATION, 1%nat)
          else
            wlen <- word_length ignore_dot (tl text) ;;
            if Nat.eqb wlen 0 then Ok (TOKEN_PUNCTUATION, 1%nat)
            else Ok (TOKEN_WORD, (wlen + 1)%nat)
        else
          ellipsis <- (if (textlen <? 3)%nat then Ok false
                       else if negb (c =? 0x2E) then Ok false
                       else c1 <- rd text 1 ;;
                            if negb (c1 =? 0x2E) then Ok false
                            else c2 <- rd text 2 ;; Ok (c2 =? 0x2E)) ;;
          if (ellipsis : bool) then Ok (TOKEN_PUNCTUATION, 3%nat)
          else Ok (TOKEN_PUNCTUATION, 1%nat)
    | CHAR_UNKNOWN => Ok (TOKEN_UNKNOWN, 1%nat)
    end.

Definition is_none (t : token_type) : bool := match t with TOKEN_NONE => true | _ => false end.

(** [doVoikkoNextTokenCstr], tokenizer/interface.cpp:42-52.  [wcslen] of the
    converted buffer stops at the first NUL.  When conversion fails [*tokenlen]
    keeps its previous value [tokenlen]. *)
Definition doNextTokenCstr (ignore_dot : bool) (bytes : list Z) (tokenlen maxChars : nat)
    : res (token_type * nat) :=
  o <- ucs4FromUtf8_max bytes maxChars ;;
  match o with
  | None => Ok (TOKEN_NONE, tokenlen)
  | Some w => nextToken ignore_dot (cstr w)
  end.

(** The loop of [voikkoNextTokenCstr], tokenizer/interface.cpp:59-70. *)
Fixpoint cstr_loop (fuel : nat) (ignore_dot : bool) (bytes : list Z) (tokenlen maxChars : nat)
    : res (token_type * nat) :=
  match fuel with
  | O => Fuel
  | S f =>
      '(t, len) <- doNextTokenCstr ignore_dot bytes tokenlen maxChars ;;
      if is_none t || (len + 5 <? maxChars)%nat then Ok (t, len)
      else cstr_loop f ignore_dot bytes len (maxChars * 2)
  end.

(** [voikkoNextTokenCstr], tokenizer/interface.cpp:54-71, for a non-NULL text.
    [maxChars] doubles from 50, so [length bytes + 1] rounds are more than
    enough; running out of them would be [Fuel]. *)
Definition nextTokenCstr (ignore_dot : bool) (bytes : list Z) : res (token_type * nat) :=
  cstr_loop (length bytes + 1) ignore_dot bytes O 50.
