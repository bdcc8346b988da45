(** * Sentence detection.

    Models [sentence/Sentence.cpp] and [sentence/interface.cpp].  The fields of
    the handle that are used are the speller (a parameter) and [ignore_dot],
    which is read back as part of the result. *)
From Verif Require Import Base CharModel TokenModel SpellerBase Utf8Model.

(** [enum voikko_sentence_type], voikko_enums.h. *)
Inductive sentence_type : Type := SENTENCE_NONE | SENTENCE_NO_START | SENTENCE_PROBABLE | SENTENCE_POSSIBLE.

(** The loop of [dot_part_of_word], sentence/Sentence.cpp:53-60: characters
    [i .. i+n-1] are all '.', '-' or digits. *)
Fixpoint only_numbers_or_dots (text : list Z) (n i : nat) : res bool :=
  match n with
  | O => Ok true
  | S n' =>
      c <- rd text i ;;
      if negb (c =? 0x2E) && negb (c =? 0x2D) && negb (isDigit c) then Ok false
      else only_numbers_or_dots text n' (S i)
  end.

(** [dot_part_of_word], sentence/Sentence.cpp:42-70, with [text] the text
    behind the pointer argument. *)
Definition dot_part_of_word (spell : speller) (text : list Z) (len : nat) : res bool :=
  if (len <? 2)%nat then Ok false
  else
    c0 <- (if Nat.eqb len 2 then c <- rd text 0 ;; Ok (isUpper c) else Ok false) ;;
    if (c0 : bool) then Ok true
    else
      d <- only_numbers_or_dots text (len - 1) 0 ;;
      if (d : bool) then Ok true
      else if (len <=? length text)%nat then Ok (negb (spell_failed (spell (firstn len text))))
      else UB.

(** The loop of [Sentence::next], sentence/Sentence.cpp:84-140.  [ignore_dot]
    is saved, set to 0 around the call of the tokenizer and restored
    (lines 85-89): it is threaded through unchanged. *)
Fixpoint sentence_loop (fuel : nat) (spell : speller) (text : list Z)
    (ignore_dot : bool) (token : token_type) (slen previous_token_start : nat) (previous_token_type : token_type)
    (end_found in_quotation end_dotword possible_end_punctuation : bool)
    : res (sentence_type * nat * bool) :=
  if is_none token || negb (slen <? length text)%nat then Ok (SENTENCE_NONE, length text, ignore_dot)
  else
  match fuel with
  | O => Fuel
  | S fuel' =>
      let ignore_dot_saved := ignore_dot in
      let ignore_dot := false in
      '(token, tokenlen) <- nextToken ignore_dot (skipn slen text) ;;
      let ignore_dot := ignore_dot_saved in
      let continue ef iq ed pe :=
        sentence_loop fuel' spell text ignore_dot token (slen + tokenlen) slen token ef iq ed pe in
      if end_found && negb in_quotation then
        match token with
        | TOKEN_WHITESPACE => continue end_found in_quotation end_dotword possible_end_punctuation
        | _ =>
            let glued := match previous_token_type, token with
                         | TOKEN_WHITESPACE, _ => false
                         | _, TOKEN_WORD => true
                         | _, _ => false
                         end in
            if end_dotword || possible_end_punctuation || glued
            then Ok (SENTENCE_POSSIBLE, slen, ignore_dot)
            else Ok (SENTENCE_PROBABLE, slen, ignore_dot)
        end
      else
        match token with
        | TOKEN_PUNCTUATION =>
            punct <- rd text slen ;;
            if wcschr (wstr "!?") punct then
              continue true in_quotation end_dotword
                (if in_quotation then true else possible_end_punctuation)
            else if ((punct =? 0x2E) && Nat.eqb tokenlen 3) || (punct =? 0x2026) then
              continue true in_quotation end_dotword true
            else if punct =? 0x2E then
              dp <- (if negb (Nat.eqb slen 0) &&
                        match previous_token_type with TOKEN_WORD => true | _ => false end
                     then dot_part_of_word spell (skipn previous_token_start text)
                            (slen - previous_token_start + 1)
                     else Ok false) ;;
              continue true in_quotation (if (dp : bool) then true else end_dotword) possible_end_punctuation
            else if punct =? 0x3A then
              continue true in_quotation end_dotword true
            else if isFinnishQuotationMark punct || (punct =? 0x201C) then
              let in_quotation := negb in_quotation in
              comma <- (if negb in_quotation && (slen + 1 <? length text)%nat
                        then c <- rd text (slen + 1) ;; Ok (c =? 0x2C)
                        else Ok false) ;;
              if (comma : bool) then continue false in_quotation end_dotword false
              else continue end_found in_quotation end_dotword possible_end_punctuation
            else continue end_found in_quotation end_dotword possible_end_punctuation
        | _ => continue end_found in_quotation end_dotword possible_end_punctuation
        end
  end.

(** [Sentence::next], sentence/Sentence.cpp:72-142, which is also
    [voikkoNextSentenceStartUcs4], sentence/interface.cpp:36-39.  Result: the
    sentence type, [*sentencelen] and the value of [ignore_dot] afterwards.
    Every round consumes at least one character, so [length text + 1] rounds
    suffice. *)
Definition sentence_next (spell : speller) (ignore_dot : bool) (text : list Z)
    : res (sentence_type * nat * bool) :=
  sentence_loop (length text + 1) spell text ignore_dot TOKEN_WORD 0 0 TOKEN_NONE false false false false.

(** [voikkoNextSentenceStartCstr], sentence/interface.cpp:41-55, for a
    non-NULL text; the second component is [None] when [*sentencelen] is not
    written. *)
Definition sentence_next_cstr (spell : speller) (ignore_dot : bool) (bytes : list Z)
    : res (sentence_type * option nat * bool) :=
  o <- ucs4FromUtf8 bytes ;;
  match o with
  | None => Ok (SENTENCE_NONE, None, ignore_dot)
  | Some w => '(t, n, d) <- sentence_next spell ignore_dot (cstr w) ;; Ok (t, Some n, d)
  end.
