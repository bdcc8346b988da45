(** * Characters: case, classes, normalisation.

    Models [character/SimpleChar.cpp], [character/charset.cpp] and the case
    functions of [utils/utils.cpp]. *)
From Verif Require Import Base.

(** [SimpleChar::lower], character/SimpleChar.cpp:36-97. *)
Definition lower (c : Z) : Z :=
  if in_range 0x41 0x5A c then c + 0x20
  else if in_range 0xC0 0xD6 c then c + 0x20
  else if in_range 0xD8 0xDE c then c + 0x20
  else if in_range 0x0100 0x0136 c && (c mod 2 =? 0) then c + 1
  else if in_range 0x0139 0x0147 c && (c mod 2 =? 1) then c + 1
  else if in_range 0x014A 0x0176 c && (c mod 2 =? 0) then c + 1
  else if in_range 0x0179 0x017D c && (c mod 2 =? 1) then c + 1
  else if c =? 0x01B7 then 0x0292
  else if in_range 0x01DE 0x01EE c && (c mod 2 =? 0) then c + 1
  else if in_range 0x01F8 0x021E c && (c mod 2 =? 0) then c + 1
  else if in_range 0x0400 0x040F c then c + 0x50
  else if in_range 0x0410 0x042F c then c + 0x20
  else if in_range 0x0460 0x0480 c && (c mod 2 =? 0) then c + 1
  else if in_range 0x048A 0x0526 c && (c mod 2 =? 0) then c + 1
  else c.

(** [SimpleChar::upper], character/SimpleChar.cpp:99-160. *)
Definition upper (c : Z) : Z :=
  if in_range 0x61 0x7A c then c - 0x20
  else if in_range 0xE0 0xF6 c then c - 0x20
  else if in_range 0xF8 0xFE c then c - 0x20
  else if in_range 0x0101 0x0137 c && (c mod 2 =? 1) then c - 1
  else if in_range 0x013A 0x0148 c && (c mod 2 =? 0) then c - 1
  else if in_range 0x014B 0x0177 c && (c mod 2 =? 1) then c - 1
  else if in_range 0x017A 0x017E c && (c mod 2 =? 0) then c - 1
  else if in_range 0x01DF 0x01EF c && (c mod 2 =? 1) then c - 1
  else if in_range 0x01F9 0x021F c && (c mod 2 =? 1) then c - 1
  else if c =? 0x0292 then 0x01B7
  else if in_range 0x0450 0x045F c then c - 0x50
  else if in_range 0x0430 0x044F c then c - 0x20
  else if in_range 0x0461 0x0481 c && (c mod 2 =? 1) then c - 1
  else if in_range 0x048B 0x0527 c && (c mod 2 =? 1) then c - 1
  else c.

(** [SimpleChar::isUpper], character/SimpleChar.cpp:162-165. *)
Definition isUpper (c : Z) : bool := negb (c =? lower c) || (c =? 0x018F).

(** [SimpleChar::isLower], character/SimpleChar.cpp:167-169. *)
Definition isLower (c : Z) : bool := negb (c =? upper c).

(** [SimpleChar::isDigit], character/SimpleChar.cpp:171-173. *)
Definition isDigit (c : Z) : bool := in_range 0x30 0x39 c.

(** [SimpleChar::isWhitespace], character/SimpleChar.cpp:175-188. *)
Definition isWhitespace (c : Z) : bool :=
  in_range 0x09 0x0D c || (c =? 0x20) || (c =? 0x85) || (c =? 0xA0) ||
  (c =? 0x1680) || (c =? 0x180E) || in_range 0x2000 0x200A c ||
  (c =? 0x2028) || (c =? 0x2029) || (c =? 0x202F) || (c =? 0x205F) ||
  (c =? 0x3000).

(** [SimpleChar::equalsIgnoreCase], character/SimpleChar.cpp:190-200; the
    arguments are the C strings without their terminators. *)
Definition equalsIgnoreCase (s1 s2 : list Z) : bool :=
  if negb (Nat.eqb (length s1) (length s2)) then false
  else zlist_eqb (map lower s1) (map lower s2).

(** [enum char_type], character/charset.hpp. *)
Inductive char_type : Type :=
| CHAR_UNKNOWN | CHAR_LETTER | CHAR_DIGIT | CHAR_WHITESPACE | CHAR_PUNCTUATION.

(** [isFinnishQuotationMark], character/charset.cpp:76-80.  The literal is
    the characters QUOTATION MARK, U+00BB, U+201D; [wcschr] also finds NUL. *)
Definition isFinnishQuotationMark (c : Z) : bool := wcschr [0x22; 0xBB; 0x201D] c.

(** The punctuation literal of [get_char_type], character/charset.cpp:57-66. *)
Definition punctuation_chars : list Z :=
  wstr ".,;-!?:'()[]{}/&" ++
  [0xAD; 0x2019; 0x2010; 0x2011; 0x2013; 0x2014; 0x201C; 0x2026].

(** [get_char_type], character/charset.cpp:42-74. *)
Definition get_char_type (c : Z) : char_type :=
  if in_range 0x41 0x5A c || in_range 0x61 0x7A c || in_range 0xC1 0xD6 c ||
     in_range 0xD8 0xF6 c || in_range 0x00F8 0x02AF c || in_range 0x0400 0x0481 c ||
     in_range 0x048A 0x0527 c || in_range 0x1400 0x15C3 c || in_range 0xFB00 0xFB04 c
  then CHAR_LETTER
  else if isWhitespace c then CHAR_WHITESPACE
  else if wcschr punctuation_chars c then CHAR_PUNCTUATION
  else if isFinnishQuotationMark c then CHAR_PUNCTUATION
  else if wcschr (wstr "0123456789") c then CHAR_DIGIT
  else CHAR_UNKNOWN.

(** [CONV_2TO1], character/charset.cpp:85-161 (67 entries). *)
Definition CONV_2TO1 : list ((Z * Z) * Z) :=
  [ ((0x41, 0x300), 0xc0); ((0x41, 0x301), 0xc1); ((0x41, 0x302), 0xc2);
    ((0x41, 0x303), 0xc3); ((0x41, 0x308), 0xc4); ((0x41, 0x30a), 0xc5);
    ((0x43, 0x327), 0xc7); ((0x45, 0x300), 0xc8); ((0x45, 0x301), 0xc9);
    ((0x45, 0x302), 0xca); ((0x45, 0x308), 0xcb); ((0x49, 0x300), 0xcc);
    ((0x49, 0x301), 0xcd); ((0x49, 0x302), 0xce); ((0x49, 0x308), 0xcf);
    ((0x4e, 0x303), 0xd1); ((0x4f, 0x300), 0xd2); ((0x4f, 0x301), 0xd3);
    ((0x4f, 0x302), 0xd4); ((0x4f, 0x303), 0xd5); ((0x4f, 0x308), 0xd6);
    ((0x55, 0x300), 0xd9); ((0x55, 0x301), 0xda); ((0x55, 0x302), 0xdb);
    ((0x55, 0x308), 0xdc); ((0x59, 0x301), 0xdd); ((0x61, 0x300), 0xe0);
    ((0x61, 0x301), 0xe1); ((0x61, 0x302), 0xe2); ((0x61, 0x303), 0xe3);
    ((0x61, 0x308), 0xe4); ((0x61, 0x30a), 0xe5); ((0x63, 0x327), 0xe7);
    ((0x65, 0x300), 0xe8); ((0x65, 0x301), 0xe9); ((0x65, 0x302), 0xea);
    ((0x65, 0x308), 0xeb); ((0x69, 0x300), 0xec); ((0x69, 0x301), 0xed);
    ((0x69, 0x302), 0xee); ((0x69, 0x308), 0xef); ((0x6e, 0x303), 0xf1);
    ((0x6f, 0x300), 0xf2); ((0x6f, 0x301), 0xf3); ((0x6f, 0x302), 0xf4);
    ((0x6f, 0x303), 0xf5); ((0x6f, 0x308), 0xf6); ((0x75, 0x300), 0xf9);
    ((0x75, 0x301), 0xfa); ((0x75, 0x302), 0xfb); ((0x75, 0x308), 0xfc);
    ((0x79, 0x301), 0xfd); ((0x79, 0x308), 0xff); ((0x53, 0x30c), 0x160);
    ((0x73, 0x30c), 0x161); ((0x5a, 0x30c), 0x17d); ((0x7a, 0x30c), 0x17e);
    ((0x418, 0x306), 0x419); ((0x438, 0x306), 0x439); ((0x415, 0x300), 0x400);
    ((0x435, 0x300), 0x450); ((0x415, 0x308), 0x401); ((0x435, 0x308), 0x451);
    ((0x413, 0x301), 0x403); ((0x433, 0x301), 0x453); ((0x41e, 0x308), 0x4e6);
    ((0x43e, 0x308), 0x4e7) ].

(** [CONV_1TO1], character/charset.cpp:160-165. *)
Definition CONV_1TO1 : list (Z * Z) :=
  [ (0x2019, 0x27); (0x2010, 0x2D); (0x2011, 0x2D) ].

(** [CONV_1TO2], character/charset.cpp:167-175. *)
Definition CONV_1TO2 : list (Z * list Z) :=
  [ (0x2103, [0xB0; 0x43]); (0x2109, [0xB0; 0x46]);
    (0xFB00, wstr "ff"); (0xFB01, wstr "fi"); (0xFB02, wstr "fl") ].

(** [CONV_1TO3], character/charset.cpp:177-181. *)
Definition CONV_1TO3 : list (Z * list Z) :=
  [ (0xFB03, wstr "ffi"); (0xFB04, wstr "ffl") ].

(** First matching row of a table; models the inner [for j] loops with
    [break] of [voikko_normalise], character/charset.cpp:193-233. *)
Fixpoint find2 (t : list ((Z * Z) * Z)) (a b : Z) : option Z :=
  match t with
  | [] => None
  | ((x, y), z) :: r => if (a =? x) && (b =? y) then Some z else find2 r a b
  end.
Fixpoint find1 {A} (t : list (Z * A)) (a : Z) : option A :=
  match t with
  | [] => None
  | (x, z) :: r => if a =? x then Some z else find1 r a
  end.

(** The characters written for one character that does not start a pair,
    character/charset.cpp:202-236. *)
Definition norm1 (c : Z) : list Z :=
  match find1 CONV_1TO1 c with
  | Some x => [x]
  | None =>
      match find1 CONV_1TO2 c with
      | Some l => l
      | None =>
          match find1 CONV_1TO3 c with
          | Some l => l
          | None => [c]
          end
      end
  end.

(** The scanning loop of [voikko_normalise], character/charset.cpp:188-239.
    Simplification: the loop index is the remaining suffix of the word, so
    [i < len - 1] is "the suffix has a second character"; the two reads
    [word[i]], [word[i+1]] are then inside the word. *)
Fixpoint norm_loop (w : list Z) : list Z :=
  match w with
  | [] => []
  | c :: r =>
      match r with
      | d :: r' =>
          match find2 CONV_2TO1 c d with
          | Some x => x :: norm_loop r'
          | None => norm1 c ++ norm_loop r
          end
      | [] => norm1 c ++ norm_loop r
      end
  end.

(** [voikko_normalise], character/charset.cpp:184-242: the output, plus its
    terminator, must fit in the [len * 3 + 1] characters allocated.  The result
    is the C string without its terminator. *)
Definition voikko_normalise (w : list Z) : res (list Z) :=
  let out := norm_loop w in
  if (length out + 1 <=? length w * 3 + 1)%nat then Ok out else UB.

(** [enum casetype], utils/utils.hpp. *)
Inductive casetype : Type :=
| CT_NO_LETTERS | CT_ALL_LOWER | CT_FIRST_UPPER | CT_COMPLEX | CT_ALL_UPPER.

(** [voikko_casetype], utils/utils.cpp:38-67; the word is the list of its
    [nchars] characters.  The loop accumulates three flags. *)
Fixpoint casetype_loop (w : list Z) (rest_lc all_uc no_letters : bool) : bool * bool * bool :=
  match w with
  | [] => (rest_lc, all_uc, no_letters)
  | c :: r =>
      let '(rest_lc, no_letters) :=
        if isUpper c then (false, false) else (rest_lc, no_letters) in
      let '(all_uc, no_letters) :=
        if isLower c then (false, false) else (all_uc, no_letters) in
      casetype_loop r rest_lc all_uc no_letters
  end.

Definition voikko_casetype (w : list Z) : casetype :=
  match w with
  | [] => CT_NO_LETTERS
  | c :: r =>
      let '(first_uc, no_letters) := if isUpper c then (true, false) else (false, true) in
      let '(all_uc, no_letters) := if isLower c then (false, false) else (true, no_letters) in
      let '(rest_lc, all_uc, no_letters) := casetype_loop r true all_uc no_letters in
      if no_letters then CT_NO_LETTERS
      else if all_uc then CT_ALL_UPPER
      else if negb rest_lc then CT_COMPLEX
      else if first_uc then CT_FIRST_UPPER
      else CT_ALL_LOWER
  end.

(** [voikko_set_case], utils/utils.cpp:69-92, on the [nchars] characters. *)
Definition voikko_set_case (ct : casetype) (w : list Z) : list Z :=
  match w with
  | [] => []
  | c :: r =>
      match ct with
      | CT_NO_LETTERS | CT_COMPLEX => w
      | CT_ALL_LOWER => map lower w
      | CT_ALL_UPPER => map upper w
      | CT_FIRST_UPPER => upper c :: map lower r
      end
  end.

(** [wmemchr(p, c, n)] where [p] is the suffix of the buffer starting at the
    pointer: offset of the first occurrence among the first [n] characters;
    every character inspected must lie in the buffer. *)
Fixpoint wmemchr (p : list Z) (c : Z) (n : nat) : res (option nat) :=
  match n with
  | O => Ok None
  | S m =>
      match p with
      | [] => UB
      | d :: r =>
          if d =? c then Ok (Some O)
          else (o <- wmemchr r c m ;; Ok (option_map S o))
      end
  end.

(** [voikko_is_nonword], utils/utils.cpp:94-123.  The pointers [i] of the
    source are offsets into the word; [i + 1] onwards is [skipn].  Subtractions
    are on [nat]; each is non-negative because [i <= nchars - 4]. *)
Definition voikko_is_nonword (w : list Z) : res bool :=
  let nchars := length w in
  if (nchars <? 4)%nat then Ok false else
  o <- wmemchr w 0x2F (nchars - 3) ;;
  b1 <- match o with
        | None => Ok false
        | Some i =>
            c <- rd w (i + 1) ;;
            if c =? 0x2F then
              (o2 <- wmemchr (skipn (i + 1) w) 0x2E (nchars - i - 2) ;;
               Ok match o2 with Some _ => true | None => false end)
            else Ok false
        end ;;
  if (b1 : bool) then Ok true else
  o <- wmemchr w 0x40 (nchars - 3) ;;
  b2 <- match o with
        | None => Ok false
        | Some i =>
            c <- rd w (i + 1) ;;
            if negb (c =? 0x2E) then
              (o2 <- wmemchr (skipn (i + 1) w) 0x2E (nchars - i - 2) ;;
               Ok match o2 with Some _ => true | None => false end)
            else Ok false
        end ;;
  if (b2 : bool) then Ok true else
  if (nchars <? 7)%nat then Ok false else
  p <- prefix_eq (wstr "www.") w ;;
  if negb p then Ok false else
  c <- rd w 4 ;;
  if c =? 0x2E then Ok false else
  o3 <- wmemchr (skipn 5 w) 0x2E (nchars - 5) ;;
  Ok match o3 with Some _ => true | None => false end.

(** [StringUtils::isInteger], utils/StringUtils.cpp:219-226. *)
Definition isInteger (w : list Z) : bool := forallb (fun c => negb ((c <? 0x30) || (0x39 <? c))) w.

(** [StringUtils::isChapterNumber], utils/StringUtils.cpp:232-249. [first] is
    [i == 0]. *)
Fixpoint chapter_loop (w : list Z) (first dotLast : bool) : bool :=
  match w with
  | [] => negb dotLast
  | c :: r =>
      if c =? 0x2E then
        if first || dotLast then false else chapter_loop r false true
      else if (c <? 0x30) || (0x39 <? c) then false
      else chapter_loop r false false
  end.
Definition isChapterNumber (w : list Z) : bool := chapter_loop w true false.

(** [StringUtils::isRomanNumeral], utils/StringUtils.cpp:251-259.  The C
    string has no NUL inside, so the NUL quirk of [wcschr] is irrelevant here. *)
Definition isRomanNumeral (w : list Z) : bool := forallb (fun c => wcschr (wstr "iIvVxX") c) w.

(** [StringUtils::isPossibleListItem], utils/StringUtils.cpp:262-273. *)
Definition isPossibleListItem (w : list Z) : bool :=
  if Nat.eqb (length w) 1 then true
  else if isChapterNumber w then true
  else if isRomanNumeral w then true
  else false.
