(** * UTF-8 conversion.

    Models [utf8/core.hpp], [utf8/checked.hpp], [utf8/unchecked.hpp] and the
    conversion functions of [utils/StringUtils.cpp].

    Bytes are integers 0..255 (the code masks every [char] with 0xff or with
    0x3f before using it, so the signedness of [char] is irrelevant).  An
    iterator pair [(it, end)] is the list of bytes between them; dereferencing
    an exhausted iterator is [UB].  A thrown exception is [None]. *)
From Verif Require Import Base.

(** [internal::is_code_point_valid], utf8/core.hpp:86-96. *)
Definition is_code_point_valid (cp : Z) : bool :=
  (cp <=? 0x10FFFF) && negb (in_range 0xD800 0xDFFF cp) && negb (cp =? 0xFFFE) && negb (cp =? 0xFFFF).

(** [internal::is_trail], utf8/core.hpp (mask8(oc) >> 6 == 0x2). *)
Definition is_trail (b : Z) : bool := Z.shiftr b 6 =? 2.

(** [internal::sequence_length], utf8/core.hpp:98-113, on the lead byte. *)
Definition sequence_length (lead : Z) : Z :=
  if lead <? 0x80 then 1
  else if Z.shiftr lead 5 =? 0x6 then 2
  else if Z.shiftr lead 4 =? 0xE then 3
  else if Z.shiftr lead 3 =? 0x1E then 4
  else 0.

(** [internal::is_overlong_sequence], utf8/core.hpp:115-131. *)
Definition is_overlong_sequence (cp len : Z) : bool :=
  if cp <? 0x80 then negb (len =? 1)
  else if cp <? 0x800 then negb (len =? 2)
  else if cp <? 0x10000 then negb (len =? 3)
  else false.

(** [utf_error] results other than UTF8_OK all make [next] throw
    (utf8/checked.hpp:134-151); they are collapsed to [None].  On success the
    code point and the iterator positioned on the last octet are returned. *)

(** [get_sequence_1], utf8/core.hpp:137-147. *)
Definition get_sequence_1 (it : list Z) : option (Z * list Z) :=
  match it with
  | [] => None
  | b0 :: _ => Some (b0, it)
  end.

(** [get_sequence_2], utf8/core.hpp:149-174. *)
Definition get_sequence_2 (it : list Z) : option (Z * list Z) :=
  match it with
  | [] => None
  | b0 :: it1 =>
      match it1 with
      | [] => None
      | b1 :: _ =>
          if is_trail b1 then Some (Z.land (Z.shiftl b0 6) 0x7ff + Z.land b1 0x3f, it1) else None
      end
  end.

(** [get_sequence_3], utf8/core.hpp:176-209. *)
Definition get_sequence_3 (it : list Z) : option (Z * list Z) :=
  match it with
  | [] => None
  | b0 :: it1 =>
      match it1 with
      | [] => None
      | b1 :: it2 =>
          if is_trail b1 then
            let cp := Z.land (Z.shiftl b0 12) 0xffff + Z.land (Z.shiftl b1 6) 0xfff in
            match it2 with
            | [] => None
            | b2 :: _ => if is_trail b2 then Some (cp + Z.land b2 0x3f, it2) else None
            end
          else None
      end
  end.

(** [get_sequence_4], utf8/core.hpp:211-248. *)
Definition get_sequence_4 (it : list Z) : option (Z * list Z) :=
  match it with
  | [] => None
  | b0 :: it1 =>
      match it1 with
      | [] => None
      | b1 :: it2 =>
          if is_trail b1 then
            let cp := Z.land (Z.shiftl b0 18) 0x1fffff + Z.land (Z.shiftl b1 12) 0x3ffff in
            match it2 with
            | [] => None
            | b2 :: it3 =>
                if is_trail b2 then
                  let cp := cp + Z.land (Z.shiftl b2 6) 0xfff in
                  match it3 with
                  | [] => None
                  | b3 :: _ => if is_trail b3 then Some (cp + Z.land b3 0x3f, it3) else None
                  end
                else None
            end
          else None
      end
  end.

(** [internal::validate_next], utf8/core.hpp:250-301, and [utf8::next],
    utf8/checked.hpp:134-151: the decoded code point and the advanced iterator,
    or [None] when an exception is thrown. *)
Definition next_checked (it : list Z) : res (option (Z * list Z)) :=
  match it with
  | [] => UB (* sequence_length dereferences [it] *)
  | lead :: _ =>
      let length := sequence_length lead in
      let r := if length =? 1 then get_sequence_1 it
               else if length =? 2 then get_sequence_2 it
               else if length =? 3 then get_sequence_3 it
               else if length =? 4 then get_sequence_4 it
               else None in
      Ok match r with
         | None => None
         | Some (cp, it') =>
             if is_code_point_valid cp then
               if negb (is_overlong_sequence cp length) then Some (cp, tl it') else None
             else None
         end
  end.

(** [utf8::distance], utf8/checked.hpp:188-197.  Each [next] consumes at least
    one byte, so [fuel = length] iterations suffice. *)
Fixpoint distance_loop (fuel : nat) (it : list Z) (dist : nat) : res (option nat) :=
  match it with
  | [] => Ok (Some dist)
  | _ :: _ =>
      match fuel with
      | O => Fuel
      | S fuel' =>
          r <- next_checked it ;;
          match r with
          | None => Ok None
          | Some (_, it') => distance_loop fuel' it' (S dist)
          end
      end
  end.
Definition distance (bytes : list Z) : res (option nat) := distance_loop (length bytes) bytes O.

(** [utf8::unchecked::next], utf8/unchecked.hpp:60-89: every dereference past
    the end of the buffer is [UB]. *)
Definition next_unchecked (it : list Z) : res (Z * list Z) :=
  match it with
  | [] => UB
  | b0 :: it1 =>
      let length := sequence_length b0 in
      if length =? 2 then
        match it1 with
        | b1 :: it2 => Ok (Z.land (Z.shiftl b0 6) 0x7ff + Z.land b1 0x3f, it2)
        | [] => UB
        end
      else if length =? 3 then
        match it1 with
        | b1 :: b2 :: it3 =>
            Ok (Z.land (Z.shiftl b0 12) 0xffff + Z.land (Z.shiftl b1 6) 0xfff + Z.land b2 0x3f, it3)
        | _ => UB
        end
      else if length =? 4 then
        match it1 with
        | b1 :: b2 :: b3 :: it4 =>
            Ok (Z.land (Z.shiftl b0 18) 0x1fffff + Z.land (Z.shiftl b1 12) 0x3ffff
                + Z.land (Z.shiftl b2 6) 0xfff + Z.land b3 0x3f, it4)
        | _ => UB
        end
      else Ok (b0, it1)
  end.

(** [doUcs4FromUtf8], utils/StringUtils.cpp:42-59: decode [chars] characters
    into a buffer of [chars + 1]; the result is the buffer without its
    terminator (it may contain NUL characters). *)
Fixpoint doUcs4FromUtf8 (it : list Z) (chars : nat) : res (list Z) :=
  match chars with
  | O => Ok []
  | S n =>
      '(c, it') <- next_unchecked it ;;
      r <- doUcs4FromUtf8 it' n ;;
      Ok (c :: r)
  end.

(** [StringUtils::ucs4FromUtf8(original, byteCount)],
    utils/StringUtils.cpp:61-69; [None] is the NULL result. *)
Definition ucs4FromUtf8 (bytes : list Z) : res (option (list Z)) :=
  d <- distance bytes ;;
  match d with
  | None => Ok None
  | Some chars => w <- doUcs4FromUtf8 bytes chars ;; Ok (Some w)
  end.

(** [StringUtils::ucs4FromUtf8(original, byteCount, maxChars)],
    utils/StringUtils.cpp:71-85.  [size_t] overflow of [maxChars * 6 + 1] is not
    modelled (it needs a text of 2^60 bytes). *)
Definition ucs4FromUtf8_max (bytes : list Z) (maxChars : nat) : res (option (list Z)) :=
  if (maxChars * 6 + 1 <? length bytes)%nat then
    w <- doUcs4FromUtf8 bytes maxChars ;; Ok (Some w)
  else
    d <- distance bytes ;;
    match d with
    | None => Ok None
    | Some chars => w <- doUcs4FromUtf8 bytes (Nat.min chars maxChars) ;; Ok (Some w)
    end.

(** [utf8::append], utf8/checked.hpp:107-131.  The [wchar_t] argument is
    converted to [uint32_t], i.e. taken modulo 2^32. *)
Definition append (c : Z) : option (list Z) :=
  let cp := c mod 2 ^ 32 in
  if negb (is_code_point_valid cp) then None
  else Some (
    if cp <? 0x80 then [cp]
    else if cp <? 0x800 then
      [Z.lor (Z.shiftr cp 6) 0xc0; Z.lor (Z.land cp 0x3f) 0x80]
    else if cp <? 0x10000 then
      [Z.lor (Z.shiftr cp 12) 0xe0; Z.lor (Z.land (Z.shiftr cp 6) 0x3f) 0x80; Z.lor (Z.land cp 0x3f) 0x80]
    else
      [Z.lor (Z.shiftr cp 18) 0xf0; Z.lor (Z.land (Z.shiftr cp 12) 0x3f) 0x80;
       Z.lor (Z.land (Z.shiftr cp 6) 0x3f) 0x80; Z.lor (Z.land cp 0x3f) 0x80]).

(** The loop of [StringUtils::utf8FromUcs4(original, wlen)],
    utils/StringUtils.cpp:99-104. *)
Fixpoint append_all (w : list Z) : option (list Z) :=
  match w with
  | [] => Some []
  | c :: r =>
      match append c with
      | None => None
      | Some b => match append_all r with None => None | Some bs => Some (b ++ bs) end
      end
  end.

(** [StringUtils::utf8FromUcs4(original, wlen)], utils/StringUtils.cpp:91-111.
    The bytes written before an exception also have to fit; [append_prefix]
    is what has been written when the loop stops. *)
Fixpoint append_prefix (w : list Z) : list Z :=
  match w with
  | [] => []
  | c :: r => match append c with None => [] | Some b => b ++ append_prefix r end
  end.
Definition utf8FromUcs4 (w : list Z) : res (option (list Z)) :=
  if (length (append_prefix w) + 1 <=? length w * 6 + 1)%nat then Ok (append_all w) else UB.
