(** * How voikkovfstc reads its input.

    Models the loop of [main] in [tools/voikkovfstc.cpp] that splits the input
    into lines and the lines into fields.  The input is a list of bytes.  An
    [istringstream] (C++11, "C" locale) is what is left of the line and its two
    state bits.  Numbers with a decimal point are not modelled: what
    [weightFunc] gives for the text of a weight is a parameter. *)
From Verif Require Import Base FstModel FstFileModel CompilerModel.

(** [isspace] in the "C" locale. *)
Definition is_white (c : Z) : bool := (c =? 0x20) || ((9 <=? c) && (c <=? 13)).

(** [std::getline] until the end of the input: the last line need not have a
    newline at its end. *)
Fixpoint getlines (line : list Z) (input : list Z) : list (list Z) :=
  match input with
  | [] => match line with [] => [] | _ => [line] end
  | c :: r => if c =? 10 then line :: getlines [] r else getlines (line ++ [c]) r
  end.

Record stream : Type := mk_stream { s_rest : list Z; s_eof : bool; s_fail : bool }.
Definition istringstream (line : list Z) : stream := mk_stream line false false.

Fixpoint skip_white (l : list Z) : list Z :=
  match l with
  | c :: r => if is_white c then skip_white r else l
  | [] => []
  end.

(** [istream::sentry]: white space is skipped; [None] when there is nothing to
    be read. *)
Definition sentry (s : stream) : option (list Z) :=
  if s_eof s || s_fail s then None
  else match skip_white (s_rest s) with [] => None | l => Some l end.
(** The stream after a sentry that failed. *)
Definition nothing_read (s : stream) : stream :=
  if s_eof s || s_fail s then mk_stream (s_rest s) (s_eof s) true else mk_stream [] true true.

Definition is_digit (c : Z) : bool := (48 <=? c) && (c <=? 57).
Fixpoint take_digits (l : list Z) : list Z * list Z :=
  match l with
  | c :: r => if is_digit c then let (d, r') := take_digits r in (c :: d, r') else ([], l)
  | [] => ([], [])
  end.

(** [ss >> x] for [uint32_t x] with the value [old]: digits after an optional
    sign.  Without digits [x] becomes 0, and too large a number becomes the
    largest one; both count as failures.  A minus sign negates the number modulo
    2^32. *)
Definition read_unsigned (s : stream) (old : Z) : Z * stream :=
  match sentry s with
  | None => (old, nothing_read s)
  | Some l =>
      let minus := match l with c :: _ => c =? 0x2D | [] => false end in
      let l := match l with c :: r => if (c =? 0x2D) || (c =? 0x2B) then r else l | [] => [] end in
      let (digits, r) := take_digits l in
      let eof := match r with [] => true | _ => false end in
      let v := fold_left (fun v d => 10 * v + (d - 48)) digits 0 in
      match digits with
      | [] => (0, mk_stream r eof true)
      | _ => if 2 ^ 32 - 1 <? v then (2 ^ 32 - 1, mk_stream r eof true)
             else ((if minus then - v else v) mod 2 ^ 32, mk_stream r eof false)
      end
  end.

Fixpoint take_word (l : list Z) : list Z * list Z :=
  match l with
  | c :: r => if is_white c then ([], l) else let (w, r') := take_word r in (c :: w, r')
  | [] => ([], [])
  end.

(** [ss >> x] for [string x] with the value [old]. *)
Definition read_string (s : stream) (old : list Z) : list Z * stream :=
  match sentry s with
  | None => (old, nothing_read s)
  | Some l => let (w, r) := take_word l in (w, mk_stream r (match r with [] => true | _ => false end) false)
  end.

(** A line without the option -w, tools/voikkovfstc.cpp:310-343.  [None] is the
    message "format error". *)
Definition parse_line (line : list Z) : option att_line :=
  let ss := istringstream line in
  let (source, ss) := read_unsigned ss 0 in
  if s_eof ss then Some (ATT_FINAL (Z.to_nat source))
  else
    let (target, ss) := read_unsigned ss 0 in
    let (symIn, ss) := read_string ss [] in
    let (symOut, ss) := read_string ss [] in
    if s_fail ss then None else Some (ATT_TRANSITION (Z.to_nat source) (Z.to_nat target) symIn symOut).

(** A line with the option -w, lines 310-355, 376 and 388.
    [weight_of_text text] is [weightFunc] of the number at the beginning of
    [text], or [None] if there is none; [weight_of_zero] is [weightFunc(0.0)].
    When nothing is left for the weight of a final state, a variable that has no
    value is read. *)
Definition parse_weighted_line (weight_of_text : list Z -> option Z) (weight_of_zero : Z) (line : list Z) : res (option (att_line * Z)) :=
  let ss := istringstream line in
  let (source, ss) := read_unsigned ss 0 in
  if s_eof ss then Ok (Some (ATT_FINAL (Z.to_nat source), 0))
  else
    let (targetOrFinalWeight, ss) := read_string ss [] in
    if s_eof ss then
      match sentry (istringstream targetOrFinalWeight) with
      | None => UB
      | Some text => Ok (Some (ATT_FINAL (Z.to_nat source), match weight_of_text text with Some w => w | None => weight_of_zero end))
      end
    else
      let (target, _) := read_unsigned (istringstream targetOrFinalWeight) 0 in
      let (symIn, ss) := read_string ss [] in
      let (symOut, ss) := read_string ss [] in
      if s_fail ss then Ok None
      else if s_eof ss then Ok None
      else
        match sentry ss with
        | None => Ok None
        | Some text =>
            match weight_of_text text with
            | None => Ok None
            | Some w => Ok (Some (ATT_TRANSITION (Z.to_nat source) (Z.to_nat target) symIn symOut, w))
            end
        end.

(** The loop over the lines, tools/voikkovfstc.cpp:309-392. *)
Fixpoint read_input (parse : list Z -> res (option (att_line * Z))) (lines : list (list Z)) (symVector : list (list Z)) (states : list (list atrans))
    : res (option (list (list Z) * list (list atrans))) :=
  match lines with
  | [] => Ok (Some (symVector, states))
  | line :: r =>
      x <- parse line ;;
      match x with
      | None => Ok None
      | Some (fields, weight) =>
          match read_line fields weight symVector states with
          | None => Ok None
          | Some (symVector, states) => read_input parse r symVector states
          end
      end
  end.

(** The whole program, as [main_vfstc] but from the bytes of the input. *)
Definition main_text (parse : list Z -> res (option (att_line * Z))) (weights byteSwap : bool) (input : list Z) : res (option (list Z)) :=
  x <- read_input parse (getlines [] input) [[]] [] ;;
  Ok (match x with
      | None => None
      | Some (symVector, states) =>
          let sorted := sort_symbols (with_codes symVector) in
          compile weights byteSwap (map snd sorted) (map (map (renumber sorted)) states)
      end).
Definition voikkovfstc_text (byteSwap : bool) (input : list Z) : res (option (list Z)) :=
  main_text (fun line => Ok (option_map (fun fields => (fields, 0)) (parse_line line))) false byteSwap input.
Definition voikkovfstc_w_text (weight_of_text : list Z -> option Z) (weight_of_zero : Z) (byteSwap : bool) (input : list Z) : res (option (list Z)) :=
  main_text (parse_weighted_line weight_of_text weight_of_zero) true byteSwap input.
