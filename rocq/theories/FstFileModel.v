(** * Transducer files.

    Models loading of the tables by [fst/UnweightedTransducer.cpp] and
    [fst/WeightedTransducer.cpp], and the part of [tools/voikkovfstc.cpp] that
    writes them.  A file is a list of bytes.  The host is little-endian and its
    ABI is the one of the supported compilers: bit-fields are allocated from
    the least significant bit, and no structure has padding (the compiler
    checks the sizes, tools/voikkovfstc.cpp:248-250). *)
From Verif Require Import Base Utf8Model FstModel.

(** ** Numbers in memory *)

Definition le16 (x : Z) : list Z := [x mod 256; x / 256 mod 256].
Definition le32 (x : Z) : list Z := [x mod 256; x / 256 mod 256; x / 65536 mod 256; x / 16777216 mod 256].
Definition of_le16 (b0 b1 : Z) : Z := b0 + 256 * b1.
Definition of_le32 (b0 b1 b2 b3 : Z) : Z := b0 + 256 * b1 + 65536 * b2 + 16777216 * b3.

(** Conversion to [int16_t]. *)
Definition to_int16 (x : Z) : Z := if x mod 65536 <? 32768 then x mod 65536 else x mod 65536 - 65536.

(** The three [swap] functions, fst/WeightedTransducer.cpp:61-74; the same are in
    fst/UnweightedTransducer.cpp:60-69 and tools/voikkovfstc.cpp:54-76.  The
    operands are promoted to [int]; shifting a negative [int] right keeps its
    sign, shifting it left drops the upper bits. *)
Definition swap16 (x : Z) : Z := Z.lor (Z.shiftr x 8) (Z.shiftl x 8) mod 65536.
Definition swap16s (x : Z) : Z := to_int16 (Z.lor (Z.shiftr x 8) (Z.shiftl x 8)).
Definition swap32 (x : Z) : Z :=
  Z.lor (Z.lor (Z.lor (Z.shiftr x 24) (Z.land (Z.shiftl x 8) 0x00FF0000)) (Z.land (Z.shiftr x 8) 0x0000FF00)) (Z.shiftl x 24) mod 2 ^ 32.

(** Swapping a 24 bit number, fst/UnweightedTransducer.cpp:113 and
    tools/voikkovfstc.cpp:117. *)
Definition swap24 (ts : Z) : Z :=
  Z.lor (Z.lor (Z.land (Z.shiftl ts 16) 0x00FF0000) (Z.land ts 0x0000FF00)) (Z.land (Z.shiftr ts 16) 0x000000FF).

(** ** Cells in memory *)

(** [Transition], fst/Transition.hpp:36-45, 8 bytes. *)
Definition cell_bytes (c : cell) : list Z :=
  le16 (symIn c) ++ le16 (symOut c) ++ le32 (targetState c mod 16777216 + 16777216 * (moreTransitions c mod 256)).
Definition bytes_cell (b0 b1 b2 b3 b4 b5 b6 b7 : Z) : cell :=
  let info := of_le32 b4 b5 b6 b7 in
  mk_cell (of_le16 b0 b1) (of_le16 b2 b3) (info mod 16777216) (info / 16777216).

(** [WeightedTransition], fst/WeightedTransition.hpp:35-42, 16 bytes. *)
Record wcell : Type := mk_wcell { w_symIn : Z; w_symOut : Z; w_target : Z; w_weight : Z; w_more : Z; w_reserved : Z }.
Definition wcell_bytes (c : wcell) : list Z :=
  le32 (w_symIn c) ++ le32 (w_symOut c) ++ le32 (w_target c) ++ le16 (w_weight c) ++ [w_more c mod 256; w_reserved c mod 256].
Definition bytes_wcell (b0 b1 b2 b3 b4 b5 b6 b7 b8 b9 b10 b11 b12 b13 b14 b15 : Z) : wcell :=
  mk_wcell (of_le32 b0 b1 b2 b3) (of_le32 b4 b5 b6 b7) (of_le32 b8 b9 b10 b11) (to_int16 (of_le16 b12 b13)) b14 b15.

(** The cells of the table, from [transitionStart] to the end of the file. *)
Fixpoint bytes_cells (bytes : list Z) : list cell :=
  match bytes with
  | b0 :: b1 :: b2 :: b3 :: b4 :: b5 :: b6 :: b7 :: rest => bytes_cell b0 b1 b2 b3 b4 b5 b6 b7 :: bytes_cells rest
  | _ => []
  end.
Fixpoint bytes_wcells (bytes : list Z) : list wcell :=
  match bytes with
  | b0 :: b1 :: b2 :: b3 :: b4 :: b5 :: b6 :: b7 :: b8 :: b9 :: b10 :: b11 :: b12 :: b13 :: b14 :: b15 :: rest =>
      bytes_wcell b0 b1 b2 b3 b4 b5 b6 b7 b8 b9 b10 b11 b12 b13 b14 b15 :: bytes_wcells rest
  | _ => []
  end.

(** ** Changing the byte order *)

(** The loop over the cells, fst/UnweightedTransducer.cpp:100-119.  The new file
    has the same length, so the loop runs until the old one is at its end; a
    part of a cell there is read past the end. *)
Fixpoint swap_cells (nextIsOverflow : bool) (bytes : list Z) : res (list Z) :=
  match bytes with
  | [] => Ok []
  | b0 :: b1 :: b2 :: b3 :: b4 :: b5 :: b6 :: b7 :: rest =>
      if nextIsOverflow then
        r <- swap_cells false rest ;;
        Ok (le32 (swap32 (of_le32 b0 b1 b2 b3)) ++ [b4; b5; b6; b7] ++ r)
      else
        let t := bytes_cell b0 b1 b2 b3 b4 b5 b6 b7 in
        let t' := mk_cell (swap16 (symIn t)) (swap16 (symOut t)) (swap24 (targetState t)) (moreTransitions t) in
        r <- swap_cells (moreTransitions t' =? 0xFF) rest ;;
        Ok (cell_bytes t' ++ r)
  | _ => UB
  end.

(** The same in fst/WeightedTransducer.cpp:105-124. *)
Fixpoint swap_wcells (nextIsOverflow : bool) (bytes : list Z) : res (list Z) :=
  match bytes with
  | [] => Ok []
  | b0 :: b1 :: b2 :: b3 :: b4 :: b5 :: b6 :: b7 :: b8 :: b9 :: b10 :: b11 :: b12 :: b13 :: b14 :: b15 :: rest =>
      if nextIsOverflow then
        r <- swap_wcells false rest ;;
        Ok (le32 (swap32 (of_le32 b0 b1 b2 b3)) ++ [b4; b5; b6; b7; b8; b9; b10; b11; b12; b13; b14; b15] ++ r)
      else
        let t := bytes_wcell b0 b1 b2 b3 b4 b5 b6 b7 b8 b9 b10 b11 b12 b13 b14 b15 in
        let t' := mk_wcell (swap32 (w_symIn t)) (swap32 (w_symOut t)) (swap32 (w_target t)) (swap16s (w_weight t)) (w_more t) (w_reserved t) in
        r <- swap_wcells (w_more t' =? 0xFF) rest ;;
        Ok (wcell_bytes t' ++ r)
  | _ => UB
  end.

(** The bytes up to and with the first NUL, and those after it ([strlen] reads
    on until there is one). *)
Fixpoint take_string (bytes : list Z) : res (list Z * list Z) :=
  match bytes with
  | [] => UB
  | b :: rest => if b =? 0 then Ok ([], rest) else '(s, r) <- take_string rest ;; Ok (b :: s, r)
  end.

(** Copying the symbols, fst/UnweightedTransducer.cpp:83-88. *)
Fixpoint copy_symbols (n : nat) (bytes : list Z) : res (list Z * list Z) :=
  match n with
  | O => Ok ([], bytes)
  | S n =>
      '(s, r) <- take_string bytes ;;
      '(copied, r) <- copy_symbols n r ;;
      Ok (s ++ [0] ++ copied, r)
  end.

(** [byteSwapTransducer], fst/UnweightedTransducer.cpp:71-123 with [size = 8] and
    fst/WeightedTransducer.cpp:76-128 with [size = 16].  The header of the new
    file is left uninitialised (-1). *)
Definition byteSwapTransducer (weighted : bool) (file : list Z) : res (list Z) :=
  let size := if weighted then 16%nat else 8%nat in
  match skipn 16 file with
  | b0 :: b1 :: rest =>
      let symbolCount := swap16 (of_le16 b0 b1) in
      '(symbols, rest) <- copy_symbols (Z.to_nat symbolCount) rest ;;
      let newPos := (18 + length symbols)%nat in
      let padding := (size - newPos mod size)%nat in
      let padding := if (padding <? size)%nat then padding else 0%nat in
      if (length rest <? padding)%nat then UB
      else
        cells <- (if weighted then swap_wcells else swap_cells) false (skipn padding rest) ;;
        Ok (repeat (-1) 16 ++ le16 symbolCount ++ symbols ++ repeat 0 padding ++ cells)
  | _ => UB
  end.

(** [checkNeedForByteSwapping], fst/Transducer.cpp:163-179; [None] is an
    exception. *)
Definition checkNeedForByteSwapping (file : list Z) : res (option bool) :=
  if (length file <? 8)%nat then UB
  else
    let head := firstn 8 file in
    if zlist_eqb head (le32 0x00013A6E ++ le32 0x000351FA) then Ok (Some false)
    else if zlist_eqb head (le32 0x6E3A0100 ++ le32 0xFA510300) then Ok (Some true)
    else Ok None.

(** ** The symbol table *)

(** Position of a string in a list, for the maps from names to consecutive
    numbers. *)
Fixpoint index_of (l : list (list Z)) (s : list Z) : option nat :=
  match l with
  | [] => None
  | x :: r => if zlist_eqb x s then Some 0%nat else option_map S (index_of r s)
  end.

(** [find] of a character in a string, and the parts before and after it. *)
Fixpoint split_at (c : Z) (s : list Z) : option (list Z * list Z) :=
  match s with
  | [] => None
  | x :: r => if x =? c then Some ([], r) else match split_at c r with Some (a, b) => Some (x :: a, b) | None => None end
  end.

(** [getDiacriticOperation], fst/Transducer.cpp:62-123; [None] is an exception.
    The maps [features] and [values] give consecutive numbers to names; they are
    the lists of names here. *)
Definition getDiacriticOperation (symbol : list Z) (features values : list (list Z))
    : option (OpFeatureValue * list (list Z) * list (list Z)) :=
  let op :=
    match nth_error symbol 1 with
    | Some c => if c =? 0x50 then Operation_P else if c =? 0x43 then Operation_C else if c =? 0x55 then Operation_U
                else if c =? 0x52 then Operation_R else Operation_D
    | None => Operation_D
    end in
  if (length symbol <=? 4)%nat then None
  else
    let featureAndValue := firstn (length symbol - 4) (skipn 3 symbol) in
    let '(feature, value) :=
      match split_at 0x2E featureAndValue with
      | Some (f, v) => (f, v)
      | None => (featureAndValue, wstr "@")
      end in
    let '(fi, features) := match index_of features feature with Some i => (i, features) | None => (length features, features ++ [feature]) end in
    let '(vi, values) := match index_of values value with Some i => (i, values) | None => (length values, values ++ [value]) end in
    Some (mk_ofv op fi (Z.of_nat vi), features, values).

(** The variables of the loop over the symbols. *)
Record symtab : Type := mk_symtab {
  st_strings : list (list Z);
  st_diacritics : list OpFeatureValue;
  st_features : list (list Z);
  st_values : list (list Z);
  st_chars : list (Z * Z);
  st_firstNormal : Z;
  st_firstMulti : Z
}.
Definition empty_symtab : symtab := mk_symtab [] [] [] [[]; wstr "@"] [] 0 0.

(** One round of the loop for [i > 0], fst/UnweightedTransducer.cpp:159-177 (the
    same in fst/WeightedTransducer.cpp:165-183).  [None] is an exception.  The
    length of a symbol that is not valid UTF-8 is that of a NULL pointer. *)
Definition load_symbol (i : Z) (symbol : list Z) (ucs4 : option (list Z)) (s : symtab) : res (option symtab) :=
  let flag := (st_firstNormal s =? 0) && (match symbol with c :: _ => c =? 0x40 | [] => false end) in
  let diacritic := if flag then option_map (fun '(o, f, v) => (st_diacritics s ++ [o], f, v)) (getDiacriticOperation symbol (st_features s) (st_values s))
                   else Some (st_diacritics s, st_features s, st_values s) in
  match diacritic with
  | None => Ok None
  | Some (dias, features, values) =>
      let '(fnc, fmc) :=
        if st_firstNormal s =? 0 then (if flag then 0 else i, st_firstMulti s)
        else if (st_firstMulti s =? 0) && (match symbol with c :: _ => c =? 0x5B | [] => false end) then (st_firstNormal s, i)
        else (st_firstNormal s, st_firstMulti s) in
      match ucs4 with
      | None => UB
      | Some w =>
          let first := match w with c :: _ => c | [] => 0 end in
          let chars := if (0 <? fnc) && (fmc =? 0) then match find_symbol (st_chars s) first with Some _ => st_chars s | None => st_chars s ++ [(first, i)] end
                       else st_chars s in
          Ok (Some (mk_symtab (st_strings s ++ [w]) dias features values chars fnc fmc))
      end
  end.

(** The loop, fst/UnweightedTransducer.cpp:151-178, with [n] symbols left. *)
Fixpoint load_symbols (n : nat) (i : Z) (bytes : list Z) (s : symtab) : res (option (symtab * list Z)) :=
  match n with
  | O => Ok (Some (s, bytes))
  | S n =>
      '(symbol, rest) <- take_string bytes ;;
      ucs4 <- ucs4FromUtf8 symbol ;;
      if i =? 0 then
        load_symbols n (i + 1) (skipn 1 bytes)
          (mk_symtab (st_strings s ++ [[]]) (st_diacritics s ++ [mk_ofv Operation_P 0 0]) (st_features s) (st_values s) (st_chars s)
             (st_firstNormal s) (st_firstMulti s))
      else
        o <- load_symbol i symbol ucs4 s ;;
        match o with
        | None => Ok None
        | Some s => load_symbols n (i + 1) rest s
        end
  end.

(** ** The constructors *)

Inductive loaded (A : Type) : Type :=
| Loaded (a : A)
| Exception.
Arguments Loaded {A} a.
Arguments Exception {A}.

(** What both constructors do up to the transitions,
    fst/UnweightedTransducer.cpp:125-188 and fst/WeightedTransducer.cpp:130-193.
    The result is the symbol table and the bytes from [transitionStart] on. *)
Definition load_tables (weighted : bool) (file : list Z) : res (loaded (symtab * list Z)) :=
  let size := if weighted then 16%nat else 8%nat in
  b <- checkNeedForByteSwapping file ;;
  match b with
  | None => Ok Exception
  | Some byteSwapped =>
      kind <- rd file 8 ;;
      if xorb weighted (kind =? 1) then Ok Exception
      else
        file <- (if byteSwapped : bool then byteSwapTransducer weighted file else Ok file) ;;
        match skipn 16 file with
        | b0 :: b1 :: bytes =>
            r <- load_symbols (Z.to_nat (of_le16 b0 b1)) 0 bytes empty_symtab ;;
            match r with
            | None => Ok Exception
            | Some (s, rest) =>
                let partial := ((length file - length rest) mod size)%nat in
                Ok (Loaded (s, if (0 <? partial)%nat then skipn (size - partial) rest else rest))
            end
        | _ => UB
        end
  end.

(** [UnweightedTransducer::UnweightedTransducer], fst/UnweightedTransducer.cpp:125-189. *)
Definition load (file : list Z) : res (loaded transducer) :=
  r <- load_tables false file ;;
  match r with
  | Exception => Ok Exception
  | Loaded (s, bytes) =>
      Ok (Loaded (mk_fst (bytes_cells bytes) (st_chars s) (st_strings s) (st_diacritics s) (length (st_features s)) (st_firstNormal s)
                    (Z.of_nat (length (st_strings s)))))
  end.

(** What the constructor leaves in a [WeightedTransducer],
    fst/WeightedTransducer.hpp:37-44. *)
Record wtransducer : Type := mk_wfst {
  wtransitions : list wcell;
  w_stringToSymbol : list (Z * Z);
  w_symbolToString : list (list Z);
  w_symbolToDiacritic : list OpFeatureValue;
  w_featureCount : nat;
  w_firstNormalChar : Z
}.

(** [WeightedTransducer::WeightedTransducer], fst/WeightedTransducer.cpp:130-194. *)
Definition load_weighted (file : list Z) : res (loaded wtransducer) :=
  r <- load_tables true file ;;
  match r with
  | Exception => Ok Exception
  | Loaded (s, bytes) =>
      Ok (Loaded (mk_wfst (bytes_wcells bytes) (st_chars s) (st_strings s) (st_diacritics s) (length (st_features s)) (st_firstNormal s)))
  end.

(** ** Writing a file: the compiler *)

(** A transition of the compiler: [WeightedTransition] and the number of its
    target state, tools/voikkovfstc.cpp:49-52. *)
Record atrans : Type := mk_at { a_in : Z; a_out : Z; a_state : nat; a_weight : Z }.

(** [compareTransitionsForFileOrder], tools/voikkovfstc.cpp:226-245. *)
Definition file_before (a b : atrans) : bool :=
  if a_in a =? a_in b then false
  else if a_in a =? 0 then true
  else if a_in b =? 0 then false
  else if a_in a =? 0xFFFFFFFF then true
  else if a_in b =? 0xFFFFFFFF then false
  else a_in a <? a_in b.

(** [std::sort], tools/voikkovfstc.cpp:487.  The order of transitions with the
    same input is unspecified; the model keeps it. *)
Fixpoint insert_transition (t : atrans) (l : list atrans) : list atrans :=
  match l with
  | [] => [t]
  | u :: r => if file_before u t then u :: insert_transition t r else t :: u :: r
  end.
Fixpoint sort_transitions (l : list atrans) : list atrans :=
  match l with
  | [] => []
  | t :: r => insert_transition t (sort_transitions r)
  end.

(** Where the states start, tools/voikkovfstc.cpp:424-441. *)
Definition state_size (ts : list atrans) : nat :=
  if (length ts <=? 255)%nat then length ts else S (length ts).
Fixpoint state_offsets (offset : nat) (states : list (list atrans)) : list nat :=
  match states with
  | [] => []
  | ts :: r => offset :: state_offsets (offset + state_size ts) r
  end.

(** [writeTrans] and [writeOverflow] without weights, tools/voikkovfstc.cpp:106-124
    and 140-153. *)
Definition write_cell (doSwap : bool) (c : cell) : list Z :=
  if doSwap then cell_bytes (mk_cell (swap16 (symIn c)) (swap16 (symOut c)) (swap24 (targetState c)) (moreTransitions c))
  else cell_bytes c.
Definition write_overflow (doSwap : bool) (n : Z) : list Z :=
  le32 (if doSwap then swap32 n else n) ++ [0; 0; 0; 0].

(** The same with weights, tools/voikkovfstc.cpp:91-105 and 128-139.  The byte
    [reserved] is not initialised when the order is not swapped; it is never
    used, and it is 0 here. *)
Definition write_wcell (doSwap : bool) (c : wcell) : list Z :=
  if doSwap then wcell_bytes (mk_wcell (swap32 (w_symIn c)) (swap32 (w_symOut c)) (swap32 (w_target c)) (swap16s (w_weight c)) (w_more c) 0)
  else wcell_bytes c.
Definition write_woverflow (doSwap : bool) (n : Z) : list Z :=
  le32 (if doSwap then swap32 n else n) ++ [0; 0; 0; 0; 0; 0; 0; 0; 0; 0; 0; 0].

(** Writing a state, tools/voikkovfstc.cpp:481-505: [None] is an error message. *)
Definition to_cell (offsets : list nat) (more : Z) (t : atrans) : option cell :=
  match nth_error offsets (a_state t) with
  | None => None
  | Some o => Some (mk_cell (a_in t mod 65536) (a_out t mod 65536) (Z.of_nat o mod 16777216) more)
  end.
Definition to_wcell (offsets : list nat) (more : Z) (t : atrans) : option wcell :=
  match nth_error offsets (a_state t) with
  | None => None
  | Some o => Some (mk_wcell (a_in t) (a_out t) (Z.of_nat o) (a_weight t) more 0)
  end.

Fixpoint write_all {A B} (f : A -> option (list B)) (l : list A) : option (list B) :=
  match l with
  | [] => Some []
  | x :: r => match f x, write_all f r with Some a, Some b => Some (a ++ b) | _, _ => None end
  end.

Definition write_state (doSwap : bool) (offsets : list nat) (ts : list atrans) : option (list Z) :=
  match sort_transitions ts with
  | [] => None
  | t :: rest =>
      let tCount := Z.of_nat (length ts) in
      match to_cell offsets (if 255 <? tCount then 255 else tCount - 1) t,
            write_all (fun t => option_map (write_cell doSwap) (to_cell offsets 0 t)) rest with
      | Some c, Some bytes =>
          Some (write_cell doSwap c ++ (if 255 <? tCount then write_overflow doSwap (tCount - 1) else []) ++ bytes)
      | _, _ => None
      end
  end.

Definition write_wstate (doSwap : bool) (offsets : list nat) (ts : list atrans) : option (list Z) :=
  match sort_transitions ts with
  | [] => None
  | t :: rest =>
      let tCount := Z.of_nat (length ts) in
      match to_wcell offsets (if 255 <? tCount then 255 else tCount - 1) t,
            write_all (fun t => option_map (write_wcell doSwap) (to_wcell offsets 0 t)) rest with
      | Some c, Some bytes =>
          Some (write_wcell doSwap c ++ (if 255 <? tCount then write_woverflow doSwap (tCount - 1) else []) ++ bytes)
      | _, _ => None
      end
  end.

(** Header, symbols and padding, tools/voikkovfstc.cpp:451-478. *)
Definition write_head (weighted doSwap : bool) (symbols : list (list Z)) : list Z :=
  let size := if weighted then 16%nat else 8%nat in
  let count := Z.of_nat (length symbols) mod 65536 in
  let head :=
    le32 (if doSwap then swap32 0x00013A6E else 0x00013A6E) ++ le32 (if doSwap then swap32 0x000351FA else 0x000351FA) ++
    [if weighted then 1 else 0] ++ repeat 0 7 ++ le16 (if doSwap then swap16 count else count) ++
    flat_map (fun s => s ++ [0]) symbols in
  let partial := (length head mod size)%nat in
  head ++ (if (0 <? partial)%nat then repeat 0 (size - partial) else []).

(** The output of the compiler, from the symbols in their final order on. *)
Definition compile (weighted doSwap : bool) (symbols : list (list Z)) (states : list (list atrans)) : option (list Z) :=
  let offsets := state_offsets 0 states in
  match write_all (if weighted then write_wstate doSwap offsets else write_state doSwap offsets) states with
  | None => None
  | Some bytes => Some (write_head weighted doSwap symbols ++ bytes)
  end.
