(** * The dictionary compiler voikkovfstc.

    Models the part of [tools/voikkovfstc.cpp] that reads a transducer in text
    form and numbers its symbols; what it writes is in FstFileModel.  A line of
    the input is given as its fields: the numbers of the states (32 bits) and
    the symbols as bytes.  (The program splits a line at white space with
    [istringstream].)  A line has a weight, which is the number that
    [probWeightToLog] or [logWeightToLog] gives (tools/voikkovfstc.cpp:82-88);
    computing it from the text is not modelled. *)
From Verif Require Import Base FstModel FstFileModel.

(** A line of the text form: a final state, or a transition. *)
Inductive att_line : Type :=
| ATT_FINAL (source : nat)
| ATT_TRANSITION (source target : nat) (symIn symOut : list Z).

(** [convertSymbolNames], tools/voikkovfstc.cpp:175-186. *)
Definition convertSymbolNames (input : list Z) : list Z :=
  if zlist_eqb input (wstr "@0@") then []
  else if zlist_eqb input (wstr "@_SPACE_@") then wstr " "
  else if zlist_eqb input (wstr "@_IDENTITY_SYMBOL_@") || zlist_eqb input (wstr "@_UNKNOWN_SYMBOL_@") then wstr "#"
  else input.

(** [ensureSymbolInMap], tools/voikkovfstc.cpp:161-173.  [symVector] is the list
    of the texts of the symbols; the code of a symbol is its index, as
    [uint16_t].  [None] is an error message. *)
Definition ensureSymbolInMap (symStr : list Z) (symVector : list (list Z)) : option (list (list Z)) :=
  match index_of symVector symStr with
  | Some _ => Some symVector
  | None => if zlist_eqb symStr (wstr "[") then None else Some (symVector ++ [symStr])
  end.

(** [symMap[symStr].code] for a symbol that is there. *)
Definition code_of (symVector : list (list Z)) (symStr : list Z) : Z :=
  match index_of symVector symStr with Some i => Z.of_nat i mod 65536 | None => 0 end.

(** Lines 363-370: the source of a line is a known state or the next one. *)
Definition ensure_source (source : nat) (states : list (list atrans)) : option (list (list atrans)) :=
  if (length states <? source)%nat then None
  else Some (if Nat.eqb (length states) source then states ++ [[]] else states).

(** [attStateVector[source].transitions.push_back(t)]. *)
Definition push_transition (source : nat) (t : atrans) (states : list (list atrans)) : list (list atrans) :=
  upd states source (nth source states [] ++ [t]).

(** The body of the loop that reads the input, tools/voikkovfstc.cpp:363-392. *)
Definition read_line (line : att_line) (weight : Z) (symVector : list (list Z)) (states : list (list atrans))
    : option (list (list Z) * list (list atrans)) :=
  match line with
  | ATT_FINAL source =>
      match ensure_source source states with
      | None => None
      | Some states => Some (symVector, push_transition source (mk_at 0xFFFFFFFF 0 0 weight) states)
      end
  | ATT_TRANSITION source target symIn symOut =>
      match ensure_source source states with
      | None => None
      | Some states =>
          let symIn := convertSymbolNames symIn in
          let symOut := convertSymbolNames symOut in
          match ensureSymbolInMap symIn symVector with
          | None => None
          | Some symVector =>
              match ensureSymbolInMap symOut symVector with
              | None => None
              | Some symVector =>
                  Some (symVector, push_transition source (mk_at (code_of symVector symIn) (code_of symVector symOut) target weight) states)
              end
          end
      end
  end.

Fixpoint read_lines (lines : list (att_line * Z)) (symVector : list (list Z)) (states : list (list atrans))
    : option (list (list Z) * list (list atrans)) :=
  match lines with
  | [] => Some (symVector, states)
  | (line, weight) :: r =>
      match read_line line weight symVector states with
      | None => None
      | Some (symVector, states) => read_lines r symVector states
      end
  end.

(** [<] on [std::string]: bytes as unsigned numbers. *)
Fixpoint string_less (a b : list Z) : bool :=
  match a, b with
  | _, [] => false
  | [], _ :: _ => true
  | x :: a, y :: b => if x <? y then true else if y <? x then false else string_less a b
  end.

(** [compareSymbolsForLookupOrder], tools/voikkovfstc.cpp:196-224. *)
Definition symbol_before (a b : list Z) : bool :=
  if zlist_eqb a b then false
  else
    match a, b with
    | [], _ => true
    | _, [] => false
    | x :: a', y :: b' =>
        if (x =? 0x40) && negb (y =? 0x40) then true
        else if (y =? 0x40) && negb (x =? 0x40) then false
        else if (x =? 0x5B) && negb (y =? 0x5B) then false
        else if (y =? 0x5B) && negb (x =? 0x5B) then true
        else if (x =? 0x5B) || (x =? 0x40) then string_less a' b'
        else string_less a b
    end.

(** [symVector] as pairs of code and text, and the call of [std::sort],
    tools/voikkovfstc.cpp:402. *)
Definition with_codes (symVector : list (list Z)) : list (Z * list Z) :=
  combine (map (fun i => Z.of_nat i mod 65536) (seq 0 (length symVector))) symVector.
Fixpoint insert_symbol (s : Z * list Z) (l : list (Z * list Z)) : list (Z * list Z) :=
  match l with
  | [] => [s]
  | u :: r => if symbol_before (snd u) (snd s) then u :: insert_symbol s r else s :: u :: r
  end.
Fixpoint sort_symbols (l : list (Z * list Z)) : list (Z * list Z) :=
  match l with
  | [] => []
  | s :: r => insert_symbol s (sort_symbols r)
  end.

(** [oldToNewSym[code].second], tools/voikkovfstc.cpp:403-408: the pairs of old
    and new code sorted by the old code, of which each number below the number of
    symbols occurs once. *)
Fixpoint new_code (sorted : list (Z * list Z)) (i : Z) (code : Z) : Z :=
  match sorted with
  | [] => 0
  | (c, _) :: r => if c =? code then i mod 65536 else new_code r (i + 1) code
  end.

(** Lines 409-416. *)
Definition renumber (sorted : list (Z * list Z)) (t : atrans) : atrans :=
  if a_in t =? 0xFFFFFFFF then t
  else mk_at (new_code sorted 0 (a_in t)) (new_code sorted 0 (a_out t)) (a_state t) (a_weight t).

(** The whole program, [main], tools/voikkovfstc.cpp:300-508, for a given byte
    order: the contents of the file. *)
Definition main_vfstc (weights byteSwap : bool) (lines : list (att_line * Z)) : option (list Z) :=
  match read_lines lines [[]] [] with
  | None => None
  | Some (symVector, states) =>
      let sorted := sort_symbols (with_codes symVector) in
      compile weights byteSwap (map snd sorted) (map (map (renumber sorted)) states)
  end.

(** Without the option -w lines have no weights, and [t.weight] is 0 (lines 376 and
    388). *)
Definition voikkovfstc (byteSwap : bool) (lines : list att_line) : option (list Z) :=
  main_vfstc false byteSwap (map (fun line => (line, 0)) lines).

(** With the option -w. *)
Definition voikkovfstc_w (byteSwap : bool) (lines : list (att_line * Z)) : option (list Z) :=
  main_vfstc true byteSwap lines.
