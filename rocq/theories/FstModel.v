(** * The unweighted transducer.

    Models [fst/UnweightedTransducer.cpp] (the search), [fst/Configuration.cpp]
    and the data of [fst/Transducer.hpp] and [fst/Transition.hpp].  Loading of
    the tables from a file is modelled separately. *)
From Verif Require Import Base.

(** [Transition], fst/Transition.hpp:35-44: 16 + 16 + 24 + 8 bits, the values
    as unsigned integers. *)
Record cell : Type := mk_cell { symIn : Z; symOut : Z; targetState : Z; moreTransitions : Z }.

(** [reinterpret_cast<OverflowCell *>], fst/Transition.hpp:46-49: the first
    field of an overflow cell covers [symIn] and [symOut].  (Little-endian
    host; a table whose byte order is that of the host gives the same number.) *)
Definition overflow (c : cell) : Z := symIn c + 65536 * symOut c.

(** fst/Transducer.hpp:42-54. *)
Inductive Operation : Type := Operation_P | Operation_C | Operation_U | Operation_R | Operation_D.
Record OpFeatureValue : Type := mk_ofv { ofv_op : Operation; ofv_feature : nat; ofv_value : Z }.
Definition FlagValueNeutral : Z := 0.
Definition FlagValueAny : Z := 1.
Definition MAX_LOOP_COUNT : nat := Z.to_nat 100000.

(** What the constructor leaves in the transducer, fst/Transducer.hpp:59-75 and
    fst/UnweightedTransducer.hpp:43-48.  [transitions] is the memory from
    [transitionStart] to the end of the file.  [symbolToString] gives the
    strings of the symbols; [symbolStringLength] is their length. *)
Record transducer : Type := mk_fst {
  transitions : list cell;
  stringToSymbol : list (Z * Z);
  symbolToString : list (list Z);
  symbolToDiacritic : list OpFeatureValue;
  flagDiacriticFeatureCount : nat;
  firstNormalChar : Z;
  unknownSymbolOrdinal : Z
}.

(** [Configuration], fst/Configuration.hpp:36-50.  Memory that was not
    initialised is -1.  The [int] counters are naturals; a decrement below zero
    is [UB], because the counter is used as an index by the next operation. *)
Record configuration : Type := mk_conf {
  bufferSize : nat;
  stackDepth : nat;
  flagDepth : nat;
  inputDepth : nat;
  stateIndexStack : list Z;
  currentTransitionStack : list Z;
  inputSymbolStack : list Z;
  outputSymbolStack : list Z;
  currentFlagValues : list Z;
  updatedFlagValue : list Z;
  updatedFlagFeature : list Z;
  inputLength : nat
}.

(** The constructor of [Configuration], fst/Configuration.cpp:38-55. *)
Definition new_configuration (features size : nat) : configuration :=
  let arr := repeat (-1) size in
  let flagArr := if Nat.eqb features 0 then [] else arr in
  mk_conf size 0 0 0 arr arr arr arr (repeat FlagValueNeutral features) flagArr flagArr 0.

(** Reading a value that will be used as an unsigned number: using memory that
    was not initialised is [UB]. *)
Definition rdu (buf : list Z) (i : nat) : res nat :=
  v <- rd buf i ;; if v <? 0 then UB else Ok (Z.to_nat v).

(** [std::map::find] on [stringToSymbol]. *)
Fixpoint find_symbol (l : list (Z * Z)) (c : Z) : option Z :=
  match l with
  | [] => None
  | (k, v) :: r => if k =? c then Some v else find_symbol r c
  end.

(** The loop of [prepare], fst/UnweightedTransducer.cpp:205-215. *)
Fixpoint prepare_loop (T : transducer) (input : list Z) (syms : list Z) (len : nat) (allKnown : bool)
    : res (list Z * nat * bool) :=
  match input with
  | [] => Ok (syms, len, allKnown)
  | c :: rest =>
      match find_symbol (stringToSymbol T) c with
      | None => s <- wr syms len (unknownSymbolOrdinal T) ;; prepare_loop T rest s (S len) false
      | Some v => s <- wr syms len v ;; prepare_loop T rest s (S len) allKnown
      end
  end.

(** [UnweightedTransducer::prepare], fst/UnweightedTransducer.cpp:197-217.
    [currentFlagValues] is left alone. *)
Definition prepare (T : transducer) (c : configuration) (input : list Z) : res (bool * configuration) :=
  st <- wr (stateIndexStack c) 0 0 ;;
  ct <- wr (currentTransitionStack c) 0 0 ;;
  '(syms, len, known) <- prepare_loop T input (inputSymbolStack c) 0 true ;;
  Ok (known, mk_conf (bufferSize c) 0 0 0 st ct syms (outputSymbolStack c) (currentFlagValues c)
               (updatedFlagValue c) (updatedFlagFeature c) len).

(** [getMaxTc], fst/UnweightedTransducer.cpp:219-226. *)
Definition getMaxTc (T : transducer) (head : nat) : res nat :=
  h <- rd (transitions T) head ;;
  if moreTransitions h =? 255 then
    oc <- rd (transitions T) (head + 1) ;;
    Ok (Z.to_nat ((overflow oc + 1) mod 2 ^ 32))
  else Ok (Z.to_nat (moreTransitions h)).

(** The switch of [flagDiacriticCheck], fst/UnweightedTransducer.cpp:239-272:
    [None] is [return false], [Some None] leaves the value, [Some (Some v)]
    updates it. *)
Definition flag_operation (o : OpFeatureValue) (currentValue : Z) : option (option Z) :=
  match ofv_op o with
  | Operation_P => Some (Some (ofv_value o))
  | Operation_C => Some (Some FlagValueNeutral)
  | Operation_U =>
      if negb (currentValue =? 0) then
        if negb (currentValue =? ofv_value o) then None else Some None
      else Some (Some (ofv_value o))
  | Operation_R =>
      if (ofv_value o =? FlagValueAny) && (currentValue =? FlagValueNeutral) then None
      else if negb (ofv_value o =? FlagValueAny) && negb (currentValue =? ofv_value o) then None
      else Some None
  | Operation_D =>
      if ((ofv_value o =? FlagValueAny) && negb (currentValue =? FlagValueNeutral)) || (currentValue =? ofv_value o)
      then None
      else Some None
  end.

(** [flagDiacriticCheck], fst/UnweightedTransducer.cpp:228-283: [None] is
    [false]. *)
Definition flagDiacriticCheck (T : transducer) (c : configuration) (symbol : Z) : res (option configuration) :=
  if Nat.eqb (flagDiacriticFeatureCount T) 0 || (symbol =? 0) then Ok (Some c)
  else
    o <- (if symbol <? 0 then UB else rd (symbolToDiacritic T) (Z.to_nat symbol)) ;;
    currentValue <- rd (currentFlagValues c) (ofv_feature o) ;;
    match flag_operation o currentValue with
    | None => Ok None
    | Some update =>
        ff <- wr (updatedFlagFeature c) (flagDepth c) (Z.of_nat (ofv_feature o)) ;;
        fv <- wr (updatedFlagValue c) (flagDepth c) currentValue ;;
        flags <- match update with
                 | Some v => wr (currentFlagValues c) (ofv_feature o) v
                 | None => Ok (currentFlagValues c)
                 end ;;
        Ok (Some (mk_conf (bufferSize c) (stackDepth c) (S (flagDepth c)) (inputDepth c) (stateIndexStack c)
                    (currentTransitionStack c) (inputSymbolStack c) (outputSymbolStack c) flags fv ff (inputLength c)))
    end.

(** The loop that writes the output, fst/UnweightedTransducer.cpp:307-317, over
    the symbols of the stack.  [out] is what is in the buffer of [bufferLen]
    characters so far; [None] is [return false].  The terminating NUL is
    written after it. *)
Fixpoint write_output (T : transducer) (syms : list Z) (bufferLen : nat) (out : list Z) : res (option (list Z)) :=
  match syms with
  | [] => if (length out <? bufferLen)%nat then Ok (Some out) else UB
  | s :: rest =>
      str <- (if s <? 0 then UB else rd (symbolToString T) (Z.to_nat s)) ;;
      if (bufferLen <=? length out + length str + 1)%nat then Ok None
      else write_output T rest bufferLen (out ++ str)
  end.

(** How a search step ends.  The caller only sees [true] for [Found] and
    [false] for all others; the reasons are kept apart for the specification. *)
Inductive outcome : Type :=
| Found (output : list Z) (prefixLength : nat)
| End            (* fst/UnweightedTransducer.cpp:347-350 *)
| TooLong        (* lines 310-313 *)
| TooDeep        (* lines 330-333 *)
| LoopLimit.     (* line 369 *)

Inductive scanned : Type :=
| Exhausted
| Down (c : configuration)
| Stop (o : outcome) (c : configuration).

(** Going down a transition, fst/UnweightedTransducer.cpp:329-343; [ct] is the
    index of the transition [t]. *)
Definition go_down (T : transducer) (c : configuration) (ct : nat) (t : cell) : res scanned :=
  if Nat.eqb (stackDepth c + 2) (bufferSize c) then Ok (Stop TooDeep c)
  else
    let d := stackDepth c in
    outs <- wr (outputSymbolStack c) d (if firstNormalChar T <=? symOut t then symOut t else 0) ;;
    cts <- wr (currentTransitionStack c) d (Z.of_nat ct) ;;
    sts <- wr (stateIndexStack c) (S d) (targetState t) ;;
    cts <- wr cts (S d) (targetState t) ;;
    Ok (Down (mk_conf (bufferSize c) (S d) (flagDepth c)
                (if firstNormalChar T <=? symIn t then S (inputDepth c) else inputDepth c)
                sts cts (inputSymbolStack c) outs (currentFlagValues c) (updatedFlagValue c) (updatedFlagFeature c)
                (inputLength c))).

(** The inner loop, fst/UnweightedTransducer.cpp:296-346.  [prefix] is
    [prefixLength != 0]. *)
Fixpoint scan (fuel : nat) (T : transducer) (prefix : bool) (bufferLen : nat) (c : configuration) (maxTc tc ct : nat)
    : res scanned :=
  if negb (tc <=? maxTc)%nat then Ok Exhausted
  else
    match fuel with
    | O => Fuel
    | S f =>
        let skip := Nat.eqb tc 1 && (255 <=? maxTc)%nat in
        let tc := if skip then S tc else tc in
        let ct := if skip then S ct else ct in
        t <- rd (transitions T) ct ;;
        if symIn t =? 0xFFFF then
          if Nat.eqb (inputDepth c) (inputLength c) || prefix then
            syms <- (if (stackDepth c <=? length (outputSymbolStack c))%nat
                     then Ok (firstn (stackDepth c) (outputSymbolStack c)) else UB) ;;
            o <- write_output T syms bufferLen [] ;;
            match o with
            | None => Ok (Stop TooLong c)
            | Some out =>
                cts <- wr (currentTransitionStack c) (stackDepth c) (Z.of_nat (S ct)) ;;
                Ok (Stop (Found out (inputDepth c))
                      (mk_conf (bufferSize c) (stackDepth c) (flagDepth c) (inputDepth c) (stateIndexStack c) cts
                         (inputSymbolStack c) (outputSymbolStack c) (currentFlagValues c) (updatedFlagValue c)
                         (updatedFlagFeature c) (inputLength c)))
            end
          else scan f T prefix bufferLen c maxTc (S tc) (S ct)
        else
          matches <- (if (inputDepth c <? inputLength c)%nat
                      then s <- rdu (inputSymbolStack c) (inputDepth c) ;; Ok (Z.of_nat s =? symIn t)
                      else Ok false) ;;
          if (matches : bool) then go_down T c ct t
          else
            o <- (if symIn t <? firstNormalChar T then flagDiacriticCheck T c (symIn t) else Ok None) ;;
            match o with
            | Some c' => go_down T c' ct t
            | None => scan f T prefix bufferLen c maxTc (S tc) (S ct)
            end
    end.

(** Going up, fst/UnweightedTransducer.cpp:351-364, for a positive depth. *)
Definition go_up (T : transducer) (c : configuration) : res configuration :=
  match stackDepth c with
  | O => UB
  | S d =>
      ct <- rdu (currentTransitionStack c) d ;;
      t <- rd (transitions T) ct ;;
      cts <- wr (currentTransitionStack c) d (Z.of_nat (S ct)) ;;
      if firstNormalChar T <=? symIn t then
        match inputDepth c with
        | O => UB
        | S i =>
            Ok (mk_conf (bufferSize c) d (flagDepth c) i (stateIndexStack c) cts (inputSymbolStack c)
                  (outputSymbolStack c) (currentFlagValues c) (updatedFlagValue c) (updatedFlagFeature c) (inputLength c))
        end
      else if negb (Nat.eqb (flagDiacriticFeatureCount T) 0) && negb (symIn t =? 0) then
        match flagDepth c with
        | O => UB
        | S fd =>
            feature <- rdu (updatedFlagFeature c) fd ;;
            value <- rdu (updatedFlagValue c) fd ;;
            flags <- wr (currentFlagValues c) feature (Z.of_nat value) ;;
            Ok (mk_conf (bufferSize c) d fd (inputDepth c) (stateIndexStack c) cts (inputSymbolStack c)
                  (outputSymbolStack c) flags (updatedFlagValue c) (updatedFlagFeature c) (inputLength c))
        end
      else
        Ok (mk_conf (bufferSize c) d (flagDepth c) (inputDepth c) (stateIndexStack c) cts (inputSymbolStack c)
              (outputSymbolStack c) (currentFlagValues c) (updatedFlagValue c) (updatedFlagFeature c) (inputLength c))
  end.

(** The outer loop, fst/UnweightedTransducer.cpp:291-369, with [loops] rounds
    left.  [uint32_t startTransitionIndex] is the distance of the two pointers
    modulo 2^32. *)
Fixpoint search (loops : nat) (T : transducer) (prefix : bool) (bufferLen : nat) (c : configuration)
    : res (outcome * configuration) :=
  match loops with
  | O => Ok (LoopLimit, c)
  | S n =>
      head <- rdu (stateIndexStack c) (stackDepth c) ;;
      ct <- rdu (currentTransitionStack c) (stackDepth c) ;;
      maxTc <- getMaxTc T head ;;
      let tc := Z.to_nat ((Z.of_nat ct - Z.of_nat head) mod 2 ^ 32) in
      r <- scan (S maxTc) T prefix bufferLen c maxTc tc ct ;;
      match r with
      | Stop o c => Ok (o, c)
      | Down c => search n T prefix bufferLen c
      | Exhausted =>
          if Nat.eqb (stackDepth c) 0 then Ok (End, c)
          else c <- go_up T c ;; search n T prefix bufferLen c
      end
  end.

(** [UnweightedTransducer::nextPrefix] and [UnweightedTransducer::next],
    fst/UnweightedTransducer.cpp:285-370. *)
Definition nextPrefix (T : transducer) (c : configuration) (bufferLen : nat) : res (outcome * configuration) :=
  search MAX_LOOP_COUNT T true bufferLen c.
Definition next (T : transducer) (c : configuration) (bufferLen : nat) : res (outcome * configuration) :=
  search MAX_LOOP_COUNT T false bufferLen c.
