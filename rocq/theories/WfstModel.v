(** * The weighted transducer.

    Models the search of [fst/WeightedTransducer.cpp] and
    [fst/WeightedConfiguration.cpp].  The tables are as [FstFileModel] loads
    them. *)
From Verif Require Import Base FstModel FstFileModel.

(** [WeightedConfiguration], fst/WeightedConfiguration.hpp:38-53.  Memory that
    was not initialised is -1.  The [int] counters are naturals; a decrement
    below zero is [UB], because the counter is used as an index by the next
    operation. *)
Record wconfiguration : Type := mk_wconf {
  wc_size : nat;
  wc_stackDepth : nat;
  wc_flagDepth : nat;
  wc_inputDepth : nat;
  wc_states : list Z;
  wc_transitions : list Z;
  wc_inputs : list Z;
  wc_outputs : list Z;
  wc_flags : list Z;
  wc_inputLength : nat
}.

(** The constructor, fst/WeightedConfiguration.cpp:38-54.  [flagDepth] is not
    initialised there; it is 0 here, and [prepare] sets it before any use. *)
Definition new_wconfiguration (features size : nat) : wconfiguration :=
  let arr := repeat (-1) size in
  mk_wconf size 0 0 0 arr arr arr arr (repeat 0 features ++ repeat (-1) (features * (size - 1))) 0.

(** The loop of [prepare], fst/WeightedTransducer.cpp:209-217. *)
Fixpoint wprepare_loop (T : wtransducer) (input : list Z) (syms : list Z) (len : nat) : res (list Z * nat * bool) :=
  match input with
  | [] => Ok (syms, len, true)
  | c :: rest =>
      match find_symbol (w_stringToSymbol T) c with
      | None => Ok (syms, len, false)
      | Some v => s <- wr syms len v ;; wprepare_loop T rest s (S len)
      end
  end.

(** [WeightedTransducer::prepare], fst/WeightedTransducer.cpp:202-219. *)
Definition wprepare (T : wtransducer) (c : wconfiguration) (input : list Z) : res (bool * wconfiguration) :=
  st <- wr (wc_states c) 0 0 ;;
  ct <- wr (wc_transitions c) 0 0 ;;
  '(syms, len, known) <- wprepare_loop T input (wc_inputs c) 0 ;;
  Ok (known, mk_wconf (wc_size c) 0 0 0 st ct syms (wc_outputs c) (wc_flags c) len).

(** [getMaxTc], fst/WeightedTransducer.cpp:221-228.  The first field of an
    overflow cell is where [symIn] is in a transition. *)
Definition wgetMaxTc (T : wtransducer) (head : nat) : res nat :=
  h <- rd (wtransitions T) head ;;
  if w_more h =? 255 then
    oc <- rd (wtransitions T) (head + 1) ;;
    Ok (Z.to_nat ((w_symIn oc + 1) mod 2 ^ 32))
  else Ok (Z.to_nat (w_more h)).

(** [memcpy] of [n] elements within an array. *)
Definition copy_block (l : list Z) (src dst n : nat) : res (list Z) :=
  if ((src + n <=? length l) && (dst + n <=? length l))%nat
  then Ok (firstn dst l ++ firstn n (skipn src l) ++ skipn (dst + n) l)
  else UB.

(** [flagDiacriticCheck], fst/WeightedTransducer.cpp:230-286: [None] is
    [false].  The switch is the same as that of the unweighted transducer. *)
Definition wflagDiacriticCheck (T : wtransducer) (c : wconfiguration) (symbol : Z) : res (option wconfiguration) :=
  let n := w_featureCount T in
  if Nat.eqb n 0 || (symbol =? 0) then Ok (Some c)
  else
    let cur := (wc_flagDepth c * n)%nat in
    o <- (if symbol <? 0 then UB else rd (w_symbolToDiacritic T) (Z.to_nat symbol)) ;;
    currentValue <- rd (wc_flags c) (cur + ofv_feature o) ;;
    match flag_operation o currentValue with
    | None => Ok None
    | Some update =>
        fl <- copy_block (wc_flags c) cur (cur + n) n ;;
        fl <- match update with
              | Some v => wr fl (cur + n + ofv_feature o) v
              | None => Ok fl
              end ;;
        Ok (Some (mk_wconf (wc_size c) (wc_stackDepth c) (S (wc_flagDepth c)) (wc_inputDepth c) (wc_states c)
                    (wc_transitions c) (wc_inputs c) (wc_outputs c) fl (wc_inputLength c)))
    end.

(** The loop that writes the output, fst/WeightedTransducer.cpp:323-332, over
    the symbols of the stack. *)
Fixpoint wwrite_output (T : wtransducer) (syms : list Z) (bufferLen : nat) (out : list Z) : res (option (list Z)) :=
  match syms with
  | [] => if (length out <? bufferLen)%nat then Ok (Some out) else UB
  | s :: rest =>
      str <- (if s <? 0 then UB else rd (w_symbolToString T) (Z.to_nat s)) ;;
      if (bufferLen <=? length out + length str + 1)%nat then Ok None
      else wwrite_output T rest bufferLen (out ++ str)
  end.

(** The sum of the weights on the stack, fst/WeightedTransducer.cpp:335-338. *)
Fixpoint add_weights (T : wtransducer) (cts : list Z) (weight : Z) : res Z :=
  match cts with
  | [] => Ok weight
  | ct :: rest =>
      t <- (if ct <? 0 then UB else rd (wtransitions T) (Z.to_nat ct)) ;;
      add_weights T rest (to_int16 (weight + w_weight t))
  end.

(** How a search ends; the caller sees [true] only for [WFound]. *)
Inductive woutcome : Type :=
| WFound (output : list Z) (weight : Z)
| WEnd            (* fst/WeightedTransducer.cpp:385-388 *)
| WTooLong        (* lines 326-329 *)
| WTooDeep        (* lines 350-353 *)
| WLoopLimit.     (* line 405 *)

Inductive wscanned : Type :=
| WExhausted
| WDown (c : wconfiguration) (reached : nat)
| WStop (o : woutcome) (c : wconfiguration).

(** Going down a transition, fst/WeightedTransducer.cpp:350-367; [reached] is
    [*firstNotReachedPosition]. *)
Definition wgo_down (T : wtransducer) (c : wconfiguration) (reached ct : nat) (t : wcell) : res wscanned :=
  if Nat.eqb (wc_stackDepth c + 2) (wc_size c) then Ok (WStop WTooDeep c)
  else
    let d := wc_stackDepth c in
    outs <- wr (wc_outputs c) d (if w_firstNormalChar T <=? w_symOut t then w_symOut t else 0) ;;
    cts <- wr (wc_transitions c) d (Z.of_nat ct) ;;
    sts <- wr (wc_states c) (S d) (w_target t) ;;
    cts <- wr cts (S d) (w_target t) ;;
    let normal := w_firstNormalChar T <=? w_symIn t in
    let depth := if normal then S (wc_inputDepth c) else wc_inputDepth c in
    Ok (WDown (mk_wconf (wc_size c) (S d) (wc_flagDepth c) depth sts cts (wc_inputs c) outs (wc_flags c) (wc_inputLength c))
          (if normal && (reached <? depth)%nat then depth else reached)).

(** The binary search, fst/WeightedTransducer.cpp:372-383. *)
Fixpoint wbinary (fuel : nat) (T : wtransducer) (ct : nat) (inputSym : Z) (min max : nat) : res nat :=
  if (min + 1 <? max)%nat then
    match fuel with
    | O => Fuel
    | S f =>
        let middle := ((min + max) / 2)%nat in
        t <- rd (wtransitions T) (ct + middle) ;;
        if w_symIn t <? inputSym then wbinary f T ct inputSym middle max else wbinary f T ct inputSym min middle
    end
  else Ok min.

(** The inner loop, fst/WeightedTransducer.cpp:313-387. *)
Fixpoint wscan (fuel : nat) (T : wtransducer) (bufferLen : nat) (c : wconfiguration) (reached : nat) (inputSym : Z) (maxTc tc ct : nat)
    : res wscanned :=
  if negb (tc <=? maxTc)%nat then Ok WExhausted
  else
    match fuel with
    | O => Fuel
    | S f =>
        let skip := Nat.eqb tc 1 && (255 <=? maxTc)%nat in
        let tc := if skip then S tc else tc in
        let ct := if skip then S ct else ct in
        t <- rd (wtransitions T) ct ;;
        if w_symIn t =? 0xFFFFFFFF then
          if Nat.eqb (wc_inputDepth c) (wc_inputLength c) then
            if negb (wc_stackDepth c <=? length (wc_outputs c))%nat then UB
            else
              o <- wwrite_output T (firstn (wc_stackDepth c) (wc_outputs c)) bufferLen [] ;;
              match o with
              | None => Ok (WStop WTooLong c)
              | Some out =>
                  cts <- wr (wc_transitions c) (wc_stackDepth c) (Z.of_nat (S ct)) ;;
                  w <- add_weights T (firstn (wc_stackDepth c) cts) (w_weight t) ;;
                  Ok (WStop (WFound out w)
                        (mk_wconf (wc_size c) (wc_stackDepth c) (wc_flagDepth c) (wc_inputDepth c) (wc_states c) cts
                           (wc_inputs c) (wc_outputs c) (wc_flags c) (wc_inputLength c)))
              end
          else wscan f T bufferLen c reached inputSym maxTc (S tc) (S ct)
        else if (inputSym =? 0) && (w_firstNormalChar T <=? w_symIn t) then Ok WExhausted
        else if (wc_inputDepth c <? wc_inputLength c)%nat && (inputSym =? w_symIn t) then wgo_down T c reached ct t
        else
          o <- (if w_symIn t <? w_firstNormalChar T then wflagDiacriticCheck T c (w_symIn t) else Ok None) ;;
          match o with
          | Some c' => wgo_down T c' reached ct t
          | None =>
              if inputSym <? w_symIn t then Ok WExhausted
              else
                m <- (if (1 <=? tc)%nat && (w_firstNormalChar T <=? w_symIn t) && (w_symIn t <? inputSym)
                      then wbinary (maxTc - tc) T ct inputSym 0 (maxTc - tc) else Ok 0%nat) ;;
                wscan f T bufferLen c reached inputSym maxTc (S (tc + m)) (S (ct + m))
          end
    end.

(** Going up, fst/WeightedTransducer.cpp:390-401, for a positive depth.  The
    input symbol is truncated to 16 bits. *)
Definition wgo_up (T : wtransducer) (c : wconfiguration) : res wconfiguration :=
  match wc_stackDepth c with
  | O => UB
  | S d =>
      ct <- rdu (wc_transitions c) d ;;
      t <- rd (wtransitions T) ct ;;
      let previous := w_symIn t mod 65536 in
      cts <- wr (wc_transitions c) d (Z.of_nat (S ct)) ;;
      if w_firstNormalChar T <=? previous then
        match wc_inputDepth c with
        | O => UB
        | S i => Ok (mk_wconf (wc_size c) d (wc_flagDepth c) i (wc_states c) cts (wc_inputs c) (wc_outputs c) (wc_flags c) (wc_inputLength c))
        end
      else if negb (Nat.eqb (w_featureCount T) 0) && negb (previous =? 0) then
        match wc_flagDepth c with
        | O => UB
        | S fd => Ok (mk_wconf (wc_size c) d fd (wc_inputDepth c) (wc_states c) cts (wc_inputs c) (wc_outputs c) (wc_flags c) (wc_inputLength c))
        end
      else
        Ok (mk_wconf (wc_size c) d (wc_flagDepth c) (wc_inputDepth c) (wc_states c) cts (wc_inputs c) (wc_outputs c) (wc_flags c) (wc_inputLength c))
  end.

(** The outer loop, fst/WeightedTransducer.cpp:305-406, with [loops] rounds
    left.  The result also has [*firstNotReachedPosition]. *)
Fixpoint wsearch (loops : nat) (T : wtransducer) (bufferLen : nat) (c : wconfiguration) (reached : nat)
    : res (woutcome * wconfiguration * nat) :=
  match loops with
  | O => Ok (WLoopLimit, c, reached)
  | S n =>
      head <- rdu (wc_states c) (wc_stackDepth c) ;;
      ct <- rdu (wc_transitions c) (wc_stackDepth c) ;;
      maxTc <- wgetMaxTc T head ;;
      inputSym <- (if Nat.eqb (wc_inputDepth c) (wc_inputLength c) then Ok 0%nat else rdu (wc_inputs c) (wc_inputDepth c)) ;;
      let tc := Z.to_nat ((Z.of_nat ct - Z.of_nat head) mod 2 ^ 32) in
      r <- wscan (S maxTc) T bufferLen c reached (Z.of_nat inputSym) maxTc tc ct ;;
      match r with
      | WStop o c => Ok (o, c, reached)
      | WDown c reached => wsearch n T bufferLen c reached
      | WExhausted =>
          if Nat.eqb (wc_stackDepth c) 0 then Ok (WEnd, c, reached)
          else c <- wgo_up T c ;; wsearch n T bufferLen c reached
      end
  end.

(** [WeightedTransducer::next], fst/WeightedTransducer.cpp:288-406. *)
Definition wnext (T : wtransducer) (c : wconfiguration) (bufferLen : nat) : res (woutcome * wconfiguration * nat) :=
  wsearch MAX_LOOP_COUNT T bufferLen c (wc_inputDepth c).

(** The first loop of [backtrackToOutputDepth], fst/WeightedTransducer.cpp:411-417:
    the number of transitions, from the bottom of the stack, that write
    [depth + 1] symbols.  [cts] is the rest of the stack. *)
Fixpoint output_index (T : wtransducer) (cts : list Z) (index outputs depth : nat) : res nat :=
  match cts with
  | [] => Ok index
  | ct :: rest =>
      if (outputs <? depth + 1)%nat then
        t <- (if ct <? 0 then UB else rd (wtransitions T) (Z.to_nat ct)) ;;
        output_index T rest (S index) (if w_firstNormalChar T <=? w_symOut t mod 65536 then S outputs else outputs) depth
      else Ok index
  end.

(** Its second loop, lines 418-427, with [n] levels left to go up.
    [flagDepth] is left alone. *)
Fixpoint backtrack_up (n : nat) (T : wtransducer) (c : wconfiguration) : res wconfiguration :=
  match n with
  | O => Ok c
  | S n =>
      match wc_stackDepth c with
      | O => UB
      | S d =>
          ct <- rdu (wc_transitions c) d ;;
          t <- rd (wtransitions T) ct ;;
          cts <- wr (wc_transitions c) d (Z.of_nat (S ct)) ;;
          depth <- (if w_firstNormalChar T <=? w_symIn t mod 65536 then match wc_inputDepth c with O => UB | S i => Ok i end else Ok (wc_inputDepth c)) ;;
          backtrack_up n T
            (mk_wconf (wc_size c) d (wc_flagDepth c) depth (wc_states c) cts (wc_inputs c) (wc_outputs c) (wc_flags c) (wc_inputLength c))
      end
  end.

(** [WeightedTransducer::backtrackToOutputDepth], fst/WeightedTransducer.cpp:408-428. *)
Definition backtrackToOutputDepth (T : wtransducer) (c : wconfiguration) (depth : nat) : res wconfiguration :=
  index <- output_index T (firstn (wc_stackDepth c) (wc_transitions c)) 0 0 depth ;;
  backtrack_up (wc_stackDepth c - index) T c.
