(** * What a transducer in text form means. *)
From Verif Require Import Base Utf8Spec FstModel CompilerModel.

(** Symbols: the empty symbol, flag diacritics, characters and tags, which
    begin with '['. *)
Inductive symbol : Type :=
| Epsilon
| Flag (op : Operation) (feature : list Z) (value : option (list Z))
| Letter (c : Z)
| Tag (t : list Z).

(** How they are written: @P.FEATURE.VALUE@ and the like, characters and tags in
    UTF-8. *)
Definition op_letter (op : Operation) : Z :=
  match op with Operation_P => 0x50 | Operation_C => 0x43 | Operation_U => 0x55 | Operation_R => 0x52 | Operation_D => 0x44 end.
Definition symbol_text (s : symbol) : list Z :=
  match s with
  | Epsilon => []
  | Flag op f v => [0x40; op_letter op; 0x2E] ++ f ++ match v with Some x => 0x2E :: x | None => [] end ++ [0x40]
  | Letter c => rfc3629 c
  | Tag t => 0x5B :: utf8_text t
  end.

(** The field of a line: epsilon and the space have names. *)
Definition symbol_field (s : symbol) : list Z :=
  match s with
  | Epsilon => wstr "@0@"
  | Letter 0x20 => wstr "@_SPACE_@"
  | _ => symbol_text s
  end.

(** Names of features and values. *)
Definition flag_name (l : list Z) : Prop := l <> [] /\ Forall (fun c => 0 < c < 128) l.
Definition proper_symbol (s : symbol) : Prop :=
  match s with
  | Epsilon => True
  | Flag op f v => flag_name f /\ ~ In 0x2E f /\ match v with Some x => flag_name x /\ x <> wstr "@" | None => True end
  | Letter c => encodable c /\ c <> 0 /\ c <> 0x40 /\ c <> 0x5B
  | Tag t => t <> [] /\ Forall encodable t /\ ~ In 0 t
  end.

(** A transducer: final states and transitions.  The initial state is 0. *)
Inductive item : Type :=
| Final (q : nat)
| Arc (q q' : nat) (input output : symbol).
Definition line_of (i : item) : att_line :=
  match i with
  | Final q => ATT_FINAL q
  | Arc q q' i o => ATT_TRANSITION q q' (symbol_field i) (symbol_field o)
  end.

(** Flags: each feature has a value, at first none (the empty text).  A flag
    without a value counts as one with the value "@". *)
Definition store := list Z -> list Z.
Definition set (st : store) (f x : list Z) : store := fun g => if zlist_eqb g f then x else st g.
Definition flag_value (v : option (list Z)) : list Z := match v with Some x => x | None => wstr "@" end.
Inductive flag_rule : Operation -> list Z -> option (list Z) -> store -> store -> Prop :=
| rule_P f v st : flag_rule Operation_P f v st (set st f (flag_value v))
| rule_C f v st : flag_rule Operation_C f v st (set st f [])
| rule_U_set f v st : st f = [] -> flag_rule Operation_U f v st (set st f (flag_value v))
| rule_U_same f v st : st f = flag_value v -> flag_rule Operation_U f v st st
| rule_R_any f st : st f <> [] -> flag_rule Operation_R f None st st
| rule_R f x st : st f = x -> flag_rule Operation_R f (Some x) st st
| rule_D_any f st : st f = [] -> flag_rule Operation_D f None st st
| rule_D f x st : st f <> x -> flag_rule Operation_D f (Some x) st st.

(** What is written for an output symbol. *)
Definition written (s : symbol) : list Z :=
  match s with Letter c => [c] | Tag t => 0x5B :: t | _ => [] end.

(** [run A q st w out]: from the state [q], with the flags [st], the rest [w] of
    the word is accepted with the output [out]. *)
Inductive run (A : list item) : nat -> store -> list Z -> list Z -> Prop :=
| run_final q st : In (Final q) A -> run A q st [] []
| run_letter q q' c o st w out : In (Arc q q' (Letter c) o) A -> run A q' st w out -> run A q st (c :: w) (written o ++ out)
| run_epsilon q q' o st w out : In (Arc q q' Epsilon o) A -> run A q' st w out -> run A q st w (written o ++ out)
| run_flag q q' op f v o st st' w out : In (Arc q q' (Flag op f v) o) A -> flag_rule op f v st st' ->
    run A q' st' w out -> run A q st w (written o ++ out).
Definition accepted (A : list item) (w out : list Z) : Prop := run A 0 (fun _ => []) w out.

(** Transducers that fit in the file format: proper symbols, at least one
    character, fewer than 65535 symbols, not too many cells. *)
Definition symbols_of (A : list item) : list symbol :=
  Epsilon :: flat_map (fun i => match i with Final _ => [] | Arc _ _ i o => [i; o] end) A.
Definition fitting (A : list item) : Prop :=
  Forall proper_symbol (symbols_of A) /\ (exists c, In (Letter c) (symbols_of A)) /\
  (forall l, NoDup l -> incl l (symbols_of A) -> Z.of_nat (length l) < 2 ^ 16) /\
  257 * Z.of_nat (length A) <= 256 * 2 ^ 24.

(** Sources are numbered in the order in which they occur first, and every target
    is a source. *)
Inductive in_order : nat -> list item -> Prop :=
| in_order_nil n : in_order n []
| in_order_old n i r : (match i with Final q => q | Arc q _ _ _ => q end < n)%nat -> in_order n r -> in_order n (i :: r)
| in_order_new n i r : (match i with Final q => q | Arc q _ _ _ => q end = n)%nat -> in_order (S n) r -> in_order n (i :: r).

(** ** Transducers with weights *)

Definition weighted_line (x : item * Z) : att_line * Z := (line_of (fst x), snd x).

(** The weight of a run is the sum of the weights of its transitions and of the
    final state. *)
Inductive weighted_run (A : list (item * Z)) : nat -> store -> list Z -> list Z -> Z -> Prop :=
| wrun_final q z st : In (Final q, z) A -> weighted_run A q st [] [] z
| wrun_letter q q' c o z st w out y : In (Arc q q' (Letter c) o, z) A -> weighted_run A q' st w out y -> weighted_run A q st (c :: w) (written o ++ out) (z + y)
| wrun_epsilon q q' o z st w out y : In (Arc q q' Epsilon o, z) A -> weighted_run A q' st w out y -> weighted_run A q st w (written o ++ out) (z + y)
| wrun_flag q q' op f v o z st st' w out y : In (Arc q q' (Flag op f v) o, z) A -> flag_rule op f v st st' ->
    weighted_run A q' st' w out y -> weighted_run A q st w (written o ++ out) (z + y).
Definition accepted_with (A : list (item * Z)) (w out : list Z) (weight : Z) : Prop := weighted_run A 0 (fun _ => []) w out weight.

(** Weights of 16 bits. *)
Definition fitting_weighted (A : list (item * Z)) : Prop :=
  fitting (map fst A) /\ Forall (fun x => -32768 <= snd x < 32768) A.

(** No state has transitions for two different flags. *)
Definition one_flag_each (A : list (item * Z)) : Prop :=
  forall q q1 q2 op f v op' f' v' o o' z z', In (Arc q q1 (Flag op f v) o, z) A -> In (Arc q q2 (Flag op' f' v') o', z') A ->
    Flag op f v = Flag op' f' v'.
