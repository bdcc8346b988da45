(** * Common vocabulary of the model.

    Characters ([wchar_t], 32 bits signed on the supported platforms) and bytes
    are integers of type [Z]; a buffer of [n] elements is a [list Z] of length
    [n].  Positions inside a buffer are [nat].

    [res] is the outcome of running a piece of the C++ code:
    - [Ok a]  : it terminated normally with [a];
    - [UB]    : it performed an operation whose behaviour is undefined in C++
                (out-of-bounds read or write, NULL dereference, signed
                overflow, ...);
    - [Fuel]  : the model's own iteration bound was exhausted (this is never a
                behaviour of the code: theorems exclude it). *)
From Coq Require Export Ascii String.
From Coq Require Export ZArith List Bool Lia.
From Coq Require Export ZifyBool ZifyNat.
Export ListNotations.
Open Scope Z_scope.
Open Scope list_scope.
Open Scope bool_scope.

Inductive res (A : Type) : Type :=
| Ok (a : A)
| UB
| Fuel.
Arguments Ok {A} a.
Arguments UB {A}.
Arguments Fuel {A}.

Definition bind {A B} (m : res A) (k : A -> res B) : res B :=
  match m with
  | Ok a => k a
  | UB => UB
  | Fuel => Fuel
  end.

Notation "x <- e ;; k" := (bind e (fun x => k))
  (at level 61, e at next level, right associativity).
Notation "' p <- e ;; k" := (bind e (fun x => match x with p => k end))
  (at level 61, p pattern, e at next level, right associativity).

(** Bounds-checked read [buf[i]]. *)
Definition rd {A} (buf : list A) (i : nat) : res A :=
  match nth_error buf i with
  | Some c => Ok c
  | None => UB
  end.

(** Bounds-checked write [buf[i] = c]. *)
Fixpoint upd {A} (buf : list A) (i : nat) (c : A) : list A :=
  match buf, i with
  | [], _ => []
  | _ :: b, O => c :: b
  | x :: b, S j => x :: upd b j c
  end.

Definition wr {A} (buf : list A) (i : nat) (c : A) : res (list A) :=
  if (i <? length buf)%nat then Ok (upd buf i c) else UB.

(** A wide string literal whose characters are all ASCII. *)
Fixpoint wstr (s : string) : list Z :=
  match s with
  | EmptyString => []
  | String a r => Z.of_N (N_of_ascii a) :: wstr r
  end.

(** Membership test as a boolean. *)
Fixpoint mem (c : Z) (l : list Z) : bool :=
  match l with
  | [] => false
  | x :: r => (x =? c) || mem c r
  end.

(** [wcschr(s, c) != 0] for a NUL-free literal [s].  The C function regards
    the terminator as part of the string, so it finds NUL. *)
Definition wcschr (s : list Z) (c : Z) : bool := (c =? 0) || mem c s.

(** [lo <= c && c <= hi] *)
Definition in_range (lo hi c : Z) : bool := (lo <=? c) && (c <=? hi).

(** [wcslen]: length up to the first NUL; [UB] when there is none. *)
Fixpoint wcslen (buf : list Z) : res nat :=
  match buf with
  | [] => UB
  | c :: r => if c =? 0 then Ok O else (n <- wcslen r ;; Ok (S n))
  end.

(** Prefix of a list before the first NUL (list version of reading a C
    string whose terminator is implicit). *)
Fixpoint cstr (buf : list Z) : list Z :=
  match buf with
  | [] => []
  | c :: r => if c =? 0 then [] else c :: cstr r
  end.

(** [wcsncmp(s, text, n) == 0] for a NUL-free literal [s] with at least [n]
    characters: characters are compared one by one, reading stops at the first
    difference.  (A NUL in [text] differs from the literal.) *)
Fixpoint prefix_eq (s text : list Z) : res bool :=
  match s with
  | [] => Ok true
  | c :: s' =>
      match text with
      | [] => UB
      | d :: t' => if c =? d then prefix_eq s' t' else Ok false
      end
  end.

(** Equality of character lists. *)
Fixpoint zlist_eqb (a b : list Z) : bool :=
  match a, b with
  | [], [] => true
  | x :: a', y :: b' => (x =? y) && zlist_eqb a' b'
  | _, _ => false
  end.

(** All integers [0 <= x < n], used for exhaustive finite checks. *)
Definition zrange (n : nat) : list Z := map Z.of_nat (seq 0 n).
