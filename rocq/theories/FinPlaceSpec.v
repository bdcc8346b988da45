(** * The base forms of names of places in several inflected words *)
From Verif Require Import Base CharModel HyphModel FinModel FinSpec FinWordSpec FinNumeralSpec.

(** In "Isolla-Britannialla" both parts are inflected.  The base form "Iso-Britannia"
    has the base forms of both.  The rule applies to a hyphen behind a word with
    the remark [[De]] (it is the first part of names, and written with a capital
    there), if the name of a place follows. *)

(** A class [u] at the beginning, that of a numeral which is followed by a noun, does
    not count here. *)
Fixpoint without_numeral (l : list item) : list item :=
  match l with
  | [] => []
  | Class k :: r => if String.eqb k "u" then r else l
  | x :: r => x :: without_numeral r
  end.

(** The remark [[De]] is behind the last hyphen and behind the last class, which is
    that of adjectives, if there is one. *)
Definition starts_name (l : list item) : Prop :=
  exists x y, l = x ++ Tag (wstr "De") :: y /\ (forall z, In z y -> ~ is_class z /\ z <> Hyphen) /\
    (forall p k q, x = p ++ Class k :: q -> (forall z, In z q -> ~ is_class z) -> k = "l"%string \/ k = "nl"%string).

(** [place_hyphen past l a k t m b]: behind the items [past], the items [l] are [a], a
    remark with the base form [t], the items [m] of the inflected word, a hyphen to
    which the rule applies and [b].  The hyphens in the inflected word are those in
    its base form, it does not end in "is" and there is the name of a place in [b]. *)
Definition place_hyphen (past l a : list item) (k : Z) (t : list Z) (m b : list item) : Prop :=
  l = a ++ Remark k t :: m ++ Hyphen :: b /\ is_base (Remark k t) /\ Forall (fun y => ~ is_base y) m /\
  hyphens (surface m) = hyphens t /\ starts_name (without_numeral (past ++ a ++ Remark k t :: m)) /\
  (forall m', m <> m' ++ [Letter (ch "i"); Letter (ch "s")]) /\ In (Class "ep") b.

(** The base form with a capital first letter, without signs for borders. *)
Definition titled (t : list Z) : list Z :=
  match t with c :: r => if c =? ch "=" then symbols r else upper c :: symbols r | [] => [] end.

(** The last parts, behind the text [w], where [sy] are the symbols left: as in
    [base_form]. *)
Definition last_form (l : list item) (w sy v : list Z) : Prop :=
  let u := written sy (surface l) in
  (exists a k t b, l = a ++ Remark k t :: b /\ is_base (Remark k t) /\ Forall (fun y => ~ is_base y) b /\
     (hyphens (surface b) <= hyphens t)%nat /\ v = w ++ firstn (length (surface a)) u ++ symbols t) \/
  ((forall a k t b, l = a ++ Remark k t :: b -> is_base (Remark k t) -> Forall (fun y => ~ is_base y) b -> (hyphens t < hyphens (surface b))%nat) /\ v = w ++ u).

(** The parts with base forms of their own, in order: the first hyphen to which the
    rule applies, and then the items behind it. *)
Inductive places_form : list item -> list item -> list Z -> list Z -> list Z -> Prop :=
| pf_last : forall past l w sy v, (forall a k t m b, ~ place_hyphen past l a k t m b) -> last_form l w sy v -> places_form past l w sy v
| pf_place : forall past l a k t m b w sy v, place_hyphen past l a k t m b ->
    (forall a' k' t' m' b', place_hyphen past l a' k' t' m' b' -> (length b' <= length b)%nat) ->
    places_form (past ++ a ++ Remark k t :: m ++ [Hyphen]) b (w ++ written sy (surface a) ++ titled t ++ wstr "-")
      (skipn (length (surface (a ++ m)) + 1) sy) v ->
    places_form past l w sy v.

(** Outputs for which base forms are described, numerals apart: the remarks are of the
    usual kinds and there is room. *)
Definition base_items (l : list item) : Prop :=
  Forall good_item l /\ roomy l /\ (forall k t, In (Remark k t) l -> In k (wstr "pjs")).
