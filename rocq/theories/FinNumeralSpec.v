(** * What the base forms of numerals are *)
From Verif Require Import Base CharModel HyphModel FinModel FinSpec FinWordSpec.

Definition is_class (x : item) : Prop := exists k, x = Class k.
Definition new_part : item := Boundary (ch "c").

(** [numeral l a r]: the first class in the output is that of numerals; [a] is in
    front of it and [r] behind it, and there is no noun, adjective or word of both
    kinds in [r]. *)
Definition numeral (l a r : list item) : Prop :=
  l = a ++ Class "u" :: r /\ (forall x, In x a -> ~ is_class x) /\ (forall k, In (Class k) r -> ~ In k ["n"; "l"; "nl"]%string).

(** From the class of a numeral on, there are at least three characters of the
    output behind the class of a numeral, noun or adjective and behind the mark of
    a new part.  (There are: a part has a remark with its base form or its form.) *)
Definition roomy (l : list item) : Prop :=
  forall a x b, l = a ++ x :: b -> In (Class "u") (a ++ [x]) -> x = new_part \/ (exists k, x = Class k /\ In k ["u"; "n"; "l"; "nl"]%string) ->
    (3 <= length (render b))%nat.

(** The parts of a numeral, with [[Bc]] between them. *)
Fixpoint joined (parts : list (list item)) : list item :=
  match parts with
  | [] => []
  | [p] => p
  | p :: parts => p ++ new_part :: joined parts
  end.

(** A character of the word. *)
Definition plain (x : item) : Prop := match x with Letter _ | Hyphen | Colon => True | _ => False end.
(** What is left of an inflected part behind its base form: hyphens, and further
    base forms. *)
Definition left_over (l : list item) : list Z :=
  concat (map (fun x => match x with Hyphen => wstr "-" | Remark _ t => t | _ => [] end) l).

(** The base form of a part is given in a remark; what is in front of the remark is
    kept.  A part without a remark is its own base form. *)
Definition part_form (p : list item) (v : list Z) : Prop :=
  (Forall (fun x => ~ is_base x) p /\ v = surface p) \/
  (exists a k t b, p = a ++ Remark k t :: b /\ Forall (fun x => ~ is_base x) a /\ is_base (Remark k t) /\ v = surface a ++ t ++ left_over b).

(** In a numeral written with digits, the base form is the digits, that is all
    characters in front of the first remark. *)
Definition digits_form (p : list item) (v : list Z) : Prop :=
  exists a b, p = a ++ b /\ Forall plain a /\ (b = [] \/ exists x b', b = x :: b' /\ ~ plain x) /\ v = surface a ++ left_over b.
Definition in_digits (p : list item) : Prop :=
  match p with Letter c :: _ => isDigit c = true | Hyphen :: _ => True | _ => False end.

(** The base form of a numeral consists of those of its parts. *)
Definition numeral_form (r : list item) (v : list Z) : Prop :=
  exists p ps f fs, r = joined (p :: ps) /\ (forall q, In q (p :: ps) -> ~ In new_part q) /\
    (in_digits p -> digits_form p f) /\ (~ in_digits p -> part_form p f) /\ Forall2 part_form ps fs /\ v = f ++ concat fs.

(** Outputs for which base forms are described: the remarks are of the usual kinds,
    there is room, and they are not names of places behind a word that starts names, as in
    "Isolla-Britannialla". *)
Definition usual_base (l : list item) : Prop :=
  Forall good_item l /\ roomy l /\
  (forall k t, In (Remark k t) l -> In k (wstr "pjs")) /\
  (forall a b, l = a ++ Tag (wstr "De") :: b -> ~ In (Class "ep") b).
Definition no_sources (l : list item) : Prop := forall t, ~ In (Remark (ch "s") t) l.
