(** * How compounds are written, and what their base forms are *)
From Verif Require Import Base CharModel HyphModel FinModel FinSpec.

(** ** Hyphens

    The dictionary marks the joints of compounds where the rules for hyphens
    apply with the remark [[Bh]]; a hyphen that belongs to the joint is directly
    before the mark. *)
Definition mark : item := Tag (wstr "Bh").

(** The characters of the word, without hyphens. *)
Definition character (x : item) : option Z :=
  match x with Letter c => Some c | Colon => Some (ch ":") | _ => None end.
Definition characters (l : list item) : list Z :=
  concat (map (fun x => match character x with Some c => [c] | None => [] end) l).

(** [joint l before hyphen c]: the output has a joint, with or without a hyphen,
    between the characters [before] and the character [c]. *)
Definition joint (l : list item) (before : list Z) (hyphen : bool) (c : Z) : Prop :=
  exists a m x b, l = a ++ (if hyphen then [Hyphen] else []) ++ mark :: m ++ x :: b /\
    (hyphen = false -> forall a', a <> a' ++ [Hyphen]) /\
    before = characters a /\ (forall y, In y m -> character y = None /\ y <> mark) /\ character x = Some c.

(** There is a hyphen between two equal vowels and behind a digit, and nowhere
    else; it may also be there behind "is". *)
Definition correct_joint (before : list Z) (hyphen : bool) (c : Z) : Prop :=
  match rev before with
  | [] => True
  | p :: q =>
      let required := (p = c /\ In p VOIKKO_VOWELS) \/ ch "0" <= p <= ch "9" in
      if hyphen then required \/ (p = ch "s" /\ hd 0 q = ch "i") else ~ required
  end.

(** A name (class [ee], [es], [ep] or [em]) and behind it a noun, in one word
    without hyphens: this is not written so.  The remarks [[Dg]] (for the name) and
    [[Ica]] (for the noun) allow it. *)
Definition is_name (x : item) : Prop := exists k, x = Class k /\ In k ["ee"; "es"; "ep"; "em"]%string.
Definition remark_is (t : string) (x : item) : Prop := exists u, x = Tag (wstr t ++ u).
Definition name_open (l : list item) : Prop :=
  exists a x b, l = a ++ x :: b /\ is_name x /\ forall y, In y b -> y <> Hyphen /\ ~ remark_is "Dg" y.
Definition noun_open (l : list item) : Prop :=
  exists a k b, l = a ++ Class k :: b /\ (k = "n" \/ k = "nl")%string /\
    forall y, In y b -> y <> Hyphen /\ ~ is_name y /\ ~ remark_is "Ica" y.

(** Outputs without the remarks [[Isf]] and [[Icu]], which allow and demand further
    hyphens, in small letters. *)
Definition ordinary (l : list item) : Prop :=
  Forall good_item l /\
  (forall x, In x l -> ~ remark_is "Isf" x /\ ~ remark_is "Icu" x /\ (remark_is "Bh" x -> x = mark)) /\
  (forall c, In c (characters l) -> lower c = c).

(** ** Base forms

    The characters of the word, some of them as capitals: those with the symbols
    [i] and [j] in the structure. *)
Fixpoint written (sy w : list Z) : list Z :=
  match sy, w with
  | y :: sy, c :: w => (if (y =? ch "i") || (y =? ch "j") then upper c else c) :: written sy w
  | _, _ => w
  end.

(** [[Xp]...[X]] and [[Xj]...[X]] give the base form of the word from here on. *)
Definition is_base (x : item) : Prop := exists k t, x = Remark k t /\ (k = ch "p" \/ k = ch "j").
Definition hyphens (w : list Z) : nat := length (filter (fun c => c =? ch "-") w).

(** The base form: the characters before the last remark with a base form, and what
    this remark says, without the signs for borders.  If there are more hyphens
    in the word behind the remark than in it, or if there is no such remark, it
    is the word itself. *)
Definition base_form (l : list item) (st v : list Z) : Prop :=
  let w := written (symbols st) (surface l) in
  (exists a k t b, l = a ++ Remark k t :: b /\ is_base (Remark k t) /\ Forall (fun y => ~ is_base y) b /\
     (hyphens (surface b) <= hyphens t)%nat /\ v = firstn (length (surface a)) w ++ symbols t) \/
  ((forall a k t b, l = a ++ Remark k t :: b -> is_base (Remark k t) -> Forall (fun y => ~ is_base y) b -> (hyphens t < hyphens (surface b))%nat) /\ v = w).

(** Outputs for which this is said: they are not numerals (where each part has its
    own base form), they are not names of places behind a word that starts names, as in
    "Isolla-Britannialla", and their remarks are of the usual kinds. *)
Definition simple_base (l : list item) : Prop :=
  Forall good_item l /\
  (forall k t, In (Remark k t) l -> In k (wstr "pjs")) /\
  (forall a b, l = a ++ Class "u" :: b -> exists k, In (Class k) a) /\
  (forall a b, l = a ++ Tag (wstr "De") :: b -> ~ In (Class "ep") b).
