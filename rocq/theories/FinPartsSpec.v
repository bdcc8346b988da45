(** * The parts of a word with their base forms: specification

    Attributes WORDBASES and WORDIDS, doc/morphological-analysis.txt. *)
From Verif Require Import Base CharModel AnalysisModel FinModel FinSpec.

(** The text of the last remark of kind [k] among the items, or [t0]. *)
Fixpoint source (k : Z) (t0 : list Z) (p : list item) : list Z :=
  match p with
  | [] => t0
  | Remark k' t :: r => source k (if k' =? k then t else t0) r
  | _ :: r => source k t0 r
  end.

(** The base form of a part: the last remark [Xp], or, for an ending, the last remark
    [Xj] with a plus sign. *)
Fixpoint base_of (b0 : list Z) (p : list item) : list Z :=
  match p with
  | [] => b0
  | Remark k t :: r => base_of (if k =? ch "p" then t else if k =? ch "j" then wstr "+" ++ t else b0) r
  | _ :: r => base_of b0 r
  end.

(** A hyphen before one of these items is between two parts. *)
Definition starts_part (x : item) : Prop := match x with Boundary _ => True | Tag t => hd 0 t = ch "B" | _ => False end.

(** Items inside a part: no class and no hyphen before a boundary.  A remark [Xj] is
    before the letters of the part, so that it is the base form of all of it; [open]
    means that the part has already letters.  A plus sign is neither in the word nor
    at the start of a remark. *)
Definition plain_part (open : bool) (p : list item) : Prop :=
  (forall k, ~ In (Class k) p) /\ (forall a t b, p = a ++ Remark (ch "j") t :: b -> open = false /\ surface a = [] /\ t <> []) /\
  (forall a x b, p = a ++ Hyphen :: x :: b -> ~ starts_part x) /\
  (forall k t, In (Remark k t) p -> ~ In (ch "]") t /\ hd 0 t <> ch "+") /\ ~ In (ch "+") (surface p).

(** A part of the word, with a plus sign unless it continues [open] another; its base
    form in parentheses, and the number of the word in parentheses. *)
Definition part_text (open : bool) (x : list Z) : list Z := if open then x else match x with [] => [] | _ => wstr "+" ++ x end.
Definition in_parentheses (b : list Z) : list Z := match b with [] => [] | _ => wstr "(" ++ b ++ wstr ")" end.
Definition numbered (n : list Z) : list Z := match n with [] => [] | _ => wstr "(w" ++ n ++ wstr ")" end.
Definition part_bases (open : bool) (b0 : list Z) (p : list item) : list Z := part_text open (surface p) ++ in_parentheses (base_of b0 p).
Definition part_ids (open : bool) (p : list item) : list Z := part_text open (surface p) ++ numbered (source (ch "s") [] p).

(** In the last part the word is replaced by its base form, if there is one. *)
Definition last_text (open : bool) (b0 : list Z) (p : list item) : list Z :=
  match base_of b0 p with [] => part_text open (surface p) | b => if hd 0 b =? ch "+" then symbols b else part_text open (symbols b) end.
Definition last_bases (open : bool) (b0 : list Z) (p : list item) : list Z := last_text open b0 p ++ in_parentheses (base_of b0 p).
Definition last_ids (open : bool) (b0 : list Z) (p : list item) : list Z := last_text open b0 p ++ numbered (source (ch "s") [] p).

(** The items [l] are described by [B] (base forms) and [I] (numbers).  Parts are
    separated by the class of the next part or by a hyphen, which is a part of its
    own; an ending [Xj] behind letters continues the part with a base form of its own. *)
Inductive described : bool -> list Z -> list item -> list Z -> list Z -> Prop :=
| d_last : forall open b0 p, plain_part open p -> base_of b0 p = [] \/ (surface p <> [] /\ symbols (base_of b0 p) <> []) \/ open = true ->
    described open b0 p (last_bases open b0 p) (last_ids open b0 p)
| d_class : forall open b0 p k r B I, plain_part open p -> described false [] r B I ->
    described open b0 (p ++ Class k :: r) (part_bases open b0 p ++ B) (part_ids open p ++ I)
| d_hyphen : forall open b0 p x r B I, plain_part open p -> starts_part x -> described false [] r B I ->
    described open b0 (p ++ Hyphen :: x :: r) (part_bases open b0 p ++ wstr "+-" ++ B) (part_ids open p ++ wstr "+-" ++ I)
| d_ending : forall open b0 p t r B I, plain_part open p -> open = true \/ surface p <> [] -> t <> [] -> ~ In (ch "]") t ->
    described true (wstr "+" ++ t) r B I ->
    described open b0 (p ++ Remark (ch "j") t :: r) (part_bases open b0 p ++ B) (part_ids open p ++ I).

(** Outputs that are described.  Remarks have no closing bracket, a base form does not
    start with a plus sign and is before the letters of its part, which is not empty
    unless another part follows. *)
Definition tidy_item (x : item) : Prop :=
  ~ In (ch "+") (surface_item x) /\ match x with Remark k t => ~ In (ch "]") t /\ hd 0 t <> ch "+" /\ (k = ch "p" -> symbols t <> []) /\ (k = ch "j" -> t <> []) | _ => True end.
Definition tidy (l : list item) : Prop :=
  Forall tidy_item l /\ (forall a k t b, l = a ++ Remark k t :: b -> k = ch "p" \/ k = ch "j" -> surface b <> [] \/ exists k, In (Class k) b).
