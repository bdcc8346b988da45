(** * Attribute maps: what they should do *)
From Verif Require Import Base AnalysisModel.

(** Calls made on an analysis object. *)
Inductive op : Type :=
| Add (k : Key) (v : value)        (** hand over a value *)
| AddConst (k : Key) (v : value)   (** lend a value *)
| Remove (k : Key).

Definition do_op (a : analysis_object) (o : op) : analysis_object :=
  match o with
  | Add k v => addAttribute a k v
  | AddConst k v => addConstAttribute a k v
  | Remove k => removeAttribute a k
  end.
Definition run (ops : list op) : analysis_object := fold_left do_op ops new_analysis.

Definition op_key (o : op) : Key := match o with Add k _ | AddConst k _ => k | Remove k => k end.
Definition op_value (o : op) : option value := match o with Add _ v | AddConst _ v => Some v | Remove _ => None end.

(** Attribute [k] has no value after the calls [ops]: nothing was done to it
    since the start or since it was last removed. *)
Definition unset (ops : list op) (k : Key) : Prop := exists b1 b2,
  ops = b1 ++ b2 /\ (b1 = [] \/ exists b0, b1 = b0 ++ [Remove k]) /\
  Forall (fun o => op_key o <> k) b2.

(** Attribute [k] has value [v] after the calls [ops]: [v] was added when [k]
    had no value, and [k] was not removed since. *)
Definition holds (ops : list op) (k : Key) (v : value) : Prop := exists before o after,
  ops = before ++ o :: after /\ op_key o = k /\ op_value o = Some v /\
  unset before k /\ ~ In (Remove k) after.

(** The name of an attribute. *)
Definition has_name (k : Key) (s : string) : Prop := nth_error KEY_TO_STRING (key_int k) = Some s.

Inductive sorted_by_position : list string -> Prop :=
| sbp_nil : sorted_by_position []
| sbp_cons : forall s l,
    (forall s', In s' l -> exists i j, (i < j)%nat /\ nth_error KEY_TO_STRING i = Some s /\ nth_error KEY_TO_STRING j = Some s') ->
    sorted_by_position l -> sorted_by_position (s :: l).

(** Addresses handed over, and lent. *)
Definition given (ops : list op) : list nat :=
  flat_map (fun o => match o with Add _ v => [address v] | _ => [] end) ops.
Definition lent (ops : list op) : list nat :=
  flat_map (fun o => match o with AddConst _ v => [address v] | _ => [] end) ops.
