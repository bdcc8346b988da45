(** * The deprecated interface: specification *)
From Verif Require Import Base CompatModel.

(** What a client sees: a partial map from handles to instances. *)
Definition live {H} (m : list (Z * H)) (h : Z) : Prop := exists x, In (h, x) m.

(** Operations of a client. *)
Inductive op (H : Type) : Type :=
| Init (outcome : H + list Z) (garbage : list Z) (langcode : option (list Z)) (cache_size : Z) (path : option (list Z))
| Terminate (handle : Z).
Arguments Init {H}. Arguments Terminate {H}.

(** The buffer that is allocated for the language is large enough to be split off
    the given memory. *)
Definition enough (garbage : list Z) (langcode : option (list Z)) : Prop :=
  match langcode with None => True | Some l => (2 * length l + 5 <= length garbage)%nat end.

(** Strings end at their terminator. *)
Definition arguments_ok (garbage : list Z) (langcode : option (list Z)) : Prop :=
  enough garbage langcode /\ match langcode with Some v => ~ In 0 v | None => True end.
Definition op_ok {H} (o : op H) : Prop :=
  match o with Init _ garbage langcode _ _ => arguments_ok garbage langcode | Terminate _ => True end.

(** One operation of the library on the table. *)
Definition step {H} (t : table H) (o : op H) (t' : table H) : Prop :=
  match o with
  | Init outcome garbage langcode cache path => exists r, voikko_init_with_path H outcome t garbage langcode cache path = Ok (t', r)
  | Terminate h => exists v c, voikko_terminate H t h = Ok (t', v, c)
  end.
(** Tables reachable by any calls. *)
Inductive reachable {H} : table H -> Prop :=
| reach_start : reachable None
| reach_step : forall t o t', reachable t -> op_ok o -> step t o t' -> reachable t'.

(** The handles of a table. *)
Definition instances {H} (t : table H) (h : Z) (x : H) : Prop :=
  exists l, t = Some l /\ 0 <= h /\ nth_error l (Z.to_nat h) = Some (Some x).

(** [x] in groups of eight after hyphens. *)
Inductive grouped : list Z -> list Z -> Prop :=
| gr_nil : grouped [] []
| gr_last : forall x, x <> [] -> (length x <= 8)%nat -> grouped x (0x2D :: x)
| gr_more : forall x r y, length x = 8%nat -> r <> [] -> grouped r y -> grouped (x ++ r) (0x2D :: x ++ y).

(** The language that is asked for when [v] is given. *)
Definition language_for (v language : list Z) : Prop :=
  (v = [] \/ v = wstr "default" \/ v = wstr "fi_FI") /\ language = wstr "fi" \/
  (v <> [] /\ v <> wstr "default" /\ v <> wstr "fi_FI") /\ exists y, grouped v y /\ language = wstr "fi-x" ++ y.

(** All four handles are in use. *)
Definition full {H} (t : table H) : Prop := forall h, 1 <= h <= 4 -> exists x, instances t h x.
Definition unchanged {H} (t t' : table H) : Prop := forall h x, instances t' h x <-> instances t h x.

(** What initialisation does. *)
Inductive init_spec {H} (t t' : table H) (outcome : H + list Z) (langcode : option (list Z)) (cache : Z) (path : option (list Z)) : init_result H -> Prop :=
| init_full : full t -> unchanged t t' ->
    init_spec t t' outcome langcode cache path (mkInit H (Some (wstr "Maximum handle count exceeded")) None [])
| init_null : ~ full t -> langcode = None -> unchanged t t' ->
    init_spec t t' outcome langcode cache path (mkInit H (Some (wstr "Null language code is not allowed")) None [])
| init_success : forall v language x n, langcode = Some v -> language_for v language -> outcome = inl x ->
    (* the handle is the least free one *)
    (1 <= n <= 4)%nat -> (forall y, ~ instances t (Z.of_nat n) y) -> (forall k, 1 <= k < Z.of_nat n -> exists y, instances t k y) ->
    (forall h y, instances t' h y <-> (h = Z.of_nat n /\ y = x) \/ instances t h y) ->
    init_spec t t' outcome langcode cache path (mkInit H None (Some n) [CallInit H language path; CallSetCacheSize H x cache])
| init_failure : forall v language e, ~ full t -> langcode = Some v -> language_for v language -> outcome = inr e -> unchanged t t' ->
    init_spec t t' outcome langcode cache path (mkInit H (Some e) (Some O) [CallInit H language path]).
