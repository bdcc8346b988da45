(** * What a weighted transducer means.

    It is an automaton like that of [FstSpec], whose transitions have weights.
    Nothing here refers to the search. *)
From Verif Require Import Base FstModel FstFileModel FstSpec WfstModel.

(** The same automaton without the weights.  In weighted tables the input
    symbol of a final transition is 0xFFFFFFFF. *)
Definition forget_weight (c : wcell) : cell :=
  mk_cell (if w_symIn c =? 0xFFFFFFFF then FINAL else w_symIn c) (w_symOut c) (w_target c) (w_more c).

Definition forget (W : wtransducer) : transducer :=
  mk_fst (map forget_weight (wtransitions W)) (w_stringToSymbol W) (w_symbolToString W) (w_symbolToDiacritic W)
    (w_featureCount W) (w_firstNormalChar W) (Z.of_nat (length (w_symbolToString W))).

(** Acceptance of a word, writing [out], along [p]. *)
Definition waccepts (W : wtransducer) (w : list Z) (p : list nat) (out : list Z) : Prop := accepts (forget W) w p out.

(** The weight of a path. *)
Definition weight_at (W : wtransducer) (i : nat) : Z :=
  match nth_error (wtransitions W) i with Some c => w_weight c | None => 0 end.
Definition path_weight (W : wtransducer) (p : list nat) : Z := fold_right (fun i s => weight_at W i + s) 0 p.

(** [c] is a transition of state [q], at index [i] of the table. *)
Definition has_wtransition (W : wtransducer) (q i : nat) (c : wcell) : Prop :=
  nth_error (wtransitions W) i = Some c /\ has_transition (forget W) q i (forget_weight c).

(** Tables as the dictionary compiler writes them. *)
Definition good_wtransition (W : wtransducer) (c : wcell) : Prop :=
  good_transition (forget W) (forget_weight c) /\ (w_symIn c < FINAL \/ w_symIn c = 0xFFFFFFFF) /\ -32768 <= w_weight c < 32768.

Definition good_wstate (W : wtransducer) (q : nat) : Prop :=
  good_state (forget W) q /\
  forall h o, nth_error (wtransitions W) q = Some h -> w_more h = 255 -> nth_error (wtransitions W) (q + 1) = Some o ->
    w_symOut o = 0 /\ 0 <= w_symIn o < 0xFFFFFFFF.

Definition good_weighted (W : wtransducer) : Prop :=
  0 < w_firstNormalChar W < FINAL /\
  (forall c s, find_symbol (w_stringToSymbol W) c = Some s -> w_firstNormalChar W <= s < Z.of_nat (length (w_symbolToString W))) /\
  w_firstNormalChar W <= Z.of_nat (length (w_symbolToString W)) /\
  nth_error (w_symbolToString W) 0 = Some [] /\
  exists states : nat -> Prop, states 0%nat /\
    forall q, states q -> good_wstate W q /\
      forall i c, has_wtransition W q i c -> good_wtransition W c /\
        (w_symIn c <> 0xFFFFFFFF -> states (Z.to_nat (w_target c))).

(** The order of the transitions of a state in the file: epsilon, then final,
    then the others by their symbol. *)
Definition file_order (a b : wcell) : Prop :=
  w_symIn a = 0 \/ (w_symIn a = 0xFFFFFFFF /\ w_symIn b <> 0) \/
  (w_symIn b <> 0 /\ w_symIn b <> 0xFFFFFFFF /\ w_symIn a <= w_symIn b).
Definition in_file_order (W : wtransducer) : Prop :=
  forall q i j a b, has_wtransition W q i a -> has_wtransition W q j b -> (i < j)%nat -> file_order a b.

(** No state has transitions for two different flags. *)
Definition one_flag (W : wtransducer) : Prop :=
  forall q i j a b, has_wtransition W q i a -> has_wtransition W q j b ->
    0 < w_symIn a < w_firstNormalChar W -> 0 < w_symIn b < w_firstNormalChar W -> w_symIn a = w_symIn b.

(** The characters of a word before the first that no symbol stands for. *)
Fixpoint known_prefix (W : wtransducer) (word : list Z) : list Z :=
  match word with
  | [] => []
  | c :: rest => match find_symbol (w_stringToSymbol W) c with Some _ => c :: known_prefix W rest | None => [] end
  end.

(** ** Using a transducer, as in [FstSpec]. *)
Inductive wlookup (W : wtransducer) (len : nat) : wconfiguration -> list (list Z * Z) -> option woutcome -> wconfiguration -> Prop :=
| wlookup_stop c : wlookup W len c [] None c
| wlookup_found c out w n c1 results e c2 : wnext W c len = Ok (WFound out w, c1, n) ->
    wlookup W len c1 results e c2 -> wlookup W len c ((out, w) :: results) e c2
| wlookup_false c e n c1 : wnext W c len = Ok (e, c1, n) -> (forall out w, e <> WFound out w) -> wlookup W len c [] (Some e) c1.

(** Configurations that come out of any use, one word after another. *)
Inductive wused (W : wtransducer) (size : nat) : wconfiguration -> Prop :=
| wused_new : wused W size (new_wconfiguration (w_featureCount W) size)
| wused_lookup c word known c1 len results e c2 : wused W size c -> (length word <= size)%nat -> (0 < len)%nat ->
    wprepare W c word = Ok (known, c1) -> wlookup W len c1 results e c2 -> wused W size c2.
