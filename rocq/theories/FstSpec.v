(** * What a transducer means.

    The table of a transducer describes an automaton; a result of looking up a
    word is the output of an accepting path.  Nothing here refers to the
    search. *)
From Verif Require Import Base FstModel.

(** Transitions with this input symbol make their state final. *)
Definition FINAL : Z := 0xFFFF.

(** The last cell of the state that starts at cell [q], and whether its second
    cell holds the number of transitions instead of a transition. *)
Definition extent (T : transducer) (q : nat) : option (nat * bool) :=
  match nth_error (transitions T) q with
  | None => None
  | Some h =>
      if moreTransitions h =? 255 then
        match nth_error (transitions T) (q + 1) with
        | Some o => Some ((q + 1 + Z.to_nat (overflow o))%nat, true)
        | None => None
        end
      else Some ((q + Z.to_nat (moreTransitions h))%nat, false)
  end.

(** [t] is a transition of state [q], at index [i] of the table. *)
Definition has_transition (T : transducer) (q i : nat) (t : cell) : Prop :=
  exists last big, extent T q = Some (last, big) /\ (q <= i <= last)%nat /\ (big = true -> i <> (q + 1)%nat) /\
    nth_error (transitions T) i = Some t.

(** Flag diacritics, Beesley and Karttunen's Finite State Morphology: positive
    (re)setting, clearing, unification, requiring and disallowing, each with or
    without a value.  The values of all features are in a list; 0 is neutral
    and 1 stands for a missing value. *)
Inductive flag_step : OpFeatureValue -> list Z -> list Z -> Prop :=
| flag_P f v fl : flag_step (mk_ofv Operation_P f v) fl (upd fl f v)
| flag_C f v fl : flag_step (mk_ofv Operation_C f v) fl (upd fl f 0)
| flag_U_set f v fl : nth_error fl f = Some 0 -> flag_step (mk_ofv Operation_U f v) fl (upd fl f v)
| flag_U_same f v fl : v <> 0 -> nth_error fl f = Some v -> flag_step (mk_ofv Operation_U f v) fl fl
| flag_R_any f fl x : nth_error fl f = Some x -> x <> 0 -> flag_step (mk_ofv Operation_R f 1) fl fl
| flag_R_value f v fl : v <> 1 -> nth_error fl f = Some v -> flag_step (mk_ofv Operation_R f v) fl fl
| flag_D_any f fl : nth_error fl f = Some 0 -> flag_step (mk_ofv Operation_D f 1) fl fl
| flag_D_value f v fl x : v <> 1 -> nth_error fl f = Some x -> x <> v -> flag_step (mk_ofv Operation_D f v) fl fl.

(** What a transition writes: flags and epsilon write nothing. *)
Definition writes (T : transducer) (t : cell) (s : list Z) : Prop :=
  if firstNormalChar T <=? symOut t then nth_error (symbolToString T) (Z.to_nat (symOut t)) = Some s else s = [].

(** The character a symbol stands for. *)
Definition symbol_of (T : transducer) (c s : Z) : Prop := find_symbol (stringToSymbol T) c = Some s.

(** [path T q fl w p out rest]: starting in state [q] with flag values [fl], the
    transitions with indices [p] lead to acceptance.  They consume [w] up to
    [rest] and write [out]. *)
Inductive path (T : transducer) : nat -> list Z -> list Z -> list nat -> list Z -> list Z -> Prop :=
| path_final q fl w i t :
    has_transition T q i t -> symIn t = FINAL -> path T q fl w [i] [] w
| path_read q fl c w i t p s out rest :
    has_transition T q i t -> symIn t <> FINAL -> symbol_of T c (symIn t) -> writes T t s ->
    path T (Z.to_nat (targetState t)) fl w p out rest ->
    path T q fl (c :: w) (i :: p) (s ++ out) rest
| path_epsilon q fl w i t p s out rest :
    has_transition T q i t -> symIn t = 0 -> writes T t s ->
    path T (Z.to_nat (targetState t)) fl w p out rest ->
    path T q fl w (i :: p) (s ++ out) rest
| path_flag q fl fl' w i t o p s out rest :
    has_transition T q i t -> 0 < symIn t < firstNormalChar T ->
    nth_error (symbolToDiacritic T) (Z.to_nat (symIn t)) = Some o -> flag_step o fl fl' -> writes T t s ->
    path T (Z.to_nat (targetState t)) fl' w p out rest ->
    path T q fl w (i :: p) (s ++ out) rest.

(** No flag is set. *)
Definition neutral (T : transducer) : list Z := repeat 0 (flagDiacriticFeatureCount T).

(** The automaton accepts the word [w], writing [out], along [p]. *)
Definition accepts (T : transducer) (w : list Z) (p : list nat) (out : list Z) : Prop :=
  path T 0 (neutral T) w p out [].

(** It accepts the first [n] characters of [w]. *)
Definition accepts_prefix (T : transducer) (w : list Z) (p : list nat) (out : list Z) (n : nat) : Prop :=
  (n <= length w)%nat /\ path T 0 (neutral T) w p out (skipn n w).

(** Order of paths: the first difference decides. *)
Inductive before : list nat -> list nat -> Prop :=
| before_here i j p q : (i < j)%nat -> before (i :: p) (j :: q)
| before_later i p q : before p q -> before (i :: p) (i :: q).

(** Tables as the dictionary compiler writes them. *)
Definition good_transition (T : transducer) (t : cell) : Prop :=
  symIn t = FINAL \/
  (0 <= symIn t /\ symIn t <> unknownSymbolOrdinal T /\ 0 <= targetState t /\
   (0 < symIn t < firstNormalChar T -> exists o, nth_error (symbolToDiacritic T) (Z.to_nat (symIn t)) = Some o /\
      (ofv_feature o < flagDiacriticFeatureCount T)%nat /\ 0 <= ofv_value o) /\
   (firstNormalChar T <= symOut t -> exists s, nth_error (symbolToString T) (Z.to_nat (symOut t)) = Some s)).

Definition good_state (T : transducer) (q : nat) : Prop :=
  exists last big, extent T q = Some (last, big) /\ (last < length (transitions T))%nat /\ Z.of_nat last < 2 ^ 32 - 1 /\
    (if big then (q + 255 <= last)%nat else (last < q + 255)%nat).

Definition good_transducer (T : transducer) : Prop :=
  0 < firstNormalChar T < FINAL /\
  (forall c s, symbol_of T c s -> firstNormalChar T <= s < unknownSymbolOrdinal T) /\
  firstNormalChar T <= unknownSymbolOrdinal T /\
  nth_error (symbolToString T) 0 = Some [] /\
  exists states : nat -> Prop, states 0%nat /\
    forall q, states q -> good_state T q /\
      forall i t, has_transition T q i t -> good_transition T t /\
        (symIn t <> FINAL -> states (Z.to_nat (targetState t))).

(** ** Using a transducer

    A caller prepares a configuration with a word and then asks for results,
    one at a time, until it has enough or there are no more. *)
Definition step (T : transducer) (prefix : bool) (bufferLen : nat) (c : configuration) : res (outcome * configuration) :=
  if prefix then nextPrefix T c bufferLen else next T c bufferLen.

(** [lookup T prefix len c results e c']: asking repeatedly gives [results].
    Then either the caller gives up ([e = None]) or the last call returns false
    because of [e]. *)
Inductive lookup (T : transducer) (prefix : bool) (len : nat) : configuration -> list (list Z * nat) -> option outcome -> configuration -> Prop :=
| lookup_stop c : lookup T prefix len c [] None c
| lookup_found c out k c1 results e c2 : step T prefix len c = Ok (Found out k, c1) ->
    lookup T prefix len c1 results e c2 -> lookup T prefix len c ((out, k) :: results) e c2
| lookup_false c e c1 : step T prefix len c = Ok (e, c1) -> (forall out k, e <> Found out k) -> lookup T prefix len c [] (Some e) c1.

(** Configurations that come out of any use, one word after another.  Words are
    no longer than the buffers of the configuration. *)
Inductive used (T : transducer) (size : nat) : configuration -> Prop :=
| used_new : used T size (new_configuration (flagDiacriticFeatureCount T) size)
| used_lookup c word known c1 prefix len results e c2 : used T size c -> (length word <= size)%nat -> (0 < len)%nat ->
    prepare T c word = Ok (known, c1) -> lookup T prefix len c1 results e c2 -> used T size c2.

(** The same, where every lookup that was started went on until there were no more
    results. *)
Inductive exhausted (T : transducer) (size : nat) : configuration -> Prop :=
| exhausted_new : exhausted T size (new_configuration (flagDiacriticFeatureCount T) size)
| exhausted_lookup c word known c1 prefix len results c2 : exhausted T size c -> (length word <= size)%nat -> (0 < len)%nat ->
    prepare T c word = Ok (known, c1) -> lookup T prefix len c1 results (Some End) c2 -> exhausted T size c2
| exhausted_prepare c word known c1 : exhausted T size c -> (length word <= size)%nat -> prepare T c word = Ok (known, c1) -> exhausted T size c1.
