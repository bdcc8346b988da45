(** * What the back ends on the weighted transducer should do.

    Nothing here refers to the search. *)
From Coq Require Import Sorted Permutation.
From Verif Require Import Base CharModel AnalysisModel SpellerBase SuggestModel FstModel FstFileModel FstSpec WfstModel WfstSpec VfstModel.

(** The transducer accepts the word. *)
Definition accepted (W : wtransducer) (word : list Z) : Prop := exists p out, waccepts W word p out.

(** The transducer stops at one of its limits before it has an answer for the
    word: the text written, the depth of the search or the number of steps. *)
Definition limit (o : woutcome) : Prop := o = WTooLong \/ o = WTooDeep \/ o = WLoopLimit.
Definition gives_up (W : wtransducer) (word : list Z) : Prop :=
  exists c o c' n, wprepare W (new_wconfiguration (w_featureCount W) BUFFER_SIZE) word = Ok (true, c) /\
    wnext W c BUFFER_SIZE = Ok (o, c', n) /\ limit o.

(** A speller, and an analyser, that have been used for any words. *)
Inductive speller_used (W : wtransducer) : wconfiguration -> Prop :=
| speller_new : speller_used W (new_wconfiguration (w_featureCount W) BUFFER_SIZE)
| speller_word c word r c' : speller_used W c -> vfst_spell W c word = Ok (r, c') -> speller_used W c'.

Inductive analyzer_used (W : wtransducer) (prob : Z -> list Z) : wconfiguration -> Prop :=
| analyzer_new : analyzer_used W prob (new_wconfiguration (w_featureCount W) BUFFER_SIZE)
| analyzer_word c word full l c' : analyzer_used W prob c -> vfst_analyze W prob c word full = Ok (l, c') -> analyzer_used W prob c'.

(** The answers a speller should give. *)
Inductive right_answer (W : wtransducer) : list Z -> spellresult -> Prop :=
| right_ok word : accepted W word -> right_answer W word SPELL_OK
| right_capital first rest : ~ accepted W (first :: rest) -> isLower first = true -> accepted W (upper first :: rest) ->
    right_answer W (first :: rest) SPELL_CAP_FIRST
| right_failed word : ~ accepted W word ->
    (forall first rest, word = first :: rest -> isLower first = true -> ~ accepted W (upper first :: rest)) ->
    right_answer W word SPELL_FAILED.

(** The analysis for one accepting path. *)
Definition path_analysis (W : wtransducer) (prob : Z -> list Z) (full : bool) (p : list nat) (out : list Z) (a : analysis) : Prop :=
  a FSTOUTPUT = (if full then Some out else None) /\ a WEIGHT = Some (prob (to_int16 (path_weight W p))) /\
  forall k, k <> FSTOUTPUT -> k <> WEIGHT -> a k = None.

(** Looking up the word, in small letters, on a new configuration, the
    transducer stops at a limit after some results. *)
Definition stops_early (W : wtransducer) (word : list Z) : Prop :=
  exists c results o c', wprepare W (new_wconfiguration (w_featureCount W) BUFFER_SIZE) (voikko_set_case CT_ALL_LOWER word) = Ok (true, c) /\
    wlookup W BUFFER_SIZE c results (Some o) c' /\ limit o.

(** ** Corrections *)

(** An error model without flags, where every symbol but epsilon stands for some
    text.  Symbols are numbered with 16 bits. *)
Definition plain_error_model (E : wtransducer) : Prop :=
  w_firstNormalChar E = 1 /\
  (forall i s, (1 <= i)%nat -> nth_error (w_symbolToString E) i = Some s -> s <> []) /\
  Forall (fun c => 0 <= w_symOut c < 65536) (wtransitions E).

(** The weight of the first result for a word, first in the order of the table. *)
Definition first_weight (A : wtransducer) (u : list Z) (w : Z) : Prop :=
  exists q out, waccepts A u q out /\ w = to_int16 (path_weight A q) /\ forall q' out', waccepts A u q' out' -> ~ before q' q.

(** [u] is a correction of [word] with the weight [w]: the error model [E] can
    write [u] for [word], the dictionary [A] accepts [u], and [w] is the least
    weight with which the error model does so plus the weight of [u] in the
    dictionary. *)
Definition correction (E A : wtransducer) (word u : list Z) (w : Z) : Prop :=
  exists p wa, waccepts E word p u /\ first_weight A u wa /\ w = wa + to_int16 (path_weight E p) /\
    forall p', waccepts E word p' u -> to_int16 (path_weight E p) <= to_int16 (path_weight E p').

(** Everything in the queue comes out, the least weight first. *)
Definition by_weight (a b : list Z * Z) : Prop := snd a <= snd b.
Definition priority_queue (queue : list (list Z * Z) -> list (list Z * Z)) : Prop :=
  forall l, Permutation (queue l) l /\ StronglySorted by_weight (queue l).

(** A suggestion generator that has been used for any words that fit its
    buffers. *)
Inductive suggester_used (queue : list (list Z * Z) -> list (list Z * Z)) (E A : wtransducer) : wconfiguration -> wconfiguration -> Prop :=
| suggester_new : suggester_used queue E A (new_wconfiguration (w_featureCount E) BUFFER_SIZE) (new_wconfiguration (w_featureCount A) BUFFER_SIZE)
| suggester_word ce ca fuel s s' ce' ca' : suggester_used queue E A ce ca -> (length (sword s) <= BUFFER_SIZE)%nat ->
    vfst_generate fuel queue E A ce ca s = Ok (s', (ce', ca')) -> suggester_used queue E A ce' ca'.

(** For this word the error model stops at a limit before it has written
    everything it can write. *)
Definition error_model_stops (E A : wtransducer) (word : list Z) : Prop :=
  exists fuel c o weights cs, wprepare E (new_wconfiguration (w_featureCount E) BUFFER_SIZE) word = Ok (true, c) /\
    candidates_loop fuel E A c (new_wconfiguration (w_featureCount A) BUFFER_SIZE) [] = Ok (o, weights, cs) /\ limit o.

(** The priorities under which a list of corrections is recorded. *)
Fixpoint priced (i : Z) (l : list (list Z * Z)) : list (list Z * Z) :=
  match l with
  | [] => []
  | (u, w) :: rest => (u, w * (i + 5)) :: priced (i + 1) rest
  end.
