(** * The back ends on top of the weighted transducer.

    Models [spellchecker/VfstSpeller.cpp], [morphology/VfstAnalyzer.cpp] and
    [spellchecker/VfstSuggestion.cpp].  The transducers are values, as the
    constructors load them (FstFileModel); the configurations are passed in and
    out.  The symbols of a file are C strings, so no output contains a NUL and
    [wcslen] of an output is its length. *)
From Verif Require Import Base CharModel AnalysisModel SpellerBase SuggestModel FstModel FstFileModel WfstModel.

(** spellchecker/VfstSpeller.cpp:41, morphology/VfstAnalyzer.cpp:51,
    spellchecker/VfstSuggestion.cpp:40. *)
Definition BUFFER_SIZE : nat := 2000.
(** voikko_defines.h:47. *)
Definition MAX_WORD : nat := 255.

(** ** The speller *)

(** [VfstSpeller::doSpell], spellchecker/VfstSpeller.cpp:50-61. *)
Definition vfst_doSpell (W : wtransducer) (c : wconfiguration) (word : list Z) : res (spellresult * wconfiguration) :=
  if (MAX_WORD <? length word)%nat then Ok (SPELL_FAILED, c)
  else
    '(known, c) <- wprepare W c word ;;
    if (known : bool) then
      '(o, c, _) <- wnext W c BUFFER_SIZE ;;
      Ok (match o with WFound _ _ => SPELL_OK | _ => SPELL_FAILED end, c)
    else Ok (SPELL_FAILED, c).

(** [VfstSpeller::spell], lines 63-76, for the [wlen] characters at [word].  The
    copy is of the whole string, but only [wlen] characters of it are used; the
    first character of an empty word is its terminator, which is not a small
    letter. *)
Definition vfst_spell (W : wtransducer) (c : wconfiguration) (word : list Z) : res (spellresult * wconfiguration) :=
  '(result, c) <- vfst_doSpell W c word ;;
  match word with
  | first :: rest =>
      if spell_failed result && isLower first then
        '(result, c) <- vfst_doSpell W c (upper first :: rest) ;;
        Ok (match result with SPELL_OK => SPELL_CAP_FIRST | _ => result end, c)
      else Ok (result, c)
  | [] => Ok (result, c)
  end.

(** ** The analyser *)

(** morphology/VfstAnalyzer.cpp:52. *)
Definition MAX_ANALYSIS_COUNT : nat := 100.

(** The loop of [VfstAnalyzer::analyze], lines 87-98; [n] is how often the
    condition on [analysisCount] still holds.  [prob] is the text of
    [logWeightToProb] of a weight, which is not modelled. *)
Fixpoint vfst_analyses (step : wconfiguration -> res (woutcome * wconfiguration * nat)) (prob : Z -> list Z) (n : nat) (full : bool)
    (c : wconfiguration) : res (list analysis * wconfiguration) :=
  match n with
  | O => Ok ([], c)
  | S n =>
      '(o, c, _) <- step c ;;
      match o with
      | WFound out weight =>
          let a := if full then add no_attributes FSTOUTPUT out else no_attributes in
          let a := add a WEIGHT (prob weight) in
          '(l, c) <- vfst_analyses step prob n full c ;;
          Ok (a :: l, c)
      | _ => Ok ([], c)
      end
  end.

(** [VfstAnalyzer::analyze], lines 73-103. *)
Definition vfst_analyze (W : wtransducer) (prob : Z -> list Z) (c : wconfiguration) (word : list Z) (full : bool)
    : res (list analysis * wconfiguration) :=
  if (MAX_WORD <? length word)%nat then Ok ([], c)
  else
    '(known, c) <- wprepare W c (voikko_set_case CT_ALL_LOWER word) ;;
    if (known : bool) then vfst_analyses (fun c => wnext W c BUFFER_SIZE) prob (MAX_ANALYSIS_COUNT - 1) full c
    else Ok ([], c).

(** ** The suggestions *)

(** The update of [suggestionWeights], spellchecker/VfstSuggestion.cpp:75-80.
    The keys are in any order here: the queue sorts them by weight. *)
Fixpoint add_weight (weights : list (list Z * Z)) (u : list Z) (weight : Z) : list (list Z * Z) :=
  match weights with
  | [] => [(u, weight)]
  | (v, x) :: rest => if zlist_eqb v u then (v, Z.min x weight) :: rest else (v, x) :: add_weight rest u weight
  end.

(** What happens with one result of the error model, lines 71-87; the error
    model is moved on by [backtrack]. *)
Definition try_candidate (A : wtransducer) (backtrack : nat -> res wconfiguration) (ce ca : wconfiguration) (weights : list (list Z * Z))
    (u : list Z) (errorModelWeight : Z) : res (wconfiguration * wconfiguration * list (list Z * Z)) :=
  '(known, ca) <- wprepare A ca u ;;
  if (known : bool) then
    '(o, ca, firstNotReachedPosition) <- wnext A ca BUFFER_SIZE ;;
    match o with
    | WFound _ acceptorWeight => Ok (ce, ca, add_weight weights u (acceptorWeight + errorModelWeight))
    | _ => ce <- backtrack firstNotReachedPosition ;; Ok (ce, ca, weights)
    end
  else Ok (ce, ca, weights).

(** The loop of [VfstSuggestion::generate], lines 70-89.  [shouldAbort] does not
    change in it.  The first result is how the error model ended. *)
Fixpoint candidates_loop (fuel : nat) (E A : wtransducer) (ce ca : wconfiguration) (weights : list (list Z * Z))
    : res (woutcome * list (list Z * Z) * (wconfiguration * wconfiguration)) :=
  match fuel with
  | O => Fuel
  | S f =>
      '(o, ce, _) <- wnext E ce BUFFER_SIZE ;;
      match o with
      | WFound u errorModelWeight =>
          '(ce, ca, weights) <- try_candidate A (backtrackToOutputDepth E ce) ce ca weights u errorModelWeight ;;
          candidates_loop f E A ce ca weights
      | _ => Ok (o, weights, (ce, ca))
      end
  end.

(** The second loop, lines 101-105. *)
Fixpoint add_suggestions (s : status) (l : list (list Z * Z)) : res status :=
  match l with
  | [] => Ok s
  | (u, weight) :: rest => s <- addSuggestion s u weight ;; add_suggestions s rest
  end.

(** [VfstSuggestion::generate], lines 62-106.  [queue] stands for filling the
    priority queue and taking everything out of it; the order of elements with
    the same weight is left open by the language. *)
Definition vfst_generate (fuel : nat) (queue : list (list Z * Z) -> list (list Z * Z)) (E A : wtransducer) (ce ca : wconfiguration) (s : status)
    : res (status * (wconfiguration * wconfiguration)) :=
  let s := setMaxCost s 100 in
  '(known, ce) <- wprepare E ce (sword s) ;;
  '(weights, (ce, ca)) <-
    (if (known : bool) && negb (shouldAbort s) then '(_, weights, cs) <- candidates_loop fuel E A ce ca [] ;; Ok (weights, cs)
     else Ok ([], (ce, ca))) ;;
  s <- add_suggestions s (queue weights) ;;
  Ok (s, (ce, ca)).
