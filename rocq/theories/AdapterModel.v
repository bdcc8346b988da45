(** * From morphological analyses to spelling verdicts.

    Models [spellchecker/SpellUtils.cpp] and
    [spellchecker/AnalyzerToSpellerAdapter.cpp]. *)
From Verif Require Import Base CharModel SpellerBase AnalysisModel AnalyzerBase.

(** [while (structure[j] == '=') j++]; the list is the structure from [j] on, with
    its terminator. *)
Fixpoint skip_borders (st : list Z) : res (list Z) :=
  match st with
  | [] => UB
  | s :: r => if s =? 0x3D then skip_borders r else Ok st
  end.

(** Value of [captype], SpellUtils.cpp:50-58. *)
Inductive captype : Type := CAP_I | CAP_P | CAP_V.
Definition captype_of (c : Z) : captype :=
  if isUpper c then CAP_I else if isLower c then CAP_P else CAP_V.

(** The loop of [matchWordAndAnalysis], lines 41-74, from character [i] of the
    word. *)
Fixpoint match_loop (i : nat) (word st : list Z) (result : spellresult) : res spellresult :=
  match word with
  | [] => Ok result
  | c :: w =>
      st <- skip_borders st ;;
      s <- rd st 0 ;;
      if s =? 0 then Ok result
      else
        let result :=
          match captype_of c with
          | CAP_P => if (s =? 0x69) || (s =? 0x6A)
                     then (if Nat.eqb i 0 then SPELL_CAP_FIRST else SPELL_CAP_ERROR) else result
          | _ => result
          end in
        let result :=
          match captype_of c with
          | CAP_I => if (s =? 0x70) || (s =? 0x71) then SPELL_CAP_ERROR else result
          | _ => result
          end in
        match result with
        | SPELL_CAP_ERROR => Ok SPELL_CAP_ERROR
        | _ => match_loop (S i) w (skipn 1 st) result
        end
  end.

(** [SpellUtils::matchWordAndAnalysis], SpellUtils.cpp:36-76.  [st] is the
    structure without its terminator. *)
Definition matchWordAndAnalysis (word st : list Z) : res spellresult :=
  match_loop 0 word (st ++ [0]) SPELL_OK.

(** The integer value of the enumeration (Speller.hpp:42), used by [>]. *)
Definition rank (r : spellresult) : nat :=
  match r with SPELL_FAILED => 0 | SPELL_OK => 1 | SPELL_CAP_FIRST => 2 | SPELL_CAP_ERROR => 3 end.

(** [best == SPELL_FAILED || best > r], AnalyzerToSpellerAdapter.cpp:53 and
    FinnishSpellerTweaksWrapper.cpp:153-160. *)
Definition improves (best r : spellresult) : bool := spell_failed best || (rank r <? rank best)%nat.

Definition spell_ok (r : spellresult) : bool := match r with SPELL_OK => true | _ => false end.

(** The loop of [AnalyzerToSpellerAdapter::spell], lines 50-61.  A missing
    STRUCTURE attribute is a NULL dereference. *)
Fixpoint adapter_loop (word : list Z) (l : list analysis) (best : spellresult) : res spellresult :=
  match l with
  | [] => Ok best
  | a :: r =>
      match a STRUCTURE with
      | None => UB
      | Some st =>
          result <- matchWordAndAnalysis word st ;;
          let best := if improves best result then result else best in
          if spell_ok best then Ok best else adapter_loop word r best
      end
  end.

(** [AnalyzerToSpellerAdapter::spell], lines 41-65. *)
Definition adapter_spell (an : analyzer) (word : list Z) : res spellresult :=
  match an false word with
  | [] => Ok SPELL_FAILED
  | l => adapter_loop word l SPELL_FAILED
  end.
