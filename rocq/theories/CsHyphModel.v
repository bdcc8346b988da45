(** * Hyphenation in the C# interface.

    Models [GetHyphenationPattern] and [Hyphenate] of
    [libvoikko/cs/libvoikko/Voikko.cs] (called Voikko.cs below).  [UB] stands for
    an exception: a null pattern or an index beyond the end of the word. *)
From Verif Require Import Base AnalyzerBase HandleModel HyphModel PyModel CsModel.

(** [GetHyphenationPattern], Voikko.cs:407-422; [None] is null, which [n2s],
    ByteArray.cs:36-52, returns for NULL.  Patterns are ASCII. *)
Definition GetHyphenationPattern (an : analyzer) (h : handle) (word : list Z) : res (option (list Z)) :=
  if negb (isValidInput word) then Ok (Some (repeat 0x20 (length word)))
  else voikkoHyphenateCstr an h (s2n word).

(** The loop of [Hyphenate], Voikko.cs:428-442; [i] is the position, [hyphenated]
    the contents of the string builder. *)
Fixpoint hyphenate_loop (word pattern : list Z) (i : nat) (hyphenated : list Z) : res (list Z) :=
  match pattern with
  | [] => Ok hyphenated
  | patternC :: r =>
      if patternC =? 0x20 then
        c <- rd word i ;;
        hyphenate_loop word r (i + 1) (hyphenated ++ [c])
      else if patternC =? 0x2D then
        c <- rd word i ;;
        hyphenate_loop word r (i + 1) ((hyphenated ++ [0x2D]) ++ [c])
      else if patternC =? 0x3D then hyphenate_loop word r (i + 1) (hyphenated ++ [0x2D])
      else hyphenate_loop word r (i + 1) hyphenated
  end.

(** [Hyphenate], Voikko.cs:424-444. *)
Definition cs_Hyphenate (an : analyzer) (h : handle) (word : list Z) : res (list Z) :=
  p <- GetHyphenationPattern an h word ;;
  match p with
  | None => UB
  | Some pattern => hyphenate_loop word pattern 0 []
  end.
