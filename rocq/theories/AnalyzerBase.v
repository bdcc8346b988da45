(** * The interface of morphological analysers (morphology/Analyzer.hpp).

    An analyser maps a word to its analyses; the first argument is
    [fullMorphology].  Analysers are deterministic functions of the word here
    (for the transducer based analyser see the theorems about lookups). *)
From Verif Require Import Base AnalysisModel Utf8Model.

Definition analyzer := bool -> list Z -> list analysis.

(** [Analyzer::analyze(const char * word, bool fullMorphology)],
    morphology/FinnishVfstAnalyzer.cpp:139-144: a NULL result of the conversion
    is dereferenced. *)
Definition analyze_cstr (an : analyzer) (full : bool) (bytes : list Z) : res (list analysis) :=
  o <- ucs4FromUtf8 bytes ;;
  match o with
  | None => UB
  | Some w => Ok (an full (cstr w))
  end.
