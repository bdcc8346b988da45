(** * The setters of the Python, Java, C# and JavaScript interfaces.

    Models the setters of [libvoikko/python/libvoikko.py] (lines 802-920),
    [libvoikko/java/src/main/java/org/puimula/libvoikko/Voikko.java] (452-636),
    [libvoikko/cs/libvoikko/Voikko.cs] (456-556) and
    [libvoikko/js/libvoikko_api.js] (320-386).  The four files use the same
    numbers for the same names, so that there is one model for them.  Not
    modelled: the setter for the size of the cache, closed handles, locks, and
    values that are no suggestion strategies. *)
From Verif Require Import Base GcCacheModel HandleModel.

(** The setters with a truth value; [SuggestionStrategy] is set to OCR ([true])
    or TYPO ([false]). *)
Inductive setting : Type :=
| IgnoreDot | IgnoreNumbers | IgnoreUppercase | AcceptFirstUppercase | AcceptAllUppercase | IgnoreNonwords | AcceptExtraHyphens
| AcceptMissingHyphens | AcceptTitlesInGc | AcceptUnfinishedParagraphsInGc | AcceptBulletedListsInGc | NoUglyHyphenation
| HyphenateUnknownWords | SuggestionStrategyOcr.

(** The numbers in the setters: libvoikko.py:810-897 and 916-918, Voikko.java:470-593
    and 629-636, Voikko.cs:470-518 and 546-551, libvoikko_api.js:320-370 and
    377-381. *)
Definition option_number (s : setting) : Z :=
  match s with
  | IgnoreDot => 0
  | IgnoreNumbers => 1
  | IgnoreUppercase => 3
  | AcceptFirstUppercase => 6
  | AcceptAllUppercase => 7
  | IgnoreNonwords => 10
  | AcceptExtraHyphens => 11
  | AcceptMissingHyphens => 12
  | AcceptTitlesInGc => 13
  | AcceptUnfinishedParagraphsInGc => 14
  | AcceptBulletedListsInGc => 16
  | NoUglyHyphenation => 4
  | HyphenateUnknownWords => 15
  | SuggestionStrategyOcr => 8
  end.

(** [setBooleanOption], libvoikko.py:453-460; [setBoolOption], Voikko.java:452-458,
    Voikko.cs:456-467 and libvoikko_api.js:112-118.  [UB] is the exception. *)
Definition setBoolOption (h : handle) (option_ : Z) (value : bool) : res handle :=
  let '(result, h') := voikkoSetBooleanOption h option_ value in
  if result =? 0 then UB else Ok h'.

(** [setIntegerOption], libvoikko.py:462-469, Voikko.java:596-602, Voikko.cs:521-532
    and libvoikko_api.js:120-126. *)
Definition setIntegerOption (h : handle) (option_ value : Z) : res handle :=
  '(result, h') <- voikkoSetIntegerOption h option_ value ;;
  if result =? 0 then UB else Ok h'.

(** A call of a setter. *)
Inductive call : Type := Set_ (s : setting) (value : bool) | SetMinHyphenatedWordLength (value : Z).

(** The setters; the last one is at libvoikko.py:899-904, Voikko.java:610-612,
    Voikko.cs:534-536 and libvoikko_api.js:372-374. *)
Definition run_call (h : handle) (c : call) : res handle :=
  match c with
  | Set_ s value => setBoolOption h (option_number s) value
  | SetMinHyphenatedWordLength value => setIntegerOption h 9 value
  end.

(** A program that calls setters one after another. *)
Fixpoint run_calls (h : handle) (l : list call) : res handle :=
  match l with
  | [] => Ok h
  | c :: r => h' <- run_call h c ;; run_calls h' r
  end.
