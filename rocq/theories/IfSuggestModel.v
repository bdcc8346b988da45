(** * Suggestions in the Python, Java, C# and JavaScript interfaces.

    Models [suggest] of [libvoikko/python/libvoikko.py],
    [libvoikko/java/src/main/java/org/puimula/libvoikko/Voikko.java],
    [libvoikko/cs/libvoikko/Voikko.cs] and [libvoikko/js/libvoikko_api.js].  [UB]
    stands for a crash.  Strings that come from the library are given as code
    points in Python and as UTF-8 elsewhere: their decoding is not modelled.
    Handles are open, and locks and the freeing of the arrays are left out. *)
From Verif Require Import Base AnalyzerBase HandleModel Utf8Spec SuggestModel PyModel JavaModel CsModel.

(** The array of pointers that the library returns: a NULL pointer, [None],
    follows the last string, suggestions.cpp:50-66 and 184-201. *)
Definition c_array (l : list (list Z)) : list (option (list Z)) := map Some l ++ [None].

(** The loops over the array outside Python: [getPointerArray] of JNA (a library,
    which reads up to the NULL pointer) with Voikko.java:200-204,
    Voikko.cs:229-232 and [extractSuggestions], libvoikko_api.js:98-106.  [rounds] bounds the number
    of rounds by the size of the array; reading behind it is [UB]. *)
Fixpoint extract (rounds : nat) (array : list (option (list Z))) (i : nat) (suggestions : list (list Z)) : res (list (list Z)) :=
  match rounds with
  | O => Fuel
  | S rounds' =>
      p <- rd array i ;;
      match p with
      | Some s => extract rounds' array (i + 1) (suggestions ++ [s])
      | None => Ok suggestions
      end
  end.
Definition strings_of (o : option (list (list Z))) : res (list (list Z)) :=
  match o with
  | None => Ok []
  | Some l => extract (length (c_array l)) (c_array l) 0 []
  end.

(** The loop in Python, libvoikko.py:603-606: [bool] is false for an empty string,
    too. *)
Fixpoint py_extract (rounds : nat) (array : list (option (list Z))) (i : nat) (pSuggestions : list (list Z)) : res (list (list Z)) :=
  match rounds with
  | O => Fuel
  | S rounds' =>
      p <- rd array i ;;
      match p with
      | Some (c :: r) => py_extract rounds' array (i + 1) (pSuggestions ++ [c :: r])
      | _ => Ok pSuggestions
      end
  end.

(** Python, libvoikko.py:590-609. *)
Definition py_suggest (generate : status -> res status) (h : handle) (word : list Z) : res (list (list Z)) :=
  if negb (isValidInput word) then Ok []
  else
    cSuggestions <- voikkoSuggestUcs4 generate h word ;;
    match cSuggestions with
    | None => Ok []
    | Some l => py_extract (length (c_array l)) (c_array l) 0 []
    end.

(** Java, Voikko.java:191-207. *)
Definition java_suggest (generate : status -> res status) (h : handle) (word : list Z) : res (list (list Z)) :=
  if negb (isValidInput word) then Ok []
  else cSuggestions <- voikkoSuggestCstr generate h (getBytes word) ;; strings_of cSuggestions.

(** C#, Voikko.cs:212-237. *)
Definition cs_Suggest (generate : status -> res status) (h : handle) (word : list Z) : res (list (list Z)) :=
  if negb (isValidInput word) then Ok []
  else cSuggestions <- voikkoSuggestCstr generate h (s2n word) ;; strings_of cSuggestions.

(** JavaScript, libvoikko_api.js:181-194; [enc] writes strings as UTF-8. *)
Definition js_suggest (enc : list Z -> list Z) (generate : status -> res status) (h : handle) (word : list Z) : res (list (list Z)) :=
  if negb (isValidInput word) then Ok []
  else cSuggestions <- voikkoSuggestCstr generate h (enc word) ;; strings_of cSuggestions.
