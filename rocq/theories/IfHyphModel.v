(** * Hyphenation in the Python, Java and JavaScript interfaces.

    Models [hyphenate] of [libvoikko/python/libvoikko.py],
    [libvoikko/java/src/main/java/org/puimula/libvoikko/Voikko.java] and
    [libvoikko/js/libvoikko_api.js].  Words, separators and results are given as
    the UTF-8 forms of the strings.  [UB] stands for an exception or a crash. *)
From Verif Require Import Base Utf8Spec AnalyzerBase HandleModel HyphModel PyModel JavaModel.

(** Python, libvoikko.py:792-800: [string_at] of a NULL pointer reads from
    address 0.  Strings are code points. *)
Definition py_hyphenate (an : analyzer) (h : handle) (word separator : list Z) (allowContextChanges : bool) : res (list Z) :=
  if negb (isValidInput word) || negb (isValidInput separator) then Ok (utf8_text word)
  else
    cHyphenated <- voikkoInsertHyphensCstr an h (utf8_text word) (utf8_text separator) allowContextChanges ;;
    match cHyphenated with
    | None => UB
    | Some hyphenated => Ok hyphenated
    end.

(** Java, Voikko.java:436-446: a method is called on a null reference.  Strings
    are UTF-16 units. *)
Definition java_hyphenate (an : analyzer) (h : handle) (word separator : list Z) (allowContextChanges : bool) : res (list Z) :=
  if negb (isValidInput word) || negb (isValidInput separator) then Ok (getBytes word)
  else
    cHyphenated <- voikkoInsertHyphensCstr an h (getBytes word) (getBytes separator) allowContextChanges ;;
    match cHyphenated with
    | None => UB
    | Some hyphenated => Ok hyphenated
    end.

(** JavaScript, libvoikko_api.js:303-318: [UTF8ToString] of the compiler's
    library returns an empty string for a NULL pointer.  Strings are UTF-16
    units and [enc] writes them as UTF-8 (see [JsModel]). *)
Definition js_hyphenate (enc : list Z -> list Z) (an : analyzer) (h : handle) (word separator : list Z) (allowContextChanges : bool)
    : res (list Z) :=
  if negb (isValidInput word) || negb (isValidInput separator) then Ok (enc word)
  else
    cHyphenated <- voikkoInsertHyphensCstr an h (enc word) (enc separator) allowContextChanges ;;
    match cHyphenated with
    | None => Ok []
    | Some hyphenated => Ok hyphenated
    end.
