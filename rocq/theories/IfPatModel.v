(** * Hyphenation patterns in the Python, Java and JavaScript interfaces.

    Models [getHyphenationPattern] of [libvoikko/python/libvoikko.py],
    [libvoikko/java/src/main/java/org/puimula/libvoikko/Voikko.java] and
    [libvoikko/js/libvoikko_api.js]; for C# see [CsHyphModel].  [UB] stands for an
    exception or a crash.  Patterns are ASCII, so that their decoding changes
    nothing. *)
From Verif Require Import Base AnalyzerBase HandleModel HyphModel PyModel JavaModel.

(** Python, libvoikko.py:776-790: [string_at] of a NULL pointer reads from
    address 0.  Strings are code points, passed as wide characters. *)
Definition py_pattern (an : analyzer) (h : handle) (word : list Z) : res (list Z) :=
  if negb (isValidInput word) then Ok (repeat 0x20 (length word))
  else
    cHyphenationPattern <- voikkoHyphenateUcs4 an h word ;;
    match cHyphenationPattern with
    | None => UB
    | Some hyphenationPattern => Ok hyphenationPattern
    end.

(** Java, Voikko.java:401-415: a method is called on a null reference. *)
Definition java_pattern (an : analyzer) (h : handle) (word : list Z) : res (list Z) :=
  if negb (isValidInput word) then Ok (repeat 0x20 (length word))
  else
    cPattern <- voikkoHyphenateCstr an h (getBytes word) ;;
    match cPattern with
    | None => UB
    | Some pattern => Ok pattern
    end.

(** JavaScript, libvoikko_api.js:82-96: [UTF8ToString] of the compiler's library
    returns an empty string for a NULL pointer; [enc] writes strings as UTF-8. *)
Definition js_pattern (enc : list Z -> list Z) (an : analyzer) (h : handle) (word : list Z) : res (list Z) :=
  if negb (isValidInput word) then Ok (repeat 0x20 (length word))
  else
    cPattern <- voikkoHyphenateCstr an h (enc word) ;;
    match cPattern with
    | None => Ok []
    | Some pattern => Ok pattern
    end.
