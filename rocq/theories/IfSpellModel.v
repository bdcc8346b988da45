(** * Spell checking in the Python, Java, C# and JavaScript interfaces.

    Models [spell] of [libvoikko/python/libvoikko.py],
    [libvoikko/java/src/main/java/org/puimula/libvoikko/Voikko.java],
    [libvoikko/cs/libvoikko/Voikko.cs] and [libvoikko/js/libvoikko_api.js].  The
    result holds the handle that the library leaves behind.  [UB] stands for an
    exception.  The check of the handle ([requireValidHandle]) and the locks are
    left out: handles are open. *)
From Verif Require Import Base SpellerBase GcCacheModel HandleModel Utf8Spec SpellModel PyModel JavaModel CsModel.

(** Python, libvoikko.py:575-588.  Strings are code points; they are passed to
    the library as wide characters. *)
Definition py_spell (sp : env) (h : handle) (word : list Z) : res (bool * handle) :=
  if negb (isValidInput word) then Ok (false, h)
  else
    '(result, h') <- voikkoSpellUcs4 sp h word ;;
    if result =? 0 then Ok (false, h') else if result =? 1 then Ok (true, h') else UB.

(** Java, Voikko.java:140-147.  Strings are UTF-16 units. *)
Definition java_spell (sp : env) (h : handle) (word : list Z) : res (bool * handle) :=
  if negb (isValidInput word) then Ok (false, h)
  else
    '(spellResult, h') <- voikkoSpellCstr sp h (getBytes word) ;;
    Ok (spellResult =? 1, h').

(** C#, Voikko.cs:168-180.  Strings are UTF-16 units. *)
Definition cs_Spell (sp : env) (h : handle) (word : list Z) : res (bool * handle) :=
  if negb (isValidInput word) then Ok (false, h)
  else
    '(spellResult, h') <- voikkoSpellCstr sp h (s2n word) ;;
    Ok (spellResult =? 1, h').

(** JavaScript, libvoikko_api.js:176-179.  Strings are UTF-16 units and [enc]
    writes them as UTF-8 (see [JsModel]). *)
Definition js_spell (enc : list Z -> list Z) (sp : env) (h : handle) (word : list Z) : res (bool * handle) :=
  if isValidInput word then
    '(spellResult, h') <- voikkoSpellCstr sp h (enc word) ;;
    Ok (spellResult =? 1, h')
  else Ok (false, h).
