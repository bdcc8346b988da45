(** * Spell checking entry points.

    Models [spellchecker/spell.cpp].  The speller of the handle may look at
    [accept_extra_hyphens] (spellchecker/FinnishSpellerTweaksWrapper.cpp does),
    so it is a function of that option's value. *)
From Verif Require Import Base CharModel SpellerBase CacheModel HandleModel Utf8Model.

Definition env := bool -> speller.

Definition last_char (w : list Z) : res Z := rd w (length w - 1).

(** [hyphenAwareSpell], spellchecker/spell.cpp:53-80.  The temporary buffer of
    [len + 2] characters is filled completely up to [newlen]; it is the list
    passed to the speller.  ([wcsncpy] copies NUL-free words verbatim.) *)
Definition hyphenAwareSpell (sp : env) (h : handle) (word : list Z) : res spellresult :=
  let spell := sp (accept_extra_hyphens h) in
  let len := length word in
  let spres := spell word in
  if negb (spell_failed spres) || negb (accept_missing_hyphens h) then Ok spres
  else if (len <? 2)%nat then Ok SPELL_FAILED
  else
    c0 <- rd word 0 ;;
    cl <- last_char word ;;
    if (c0 =? 0x2D) && (cl =? 0x2D) then Ok SPELL_FAILED
    else
      let buffer := if c0 =? 0x2D then word ++ [0x2D]
                    else [0x2D] ++ word ++ (if negb (cl =? 0x2D) then [0x2D] else []) in
      Ok (spell buffer).

(** [voikko_cached_spell], spellchecker/spell.cpp:89-103. *)
Definition voikko_cached_spell (sp : env) (h : handle) (buffer : list Z) : res (spellresult * handle) :=
  match spellerCache h with
  | Some cache =>
      hit <- isInCache cache buffer ;;
      if (hit : bool) then (r <- getSpellResult cache buffer ;; Ok (r, h))
      else
        result <- hyphenAwareSpell sp h buffer ;;
        cache' <- setSpellResult cache buffer result ;;
        Ok (result, with_spellerCache h (Some cache'))
  | None => r <- hyphenAwareSpell sp h buffer ;; Ok (r, h)
  end.

Definition VOIKKO_SPELL_FAILED : Z := 0.
Definition VOIKKO_SPELL_OK : Z := 1.
Definition VOIKKO_INTERNAL_ERROR : Z := 2.
Definition VOIKKO_CHARSET_CONVERSION_FAILED : Z := 3.
Definition MAX_WORD_CHARS : nat := 255.

(** The [switch (caps)] of lines 189-203 and 213-230. *)
Definition judge (h : handle) (caps : casetype) (sres : spellresult) : Z :=
  match caps with
  | CT_ALL_LOWER =>
      match sres with SPELL_OK => VOIKKO_SPELL_OK | _ => VOIKKO_SPELL_FAILED end
  | CT_FIRST_UPPER =>
      match sres with
      | SPELL_OK => if accept_first_uppercase h then VOIKKO_SPELL_OK else VOIKKO_SPELL_FAILED
      | SPELL_CAP_FIRST => VOIKKO_SPELL_OK
      | _ => VOIKKO_SPELL_FAILED
      end
  | CT_ALL_UPPER =>
      match sres with SPELL_FAILED => VOIKKO_SPELL_FAILED | _ => VOIKKO_SPELL_OK end
  | _ => VOIKKO_INTERNAL_ERROR
  end.

(** The test of lines 166-167 and 176-177. *)
Definition exact_ok (h : handle) (first : Z) (sres : spellresult) : bool :=
  match sres with
  | SPELL_OK => true
  | SPELL_CAP_FIRST => accept_first_uppercase h && isUpper first
  | _ => false
  end.

(** [buffer[0] = SimpleChar::lower(buffer[0])] *)
Definition lower_first (w : list Z) : list Z :=
  match w with [] => [] | c :: r => lower c :: r end.

Definition is_all_upper (t : casetype) : bool := match t with CT_ALL_UPPER => true | _ => false end.

(** [voikkoSpellUcs4], spellchecker/spell.cpp:106-235.  [word] is the text
    before the terminating NUL.  The working buffer of [nchars + 1] characters
    is overwritten in place in the code; here [lowered] and [exact] are its two
    contents, and cutting it at [dot_index] is [firstn realChars]. *)
Definition voikkoSpellUcs4 (sp : env) (h : handle) (word : list Z) : res (Z * handle) :=
  if Nat.eqb (length word) 0 then Ok (VOIKKO_SPELL_OK, h)
  else if (MAX_WORD_CHARS <? length word)%nat then Ok (VOIKKO_SPELL_FAILED, h)
  else
    nword <- voikko_normalise word ;;
    let nchars := length nword in
    if ignore_numbers h && existsb isDigit nword then Ok (VOIKKO_SPELL_OK, h)
    else
      let caps := voikko_casetype nword in
      skip <- (if ignore_uppercase h && is_all_upper caps then Ok true
               else if ignore_nonwords h then voikko_is_nonword nword else Ok false) ;;
      if (skip : bool) then Ok (VOIKKO_SPELL_OK, h)
      else
        let caps := if is_all_upper caps && negb (accept_all_uppercase h) then CT_COMPLEX else caps in
        let lowered := map lower nword in
        dot <- (if ignore_dot h then (c <- last_char lowered ;; Ok (c =? 0x2E)) else Ok false) ;;
        let realChars := if (dot : bool) then (nchars - 1)%nat else nchars in
        match caps with
        | CT_COMPLEX | CT_NO_LETTERS =>
            first <- rd nword 0 ;;
            let exact := lower_first nword in
            sres <- hyphenAwareSpell sp h exact ;;
            let result := if exact_ok h first sres then VOIKKO_SPELL_OK else VOIKKO_SPELL_FAILED in
            if (result =? VOIKKO_SPELL_FAILED) && dot then
              sres2 <- hyphenAwareSpell sp h (firstn realChars exact) ;;
              Ok (if exact_ok h first sres2 then VOIKKO_SPELL_OK else result, h)
            else Ok (result, h)
        | _ =>
            '(sres, h1) <- voikko_cached_spell sp h (firstn realChars lowered) ;;
            let result := judge h caps sres in
            if result =? VOIKKO_SPELL_OK then Ok (VOIKKO_SPELL_OK, h1)
            else if dot then
              '(sres2, h2) <- voikko_cached_spell sp h1 lowered ;;
              Ok (judge h caps sres2, h2)
            else Ok (result, h1)
        end.

(** [voikkoSpellCstr], spellchecker/spell.cpp:237-252, for a non-NULL string
    whose bytes before the terminator are [word]. *)
Definition voikkoSpellCstr (sp : env) (h : handle) (word : list Z) : res (Z * handle) :=
  if Nat.eqb (length word) 0 then Ok (VOIKKO_SPELL_OK, h)
  else if (MAX_WORD_CHARS <? length word)%nat then Ok (VOIKKO_SPELL_FAILED, h)
  else
    o <- ucs4FromUtf8 word ;;
    match o with
    | None => Ok (VOIKKO_CHARSET_CONVERSION_FAILED, h)
    | Some w => voikkoSpellUcs4 sp h (cstr w)
    end.
