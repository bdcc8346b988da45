(** * The HFST back end for spell checking.

    Models [spellchecker/HfstSpeller.cpp] and [spellchecker/HfstSuggestion.cpp].
    The library hfst-ospell is a parameter: what it answers for a byte string.
    (Reading the dictionary file, HfstSpeller.cpp:46-54, is a call of that
    library and is not modelled.) *)
From Verif Require Import Base CharModel SpellerBase Utf8Model CacheModel SuggestModel.

(** [ZHfstOspeller::spell(const std::string &)]: whether the dictionary has the
    word with these bytes. *)
Definition acceptor := list Z -> bool.

(** [HfstSpeller::doSpell], HfstSpeller.cpp:56-64.  A word that has no UTF-8 form
    becomes a null pointer, from which a [std::string] is made: [UB]. *)
Definition doSpell (d : acceptor) (word : list Z) : res spellresult :=
  o <- utf8FromUcs4 word ;;
  match o with
  | None => UB
  | Some wordUtf8 => Ok (if d wordUtf8 then SPELL_OK else SPELL_FAILED)
  end.

(** [HfstSpeller::spell], HfstSpeller.cpp:66-90, on the [wlen] characters of the
    word; [accept_all_uppercase] is the option of the handle.  The copy made by
    [StringUtils::copy] may be longer than [wlen]; only the first [wlen]
    characters are used.  Of an empty word [word[0]] is not a letter. *)
Definition hfst_spell (d : acceptor) (accept_all_uppercase : bool) (word : list Z) : res spellresult :=
  result <- doSpell d word ;;
  match result, word with
  | SPELL_FAILED, c :: r =>
      if isLower c then
        let modifiedWord := upper c :: r in
        result <- doSpell d modifiedWord ;;
        match result with
        | SPELL_OK => Ok SPELL_CAP_FIRST
        | _ =>
            if accept_all_uppercase && ct_eqb (voikko_casetype modifiedWord) CT_FIRST_UPPER then
              result <- doSpell d (upper c :: map upper r) ;;
              Ok (match result with SPELL_OK => SPELL_CAP_ERROR | x => x end)
            else Ok result
        end
      else Ok SPELL_FAILED
  | _, _ => Ok result
  end.

(** One answer of [ZHfstOspeller::suggest]: the bytes of the correction and
    [(int) (1000.0 * weight)].  (The floating point weight itself is not
    modelled.) *)
Definition correction := (list Z * Z)%type.

(** [uppercased[0] = SimpleChar::upper(uppercased[0])], HfstSuggestion.cpp:63; for
    an empty word the terminator is replaced by itself. *)
Definition upper_first (w : list Z) : list Z := match w with [] => [] | c :: r => upper c :: r end.

(** The loop of [HfstSuggestion::generate], HfstSuggestion.cpp:56-76; [corrections]
    is what is left in the queue, best first, and [allSuggs] the set of what has
    been seen.  A correction that is not UTF-8 becomes a null pointer, which is
    then read: [UB].  The sum given to [addSuggestion] must fit an [int]. *)
Fixpoint hfst_loop (checkUppercasing : bool) (corrections : list correction) (allSuggs : list (list Z)) (s : status) : res status :=
  match corrections with
  | [] => Ok s
  | (sugUtf8, weight) :: rest =>
      if shouldAbort s then Ok s
      else
        o <- ucs4FromUtf8 sugUtf8 ;;
        match o with
        | None => UB
        | Some w =>
            let sugU4 := cstr w in
            let uppercased := upper_first sugU4 in
            if checkUppercasing && existsb (zlist_eqb uppercased) allSuggs then hfst_loop checkUppercasing rest allSuggs s
            else
              p <- ck (weight + Z.of_nat (length (found s)) + 1) ;;
              s <- addSuggestion s sugU4 p ;;
              hfst_loop checkUppercasing rest (uppercased :: allSuggs) (charge s)
        end
  end.

(** [HfstSuggestion::generate], HfstSuggestion.cpp:49-78; [suggest] is the external
    [ZHfstOspeller::suggest] followed by taking everything out of its queue. *)
Definition hfst_generate (suggest : list Z -> list correction) (s : status) : res status :=
  let s := setMaxCost s (maxSuggestions s) in
  o <- utf8FromUcs4 (sword s) ;;
  match o with
  | None => UB
  | Some wordUtf8 => hfst_loop (ct_eqb (voikko_casetype (sword s)) CT_FIRST_UPPER) (suggest wordUtf8) [] s
  end.
