(** * Finnish compound hyphens and soft hyphens in spell checking.

    Models [spellchecker/FinnishSpellerTweaksWrapper.cpp]. *)
From Verif Require Import Base CharModel SpellerBase AnalysisModel AnalyzerBase HandleModel HyphModel AdapterModel.

(** The parts the wrapper is built from: the inner speller (an outcome, because
    it may itself be undefined), the analyser and the option. *)
Record tweaks : Type := mkTweaks {
  inner : list Z -> res spellresult;
  tw_analyzer : analyzer;
  tw_extra_hyphens : bool
}.

(** The wrapper's own hyphenator, constructor, lines 42-51. *)
Definition tweaks_hyphenator : hyph_options := mkHyph true true 3 true.

(** First index [>= i] of character [c] in [l] (whose first element has index
    [i]): [wmemchr]. *)
Fixpoint find_from (c : Z) (l : list Z) (i : nat) : option nat :=
  match l with
  | [] => None
  | x :: r => if x =? c then Some i else find_from c r (S i)
  end.

(** The loop of lines 101-126 looks for the last hyphen in [word[1..i]]. *)
Fixpoint last_hyphen (word : list Z) (i : nat) : res (option nat) :=
  match i with
  | O => Ok None
  | S i' => c <- rd word i ;; if c =? 0x2D then Ok (Some i) else last_hyphen word i'
  end.

(** [trailingAttr != 0 && wcscmp(trailingAttr, L"true") == 0], lines 108-115.
    (Attribute values are NUL-free texts.) *)
Definition free_ending (a : analysis) : bool :=
  match a MALAGA_VAPAA_JALKIOSA with Some v => zlist_eqb v (wstr "true") | None => false end.

(** Walk over [n] symbols of the structure, lines 142-150: the rest of the
    structure, or [None] when it ends before. *)
Fixpoint walk (n : nat) (st : list Z) : res (option (list Z)) :=
  match n with
  | O => Ok (Some st)
  | S n' =>
      st <- skip_borders st ;;
      s <- rd st 0 ;;
      if s =? 0 then Ok None else walk n' (skipn 1 st)
  end.

(** The loop of lines 138-162: [result_with_border] and
    [result_without_border]. *)
Fixpoint border_loop (buffer : list Z) (leading_len : nat) (l : list analysis) (with_b without_b : spellresult)
    : res (spellresult * spellresult) :=
  match l with
  | [] => Ok (with_b, without_b)
  | a :: r =>
      match a STRUCTURE with
      | None => UB
      | Some st =>
          o <- walk leading_len (st ++ [0]) ;;
          match o with
          | None => border_loop buffer leading_len r with_b without_b
          | Some rest =>
              spres <- matchWordAndAnalysis buffer st ;;
              s <- rd rest 0 ;;
              if s =? 0x3D
              then border_loop buffer leading_len r (if improves with_b spres then spres else with_b) without_b
              else border_loop buffer leading_len r with_b (if improves without_b spres then spres else without_b)
          end
      end
  end.

(** The test for a repeated vowel-consonant pair, lines 85-91. *)
Definition vc_pair (word : list Z) (leading_len : nat) : res bool :=
  if (2 <=? leading_len)%nat && (3 <=? length word - leading_len)%nat then
    a <- rd word (leading_len - 2) ;;
    b <- rd word (leading_len - 1) ;;
    let v1 := lower a in
    let v2 := lower b in
    if negb (wcschr VOIKKO_VOWELS v1) || negb (wcschr VOIKKO_CONSONANTS v2) then Ok false
    else
      c <- rd word (leading_len + 1) ;;
      if negb (lower c =? v1) then Ok false
      else d <- rd word (leading_len + 2) ;; Ok (lower d =? v2)
  else Ok false.

(** Position [j] in the buffer of every soft hyphen, and the buffer, lines
    178-193; [None] when a soft hyphen is at the start or the end or follows
    another one.  [shys] is the list so far (last one first). *)
Fixpoint strip_soft (word : list Z) (j : nat) (shys : list nat) : option (list Z * list nat) :=
  match word with
  | [] => Some ([], rev shys)
  | c :: r =>
      if negb (c =? 0xAD) then
        match strip_soft r (S j) shys with
        | None => None
        | Some (b, l) => Some (c :: b, l)
        end
      else if Nat.eqb j 0 || (match r with [] => true | _ => false end)
              || (match shys with k :: _ => Nat.eqb k j | [] => false end)
           then None
           else strip_soft r j (j :: shys)
  end.

(** Lines 204-210 *)
Fixpoint all_hyphens (pattern : list Z) (l : list nat) : res bool :=
  match l with
  | [] => Ok true
  | p :: r => h <- rd (pattern ++ [0]) p ;; if h =? HYPHEN then all_hyphens pattern r else Ok false
  end.

(** [FinnishSpellerTweaksWrapper::spell], lines 176-216; [rec] is
    [spellWithoutSoftHyphen]. *)
Definition spell_with (rec : list Z -> res spellresult) (tw : tweaks) (word : list Z) : res spellresult :=
  match find_from 0xAD word 0 with
  | None => rec word
  | Some _ =>
      match strip_soft word 0 [] with
      | None => Ok SPELL_FAILED
      | Some (buffer, shys) =>
          r <- rec buffer ;;
          if spell_failed r then Ok SPELL_FAILED
          else
            o <- allPossibleHyphenPositions (tw_analyzer tw) tweaks_hyphenator buffer ;;
            match o with
            | None => Ok SPELL_FAILED
            | Some pattern =>
                ok <- all_hyphens pattern shys ;;
                Ok (if (ok : bool) then r else SPELL_FAILED)
            end
      end
  end.

(** [spellWithoutSoftHyphen], lines 53-174; [rec] is the function itself, called
    for shorter words.  [buffer] is the word without its first interior
    hyphen. *)
Definition without_soft_hyphen (rec : list Z -> res spellresult) (tw : tweaks) (word : list Z) : res spellresult :=
  let wlen := length word in
  result <- inner tw word ;;
  match (if negb (spell_ok result) && (3 <? wlen)%nat
         then find_from 0x2D (firstn (wlen - 2) (skipn 1 word)) 1 else None) with
  | None => Ok result
  | Some leading_len =>
      let buffer := firstn leading_len word ++ skipn (leading_len + 1) word in
      extra <- (if tw_extra_hyphens tw && (1 <? leading_len)%nat
                then c <- rd buffer leading_len ;;
                     if c =? 0x2D then Ok false
                     else spres <- rec buffer ;; Ok (spell_ok spres)
                else Ok false) ;;
      if (extra : bool) then Ok SPELL_OK
      else
        vc <- vc_pair word leading_len ;;
        vcres <- (if (vc : bool) then inner tw buffer else Ok SPELL_FAILED) ;;
        if negb (spell_failed vcres) && improves result vcres then Ok vcres
        else
          last <- last_hyphen word (wlen - 2) ;;
          leading <- match last with
                     | None => Ok SPELL_FAILED
                     | Some i =>
                         leadingResult <- spell_with rec tw (firstn i word) ;;
                         if negb (spell_failed leadingResult)
                            && existsb free_ending (tw_analyzer tw false (skipn (i + 1) word))
                         then Ok leadingResult else Ok SPELL_FAILED
                     end ;;
          if negb (spell_failed leading) then Ok leading
          else
            match tw_analyzer tw false (cstr buffer) with
            | [] => Ok result
            | l =>
                '(with_b, without_b) <- border_loop buffer leading_len l SPELL_FAILED SPELL_FAILED ;;
                if negb (spell_failed with_b) && negb (spell_failed without_b) && improves result with_b
                then Ok with_b else Ok result
            end
  end.

(** The recursion, bounded by [fuel]. *)
Fixpoint spellWithoutSoftHyphen (fuel : nat) (tw : tweaks) (word : list Z) : res spellresult :=
  match fuel with
  | O => Fuel
  | S fuel' => without_soft_hyphen (spellWithoutSoftHyphen fuel' tw) tw word
  end.

(** The wrapper around an inner speller; [length word + 1] levels of recursion
    are enough (proved). *)
Definition tweaks_spell (tw : tweaks) (word : list Z) : res spellresult :=
  spell_with (spellWithoutSoftHyphen (length word + 1) tw) tw word.

(** The Finnish speller of the transducer backend, SpellerFactory.cpp:55-56:
    [FinnishSpellerTweaksWrapper(AnalyzerToSpellerAdapter(analyzer), analyzer)]. *)
Definition finnish_speller (an : analyzer) (accept_extra_hyphens : bool) (word : list Z) : res spellresult :=
  tweaks_spell (mkTweaks (adapter_spell an) an accept_extra_hyphens) word.
