(** * Suggestions for misspelled words.

    Models [spellchecker/SpellWithPriority.cpp], [spellchecker/suggestion/*.cpp]
    and [spellchecker/suggestions.cpp].

    Buffers obtained with [new] are lists of the allocated length filled with
    [JUNK], which is no character.  Ends of search are represented as in the
    code: nothing is looked up once [shouldAbort] holds.  Failure to allocate
    memory is not modelled. *)
From Verif Require Import Base CharModel SpellerBase CacheModel AnalysisModel AnalyzerBase HandleModel HyphModel
  AdapterModel TweaksModel Utf8Model.

(** ** Ranks *)

(** [attribute != 0 && wcscmp(attribute, value) == 0] *)
Definition has_value (a : analysis) (k : Key) (v : list Z) : bool :=
  match a k with Some x => zlist_eqb x v | None => false end.

(** [getPriorityFromNounInflection], spellchecker/SpellWithPriority.cpp:38-90:
    the first matching row, 4 without one. *)
Definition INFLECTION_PRIORITIES : list (string * Z) :=
  [("nimento", 2); ("omanto", 3); ("osanto", 5); ("sisaolento", 8); ("sisaeronto", 12); ("sisatulento", 8);
   ("ulkoolento", 12); ("ulkoeronto", 30); ("ulkotulento", 20); ("olento", 20); ("tulento", 20); ("vajanto", 60);
   ("seuranto", 60); ("keinonto", 20)]%string.
Fixpoint inflection_priority (rows : list (string * Z)) (a : analysis) : Z :=
  match rows with
  | [] => 4
  | (n, p) :: r => if has_value a SIJAMUOTO (wstr n) then p else inflection_priority r a
  end.
Definition getPriorityFromNounInflection (a : analysis) : Z := inflection_priority INFLECTION_PRIORITIES a.

(** [getPriorityFromWordClassAndInflection], lines 92-112. *)
Definition NOUN_CLASSES : list string :=
  ["nimisana"; "laatusana"; "nimisana_laatusana"; "asemosana"; "etunimi"; "sukunimi"; "paikannimi"; "nimi"]%string.
Definition getPriorityFromWordClassAndInflection (a : analysis) : Z :=
  if existsb (fun n => has_value a CLASS (wstr n)) NOUN_CLASSES then getPriorityFromNounInflection a else 4.

(** [getPriorityFromStructure], lines 114-130: counting stops at 5 parts. *)
Fixpoint count_borders (st : list Z) (countParts : nat) : nat :=
  match st with
  | [] => countParts
  | s :: r => if s =? 0x3D then (if Nat.eqb (S countParts) 5 then 5%nat else count_borders r (S countParts))
              else count_borders r countParts
  end.
Definition getPriorityFromStructure (st : list Z) : Z :=
  match count_borders st 0 with
  | O => 1
  | S n => Z.shiftl 1 (3 * Z.of_nat n)
  end.

(** [getPriorityFromSpellResult], lines 132-144. *)
Definition getPriorityFromSpellResult (r : spellresult) : Z :=
  match r with SPELL_OK => 1 | SPELL_CAP_FIRST => 2 | SPELL_CAP_ERROR => 3 | SPELL_FAILED => 1 end.

(** [handleAnalysis], lines 146-154. *)
Definition handleAnalysis (word : list Z) (a : analysis) : res (spellresult * Z) :=
  let prio := getPriorityFromWordClassAndInflection a in
  match a STRUCTURE with
  | None => UB
  | Some st =>
      prio <- ck (prio * getPriorityFromStructure st) ;;
      result <- matchWordAndAnalysis word st ;;
      prio <- ck (prio * getPriorityFromSpellResult result) ;;
      Ok (result, prio)
  end.

(** The loop of [spellWithPriority], lines 168-182. *)
Fixpoint priority_loop (word : list Z) (l : list analysis) (best : spellresult) (bestPrio : Z) : res (spellresult * Z) :=
  match l with
  | [] => Ok (best, bestPrio)
  | a :: r =>
      '(cur, curPrio) <- handleAnalysis word a ;;
      if improves best cur then priority_loop word r cur curPrio
      else if Nat.eqb (rank best) (rank cur) && (curPrio <? bestPrio) then priority_loop word r best curPrio
      else priority_loop word r best bestPrio
  end.

(** [SpellWithPriority::spellWithPriority], lines 156-187. *)
Definition spellWithPriority (an : analyzer) (word : list Z) : res (spellresult * Z) :=
  match an false word with
  | [] => Ok (SPELL_FAILED, 0)
  | l => priority_loop word l SPELL_FAILED 0
  end.

(** ** The state of a search *)

(** [class SuggestionStatus], suggestion/SuggestionStatus.hpp and .cpp:33-41:
    the word without its terminator, the budget, the candidates found so far
    with their ranks, and the cost.  [lookups] is not in the code: it records
    the words passed to the morphological analyser, in order. *)
Record status : Type := mkStatus {
  sword : list Z;
  maxCost : nat;
  maxSuggestions : nat;
  found : list (list Z * Z);
  currentCost : nat;
  lookups : list (list Z)
}.

Definition new_status (word : list Z) (maxS : nat) : status := mkStatus word 0 maxS [] 0 [].

(** [shouldAbort], SuggestionStatus.cpp:50-63. *)
Definition shouldAbort (s : status) : bool :=
  if Nat.eqb (length (found s)) (maxSuggestions s) then true
  else if (currentCost s <? maxCost s)%nat then false
  else if Nat.eqb (length (found s)) 0 && (currentCost s <? 2 * maxCost s)%nat then false
  else true.

(** [charge], lines 65-67; [setMaxCost], lines 69-71. *)
Definition charge (s : status) : status :=
  mkStatus (sword s) (maxCost s) (maxSuggestions s) (found s) (S (currentCost s)) (lookups s).
Definition setMaxCost (s : status) (m : nat) : status :=
  mkStatus (sword s) m (maxSuggestions s) (found s) (currentCost s) (lookups s).

(** Recording of a lookup. *)
Definition looked (s : status) (w : list Z) : status :=
  mkStatus (sword s) (maxCost s) (maxSuggestions s) (found s) (currentCost s) (lookups s ++ [w]).

(** [addSuggestion], lines 73-86; the product has type [size_t] and must fit an
    [int]. *)
Definition addSuggestion (s : status) (w : list Z) (priority : Z) : res status :=
  if (length (found s) <? maxSuggestions s)%nat then
    p <- ck (priority * (Z.of_nat (length (found s)) + 5)) ;;
    Ok (mkStatus (sword s) (maxCost s) (maxSuggestions s) (found s ++ [(w, p)]) (currentCost s) (lookups s))
  else Ok s.

(** ** One candidate *)

(** The case changing loop, SuggestionGeneratorCaseChange.cpp:85-101; [st] with
    its terminator. *)
Fixpoint recase (word st : list Z) : res (list Z) :=
  match word with
  | [] => Ok []
  | c :: w =>
      st <- skip_borders st ;;
      s <- rd st 0 ;;
      if s =? 0 then Ok word
      else
        t <- recase w (skipn 1 st) ;;
        Ok ((if (s =? 0x69) || (s =? 0x6A) then upper c
             else if (s =? 0x70) || (s =? 0x71) then lower c else c) :: t)
  end.

(** [suggestForBuffer], SuggestionGeneratorCaseChange.cpp:49-106. *)
Definition suggestForBuffer (an : analyzer) (s : status) (word : list Z) : res status :=
  if shouldAbort s then Ok s
  else
    '(sres, prio) <- spellWithPriority an word ;;
    let s := charge (looked s word) in
    match sres with
    | SPELL_FAILED => Ok s
    | SPELL_OK => addSuggestion s word prio
    | SPELL_CAP_FIRST =>
        match word with
        | [] => UB
        | c :: r => addSuggestion s (upper c :: r) prio
        end
    | SPELL_CAP_ERROR =>
        let s' := charge (looked s word) in
        match an false word with
        | [] => Ok s'
        | a :: _ =>
            match a STRUCTURE with
            | None => UB
            | Some st => w <- recase word (st ++ [0]) ;; addSuggestion s' w prio
            end
        end
    end.

(** ** Buffers and loops *)

Definition JUNK : Z := -1.
Definition fresh (n : nat) : list Z := repeat JUNK n.

(** [wcsncpy(dst + at, src, n)]; [src] is the source up to and including its
    terminator, after which NULs are written. *)
Fixpoint copy (dst : list Z) (at_ : nat) (src : list Z) (n : nat) : res (list Z) :=
  match n with
  | O => Ok dst
  | S n' =>
      match src with
      | [] => UB
      | c :: r => dst <- wr dst at_ c ;; copy dst (S at_) (if c =? 0 then src else r) n'
      end
  end.

(** [for (i = i0; i < i0 + n && !s->shouldAbort(); i++) body] *)
Fixpoint search_loop (n i : nat) (body : nat -> status * list Z -> res (status * list Z)) (x : status * list Z)
    : res (status * list Z) :=
  match n with
  | O => Ok x
  | S n' => if shouldAbort (fst x) then Ok x else x' <- body i x ;; search_loop n' (S i) body x'
  end.

(** The word of a search with its terminator, and its length. *)
Definition zword (s : status) : list Z := sword s ++ [0].
Definition wlen (s : status) : nat := length (sword s).

Section Generators.
Variable an : analyzer.

(** ** The generators *)

(** [SuggestionGeneratorCaseChange::generate], lines 45-47. *)
Definition gen_case_change (s : status) : res status := suggestForBuffer an s (sword s).

(** [SuggestionGeneratorSoftHyphens::generate], lines 41-57.  The buffer has
    [wlen] characters; the terminator must fit. *)
Definition gen_soft_hyphens (s : status) : res status :=
  if mem 0xAD (sword s) then
    let buffer := filter (fun c => negb (c =? 0xAD)) (sword s) in
    if (length buffer <? wlen s)%nat then suggestForBuffer an s buffer else UB
  else Ok s.

(** SuggestionGeneratorVowelChange.cpp:35-36 (also Swap.cpp:38-39) *)
Definition BACK_VOWELS : list Z := wstr "aouAOU".
Definition FRONT_VOWELS : list Z := [0xE4; 0xF6; 0x79; 0xC4; 0xD6; 0x59].
Definition vowel (c : Z) : bool := mem c BACK_VOWELS || mem c FRONT_VOWELS.

(** [mask <<= 1; mask++] on a 32 bit [int] (C++17: a shift into the sign bit
    gives the two's complement value, shifting a negative number is
    undefined). *)
Definition mask_step (mask : Z) : res Z :=
  if mask <? 0 then UB
  else m <- Ok (if 2 * mask <=? 2 ^ 31 - 1 then 2 * mask else 2 * mask - 2 ^ 32) ;; ck (m + 1).

(** Lines 45-53: [mask] and [vcount]. *)
Fixpoint count_vowels (w : list Z) (mask : Z) (vcount : nat) : res (Z * nat) :=
  match w with
  | [] => Ok (mask, vcount)
  | c :: r => if vowel c then (m <- mask_step mask ;; count_vowels r m (S vcount)) else count_vowels r mask vcount
  end.

(** The replacement loop over [k], lines 63-72, on parallel lists. *)
Fixpoint swap_vowel (bs fs : list Z) (c : Z) : Z :=
  match bs, fs with
  | b :: bs', f :: fs' => if c =? b then f else if c =? f then b else swap_vowel bs' fs' c
  | _, _ => c
  end.

(** [while (!wcschr(BACK, buffer[i]) && !wcschr(FRONT, buffer[i])) i++] (which
    stops at a NUL). *)
Fixpoint next_vowel (buffer : list Z) (i : nat) (fuel : nat) : res nat :=
  match fuel with
  | O => Fuel
  | S f => c <- rd buffer i ;;
           if wcschr BACK_VOWELS c || wcschr FRONT_VOWELS c then Ok i else next_vowel buffer (S i) f
  end.

(** The loop over [j], lines 59-75, for [n] vowels from the [j]th. *)
Fixpoint vowel_pattern (pat : Z) (n j i : nat) (buffer : list Z) : res (list Z) :=
  match n with
  | O => Ok buffer
  | S n' =>
      i <- next_vowel buffer i (length buffer + 1) ;;
      c <- rd buffer i ;;
      buffer <- (if Z.testbit pat (Z.of_nat j) then wr buffer i (swap_vowel BACK_VOWELS FRONT_VOWELS c) else Ok buffer) ;;
      vowel_pattern pat n' (S j) (S i) buffer
  end.

(** The loop of lines 56-83. *)
Fixpoint vowel_loop (fuel : nat) (mask pat : Z) (vcount : nat) (s : status) : res status :=
  if negb (Z.land pat mask =? 0) then
    match fuel with
    | O => Fuel
    | S f =>
        buffer <- copy (fresh (wlen s + 1)) 0 (zword s) (wlen s + 1) ;;
        buffer <- vowel_pattern pat vcount 0 0 buffer ;;
        if shouldAbort s then Ok s
        else s <- suggestForBuffer an s (firstn (wlen s) buffer) ;; vowel_loop f mask (pat + 1) vcount s
    end
  else Ok s.

(** [SuggestionGeneratorVowelChange::generate], lines 41-85. *)
Definition gen_vowel_change (s : status) : res status :=
  '(mask, vcount) <- count_vowels (sword s) 0 0 ;;
  if Nat.eqb vcount 0 || (7 <? vcount)%nat then Ok s
  else vowel_loop 128 mask 1 vcount s.

(** The inner loops of [SuggestionGeneratorReplacement::generate], lines 49-56
    and 63-70: [wcschr] finds the occurrences of [from] in order. *)
Fixpoint replace_each (from to : Z) (n p : nat) (x : status * list Z) : res (status * list Z) :=
  match n with
  | O => Ok x
  | S n' =>
      let '(s, b) := x in
      c <- rd b p ;;
      if c =? from then
        b <- wr b p to ;;
        s <- suggestForBuffer an s (firstn (wlen s) b) ;;
        if shouldAbort s then Ok (s, b)
        else b <- wr b p from ;; replace_each from to n' (S p) (s, b)
      else replace_each from to n' (S p) (s, b)
  end.

(** The loop over the table, lines 46-72. *)
Fixpoint replacement_loop (pairs : list (Z * Z)) (x : status * list Z) : res status :=
  match pairs with
  | [] => Ok (fst x)
  | (from, to) :: r =>
      x <- replace_each from to (wlen (fst x)) 0 x ;;
      if shouldAbort (fst x) then Ok (fst x)
      else if upper from =? from then replacement_loop r x
      else
        x <- replace_each (upper from) (upper to) (wlen (fst x)) 0 x ;;
        if shouldAbort (fst x) then Ok (fst x) else replacement_loop r x
  end.

(** [SuggestionGeneratorReplacement::generate], lines 42-74. *)
Definition gen_replacement (pairs : list (Z * Z)) (s : status) : res status :=
  b <- copy (fresh (wlen s + 1)) 0 (zword s) (wlen s) ;;
  b <- wr b (wlen s) 0 ;;
  replacement_loop pairs (s, b).

(** [SuggestionGeneratorDeletion::generate], lines 41-52. *)
Definition deletion_step (i : nat) (x : status * list Z) : res (status * list Z) :=
  let '(s, b) := x in
  differs <- (if Nat.eqb i 0 then Ok true
              else c <- rd (zword s) i ;; d <- rd (zword s) (i - 1) ;; Ok (negb (lower c =? lower d))) ;;
  if (differs : bool) then
    b <- copy b 0 (zword s) i ;;
    b <- copy b i (skipn (i + 1) (zword s)) (wlen s - i) ;;
    s <- suggestForBuffer an s (firstn (wlen s - 1) b) ;;
    Ok (s, b)
  else Ok (s, b).
Definition gen_deletion (s : status) : res status :=
  x <- search_loop (wlen s) 0 deletion_step (s, fresh (wlen s)) ;; Ok (fst x).

(** The hyphen loop of [SuggestionGeneratorInsertSpecial::generate], lines
    44-53. *)
Definition hyphen_step (j : nat) (x : status * list Z) : res (status * list Z) :=
  let '(s, b) := x in
  c1 <- rd (zword s) (j - 2) ;;
  c2 <- rd (zword s) (j - 1) ;;
  c3 <- rd (zword s) j ;;
  c4 <- rd (zword s) (j + 1) ;;
  if (c1 =? 0x2D) || (c2 =? 0x2D) || (c3 =? 0x2D) || (c4 =? 0x2D) then Ok (s, b)
  else
    b <- copy b 0 (zword s) j ;;
    b <- wr b j 0x2D ;;
    s <- suggestForBuffer an s (firstn (wlen s + 1) b) ;;
    Ok (s, b).

(** The duplication loop, lines 56-67. *)
Fixpoint duplicate_loop (fuel j : nat) (x : status * list Z) : res (status * list Z) :=
  let '(s, b) := x in
  if (j <? wlen s)%nat && negb (shouldAbort s) then
    match fuel with
    | O => Fuel
    | S f =>
        c <- rd (zword s) j ;;
        b <- wr b j c ;;
        same <- (if (j <? wlen s - 1)%nat then d <- rd (zword s) (j + 1) ;; Ok (c =? d) else Ok false) ;;
        if (same : bool) then duplicate_loop f (j + 2) (s, b)
        else if (c =? 0x2D) || (c =? 0x27) then duplicate_loop f (j + 1) (s, b)
        else
          s <- suggestForBuffer an s (firstn (wlen s + 1) b) ;;
          duplicate_loop f (j + 1) (s, b)
    end
  else Ok x.

(** [SuggestionGeneratorInsertSpecial::generate], lines 38-69.  In a word of
    fewer than two characters [getWordLength() - 2] wraps around and the loop
    reads beyond the terminator. *)
Definition gen_insert_special (s : status) : res status :=
  b <- copy (fresh (wlen s + 2)) 1 (zword s) (wlen s) ;;
  b <- wr b (wlen s + 1) 0 ;;
  x <- (if (wlen s <? 2)%nat then (if shouldAbort s then Ok (s, b) else UB)
        else search_loop (wlen s - 3) 2 hyphen_step (s, b)) ;;
  let '(s, b) := x in
  b <- copy b 1 (zword s) (wlen s + 1) ;;
  x <- duplicate_loop (wlen s) 0 (s, b) ;;
  Ok (fst x).

(** The loop over positions of [SuggestionGeneratorInsertion::generate], lines
    49-61. *)
Definition insertion_step (ins : Z) (j : nat) (x : status * list Z) : res (status * list Z) :=
  let '(s, b) := x in
  b <- (if Nat.eqb j 0 then Ok b else c <- rd (zword s) (j - 1) ;; wr b (j - 1) c) ;;
  c <- rd (zword s) j ;;
  if ins =? lower c then Ok (s, b)
  else
    dup <- (if Nat.eqb j 0 then Ok false else d <- rd (zword s) (j - 1) ;; Ok (ins =? lower d)) ;;
    if (dup : bool) then Ok (s, b)
    else
      b <- wr b j ins ;;
      s <- suggestForBuffer an s (firstn (wlen s + 1) b) ;;
      Ok (s, b).

(** The loop over characters, lines 45-73. *)
Fixpoint insertion_loop (chars : list Z) (x : status * list Z) : res status :=
  match chars with
  | [] => Ok (fst x)
  | ins :: r =>
      let '(s, b) := x in
      c0 <- rd (zword s) 0 ;;
      b <- wr b 0 c0 ;;
      b <- copy b 1 (zword s) (wlen s) ;;
      b <- wr b (wlen s + 1) 0 ;;
      x <- search_loop (wlen s) 0 (insertion_step ins) (s, b) ;;
      let '(s, b) := x in
      if shouldAbort s then Ok s
      else
        last <- rd_back (zword s) (wlen s) 1 ;;
        if ins =? last then insertion_loop r (s, b)
        else
          b <- wr b (wlen s - 1) last ;;
          b <- wr b (wlen s) ins ;;
          s <- suggestForBuffer an s (firstn (wlen s + 1) b) ;;
          insertion_loop r (s, b)
  end.

(** [SuggestionGeneratorInsertion::generate], lines 43-75. *)
Definition gen_insertion (chars : list Z) (s : status) : res status :=
  insertion_loop chars (s, fresh (wlen s + 2)).

(** The inner loop of [SuggestionGeneratorReplaceTwo::generate], lines 55-66. *)
Fixpoint replace_two_pairs (replaced : Z) (i : nat) (pairs : list (Z * Z)) (x : status * list Z)
    : res (status * list Z) :=
  match pairs with
  | [] => Ok x
  | (from, to) :: r =>
      if negb (from =? replaced) then replace_two_pairs replaced i r x
      else
        let '(s, b) := x in
        b <- wr b i to ;;
        b <- wr b (i + 1) to ;;
        s <- suggestForBuffer an s (firstn (wlen s) b) ;;
        if shouldAbort s then Ok (s, b) else replace_two_pairs replaced i r (s, b)
  end.

(** The outer loop, lines 50-73. *)
Fixpoint replace_two_loop (fuel i : nat) (pairs : list (Z * Z)) (x : status * list Z) : res status :=
  let '(s, b) := x in
  if (i <? wlen s - 1)%nat then
    match fuel with
    | O => Fuel
    | S f =>
        replaced <- rd b i ;;
        d <- rd b (i + 1) ;;
        if negb (replaced =? d) then replace_two_loop f (i + 1) pairs (s, b)
        else
          '(s, b) <- replace_two_pairs replaced i pairs (s, b) ;;
          b <- wr b i replaced ;;
          b <- wr b (i + 1) replaced ;;
          if shouldAbort s then Ok s else replace_two_loop f (i + 2) pairs (s, b)
    end
  else Ok s.

(** [SuggestionGeneratorReplaceTwo::generate], lines 42-76.  ([wlen - 1] wraps
    around for an empty word.) *)
Definition gen_replace_two (pairs : list (Z * Z)) (s : status) : res status :=
  if Nat.eqb (wlen s) 0 then UB
  else replace_two_loop (wlen s) 0 pairs (s, map lower (sword s) ++ [0]).

(** [SuggestionGeneratorSplitWord::spellOk], lines 45-56: the pointer's
    characters before and after, verdict, rank and status. *)
Definition spell_part (s : status) (p : list Z) (len : nat) : res (bool * list Z * Z * status) :=
  c <- rd p 0 ;;
  let firstUpper := isUpper c in
  p <- (if firstUpper then wr p 0 (lower c) else Ok p) ;;
  '(wordRes, prio) <- spellWithPriority an (firstn len p) ;;
  let s := charge (looked s (firstn len p)) in
  c <- rd p 0 ;;
  p <- (if firstUpper || match wordRes with SPELL_CAP_FIRST => true | _ => false end
        then wr p 0 (upper c) else Ok p) ;;
  Ok (match wordRes with SPELL_OK | SPELL_CAP_FIRST => true | _ => false end, p, prio, s).

(** [getResultForPart1], lines 59-66. *)
Definition first_part (s : status) (part1 : list Z) (len : nat) : res (bool * list Z * Z * status) :=
  '(ok, part1, prio, s) <- spell_part s part1 len ;;
  if (ok : bool) then Ok (ok, part1, prio, s)
  else
    c <- rd_back part1 len 1 ;;
    if negb (c =? 0x2E) then Ok (ok, part1, prio, s)
    else spell_part s part1 (len - 1).

(** One round of the loop, lines 75-100, for [splitind]: status and [part1]. *)
Definition split_step (splitind : nat) (s : status) (part1 : list Z) : res (status * list Z) :=
  c <- rd (zword s) splitind ;;
  let stripLead2 := if c =? 0x2D then 1%nat else O in
  part1 <- wr part1 splitind 0 ;;
  '(ok, part1, prio_total, s) <- first_part s part1 splitind ;;
  if negb ok then Ok (s, part1)
  else
    let w2start := (splitind + 1)%nat in
    let w2len := (wlen s - splitind - stripLead2)%nat in
    suggestion <- copy (fresh (wlen s + 2)) w2start (skipn (splitind + stripLead2) (zword s)) (w2len + 1) ;;
    '(ok2, second, prio_part, s) <- spell_part s (skipn w2start suggestion) w2len ;;
    let suggestion := firstn w2start suggestion ++ second in
    sum <- ck (prio_total + prio_part) ;;
    prio <- ck (sum * (1 + Z.of_nat stripLead2 * 5)) ;;
    if (ok2 : bool) then
      suggestion <- copy suggestion 0 part1 splitind ;;
      suggestion <- wr suggestion splitind 0x20 ;;
      s <- addSuggestion s (cstr suggestion) prio ;;
      Ok (s, part1)
    else Ok (s, part1).

(** The loop of lines 75-100; [splitind] is [n + 1]. *)
Fixpoint split_loop (n : nat) (s : status) (part1 : list Z) : res status :=
  match n with
  | O => Ok s
  | S n' =>
      let splitind := (n + 1)%nat in
      c1 <- rd (zword s) (splitind - 2) ;;
      c2 <- rd (zword s) (splitind - 1) ;;
      c3 <- rd (zword s) (splitind + 1) ;;
      if (c1 =? 0x2D) || (c2 =? 0x2D) || (c3 =? 0x2D) then split_loop n' s part1
      else
        '(s, part1) <- split_step splitind s part1 ;;
        if shouldAbort s then Ok s else split_loop n' s part1
  end.

(** [SuggestionGeneratorSplitWord::generate], lines 68-103.  [getWordLength() - 2]
    wraps around for words of fewer than two characters. *)
Definition gen_split_word (s : status) : res status :=
  part1 <- copy (fresh (wlen s + 1)) 0 (zword s) (wlen s) ;;
  part1 <- wr part1 (wlen s) 0 ;;
  if (wlen s <? 2)%nat then UB else split_loop (wlen s - 3) s part1.

(** The test of lines 59-66 of SuggestionGeneratorSwap.cpp, [k < 3]. *)
Definition vowel_swap (a b : Z) : bool :=
  existsb (fun p => ((lower a =? fst p) && (lower b =? snd p)) || ((lower a =? snd p) && (lower b =? fst p)))
    [(0x61, 0xE4); (0x6F, 0xF6); (0x75, 0x79)].

(** The inner loop, lines 53-73: [n] values of [j]. *)
Fixpoint swap_inner (max_distance i n j : nat) (x : status * list Z) : res (status * list Z) :=
  match n with
  | O => Ok x
  | S n' =>
      let '(s, b) := x in
      if shouldAbort s then Ok x
      else if (max_distance <? j - i)%nat then Ok x
      else
        ci <- rd b i ;;
        cj <- rd b j ;;
        if lower ci =? lower cj then swap_inner max_distance i n' (S j) x
        else if vowel_swap ci cj then swap_inner max_distance i n' (S j) x
        else
          wi <- rd (zword s) i ;;
          wj <- rd (zword s) j ;;
          b <- wr b i wj ;;
          b <- wr b j wi ;;
          s <- suggestForBuffer an s (firstn (wlen s) b) ;;
          b <- wr b i wi ;;
          b <- wr b j wj ;;
          swap_inner max_distance i n' (S j) (s, b)
  end.
Definition swap_step (max_distance : nat) (i : nat) (x : status * list Z) : res (status * list Z) :=
  swap_inner max_distance i (wlen (fst x) - (i + 1)) (i + 1) x.

(** [SuggestionGeneratorSwap::generate], lines 44-76. *)
Definition gen_swap (s : status) : res status :=
  let max_distance := if (wlen s <=? 8)%nat then 10%nat else (50 / wlen s)%nat in
  if Nat.eqb max_distance 0 then Ok s
  else
    b <- copy (fresh (wlen s + 1)) 0 (zword s) (wlen s) ;;
    b <- wr b (wlen s) 0 ;;
    x <- search_loop (wlen s) 0 (swap_step max_distance) (s, b) ;;
    Ok (fst x).

(** The loop of [SuggestionGeneratorDeleteTwo::generate], lines 51-60. *)
Definition delete_two_step (i : nat) (x : status * (list Z * list (list Z))) : res (status * (list Z * list (list Z))) :=
  let '(s, (b, attempts)) := x in
  c0 <- rd (zword s) i ;;
  c2 <- rd (zword s) (i + 2) ;;
  c1 <- rd (zword s) (i + 1) ;;
  c3 <- rd (zword s) (i + 3) ;;
  if (c0 =? c2) && (c1 =? c3) then
    let newLength := (wlen s - 2)%nat in
    b <- copy b 0 (zword s) i ;;
    b <- copy b i (skipn (i + 2) (zword s)) (newLength - i) ;;
    if existsb (zlist_eqb b) attempts then Ok (s, (b, attempts))
    else s <- suggestForBuffer an s (firstn newLength b) ;; Ok (s, (b, b :: attempts))
  else Ok (s, (b, attempts)).
Fixpoint delete_two_loop (n i : nat) (x : status * (list Z * list (list Z))) : res status :=
  match n with
  | O => Ok (fst x)
  | S n' => if shouldAbort (fst x) then Ok (fst x) else x' <- delete_two_step i x ;; delete_two_loop n' (S i) x'
  end.

(** [SuggestionGeneratorDeleteTwo::generate], lines 43-62. *)
Definition gen_delete_two (s : status) : res status :=
  if (wlen s <? 6)%nat then Ok s
  else delete_two_loop (wlen s - 3) 0 (s, (fresh (wlen s - 2), [])).

(** [SuggestionGeneratorMultiReplacement::doGenerate], lines 50-70.  [act] is
    what is done after one replacement at a position; the boolean says that the
    function returned early. *)
Fixpoint multi_each (act : nat -> status * list Z -> res (status * list Z)) (from to : Z) (n p : nat) (x : status * list Z)
    : res (status * list Z * bool) :=
  match n with
  | O => Ok (x, false)
  | S n' =>
      let '(s, b) := x in
      c <- rd b p ;;
      if c =? from then
        b <- wr b p to ;;
        '(s, b) <- act p (s, b) ;;
        if shouldAbort s then Ok (s, b, true)
        else b <- wr b p from ;; multi_each act from to n' (S p) (s, b)
      else multi_each act from to n' (S p) (s, b)
  end.
Fixpoint multi_pairs (act : nat -> status * list Z -> res (status * list Z)) (start : nat) (pairs : list (Z * Z))
    (x : status * list Z) : res (status * list Z) :=
  match pairs with
  | [] => Ok x
  | (from, to) :: r =>
      '(x, stop) <- multi_each act from to (wlen (fst x) - start) start x ;;
      if (stop : bool) then Ok x else multi_pairs act start r x
  end.
Fixpoint multi_generate (pairs : list (Z * Z)) (remaining : nat) (start : nat) (x : status * list Z)
    : res (status * list Z) :=
  match remaining with
  | O => Ok x
  | S r =>
      let act p x :=
        match r with
        | O => s <- suggestForBuffer an (fst x) (firstn (wlen (fst x)) (snd x)) ;; Ok (s, snd x)
        | _ => multi_generate pairs r p x
        end in
      multi_pairs act start pairs x
  end.

(** [SuggestionGeneratorMultiReplacement::generate], lines 42-48.
    ([replaceCount] is positive: 2, SuggestionStrategyOcr.cpp:60-61.) *)
Definition gen_multi_replacement (pairs : list (Z * Z)) (replaceCount : nat) (s : status) : res status :=
  b <- copy (fresh (wlen s + 1)) 0 (zword s) (wlen s) ;;
  b <- wr b (wlen s) 0 ;;
  x <- multi_generate pairs replaceCount 0 (s, b) ;;
  Ok (fst x).

End Generators.

(** ** Strategies *)

(** suggestion/SuggestionStrategyTyping.cpp:48-101; the literals are read two
    characters at a time (REPLACEMENTS of SuggestionStrategyOcr.cpp:38-50 is
    [OCR_REPLACEMENTS]). *)
Definition REPLACEMENTS_1 : list (Z * Z) :=
  [(46, 44); (97, 115); (105, 117); (105, 111); (116, 114); (116, 100); (101, 114); (115, 353);
   (115, 97); (110, 109); (117, 105); (108, 107); (107, 108); (107, 103); (111, 105); (228, 246);
   (109, 110); (114, 101); (114, 116); (118, 98); (112, 98); (112, 111); (121, 116); (104, 106);
   (106, 104); (106, 107); (100, 116); (100, 115); (100, 102); (246, 228); (103, 102); (103, 104);
   (103, 107); (102, 103); (102, 100); (98, 112); (98, 110); (99, 118); (99, 115); (119, 101);
   (119, 118); (120, 99); (122, 382); (122, 120); (113, 97); (229, 111); (229, 112); (229, 228);
   (229, 246); (97, 101); (105, 107); (116, 121); (101, 97)].

Definition REPLACEMENTS_2 : list (Z * Z) :=
  [(49, 113); (50, 113); (50, 119); (51, 119); (51, 101); (52, 101); (52, 114); (53, 114);
   (53, 116); (54, 116); (54, 121); (55, 121); (55, 117); (56, 117); (56, 105); (57, 105);
   (57, 111); (48, 111); (48, 112); (43, 112); (105, 101)].

Definition REPLACEMENTS_3 : list (Z * Z) :=
  [(101, 115); (115, 100); (110, 104); (117, 106); (108, 246); (107, 106); (111, 112); (228, 112);
   (109, 107); (114, 100); (118, 103); (112, 108); (121, 104); (104, 117); (106, 105); (100, 101);
   (246, 108); (103, 116); (102, 118); (98, 118); (99, 107); (119, 97); (120, 115); (122, 97);
   (113, 107); (229, 97); (97, 229); (101, 233); (97, 226); (107, 99); (115, 99); (105, 106);
   (120, 122)].

Definition REPLACEMENTS_4 : list (Z * Z) :=
  [(113, 119); (113, 115); (119, 113); (119, 115); (119, 100); (101, 100); (101, 102); (114, 102);
   (114, 103); (116, 102); (116, 103); (116, 104); (121, 103); (121, 106); (117, 104); (117, 107);
   (105, 108); (111, 107); (111, 108); (112, 246); (112, 228); (115, 101); (115, 120); (100, 114);
   (98, 103); (102, 101); (102, 114); (102, 116); (102, 99); (103, 121); (103, 98); (103, 118);
   (104, 121); (104, 110); (104, 98); (104, 103); (106, 117); (106, 109); (106, 110); (107, 105);
   (107, 111); (107, 109); (108, 111); (108, 112); (246, 112); (246, 229); (228, 229); (122, 115);
   (120, 100); (99, 100); (99, 102); (99, 120); (118, 102); (98, 104); (110, 106); (110, 98);
   (109, 106); (101, 119); (112, 229); (97, 113); (115, 119); (115, 122); (100, 119); (100, 99);
   (100, 120); (118, 99); (97, 119); (97, 122); (115, 113)].

Definition REPLACEMENTS_5 : list (Z * Z) :=
  [(97, 111); (111, 97); (111, 117); (116, 108); (115, 114); (97, 105); (101, 228); (228, 101);
   (117, 118); (118, 117); (111, 100); (100, 111); (107, 113); (112, 118); (118, 112); (113, 101);
   (101, 113); (97, 100); (100, 97); (114, 115); (101, 116); (116, 101); (114, 121); (121, 114);
   (116, 117); (117, 116); (121, 105); (105, 121); (117, 111); (105, 112); (112, 105); (111, 229);
   (104, 118); (118, 104); (104, 109); (109, 104)].

Definition OCR_REPLACEMENTS : list (Z * Z) :=
  [(48, 111); (108, 105); (105, 108); (117, 111); (111, 117); (97, 228); (228, 97); (111, 246);
   (246, 111); (115, 353); (353, 115); (122, 382); (382, 122); (101, 233); (233, 101); (97, 226);
   (226, 97); (112, 98); (98, 112); (101, 102); (102, 101); (113, 111); (111, 113); (110, 109);
   (109, 110); (117, 118); (118, 117); (111, 99); (99, 111); (98, 104); (104, 98); (95, 97);
   (95, 98); (95, 99); (95, 100); (95, 101); (95, 102); (95, 103); (95, 104); (95, 105); (95, 106);
   (95, 107); (95, 108); (95, 109); (95, 110); (95, 111); (95, 112); (95, 113); (95, 114);
   (95, 115); (95, 116); (95, 117); (95, 118); (95, 119); (95, 120); (95, 121); (95, 122);
   (95, 228); (95, 246)].

(** The loops of [SuggestionStrategy::generate], suggestion/SuggestionStrategy.cpp:52-55
    and 61-64. *)
Fixpoint run_generators (gs : list (status -> res status)) (s : status) : res status :=
  match gs with
  | [] => Ok s
  | g :: r => if shouldAbort s then Ok s else s <- g s ;; run_generators r s
  end.

(** [SuggestionStrategy], suggestion/SuggestionStrategy.hpp. *)
Record strategy : Type := mkStrategy {
  budget : nat;
  primaryGenerators : list (status -> res status);
  generators : list (status -> res status)
}.

(** [SuggestionStrategy::generate], suggestion/SuggestionStrategy.cpp:49-65. *)
Definition strategy_generate (st : strategy) (s : status) : res status :=
  let s := setMaxCost s (budget st) in
  s <- run_generators (primaryGenerators st) s ;;
  if (0 <? length (found s))%nat then Ok s
  else run_generators (generators st) s.

(** SuggestionStrategyTyping.cpp:123 and 128-130 *)
Definition COMMON_LETTERS : list Z := wstr "aitesn".
Definition OTHER_LETTERS : list Z :=
  wstr "ulko" ++ [0xE4] ++ wstr "mrvpyhjd" ++ [0xF6] ++ wstr "gfbcw:xzq" ++ [0xE5] ++ wstr "'.".

(** [SuggestionStrategyTyping], SuggestionStrategyTyping.cpp:103-144. *)
Definition typing_strategy (an : analyzer) (cost : nat) : strategy :=
  mkStrategy cost
    [gen_case_change an; gen_soft_hyphens an]
    [gen_vowel_change an; gen_replacement an REPLACEMENTS_1; gen_deletion an; gen_insert_special an;
     gen_split_word an; gen_replace_two an REPLACEMENTS_1; gen_replacement an REPLACEMENTS_2;
     gen_insertion an COMMON_LETTERS; gen_swap an; gen_replacement an REPLACEMENTS_3;
     gen_insertion an OTHER_LETTERS; gen_replacement an REPLACEMENTS_4; gen_replace_two an REPLACEMENTS_2;
     gen_replace_two an REPLACEMENTS_3; gen_replace_two an REPLACEMENTS_4; gen_delete_two an;
     gen_replacement an REPLACEMENTS_5].

(** [SuggestionStrategyOcr], SuggestionStrategyOcr.cpp:53-62. *)
Definition ocr_strategy (an : analyzer) (cost : nat) : strategy :=
  mkStrategy cost
    [gen_case_change an]
    [gen_replacement an OCR_REPLACEMENTS; gen_multi_replacement an OCR_REPLACEMENTS 2].

(** [getSuggestionGenerator], suggestion/SuggestionGeneratorFactory.cpp:50-59,
    for the Finnish backend. *)
Definition finnish_strategy (an : analyzer) (ocr : bool) : strategy :=
  if ocr then ocr_strategy an 2000 else typing_strategy an 800.

(** [SuggestionGeneratorNull], SuggestionGeneratorNull.cpp:38-39 (backend
    "null"). *)
Definition null_generate (s : status) : res status := Ok s.

(** ** Sorting and the entry points *)

(** The inner loop of [sortSuggestions], SuggestionStatus.cpp:98-101; [j] is one
    more than in the code. *)
Fixpoint sort_shift (l : list (list Z * Z)) (j : nat) (current : list Z * Z) : res (list (list Z * Z)) :=
  match j with
  | O => wr l 0 current
  | S j' =>
      x <- rd l j' ;;
      if snd current <? snd x then l <- wr l (S j') x ;; sort_shift l j' current
      else wr l (S j') current
  end.

(** [sortSuggestions], SuggestionStatus.cpp:92-103. *)
Definition sortSuggestions (l : list (list Z * Z)) : res (list (list Z * Z)) :=
  for_loop (length l) 0 (fun i l => current <- rd l i ;; sort_shift l i current) l.

Definition MAX_SUGGESTIONS : nat := 5.

(** The loop of [getSuggestions], spellchecker/suggestions.cpp:51-64. *)
Fixpoint get_suggestions (l : list (list Z * Z)) (addDot : bool) : res (list (list Z)) :=
  match l with
  | [] => Ok []
  | (w, _) :: r =>
      doAddDot <- (if addDot then c <- rd_back w (length w) 1 ;; Ok (negb (c =? 0x2E)) else Ok false) ;;
      t <- get_suggestions r addDot ;;
      Ok ((w ++ (if (doAddDot : bool) then [0x2E] else [])) :: t)
  end.

(** [getSuggestions], suggestions.cpp:46-67. *)
Definition getSuggestions (l : list (list Z * Z)) (addDot : bool) : res (list (list Z)) :=
  get_suggestions (firstn MAX_SUGGESTIONS l) addDot.

(** The search in the table, character/charset.cpp:254-259 and 267-273. *)
Definition unconvert (orig modified : Z) : Z :=
  if existsb (fun p => (orig =? fst p) && (modified =? snd p)) CONV_1TO1 then orig else modified.

(** The first loop of [voikko_cset_reformat], lines 252-261: [n] positions from
    [i]; the new string and the final [i].  [orig] is the text at the pointer,
    with its terminator. *)
Fixpoint reformat_leading (orig : list Z) (n i : nat) (m : list Z) : res (list Z * nat) :=
  match n with
  | O => Ok (m, i)
  | S n' =>
      o <- rd orig i ;;
      c <- rd m i ;;
      if o =? c then reformat_leading orig n' (S i) m
      else
        m <- wr m i (unconvert o c) ;;
        if negb (o =? unconvert o c) then Ok (m, i) else reformat_leading orig n' (S i) m
  end.

(** The second loop, lines 265-275: [n] positions, counted from the ends by
    [i]. *)
Fixpoint reformat_trailing (orig : list Z) (orig_len n i : nat) (m : list Z) : res (list Z) :=
  match n with
  | O => Ok m
  | S n' =>
      o <- rd_back orig orig_len i ;;
      c <- rd_back m (length m) i ;;
      if o =? c then reformat_trailing orig orig_len n' (S i) m
      else
        m <- wr m (length m - i) (unconvert o c) ;;
        if negb (o =? unconvert o c) then Ok m else reformat_trailing orig orig_len n' (S i) m
  end.

(** [voikko_cset_reformat], character/charset.cpp:244-276. *)
Definition voikko_cset_reformat (orig : list Z) (orig_len : nat) (modified : list Z) : res (list Z) :=
  if (orig_len <? 1)%nat || (length modified <? 1)%nat then Ok modified
  else
    let minl := Nat.min orig_len (length modified) in
    '(m, i) <- reformat_leading orig minl 0 modified ;;
    reformat_trailing orig orig_len (minl - i) 1 m.

Fixpoint reformat_all (orig : list Z) (orig_len : nat) (l : list (list Z)) : res (list (list Z)) :=
  match l with
  | [] => Ok []
  | m :: r => m' <- voikko_cset_reformat orig orig_len m ;; t <- reformat_all orig orig_len r ;; Ok (m' :: t)
  end.

Definition ct_eqb (a b : casetype) : bool :=
  match a, b with
  | CT_NO_LETTERS, CT_NO_LETTERS | CT_ALL_LOWER, CT_ALL_LOWER | CT_FIRST_UPPER, CT_FIRST_UPPER
  | CT_COMPLEX, CT_COMPLEX | CT_ALL_UPPER, CT_ALL_UPPER => true
  | _, _ => false
  end.

(** Case adaptation, suggestions.cpp:123-144.  [nword] is the normalised word
    without a removed dot. *)
Definition adapt_case (h : handle) (nword : list Z) (l : list (list Z)) : res (list (list Z)) :=
  let origcase := voikko_casetype nword in
  first <- (if ct_eqb origcase CT_FIRST_UPPER then Ok true
            else if ct_eqb origcase CT_COMPLEX then c <- rd nword 0 ;; Ok (isUpper c) else Ok false) ;;
  let l := if (first : bool)
           then map (fun x => if ct_eqb (voikko_casetype x) CT_ALL_LOWER then voikko_set_case CT_FIRST_UPPER x else x) l
           else l in
  Ok (if ct_eqb origcase CT_ALL_UPPER && accept_all_uppercase h then map (voikko_set_case CT_ALL_UPPER) l else l).

(** [voikkoSuggestUcs4], suggestions.cpp:87-155, for a non-NULL word; [generate]
    is the suggestion generator of the handle; [None] is NULL. *)
Definition voikkoSuggestUcs4 (generate : status -> res status) (h : handle) (word : list Z) : res (option (list (list Z))) :=
  if (length word <=? 1)%nat || (LIBVOIKKO_MAX_WORD_CHARS <? length word)%nat then Ok None
  else
    nword <- voikko_normalise word ;;
    if ignore_dot h && Nat.eqb (length nword) 2 then Ok None
    else
      add_dots <- (if ignore_dot h then c <- rd_back nword (length nword) 1 ;; Ok (c =? 0x2E) else Ok false) ;;
      let nword := if (add_dots : bool) then removelast nword else nword in
      s <- generate (new_status nword (MAX_SUGGESTIONS * 3)) ;;
      match found s with
      | [] => Ok None
      | _ =>
          sorted <- sortSuggestions (found s) ;;
          l <- getSuggestions sorted add_dots ;;
          l <- adapt_case h nword l ;;
          l <- reformat_all (word ++ [0]) (length nword) l ;;
          Ok (Some l)
      end.

(** The conversion loop of [voikkoSuggestCstr], suggestions.cpp:184-190. *)
Fixpoint encode_all (l : list (list Z)) : res (list (list Z)) :=
  match l with
  | [] => Ok []
  | w :: r =>
      o <- utf8FromUcs4 w ;;
      t <- encode_all r ;;
      Ok (match o with Some u => u :: t | None => t end)
  end.

(** [voikkoSuggestCstr], suggestions.cpp:157-203, for a non-NULL string. *)
Definition voikkoSuggestCstr (generate : status -> res status) (h : handle) (word : list Z) : res (option (list (list Z))) :=
  if Nat.eqb (length word) 0 then Ok None
  else if (LIBVOIKKO_MAX_WORD_CHARS <? length word)%nat then Ok None
  else
    o <- ucs4FromUtf8 word ;;
    match o with
    | None => Ok None
    | Some w =>
        r <- voikkoSuggestUcs4 generate h (cstr w) ;;
        match r with
        | None => Ok None
        | Some l => u <- encode_all l ;; Ok (match u with [] => None | _ => Some u end)
        end
    end.
