(** * The analyser for Finnish.

    Models [morphology/FinnishVfstAnalyzer.cpp].  The transducer is a value, as
    the constructor loads it (FstFileModel); its configuration is passed in and
    out.  An output of the transducer is a list [o] of characters without NUL;
    [o ++ [0]] is that part of [outputBuffer] that belongs to the output.  Reading
    behind it is [UB]: there the buffer is not initialised or holds remains of
    earlier outputs. *)
From Verif Require Import Base CharModel AnalysisModel HyphModel FstModel.

(** The code of an ASCII character. *)
Definition ch (a : ascii) : Z := Z.of_N (N_of_ascii a).
Arguments ch a%char_scope.

(** [wcsncmp(fstOutput + i, s, wcslen(s)) == 0]. *)
Definition starts (b : list Z) (i : nat) (s : string) : res bool := prefix_eq (wstr s) (skipn i b).

(** [wcscmp(value, s) == 0] for an attribute that is set. *)
Definition is (value : list Z) (s : string) : bool := zlist_eqb value (wstr s).

(** ** Tables of attribute values *)

(** [operator<] of [std::wstring]. *)
Fixpoint wless (a b : list Z) : bool :=
  match a, b with
  | _, [] => false
  | [], _ :: _ => true
  | x :: a', y :: b' => if x =? y then wless a' b' else x <? y
  end.

(** [std::map<wstring, const wchar_t *>]: sorted by key; [insert] does nothing
    when the key is present. *)
Definition wmap := list (list Z * list Z).
Fixpoint wmap_insert (m : wmap) (k v : list Z) : wmap :=
  match m with
  | [] => [(k, v)]
  | (k', v') :: r =>
      if wless k k' then (k, v) :: m else if zlist_eqb k k' then m else (k', v') :: wmap_insert r k v
  end.
Definition wmap_of (l : list (string * string)) : wmap :=
  fold_left (fun m '(k, v) => wmap_insert m (wstr k) (wstr v)) l [].
Fixpoint wmap_find (m : wmap) (k : list Z) : option (list Z) :=
  match m with
  | [] => None
  | (k', v) :: r => if zlist_eqb k' k then Some v else wmap_find r k
  end.

(** The constructor, morphology/FinnishVfstAnalyzer.cpp:57-75. *)
Definition classMap : wmap := wmap_of
  [("n", "nimisana"); ("l", "laatusana"); ("nl", "nimisana_laatusana"); ("h", "huudahdussana"); ("ee", "etunimi");
   ("es", "sukunimi"); ("ep", "paikannimi"); ("em", "nimi"); ("t", "teonsana"); ("a", "lyhenne"); ("s", "seikkasana");
   ("u", "lukusana"); ("ur", "lukusana"); ("r", "asemosana"); ("c", "sidesana"); ("d", "suhdesana"); ("k", "kieltosana");
   ("p", "etuliite")]%string.
(** Lines 77-92. *)
Definition sijamuotoMap : wmap := wmap_of
  [("n", "nimento"); ("g", "omanto"); ("p", "osanto"); ("es", "olento"); ("tr", "tulento"); ("ine", "sisaolento");
   ("ela", "sisaeronto"); ("ill", "sisatulento"); ("ade", "ulkoolento"); ("abl", "ulkoeronto"); ("all", "ulkotulento");
   ("ab", "vajanto"); ("ko", "seuranto"); ("in", "keinonto"); ("sti", "kerrontosti"); ("ak", "kohdanto")]%string.
(** Lines 94-95. *)
Definition comparisonMap : wmap := wmap_of [("c", "comparative"); ("s", "superlative")]%string.
(** Lines 97-105. *)
Definition moodMap : wmap := wmap_of
  [("n1", "A-infinitive"); ("n2", "E-infinitive"); ("n3", "MA-infinitive"); ("n4", "MINEN-infinitive");
   ("n5", "MAINEN-infinitive"); ("t", "indicative"); ("e", "conditional"); ("k", "imperative"); ("m", "potential")]%string.
(** Lines 107-108. *)
Definition numberMap : wmap := wmap_of [("y", "singular"); ("m", "plural")]%string.
(** Lines 110-113. *)
Definition personMap : wmap := wmap_of [("1", "1"); ("2", "2"); ("3", "3"); ("4", "4")]%string.
(** Lines 115-116. *)
Definition tenseMap : wmap := wmap_of [("p", "present_simple"); ("i", "past_imperfective")]%string.
(** Lines 118-119. *)
Definition focusMap : wmap := wmap_of [("kin", "kin"); ("kaan", "kaan")]%string.
(** Lines 121-125. *)
Definition possessiveMap : wmap := wmap_of [("1y", "1s"); ("2y", "2s"); ("1m", "1p"); ("2m", "2p"); ("3", "3")]%string.
(** Lines 127-129. *)
Definition negativeMap : wmap := wmap_of [("t", "true"); ("f", "false"); ("b", "both")]%string.
(** Lines 131-136. *)
Definition participleMap : wmap := wmap_of
  [("v", "present_active"); ("a", "present_passive"); ("u", "past_active"); ("t", "past_passive"); ("m", "agent");
   ("e", "negation")]%string.

(** [std::list::unique]: of equal neighbours only the first stays.  The code
    compares addresses; in one table two values have the same text only if they
    have the same address. *)
Fixpoint unique (l : list (list Z)) : list (list Z) :=
  match l with
  | x :: ((y :: _) as r) => if zlist_eqb x y then unique r else x :: unique r
  | _ => l
  end.

(** [valuesFromMap], lines 1114-1121.  With equal neighbours the code keeps the
    first and the model the last, which has the same text. *)
Definition valuesFromMap (m : wmap) : list (list Z) := unique (map snd m).

(** [getAttributeValues], lines 1123-1170. *)
Definition getAttributeValues (attribute : string) : list (list Z) :=
  let a := String.eqb attribute in
  if a "CLASS"%string then valuesFromMap classMap
  else if a "NUMBER"%string then valuesFromMap numberMap
  else if a "COMPARISON"%string then valuesFromMap comparisonMap
  else if a "FOCUS"%string then valuesFromMap focusMap
  else if a "TENSE"%string then valuesFromMap tenseMap
  else if a "SIJAMUOTO"%string then valuesFromMap sijamuotoMap
  else if a "MOOD"%string then valuesFromMap moodMap
  else if a "PERSON"%string then valuesFromMap personMap
  else if a "PARTICIPLE"%string then valuesFromMap participleMap
  else if a "NEGATIVE"%string then valuesFromMap negativeMap
  else if a "POSSESSIVE"%string then valuesFromMap possessiveMap
  else if a "KYSYMYSLIITE"%string || a "MALAGA_VAPAA_JALKIOSA"%string || a "POSSIBLE_GEOGRAPHICAL_NAME"%string
  then [wstr "true"]
  else if a "REQUIRE_FOLLOWING_VERB"%string then [wstr "A-infinitive"; wstr "MA-infinitive"]
  else [].

(** [voikkoGetAttributeValues], morphology/interface.cpp:117-132: NULL when there
    are no values.  The conversion to UTF-8 is not part of the model. *)
Definition voikkoGetAttributeValues (attributeName : option string) : option (list (list Z)) :=
  match attributeName with
  | None => None
  | Some name => match getAttributeValues name with [] => None | l => Some l end
  end.

(** ** The structure of the word *)

(** The variables of [parseStructure], lines 172-180. *)
Record structure_state : Type := mk_ps {
  structure : list Z;
  structurePos : nat;
  charsMissing : nat;
  charsSeen : nat;
  charsFromDefault : nat;
  defaultTitleCase : bool;
  isAbbr : bool
}.

(** [structure[structurePos++] = c]. *)
Definition put (s : structure_state) (c : Z) : res structure_state :=
  b <- wr (structure s) (structurePos s) c ;;
  Ok (mk_ps b (S (structurePos s)) (charsMissing s) (charsSeen s) (charsFromDefault s) (defaultTitleCase s) (isAbbr s)).

Definition set_missing (s : structure_state) (n : nat) : structure_state :=
  mk_ps (structure s) (structurePos s) n (charsSeen s) (charsFromDefault s) (defaultTitleCase s) (isAbbr s).
Definition set_seen (s : structure_state) (n : nat) : structure_state :=
  mk_ps (structure s) (structurePos s) (charsMissing s) n (charsFromDefault s) (defaultTitleCase s) (isAbbr s).
Definition set_fromDefault (s : structure_state) (n : nat) : structure_state :=
  mk_ps (structure s) (structurePos s) (charsMissing s) (charsSeen s) n (defaultTitleCase s) (isAbbr s).
Definition set_title (s : structure_state) (x : bool) : structure_state :=
  mk_ps (structure s) (structurePos s) (charsMissing s) (charsSeen s) (charsFromDefault s) x (isAbbr s).
Definition set_abbr (s : structure_state) (x : bool) : structure_state :=
  mk_ps (structure s) (structurePos s) (charsMissing s) (charsSeen s) (charsFromDefault s) (defaultTitleCase s) x.

(** [createDefaultStructure], lines 146-158. *)
Fixpoint createDefaultStructure (n : nat) (s : structure_state) : res structure_state :=
  match n with
  | O => Ok s
  | S n =>
      s <- (if defaultTitleCase s then
              s <- put s (if isAbbr s then ch "j" else ch "i") ;; Ok (set_title s false)
            else put s (if isAbbr s then ch "q" else ch "p")) ;;
      createDefaultStructure n s
  end.

(** [decreaseCharsMissing], lines 160-169.  The failing assertion ends the
    program; the model calls this [UB]. *)
Definition decreaseCharsMissing (s : structure_state) : res structure_state :=
  let n := (charsSeen s - charsFromDefault s)%nat in
  if (n <=? charsMissing s)%nat then Ok (set_missing s (charsMissing s - n)) else UB.

(** The two calls of lines 188-189, 257-258 and 281-282. *)
Definition flush (s : structure_state) : res structure_state :=
  s <- createDefaultStructure (charsSeen s - charsFromDefault s) s ;;
  decreaseCharsMissing s.

(** Lines 195-196, 260-261 and 283-284. *)
Definition restart (s : structure_state) : structure_state := set_fromDefault (set_seen s 0) 0.

(** [if (charsMissing) charsMissing--]. *)
Definition one_less (s : structure_state) : structure_state := set_missing s (charsMissing s - 1).

(** The loop of lines 202-212; the list is the output from position [i] on. *)
Fixpoint copy_pattern (rest : list Z) (i : nat) (s : structure_state) : res (nat * structure_state) :=
  match rest with
  | [] => UB
  | c :: rest =>
      if (c =? ch "[") || Nat.eqb (charsMissing s) 0 then Ok (i, s)
      else
        s <- put s c ;;
        let s := if c =? ch "=" then s
                 else
                   let s := set_fromDefault s (S (charsFromDefault s)) in
                   if c =? ch "-" then s else set_missing s (charsMissing s - 1) in
        copy_pattern rest (S i) s
  end.

(** [while (fstOutput[i] != c) i++]; the list is the output from position [i]
    on. *)
Fixpoint find_char (c : Z) (rest : list Z) (i : nat) : res nat :=
  match rest with
  | [] => UB
  | d :: rest => if d =? c then Ok i else find_char c rest (S i)
  end.

(** The tag [[B.]], lines 183-197: the structure state after it. *)
Definition boundary_tag (i outputLen : nat) (s : structure_state) : res structure_state :=
  s <- (if Nat.eqb i 1 then put s (ch "=") else Ok s) ;;
  s <- (if (charsFromDefault s <? charsSeen s)%nat then flush s else Ok s) ;;
  s <- (if negb (Nat.eqb i 1) && (i + 5 <? outputLen)%nat && (0 <? structurePos s)%nat then
          last <- rd (structure s) (structurePos s - 1) ;;
          (if last =? ch "=" then Ok s else put s (ch "="))
        else Ok s) ;;
  Ok (restart s).

(** The tags [[L..]], lines 222-248: the number of characters to skip and the
    state. *)
Definition class_tag (b : list Z) (i outputLen : nat) (s : structure_state) : res (nat * structure_state) :=
  c2 <- rd b (i + 2) ;;
  c3 <- rd b (i + 3) ;;
  if c2 =? ch "e" then Ok (4%nat, set_abbr (set_title s true) false)
  else if (c2 =? ch "n") && (c3 =? ch "l") then Ok (4%nat, set_abbr s false)
  else if c2 =? ch "a" then Ok (3%nat, set_abbr s true)
  else
    c4 <- (if (c2 =? ch "u") && (i + 5 <? outputLen)%nat then rd b (i + 4) else Ok 0) ;;
    if (c2 =? ch "u") && (i + 5 <? outputLen)%nat && ((c3 =? ch "r") || isDigit c4) then
      Ok (if c3 =? ch "r" then 4%nat else 3%nat, set_abbr s true)
    else Ok (3%nat, set_abbr s false).

(** The branch for an opening bracket, lines 182-254: the new value of [i], before
    [i++]. *)
Definition structure_tag (b : list Z) (i outputLen : nat) (s : structure_state) : res (nat * structure_state) :=
  c1 <- rd b (i + 1) ;;
  c2 <- rd b (i + 2) ;;
  c3 <- (if (i + 3 <? outputLen)%nat then rd b (i + 3) else Ok 0) ;;
  let longer := (i + 3 <? outputLen)%nat in
  if longer && (c1 =? ch "B") && negb (c2 =? ch "h") && (c3 =? ch "]") then
    s <- boundary_tag i outputLen s ;;
    Ok ((i + 3)%nat, s)
  else if longer && (c1 =? ch "X") && (c3 =? ch "]") then
    (if c2 =? ch "r" then
       '(j, s) <- copy_pattern (skipn (i + 4) b) (i + 4) (set_title s false) ;;
       Ok ((j + 2)%nat, s)
     else
       j <- find_char (ch "[") (skipn (i + 4) b) (i + 4) ;;
       Ok ((j + 2)%nat, s))
  else if longer && (c1 =? ch "L") then
    '(n, s) <- class_tag b i outputLen s ;;
    Ok ((i + n)%nat, s)
  else
    j <- find_char (ch "]") (skipn i b) i ;;
    Ok (j, s).

(** The branch for a hyphen, lines 255-277. *)
Definition structure_hyphen (i : nat) (s : structure_state) : res structure_state :=
  s <- (if (charsFromDefault s <? charsSeen s)%nat then
          s <- flush s ;;
          s <- put s (ch "-") ;;
          Ok (restart s)
        else if Nat.eqb i 0 then Ok s
        else if Nat.eqb (charsSeen s) (charsFromDefault s) then put s (ch "-")
        else Ok (set_seen s (S (charsSeen s)))) ;;
  let s := one_less s in
  if Nat.eqb (structurePos s) 1 then
    b <- wr (structure s) 0 (ch "-") ;;
    Ok (mk_ps b (structurePos s) (charsMissing s) (charsSeen s) (charsFromDefault s) (defaultTitleCase s) (isAbbr s))
  else Ok s.

(** The branch for a colon, lines 278-292. *)
Definition structure_colon (s : structure_state) : res structure_state :=
  s <- (if isAbbr s then
          s <- (if (charsFromDefault s <? charsSeen s)%nat then s <- flush s ;; Ok (restart s) else Ok s) ;;
          Ok (set_abbr s false)
        else Ok s) ;;
  s <- put s (ch ":") ;;
  Ok (one_less s).

(** The body of the loop of [parseStructure], lines 181-296: the new value of [i],
    before [i++]. *)
Definition structure_step (b : list Z) (outputLen i : nat) (s : structure_state) : res (nat * structure_state) :=
  c <- rd b i ;;
  if (c =? ch "[") && (i + 2 <? outputLen)%nat then structure_tag b i outputLen s
  else if c =? ch "-" then s <- structure_hyphen i s ;; Ok (i, s)
  else if c =? ch ":" then s <- structure_colon s ;; Ok (i, s)
  else Ok (i, set_seen s (S (charsSeen s))).

Fixpoint structure_loop (fuel : nat) (b : list Z) (outputLen i : nat) (s : structure_state) : res structure_state :=
  if (i <? outputLen)%nat then
    match fuel with
    | O => Fuel
    | S f => '(j, s) <- structure_step b outputLen i s ;; structure_loop f b outputLen (S j) s
    end
  else Ok s.

(** [parseStructure], lines 171-300: the buffer of [wlen * 2 + 1] characters and
    the resulting string.  The buffer is filled with zeros here, but no element is
    used before it is written. *)
Definition parseStructure (o : list Z) (wlen : nat) : res (list Z) :=
  buf <- wr (repeat 0 (wlen * 2 + 1)) 0 (ch "=") ;;
  s <- structure_loop (length o) (o ++ [0]) (length o) 0 (mk_ps buf 1 wlen 0 0 false false) ;;
  s <- createDefaultStructure (charsMissing s) s ;;
  buf <- wr (structure s) (structurePos s) 0 ;;
  Ok (cstr buf).

(** The loop over the structure in [fixStructure], lines 1006-1016. *)
Fixpoint lower_part (st : list Z) (hyphensInStructure hyphenCount : nat) : list Z :=
  match st with
  | [] => []
  | c :: r =>
      if c =? ch "i" then (if Nat.eqb hyphensInStructure hyphenCount then ch "p" else c) :: lower_part r hyphensInStructure hyphenCount
      else if c =? ch "-" then c :: lower_part r (S hyphensInStructure) hyphenCount
      else c :: lower_part r hyphensInStructure hyphenCount
  end.

(** The loop of lines 1038-1043: the first letter becomes a capital. *)
Fixpoint raise_first (st : list Z) : list Z :=
  match st with
  | [] => []
  | c :: r => if (c =? ch "i") || (c =? ch "p") then ch "i" :: r else c :: raise_first r
  end.

Definition has_letter (st : list Z) : bool := existsb (fun c => (c =? ch "i") || (c =? ch "p")) st.

(** The loop of lines 1031-1036 with [n] iterations left: the value of [j] and
    [toUpper]. *)
Fixpoint find_place_name (n : nat) (b : list Z) (fstLen j : nat) (toUpper : bool) : res (nat * bool) :=
  if negb toUpper && (j + 4 <? fstLen)%nat then
    match n with
    | O => Fuel
    | S n => found <- starts b j "[Lep]" ;; find_place_name n b fstLen (S j) found
    end
  else Ok (j, toUpper).

(** The loop of [fixStructure], lines 1002-1047. *)
Fixpoint fix_loop (fuel : nat) (b : list Z) (fstLen j : nat) (st : list Z) (isDe : bool) (hyphenCount : nat) : res (list Z) :=
  if (j <? fstLen)%nat then
    match fuel with
    | O => Fuel
    | S f =>
        c <- rd b j ;;
        if (j + 3 <? fstLen)%nat && (c =? ch "[") then
          c1 <- rd b (j + 1) ;;
          c2 <- rd b (j + 2) ;;
          if c1 =? ch "D" then
            (if c2 =? ch "g" then fix_loop f b fstLen (S j) (lower_part st 0 hyphenCount) isDe hyphenCount
             else if c2 =? ch "e" then fix_loop f b fstLen (S j) st true hyphenCount
             else fix_loop f b fstLen (S j) st isDe hyphenCount)
          else
            ln <- starts b (j + 1) "Ln]" ;;
            fix_loop f b fstLen (S j) st (if ln : bool then false else isDe) hyphenCount
        else if c =? ch "-" then
          (if isDe then
             '(j, toUpper) <- find_place_name fstLen b fstLen (S j) (Nat.eqb j (fstLen - 1)) ;;
             if (toUpper : bool) && has_letter st then Ok (raise_first st)
             else fix_loop f b fstLen (S j) st isDe (S hyphenCount)
           else fix_loop f b fstLen (S j) st isDe (S hyphenCount))
        else fix_loop f b fstLen (S j) st isDe hyphenCount
    end
  else Ok st.

(** [fixStructure], lines 999-1048. *)
Definition fixStructure (st o : list Z) : res (list Z) :=
  fix_loop (length o) (o ++ [0]) (length o) 0 st false 0.

(** ** Checking the use of hyphens *)

(** The variables of [isValidAnalysis], lines 323-332. *)
Record valid_state : Type := mk_vs {
  beforeLastChar : Z;
  lastChar : Z;
  boundaryPassed : bool;
  hyphenPresent : bool;
  hyphenUnconditionallyAllowed : bool;
  hyphenUnconditionallyAllowedJustSet : bool;
  hyphenRequired : bool;
  requiredHyphenMissing : bool;
  startsWithProperNoun : bool;
  endsWithNonIcaNoun : bool
}.

Definition valid_start : valid_state := mk_vs 0 0 false false false false false false false false.

(** Lines 339-367: information in the tag. *)
Definition valid_info (b : list Z) (i len : nat) (s : valid_state) : res valid_state :=
  let '(mk_vs bl l bp hp ha hj hr rm sp en) := s in
  if (i + 3 <? len)%nat then
    c1 <- rd b (i + 1) ;;
    if c1 =? ch "I" then
      sf <- starts b (i + 2) "sf" ;;
      cu <- starts b (i + 2) "cu" ;;
      ca <- starts b (i + 2) "ca" ;;
      Ok (if sf : bool then mk_vs bl l bp hp true true hr rm sp en
          else if cu : bool then mk_vs bl l false hp true hj true rm sp en
          else if ca : bool then mk_vs bl l bp hp ha hj hr false sp false
          else s)
    else if c1 =? ch "L" then
      c2 <- rd b (i + 2) ;;
      Ok (if c2 =? ch "e" then mk_vs bl l bp hp ha hj hr rm true false
          else if c2 =? ch "n" then mk_vs bl l bp hp ha hj hr rm sp true
          else s)
    else
      dg <- starts b (i + 1) "Dg" ;;
      Ok (if dg : bool then mk_vs bl l bp hp ha hj hr rm false en else s)
  else Ok s.

(** The loop of lines 369-375: the value of [i] after it. *)
Fixpoint skip_x (n : nat) (b : list Z) (len i : nat) : res nat :=
  if (i + 3 <? len)%nat then
    match n with
    | O => Fuel
    | S n =>
        let i := S i in
        c0 <- rd b i ;; c1 <- rd b (i + 1) ;; c2 <- rd b (i + 2) ;;
        if (c0 =? ch "[") && (c1 =? ch "X") && (c2 =? ch "]") then Ok (i + 2)%nat else skip_x n b len i
    end
  else Ok i.

(** [while (++i < len && fstOutput[i] != ']') { }], line 389. *)
Fixpoint skip_tag (n : nat) (b : list Z) (len i : nat) : res nat :=
  match n with
  | O => Fuel
  | S n =>
      let i := S i in
      if (i <? len)%nat then
        c <- rd b i ;;
        if c =? ch "]" then Ok i else skip_tag n b len i
      else Ok i
  end.

(** The branch for a tag, lines 334-391.  [None]: the output is rejected. *)
Definition valid_tag (b : list Z) (i len : nat) (s : valid_state) : res (option (nat * valid_state)) :=
  if (len <=? i + 2)%nat then Ok None
  else
    s <- valid_info b i len s ;;
    c1 <- rd b (i + 1) ;;
    if c1 =? ch "X" then
      j <- skip_x len b len i ;;
      Ok (Some (j, s))
    else
      bh <- starts b (i + 1) "Bh" ;;
      if (bh : bool) then
        (if requiredHyphenMissing s then Ok None
         else Ok (Some ((i + 3)%nat,
                mk_vs (beforeLastChar s) (lastChar s) true false (hyphenUnconditionallyAllowed s)
                  (hyphenUnconditionallyAllowedJustSet s) (hyphenRequired s)
                  (if hyphenRequired s then true else requiredHyphenMissing s)
                  (startsWithProperNoun s) (endsWithNonIcaNoun s))))
      else
        j <- skip_tag (S len) b len i ;;
        Ok (Some (j, s)).

(** The branch for a hyphen, lines 392-400. *)
Definition valid_hyphen (b : list Z) (i len : nat) (s : valid_state) : res (nat * valid_state) :=
  let '(mk_vs bl l bp hp ha hj hr rm sp en) := s in
  bh <- (if (i + 5 <? len)%nat then starts b (i + 1) "[Bh]" else Ok false) ;;
  Ok (if bh : bool then ((i + 4)%nat, mk_vs bl l true true ha hj hr rm false false)
      else (i, mk_vs bl l bp hp ha hj hr rm false false)).

(** The branch for any other character [c], lines 401-429.  [wcschr] finds NUL in
    [VOIKKO_VOWELS]. *)
Definition valid_char (c : Z) (s : valid_state) : option valid_state :=
  let '(mk_vs bl l bp hp ha hj hr rm sp en) := s in
  if bp then
    let ha := if (l =? 0) || ((bl =? ch "i") && (l =? ch "s")) then true else ha in
    let hr := if hr then (if hp then false else true) else false in
    let l := if ha && hp then l else lower l in
    let required := ((l =? lower c) && wcschr VOIKKO_VOWELS l) || in_range (ch "0") (ch "9") l in
    if negb (ha && hp) && negb (Bool.eqb required hp) then None
    else Some (mk_vs l c false hp (if hj then ha else false) false hr rm sp en)
  else Some (mk_vs l c bp hp ha hj hr rm sp en).

(** The loop of [isValidAnalysis], lines 333-430. *)
Fixpoint valid_loop (fuel : nat) (b : list Z) (len i : nat) (s : valid_state) : res bool :=
  if (i <? len)%nat then
    match fuel with
    | O => Fuel
    | S f =>
        c <- rd b i ;;
        if c =? ch "[" then
          r <- valid_tag b i len s ;;
          match r with
          | None => Ok false
          | Some (j, s) => valid_loop f b len (S j) s
          end
        else if c =? ch "-" then
          '(j, s) <- valid_hyphen b i len s ;;
          valid_loop f b len (S j) s
        else
          match valid_char c s with
          | None => Ok false
          | Some s => valid_loop f b len (S i) s
          end
    end
  else Ok (negb (requiredHyphenMissing s) && (negb (startsWithProperNoun s) || negb (endsWithNonIcaNoun s))).

(** [isValidAnalysis], lines 322-432. *)
Definition isValidAnalysis (o : list Z) : res bool := valid_loop (length o) (o ++ [0]) (length o) 0 valid_start.

(** ** Attributes *)

(** [getAttributeFromMap] and [parseBasicAttribute], lines 302-320, for the tag
    between the brackets at [j] and [i].  A length below zero would wrap
    around. *)
Definition parseBasicAttribute (a : analysis) (b : list Z) (i j : nat) (key : Key) (m : wmap) : res analysis :=
  match a key with
  | Some _ => Ok a
  | None =>
      if (i <? j + 2)%nat then UB
      else
        match wmap_find m (firstn (i - j - 2) (skipn (j + 2) b)) with
        | Some v => Ok (add a key v)
        | None => Ok a
        end
  end.

(** [wcsstr(text, s) != 0]. *)
Fixpoint contains (s : list Z) (text : list Z) : bool :=
  zlist_eqb (firstn (length s) text) s || match text with [] => false | _ :: r => contains s r end.

(** [addInfoFlag], lines 434-458; [p] is [outputPosition - outputBuffer]. *)
Definition addInfoFlag (a : analysis) (b : list Z) (p : nat) : res analysis :=
  vj <- starts b p "vj" ;;
  ca <- starts b p "ca" ;;
  if (vj : bool) then
    c <- rd b 0 ;;
    Ok (if c =? ch "-" then a else add a MALAGA_VAPAA_JALKIOSA (wstr "true"))
  else if (ca : bool) then
    let rest := cstr (skipn p b) in
    let noun := match a CLASS with None => true | Some v => zlist_eqb (firstn 8 v) (wstr "nimisana") end in
    Ok (if negb (contains (wstr "[Bc]") rest) && negb (contains (wstr "[Ll]") rest) && noun
        then add a POSSIBLE_GEOGRAPHICAL_NAME (wstr "true") else a)
  else
    let mood := match a MOOD with
                | None => true
                | Some v => negb (is v "E-infinitive") && negb (is v "MINEN-infinitive") && negb (is v "MA-infinitive")
                end in
    let verb := match a CLASS with None => true | Some v => is v "teonsana" end in
    ra <- starts b p "ra" ;;
    rm <- starts b p "rm" ;;
    Ok (if mood && verb then
          (if ra : bool then add a REQUIRE_FOLLOWING_VERB (wstr "A-infinitive")
           else if rm : bool then add a REQUIRE_FOLLOWING_VERB (wstr "MA-infinitive") else a)
        else a).

(** [while (j >= 1) { j--; if (fstOutput[j] == '[') ... break; }], lines 899-990:
    the value of [j] and whether the bracket was found. *)
Fixpoint open_bracket (b : list Z) (j : nat) : res (nat * bool) :=
  match j with
  | O => Ok (O, false)
  | S j => c <- rd b j ;; if c =? ch "[" then Ok (j, true) else open_bracket b j
  end.

(** The variables of [parseBasicAttributes]. *)
Record basic_state : Type := mk_bs {
  battributes : analysis;
  convertNimiLaatusanaToLaatusana : bool;
  bcPassed : bool;
  classSet : bool
}.

Definition set_attributes (s : basic_state) (a : analysis) : basic_state :=
  mk_bs a (convertNimiLaatusanaToLaatusana s) (bcPassed s) (classSet s).

(** Lines 902-919: [[L..]]. *)
Definition basic_class (b : list Z) (i j : nat) (s : basic_state) : res basic_state :=
  c2 <- rd b (j + 2) ;;
  if negb (classSet s) || (c2 =? ch "]") then
    nl <- starts b (j + 2) "nl" ;;
    a <- (if nl : bool then
            lu <- starts b 0 "[Lu]" ;;
            let comp := match battributes s COMPARISON with
                        | Some v => is v "comparative" || is v "superlative"
                        | None => false
                        end in
            Ok (add (battributes s) CLASS
                  (if convertNimiLaatusanaToLaatusana s || comp || lu then wstr "laatusana" else wstr "nimisana_laatusana"))
          else parseBasicAttribute (battributes s) b i j CLASS classMap) ;;
    Ok (mk_bs a (convertNimiLaatusanaToLaatusana s) (bcPassed s) true)
  else Ok s.

(** [!wclass || (wcscmp(wclass, "etuliite") != 0 && wcscmp(wclass, "seikkasana") != 0)]. *)
Definition takes_number (a : analysis) : bool :=
  match a CLASS with None => true | Some v => negb (is v "etuliite") && negb (is v "seikkasana") end.

Definition is_none {A} (x : option A) : bool := match x with None => true | Some _ => false end.

(** Lines 902-987: the tag between the brackets at [j] and [i]. *)
Definition basic_tag (b : list Z) (fstLen i j : nat) (s : basic_state) : res basic_state :=
  let a := battributes s in
  let attribute key m := a <- parseBasicAttribute a b i j key m ;; Ok (set_attributes s a) in
  c1 <- rd b (j + 1) ;;
  if c1 =? ch "L" then basic_class b i j s
  else if c1 =? ch "N" then (if takes_number a then attribute NUMBER numberMap else Ok s)
  else if c1 =? ch "P" then attribute PERSON personMap
  else if c1 =? ch "S" then
    (if takes_number a then
       s <- attribute SIJAMUOTO sijamuotoMap ;;
       sti <- (if (j + 5 <? fstLen)%nat then starts b (j + 2) "sti" else Ok false) ;;
       Ok (if sti : bool then mk_bs (battributes s) true (bcPassed s) (classSet s) else s)
     else Ok s)
  else if c1 =? ch "T" then (if is_none (a CLASS) then attribute MOOD moodMap else Ok s)
  else if c1 =? ch "A" then attribute TENSE tenseMap
  else if c1 =? ch "F" then
    ko <- starts b (j + 2) "ko" ;;
    (if ko : bool then Ok (set_attributes s (add a KYSYMYSLIITE (wstr "true"))) else attribute FOCUS focusMap)
  else if c1 =? ch "O" then attribute POSSESSIVE possessiveMap
  else if c1 =? ch "C" then (if is_none (a CLASS) then attribute COMPARISON comparisonMap else Ok s)
  else if c1 =? ch "E" then attribute NEGATIVE negativeMap
  else if c1 =? ch "R" then
    (if bcPassed s then Ok s
     else
       allowed <- (match a CLASS with
                   | None => Ok true
                   | Some v =>
                       if is v "laatusana" then Ok true
                       else if (fstLen <? 4)%nat then UB
                       else Ok (zlist_eqb (cstr (skipn (fstLen - 4) b)) (wstr "[Ln]"))
                   end) ;;
       if (allowed : bool) then attribute PARTICIPLE participleMap else Ok s)
  else if c1 =? ch "I" then a <- addInfoFlag a b (j + 2) ;; Ok (set_attributes s a)
  else if c1 =? ch "B" then
    c2 <- rd b (j + 2) ;;
    (if (5 <=? j)%nat && (c2 =? ch "c") then
       hyphen <- (if negb (classSet s) && is_none (a CLASS) then
                    c <- rd b (j - 1) ;;
                    bh <- starts b (j - 5) "-[Bh]" ;;
                    Ok ((c =? ch "-") || bh)
                  else Ok false) ;;
       Ok (if hyphen : bool then mk_bs (add a CLASS (wstr "etuliite")) (convertNimiLaatusanaToLaatusana s) true true
           else mk_bs a (convertNimiLaatusanaToLaatusana s) true (classSet s))
     else Ok s)
  else Ok s.

(** The loop of [parseBasicAttributes], lines 896-996, from [i] downwards. *)
Fixpoint basic_loop (fuel : nat) (b : list Z) (fstLen i : nat) (s : basic_state) : res basic_state :=
  if (i <? 2)%nat then Ok s
  else
    match fuel with
    | O => Fuel
    | S f =>
        c <- rd b i ;;
        if c =? ch "]" then
          '(j, found) <- open_bracket b i ;;
          s <- (if found : bool then basic_tag b fstLen i j s else Ok s) ;;
          if (j <? 3)%nat then Ok s else basic_loop f b fstLen (j - 1) s
        else basic_loop f b fstLen (i - 1) s
    end.

(** [parseBasicAttributes], lines 892-997.  For an empty output the loop starts
    at the largest number of type [size_t]. *)
Definition parseBasicAttributes (a : analysis) (o : list Z) : res analysis :=
  match o with
  | [] => UB
  | _ => s <- basic_loop (length o) (o ++ [0]) (length o) (length o - 1) (mk_bs a false false false) ;; Ok (battributes s)
  end.

(** ** The base form *)

(** The variables of [parseNumeralBaseform], lines 461-466. *)
Record numeral_state : Type := mk_ns {
  n_baseform : list Z;
  n_pos : nat;
  n_isInXp : bool;
  n_isInXr : bool;
  n_isInTag : bool;
  n_isInDigitSequence : bool;
  n_xpPassed : bool
}.

(** [baseform[baseformPos++] = c]. *)
Definition n_put (s : numeral_state) (c : Z) : res numeral_state :=
  b <- wr (n_baseform s) (n_pos s) c ;;
  Ok (mk_ns b (S (n_pos s)) (n_isInXp s) (n_isInXr s) (n_isInTag s) (n_isInDigitSequence s) (n_xpPassed s)).

(** The branch for a bracket, lines 472-516: the number of characters to skip.
    [None]: give up, leaving the buffer. *)
Definition numeral_tag (b : list Z) (fstLen i : nat) (s : numeral_state) : res (option (nat * numeral_state)) :=
  let s := if n_isInDigitSequence s
           then mk_ns (n_baseform s) (n_pos s) (n_isInXp s) (n_isInXr s) (n_isInTag s) false true else s in
  let '(mk_ns buf pos xp xr tag dig passed) := s in
  if (fstLen <=? i + 2)%nat then Ok None
  else
    let longer := (i + 6 <? fstLen)%nat in
    tXp <- starts b i "[Xp]" ;; tXj <- starts b i "[Xj]" ;; tXr <- starts b i "[Xr]" ;; tBc <- starts b i "[Bc]" ;;
    tLn <- starts b i "[Ln]" ;; tLl <- starts b i "[Ll]" ;; tLnl <- starts b i "[Lnl]" ;; tX <- starts b i "[X]" ;;
    Ok (if longer && (tXp || tXj) then Some (3%nat, mk_ns buf pos true xr tag dig passed)
        else if longer && tXr then Some (3%nat, mk_ns buf pos xp true tag dig passed)
        else if Nat.eqb (i + 4) fstLen && tBc then None
        else if longer && tBc then Some (3%nat, mk_ns buf pos xp xr tag dig false)
        else if longer && (tLn || tLl || tLnl) then None
        else if tX : bool then Some (2%nat, mk_ns buf pos false false tag dig (if xp then true else passed))
        else Some (0%nat, mk_ns buf pos xp xr true dig passed)).

(** The loop of [parseNumeralBaseform], lines 468-528; the result tells if it
    succeeded, and the buffer in both cases. *)
Fixpoint numeral_loop (fuel : nat) (b : list Z) (fstLen i : nat) (s : numeral_state) : res (bool * numeral_state) :=
  if (i <? fstLen)%nat then
    match fuel with
    | O => Fuel
    | S f =>
        c <- rd b i ;;
        let s := if Nat.eqb i 0 && (isDigit c || (c =? ch "-"))
                 then mk_ns (n_baseform s) (n_pos s) (n_isInXp s) (n_isInXr s) (n_isInTag s) true (n_xpPassed s) else s in
        if c =? ch "[" then
          r <- numeral_tag b fstLen i s ;;
          match r with
          | None => Ok (false, s)
          | Some (k, s) => numeral_loop f b fstLen (S (i + k)) s
          end
        else if n_isInXr s then numeral_loop f b fstLen (S i) s
        else if n_isInTag s then
          numeral_loop f b fstLen (S i)
            (if c =? ch "]" then mk_ns (n_baseform s) (n_pos s) (n_isInXp s) (n_isInXr s) false (n_isInDigitSequence s) (n_xpPassed s)
             else s)
        else if n_isInXp s || n_isInDigitSequence s || negb (n_xpPassed s) || (c =? ch "-") then
          s <- n_put s c ;;
          numeral_loop f b fstLen (S i) s
        else numeral_loop f b fstLen (S i) s
    end
  else Ok (true, s).

(** [parseNumeralBaseform], lines 460-530, for the output [o] from some position
    on and the buffer [buf] from [pos] on. *)
Definition parseNumeralBaseform (o : list Z) (buf : list Z) (pos : nat) : res (bool * list Z) :=
  '(ok, s) <- numeral_loop (length o) (o ++ [0]) (length o) 0 (mk_ns buf pos false false false false false) ;;
  if (ok : bool) then
    buf <- wr (n_baseform s) (n_pos s) 0 ;;
    Ok (true, buf)
  else Ok (false, n_baseform s).

(** The variables of [parseBaseform], lines 533-545. *)
Record base_state : Type := mk_base {
  baseform : list Z;
  baseformPos : nat;
  latestXpStartInFst : nat;
  latestXpStartInBaseform : nat;
  hyphensInLatestXp : nat;
  bstructurePos : nat;
  isInXp : bool;
  isInXr : bool;
  isInTag : bool;
  ignoreNextDe : bool;
  isDe : bool;
  classTagSeen : bool
}.

(** [baseform[baseformPos++] = c]. *)
Definition b_put (s : base_state) (c : Z) : res base_state :=
  b <- wr (baseform s) (baseformPos s) c ;;
  Ok (mk_base b (S (baseformPos s)) (latestXpStartInFst s) (latestXpStartInBaseform s) (hyphensInLatestXp s) (bstructurePos s)
        (isInXp s) (isInXr s) (isInTag s) (ignoreNextDe s) (isDe s) (classTagSeen s)).

(** [baseformPos = latestXpStartInBaseform]. *)
Definition b_rewind (s : base_state) : base_state :=
  mk_base (baseform s) (latestXpStartInBaseform s) (latestXpStartInFst s) (latestXpStartInBaseform s) (hyphensInLatestXp s)
    (bstructurePos s) (isInXp s) (isInXr s) (isInTag s) (ignoreNextDe s) (isDe s) (classTagSeen s).

(** The loops of lines 626-635 and 660-664, from position [i] on, with [n]
    characters left; [title] is set in the first: the first character becomes a
    capital. *)
Fixpoint copy_xp (n : nat) (b : list Z) (i : nat) (title : bool) (s : base_state) : res base_state :=
  match n with
  | O => Ok s
  | S n =>
      c <- rd b i ;;
      if c =? ch "[" then Ok s
      else
        s <- (if c =? ch "=" then Ok s
              else b_put s (if title && Nat.eqb i (latestXpStartInFst s) then upper c else c)) ;;
        copy_xp n b (S i) title s
  end.

(** The loop of lines 623-638: is there a tag [[Lep]] at [j] or later? *)
Fixpoint place_name_follows (n : nat) (b : list Z) (fstLen j : nat) : res bool :=
  if (j + 4 <? fstLen)%nat then
    match n with
    | O => Fuel
    | S n => found <- starts b j "[Lep]" ;; if (found : bool) then Ok true else place_name_follows n b fstLen (S j)
    end
  else Ok false.

(** The loop of lines 644-653: the position after it and whether the character
    becomes a capital; the list is the structure from the position on. *)
Fixpoint pattern_char (st : list Z) (p : nat) : nat * bool :=
  match st with
  | [] => (p, false)
  | c :: r => if c =? ch "=" then pattern_char r (S p) else (S p, (c =? ch "i") || (c =? ch "j"))
  end.

(** The branch for a bracket, lines 548-599: [inl] the finished base form, or
    the number of characters to skip.  [inr None]: give up. *)
Definition base_tag (b : list Z) (o : list Z) (fstLen i : nat) (s : base_state) : res (list Z + option (nat * base_state)) :=
  let '(mk_base buf pos xf xb hx sp xp xr tag ign de cls) := s in
  if (fstLen <=? i + 2)%nat then Ok (inr None)
  else
    c1 <- rd b (i + 1) ;;
    c2 <- rd b (i + 2) ;;
    if c1 =? ch "X" then
      if c2 =? ch "]" then Ok (inr (Some (2%nat, mk_base buf pos xf xb hx sp false false tag ign de cls)))
      else
        c3 <- (if (i + 6 <? fstLen)%nat then rd b (i + 3) else Ok 0) ;;
        if (i + 6 <? fstLen)%nat && (c3 =? ch "]") then
          Ok (inr (Some
            (if (c2 =? ch "p") || (c2 =? ch "j") then (3%nat, mk_base buf pos (i + 4) pos 0 sp true xr tag ign de cls)
             else if (c2 =? ch "r") || (c2 =? ch "s") then (3%nat, mk_base buf pos xf xb hx sp xp true tag ign de cls)
             else (0%nat, s))))
        else Ok (inr (Some (0%nat, s)))
    else
      lu <- starts b (i + 1) "Lu]" ;;
      if negb cls && (i + 6 <? fstLen)%nat && lu then
        '(ok, buf) <- parseNumeralBaseform (skipn (i + 4) o) buf pos ;;
        Ok (if ok : bool then inl buf else inr (Some (3%nat, mk_base buf pos xf xb hx sp xp xr tag ign de true)))
      else
        tDe <- starts b (i + 1) "De]" ;;
        if (tDe : bool) then Ok (inr (Some (3%nat, mk_base buf pos xf xb hx sp xp xr tag ign (negb ign) cls)))
        else if c1 =? ch "L" then
          nl <- (if (fstLen <=? i + 3)%nat then Ok false else starts b (i + 2) "nl") ;;
          let ign := (fstLen <=? i + 3)%nat || (negb (c2 =? ch "l") && negb nl) in
          Ok (inr (Some (0%nat, mk_base buf pos xf xb hx sp xp xr true ign false true)))
        else Ok (inr (Some (0%nat, mk_base buf pos xf xb hx sp xp xr true ign de cls))).

(** Lines 615-643: a hyphen outside of tags. *)
Definition base_hyphen (b : list Z) (fstLen i : nat) (s : base_state) : res base_state :=
  s <- (if (0 <? hyphensInLatestXp s)%nat then
          Ok (mk_base (baseform s) (baseformPos s) (latestXpStartInFst s) (latestXpStartInBaseform s) (hyphensInLatestXp s - 1)
                (bstructurePos s) (isInXp s) (isInXr s) (isInTag s) (ignoreNextDe s) (isDe s) (classTagSeen s))
        else
          s <- (if isDe s && negb (Nat.eqb (latestXpStartInFst s) 0) then
                  if (i <? 2)%nat then UB
                  else
                    after_is <- starts b (i - 2) "is" ;;
                    if (after_is : bool) then Ok s
                    else
                      place <- place_name_follows fstLen b fstLen i ;;
                      if (place : bool) then copy_xp (fstLen - latestXpStartInFst s) b (latestXpStartInFst s) true (b_rewind s)
                      else Ok s
                else Ok s) ;;
          Ok (mk_base (baseform s) (baseformPos s) 0 (latestXpStartInBaseform s) (hyphensInLatestXp s)
                (bstructurePos s) (isInXp s) (isInXr s) (isInTag s) (ignoreNextDe s) (isDe s) (classTagSeen s))) ;;
  Ok (mk_base (baseform s) (baseformPos s) (latestXpStartInFst s) (latestXpStartInBaseform s) (hyphensInLatestXp s)
        (bstructurePos s) (isInXp s) (isInXr s) (isInTag s) (ignoreNextDe s) false (classTagSeen s)).

(** Lines 613-655: a character that is not part of a tag. *)
Definition base_char (b : list Z) (st : list Z) (fstLen i : nat) (c : Z) (s : base_state) : res base_state :=
  s <- (if c =? ch "-" then base_hyphen b fstLen i s else Ok s) ;;
  let '(p, title) := pattern_char (skipn (bstructurePos s) st) (bstructurePos s) in
  b_put (mk_base (baseform s) (baseformPos s) (latestXpStartInFst s) (latestXpStartInBaseform s) (hyphensInLatestXp s)
           p (isInXp s) (isInXr s) (isInTag s) (ignoreNextDe s) (isDe s) (classTagSeen s))
        (if title : bool then upper c else c).

(** The loop of [parseBaseform], lines 547-656. *)
Fixpoint base_loop (fuel : nat) (b : list Z) (o st : list Z) (fstLen i : nat) (s : base_state) : res (list Z + option base_state) :=
  if (i <? fstLen)%nat then
    match fuel with
    | O => Fuel
    | S f =>
        c <- rd b i ;;
        if c =? ch "[" then
          r <- base_tag b o fstLen i s ;;
          match r with
          | inl buf => Ok (inl buf)
          | inr None => Ok (inr None)
          | inr (Some (k, s)) => base_loop f b o st fstLen (S (i + k)) s
          end
        else if isInXr s then base_loop f b o st fstLen (S i) s
        else if isInTag s then
          base_loop f b o st fstLen (S i)
            (if c =? ch "]" then
               mk_base (baseform s) (baseformPos s) (latestXpStartInFst s) (latestXpStartInBaseform s) (hyphensInLatestXp s)
                 (bstructurePos s) (isInXp s) (isInXr s) false (ignoreNextDe s) (isDe s) (classTagSeen s)
             else s)
        else if isInXp s then
          base_loop f b o st fstLen (S i)
            (if c =? ch "-" then
               mk_base (baseform s) (baseformPos s) (latestXpStartInFst s) (latestXpStartInBaseform s) (S (hyphensInLatestXp s))
                 (bstructurePos s) (isInXp s) (isInXr s) (isInTag s) (ignoreNextDe s) (isDe s) (classTagSeen s)
             else s)
        else
          s <- base_char b st fstLen i c s ;;
          base_loop f b o st fstLen (S i) s
    end
  else Ok (inr (Some s)).

(** [parseBaseform], lines 532-673: the base form for the output [o] and the
    structure [st], if there is one. *)
Definition parseBaseform (o st : list Z) : res (option (list Z)) :=
  let fstLen := length o in
  let b := o ++ [0] in
  r <- base_loop fstLen b o st fstLen 0 (mk_base (repeat 0 (fstLen + 1)) 0 0 0 0 0 false false false false false false) ;;
  match r with
  | inl buf => Ok (Some (cstr buf))
  | inr None => Ok None
  | inr (Some s) =>
      s <- (if Nat.eqb (latestXpStartInFst s) 0 then Ok s
            else copy_xp (fstLen - latestXpStartInFst s) b (latestXpStartInFst s) false (b_rewind s)) ;;
      if Nat.eqb (baseformPos s) 0 then Ok None
      else buf <- wr (baseform s) (baseformPos s) 0 ;; Ok (Some (cstr buf))
  end.

(** ** The parts of a compound *)

(** The variables of [parseDebugAttributes], lines 753-769.  [xs] and [xp] are
    the used parts of [xsBuffer] and [xpBuffer]. *)
Record debug_state : Type := mk_ds {
  wordIds : list Z;
  wordBases : list Z;
  idpos : nat;
  basepos : nat;
  xs : list Z;
  xp : list Z;
  idposLast : nat;
  baseposLast : nat;
  inXs : bool;
  inXp : bool;
  inXj : bool;
  inXOther : bool;
  inContent : bool;
  inTag : bool;
  anyXs : bool
}.

(** Characters written one after another from [pos] on. *)
Fixpoint wr_all (buf : list Z) (pos : nat) (l : list Z) : res (list Z) :=
  match l with
  | [] => Ok buf
  | c :: l => buf <- wr buf pos c ;; wr_all buf (S pos) l
  end.

(** Text appended to [wordIds] and [wordBases]. *)
Definition put_id (s : debug_state) (l : list Z) : res debug_state :=
  b <- wr_all (wordIds s) (idpos s) l ;;
  Ok (mk_ds b (wordBases s) (idpos s + length l) (basepos s) (xs s) (xp s) (idposLast s) (baseposLast s) (inXs s) (inXp s) (inXj s)
        (inXOther s) (inContent s) (inTag s) (anyXs s)).
Definition put_base (s : debug_state) (l : list Z) : res debug_state :=
  b <- wr_all (wordBases s) (basepos s) l ;;
  Ok (mk_ds (wordIds s) b (idpos s) (basepos s + length l) (xs s) (xp s) (idposLast s) (baseposLast s) (inXs s) (inXp s) (inXj s)
        (inXOther s) (inContent s) (inTag s) (anyXs s)).

Definition set_buffers (s : debug_state) (x y : list Z) : debug_state :=
  mk_ds (wordIds s) (wordBases s) (idpos s) (basepos s) x y (idposLast s) (baseposLast s) (inXs s) (inXp s) (inXj s)
    (inXOther s) (inContent s) (inTag s) (anyXs s).
Definition set_last (s : debug_state) : debug_state :=
  mk_ds (wordIds s) (wordBases s) (idpos s) (basepos s) (xs s) (xp s) (idpos s) (basepos s) (inXs s) (inXp s) (inXj s)
    (inXOther s) (inContent s) (inTag s) (anyXs s).
Definition set_content (s : debug_state) (content tag : bool) : debug_state :=
  mk_ds (wordIds s) (wordBases s) (idpos s) (basepos s) (xs s) (xp s) (idposLast s) (baseposLast s) (inXs s) (inXp s) (inXj s)
    (inXOther s) content tag (anyXs s).
Definition set_x (s : debug_state) (x p j other any : bool) : debug_state :=
  mk_ds (wordIds s) (wordBases s) (idpos s) (basepos s) (xs s) (xp s) (idposLast s) (baseposLast s) x p j other
    (inContent s) (inTag s) any.

(** A buffer of [fstLen] characters gets one more. *)
Definition push (fstLen : nat) (l : list Z) (c : Z) : res (list Z) :=
  if (length l <? fstLen)%nat then Ok (l ++ [c]) else UB.

(** [debugContentEnd], lines 733-750. *)
Definition debugContentEnd (s : debug_state) : res debug_state :=
  s <- (if Nat.eqb (length (xs s)) 0 then Ok s
        else s <- put_id s (wstr "(w" ++ xs s ++ wstr ")") ;; Ok (set_buffers s [] (xp s))) ;;
  if Nat.eqb (length (xp s)) 0 then Ok s
  else s <- put_base s (wstr "(" ++ xp s ++ wstr ")") ;; Ok (set_buffers s (xs s) []).

(** A tag [[X..]], lines 784-817: the number of characters to skip. *)
Definition debug_x (c2 : Z) (s : debug_state) : res (nat * debug_state) :=
  if c2 =? ch "s" then Ok (3%nat, set_x (set_buffers s [] (xp s)) true (inXp s) (inXj s) (inXOther s) true)
  else if c2 =? ch "p" then Ok (3%nat, set_x (set_buffers s (xs s) []) (inXs s) true (inXj s) (inXOther s) (anyXs s))
  else if c2 =? ch "j" then
    s <- (if inContent s then s <- debugContentEnd s ;; Ok (set_last s) else Ok s) ;;
    Ok (3%nat, set_x (set_buffers s (xs s) []) (inXs s) (inXp s) true (inXOther s) (anyXs s))
  else if c2 =? ch "]" then Ok (2%nat, set_x s false false false false (anyXs s))
  else Ok (3%nat, set_x s (inXs s) (inXp s) (inXj s) true (anyXs s)).

(** Any other character, lines 825-852. *)
Definition debug_char (fstLen : nat) (c : Z) (s : debug_state) : res debug_state :=
  if inTag s || inXOther s then Ok s
  else if inXs s then x <- push fstLen (xs s) c ;; Ok (set_buffers s x (xp s))
  else if inXp s then x <- push fstLen (xp s) c ;; Ok (set_buffers s (xs s) x)
  else if inXj s then
    x <- (if Nat.eqb (length (xp s)) 0 then push fstLen (xp s) (ch "+") else Ok (xp s)) ;;
    x <- push fstLen x c ;;
    Ok (set_buffers s (xs s) x)
  else
    s <- (if inContent s then Ok s
          else s <- put_id s (wstr "+") ;; s <- put_base s (wstr "+") ;; Ok (set_content (set_last s) true (inTag s))) ;;
    s <- put_id s [c] ;;
    put_base s [c].

(** The loop of lines 770-853. *)
Fixpoint debug_loop (fuel : nat) (b : list Z) (fstLen i : nat) (s : debug_state) : res debug_state :=
  if (i <? fstLen)%nat then
    match fuel with
    | O => Fuel
    | S f =>
        c <- rd b i ;;
        tL <- starts b i "[L" ;;
        hB <- starts b i "-[B" ;;
        if tL || hB then
          s <- debugContentEnd (set_content s false true) ;;
          if c =? ch "-" then
            s <- put_id s (wstr "+-") ;;
            s <- put_base s (wstr "+-") ;;
            debug_loop f b fstLen (S (S i)) s
          else debug_loop f b fstLen (S i) s
        else if (c =? ch "[") && (i + 2 <? fstLen)%nat then
          c1 <- rd b (i + 1) ;;
          c2 <- rd b (i + 2) ;;
          if c1 =? ch "X" then
            '(k, s) <- debug_x c2 s ;;
            debug_loop f b fstLen (S (i + k)) s
          else debug_loop f b fstLen (S i) (set_content s (inContent s) true)
        else if c =? ch "]" then debug_loop f b fstLen (S i) (set_content s (inContent s) false)
        else
          s <- debug_char fstLen c s ;;
          debug_loop f b fstLen (S i) s
    end
  else Ok s.

(** [basepos -= plus; idpos -= plus]; a position below zero would wrap around. *)
Definition step_back (s : debug_state) (plus : nat) : res debug_state :=
  if (basepos s <? plus)%nat || (idpos s <? plus)%nat then UB
  else Ok (mk_ds (wordIds s) (wordBases s) (idpos s - plus) (basepos s - plus) (xs s) (xp s) (idposLast s) (baseposLast s) (inXs s)
             (inXp s) (inXj s) (inXOther s) (inContent s) (inTag s) (anyXs s)).

(** Lines 854-871. *)
Definition debug_xp_end (s : debug_state) : res debug_state :=
  match xp s with
  | [] => Ok s
  | x0 :: _ =>
      let s := mk_ds (wordIds s) (wordBases s) (idposLast s) (baseposLast s) (xs s) (xp s) (idposLast s) (baseposLast s) (inXs s)
                 (inXp s) (inXj s) (inXOther s) (inContent s) (inTag s) (anyXs s) in
      plus <- (if (0 <? basepos s)%nat && (x0 =? ch "+") then
                 c <- rd (wordBases s) (basepos s - 1) ;; Ok (if c =? ch "+" then 1%nat else 0%nat)
               else Ok 0%nat) ;;
      s <- step_back s plus ;;
      let text := filter (fun c => negb (c =? ch "=")) (xp s) in
      s <- put_base s text ;;
      s <- put_id s text ;;
      put_base s (wstr "(" ++ xp s ++ wstr ")")
  end.

(** [parseDebugAttributes], lines 752-890. *)
Definition parseDebugAttributes (a : analysis) (o : list Z) : res analysis :=
  let fstLen := length o in
  let buffer := repeat 0 (2 * fstLen + 1) in
  s <- debug_loop fstLen (o ++ [0]) fstLen 0
         (mk_ds buffer buffer 0 0 [] [] 0 0 false false false false false false false) ;;
  s <- debug_xp_end s ;;
  s <- (if Nat.eqb (length (xs s)) 0 then Ok s else put_id s (wstr "(w" ++ xs s ++ wstr ")")) ;;
  ids <- wr (wordIds s) (idpos s) 0 ;;
  bases <- wr (wordBases s) (basepos s) 0 ;;
  let a := if anyXs s then add a WORDIDS (cstr ids) else a in
  Ok (add a WORDBASES (cstr bases)).

(** ** Names of organisations *)

(** The loop of lines 695-696: is there a tag [[Bc]] at a position from 4 to
    [j]? *)
Fixpoint find_boundary (b : list Z) (j : nat) : res bool :=
  if (j <? 4)%nat then Ok false
  else
    found <- starts b j "[Bc]" ;;
    match j with
    | O => Ok false
    | S j => if (found : bool) then Ok true else find_boundary b j
    end.

(** The loop of lines 690-730: is there a second analysis? *)
Fixpoint find_org (b : list Z) (i : nat) : res bool :=
  if (i <? 8)%nat then Ok false
  else
    bc <- starts b i "[Bc]" ;;
    ion <- starts b i "[Ion]" ;;
    match i with
    | O => Ok false
    | S j =>
        if (bc : bool) then Ok false
        else
          found <- (if ion : bool then find_boundary b (i - 4) else Ok false) ;;
          if (found : bool) then Ok true else find_org b j
    end.

(** The copy of an analysis made in lines 697-724. *)
Definition org_analysis (a : analysis) (o : list Z) : res analysis :=
  let structure := match a STRUCTURE with
                   | Some st => if (2 <=? length st)%nat then Some (upd st 1 (ch "i")) else None
                   | None => None
                   end in
  let copy := fun k : Key =>
    match k with
    | CLASS => match a CLASS with Some _ => Some (wstr "nimi") | None => None end
    | STRUCTURE => structure
    | POSSIBLE_GEOGRAPHICAL_NAME => None
    | _ => a k
    end in
  match structure with
  | None => Ok copy
  | Some st =>
      base <- parseBaseform o st ;;
      Ok (match base with Some v => add copy BASEFORM v | None => copy end)
  end.

(** [duplicateOrgName], lines 675-731: the analyses added to the list. *)
Definition duplicateOrgName (a : analysis) (o : list Z) : res (list analysis) :=
  let b := o ++ [0] in
  match a CLASS with
  | None => Ok []
  | Some c =>
      if negb (is c "nimisana") then Ok []
      else if (length o <? 13)%nat then Ok []
      else
        c0 <- rd b 0 ;;
        la <- starts b 0 "[La]" ;;
        if (c0 =? ch "-") || la then Ok []
        else
          found <- find_org b (length o - 5) ;;
          if (found : bool) then a' <- org_analysis a o ;; Ok [a'] else Ok []
  end.

(** ** Analysing a word *)

(** Line 48. *)
Definition BUFFER_SIZE : nat := 2000.
(** Line 49. *)
Definition MAX_ANALYSIS_COUNT : nat := 100.

(** [value && wcscmp(value, s) == 0]. *)
Definition has (v : option (list Z)) (s : string) : bool := match v with Some x => is x s | None => false end.

(** Lines 1072-1096: corrections to the attributes.  In line 1081 the code
    compares [participle], not [wclass], with "laatusana"; this is always true
    there. *)
Definition adjust (a : analysis) : analysis :=
  let wclass := a CLASS in
  let sijamuoto := a SIJAMUOTO in
  let mood := a MOOD in
  let participle := a PARTICIPLE in
  let a := if negb (is_none (a NEGATIVE)) &&
              ((negb (is_none wclass) && negb (has wclass "teonsana")) ||
               (has mood "MINEN-infinitive" || has mood "E-infinitive" || has mood "MA-infinitive"))
           then remove a NEGATIVE else a in
  let past_passive := has participle "past_passive" && (is_none wclass || negb (has participle "laatusana")) in
  let a := if past_passive then add (remove a CLASS) CLASS (wstr "laatusana") else a in
  let wclass := if past_passive then Some (wstr "laatusana") else wclass in
  let a := if negb (is_none (a NUMBER)) && has sijamuoto "kerrontosti" then remove a NUMBER else a in
  if is_none (a COMPARISON) then
    (if has wclass "laatusana" || has wclass "nimisana_laatusana" then add a COMPARISON (wstr "positive") else a)
  else if has wclass "nimisana" then remove a COMPARISON else a.

(** The body of the loop of [analyze], lines 1063-1106: the analyses for the
    output [o]. *)
Definition output_analyses (o : list Z) (wlen : nat) (full : bool) : res (list analysis) :=
  valid <- isValidAnalysis o ;;
  if (valid : bool) then
    st <- parseStructure o wlen ;;
    a <- parseBasicAttributes no_attributes o ;;
    st <- fixStructure st o ;;
    let a := adjust (add a STRUCTURE st) in
    more <- duplicateOrgName a o ;;
    a <- (if full then
            let a := add a FSTOUTPUT o in
            base <- parseBaseform o st ;;
            parseDebugAttributes (match base with Some v => add a BASEFORM v | None => a end) o
          else Ok a) ;;
    Ok (a :: more)
  else Ok [].

(** The loop of [analyze], lines 1062-1107; [n] is how often the condition on
    [analysisCount] still holds. *)
Fixpoint fin_analyses (T : transducer) (n : nat) (wlen : nat) (full : bool) (c : configuration) : res (list analysis * configuration) :=
  match n with
  | O => Ok ([], c)
  | S n =>
      '(r, c) <- next T c BUFFER_SIZE ;;
      match r with
      | Found o _ =>
          l <- output_analyses o wlen full ;;
          '(more, c) <- fin_analyses T n wlen full c ;;
          Ok (l ++ more, c)
      | _ => Ok ([], c)
      end
  end.

(** [FinnishVfstAnalyzer::analyze], lines 1050-1112. *)
Definition fin_analyze (T : transducer) (c : configuration) (word : list Z) (full : bool) : res (list analysis * configuration) :=
  if (LIBVOIKKO_MAX_WORD_CHARS <? length word)%nat then Ok ([], c)
  else
    '(known, c) <- prepare T c (voikko_set_case CT_ALL_LOWER word) ;;
    if (known : bool) then fin_analyses T (MAX_ANALYSIS_COUNT - 1) (length word) full c
    else Ok ([], c).
