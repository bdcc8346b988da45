(** * The Finnish hyphenator.

    Models [hyphenator/AnalyzerToFinnishHyphenatorAdapter.cpp] and
    [hyphenator/interface.cpp].  Hyphenation patterns are lists of character
    codes without the terminating NUL. *)
From Verif Require Import Base CharModel Utf8Model AnalysisModel AnalyzerBase HandleModel.

Definition BLANK : Z := 0x20.
Definition HYPHEN : Z := 0x2D.
Definition EQUALS : Z := 0x3D.
Definition MARK_X : Z := 0x58.

(** utils/utils.hpp:40-41 *)
Definition VOIKKO_CONSONANTS : list Z := wstr "bcdfghjklmnpqrstvwxz" ++ [0x161; 0x17E].
Definition VOIKKO_VOWELS : list Z := wstr "aeiouy" ++ [0xE4; 0xF6].

(** hyphenator/AnalyzerToFinnishHyphenatorAdapter.cpp:42-46 *)
Definition SPLIT_VOWELS : list (list Z) :=
  [wstr "ae"; wstr "ao"; wstr "ea"; wstr "eo"; wstr "ia"; wstr "io"; wstr "oa"; wstr "oe";
   wstr "ua"; wstr "ue"; wstr "ye"; [0x65; 0xE4]; [0x65; 0xF6]; [0x69; 0xE4];
   [0x69; 0xF6]; [0x79; 0xE4]; [0xE4; 0x65]; [0xF6; 0x65]].
Definition LONG_CONSONANTS : list (list Z) :=
  [wstr "shtsh"; [0x161; 0x74; 0x161]; wstr "tsh"; [0x74; 0x161]; wstr "zh"].
Definition SPLIT_AFTER : list (list Z) := [wstr "ie"; wstr "ai"].

(** Member variables (AnalyzerToFinnishHyphenatorAdapter.hpp:60-63).
    [minHyphenatedWordLength] is a [size_t]. *)
Record hyph_options : Type := mkHyph {
  uglyHyphenation : bool;
  hyphenateUnknown : bool;
  minHyphenatedWordLength : Z;
  hyph_ignoreDot : bool
}.

(** Conversion of an [int] to [size_t] (64 bits) in [setMinHyphenatedWordLength],
    lines 155-157. *)
Definition size_of_int (v : Z) : Z := if v <? 0 then v + 2 ^ 64 else v.

(** The hyphenator of a handle. *)
Definition handle_hyph (h : handle) : hyph_options :=
  mkHyph (hyphUgly h) (hyphUnknown h) (size_of_int (hyphMinLength h)) (hyphIgnoreDot h).

(** [for (; i < i + n; i++) s = body(i, s)] *)
Fixpoint for_loop {T} (n i : nat) (body : nat -> T -> res T) (s : T) : res T :=
  match n with
  | O => Ok s
  | S n' => s' <- body i s ;; for_loop n' (S i) body s'
  end.

(** Read [buf[i - k]]; the index wraps around when [i < k]. *)
Definition rd_back (buf : list Z) (i k : nat) : res Z := if (i <? k)%nat then UB else rd buf (i - k).

(** The loop of [interpretAnalysis], lines 296-316 from position [i] of the
    buffer and [p] of the structure.  [st] is the structure with its
    terminator. *)
Fixpoint interpret_loop (st : list Z) (n i p : nat) (buffer : list Z) : res (list Z) :=
  match n with
  | O => Ok buffer
  | S n' =>
      s0 <- rd st p ;;
      if s0 =? 0 then Ok buffer
      else
        comp <- (if s0 =? 0x2D then (s1 <- rd st (p + 1) ;; Ok (s1 =? 0x3D)) else Ok false) ;;
        if (comp : bool) then
          b <- (if negb (Nat.eqb i 0) then wr buffer i EQUALS else Ok buffer) ;;
          interpret_loop st n' (S i) (p + 2) b
        else if s0 =? 0x3D then
          b <- wr buffer i HYPHEN ;;
          interpret_loop st n' (S i) (p + 2) b
        else
          b <- (if (s0 =? 0x6A) || (s0 =? 0x71) then wr buffer i MARK_X else Ok buffer) ;;
          interpret_loop st n' (S i) (p + 1) b
  end.

(** [interpretAnalysis], lines 288-317: the first [len] characters of the
    buffer.  A missing STRUCTURE attribute is a NULL dereference. *)
Definition interpretAnalysis (a : analysis) (len : nat) : res (list Z) :=
  match a STRUCTURE with
  | None => UB
  | Some s =>
      let st := s ++ [0] in
      c0 <- rd st 0 ;;
      interpret_loop st len 0 (if c0 =? 0x3D then 1 else 0) (repeat BLANK len)
  end.

(** [allowRuleHyphenation], lines 319-339. *)
Definition allowRuleHyphenation (o : hyph_options) (word : list Z) : res bool :=
  let nchars := length word in
  if (nchars <=? 1)%nat then Ok false
  else if negb (uglyHyphenation o) then
    nw <- voikko_is_nonword word ;;
    if (nw : bool) then Ok false
    else c <- rd word (nchars - 1) ;; Ok (negb (in_range 0x30 0x39 c))
  else Ok true.

Definition unmarked (c : Z) : bool := (c =? BLANK) || (c =? MARK_X).

(** Number of parts of a pattern (lines 349-354 and 368-373). *)
Definition count_parts (h : list Z) : nat := 1 + length (filter (fun c => negb (unmarked c)) h).

(** [minParts] after the loop of lines 346-359; 0 when there is no pattern. *)
Fixpoint min_parts (minParts : nat) (hs : list (list Z)) : nat :=
  match hs with
  | [] => minParts
  | h :: r =>
      let currentParts := count_parts h in
      min_parts (if Nat.eqb minParts 0 || (currentParts <? minParts)%nat then currentParts else minParts) r
  end.

(** The deletion loop of lines 363-381: the last element replaces a deleted
    one. *)
Fixpoint remove_loop (fuel : nat) (minParts : nat) (hs : list (list Z)) (j : nat) : res (list (list Z)) :=
  if (j <? length hs)%nat then
    match fuel with
    | O => Fuel
    | S fuel' =>
        cur <- rd hs j ;;
        if (minParts <? count_parts cur)%nat then
          lst <- rd hs (length hs - 1) ;;
          h1 <- wr hs j lst ;;
          remove_loop fuel' minParts (removelast h1) j
        else remove_loop fuel' minParts hs (S j)
    end
  else Ok hs.

(** [removeExtraHyphenations], lines 341-383. *)
Definition removeExtraHyphenations (hs : list (list Z)) : res (list (list Z)) :=
  let m := min_parts 0 hs in
  if (1 <? m)%nat then Ok hs else remove_loop (length hs) m hs 0.

Definition MAX_ANALYSIS_COUNT : nat := 31.

(** The patterns of the analyses, lines 190-205; [len] is the word length
    without a removed dot. *)
Fixpoint interpret_all (l : list analysis) (len : nat) (dotRemoved : bool) : res (list (list Z)) :=
  match l with
  | [] => Ok []
  | a :: r =>
      b <- interpretAnalysis a len ;;
      t <- interpret_all r len dotRemoved ;;
      Ok ((b ++ (if dotRemoved then [BLANK] else [])) :: t)
  end.

(** Marks of an unknown word, lines 211-226. *)
Definition unknown_marks (o : hyph_options) (word : list Z) : res (list Z) :=
  let len := length word in
  let result := repeat (if hyphenateUnknown o then BLANK else MARK_X) len in
  ok <- allowRuleHyphenation o word ;;
  if (ok : bool) then
    for_loop (len - 2) 1 (fun i r => c <- rd word i ;; if c =? 0x2D then wr r i EQUALS else Ok r) result
  else Ok result.

(** [splitCompounds], lines 163-235: the patterns and [dotRemoved], or [None]
    when the word cannot be converted to UTF-8. *)
Definition splitCompounds (an : analyzer) (o : hyph_options) (word : list Z)
    : res (option (list (list Z) * bool)) :=
  let len := length word in
  u <- utf8FromUcs4 word ;;
  match u with
  | None => Ok None
  | Some bytes =>
      analyses <- analyze_cstr an false bytes ;;
      dot <- (if (match analyses with [] => true | _ => false end) && hyph_ignoreDot o && (1 <? len)%nat
              then c <- rd_back bytes (length bytes) 1 ;; Ok (c =? 0x2E)
              else Ok false) ;;
      analyses <- (if (dot : bool) then analyze_cstr an false (removelast bytes) else Ok analyses) ;;
      all <- interpret_all (firstn MAX_ANALYSIS_COUNT analyses) (len - (if dot then 1 else 0)) dot ;;
      all <- match all with
             | [] => r <- unknown_marks o word ;; Ok [r]
             | _ => Ok all
             end ;;
      all <- removeExtraHyphenations all ;;
      Ok (Some (all, dot))
  end.

(** Backward loop of [isGoodHyphenPosition], lines 511-520, from index [i]. *)
Fixpoint vowel_before (wc hp : list Z) (i : nat) (hasVowel : bool) : res bool :=
  h <- rd hp i ;;
  if (h =? HYPHEN) || (h =? EQUALS) then Ok hasVowel
  else match i with
       | O => Ok hasVowel
       | S i' => c <- rd wc i ;; vowel_before wc hp i' (if wcschr VOIKKO_VOWELS c then true else hasVowel)
       end.

(** Forward loop, lines 525-536: [n] positions from [i]. *)
Fixpoint vowel_after (wc hp : list Z) (n i : nat) (hasVowel : bool) : res bool :=
  match n with
  | O => Ok hasVowel
  | S n' =>
      h <- rd hp i ;;
      if (h =? HYPHEN) || (h =? EQUALS) then Ok hasVowel
      else
        c <- rd wc i ;;
        if c =? 0x2E then Ok hasVowel
        else vowel_after wc hp n' (S i) (if wcschr VOIKKO_VOWELS c then true else hasVowel)
  end.

(** [isGoodHyphenPosition], lines 504-542. *)
Definition isGoodHyphenPosition (wc hp : list Z) (pos nchars : nat) : res bool :=
  if Nat.eqb pos 0 || (nchars <=? pos + 1)%nat then Ok false
  else
    b <- vowel_before wc hp (pos - 1) false ;;
    if negb b then Ok false
    else vowel_after wc hp (nchars - pos) pos false.

(** [wcsncmp(&buf[i], s, |s|) == 0] *)
Definition starts_at (buf : list Z) (i : nat) (s : list Z) : res bool := prefix_eq s (skipn i buf).

Fixpoint starts_with_any (buf : list Z) (i : nat) (ss : list (list Z)) : res bool :=
  match ss with
  | [] => Ok false
  | s :: r => b <- starts_at buf i s ;; if (b : bool) then Ok true else starts_with_any buf i r
  end.

(** Number of leading consonants, lines 409-413. *)
Fixpoint leading_consonants (wc : list Z) : res nat :=
  match wc with
  | [] => UB
  | c :: r => if negb (c =? 0) && wcschr VOIKKO_CONSONANTS c
              then n <- leading_consonants r ;; Ok (S n) else Ok O
  end.

(** Loop bodies of [ruleHyphenation].  -CV, lines 415-422 *)
Definition cv_step (ugly : bool) (wc : list Z) (i : nat) (hp : list Z) : res (list Z) :=
  c <- rd wc i ;;
  if negb (wcschr VOIKKO_CONSONANTS c) then Ok hp
  else
    d <- rd wc (i + 1) ;;
    if negb (wcschr VOIKKO_VOWELS d) then Ok hp
    else
      p <- rd_back wc i 1 ;;
      if wcschr [0x2F; 0x2E; 0x3A; 0x26; 0x25; 0x27] p then Ok hp
      else
        ok <- (if (i <=? 1)%nat || ugly then Ok true
               else q <- rd_back wc i 2 ;; Ok (negb (q =? 0x27))) ;;
        if (ok : bool) then wr hp i HYPHEN else Ok hp.

(** 'V, lines 424-429 *)
Definition apostrophe_step (wc : list Z) (i : nat) (hp : list Z) : res (list Z) :=
  c <- rd wc i ;;
  if negb (c =? 0x27) then Ok hp
  else d <- rd wc (i + 1) ;; if wcschr VOIKKO_VOWELS d then wr hp i EQUALS else Ok hp.

(** Long vowels, lines 431-442 *)
Definition long_vowel_step (wc : list Z) (nchars : nat) (i : nat) (hp : list Z) : res (list Z) :=
  c <- rd wc i ;;
  if negb (wcschr VOIKKO_VOWELS c) then Ok hp
  else
    d <- rd wc (i + 1) ;;
    if negb (c =? d) then Ok hp
    else
      p <- rd_back wc i 1 ;;
      before <- (if wcschr VOIKKO_VOWELS p then isGoodHyphenPosition wc hp i nchars else Ok false) ;;
      hp <- (if (before : bool) then wr hp i HYPHEN else Ok hp) ;;
      after <- isGoodHyphenPosition wc hp (i + 2) nchars ;;
      if (after : bool) then wr hp (i + 2) HYPHEN else Ok hp.

(** V-V, lines 444-461 *)
Definition split_vowel_step (wc : list Z) (i : nat) (hp : list Z) : res (list Z) :=
  h <- rd hp (i + 1) ;;
  if negb (h =? BLANK) then Ok hp
  else
    c <- rd wc i ;;
    if negb (wcschr VOIKKO_VOWELS c) then Ok hp
    else
      d <- rd wc (i + 1) ;;
      if negb (wcschr VOIKKO_VOWELS d) then Ok hp
      else
        b <- starts_with_any wc i SPLIT_VOWELS ;;
        if (b : bool) then wr hp (i + 1) HYPHEN else Ok hp.

(** Long consonants, lines 463-476: inner loops *)
Definition long_consonant_k (i k : nat) (hp : list Z) : res (list Z) :=
  h <- rd hp k ;;
  if h =? HYPHEN then (hp <- wr hp k BLANK ;; wr hp i HYPHEN) else Ok hp.

Fixpoint long_consonant_j (wc : list Z) (nchars i : nat) (ls : list (list Z)) (hp : list Z) : res (list Z) :=
  match ls with
  | [] => Ok hp
  | l :: r =>
      b <- (if (i + length l <? nchars)%nat then starts_at wc i l else Ok false) ;;
      hp <- (if (b : bool) then for_loop (length l) (i + 1) (long_consonant_k i) hp else Ok hp) ;;
      long_consonant_j wc nchars i r hp
  end.

Definition long_consonant_step (wc : list Z) (nchars : nat) (i : nat) (hp : list Z) : res (list Z) :=
  long_consonant_j wc nchars i LONG_CONSONANTS hp.

(** Removal of breaks between vowels, lines 481-485 *)
Definition no_ugly_step (wc : list Z) (i : nat) (hp : list Z) : res (list Z) :=
  c <- rd wc i ;;
  if negb (wcschr VOIKKO_VOWELS c) then Ok hp
  else d <- rd wc (i + 1) ;; if wcschr VOIKKO_VOWELS d then wr hp (i + 1) BLANK else Ok hp.

(** VV-V, lines 488-499 *)
Fixpoint split_after_j (wc : list Z) (nchars i : nat) (ss : list (list Z)) (hp : list Z) : res (list Z) :=
  match ss with
  | [] => Ok hp
  | s :: r =>
      h <- rd hp (i + 1) ;;
      go <- (if h =? HYPHEN then Ok false
             else
               b <- starts_at wc i s ;;
               if negb b then Ok false
               else
                 c <- rd wc (i + 2) ;;
                 if negb (wcschr VOIKKO_VOWELS c) then Ok false
                 else isGoodHyphenPosition wc hp (i + 2) nchars) ;;
      hp <- (if (go : bool) then wr hp (i + 2) HYPHEN else Ok hp) ;;
      split_after_j wc nchars i r hp
  end.

(** [ruleHyphenation], lines 385-502.  [word] is the part that is hyphenated and
    [hp] the same part of the pattern (the code has pointers into longer
    arrays; here any access outside the part is [UB]). *)
Definition ruleHyphenation (o : hyph_options) (word hp : list Z) : res (list Z) :=
  let nchars := length word in
  allow <- allowRuleHyphenation o word ;;
  if negb allow then Ok hp
  else
    h0 <- rd hp 0 ;;
    if h0 =? MARK_X then Ok hp
    else
      let wc := map lower word ++ [0] in
      i0 <- leading_consonants wc ;;
      hp <- for_loop (nchars - 1 - i0) i0 (cv_step (uglyHyphenation o) wc) hp ;;
      hp <- for_loop (nchars - 2) 1 (apostrophe_step wc) hp ;;
      hp <- for_loop (nchars - 2) 1 (long_vowel_step wc nchars) hp ;;
      hp <- for_loop (nchars - 1) 0 (split_vowel_step wc) hp ;;
      hp <- for_loop (nchars - 2) 1 (long_consonant_step wc nchars) hp ;;
      if negb (uglyHyphenation o) then
        hp <- wr hp 1 BLANK ;;
        hp <- wr hp (nchars - 1) BLANK ;;
        for_loop (nchars - 1) 0 (no_ugly_step wc) hp
      else if (3 <=? nchars)%nat then
        for_loop (nchars - 3) 0 (fun i hp => split_after_j wc nchars i SPLIT_AFTER hp) hp
      else Ok hp.

(** [l[a .. b-1]] *)
Definition slice (l : list Z) (a b : nat) : list Z := firstn (b - a) (skipn a l).

(** [ruleHyphenation(&word[start], &hyphenation[start], end - start)] *)
Definition rule_at (o : hyph_options) (word hp : list Z) (s e : nat) : res (list Z) :=
  seg <- ruleHyphenation o (slice word s e) (slice hp s e) ;;
  Ok (firstn s hp ++ seg ++ skipn e hp).

(** [e >= start + minHyphenatedWordLength].  No wrap-around: the minimum length is
    at most the word length when this is reached (line 58). *)
Definition long_enough (o : hyph_options) (s e : nat) : bool :=
  Z.of_nat s + minHyphenatedWordLength o <=? Z.of_nat e.

(** Main loop of [compoundHyphenation], lines 244-260, and lines 261-263. *)
Fixpoint compound_loop (fuel : nat) (o : hyph_options) (word hp : list Z) (len s e : nat) : res (list Z) :=
  if (e <? len)%nat then
    match fuel with
    | O => Fuel
    | S fuel' =>
        h <- rd hp e ;;
        if negb (unmarked h) then
          hp <- (if long_enough o s e then rule_at o word hp s e else Ok hp) ;;
          h <- rd hp e ;;
          let s' := if h =? EQUALS then (e + 1)%nat else e in
          compound_loop fuel' o word hp len s' (s' + 1)
        else compound_loop fuel' o word hp len s (e + 1)
    end
  else if Nat.eqb e len && (s <? e)%nat && long_enough o s e then rule_at o word hp s e
  else Ok hp.

(** Lines 239-242 *)
Fixpoint skip_equals (hp : list Z) (n i : nat) : res nat :=
  match n with
  | O => Ok i
  | S n' => h <- rd hp i ;; if h =? EQUALS then skip_equals hp n' (S i) else Ok i
  end.

(** [compoundHyphenation], lines 237-264. *)
Definition compoundHyphenation (o : hyph_options) (word hp : list Z) (len : nat) : res (list Z) :=
  s <- skip_equals hp len 0 ;;
  compound_loop (len + 1) o word hp len s (s + 1).

Fixpoint compound_all (o : hyph_options) (word : list Z) (len : nat) (hs : list (list Z)) : res (list (list Z)) :=
  match hs with
  | [] => Ok []
  | h :: r => h' <- compoundHyphenation o word h len ;; t <- compound_all o word len r ;; Ok (h' :: t)
  end.

Definition clear_x (c : Z) : Z := if c =? MARK_X then BLANK else c.

(** One more pattern in [intersectHyphenations] (lines 276-284) and in
    [unionHyphenations] (lines 101-109). *)
Fixpoint intersect_with (acc cur : list Z) : res (list Z) :=
  match acc with
  | [] => Ok []
  | a :: acc' =>
      match cur with
      | [] => UB
      | c :: cur' => r <- intersect_with acc' cur' ;; Ok ((if unmarked c then BLANK else a) :: r)
      end
  end.
Fixpoint union_with (acc cur : list Z) : res (list Z) :=
  match acc with
  | [] => Ok []
  | a :: acc' =>
      match cur with
      | [] => UB
      | c :: cur' => r <- union_with acc' cur' ;; Ok ((if c =? HYPHEN then HYPHEN else a) :: r)
      end
  end.
Fixpoint combine_all (f : list Z -> list Z -> res (list Z)) (acc : list Z) (hs : list (list Z)) : res (list Z) :=
  match hs with
  | [] => Ok acc
  | h :: r => acc' <- f acc h ;; combine_all f acc' r
  end.

(** [intersectHyphenations], lines 266-286, and [unionHyphenations], lines
    91-111; an empty array is a NULL dereference. *)
Definition intersectHyphenations (hs : list (list Z)) : res (list Z) :=
  match hs with [] => UB | h :: r => combine_all intersect_with (map clear_x h) r end.
Definition unionHyphenations (hs : list (list Z)) : res (list Z) :=
  match hs with [] => UB | h :: r => combine_all union_with (map clear_x h) r end.

(** Common part of [hyphenate], lines 56-89, and [allPossibleHyphenPositions],
    lines 113-142; [None] is NULL. *)
Definition hyphenate_with (final : list (list Z) -> res (list Z)) (an : analyzer) (o : hyph_options) (word : list Z)
    : res (option (list Z)) :=
  if Z.of_nat (length word) <? minHyphenatedWordLength o then Ok (Some (repeat BLANK (length word)))
  else
    sc <- splitCompounds an o word ;;
    match sc with
    | None => Ok None
    | Some (hs, dotRemoved) =>
        hs <- compound_all o word (length word - (if dotRemoved then 1 else 0)) hs ;;
        h <- final hs ;;
        Ok (Some h)
    end.

Definition hyphenate := hyphenate_with intersectHyphenations.
Definition allPossibleHyphenPositions := hyphenate_with unionHyphenations.

(** [voikkoHyphenateUcs4], hyphenator/interface.cpp:38-49. *)
Definition voikkoHyphenateUcs4 (an : analyzer) (h : handle) (word : list Z) : res (option (list Z)) :=
  hyphenate an (handle_hyph h) word.

Definition LIBVOIKKO_MAX_WORD_CHARS : nat := 255.

(** [voikkoHyphenateCstr], hyphenator/interface.cpp:51-66. *)
Definition voikkoHyphenateCstr (an : analyzer) (h : handle) (word : list Z) : res (option (list Z)) :=
  if (LIBVOIKKO_MAX_WORD_CHARS <? length word)%nat then Ok None
  else
    o <- ucs4FromUtf8 word ;;
    match o with
    | None => Ok None
    | Some w => voikkoHyphenateUcs4 an h (cstr w)
    end.

(** Loop of [voikkoInsertHyphensCstr], hyphenator/interface.cpp:97-113.  [sep] is
    the separator up to its terminator, [w] the word with its terminator. *)
Fixpoint insert_loop (pattern : list Z) (w sep : list Z) (allow : bool) : res (list Z) :=
  match pattern with
  | [] => Ok []
  | p :: pr =>
      match w with
      | [] => UB
      | c :: wr =>
          t <- insert_loop pr wr sep allow ;;
          Ok ((if p =? HYPHEN then sep ++ [c]
               else if (p =? BLANK) || negb allow then [c]
               else if p =? EQUALS then (if c =? 0x2D then [0x2D] else sep)
               else []) ++ t)
      end
  end.

(** [voikkoInsertHyphensCstr], hyphenator/interface.cpp:68-120, for non-NULL
    [word] and [hyphen].  (Memory is leaked when the pattern is NULL; not
    modelled.) *)
Definition voikkoInsertHyphensCstr (an : analyzer) (h : handle) (word hyphen : list Z) (allow : bool)
    : res (option (list Z)) :=
  if (LIBVOIKKO_MAX_WORD_CHARS <? length word)%nat then Ok None
  else
    o <- ucs4FromUtf8 word ;;
    match o with
    | None => Ok None
    | Some w =>
        s <- ucs4FromUtf8 hyphen ;;
        match s with
        | None => Ok None
        | Some sep =>
            p <- voikkoHyphenateUcs4 an h (cstr w) ;;
            match p with
            | None => Ok None
            | Some pattern =>
                t <- insert_loop pattern (cstr w ++ [0]) (cstr sep) allow ;;
                utf8FromUcs4 (cstr t)
            end
        end
    end.
