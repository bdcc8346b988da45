(** * The spell checker cache.

    Models [spellchecker/SpellerCache.cpp].  [int] is 32 bits: an arithmetic
    result outside its range is [UB], as is a shift that overflows.  The two
    arrays are lists; an index outside them is [UB].  Failure to allocate memory
    is not modelled. *)
From Verif Require Import Base SpellerBase.

(** Signed 32 bit overflow check. *)
Definition ck (x : Z) : res Z := if in_range (- 2 ^ 31) (2 ^ 31 - 1) x then Ok x else UB.

(** [a << n] on non-negative [int]s. *)
Definition shl (a n : Z) : res Z :=
  if (0 <=? n) && (n <? 32) then ck (a * 2 ^ n) else UB.

(** Array access with an [int] index. *)
Definition rdz (buf : list Z) (i : Z) : res Z := if 0 <=? i then rd buf (Z.to_nat i) else UB.
Definition wrz (buf : list Z) (i c : Z) : res (list Z) := if 0 <=? i then wr buf (Z.to_nat i) c else UB.

(** spellchecker/SpellerCache.cpp:49-51. *)
Definition HASH_ORDERS : list Z := [0; 3; 5; 6; 7; 7; 7; 7; 7; 7; 7].
Definition CACHE_OFFSETS : list Z := [0; 0; 16; 80; 272; 784; 1424; 2192; 3088; 4112; 5264].
Definition META_OFFSETS : list Z := [0; 0; 16; 48; 112; 240; 368; 496; 624; 752; 880].

(** [voikko_hash], spellchecker/SpellerCache.cpp:60-66; [%] truncates towards
    zero. *)
Fixpoint hash_loop (word : list Z) (order hash : Z) : res Z :=
  match word with
  | [] => Ok hash
  | c :: r =>
      a <- ck (hash * 37) ;;
      b <- ck (a + c) ;;
      m <- shl 1 order ;;
      hash_loop r order (Z.rem b m)
  end.
Definition voikko_hash (word : list Z) (order : Z) : res Z := hash_loop word order 0.

(** [class SpellerCache], spellchecker/SpellerCache.hpp:40-72. *)
Record spell_cache : Type := mk_cache {
  sizeParam : Z;
  words : list Z;
  spellResults : list Z
}.

(** [SpellerCache::SpellerCache], spellchecker/SpellerCache.cpp:68-73. *)
Definition new_cache (size : Z) : res spell_cache :=
  n <- shl 6544 size ;;
  Ok (mk_cache size (repeat 0 (Z.to_nat n)) (repeat 0 (Z.to_nat (1008 * 2 ^ size)))).

(** [wcsncmp(buf + i, word, wlen) == 0] where [word] has [wlen] characters. *)
Fixpoint wcsncmp_eq (buf : list Z) (i : Z) (word : list Z) : res bool :=
  match word with
  | [] => Ok true
  | c :: r =>
      a <- rdz buf i ;;
      if a =? c then (if a =? 0 then Ok true else wcsncmp_eq buf (i + 1) r) else Ok false
  end.

(** [wcsncpy(buf + i, word, wlen)] where [word] has [wlen] characters: after a
    NUL the rest is filled with NULs. *)
Fixpoint fill0 (buf : list Z) (i : Z) (n : nat) : res (list Z) :=
  match n with O => Ok buf | S n' => b <- wrz buf i 0 ;; fill0 b (i + 1) n' end.
Fixpoint wcsncpy (buf : list Z) (i : Z) (word : list Z) : res (list Z) :=
  match word with
  | [] => Ok buf
  | c :: r =>
      if c =? 0 then fill0 buf i (length word)
      else b <- wrz buf i c ;; wcsncpy b (i + 1) r
  end.

(** The hash code of a word, and the two offsets computed in lines 89-91,
    95-96 and 108-110. *)
Definition hash_code (c : spell_cache) (word : list Z) : res Z :=
  o <- rd HASH_ORDERS (length word) ;;
  o' <- ck (o + sizeParam c) ;;
  voikko_hash word o'.
Definition cache_offset (c : spell_cache) (word : list Z) (hashCode : Z) : res Z :=
  o <- rd CACHE_OFFSETS (length word) ;;
  s <- shl o (sizeParam c) ;;
  p <- ck (hashCode * Z.of_nat (length word)) ;;
  ck (s + p).
Definition result_offset (c : spell_cache) (word : list Z) (hashCode : Z) : res Z :=
  o <- rd META_OFFSETS (length word) ;;
  s <- shl o (sizeParam c) ;;
  ck (s + hashCode).

(** [SpellerCache::isInCache], spellchecker/SpellerCache.cpp:84-91. *)
Definition isInCache (c : spell_cache) (word : list Z) : res bool :=
  if (10 <? length word)%nat then Ok false
  else
    h <- hash_code c word ;;
    off <- cache_offset c word h ;;
    wcsncmp_eq (words c) off word.

(** [SpellerCache::getSpellResult], spellchecker/SpellerCache.cpp:93-101. *)
Definition getSpellResult (c : spell_cache) (word : list Z) : res spellresult :=
  h <- hash_code c word ;;
  off <- result_offset c word h ;;
  r <- rdz (spellResults c) off ;;
  Ok (if r =? 0x69 then SPELL_CAP_FIRST else SPELL_OK).

(** [SpellerCache::setSpellResult], spellchecker/SpellerCache.cpp:103-112. *)
Definition setSpellResult (c : spell_cache) (word : list Z) (result : spellresult) : res spell_cache :=
  if (10 <? length word)%nat || match result with SPELL_OK | SPELL_CAP_FIRST => false | _ => true end then Ok c
  else
    h <- hash_code c word ;;
    off <- cache_offset c word h ;;
    roff <- result_offset c word h ;;
    w <- wcsncpy (words c) off word ;;
    r <- wrz (spellResults c) roff match result with SPELL_OK => 0x70 | _ => 0x69 end ;;
    Ok (mk_cache (sizeParam c) w r).
