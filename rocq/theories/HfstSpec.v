(** * What an HFST dictionary means.

    [d] tells which byte strings the dictionary has.  A user sees a list of
    words written with capital and small letters. *)
From Coq Require Import Sorting.Sorted.
From Verif Require Import Base CharModel CharSpec SpellerBase Utf8Spec HandleModel SpellModel SpellSpec HfstModel.

(** The dictionary has the word [w], written exactly so. *)
Definition knows (d : acceptor) (w : list Z) : Prop := d (utf8_text w) = true.

(** The judgement of a word whose capital letters have been removed: known as it
    stands; known with a capital initial; known in capitals only (looked up if
    the option ACCEPT_ALL_UPPERCASE is on). *)
Inductive hfst_verdict (d : acceptor) (caps_ok : bool) : list Z -> spellresult -> Prop :=
| hv_known : forall v, knows d v -> hfst_verdict d caps_ok v SPELL_OK
| hv_initial : forall c r, ~ knows d (c :: r) -> small c -> knows d (upper c :: r) -> hfst_verdict d caps_ok (c :: r) SPELL_CAP_FIRST
| hv_capitals : forall c r, ~ knows d (c :: r) -> small c -> ~ knows d (upper c :: r) ->
    caps_ok = true -> capitalised (upper c :: r) -> knows d (map upper (c :: r)) -> hfst_verdict d caps_ok (c :: r) SPELL_CAP_ERROR.

(** [f] answers as the HFST speller of the handle does, for every word that has
    a UTF-8 form. *)
Definition answers_as (d : acceptor) (h : handle) (f : speller) : Prop :=
  forall v, Forall encodable v -> hfst_spell d (accept_all_uppercase h) v = Ok (f v).

(** The word [n] is in the dictionary in a way that justifies its capital
    letters; [v] is [n], or [n] without its full stop. *)
Inductive in_dictionary (d : acceptor) (h : handle) (n v : list Z) : Prop :=
| in_small : all_small n -> knows d v -> in_dictionary d h n v
| in_common : capitalised n -> accept_first_uppercase h = true -> knows d (map lower v) -> in_dictionary d h n v
| in_proper : forall c r, capitalised n -> v = c :: r -> capital c -> ~ knows d (map lower v) -> knows d v -> in_dictionary d h n v
| in_capitals_common : all_capitals n -> accept_all_uppercase h = true -> knows d (map lower v) -> in_dictionary d h n v
| in_capitals_proper : forall c r, all_capitals n -> accept_all_uppercase h = true -> v = c :: r -> capital c ->
    knows d (c :: map lower r) -> in_dictionary d h n v
| in_capitals : forall c r, all_capitals n -> accept_all_uppercase h = true -> v = c :: r -> capital c -> ~ In SCHWA r ->
    knows d v -> in_dictionary d h n v
| in_exact : ~ all_small n -> ~ capitalised n -> (all_capitals n -> accept_all_uppercase h = false) ->
    knows d (small_first v) -> in_dictionary d h n v
| in_exact_proper : forall c r, ~ all_small n -> ~ capitalised n -> (all_capitals n -> accept_all_uppercase h = false) ->
    v = c :: r -> capital c -> accept_first_uppercase h = true -> knows d v -> in_dictionary d h n v.

(** A handle with an HFST dictionary after any calls of the spelling and option
    API.  ACCEPT_MISSING_HYPHENS (12) changes only while the cache is switched
    off; while that option is on, so does ACCEPT_ALL_UPPERCASE (7). *)
Inductive hfst_used (d : acceptor) : handle -> Prop :=
| used_init : forall h, voikkoInit = Ok h -> hfst_used d h
| used_bool : forall h o b, hfst_used d h ->
    (o = 12 -> b = accept_missing_hyphens h \/ spellerCache h = None) ->
    (o = 7 -> b = accept_all_uppercase h \/ accept_missing_hyphens h = false \/ spellerCache h = None) ->
    hfst_used d (snd (voikkoSetBooleanOption h o b))
| used_int : forall h o v r h', hfst_used d h -> (o = 17 -> v <= 18) ->
    voikkoSetIntegerOption h o v = Ok (r, h') -> hfst_used d h'
| used_spell : forall h f w r h', hfst_used d h -> answers_as d h f -> Forall encodable w -> ~ In 0 w ->
    voikkoSpellUcs4 (fun _ => f) h w = Ok (r, h') -> hfst_used d h'.

(** ** Corrections *)

(** What hfst-ospell proposes for a word, best first: texts with weights in
    thousandths. *)
Definition proposes (suggest : list Z -> list correction) (word : list Z) (l : list (list Z * Z)) : Prop :=
  suggest (utf8_text word) = map (fun x => (utf8_text (fst x), snd x)) l /\
  Forall (fun x => Forall encodable (fst x) /\ ~ In 0 (fst x) /\ 0 <= snd x <= 100000000) l /\
  StronglySorted (fun x y => snd x <= snd y) l.

(** The same word, begun with a capital letter if it begins with a letter. *)
Definition with_capital (w : list Z) : list Z := match w with [] => [] | c :: r => upper c :: r end.

(** [l'] is [l] without the entries that differ from an earlier one at most in
    the case of the first letter. *)
Inductive subsequence {A : Type} : list A -> list A -> Prop :=
| subs_nil : subsequence [] []
| subs_keep : forall x a b, subsequence a b -> subsequence (x :: a) (x :: b)
| subs_drop : forall x a b, subsequence a b -> subsequence a (x :: b).
Definition without_repeats (l l' : list (list Z * Z)) : Prop :=
  subsequence l' l /\
  forall x, In x l' -> exists a b, l = a ++ x :: b /\ forall y, In y a -> with_capital (fst y) <> with_capital (fst x).
Definition every_first (l l' : list (list Z * Z)) : Prop :=
  forall a x b, l = a ++ x :: b -> (forall y, In y a -> with_capital (fst y) <> with_capital (fst x)) -> In x l'.

(** The corrections that count: all, but for a word with a capital initial not
    the same one twice. *)
Definition counted (word : list Z) (l l' : list (list Z * Z)) : Prop :=
  (capitalised word -> without_repeats l l' /\ every_first l l' /\ NoDup (map (fun x => with_capital (fst x)) l')) /\
  (~ capitalised word -> l' = l).

(** The priorities given to them. *)
Fixpoint ranked (i : Z) (l : list (list Z * Z)) : list (list Z * Z) :=
  match l with
  | [] => []
  | (w, weight) :: r => (w, (weight + i + 1) * (i + 5)) :: ranked (i + 1) r
  end.
