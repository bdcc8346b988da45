(** * Attribute maps of morphological analyses.

    Models [morphology/Analysis.hpp] and [morphology/Analysis.cpp]. *)
From Verif Require Import Base.

(** [enum class Key], morphology/Analysis.hpp:43-65, in declaration order. *)
Inductive Key : Type :=
| BASEFORM | CLASS | COMPARISON | FOCUS | FSTOUTPUT | KYSYMYSLIITE | MALAGA_VAPAA_JALKIOSA
| MOOD | NEGATIVE | NUMBER | PARTICIPLE | PERSON | POSSESSIVE | POSSIBLE_GEOGRAPHICAL_NAME
| REQUIRE_FOLLOWING_VERB | SIJAMUOTO | STRUCTURE | TENSE | WEIGHT | WORDBASES | WORDIDS.

Definition all_keys : list Key :=
  [BASEFORM; CLASS; COMPARISON; FOCUS; FSTOUTPUT; KYSYMYSLIITE; MALAGA_VAPAA_JALKIOSA;
   MOOD; NEGATIVE; NUMBER; PARTICIPLE; PERSON; POSSESSIVE; POSSIBLE_GEOGRAPHICAL_NAME;
   REQUIRE_FOLLOWING_VERB; SIJAMUOTO; STRUCTURE; TENSE; WEIGHT; WORDBASES; WORDIDS].

(** [static_cast<int>(key)]: position in the enumeration. *)
Definition key_int (k : Key) : nat :=
  match k with
  | BASEFORM => 0 | CLASS => 1 | COMPARISON => 2 | FOCUS => 3 | FSTOUTPUT => 4
  | KYSYMYSLIITE => 5 | MALAGA_VAPAA_JALKIOSA => 6 | MOOD => 7 | NEGATIVE => 8 | NUMBER => 9
  | PARTICIPLE => 10 | PERSON => 11 | POSSESSIVE => 12 | POSSIBLE_GEOGRAPHICAL_NAME => 13
  | REQUIRE_FOLLOWING_VERB => 14 | SIJAMUOTO => 15 | STRUCTURE => 16 | TENSE => 17
  | WEIGHT => 18 | WORDBASES => 19 | WORDIDS => 20
  end.

Definition key_eqb (a b : Key) : bool := Nat.eqb (key_int a) (key_int b).

(** [KEY_TO_STRING], morphology/Analysis.cpp:34-56. *)
Definition KEY_TO_STRING : list string :=
  ["BASEFORM"; "CLASS"; "COMPARISON"; "FOCUS"; "FSTOUTPUT"; "KYSYMYSLIITE";
   "MALAGA_VAPAA_JALKIOSA"; "MOOD"; "NEGATIVE"; "NUMBER"; "PARTICIPLE"; "PERSON";
   "POSSESSIVE"; "POSSIBLE_GEOGRAPHICAL_NAME"; "REQUIRE_FOLLOWING_VERB"; "SIJAMUOTO";
   "STRUCTURE"; "TENSE"; "WEIGHT"; "WORDBASES"; "WORDIDS"]%string.

(** [STRING_TO_KEY], morphology/Analysis.cpp:58-80. *)
Definition STRING_TO_KEY : list (string * Key) :=
  [("BASEFORM", BASEFORM); ("CLASS", CLASS); ("COMPARISON", COMPARISON); ("FOCUS", FOCUS);
   ("FSTOUTPUT", FSTOUTPUT); ("KYSYMYSLIITE", KYSYMYSLIITE);
   ("MALAGA_VAPAA_JALKIOSA", MALAGA_VAPAA_JALKIOSA); ("MOOD", MOOD); ("NEGATIVE", NEGATIVE);
   ("NUMBER", NUMBER); ("PARTICIPLE", PARTICIPLE); ("PERSON", PERSON);
   ("POSSESSIVE", POSSESSIVE); ("POSSIBLE_GEOGRAPHICAL_NAME", POSSIBLE_GEOGRAPHICAL_NAME);
   ("REQUIRE_FOLLOWING_VERB", REQUIRE_FOLLOWING_VERB); ("SIJAMUOTO", SIJAMUOTO);
   ("STRUCTURE", STRUCTURE); ("TENSE", TENSE); ("WEIGHT", WEIGHT); ("WORDBASES", WORDBASES);
   ("WORDIDS", WORDIDS)]%string.

(** A value: the address of a character array and its text. *)
Record value : Type := mkValue { address : nat; text : list Z }.

(** The object, morphology/Analysis.hpp:118-124.  [attributes] is the
    [std::map] (at most one value per key, iterated in key order);
    [constAttributes] the bitset; [keys] the array built by [seal] (the C array
    ends with NULL).  [freed] is not a member: it records the addresses passed to
    [delete[]]. *)
Record analysis_object : Type := mkAnalysis {
  attributes : Key -> option value;
  constAttributes : Key -> bool;
  keys : option (list string);
  freed : list nat
}.

Definition set_key {A} (f : Key -> A) (k : Key) (x : A) : Key -> A :=
  fun k' => if key_eqb k k' then x else f k'.

(** Constructor, lines 82-83. *)
Definition new_analysis : analysis_object :=
  mkAnalysis (fun _ => None) (fun _ => false) None [].

(** [std::map::insert]: does nothing when the key is present. *)
Definition map_insert (m : Key -> option value) (k : Key) (v : value) : Key -> option value :=
  match m k with Some _ => m | None => set_key m k (Some v) end.

(** [addAttribute], lines 97-99. *)
Definition addAttribute (a : analysis_object) (k : Key) (v : value) : analysis_object :=
  mkAnalysis (map_insert (attributes a) k v) (constAttributes a) (keys a) (freed a).

(** [addConstAttribute], lines 101-104. *)
Definition addConstAttribute (a : analysis_object) (k : Key) (v : value) : analysis_object :=
  mkAnalysis (map_insert (attributes a) k v) (set_key (constAttributes a) k true) (keys a) (freed a).

(** [removeAttribute], lines 106-117. *)
Definition removeAttribute (a : analysis_object) (k : Key) : analysis_object :=
  match attributes a k with
  | None => a
  | Some v =>
      if constAttributes a k
      then mkAnalysis (set_key (attributes a) k None) (set_key (constAttributes a) k false) (keys a) (freed a)
      else mkAnalysis (set_key (attributes a) k None) (constAttributes a) (keys a) (freed a ++ [address v])
  end.

(** The keys of the [std::map] in iteration order. *)
Definition present_keys (a : analysis_object) : list Key :=
  filter (fun k => match attributes a k with Some _ => true | None => false end) all_keys.

(** [getInternalKeys], lines 123-129. *)
Definition getInternalKeys := present_keys.

(** [getValue], lines 131-140. *)
Definition getValue (a : analysis_object) (k : Key) : option (list Z) :=
  match attributes a k with Some v => Some (text v) | None => None end.

Fixpoint string_find (l : list (string * Key)) (s : string) : option Key :=
  match l with
  | [] => None
  | (n, k) :: r => if String.eqb n s then Some k else string_find r s
  end.

(** [getValueS], lines 142-150; also [voikko_mor_analysis_value_ucs4],
    morphology/interface.cpp:76-80. *)
Definition getValueS (a : analysis_object) (name : string) : option (list Z) :=
  match string_find STRING_TO_KEY name with Some k => getValue a k | None => None end.

(** [KEY_TO_STRING[(int) key]] for each key, in a loop; out-of-range indices are
    undefined. *)
Fixpoint key_names (ks : list Key) : res (list string) :=
  match ks with
  | [] => Ok []
  | k :: r => s <- rd KEY_TO_STRING (key_int k) ;; l <- key_names r ;; Ok (s :: l)
  end.

(** [seal], lines 157-166. *)
Definition seal (a : analysis_object) : res analysis_object :=
  l <- key_names (present_keys a) ;;
  Ok (mkAnalysis (attributes a) (constAttributes a) (Some l) (freed a)).

(** [getKeys], lines 119-121 ([voikko_mor_analysis_keys]). *)
Definition getKeys (a : analysis_object) : option (list string) := keys a.

(** Destructor, lines 85-95: the addresses freed over the object's life. *)
Definition destroy (a : analysis_object) : list nat :=
  freed a ++
  flat_map (fun k => match attributes a k with
                     | Some v => if constAttributes a k then [] else [address v]
                     | None => []
                     end) all_keys.

(** What the rest of the library sees of an analysis: its attribute values. *)
Definition analysis := Key -> option (list Z).
Definition no_attributes : analysis := fun _ => None.
Definition add (a : analysis) (k : Key) (v : list Z) : analysis :=
  match a k with Some _ => a | None => set_key a k (Some v) end.
Definition remove (a : analysis) (k : Key) : analysis :=
  match a k with Some _ => set_key a k None | None => a end.
