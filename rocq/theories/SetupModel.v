(** * Language tags and the selection of a dictionary.

    Models [setup/LanguageTag.cpp], [setup/Dictionary.cpp],
    [setup/DictionaryLoader.cpp], [setup/V5DictionaryLoader.cpp],
    [setup/DictionaryFactory.cpp] and the listing functions of
    [setup/interface.cpp].

    A [std::string] is the list of its bytes.  The environment (variables, home
    directory, file system) is given by parameters.  The loaders V3 and V4 belong
    to optional builds and are not modelled; the functions that iterate over
    loaders and locations take the dictionaries found by each as arguments.
    Windows and Mac OS variants are not modelled. *)
From Verif Require Import Base.

(** ** Strings *)

(** [s.find(c)] for a single character; [None] is [npos]. *)
Fixpoint find_char (c : Z) (s : list Z) : option nat :=
  match s with
  | [] => None
  | x :: r => if x =? c then Some O else option_map S (find_char c r)
  end.

(** [s.compare(0, p.size(), p) == 0] *)
Fixpoint starts_with (p s : list Z) : bool :=
  match p, s with
  | [], _ => true
  | c :: p', d :: s' => (c =? d) && starts_with p' s'
  | _ :: _, [] => false
  end.

(** [s.find(p)]: the first occurrence. *)
Fixpoint find_sub (p s : list Z) : option nat :=
  if starts_with p s then Some O
  else match s with
       | [] => None
       | _ :: r => option_map S (find_sub p r)
       end.

(** [s.rfind(p)]: the last occurrence. *)
Fixpoint rfind_sub (p s : list Z) : option nat :=
  match s with
  | [] => if starts_with p s then Some O else None
  | _ :: r => match rfind_sub p r with
              | Some k => Some (S k)
              | None => if starts_with p s then Some O else None
              end
  end.

(** [size_t] values of positions: [npos] is [2^64 - 1]. *)
Definition NPOS : Z := 2 ^ 64 - 1.
Definition size_of (o : option nat) : Z := match o with Some k => Z.of_nat k | None => NPOS end.

(** [a < b] for [std::string] (bytes compare unsigned). *)
Fixpoint str_lt (a b : list Z) : bool :=
  match a, b with
  | _, [] => false
  | [], _ :: _ => true
  | x :: a', y :: b' => (x <? y) || ((x =? y) && str_lt a' b')
  end.

(** ** Language tags *)

(** [class LanguageTag], setup/LanguageTag.hpp:37-62 *)
Record tag : Type := mkTag { language : list Z; script : list Z; privateUse : list Z }.

(** The default constructor, setup/LanguageTag.cpp:34-38 *)
Definition empty_tag : tag := mkTag [] [] [].

(** [lowercaseTagPart], lines 47-54 ([char] is signed, bytes above 127 are
    negative there: they are outside the range as well). *)
Definition lowercaseTagPart (s : list Z) : list Z :=
  map (fun current => if (65 <=? current) && (current <=? 90) then current + 32 else current) s.

(** [setLanguage], lines 60-69 *)
Definition setLanguage (t : tag) (l : list Z) : tag :=
  let l := match find_char 0x5F l with Some splitPos => firstn splitPos l | None => l end in
  mkTag (lowercaseTagPart l) (script t) (privateUse t).

(** [setScript], lines 75-79 *)
Definition setScript (t : tag) (s : list Z) : tag :=
  if Nat.eqb (length s) 4 then mkTag (language t) s (privateUse t) else t.

(** The loop of [setPrivateUse], lines 87-90: erases the first hyphen as long as
    there is one. *)
Fixpoint erase_hyphens (fuel : nat) (s : list Z) : res (list Z) :=
  match find_char 0x2D s with
  | None => Ok s
  | Some hyphenPos =>
      match fuel with
      | O => Fuel
      | S f => erase_hyphens f (firstn hyphenPos s ++ skipn (hyphenPos + 1) s)
      end
  end.

(** [setPrivateUse], lines 85-92 *)
Definition setPrivateUse (t : tag) (p : list Z) : res tag :=
  p <- erase_hyphens (length p) p ;;
  Ok (mkTag (language t) (script t) (lowercaseTagPart p)).

(** [setLanguageAndScript], lines 94-105 *)
Definition setLanguageAndScript (t : tag) (l : list Z) : tag :=
  match find_char 0x2D l with
  | Some splitPos => setScript (setLanguage t (firstn splitPos l)) (skipn (splitPos + 1) l)
  | None => setLanguage t l
  end.

(** [setBcp47], lines 107-116 *)
Definition setBcp47 (t : tag) (bcp : list Z) : res tag :=
  match find_sub (wstr "-x-") bcp with
  | Some splitPos => setPrivateUse (setLanguageAndScript t (firstn splitPos bcp)) (skipn (splitPos + 3) bcp)
  | None => Ok (setLanguageAndScript t bcp)
  end.

(** [toBcp47], lines 118-129 *)
Definition toBcp47 (t : tag) : list Z :=
  language t
  ++ (match script t with [] => [] | s => wstr "-" ++ s end)
  ++ (match privateUse t with [] => [] | p => wstr "-x-" ++ p end).

(** [operator<], lines 131-139 *)
Definition tag_lt (a b : tag) : bool :=
  if negb (zlist_eqb (language a) (language b)) then str_lt (language a) (language b)
  else if negb (zlist_eqb (script a) (script b)) then str_lt (script a) (script b)
  else str_lt (privateUse a) (privateUse b).

(** ** Dictionaries *)

(** [class Dictionary], setup/Dictionary.cpp:34-70, without the description;
    backends are represented by the strings in the index file, the path by
    [dpath], and [BackendProperties::isAdvertised] by the three flags. *)
Record dictionary : Type := mkDict {
  dtag : tag;
  dpath : list Z;
  morBackend : list Z;
  spellBackend : list Z;
  suggestionBackend : list Z;
  hyphenatorBackend : list Z;
  grammarBackend : list Z;
  isDefault : bool
}.
Definition no_dictionary : dictionary := mkDict empty_tag [] [] [] [] [] [] false.

(** [isValid], Dictionary.cpp:104-106; [setDefault], lines 112-114 *)
Definition isValid (d : dictionary) : bool := negb (Nat.eqb (length (language (dtag d))) 0).
Definition setDefault (d : dictionary) (b : bool) : dictionary :=
  mkDict (dtag d) (dpath d) (morBackend d) (spellBackend d) (suggestionBackend d) (hyphenatorBackend d) (grammarBackend d) b.

(** [std::map<string, Dictionary>]: an association list in increasing order of
    its keys. *)
Definition variants : Type := list (list Z * dictionary).
Fixpoint map_find (k : list Z) (m : variants) : option dictionary :=
  match m with
  | [] => None
  | (k', d) :: r => if zlist_eqb k' k then Some d else map_find k r
  end.
(** [m[k] = d] *)
Fixpoint map_set (k : list Z) (d : dictionary) (m : variants) : variants :=
  match m with
  | [] => [(k, d)]
  | (k', d') :: r =>
      if zlist_eqb k' k then (k, d) :: r
      else if str_lt k k' then (k, d) :: m
      else (k', d') :: map_set k d r
  end.

(** [hasDefaultForLanguage], setup/DictionaryLoader.cpp:53-60 *)
Definition hasDefaultForLanguage (m : variants) (lang : list Z) : bool :=
  existsb (fun x => zlist_eqb (language (dtag (snd x))) lang && isDefault (snd x)) m.

(** [addDictionary], DictionaryLoader.cpp:98-111 *)
Definition addDictionary (m : variants) (d : dictionary) : variants :=
  let d := if zlist_eqb (privateUse (dtag d)) (wstr "default") && negb (hasDefaultForLanguage m (language (dtag d)))
           then setDefault d true else d in
  if isValid d then
    match map_find (toBcp47 (dtag d)) m with
    | None => map_set (toBcp47 (dtag d)) d m
    | Some e => if isDefault d then map_set (toBcp47 (dtag d)) (setDefault e true) m else m
    end
  else m.

(** ** The version 5 loader *)

Definition VERSION_KEY : list Z := wstr "Voikko-Dictionary-Format: 5".

(** The loop of [dictionaryFromPath], setup/V5DictionaryLoader.cpp:91-114: the
    remaining lines of the index file. *)
Fixpoint read_index (d : dictionary) (lines : list (list Z)) : res dictionary :=
  match lines with
  | [] => Ok d
  | line :: r =>
      let value n := skipn n line in
      d <- (if starts_with (wstr "Language: ") line then
              t <- setBcp47 (dtag d) (value 10%nat) ;;
              Ok (mkDict t (dpath d) (morBackend d) (spellBackend d) (suggestionBackend d) (hyphenatorBackend d) (grammarBackend d) (isDefault d))
            else if starts_with (wstr "Description: ") line then Ok d
            else if starts_with (wstr "Morphology-Backend: ") line then
              Ok (mkDict (dtag d) (dpath d) (value 20%nat) (spellBackend d) (suggestionBackend d) (hyphenatorBackend d) (grammarBackend d) (isDefault d))
            else if starts_with (wstr "Speller-Backend: ") line then
              Ok (mkDict (dtag d) (dpath d) (morBackend d) (value 17%nat) (suggestionBackend d) (hyphenatorBackend d) (grammarBackend d) (isDefault d))
            else if starts_with (wstr "Suggestion-Backend: ") line then
              Ok (mkDict (dtag d) (dpath d) (morBackend d) (spellBackend d) (value 20%nat) (hyphenatorBackend d) (grammarBackend d) (isDefault d))
            else if starts_with (wstr "Hyphenator-Backend: ") line then
              Ok (mkDict (dtag d) (dpath d) (morBackend d) (spellBackend d) (suggestionBackend d) (value 20%nat) (grammarBackend d) (isDefault d))
            else if starts_with (wstr "Grammar-Backend: ") line then
              Ok (mkDict (dtag d) (dpath d) (morBackend d) (spellBackend d) (suggestionBackend d) (hyphenatorBackend d) (value 17%nat) (isDefault d))
            else Ok d) ;;
      read_index d r
  end.

(** [dictionaryFromPath], V5DictionaryLoader.cpp:66-116; [lines] are the lines of
    [path/index.txt] ([[]] if it cannot be read). *)
Definition dictionaryFromPath (path : list Z) (lines : list (list Z)) : res dictionary :=
  match lines with
  | [] => Ok no_dictionary
  | first :: r =>
      if negb (zlist_eqb first VERSION_KEY) then Ok no_dictionary
      else read_index (mkDict (setLanguage empty_tag (wstr "fi")) path (wstr "finnishVfst")
             (wstr "FinnishSpellerTweaksWrapper(AnalyzerToSpellerAdapter(currentAnalyzer),currentAnalyzer)")
             (wstr "FinnishSuggestionStrategy(currentAnalyzer)")
             (wstr "AnalyzerToFinnishHyphenatorAdapter(currentAnalyzer)") (wstr "finnishVfst") false) r
  end.

Section Files.
(** The names in a directory ([getListOfSubentries], DictionaryLoader.cpp:62-91)
    and the lines of a file. *)
Variable directory : list Z -> list (list Z).
Variable file : list Z -> list (list Z).

(** The loop of [V5DictionaryLoader::findDictionaries], V5DictionaryLoader.cpp:48-64 *)
Fixpoint v5_entries (mainPath : list Z) (names : list (list Z)) (m : variants) : res variants :=
  match names with
  | [] => Ok m
  | dirName :: r =>
      if negb (starts_with (wstr "mor-") dirName) then v5_entries mainPath r m
      else if Nat.eqb (length (skipn 4 dirName)) 0 then v5_entries mainPath r m
      else
        let fullDirName := mainPath ++ wstr "/" ++ dirName in
        d <- dictionaryFromPath fullDirName (file (fullDirName ++ wstr "/index.txt")) ;;
        v5_entries mainPath r (addDictionary m d)
  end.

(** [V5DictionaryLoader::findDictionaries], lines 44-64 *)
Definition findDictionaries (path : list Z) (m : variants) : res variants :=
  let mainPath := path ++ wstr "/5" in
  v5_entries mainPath (directory mainPath) m.

(** The loop of [findAllAvailable] over the locations, DictionaryFactory.cpp:86-88;
    [addAllVersionVariantsFromPath], lines 138-154, with the one loader. *)
Fixpoint from_locations (locations : list (list Z)) (m : variants) : res variants :=
  match locations with
  | [] => Ok m
  | path :: r => m <- findDictionaries path m ;; from_locations r m
  end.

(** The test of line 95: [i->first.rfind("-x-standard") == i->first.size() - 11],
    where the subtraction wraps around. *)
Definition standard_key (k : list Z) : bool :=
  size_of (rfind_sub (wstr "-x-standard") k) =? (Z.of_nat (length k) - 11) mod 2 ^ 64.

(** The loop of lines 91-102: [rest] is the unprocessed part of the map [m]. *)
Fixpoint list_variants (m rest : variants) (dicts : list dictionary) : list dictionary :=
  match rest with
  | [] => dicts
  | (k, d) :: r =>
      list_variants m r
        (if isDefault d then d :: dicts
         else if standard_key k && negb (hasDefaultForLanguage m (language (dtag d))) then d :: dicts
         else dicts ++ [d])
  end.

(** [findAllAvailable], DictionaryFactory.cpp:79-104; [defaults] is the result of
    [getDefaultLocations], [path] the caller's path (possibly empty). *)
Definition findAllAvailable (defaults : list (list Z)) (path : list Z) : res (list dictionary) :=
  let locations := match path with [] => defaults | _ => path :: defaults end in
  m <- from_locations locations [] ;;
  Ok (list_variants m m []).

(** [isMatchingLanguage], lines 56-72 *)
Definition isMatchingLanguage (requested available : tag) : bool :=
  if negb (zlist_eqb (language requested) (language available)) then false
  else if negb (zlist_eqb (script requested) (script available)) then false
  else if zlist_eqb (privateUse requested) (wstr "standard") && Nat.eqb (length (privateUse available)) 0 then true
  else if negb (Nat.eqb (length (privateUse requested)) 0) && negb (zlist_eqb (privateUse requested) (privateUse available)) then false
  else true.

(** [DictionaryFactory::load], lines 110-136; [env] is the variable
    VOIKKO_DICTIONARY, [None] stands for the exception (that it has one of two
    messages is not modelled). *)
Definition load (env : option (list Z)) (defaults : list (list Z)) (lang path : list Z) : res (option dictionary) :=
  requestedTag <- setBcp47 empty_tag lang ;;
  dicts <- findAllAvailable defaults path ;;
  let p := privateUse requestedTag in
  requestedTag <- (if Nat.eqb (length p) 0 || zlist_eqb p (wstr "default") || zlist_eqb p (wstr "fi_FI")
                   then match env with Some e => setPrivateUse requestedTag e | None => Ok requestedTag end
                   else Ok requestedTag) ;;
  Ok (List.find (fun d => isMatchingLanguage requestedTag (dtag d)) dicts).
End Files.

(** [splitPathAndAppend], lines 162-177: [getline] with ':' gives no empty last
    component. *)
Fixpoint split_path (s : list Z) (cur : list Z) : list (list Z) :=
  match s with
  | [] => match cur with [] => [] | _ => [cur] end
  | c :: r => if c =? 0x3A then cur :: split_path r [] else split_path r (cur ++ [c])
  end.
Definition splitPath (s : list Z) : list (list Z) := split_path s [].

(** [getDefaultLocations], lines 180-266, where [getpwuid_r] exists: the variable
    VOIKKO_DICTIONARY_PATH, the home directory if known and the directory given
    at compile time. *)
Definition getDefaultLocations (env home compiled : option (list Z)) : list (list Z) :=
  (match env with Some e => splitPath e | None => [] end)
  ++ (match home with Some h => [h ++ wstr "/.voikko"] | None => [] end)
  ++ [wstr "/etc/voikko"]
  ++ (match compiled with Some c => splitPath c | None => [] end).

(** ** Listing *)

(** [voikko_dict_variant], setup/interface.cpp:74-80 *)
Definition voikko_dict_variant (d : dictionary) : list Z :=
  match privateUse (dtag d) with [] => wstr "standard" | p => p end.

(** [getShortLangForCapabilityFilteredList], interface.cpp:86-93 *)
Definition short_language (t : tag) : list Z :=
  match script t with [] => language t | s => language t ++ wstr "-" ++ s end.

(** [std::set<string>::insert] *)
Fixpoint set_insert (k : list Z) (s : list (list Z)) : list (list Z) :=
  match s with
  | [] => [k]
  | x :: r => if zlist_eqb x k then s else if str_lt k x then k :: s else x :: set_insert k r
  end.

(** [listSupportedLanguagesForCapability], interface.cpp:96-120; the backends of
    version 5 dictionaries are all advertised. *)
Definition supported_languages (dicts : list dictionary) : list (list Z) :=
  fold_left (fun s d => set_insert (short_language (dtag d)) s) dicts [].
