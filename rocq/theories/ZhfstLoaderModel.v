(** * Looking for dictionaries in the older format of HFST.

    Models [setup/V3DictionaryLoader.cpp] and [addAllVersionVariantsFromPath] of
    [setup/DictionaryFactory.cpp] as built with VFST and HFST and without VISLCG3.
    (With VISLCG3 there is a third loader; [grammar/CgRuleEngine.cpp:102] then
    passes a string where [Analysis::getValue] takes a [Key], so that such a build
    is not possible.) *)
From Verif Require Import Base SetupModel.

(** What [ZHfstOspeller::read_zhfst] and [get_metadata().info_.locale_] give for a
    file: the exception [ZHfstZipReadingError], any other exception (the library
    has some for its index file), or the name of the locale. *)
Inductive archive : Type :=
| Unreadable
| Throws
| Locale (bcp : list Z).

(** [dirName.find(".zhfst") + 6 == dirName.length()], V3DictionaryLoader.cpp:56; the
    sum is a [size_t]. *)
Definition zhfst_test (dirName : list Z) : bool :=
  (size_of (find_sub (wstr ".zhfst") dirName) + 6) mod 2 ^ 64 =? Z.of_nat (length dirName).

(** The dictionary made in lines 57-63 and 73-82, without the description and the
    back end "null" for the analysis of sentences. *)
Definition zhfst_dictionary (fullPath : list Z) (language : tag) : dictionary :=
  mkDict language fullPath (wstr "null") (wstr "hfst") (wstr "hfst")
    (wstr "AnalyzerToFinnishHyphenatorAdapter(currentAnalyzer)") (wstr "null") false.

Section Files.
(** Names in a directory, lines of a file, archives. *)
Variable directory : list Z -> list (list Z).
Variable file : list Z -> list (list Z).
Variable contents : list Z -> archive.

(** The loop of [V3DictionaryLoader::findDictionaries], lines 54-85; [None] stands
    for an exception that leaves the function. *)
Fixpoint v3_entries (mainPath : list Z) (names : list (list Z)) (m : variants) : res (option variants) :=
  match names with
  | [] => Ok (Some m)
  | dirName :: r =>
      if zhfst_test dirName then
        let fullPath := mainPath ++ wstr "/" ++ dirName in
        match contents fullPath with
        | Unreadable => v3_entries mainPath r m
        | Throws => Ok None
        | Locale bcp =>
            language <- setBcp47 empty_tag bcp ;;
            v3_entries mainPath r (addDictionary m (zhfst_dictionary fullPath language))
        end
      else v3_entries mainPath r m
  end.

(** [V3DictionaryLoader::findDictionaries], lines 49-86 *)
Definition v3_find (path : list Z) (m : variants) : res (option variants) :=
  let mainPath := path ++ wstr "/3" in
  v3_entries mainPath (directory mainPath) m.

(** [addAllVersionVariantsFromPath], DictionaryFactory.cpp:138-154: version 5, then
    version 3. *)
Definition all_versions (path : list Z) (m : variants) : res (option variants) :=
  m <- findDictionaries directory file path m ;;
  v3_find path m.

(** The loop of [findAllAvailable] over the locations, DictionaryFactory.cpp:86-88 *)
Fixpoint all_locations (locations : list (list Z)) (m : variants) : res (option variants) :=
  match locations with
  | [] => Ok (Some m)
  | path :: r =>
      o <- all_versions path m ;;
      match o with Some m => all_locations r m | None => Ok None end
  end.

(** [findAllAvailable], DictionaryFactory.cpp:79-104 *)
Definition find_all (defaults : list (list Z)) (path : list Z) : res (option (list dictionary)) :=
  let locations := match path with [] => defaults | _ => path :: defaults end in
  o <- all_locations locations [] ;;
  Ok (match o with Some m => Some (list_variants m m []) | None => None end).

(** What [voikkoInit] makes of a request: a dictionary, an error message (from a
    [DictionaryException], setup.cpp:207), or an exception that leaves the
    library. *)
Inductive request : Type :=
| Found (d : dictionary)
| NotFound
| Escapes.

(** [DictionaryFactory::load], lines 110-136, as in [SetupModel.load] *)
Definition load_all (env : option (list Z)) (defaults : list (list Z)) (lang path : list Z) : res request :=
  requestedTag <- setBcp47 empty_tag lang ;;
  o <- find_all defaults path ;;
  match o with
  | None => Ok Escapes
  | Some dicts =>
      let p := privateUse requestedTag in
      requestedTag <- (if Nat.eqb (length p) 0 || zlist_eqb p (wstr "default") || zlist_eqb p (wstr "fi_FI")
                       then match env with Some e => setPrivateUse requestedTag e | None => Ok requestedTag end
                       else Ok requestedTag) ;;
      Ok (match List.find (fun d => isMatchingLanguage requestedTag (dtag d)) dicts with
          | Some d => Found d
          | None => NotFound
          end)
  end.
End Files.
