(** * The life of a handle: what is allocated and released.

    Models [voikkoInit], [voikkoTerminate] and the options that replace components
    ([setup/setup.cpp]), the factories of the components, and the constructors,
    destructors and [terminate] functions of the components, as far as they
    allocate and release memory and mapped files.

    Not modelled: the back ends "hfst" for morphology and hyphenation (a dictionary
    that could be loaded never names them), the contents of the grammar checker's
    cache, memory inside standard containers (they release it themselves) and
    failing allocations. *)
From Verif Require Import Base SetupModel.

(** ** Resources *)

(** Blocks of memory and mapped files that are in use, and the next fresh name. *)
Record heap : Type := mkHeap { live : list nat; fresh : nat }.

(** How a computation ends: normally, with a [DictionaryException], or with
    undefined behaviour. *)
Inductive out (A : Type) : Type :=
| Ret (a : A) (h : heap)
| Throw (message : list Z) (h : heap)
| Undefined.
Arguments Ret {A}. Arguments Throw {A}. Arguments Undefined {A}.
Definition io (A : Type) : Type := heap -> out A.
Definition ret {A} (a : A) : io A := fun h => Ret a h.
Definition throw {A} (message : list Z) : io A := fun h => Throw message h.
Definition undefined {A} : io A := fun _ => Undefined.
Definition bindio {A B} (m : io A) (k : A -> io B) : io B := fun h =>
  match m h with Ret a h => k a h | Throw e h => Throw e h | Undefined => Undefined end.
Notation "x <~ m ;; k" := (bindio m (fun x => k)) (at level 61, m at next level, right associativity).
Notation "m ;~ k" := (bindio m (fun _ => k)) (at level 61, right associativity).
(** [try { m } catch (DictionaryException & e)] with the continuations of both
    cases. *)
Definition attempt {A B} (m : io A) (k : A -> io B) (handler : list Z -> io B) : io B := fun h =>
  match m h with Ret a h => k a h | Throw e h => handler e h | Undefined => Undefined end.

(** [new], [mmap] *)
Definition new : io nat := fun h => Ret (fresh h) (mkHeap (fresh h :: live h) (S (fresh h))).
Fixpoint news (n : nat) : io (list nat) :=
  match n with O => ret [] | S n => x <~ new ;; r <~ news n ;; ret (x :: r) end.

(** [delete], [munmap]: undefined for what is not in use. *)
Fixpoint remove_one (i : nat) (l : list nat) : option (list nat) :=
  match l with
  | [] => None
  | x :: r => if Nat.eqb x i then Some r else option_map (cons x) (remove_one i r)
  end.
Definition delete (i : nat) : io unit := fun h =>
  match remove_one i (live h) with Some l => Ret tt (mkHeap l (fresh h)) | None => Undefined end.
Fixpoint deletes (l : list nat) : io unit :=
  match l with [] => ret tt | x :: r => delete x ;~ deletes r end.

(** [new T(...)]: if the constructor throws, the memory of the object is
    released. *)
Definition construct {A} (constructor : io A) : io (nat * A) :=
  o <~ new ;;
  attempt constructor (fun a => ret (o, a)) (fun e => delete o ;~ throw e).

(** ** Transducers *)

(** What a file is to the constructor of a transducer. *)
Inductive vfst_file : Type :=
| Missing                              (* cannot be opened *)
| Empty                                (* can be opened but not mapped *)
| Foreign                              (* wrong cookie *)
| OtherKind                            (* weighted instead of unweighted or vice versa *)
| BadFlag (swapped : bool) (n : nat)   (* a malformed flag diacritic after n symbols *)
| Good (swapped : bool) (n : nat).     (* n symbols *)

Record transducer : Type := mkTransducer { t_object : nat; t_map : nat; t_symbols : list nat }.

(** [byteSwapTransducer], fst/UnweightedTransducer.cpp:71-123: a copy replaces the
    mapped file. *)
Definition swap_map (swapped : bool) (map : nat) : io nat :=
  if swapped then newMap <~ new ;; delete map ;~ ret newMap else ret map.

(** [UnweightedTransducer::UnweightedTransducer], fst/UnweightedTransducer.cpp:125-189,
    and [WeightedTransducer::WeightedTransducer], fst/WeightedTransducer.cpp:130-194:
    [mmap], symbols one by one, each in its own block.  If a file cannot be mapped
    ([vfstMmap], fst/Transducer.cpp:125-141) the result is not null and is read. *)
Definition transducer_constructor (weighted : bool) (f : vfst_file) : io (nat * list nat) :=
  match f with
  | Missing => throw (if weighted then wstr "Weighted transducer file could not be read" else wstr "Unweighted transducer file could not be read")
  | Empty => undefined
  | Foreign => _ <~ new ;; throw (wstr "Unknown byte order or file type")
  | OtherKind => _ <~ new ;; throw (if weighted then wstr "Expected weighted but got unweighted transducer" else wstr "Expected unweighted but got weighted transducer")
  | BadFlag swapped n =>
      map <~ new ;; map <~ swap_map swapped map ;; _ <~ news (S n) ;; throw (wstr "Malformed flag diacritic")
  | Good swapped n =>
      map <~ new ;; map <~ swap_map swapped map ;; symbols <~ news n ;; ret (map, symbols)
  end.
Definition new_transducer (weighted : bool) (f : vfst_file) : io transducer :=
  x <~ construct (transducer_constructor weighted f) ;;
  ret (mkTransducer (fst x) (fst (snd x)) (snd (snd x))).
(** [Transducer::terminate], fst/Transducer.cpp:189-196 *)
Definition terminate_transducer (t : transducer) : io unit := delete (t_map t).
(** [~UnweightedTransducer], fst/UnweightedTransducer.cpp:191-195, and the same for
    weighted ones *)
Definition delete_transducer (t : transducer) : io unit := deletes (t_symbols t) ;~ delete (t_object t).

(** The files beside the dictionary: mor.vfst, autocorr.vfst, spl.vfst, err.vfst and
    whether the archive of HFST can be read. *)
Record files : Type := mkFiles { f_mor : vfst_file; f_autocorr : vfst_file; f_spl : vfst_file; f_err : vfst_file; f_zhfst : bool }.
(** How the library was built: HAVE_HFST and HAVE_EXPERIMENTAL_VFST (HAVE_VFST is
    taken for granted). *)
Record build : Type := mkBuild { have_hfst : bool; have_experimental : bool }.

(** ** Analyzers *)

(** Objects with what they own; a [Configuration] (fst/Configuration.cpp:38-66) is
    counted as one block with its arrays. *)
Inductive analyzer : Type :=
| NullAnalyzer (o : nat)
| VfstAnalyzer (o : nat) (t : transducer) (configuration outputBuffer : nat).
Definition analyzer_object (a : analyzer) : nat := match a with NullAnalyzer o => o | VfstAnalyzer o _ _ _ => o end.

(** [FinnishVfstAnalyzer], morphology/FinnishVfstAnalyzer.cpp:51-55, and
    [VfstAnalyzer], morphology/VfstAnalyzer.cpp:54-60 *)
Definition new_vfst_analyzer (weighted : bool) (f : files) : io analyzer :=
  x <~ construct (t <~ new_transducer weighted (f_mor f) ;; c <~ new ;; b <~ new ;; ret (t, c, b)) ;;
  let '(o, (t, c, b)) := x in ret (VfstAnalyzer o t c b).

(** [AnalyzerFactory::getAnalyzer], morphology/AnalyzerFactory.cpp:50-77 *)
Definition getAnalyzer (b : build) (d : dictionary) (f : files) : io analyzer :=
  if zlist_eqb (morBackend d) (wstr "null") then o <~ new ;; ret (NullAnalyzer o)
  else if have_experimental b && zlist_eqb (morBackend d) (wstr "vfst") then new_vfst_analyzer true f
  else if zlist_eqb (morBackend d) (wstr "finnishVfst") then new_vfst_analyzer false f
  else if have_hfst b && zlist_eqb (morBackend d) (wstr "hfst") then undefined
  else throw (wstr "Failed to create analyzer because of unknown morphology backend").

(** [terminate]: morphology/NullAnalyzer.cpp:47, FinnishVfstAnalyzer.cpp:1172-1177,
    VfstAnalyzer.cpp:103-108 *)
Definition terminate_analyzer (a : analyzer) : io unit :=
  match a with
  | NullAnalyzer _ => ret tt
  | VfstAnalyzer _ t c b => delete b ;~ delete c ;~ terminate_transducer t ;~ delete_transducer t
  end.
Definition delete_analyzer (a : analyzer) : io unit := delete (analyzer_object a).

(** ** Spellers *)

(** The last argument of the first two is the analyzer they use. *)
Inductive speller : Type :=
| AnalyzerSpeller (o : nat) (uses : nat)
| TweaksWrapper (o : nat) (inner hyphenator : nat) (uses : nat)
| FixedSpeller (o : nat)
| HfstSpeller (o : nat) (library : nat)
| VfstSpeller (o : nat) (t : transducer) (configuration outputBuffer : nat).

(** [SpellerFactory::getSpeller], spellchecker/SpellerFactory.cpp:48-73, with
    [FinnishSpellerTweaksWrapper.cpp:42-51], [HfstSpeller.cpp:46-54] and
    [VfstSpeller.cpp:43-48] *)
Definition getSpeller (b : build) (d : dictionary) (f : files) (currentAnalyzer : analyzer) : io speller :=
  let s := spellBackend d in
  let uses := analyzer_object currentAnalyzer in
  if zlist_eqb s (wstr "AnalyzerToSpellerAdapter(currentAnalyzer)") then o <~ new ;; ret (AnalyzerSpeller o uses)
  else if zlist_eqb s (wstr "FinnishSpellerTweaksWrapper(AnalyzerToSpellerAdapter(currentAnalyzer),currentAnalyzer)") then
    inner <~ new ;; x <~ construct new ;; ret (TweaksWrapper (fst x) inner (snd x) uses)
  else if zlist_eqb s (wstr "AllOk") then o <~ new ;; ret (FixedSpeller o)
  else if zlist_eqb s (wstr "AllError") then o <~ new ;; ret (FixedSpeller o)
  else if have_hfst b && zlist_eqb s (wstr "hfst") then
    x <~ construct (library <~ new ;; if f_zhfst f then ret library else throw (wstr "Error reading ZHFST speller")) ;;
    ret (HfstSpeller (fst x) (snd x))
  else if have_experimental b && zlist_eqb s (wstr "vfst") then
    x <~ construct (t <~ new_transducer true (f_spl f) ;; c <~ new ;; b <~ new ;; ret (t, c, b)) ;;
    let '(o, (t, c, b)) := x in ret (VfstSpeller o t c b)
  else throw (wstr "Failed to create speller because backend configuration could not be parsed").

(** [terminate]: AnalyzerToSpellerAdapter.cpp:67, FinnishSpellerTweaksWrapper.cpp:218-221,
    FixedResultSpeller.cpp:42, HfstSpeller.cpp:92-97, VfstSpeller.cpp:78-83 *)
Definition terminate_speller (s : speller) : io unit :=
  match s with
  | AnalyzerSpeller _ _ => ret tt
  | TweaksWrapper _ inner hyphenator _ => delete hyphenator ;~ delete inner
  | FixedSpeller _ => ret tt
  | HfstSpeller _ library => delete library
  | VfstSpeller _ t c b => delete b ;~ delete c ;~ terminate_transducer t ;~ delete_transducer t
  end.
Definition delete_speller (s : speller) : io unit :=
  match s with
  | AnalyzerSpeller o _ | TweaksWrapper o _ _ _ | FixedSpeller o | HfstSpeller o _ | VfstSpeller o _ _ _ => delete o
  end.

(** ** Suggestion generators *)

Inductive suggestion : Type :=
| Strategy (o : nat) (primaryGenerators generators : list nat) (uses : nat)
| NullGenerator (o : nat)
| HfstSuggestion (o : nat) (uses : nat)
| VfstSuggestion (o : nat) (errorModel : transducer) (acceptorConf errorModelConf acceptorBuffer errorModelBuffer : nat) (uses : nat).

(** [SuggestionGeneratorFactory::getSuggestionGenerator],
    spellchecker/suggestion/SuggestionGeneratorFactory.cpp:49-83, with the numbers of
    generators in SuggestionStrategyOcr.cpp:52-61 and SuggestionStrategyTyping.cpp:103-143,
    and VfstSuggestion.cpp:52-61 *)
Definition getSuggestionGenerator (b : build) (d : dictionary) (f : files) (morAnalyzer : analyzer) (s : speller) (ocr : bool) : io suggestion :=
  let backend := suggestionBackend d in
  if zlist_eqb backend (wstr "FinnishSuggestionStrategy(currentAnalyzer)") then
    x <~ construct (p <~ news (if ocr then 1 else 2)%nat ;; g <~ news (if ocr then 2 else 17)%nat ;; ret (p, g)) ;;
    ret (Strategy (fst x) (fst (snd x)) (snd (snd x)) (analyzer_object morAnalyzer))
  else if zlist_eqb backend (wstr "null") then o <~ new ;; ret (NullGenerator o)
  else if have_hfst b && zlist_eqb backend (wstr "hfst") then
    match s with
    | HfstSpeller _ library => o <~ new ;; ret (HfstSuggestion o library)
    | _ => throw (wstr "HFST suggestion generator works only with HFST speller")
    end
  else if have_experimental b && zlist_eqb backend (wstr "vfst") then
    match s with
    | VfstSpeller _ acceptor _ _ =>
        x <~ construct (errorModel <~ new_transducer true (f_err f) ;; l <~ news 4 ;; ret (errorModel, l)) ;;
        match x with
        | (o, (errorModel, [ac; ec; ab; eb])) => ret (VfstSuggestion o errorModel ac ec ab eb (t_object acceptor))
        | _ => undefined
        end
    | _ => throw (wstr "VFST suggestion generator works only with VFST speller")
    end
  else throw (wstr "Failed to create suggestion generator because of unknown suggestion generator backend").

(** [terminate]: suggestion/SuggestionGenerator.hpp:40, HfstSuggestion.cpp:83-85,
    VfstSuggestion.cpp:104-111 *)
Definition terminate_suggestion (g : suggestion) : io unit :=
  match g with
  | Strategy _ _ _ _ | NullGenerator _ | HfstSuggestion _ _ => ret tt
  | VfstSuggestion _ em ac ec ab eb _ =>
      delete eb ;~ delete ab ;~ delete ec ;~ delete ac ;~ terminate_transducer em ;~ delete_transducer em
  end.
(** [delete], with [~SuggestionStrategy], SuggestionStrategy.cpp:38-47 *)
Definition delete_suggestion (g : suggestion) : io unit :=
  match g with
  | Strategy o p l _ => deletes l ;~ deletes p ;~ delete o
  | NullGenerator o | HfstSuggestion o _ | VfstSuggestion o _ _ _ _ _ _ => delete o
  end.

(** ** Hyphenators *)

Record hyphenator : Type := mkHyphenator { hy_object : nat; hy_uses : nat }.
(** [HyphenatorFactory::getHyphenator], hyphenator/HyphenatorFactory.cpp:40-53 *)
Definition getHyphenator (b : build) (d : dictionary) (morAnalyzer : analyzer) : io hyphenator :=
  if zlist_eqb (hyphenatorBackend d) (wstr "AnalyzerToFinnishHyphenatorAdapter(currentAnalyzer)") then
    o <~ new ;; ret (mkHyphenator o (analyzer_object morAnalyzer))
  else if have_hfst b && zlist_eqb (hyphenatorBackend d) (wstr "hfst") then undefined
  else throw (wstr "Could not create hyphenator due to unknown hyphenator backend").
(** [terminate], AnalyzerToFinnishHyphenatorAdapter.cpp:144 *)
Definition terminate_hyphenator (y : hyphenator) : io unit := ret tt.
Definition delete_hyphenator (y : hyphenator) : io unit := delete (hy_object y).

(** ** Grammar checkers *)

Inductive sentence_check : Type :=
| PlainCheck (o : nat)
| AutocorrectCheck (o : nat) (t : transducer) (configuration inputBuffer outputBuffer : nat).
Record grammar : Type := mkGrammar { g_object : nat; g_engine : nat; g_checks : list sentence_check; g_analyser : nat }.

(** [FinnishRuleEngine::FinnishRuleEngine], grammar/FinnishRuleEngine.cpp:46-60, and
    [VfstAutocorrectCheck], grammar/FinnishRuleEngine/VfstAutocorrectCheck.cpp:42-47 *)
Definition rule_engine_constructor (d : dictionary) (f : files) : io (list sentence_check) :=
  plain <~ news 5 ;;
  if zlist_eqb (grammarBackend d) (wstr "finnishVfst") then
    x <~ construct (t <~ new_transducer false (f_autocorr f) ;; c <~ new ;; i <~ new ;; o <~ new ;; ret (t, c, i, o)) ;;
    let '(obj, (t, c, i, o)) := x in ret (map PlainCheck plain ++ [AutocorrectCheck obj t c i o])
  else ret (map PlainCheck plain).

(** [GrammarCheckerFactory::getGrammarChecker], grammar/GrammarCheckerFactory.cpp:40-58,
    with FinnishGrammarChecker.cpp:37-40 and NullGrammarChecker.cpp:54-57 *)
Definition getGrammarChecker (d : dictionary) (f : files) : io grammar :=
  let g := grammarBackend d in
  if zlist_eqb g (wstr "null") then
    x <~ construct (e <~ new ;; a <~ new ;; ret (e, a)) ;;
    ret (mkGrammar (fst x) (fst (snd x)) [] (snd (snd x)))
  else if zlist_eqb g (wstr "finnish") || zlist_eqb g (wstr "finnishVfst") then
    x <~ construct (e <~ construct (rule_engine_constructor d f) ;; a <~ new ;; ret (e, a)) ;;
    let '(o, ((e, checks), a)) := x in ret (mkGrammar o e checks a)
  else throw (wstr "Failed to create checker because of unknown grammar backend").

(** [~VfstAutocorrectCheck], VfstAutocorrectCheck.cpp:49-57 *)
Definition delete_check (c : sentence_check) : io unit :=
  match c with
  | PlainCheck o => delete o
  | AutocorrectCheck obj t c i o => delete o ;~ delete i ;~ delete c ;~ terminate_transducer t ;~ delete_transducer t ;~ delete obj
  end.
Fixpoint delete_checks (l : list sentence_check) : io unit :=
  match l with [] => ret tt | c :: r => delete_check c ;~ delete_checks r end.
(** [~FinnishGrammarChecker], FinnishGrammarChecker.cpp:43-46, [~NullGrammarChecker],
    NullGrammarChecker.cpp:59-62, and [~FinnishRuleEngine], FinnishRuleEngine.cpp:62-67 *)
Definition delete_grammar (g : grammar) : io unit :=
  delete (g_analyser g) ;~ delete_checks (g_checks g) ;~ delete (g_engine g) ;~ delete (g_object g).

(** ** The handle *)

(** [SpellerCache], spellchecker/SpellerCache.cpp:68-78, with its two arrays *)
Record speller_cache : Type := mkCache { c_object : nat; c_words : nat; c_results : nat; c_size : Z }.
Definition new_cache (size : Z) : io speller_cache :=
  x <~ construct (w <~ new ;; r <~ new ;; ret (w, r)) ;;
  ret (mkCache (fst x) (fst (snd x)) (snd (snd x)) size).
Definition delete_cache (c : speller_cache) : io unit := delete (c_results c) ;~ delete (c_words c) ;~ delete (c_object c).

(** [VoikkoHandle], setup/setup.hpp:49-69, the components *)
Record vhandle : Type := mkHandle {
  v_object : nat;
  v_dictionary : dictionary;
  v_analyzer : analyzer;
  v_speller : speller;
  v_suggestion : suggestion;
  v_hyphenator : hyphenator;
  v_grammar : grammar;
  v_cache : option speller_cache
}.

(** [if (p) ...] *)
Definition if_set {A} (o : option A) (k : A -> io unit) : io unit := match o with Some a => k a | None => ret tt end.

(** The handler of [voikkoInit], setup/setup.cpp:207-228, with the components that
    have been made.  [delete] of a null pointer does nothing. *)
Definition give_up (object : nat) (a : option analyzer) (s : option speller) (g : option suggestion) (y : option hyphenator)
    (e : list Z) : io (vhandle + list Z) :=
  if_set y (fun y => terminate_hyphenator y ;~ delete_hyphenator y) ;~
  if_set g delete_suggestion ;~
  if_set s (fun s => terminate_speller s ;~ delete_speller s) ;~
  if_set a (fun a => terminate_analyzer a ;~ delete_analyzer a) ;~
  delete object ;~
  ret (inr e).

(** [voikkoInit], setup/setup.cpp:163-233: a handle, or a null pointer and a
    message.  [loaded] is the result of [DictionaryFactory::load]: a dictionary or
    the message of its exception. *)
Definition voikkoInit (b : build) (loaded : dictionary + list Z) (f : files) : io (vhandle + list Z) :=
  object <~ new ;;
  match loaded with
  | inr e => give_up object None None None None e
  | inl d =>
      attempt (getAnalyzer b d f) (fun a =>
      attempt (getSpeller b d f a) (fun s =>
      attempt (getSuggestionGenerator b d f a s false) (fun g =>
      attempt (getHyphenator b d a) (fun y =>
      attempt (getGrammarChecker d f) (fun c =>
        cache <~ new_cache 0 ;;
        ret (inl (mkHandle object d a s g y c (Some cache))))
        (give_up object (Some a) (Some s) (Some g) (Some y)))
        (give_up object (Some a) (Some s) (Some g) None))
        (give_up object (Some a) (Some s) None None))
        (give_up object (Some a) None None None))
        (give_up object None None None None)
  end.

(** [voikkoTerminate], setup/setup.cpp:235-247 *)
Definition voikkoTerminate (v : vhandle) : io unit :=
  delete_grammar (v_grammar v) ;~
  terminate_hyphenator (v_hyphenator v) ;~
  delete_hyphenator (v_hyphenator v) ;~
  terminate_suggestion (v_suggestion v) ;~
  delete_suggestion (v_suggestion v) ;~
  terminate_speller (v_speller v) ;~
  delete_speller (v_speller v) ;~
  terminate_analyzer (v_analyzer v) ;~
  delete_analyzer (v_analyzer v) ;~
  if_set (v_cache v) delete_cache ;~
  delete (v_object v).

(** The options that replace components; an exception leaves the function, the
    handle keeps the pointer to the deleted generator. *)
Inductive setting : Type :=
| SetOcr (value : bool) (f : files)    (* with the files at that time *)
| SetCacheSize (value : Z).

(** [voikkoSetBooleanOption], setup/setup.cpp:98-107 *)
Definition set_ocr (b : build) (v : vhandle) (value : bool) (f : files) : io vhandle :=
  delete_suggestion (v_suggestion v) ;~
  g <~ getSuggestionGenerator b (v_dictionary v) f (v_analyzer v) (v_speller v) value ;;
  ret (mkHandle (v_object v) (v_dictionary v) (v_analyzer v) (v_speller v) g (v_hyphenator v) (v_grammar v) (v_cache v)).

(** [voikkoSetIntegerOption], setup/setup.cpp:143-159 *)
Definition set_cache_size (v : vhandle) (value : Z) : io vhandle :=
  let with_cache c := mkHandle (v_object v) (v_dictionary v) (v_analyzer v) (v_speller v) (v_suggestion v) (v_hyphenator v) (v_grammar v) c in
  match v_cache v with
  | Some c =>
      if negb (c_size c =? value) then
        delete_cache c ;~
        if value >=? 0 then n <~ new_cache value ;; ret (with_cache (Some n)) else ret (with_cache None)
      else ret v
  | None => if value >=? 0 then n <~ new_cache value ;; ret (with_cache (Some n)) else ret v
  end.
Definition set_option (b : build) (v : vhandle) (s : setting) : io vhandle :=
  match s with
  | SetOcr value f => set_ocr b v value f
  | SetCacheSize value => set_cache_size v value
  end.
