(** * The grammar checker interface.

    Models [grammar/GrammarChecker.cpp], [grammar/interface.cpp] and
    [grammar/error.cpp]. *)
From Verif Require Import Base CharModel TokenModel SpellerBase SentenceModel AnalysisModel AnalyzerBase Utf8Model
  CacheModel GcCacheModel HandleModel ParaModel RulesModel.

(** What the grammar checker takes from the dictionary: the speller used by
    the sentence splitter, the analyser and the autocorrect transducer, if any. *)
Record gc_backend : Type := mk_backend {
  b_speller : speller;
  b_analyzer : analyzer;
  b_autocorrect : option prefix_lookup
}.

Definition gc_options_of (h : handle) : gc_options :=
  mk_gc_options (accept_titles_in_gc h) (accept_unfinished_paragraphs_in_gc h) (accept_bulleted_lists_in_gc h).

Definition with_gcCache (h : handle) (g : gc_cache) : handle :=
  with_gc_options h (accept_titles_in_gc h) (accept_unfinished_paragraphs_in_gc h) (accept_bulleted_lists_in_gc h) g.

(** [wcscmp(a, b) == 0]: both buffers are read up to the first difference or
    NUL. *)
Fixpoint wcscmp_eq (a b : list Z) : res bool :=
  match a, b with
  | x :: a', y :: b' => if negb (x =? y) then Ok false else if x =? 0 then Ok true else wcscmp_eq a' b'
  | _, _ => UB
  end.

(** The loop of [errorFromCache], grammar/GrammarChecker.cpp:51-58. *)
Fixpoint error_loop (l : list gc_error) (preverrors skiperrors : Z) (start : nat) : option gc_error :=
  match l with
  | [] => None
  | e :: r =>
      if (skiperrors <=? preverrors) && (start <=? startpos e)%nat then Some e
      else error_loop r (preverrors + 1) skiperrors start
  end.

Inductive cache_answer : Type := NOT_CACHED | NO_GRAMMAR_ERROR | FOUND (e : gc_error).

(** [GrammarChecker::errorFromCache], grammar/GrammarChecker.cpp:42-60; [buf] is
    the buffer behind the text pointer. *)
Definition errorFromCache (g : gc_cache) (buf : list Z) (start : nat) (skiperrors : Z) : res cache_answer :=
  match paragraph g with
  | None => Ok NOT_CACHED
  | Some p =>
      same <- wcscmp_eq p buf ;;
      if (same : bool) then
        Ok match error_loop (errors g) 0 skiperrors start with Some e => FOUND e | None => NO_GRAMMAR_ERROR end
      else Ok NOT_CACHED
  end.

(** Is the paragraph checked at all?  grammar/GrammarChecker.cpp:75-96. *)
Definition worth_checking (p : list gsentence) : bool :=
  match p with
  | [s] =>
      if existsb is_space (s_tokens s) then true
      else negb ((2 <? length (s_tokens s))%nat || Nat.eqb (length (s_tokens s)) 0 ||
                 match s_tokens s with t :: _ => negb (is_wordt t) | [] => true end)
  | _ => true
  end.

(** The errors of a text in the order in which the rules report them:
    grammar/GrammarChecker.cpp:70-99. *)
Definition find_errors (b : gc_backend) (o : gc_options) (ignore_dot : bool) (text : list Z) : res (list gc_error) :=
  para <- analyseParagraph (b_speller b) (b_analyzer b) ignore_dot text ;;
  match para with
  | None => Ok []
  | Some p => if worth_checking p then rule_engine (b_autocorrect b) o p else Ok []
  end.

(** [GrammarChecker::paragraphToCache], grammar/GrammarChecker.cpp:62-100. *)
Definition paragraphToCache (b : gc_backend) (h : handle) (buf : list Z) (textlen : nat) : res gc_cache :=
  if (length buf <? textlen)%nat then UB
  else
    l <- find_errors b (gc_options_of h) (ignore_dot h) (firstn textlen buf) ;;
    Ok (mk_gc_cache (Some (firstn textlen buf ++ [0])) (fold_left append_error l [])).

(** [voikkoNextGrammarErrorUcs4], grammar/interface.cpp:40-74, for a non-NULL
    text: the error returned (a deep copy; [None] is NULL) and the new handle. *)
Definition voikkoNextGrammarErrorUcs4 (b : gc_backend) (h : handle) (buf : list Z) (wtextlen start : nat) (skiperrors : Z)
    : res (option gc_error * handle) :=
  if Nat.eqb wtextlen 0 then Ok (None, h)
  else
    let answer a := match a with
                    | FOUND e => if error_code e =? 0 then None else Some e
                    | _ => None
                    end in
    a <- errorFromCache (gcCache h) buf start skiperrors ;;
    match a with
    | NOT_CACHED =>
        g <- paragraphToCache b h buf wtextlen ;;
        a <- errorFromCache g buf start skiperrors ;;
        Ok (answer a, with_gcCache h g)
    | _ => Ok (answer a, h)
    end.

(** [voikkoNextGrammarErrorCstr], grammar/interface.cpp:76-93, for a non-NULL
    text of [textlen] bytes.  The converted text ends with a NUL that does not
    belong to it. *)
Definition voikkoNextGrammarErrorCstr (b : gc_backend) (h : handle) (bytes : list Z) (start : nat) (skiperrors : Z)
    : res (option gc_error * handle) :=
  if Nat.eqb (length bytes) 0 then Ok (None, h)
  else
    o <- ucs4FromUtf8 bytes ;;
    match o with
    | None => Ok (None, h)
    | Some w => voikkoNextGrammarErrorUcs4 b h (w ++ [0]) (length (cstr w)) start skiperrors
    end.

(** UTF-8 bytes in string literals below are written as separate characters. *)
Definition bytes (l : list (list Z)) : list Z := concat l.
Definition ae : list Z := [0xC3; 0xA4].

(** [voikko_error_message_cstr], grammar/error.cpp:37-121: only the first two
    characters of the language are compared. *)
Definition voikko_error_message_cstr (error_code : Z) (language : list Z) : list Z :=
  if starts_with (wstr "fi") language then
    match error_code with
    | 1 => wstr "Virheellinen kirjoitusasu"
    | 2 => bytes [wstr "Poista ylim"; ae; ae; wstr "r"; ae; wstr "inen v"; ae; wstr "li."]
    | 3 => bytes [wstr "Ylim"; ae; ae; wstr "r"; ae; wstr "inen v"; ae; wstr "li v"; ae; wstr "limerkin edess"; ae]
    | 4 => bytes [wstr "Poista ylim"; ae; ae; wstr "r"; ae; wstr "inen pilkku."]
    | 5 => wstr "Virheellinen virkkeen aloittava merkki"
    | 6 => bytes [wstr "Harkitse sanan kirjoittamista pienell"; ae; wstr " alkukirjaimella."]
    | 7 => wstr "Sana on kirjoitettava isolla alkukirjaimella."
    | 8 => wstr "Sana on kirjoitettu kahteen kertaan."
    | 9 => bytes [wstr "V"; ae; wstr "limerkki puuttuu virkkeen lopusta."]
    | 10 => bytes [wstr "Virheelliset v"; ae; wstr "limerkit lainauksen lopussa"]
    | 11 => wstr "Suomenkieliseen tekstiin sopimaton lainausmerkki"
    | 12 => bytes [wstr "V"; ae; ae; wstr "rin sijoitettu sulkumerkki"]
    | 13 => bytes [wstr "Kieltoverbi ja p"; ae; ae; wstr "verbi eiv"; ae; wstr "t sovi yhteen."]
    | 14 => bytes [wstr "J"; ae; wstr "lkimm"; ae; wstr "isen verbin tulisi olla a/"; ae; wstr "-p"; ae; ae;
                   wstr "tteisess"; ae; wstr " infinitiiviss"; ae; wstr "."]
    | 15 => bytes [wstr "J"; ae; wstr "lkimm"; ae; wstr "isen verbin tulisi olla maan/m"; ae; ae; wstr "n-p"; ae; ae;
                   wstr "tteisess"; ae; wstr " infinitiiviss"; ae; wstr "."]
    | 16 => wstr "Sidesana (ja, tai, mutta, ...) ei voi olla virkkeen viimeinen sana."
    | 17 => bytes [wstr "Tarkista, puuttuuko virkkeest"; ae; wstr " p"; ae; ae; wstr "verbi tai -verbej"; ae; wstr "."]
    | 18 => bytes [wstr "Virkkeest"; ae; wstr " saattaa puuttua pilkku, tai siin"; ae; wstr " voi olla ylim"; ae; ae;
                   wstr "r"; ae; wstr "inen verbi."]
    | _ => wstr "Tuntematon virhe"
    end
  else
    match error_code with
    | 1 => wstr "Incorrect spelling of word(s)"
    | 2 => wstr "Remove extra space."
    | 3 => wstr "Remove space before punctuation."
    | 4 => wstr "Remove extra comma."
    | 5 => wstr "Invalid character at the start of a sentence"
    | 6 => wstr "Consider changing first letter to lower case."
    | 7 => wstr "Change first letter to upper case."
    | 8 => wstr "Remove duplicate word."
    | 9 => wstr "Terminating punctuation is missing."
    | 10 => wstr "Invalid punctuation at the end of quotation"
    | 11 => wstr "Foreign quotation mark"
    | 12 => wstr "Misplaced closing parenthesis"
    | 13 => wstr "Mismatched negative and verb"
    | 14 => bytes [wstr "You should use infinitive ending with a/"; ae; wstr " as the second verb."]
    | 15 => bytes [wstr "You should use infinitive ending with maan/m"; ae; ae; wstr "n as the second verb."]
    | 16 => wstr "Sentence should not end with a conjunction."
    | 17 => wstr "Sentence should contain one or more main verbs."
    | 18 => wstr "Check if sentence contains unnecessary verbs or if a comma is missing."
    | _ => wstr "Unknown error"
    end.

(** [voikkoGetGrammarErrorShortDescription], grammar/error.cpp:123-125. *)
Definition grammar_error_description (e : gc_error) (language : list Z) : list Z :=
  voikko_error_message_cstr (error_code e) language.
