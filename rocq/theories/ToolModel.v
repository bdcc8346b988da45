(** * The command line tools voikkospell, voikkohyphenate and voikkogc.

    Models [tools/voikkospell.cpp], [tools/voikkohyphenate.cpp] and
    [tools/voikkogc.cpp] for command lines that have been parsed: the options are
    records.  The conversion of a line of standard input by [mbsrtowcs], which
    depends on the locale, is a function from bytes to wide characters ([None]
    for an error) wherever it is needed.  Standard output is the list of the
    characters written to it.  The end of a line written by [endl] is the
    character 10. *)
From Verif Require Import Base CharModel SpellerBase HandleModel Utf8Model TokenModel SentenceModel SpellModel AnalysisModel AnalyzerBase
  HyphModel SuggestModel RulesModel GrammarModel GcCacheModel.
From Coq Require Import DecimalString.

Definition endl : list Z := [10].

(** Numbers written to a stream: decimal digits. *)
Definition decimal (n : nat) : list Z := wstr (NilZero.string_of_uint (Nat.to_uint n)).

(** ** voikkospell *)

(** [CheckMode], tools/voikkospell.cpp:50. *)
Inductive check_mode : Type := MODE_NORMAL | MODE_ONLY_C_W | MODE_ONLY_INCORRECT | MODE_NONE.

(** The static variables of tools/voikkospell.cpp:55-60. *)
Record spell_config : Type := mk_spell_config {
  checkMode : check_mode;
  suggest : bool;
  morphology : bool;
  oneLineOutput : bool;
  wordSeparator : Z;
  space : bool
}.

(** What a handle gives access to: the dictionary, the suggestion generators
    for either value of OCR_SUGGESTIONS and the analyser. *)
Record library : Type := mk_library {
  lib_spell : env;
  lib_generate : bool -> status -> res status;
  lib_analyzer : analyzer
}.

(** The lines for the keys of one analysis, tools/voikkospell.cpp:75-82.  The
    keys are those of [present_keys], in that order; a value that does not exist
    would be a NULL pointer written to the stream. *)
Fixpoint print_keys (word : list Z) (number : nat) (a : analysis) (ks : list Key) : res (list Z) :=
  match ks with
  | [] => Ok []
  | k :: r =>
      name <- rd KEY_TO_STRING (key_int k) ;;
      match a k with
      | None => UB
      | Some v =>
          t <- print_keys word number a r ;;
          Ok (wstr "A(" ++ word ++ wstr "):" ++ decimal number ++ wstr ":" ++ wstr name ++ wstr "=" ++ v ++ endl ++ t)
      end
  end.

(** The keys of an analysis, see [present_keys] in AnalysisModel. *)
Definition keys_of (a : analysis) : list Key :=
  filter (fun k => match a k with Some _ => true | None => false end) all_keys.

Fixpoint print_analyses (word : list Z) (number : nat) (l : list analysis) : res (list Z) :=
  match l with
  | [] => Ok []
  | a :: r => s <- print_keys word number a (keys_of a) ;; t <- print_analyses word (S number) r ;; Ok (s ++ t)
  end.

(** [printMorphology], tools/voikkospell.cpp:70-85;
    [voikkoAnalyzeWordUcs4], morphology/interface.cpp:42-58, asks for full
    morphology. *)
Definition printMorphology (lib : library) (word : list Z) : res (list Z) :=
  print_analyses word 1 (lib_analyzer lib true word).

(** [check_word], tools/voikkospell.cpp:87-151: what is written to [out] and the
    handle afterwards.  (Error messages to standard error are left out.) *)
Definition check_word (lib : library) (cfg : spell_config) (h : handle) (word : list Z) : res (list Z * handle) :=
  '(result, h) <- match checkMode cfg with
                  | MODE_NONE => Ok (VOIKKO_SPELL_OK, h)
                  | _ => voikkoSpellUcs4 (lib_spell lib) h word
                  end ;;
  if (result =? VOIKKO_CHARSET_CONVERSION_FAILED) || (result =? VOIKKO_INTERNAL_ERROR) then Ok ([], h)
  else
    let good := negb (result =? 0) in
    let suggestions := voikkoSuggestUcs4 (lib_generate lib (ocrSuggestions h)) h word in
    verdict <- (if oneLineOutput cfg then
                  s <- (if good then Ok []
                        else o <- suggestions ;;
                             Ok (match o with
                                 | None => []
                                 | Some l =>
                                     concat (map (fun x => if space cfg || negb (mem 0x20 x) then wordSeparator cfg :: x else []) l)
                                 end)) ;;
                  Ok (word ++ s ++ endl)
                else
                  Ok (match checkMode cfg with
                      | MODE_NORMAL => (if good then wstr "C: " else wstr "W: ") ++ word ++ endl
                      | MODE_ONLY_C_W => (if good then wstr "C" else wstr "W") ++ endl
                      | MODE_ONLY_INCORRECT => if good then [] else word ++ endl
                      | MODE_NONE => []
                      end)) ;;
    analyses <- (if morphology cfg && good then printMorphology lib word else Ok []) ;;
    more <- (if negb (oneLineOutput cfg) && suggest cfg && negb good then
               o <- suggestions ;;
               Ok (match o with
                   | None => []
                   | Some l => concat (map (fun x => wstr "S: " ++ x ++ endl) l)
                   end)
             else Ok []) ;;
    Ok (verdict ++ analyses ++ more, h).

(** The loop that reads standard input, tools/voikkospell.cpp:490-509 (the same
    as tools/voikkohyphenate.cpp:157-176): the words passed to [handleWord].
    [dec] is the conversion of a line; the words longer than 255 characters are
    only reported on standard error. *)
Fixpoint read_words (dec : list Z -> option (list Z)) (lines : list (list Z)) : list (list Z) :=
  match lines with
  | [] => []
  | line :: r =>
      if Nat.eqb (length line) 0 then read_words dec r
      else match dec line with
           | None => read_words dec r
           | Some w => if (255 <? length w)%nat then read_words dec r else w :: read_words dec r
           end
  end.

(** [handleWordSingleThread] for all words, tools/voikkospell.cpp:235-240; also
    the words of one block in [processBlock], lines 155-165.  [chk] is
    [check_word] with the options of the program. *)
Fixpoint check_words {H} (chk : H -> list Z -> res (list Z * H)) (h : H) (ws : list (list Z)) : res (list Z * H) :=
  match ws with
  | [] => Ok ([], h)
  | w :: r => '(o, h) <- chk h w ;; '(t, h) <- check_words chk h r ;; Ok (o ++ t, h)
  end.

(** *** The threads of voikkospell -j *)

(** [WORDS_PER_BLOCK], tools/voikkospell.cpp:53. *)
Definition WORDS_PER_BLOCK : nat := 500.

(** An element of the array [threads], tools/voikkospell.cpp:167: never written;
    a thread that has still to check [todo] and has collected [out] (in
    [processBlock], lines 155-165); a thread that has ended with the text [out];
    a thread that has been joined.  The words of the thread and the handle it
    uses belong to the element of [spellers] with the same index. *)
Inductive slot : Type :=
| SLOT_UNUSED
| SLOT_RUNNING (todo : list (list Z)) (out : list Z)
| SLOT_ENDED (out : list Z)
| SLOT_JOINED.

(** Where the main thread is: in the loop of [main] that reads words; in
    [queueNextBlock] (the argument tells whether it has been called from
    [finishProcessing]), in the call of [cleanupThread] there, before the call of
    [pthread_create] there; in the loop of [finishProcessing], in [cleanupThread]
    there; after [finishProcessing].  [AT_FAULT]: something undefined has been
    done. *)
Inductive position : Type :=
| AT_READ
| AT_QUEUE (last : bool)
| AT_CLEANUP (last : bool)
| AT_CREATE (last : bool)
| AT_FINISH
| AT_FINISH_CLEANUP
| AT_END
| AT_FAULT.

(** All threads together.  [input] is what the main thread has still to read
    (see [read_words]); [nextBlock], [nextThread], [nThreadsInUse] and [threads]
    are the variables of tools/voikkospell.cpp:167-170; [handles] are the handles
    in [spellers]; [output] is standard output. *)
Record machine (H : Type) : Type := mk_machine {
  at_ : position;
  input : list (list Z);
  nextBlock : list (list Z);
  nextThread : nat;
  nThreadsInUse : nat;
  threads : list slot;
  handles : list H;
  output : list Z
}.
Arguments mk_machine {H}. Arguments at_ {H}. Arguments input {H}. Arguments nextBlock {H}. Arguments nextThread {H}.
Arguments nThreadsInUse {H}. Arguments threads {H}. Arguments handles {H}. Arguments output {H}.

Definition go {H} (m : machine H) (p : position) : machine H :=
  mk_machine p (input m) (nextBlock m) (nextThread m) (nThreadsInUse m) (threads m) (handles m) (output m).

(** [initThreads], tools/voikkospell.cpp:226-233. *)
Definition start {H} (threadCount : nat) (hs : list H) (words : list (list Z)) : machine H :=
  mk_machine AT_READ words [] 0 0 (repeat SLOT_UNUSED threadCount) hs [].

(** [cleanupThread], tools/voikkospell.cpp:177-187.  [None]: the call of
    [pthread_join] has to wait.  Joining something that is not a thread that can
    be joined is undefined. *)
Definition cleanupThread {H} (m : machine H) (k : machine H -> machine H) : option (machine H) :=
  match nth_error (threads m) (nextThread m) with
  | Some (SLOT_RUNNING _ _) => None
  | Some (SLOT_ENDED out) =>
      Some (k (mk_machine (at_ m) (input m) (nextBlock m) (nextThread m) (nThreadsInUse m - 1)
                 (upd (threads m) (nextThread m) SLOT_JOINED) (handles m) (output m ++ out)))
  | _ => Some (go m AT_FAULT)
  end.

Definition advance {H} (threadCount : nat) (m : machine H) : machine H :=
  mk_machine (at_ m) (input m) (nextBlock m) ((nextThread m + 1) mod threadCount) (nThreadsInUse m) (threads m) (handles m) (output m).

(** A step of the main thread: [queueNextBlock], tools/voikkospell.cpp:189-205;
    [handleWordMultiThread], lines 207-212; [finishProcessing], lines 216-224.
    [pthread_create] is taken to succeed.  Overwriting the identifier and the
    words of a thread that has not been joined counts as undefined. *)
Definition main_step {H} (threadCount : nat) (m : machine H) : option (machine H) :=
  let after last := if (last : bool) then AT_FINISH else AT_READ in
  match at_ m with
  | AT_READ =>
      match input m with
      | [] => Some (go m (AT_QUEUE true))
      | w :: r =>
          let b := nextBlock m ++ [w] in
          Some (mk_machine (if Nat.eqb (length b) WORDS_PER_BLOCK then AT_QUEUE false else AT_READ)
                  r b (nextThread m) (nThreadsInUse m) (threads m) (handles m) (output m))
      end
  | AT_QUEUE last =>
      if Nat.eqb (length (nextBlock m)) 0 then Some (go m (after last))
      else if Nat.eqb (nThreadsInUse m) threadCount then Some (go m (AT_CLEANUP last))
      else Some (go m (AT_CREATE last))
  | AT_CLEANUP last => cleanupThread m (fun m => go m (AT_CREATE last))
  | AT_CREATE last =>
      match nth_error (threads m) (nextThread m) with
      | Some SLOT_UNUSED | Some SLOT_JOINED =>
          Some (mk_machine (after last) (input m) [] ((nextThread m + 1) mod threadCount) (nThreadsInUse m + 1)
                  (upd (threads m) (nextThread m) (SLOT_RUNNING (nextBlock m) [])) (handles m) (output m))
      | _ => Some (go m AT_FAULT)
      end
  | AT_FINISH => if (0 <? nThreadsInUse m)%nat then Some (go m AT_FINISH_CLEANUP) else Some (go m AT_END)
  | AT_FINISH_CLEANUP => cleanupThread m (fun m => go (advance threadCount m) AT_FINISH)
  | AT_END | AT_FAULT => None
  end.

(** A step of the thread in slot [i]: [processBlock], lines 155-165.  Nothing
    happens after the end of the program. *)
Definition thread_step {H} (chk : H -> list Z -> res (list Z * H)) (i : nat) (m : machine H) : option (machine H) :=
  let with_slot s hs := mk_machine (at_ m) (input m) (nextBlock m) (nextThread m) (nThreadsInUse m) (upd (threads m) i s) hs (output m) in
  match at_ m with
  | AT_END | AT_FAULT => None
  | _ =>
      match nth_error (threads m) i with
      | Some (SLOT_RUNNING [] out) => Some (with_slot (SLOT_ENDED out) (handles m))
      | Some (SLOT_RUNNING (w :: r) out) =>
          match nth_error (handles m) i with
          | None => Some (go m AT_FAULT)
          | Some h =>
              match chk h w with
              | Ok (o, h') => Some (with_slot (SLOT_RUNNING r (out ++ o)) (upd (handles m) i h'))
              | _ => Some (go m AT_FAULT)
              end
          end
      | _ => None
      end
  end.

(** One step of the program: of the main thread or of any other. *)
Inductive step {H} (threadCount : nat) (chk : H -> list Z -> res (list Z * H)) : machine H -> machine H -> Prop :=
| step_main : forall m m', main_step threadCount m = Some m' -> step threadCount chk m m'
| step_thread : forall i m m', thread_step chk i m = Some m' -> step threadCount chk m m'.

(** ** voikkohyphenate *)

(** The loop of [hyphenateWord], tools/voikkohyphenate.cpp:51-67.  [buffer] is
    [hyphenatedWord], [o] the index [hyphenatedPtr] points at; [result] ends with
    its terminator. *)
Fixpoint hyphenate_loop (word result : list Z) (separator : Z) (n i : nat) (buffer : list Z) (o : nat) : res (list Z * nat) :=
  match n with
  | O => Ok (buffer, o)
  | S n' =>
      r <- rd result i ;;
      '(buffer, o) <- (if negb (r =? 0x20) then b <- wr buffer o separator ;; Ok (b, S o) else Ok (buffer, o)) ;;
      '(buffer, o) <- (if negb (r =? 0x3D) || negb (separator =? 0x2D)
                       then c <- rd word i ;; b <- wr buffer o c ;; Ok (b, S o) else Ok (buffer, o)) ;;
      hyphenate_loop word result separator n' (S i) buffer o
  end.

(** [hyphenateWord], tools/voikkohyphenate.cpp:42-72: the text written to
    standard output ([wcout << hyphenatedWord] stops at a NUL).  The buffer has
    [2 * wlen + 1] characters. *)
Definition hyphenateWord (an : analyzer) (h : handle) (word : list Z) (separator : Z) : res (list Z) :=
  o <- voikkoHyphenateUcs4 an h word ;;
  match o with
  | None => Ok []
  | Some result =>
      '(buffer, o) <- hyphenate_loop (word ++ [0]) (result ++ [0]) separator (length word) 0 (repeat 0 (length word * 2 + 1)) 0 ;;
      buffer <- wr buffer o 0 ;;
      Ok (cstr buffer ++ endl)
  end.

(** The whole program: the words of standard input one after the other. *)
Fixpoint hyphenate_words (an : analyzer) (h : handle) (separator : Z) (ws : list (list Z)) : res (list Z) :=
  match ws with
  | [] => Ok []
  | w :: r => s <- hyphenateWord an h w separator ;; t <- hyphenate_words an h separator r ;; Ok (s ++ t)
  end.

(** ** voikkogc *)

(** [print_tokens], tools/voikkogc.cpp:61-93.  [charsLeft] is the length of the
    text; when a token were longer than that, characters beyond the end would be
    written. *)
Fixpoint print_tokens (fuel : nat) (ignore_dot : bool) (text : list Z) : res (list Z) :=
  match fuel with
  | O => Fuel
  | S fuel =>
      if Nat.eqb (length text) 0 then Ok []
      else
        '(t, n) <- nextToken ignore_dot text ;;
        let line mark :=
          if (length text <? n)%nat then UB
          else s <- print_tokens fuel ignore_dot (skipn n text) ;; Ok (wstr mark ++ wstr ": """ ++ firstn n text ++ wstr """" ++ endl ++ s) in
        match t with
        | TOKEN_WORD => line "W"%string
        | TOKEN_PUNCTUATION => line "P"%string
        | TOKEN_WHITESPACE => line "S"%string
        | TOKEN_UNKNOWN => line "U"%string
        | TOKEN_NONE => Ok (wstr "E: unknown token" ++ [10])
        end
  end.

(** [split_sentences], tools/voikkogc.cpp:96-127.  (The value of [ignore_dot]
    after a call is passed to the next one.)  The rest of the line is written up
    to its terminator. *)
Fixpoint split_sentences (fuel : nat) (spell : speller) (ignore_dot : bool) (text : list Z) : res (list Z) :=
  match fuel with
  | O => Fuel
  | S fuel =>
      if Nat.eqb (length text) 0 then Ok []
      else
        '(t, n, d) <- sentence_next spell ignore_dot text ;;
        let line mark :=
          if (length text <? n)%nat then UB
          else s <- split_sentences fuel spell d (skipn n text) ;; Ok (mark ++ firstn n text ++ endl ++ s) in
        match t with
        | SENTENCE_NONE => Ok (wstr "E: " ++ cstr text ++ endl)
        | SENTENCE_PROBABLE => line (wstr "B: ")
        | SENTENCE_POSSIBLE => line (wstr "P: ")
        | SENTENCE_NO_START => line []
        end
  end.

(** The options of voikkogc, tools/voikkogc.cpp:44 and 202.  The language is the
    one the texts are asked for in. *)
Record gc_config : Type := mk_gc_config {
  printLineNumbersInGc : bool;
  explanation_language : option (list Z)
}.

Fixpoint comma_separated (l : list (list Z)) : list Z :=
  match l with
  | [] => []
  | [x] => wstr """" ++ x ++ wstr """"
  | x :: r => wstr """" ++ x ++ wstr """" ++ wstr "," ++ comma_separated r
  end.

(** The line for one error, tools/voikkogc.cpp:143-170: bytes.  The suggestions
    of the error are bytes. *)
Definition print_error (cfg : gc_config) (e : gc_error) : list Z :=
  wstr "[code=" ++ decimal (Z.to_nat (error_code e)) ++ wstr ", level=0, " ++
  wstr "descr="""", stpos=" ++ decimal (startpos e) ++ wstr ", " ++
  wstr "len=" ++ decimal (errorlen e) ++ wstr ", suggs={" ++ comma_separated (suggestions e) ++ wstr "}]" ++
  match explanation_language cfg with
  | None => []
  | Some lang => wstr " (" ++ voikko_error_message_cstr (error_code e) lang ++ wstr ")"
  end ++ endl.

(** [check_grammar], tools/voikkogc.cpp:130-173.  [lineNumber] is the global
    variable of line 45, which is initialised with 0 and never assigned. *)
Definition lineNumber : nat := 0.

Fixpoint check_grammar (fuel : nat) (b : gc_backend) (cfg : gc_config) (h : handle) (line : list Z) (skiperrors : Z) : res (list Z * handle) :=
  match fuel with
  | O => Fuel
  | S fuel =>
      '(e, h) <- voikkoNextGrammarErrorUcs4 b h (line ++ [0]) (length line) 0 skiperrors ;;
      let prefix := if printLineNumbersInGc cfg then decimal lineNumber ++ wstr " " else [] in
      match e with
      | None => Ok (prefix ++ wstr "-" ++ endl, h)
      | Some e => '(t, h) <- check_grammar fuel b cfg h line (skiperrors + 1) ;; Ok (prefix ++ print_error cfg e ++ t, h)
      end
  end.

(** [MAX_PARAGRAPH_LENGTH], tools/voikkogc.cpp:42, and the loop that reads
    standard input, lines 251-280: the lines passed to [print_tokens],
    [split_sentences] or [check_grammar].  (The comparison is between [size_t]
    and [int].) *)
Definition MAX_PARAGRAPH_LENGTH : nat := 100 * 1000.
Fixpoint read_paragraphs (dec : list Z -> option (list Z)) (lines : list (list Z)) : list (list Z) :=
  match lines with
  | [] => []
  | line :: r =>
      if Nat.eqb (length line) 0 then read_paragraphs dec r
      else match dec line with
           | None => read_paragraphs dec r
           | Some w => if (MAX_PARAGRAPH_LENGTH <? length w)%nat then read_paragraphs dec r else w :: read_paragraphs dec r
           end
  end.

(** The grammar of all paragraphs. *)
Fixpoint check_paragraphs (fuel : nat) (b : gc_backend) (cfg : gc_config) (h : handle) (ps : list (list Z)) : res (list Z * handle) :=
  match ps with
  | [] => Ok ([], h)
  | p :: r => '(s, h) <- check_grammar fuel b cfg h p 0 ;; '(t, h) <- check_paragraphs fuel b cfg h r ;; Ok (s ++ t, h)
  end.
