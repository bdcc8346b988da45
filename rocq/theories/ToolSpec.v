(** * What the command line tools do. *)
From Verif Require Import Base CharModel CharSpec SpellerBase CacheModel HandleModel SpellModel SpellSpec GcCacheModel ToolModel.

(** ** Executions of a program with several threads *)

(** [k] steps lead from one state to another; the threads may be scheduled in
    any way. *)
Inductive runs {H} (threadCount : nat) (chk : H -> list Z -> res (list Z * H)) : nat -> machine H -> machine H -> Prop :=
| runs_0 : forall m, runs threadCount chk 0 m m
| runs_S : forall k a b c, runs threadCount chk k a b -> step threadCount chk b c -> runs threadCount chk (S k) a c.

(** Every execution from [m] comes to an end in a state with property [P], after
    at most [bound] steps: it never gets stuck elsewhere and never goes on
    forever. *)
Definition always_ends {H} (threadCount : nat) (chk : H -> list Z -> res (list Z * H)) (m : machine H) (bound : nat) (P : machine H -> Prop) : Prop :=
  forall k m', runs threadCount chk k m m' ->
    (k <= bound)%nat /\ ((forall m2, ~ step threadCount chk m' m2) -> P m') /\ (P m' -> forall m2, ~ step threadCount chk m' m2).

(** Something that answers [answer w] to the word [w], whatever it has been
    asked before; [fit] says which of its states occur. *)
Definition answers {H} (chk : H -> list Z -> res (list Z * H)) (fit : H -> Prop) (ok : list Z -> Prop) (answer : list Z -> list Z) : Prop :=
  forall h w, fit h -> ok w -> exists h', chk h w = Ok (answer w, h') /\ fit h'.

(** ** Preparing a handle *)

(** A handle as voikkospell prepares it: a new handle, then the size of the cache
    (option 17) and boolean options; no word has been checked. *)
Inductive set_up : handle -> Prop :=
| set_up_new : forall h, voikkoInit = Ok h -> set_up h
| set_up_cache : forall h v r h', set_up h -> v <= 18 -> voikkoSetIntegerOption h 17 v = Ok (r, h') -> set_up h'
| set_up_bool : forall h o b, set_up h -> set_up (snd (voikkoSetBooleanOption h o b)).

(** ** The report of voikkospell on a word *)

Definition unlines (ls : list (list Z)) : list Z := concat (map (fun l => l ++ [10]) ls).

(** The word counts as correct; with option -M nothing is checked. *)
Inductive counts_as (sp : env) (cfg : spell_config) (h : handle) (w : list Z) : bool -> Prop :=
| counts_unchecked : checkMode cfg = MODE_NONE -> counts_as sp cfg h w true
| counts_good : checkMode cfg <> MODE_NONE -> accepted sp h w -> counts_as sp cfg h w true
| counts_bad : checkMode cfg <> MODE_NONE -> ~ accepted sp h w -> counts_as sp cfg h w false.

Definition key_name (k : AnalysisModel.Key) : string := nth (AnalysisModel.key_int k) AnalysisModel.KEY_TO_STRING ""%string.

(** Lines for the analyses of a word, with option -m: one for each attribute. *)
Definition analysis_line (w : list Z) (number : nat) (a : AnalysisModel.analysis) (k : AnalysisModel.Key) : list (list Z) :=
  match a k with
  | None => []
  | Some v => [wstr "A(" ++ w ++ wstr "):" ++ decimal number ++ wstr ":" ++ wstr (key_name k) ++ wstr "=" ++ v]
  end.
Definition analysis_lines (cfg : spell_config) (w : list Z) (l : list AnalysisModel.analysis) : list (list Z) :=
  if morphology cfg
  then flat_map (fun '(i, a) => flat_map (analysis_line w i a) AnalysisModel.all_keys) (combine (seq 1 (length l)) l)
  else [].

(** The suggestions for a word. *)
Definition suggested (lib : library) (h : handle) (w : list Z) (l : list (list Z)) : Prop :=
  exists o, SuggestModel.voikkoSuggestUcs4 (lib_generate lib (ocrSuggestions h)) h w = Ok o /\ l = match o with Some l => l | None => [] end.

(** The line that tells whether the word is correct. *)
Definition verdict_line (mode : check_mode) (good : bool) (w : list Z) : list (list Z) :=
  match mode, good with
  | MODE_NORMAL, true => [wstr "C: " ++ w]
  | MODE_NORMAL, false => [wstr "W: " ++ w]
  | MODE_ONLY_C_W, true => [wstr "C"]
  | MODE_ONLY_C_W, false => [wstr "W"]
  | MODE_ONLY_INCORRECT, true => []
  | MODE_ONLY_INCORRECT, false => [w]
  | MODE_NONE, _ => []
  end.

(** A suggestion that option -x prints: without a separator given, suggestions
    with spaces are left out. *)
Definition printable (cfg : spell_config) (x : list Z) : bool := space cfg || negb (existsb (Z.eqb 0x20) x).

(** The lines printed for a word. *)
Inductive report (lib : library) (cfg : spell_config) (h : handle) (w : list Z) : list (list Z) -> Prop :=
| report_good : counts_as (lib_spell lib) cfg h w true -> oneLineOutput cfg = false ->
    report lib cfg h w (verdict_line (checkMode cfg) true w ++ analysis_lines cfg w (lib_analyzer lib true w))
| report_bad : counts_as (lib_spell lib) cfg h w false -> oneLineOutput cfg = false -> suggest cfg = false ->
    report lib cfg h w (verdict_line (checkMode cfg) false w)
| report_bad_suggestions : forall l, counts_as (lib_spell lib) cfg h w false -> oneLineOutput cfg = false -> suggest cfg = true ->
    suggested lib h w l ->
    report lib cfg h w (verdict_line (checkMode cfg) false w ++ map (fun x => wstr "S: " ++ x) l)
| report_one_line_good : counts_as (lib_spell lib) cfg h w true -> oneLineOutput cfg = true ->
    report lib cfg h w (w :: analysis_lines cfg w (lib_analyzer lib true w))
| report_one_line_bad : forall l, counts_as (lib_spell lib) cfg h w false -> oneLineOutput cfg = true -> suggested lib h w l ->
    report lib cfg h w [w ++ concat (map (fun x => wordSeparator cfg :: x) (filter (printable cfg) l))].

(** Asking for suggestions for the word does not fail (see C22), or they are
    not asked for. *)
Definition suggestions_fine (lib : library) (cfg : spell_config) (h : handle) (w : list Z) : Prop :=
  suggest cfg = true \/ oneLineOutput cfg = true -> exists l, suggested lib h w l.

(** Words the program can be given. *)
Definition checkable (lib : library) (cfg : spell_config) (h : handle) (w : list Z) : Prop :=
  unicode_word w /\ suggestions_fine lib cfg h w.

(** The lines of a text. *)
Fixpoint split_lines (line : list Z) (text : list Z) : list (list Z) :=
  match text with
  | [] => match line with [] => [] | _ => [line] end
  | c :: r => if c =? 10 then line :: split_lines [] r else split_lines (line ++ [c]) r
  end.
Definition lines_of (text : list Z) : list (list Z) := split_lines [] text.

(** ** The report of voikkohyphenate on a word *)

(** [printed sep p w out]: the word [w] written out with the pattern [p].  With
    the separator '-' the separator takes the place of a character marked '='. *)
Inductive printed (sep : Z) : list Z -> list Z -> list Z -> Prop :=
| printed_end : printed sep [] [] []
| printed_plain : forall c p w r, printed sep p w r -> printed sep (0x20 :: p) (c :: w) (c :: r)
| printed_break : forall c p w r, printed sep p w r -> printed sep (0x2D :: p) (c :: w) (sep :: c :: r)
| printed_replaced : forall c p w r, sep = 0x2D -> printed sep p w r -> printed sep (0x3D :: p) (c :: w) (sep :: r)
| printed_kept : forall c p w r, sep <> 0x2D -> printed sep p w r -> printed sep (0x3D :: p) (c :: w) (sep :: c :: r).

(** ** The output of voikkogc *)

Definition token_mark (t : TokenModel.token_type) : list Z :=
  match t with
  | TokenModel.TOKEN_WORD => wstr "W"
  | TokenModel.TOKEN_PUNCTUATION => wstr "P"
  | TokenModel.TOKEN_WHITESPACE => wstr "S"
  | TokenModel.TOKEN_UNKNOWN => wstr "U"
  | TokenModel.TOKEN_NONE => wstr "E"
  end.
Definition token_line (tk : TokenModel.token_type * list Z) : list Z := token_mark (fst tk) ++ wstr ": """ ++ snd tk ++ wstr """".

(** The sentences of a text with their types, as a caller sees them. *)
Inductive typed_sentences (spell : speller) (ignore_dot : bool) : list Z -> list (SentenceModel.sentence_type * list Z) -> Prop :=
| typed_end : forall text n, SentenceModel.sentence_next spell ignore_dot text = Ok (SentenceModel.SENTENCE_NONE, n, ignore_dot) ->
    typed_sentences spell ignore_dot text [(SentenceModel.SENTENCE_NONE, text)]
| typed_step : forall text t n r, SentenceModel.sentence_next spell ignore_dot text = Ok (t, n, ignore_dot) ->
    t = SentenceModel.SENTENCE_PROBABLE \/ t = SentenceModel.SENTENCE_POSSIBLE -> skipn n text <> [] ->
    typed_sentences spell ignore_dot (skipn n text) r -> typed_sentences spell ignore_dot text ((t, firstn n text) :: r).
Definition sentence_mark (t : SentenceModel.sentence_type) : list Z :=
  match t with
  | SentenceModel.SENTENCE_PROBABLE => wstr "B: "
  | SentenceModel.SENTENCE_POSSIBLE => wstr "P: "
  | _ => wstr "E: "
  end.
Definition sentence_line (s : SentenceModel.sentence_type * list Z) : list Z := sentence_mark (fst s) ++ snd s.

(** The lines for the errors of a line of input. *)
Definition quoted (x : list Z) : list Z := [34] ++ x ++ [34].
Definition quoted_list (l : list (list Z)) : list Z :=
  match l with [] => [] | x :: r => quoted x ++ concat (map (fun y => wstr "," ++ quoted y) r) end.
(** The line for one error; with -n it begins with 0 (see [numbered]). *)
Definition error_line (cfg : gc_config) (e : gc_error) : list Z :=
  (if printLineNumbersInGc cfg then wstr "0 " else []) ++
  wstr "[code=" ++ decimal (Z.to_nat (error_code e)) ++ wstr ", level=0, descr="""", stpos=" ++ decimal (startpos e) ++
  wstr ", len=" ++ decimal (errorlen e) ++ wstr ", suggs={" ++ quoted_list (suggestions e) ++ wstr "}]" ++
  match explanation_language cfg with
  | None => []
  | Some lang => wstr " (" ++ GrammarModel.voikko_error_message_cstr (error_code e) lang ++ wstr ")"
  end.
(** The line behind the errors. *)
Definition last_line (cfg : gc_config) : list Z := (if printLineNumbersInGc cfg then wstr "0 " else []) ++ wstr "-".
Definition paragraph_lines (cfg : gc_config) (l : list gc_error) : list (list Z) := map (error_line cfg) l ++ [last_line cfg].

(** What the manual says of option -n: every message begins with the number of
    the line of input. *)
Definition numbered (k : nat) (message : list Z) : Prop := exists r, message = decimal k ++ wstr " " ++ r.
