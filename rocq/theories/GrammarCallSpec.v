(** * Specification of the grammar checking calls. *)
From Coq Require Import Permutation Sorted.
From Verif Require Import Base CharModel TokenModel SpellerBase SentenceModel AnalysisModel AnalyzerBase Utf8Model
  GcCacheModel HandleModel ParaModel RulesModel GrammarModel GrammarSpec.

(** The errors of a text in the order in which they are reported: sorted by
    start position, errors with the same start in the order in which they are
    found. *)
Definition starts_at (k : nat) (e : gc_error) : bool := Nat.eqb (startpos e) k.
Definition error_list (b : gc_backend) (o : gc_options) (text : list Z) (l : list gc_error) : Prop :=
  exists found, find_errors b o false text = Ok found /\
    Permutation l found /\
    StronglySorted (fun e f => (startpos e <= startpos f)%nat) l /\
    (forall k, filter (starts_at k) l = filter (starts_at k) found).

(** The answer to a call: the first error that is neither one of the first
    [skip] errors of the text nor starts before [start]. *)
Definition answer (l : list gc_error) (start : nat) (skip : Z) : option gc_error :=
  nth_error l (Nat.max (Z.to_nat skip) (length (filter (fun e => (startpos e <? start)%nat) l))).

(** The transducer of the autocorrect rules never matches the empty string. *)
Definition never_empty (tr : option prefix_lookup) : Prop :=
  forall t input out n, tr = Some t -> t input = Some (out, n) -> (0 < n)%nat.

(** What a program may do with a handle between two calls: check texts, in
    either encoding, set options, and whatever leaves the grammar checker's
    options and memory alone (checking spelling, hyphenating, ...).  A text is
    given as a NUL-terminated string. *)
Definition text_ok (text : list Z) : Prop := text <> [] /\ ~ In 0 text.
Inductive gstep (b : gc_backend) : handle -> handle -> Prop :=
| gs_check : forall h text rest start skip r h', text_ok text ->
    voikkoNextGrammarErrorUcs4 b h (text ++ 0 :: rest) (length text) start skip = Ok (r, h') -> gstep b h h'
| gs_check_utf8 : forall h bytes start skip r h',
    voikkoNextGrammarErrorCstr b h bytes start skip = Ok (r, h') -> gstep b h h'
| gs_bool : forall h o v, gstep b h (snd (voikkoSetBooleanOption h o v))
| gs_int : forall h o v r h', voikkoSetIntegerOption h o v = Ok (r, h') -> gstep b h h'
| gs_other : forall h h', gcCache h' = gcCache h -> gc_options_of h' = gc_options_of h -> gstep b h h'.

Inductive reached (b : gc_backend) : handle -> Prop :=
| reached_init : forall h, voikkoInit = Ok h -> reached b h
| reached_step : forall h h', reached b h -> gstep b h h' -> reached b h'.
