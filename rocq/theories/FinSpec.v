(** * What the analyser for Finnish should do.

    The first part describes the outputs of a dictionary as its authors write
    them.  Nothing here refers to the functions of the analyser. *)
From Verif Require Import Base CharModel AnalysisModel FstModel FstSpec FinModel.

(** ** Outputs of a dictionary

    An output is the word itself with remarks in brackets. *)
Inductive item : Type :=
| Letter (c : Z)
| Hyphen
| Colon
| Boundary (k : Z)                  (** [[Bc]]: here a new part of a compound starts *)
| Class (k : string)                (** [[Ln]], [[Lep]], ...: class of the part *)
| Pattern (p : list Z)              (** [[Xr]...[X]]: structure of the part *)
| Remark (k : Z) (t : list Z)       (** [[Xp]...[X]], [[Xs]...[X]], [[Xj]...[X]] *)
| Tag (t : list Z).                 (** any other remark *)

Definition render_item (x : item) : list Z :=
  match x with
  | Letter c => [c]
  | Hyphen => wstr "-"
  | Colon => wstr ":"
  | Boundary k => wstr "[B" ++ k :: wstr "]"
  | Class k => wstr "[L" ++ wstr k ++ wstr "]"
  | Pattern p => wstr "[Xr]" ++ p ++ wstr "[X]"
  | Remark k t => wstr "[X" ++ k :: wstr "]" ++ t ++ wstr "[X]"
  | Tag t => wstr "[" ++ t ++ wstr "]"
  end.
Definition render (l : list item) : list Z := concat (map render_item l).

(** The word. *)
Definition surface_item (x : item) : list Z :=
  match x with Letter c => [c] | Hyphen => wstr "-" | Colon => wstr ":" | _ => [] end.
Definition surface (l : list item) : list Z := concat (map surface_item l).

(** The classes of words a dictionary uses. *)
Definition class_names : list string :=
  ["n"; "l"; "nl"; "h"; "ee"; "es"; "ep"; "em"; "t"; "a"; "s"; "u"; "ur"; "r"; "c"; "d"; "k"; "p"]%string.

(** Each item by itself is written correctly. *)
Definition good_item (x : item) : Prop :=
  match x with
  | Letter c => ~ In c (0 :: wstr "[]-:")
  | Hyphen | Colon => True
  | Boundary k => ~ In k (0 :: wstr "h[]")
  | Class k => In k class_names
  | Pattern p => (forall c, In c p -> In c (wstr "ijpq-=")) /\ p <> [] /\
      hd 0 p <> ch "=" /\ last p 0 <> ch "=" /\ (forall u v, p <> u ++ wstr "==" ++ v)
  | Remark k t => ~ In k (0 :: wstr "r[]") /\ ~ In 0 t /\ ~ In (ch "[") t
  | Tag t => ~ In 0 t /\ ~ In (ch "[") t /\ ~ In (ch "]") t /\ (2 <= length t)%nat /\
      hd 0 t <> ch "X" /\ hd 0 t <> ch "L" /\ (hd 0 t = ch "B" -> length t = 2%nat -> nth 1 t 0 = ch "h")
  end.

(** The symbols of a pattern. *)
Definition symbols (st : list Z) : list Z := filter (fun c => negb (c =? ch "=")) st.

(** A part is an abbreviation or a number if its class is [a] or [ur], or if
    it is [u] and the part starts with a digit. *)
Definition abbreviation (k : string) (rest : list item) : bool :=
  String.eqb k "a" || String.eqb k "ur" ||
  (String.eqb k "u" && match render rest with c :: _ :: _ => isDigit c | _ => false end).

(** The items fit together.  [pat] are the symbols of the last pattern that
    still wait for their characters, [abbr] tells whether the part is an
    abbreviation and [open] whether there are letters, without a pattern, since
    the part started.  Hyphens of a pattern stand for hyphens of the word; a
    pattern is before the letters of its part; a colon follows an abbreviation
    or the end of a pattern; behind a boundary the word goes on, unless the
    boundary is the end of the output. *)
Fixpoint fits_together (l : list item) (pat : list Z) (abbr open : bool) : Prop :=
  match l with
  | [] => pat = []
  | Letter _ :: r =>
      match pat with
      | [] => fits_together r [] abbr true
      | x :: pat => x <> ch "-" /\ fits_together r pat abbr open
      end
  | Hyphen :: r =>
      match pat with
      | [] => fits_together r [] abbr false
      | x :: pat => x = ch "-" /\ fits_together r pat abbr open
      end
  | Colon :: r => pat = [] /\ (abbr = true \/ open = false) /\ fits_together r [] false false
  | Boundary _ :: r => pat = [] /\ (r = [] \/ surface r <> []) /\ fits_together r [] abbr false
  | Class k :: r => (k = "ur"%string -> r <> []) /\ fits_together r pat (abbreviation k r) open
  | Pattern p :: r => pat = [] /\ open = false /\ fits_together r (symbols p) abbr false
  | Remark _ _ :: r | Tag _ :: r => fits_together r pat abbr open
  end.

(** A well-formed output: it is for a word that is not empty, and does not start
    with a single character and a boundary, unless the character is a hyphen. *)
Definition well_formed (l : list item) : Prop :=
  Forall good_item l /\ fits_together l [] false false /\ surface l <> [] /\
  (forall c k r, l <> Letter c :: Boundary k :: r) /\ (forall k r, l <> Colon :: Boundary k :: r).

(** ** The structure attribute

    One symbol for each character of the word: a hyphen for a hyphen, a colon for
    a colon, and for other characters [i] and [j] (capital) or [p] and [q]
    (small); [j] and [q] are used in abbreviations.  Between the symbols, and at
    the start, there are borders. *)
Definition symbol_for (c x : Z) : Prop :=
  if c =? ch "-" then x = ch "-" else if c =? ch ":" then x = ch ":" else In x (wstr "ijpq").

Definition structure_of (word st : list Z) : Prop :=
  Forall2 symbol_for word (symbols st) /\
  (hd 0 st = ch "=" \/ hd 0 st = ch "-").

(** The places of the borders: for each border the number of symbols before it. *)
Fixpoint borders_from (k : nat) (st : list Z) : list nat :=
  match st with
  | [] => []
  | c :: r => if c =? ch "=" then k :: borders_from k r else borders_from (S k) r
  end.
Definition borders (st : list Z) : list nat := borders_from 0 st.

(** Where an output asks for a border: at the start of the word (unless it starts
    with a hyphen), where a part of a compound starts (unless only one character,
    or nothing, of the output is left; a boundary behind a hyphen at the start of
    the output always counts), and where a pattern has one. *)
Definition border_at (l : list item) (n : nat) : Prop :=
  (n = 0%nat /\ forall r, l <> Hyphen :: r) \/
  (exists a k b, l = a ++ Boundary k :: b /\ n = length (surface a) /\ ((1 < length (render b))%nat \/ a = [Hyphen])) \/
  (exists a p b u v, l = a ++ Pattern p :: b /\ p = u ++ ch "=" :: v /\ n = (length (surface a) + length (symbols u))%nat).

(** ** Values of the attributes

    A value is listed for an attribute if [voikkoGetAttributeValues] has nothing
    to say about the attribute, or gives this value. *)
Definition listed (k : Key) (v : list Z) : Prop :=
  forall n, In (n, k) STRING_TO_KEY -> forall l, voikkoGetAttributeValues (Some n) = Some l -> In v l.

(** ** Analyses *)

(** What an analysis of a word with the output [l] says. *)
Definition analysis_of (l : list item) (full : bool) (a : analysis) : Prop :=
  (exists st, a STRUCTURE = Some st /\ structure_of (surface l) st /\ (forall n, In n (borders st) <-> border_at l n) /\
     (full = true -> parseBaseform (render l) st = Ok (a BASEFORM))) /\
  a FSTOUTPUT = (if full then Some (render l) else None) /\
  (full = true -> a WORDBASES <> None) /\ (full = false -> a WORDBASES = None /\ a WORDIDS = None /\ a BASEFORM = None) /\
  (forall k v, a k = Some v -> listed k v \/ (k = COMPARISON /\ v = wstr "positive")).

(** A second analysis, for nouns that are names of organisations: the first symbol
    of the structure is a capital letter, the class is "nimi", there may be
    another base form, and the remark about place names and the technical
    attributes are not there. *)
Definition as_name (a a' : analysis) : Prop :=
  a CLASS = Some (wstr "nimisana") /\ a' CLASS = Some (wstr "nimi") /\ a' POSSIBLE_GEOGRAPHICAL_NAME = None /\
  a' FSTOUTPUT = None /\ a' WORDIDS = None /\ a' WORDBASES = None /\
  (forall st, a STRUCTURE = Some st -> (2 <= length st)%nat -> a' STRUCTURE = Some (upd st 1 (ch "i"))) /\
  (forall k, ~ In k [CLASS; STRUCTURE; POSSIBLE_GEOGRAPHICAL_NAME; BASEFORM; FSTOUTPUT; WORDIDS; WORDBASES] -> a' k = a k).

(** The analyses of a word with the output [l]; none if the hyphens are wrong. *)
Definition analyses_of (l : list item) (full : bool) (la : list analysis) : Prop :=
  (isValidAnalysis (render l) = Ok false /\ la = []) \/
  (isValidAnalysis (render l) = Ok true /\ exists a more, la = a :: more /\ analysis_of l full a /\ (more = [] \/ exists a', more = [a'] /\ as_name a a')).

(** A dictionary for Finnish: the outputs for a word are well-formed and belong to
    this word. *)
Definition finnish_dictionary (T : transducer) : Prop :=
  good_transducer T /\ forall word p out, accepts T word p out -> exists l, well_formed l /\ out = render l /\ surface l = word.

(** Analysers that come out of any use. *)
Inductive finnish_used (T : transducer) : configuration -> Prop :=
| finnish_new : finnish_used T (new_configuration (flagDiacriticFeatureCount T) BUFFER_SIZE)
| finnish_word c word full l c' : finnish_used T c -> fin_analyze T c word full = Ok (l, c') -> finnish_used T c'.

(** The search for a word does not come to its end: there are 99 outputs or more,
    or the search reaches one of the limits of the transducer. *)
Definition broken_off (T : transducer) (word : list Z) : Prop :=
  exists c1 results e c2, prepare T (new_configuration (flagDiacriticFeatureCount T) BUFFER_SIZE) (voikko_set_case CT_ALL_LOWER word) = Ok (true, c1) /\
    lookup T false BUFFER_SIZE c1 results e c2 /\ (length results = 99%nat \/ exists o, e = Some o /\ o <> End).

(** Analysers that come out of a use in which no search was broken off. *)
Inductive finnish_finished (T : transducer) : configuration -> Prop :=
| finished_new : finnish_finished T (new_configuration (flagDiacriticFeatureCount T) BUFFER_SIZE)
| finished_word c word full l c' : finnish_finished T c -> ~ broken_off T word -> fin_analyze T c word full = Ok (l, c') -> finnish_finished T c'.

(** Earlier words leave nothing behind in the transducer. *)
Definition clean_history (T : transducer) (c : configuration) : Prop :=
  finnish_finished T c \/ (finnish_used T c /\ flagDiacriticFeatureCount T = 0%nat).
