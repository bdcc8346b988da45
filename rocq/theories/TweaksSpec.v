(** * Verdicts from analyses, hyphens and soft hyphens: vocabulary of the
    statements *)
From Verif Require Import Base CharSpec CharModel SpellerBase SpellSpec AnalysisModel AnalyzerBase HyphModel HyphSpec
  AdapterModel TweaksModel.

(** ** Case pattern of a word against the structure of an analysis *)

(** A capital stands where the structure wants a small letter (p, q), or a small
    letter, not at the beginning, where it wants a capital (i, j). *)
Definition wrong_case (w st : list Z) : Prop :=
  exists i c s, nth_error w i = Some c /\ nth_error (symbols st) i = Some s /\
    (((capital c \/ c = SCHWA) /\ (s = 0x70 \/ s = 0x71)) \/
     (small c /\ (s = 0x69 \/ s = 0x6A) /\ i <> O)).

(** The initial letter is small but should be a capital. *)
Definition needs_capital (w st : list Z) : Prop :=
  exists c s, nth_error w 0 = Some c /\ nth_error (symbols st) 0 = Some s /\ small c /\ (s = 0x69 \/ s = 0x6A).

(** The verdict that one analysis gives. *)
Definition graded (w st : list Z) (r : spellresult) : Prop :=
  match r with
  | SPELL_FAILED => False
  | SPELL_OK => ~ wrong_case w st /\ ~ needs_capital w st
  | SPELL_CAP_FIRST => ~ wrong_case w st /\ needs_capital w st
  | SPELL_CAP_ERROR => wrong_case w st
  end.

(** [a] is at least as good as [b]. *)
Inductive as_good : spellresult -> spellresult -> Prop :=
| as_good_refl : forall r, as_good r r
| as_good_ok : forall r, as_good SPELL_OK r
| as_good_first : as_good SPELL_CAP_FIRST SPELL_CAP_ERROR
| as_good_failed : forall r, as_good r SPELL_FAILED.

(** All structures an analyser produces are well formed. *)
Definition good_analyzer (an : analyzer) : Prop := forall full w, good_analyses (an full w).

(** The speller gives the answers of [f]. *)
Definition implements (f : list Z -> res spellresult) (sp : speller) : Prop :=
  forall w, unicode_word w -> f w = Ok (sp w).

(** ** Compound hyphens *)

Definition known (f : list Z -> res spellresult) (w : list Z) : Prop := exists r, f w = Ok r /\ r <> SPELL_FAILED.

(** [w] is [a], a hyphen and [b], both not empty; the hyphen is the first or the
    last such one. *)
Definition first_split (w a b : list Z) : Prop :=
  w = a ++ 0x2D :: b /\ b <> [] /\ exists x a', a = x :: a' /\ ~ In 0x2D a'.
Definition last_split (w a b : list Z) : Prop :=
  w = a ++ 0x2D :: b /\ a <> [] /\ exists y b', b = b' ++ [y] /\ ~ In 0x2D b'.

(** The first part ends with the vowel and consonant the second part starts
    with. *)
Definition same_pair (a b : list Z) : Prop :=
  exists a' x y x' y' b', a = a' ++ [x; y] /\ b = x' :: y' :: b' /\
    lower x' = lower x /\ lower y' = lower y /\ In (lower x) VOIKKO_VOWELS /\ In (lower y) VOIKKO_CONSONANTS.

(** The second part may end any compound. *)
Definition free_end (an : analyzer) (b : list Z) : Prop :=
  exists x, In x (an false b) /\ x MALAGA_VAPAA_JALKIOSA = Some (wstr "true").

(** A compound border after the first [k] characters. *)
Definition border_after (st : list Z) (k : nat) : Prop :=
  exists s1 s2, st = s1 ++ 0x3D :: s2 /\ length (symbols s1) = k.

(** One analysis of [v] has a border after [k] characters, another one has
    not. *)
Definition ambiguous (an : analyzer) (v : list Z) (k : nat) : Prop :=
  (exists x st, In x (an false v) /\ x STRUCTURE = Some st /\ (k <= length (symbols st))%nat /\ border_after st k) /\
  (exists x st, In x (an false v) /\ x STRUCTURE = Some st /\ (k <= length (symbols st))%nat /\ ~ border_after st k).

(** ** Soft hyphens *)

Definition SHY : Z := 0xAD.
Definition without_shy (w : list Z) : list Z := filter (fun c => negb (c =? SHY)) w.

(** Every soft hyphen stands between two other characters. *)
Definition shy_well_placed (w : list Z) : Prop :=
  forall a b, w = a ++ SHY :: b -> a <> [] /\ b <> [] /\ forall a', a <> a' ++ [SHY].

(** Pattern [p] (of the word without soft hyphens) has a break at every soft
    hyphen of [w]. *)
Definition breaks_at_shys (p w : list Z) : Prop :=
  forall a b, w = a ++ SHY :: b -> nth_error p (length (without_shy a)) = Some HYPHEN.

(** ** Words known in small letters or as names *)

(** The first [n] symbols of the structure ask for no capital / for a capital
    initial only. *)
Definition common_word (n : nat) (st : list Z) : Prop :=
  forall i s, (i < n)%nat -> nth_error (symbols st) i = Some s -> s <> 0x69 /\ s <> 0x6A.
Definition initial_capital (st : list Z) : Prop :=
  exists s, nth_error (symbols st) 0 = Some s /\ (s = 0x69 \/ s = 0x6A).
Definition name (n : nat) (st : list Z) : Prop :=
  initial_capital st /\ forall i s, (0 < i < n)%nat -> nth_error (symbols st) i = Some s -> s <> 0x69 /\ s <> 0x6A.
