(** * What spell checking means.

    An independent description of the verdict on a word, in terms of the
    options and of the dictionary's judgement of single words.  No cache, no
    buffers, no order of evaluation. *)
From Verif Require Import Base CharSpec CharModel SpellerBase CacheModel HandleModel SpellModel.

(** A Unicode code point other than NUL. *)
Definition code_point (c : Z) : Prop := 1 <= c <= 0x10FFFF.
Definition unicode_word (w : list Z) : Prop := Forall code_point w.

(** [v] with a hyphen at both ends. *)
Definition starts_with_hyphen (v : list Z) : Prop := exists r, v = 0x2D :: r.
Definition ends_with_hyphen (v : list Z) : Prop := exists r, v = r ++ [0x2D].

Inductive hyphenated : list Z -> list Z -> Prop :=
| hyph_both : forall v, ~ starts_with_hyphen v -> ~ ends_with_hyphen v -> hyphenated v (0x2D :: v ++ [0x2D])
| hyph_start : forall v, ~ starts_with_hyphen v -> ends_with_hyphen v -> hyphenated v (0x2D :: v)
| hyph_end : forall v, starts_with_hyphen v -> ~ ends_with_hyphen v -> hyphenated v (v ++ [0x2D]).

(** The dictionary's judgement of [v] under option ACCEPT_MISSING_HYPHENS: the
    dictionary's own, or, if it does not know [v], that of [v] with the missing
    hyphens. *)
Inductive verdict (f : speller) (missing_ok : bool) : list Z -> spellresult -> Prop :=
| verdict_known : forall v, f v <> SPELL_FAILED -> verdict f missing_ok v (f v)
| verdict_hyphens : forall v v', f v = SPELL_FAILED -> missing_ok = true -> (2 <= length v)%nat ->
    hyphenated v v' -> f v' <> SPELL_FAILED -> verdict f missing_ok v (f v').

(** Case shapes. *)
Definition all_capitals (w : list Z) : Prop := ~ no_cased w /\ no_small w.
Definition all_small (w : list Z) : Prop := ~ no_small w /\ no_capital w.
Definition capitalised (w : list Z) : Prop :=
  ~ no_small w /\ exists c r, w = c :: r /\ (capital c \/ c = SCHWA) /\ no_capital r.

(** Small letters throughout / in the first position. *)
Definition small_first (w : list Z) : list Z := match w with [] => [] | c :: r => lower c :: r end.

(** The forms of a word that are looked up: the word itself, and with
    IGNORE_DOT also without the final full stop. *)
Inductive form (dot_ok : bool) : list Z -> list Z -> Prop :=
| form_whole : forall w, form dot_ok w w
| form_no_dot : forall v, dot_ok = true -> form dot_ok (v ++ [0x2E]) v.

(** The word [n] (in standard spelling) is found in the dictionary in a way
    that justifies its capital letters. *)
Inductive justified (sp : env) (h : handle) (n v : list Z) : Prop :=
| just_small :
    all_small n ->
    verdict (sp (accept_extra_hyphens h)) (accept_missing_hyphens h) (map lower v) SPELL_OK ->
    justified sp h n v
| just_capitalised_common :
    capitalised n -> accept_first_uppercase h = true ->
    verdict (sp (accept_extra_hyphens h)) (accept_missing_hyphens h) (map lower v) SPELL_OK ->
    justified sp h n v
| just_capitalised_proper :
    capitalised n ->
    verdict (sp (accept_extra_hyphens h)) (accept_missing_hyphens h) (map lower v) SPELL_CAP_FIRST ->
    justified sp h n v
| just_capitals : forall r,
    all_capitals n -> accept_all_uppercase h = true ->
    verdict (sp (accept_extra_hyphens h)) (accept_missing_hyphens h) (map lower v) r ->
    justified sp h n v
| just_exact :
    ~ all_small n -> ~ capitalised n -> (all_capitals n -> accept_all_uppercase h = false) ->
    verdict (sp (accept_extra_hyphens h)) (accept_missing_hyphens h) (small_first v) SPELL_OK ->
    justified sp h n v
| just_exact_proper : forall c r,
    ~ all_small n -> ~ capitalised n -> (all_capitals n -> accept_all_uppercase h = false) ->
    n = c :: r -> (capital c \/ c = SCHWA) -> accept_first_uppercase h = true ->
    verdict (sp (accept_extra_hyphens h)) (accept_missing_hyphens h) (small_first v) SPELL_CAP_FIRST ->
    justified sp h n v.

(** The word is not checked at all. *)
Definition a_digit (c : Z) : Prop := 48 <= c <= 57.
Definition nonword (w : list Z) : Prop := url_like w \/ email_like w \/ www_like w.
Inductive exempt (h : handle) (n : list Z) : Prop :=
| exempt_number : ignore_numbers h = true -> Exists a_digit n -> exempt h n
| exempt_capitals : ignore_uppercase h = true -> all_capitals n -> exempt h n
| exempt_nonword : ignore_nonwords h = true -> nonword n -> exempt h n.

(** A word is accepted. *)
Inductive accepted (sp : env) (h : handle) : list Z -> Prop :=
| accepted_empty : accepted sp h []
| accepted_exempt : forall w n, w <> [] -> (length w <= 255)%nat -> voikko_normalise w = Ok n ->
    exempt h n -> accepted sp h w
| accepted_found : forall w n v, w <> [] -> (length w <= 255)%nat -> voikko_normalise w = Ok n ->
    form (ignore_dot h) n v -> justified sp h n v -> accepted sp h w.

(** ** Histories of a handle *)

(** Handles obtained from a fresh one by calls of the spelling and option API.
    Options ACCEPT_EXTRA_HYPHENS (11) and ACCEPT_MISSING_HYPHENS (12) change only
    while the cache is switched off, and the cache size (17) is at most 18. *)
Inductive reachable (sp : env) : handle -> Prop :=
| reach_init : forall h, voikkoInit = Ok h -> reachable sp h
| reach_bool : forall h o b, reachable sp h ->
    (o = 11 -> b = accept_extra_hyphens h \/ spellerCache h = None) ->
    (o = 12 -> b = accept_missing_hyphens h \/ spellerCache h = None) ->
    reachable sp (snd (voikkoSetBooleanOption h o b))
| reach_int : forall h o v r h', reachable sp h -> (o = 17 -> v <= 18) ->
    voikkoSetIntegerOption h o v = Ok (r, h') -> reachable sp h'
| reach_spell : forall h w r h', reachable sp h -> unicode_word w ->
    voikkoSpellUcs4 sp h w = Ok (r, h') -> reachable sp h'
| reach_spell_utf8 : forall h w r h', reachable sp h -> Forall (fun b => 1 <= b <= 255) w ->
    voikkoSpellCstr sp h w = Ok (r, h') -> reachable sp h'.

(** Arbitrary histories. *)
Inductive call : Type := SetBool (o : Z) (b : bool) | SetInt (o v : Z) | Spell (w : list Z).

Definition do_call (sp : env) (h : handle) (c : call) : res (Z * handle) :=
  match c with
  | SetBool o b => Ok (voikkoSetBooleanOption h o b)
  | SetInt o v => voikkoSetIntegerOption h o v
  | Spell w => voikkoSpellUcs4 sp h w
  end.

Fixpoint do_calls (sp : env) (h : handle) (cs : list call) : res (list Z * handle) :=
  match cs with
  | [] => Ok ([], h)
  | c :: r => '(a, h1) <- do_call sp h c ;; '(l, h2) <- do_calls sp h1 r ;; Ok (a :: l, h2)
  end.

(** Successive spelling calls. *)
Definition spell_all (sp : env) (h : handle) (ws : list (list Z)) := do_calls sp h (map Spell ws).

(** A dictionary that does not look at capital letters when deciding whether it
    knows a word. *)
Definition case_blind (f : speller) : Prop := forall v, f v <> SPELL_FAILED -> f (map lower v) <> SPELL_FAILED.

(** ** Option values as seen by a user *)
Definition boolean_options : list Z := [0; 1; 3; 4; 6; 7; 8; 10; 11; 12; 13; 14; 15; 16].
Definition integer_options : list Z := [9; 17].

(** Value of boolean option [o].  (NO_UGLY_HYPHENATION, 4, is the negation of
    the hyphenator's field; IGNORE_DOT, 0, is stored twice.) *)
Definition bool_value (h : handle) (o : Z) : option bool :=
  match o with
  | 0 => if Bool.eqb (ignore_dot h) (hyphIgnoreDot h) then Some (ignore_dot h) else None
  | 1 => Some (ignore_numbers h)
  | 3 => Some (ignore_uppercase h)
  | 4 => Some (negb (hyphUgly h))
  | 6 => Some (accept_first_uppercase h)
  | 7 => Some (accept_all_uppercase h)
  | 8 => Some (ocrSuggestions h)
  | 10 => Some (ignore_nonwords h)
  | 11 => Some (accept_extra_hyphens h)
  | 12 => Some (accept_missing_hyphens h)
  | 13 => Some (accept_titles_in_gc h)
  | 14 => Some (accept_unfinished_paragraphs_in_gc h)
  | 15 => Some (hyphUnknown h)
  | 16 => Some (accept_bulleted_lists_in_gc h)
  | _ => None
  end.

(** Value of integer option [o]; a switched off cache has size -1. *)
Definition int_value (h : handle) (o : Z) : option Z :=
  match o with
  | 9 => Some (hyphMinLength h)
  | 17 => Some (match spellerCache h with Some c => sizeParam c | None => -1 end)
  | _ => None
  end.
(** The value in effect after setting option [o] to [v]. *)
Definition effective (o v : Z) : Z := if (o =? 17) && (v <? 0) then -1 else v.

(** The last value written to option [o] by a sequence of boolean settings. *)
Fixpoint last_written (o : Z) (l : list (Z * bool)) : option bool :=
  match l with
  | [] => None
  | (o', b) :: r => match last_written o r with Some x => Some x | None => if o =? o' then Some b else None end
  end.
