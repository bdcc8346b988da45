(** * Suggestions: vocabulary of the statements *)
From Coq Require Import Permutation Sorted.
From Verif Require Import Base CharSpec CharModel SpellerBase SpellSpec AnalysisModel AnalyzerBase HyphSpec
  HandleModel AdapterModel TweaksSpec SuggestModel.

(** ** Which words are tried for a word [w] *)

(** Back and front vowels that are each other's counterparts. *)
Inductive counterparts : Z -> Z -> Prop :=
| cp_a : counterparts 0x61 0xE4 | cp_o : counterparts 0x6F 0xF6 | cp_u : counterparts 0x75 0x79
| cp_A : counterparts 0x41 0xC4 | cp_O : counterparts 0x4F 0xD6 | cp_U : counterparts 0x55 0x59.
Definition counterpart (c d : Z) : Prop := counterparts c d \/ counterparts d c.

(** Number of letters of the word that have a counterpart. *)
Inductive vowels_in : list Z -> nat -> Prop :=
| vi_nil : vowels_in [] 0
| vi_yes : forall c d w n, counterpart c d -> vowels_in w n -> vowels_in (c :: w) (S n)
| vi_no : forall c w n, (forall d, ~ counterpart c d) -> vowels_in w n -> vowels_in (c :: w) n.

(** Some vowels replaced by their counterparts. *)
Definition vowels_changed (w v : list Z) : Prop :=
  (exists n, vowels_in w n /\ (1 <= n <= 7)%nat) /\ v <> w /\ Forall2 (fun c d => d = c \/ counterpart c d) w v.

(** One letter replaced according to a table, in small or capital letters. *)
Definition table_pair (t : list (Z * Z)) (f g : Z) : Prop :=
  In (f, g) t \/ exists f0 g0, In (f0, g0) t /\ upper f0 <> f0 /\ f = upper f0 /\ g = upper g0.
Definition replaced (t : list (Z * Z)) (w v : list Z) : Prop :=
  exists a b f g, table_pair t f g /\ w = a ++ f :: b /\ v = a ++ g :: b.

(** One letter removed that is not the same as the one before it. *)
Definition deleted (w v : list Z) : Prop :=
  exists a c b, w = a ++ c :: b /\ v = a ++ b /\ forall a' d, a = a' ++ [d] -> lower d <> lower c.

(** A hyphen added at least two characters from both ends and from other
    hyphens. *)
Definition hyphen_added (w v : list Z) : Prop :=
  exists a x y z u b, w = a ++ [x; y] ++ [z; u] ++ b /\ v = a ++ [x; y] ++ 0x2D :: [z; u] ++ b /\ ~ In 0x2D [x; y; z; u].

(** One letter added to a run of equal letters of odd length. *)
Definition run_at (w a : list Z) (c : Z) (k : nat) (b : list Z) : Prop :=
  w = a ++ repeat c k ++ b /\ (1 <= k)%nat /\ (forall a' d, a = a' ++ [d] -> d <> c) /\ (forall d b', b = d :: b' -> d <> c).
Definition doubled (w v : list Z) : Prop :=
  exists a c k b, run_at w a c k b /\ Nat.Odd k /\ c <> 0x2D /\ c <> 0x27 /\ v = a ++ repeat c (S k) ++ b.

(** One of the given letters inserted, unless next to the same letter. *)
Definition inserted_letter (letters w v : list Z) : Prop :=
  exists a c b, In c letters /\ w = a ++ b /\ v = a ++ c :: b /\
    match b with
    | d :: _ => c <> lower d /\ forall a' x, a = a' ++ [x] -> c <> lower x
    | [] => forall a' x, a = a' ++ [x] -> c <> x
    end.

(** A double letter replaced, the word being changed to small letters. *)
Definition double_replaced (t : list (Z * Z)) (w v : list Z) : Prop :=
  exists a c k m b g, run_at (map lower w) a c k b /\ (2 * m + 2 <= k)%nat /\ In (c, g) t /\
    v = a ++ repeat c (2 * m) ++ [g; g] ++ repeat c (k - 2 * m - 2) ++ b.

(** Two different letters exchanged that are at most 10 positions apart (less in
    long words). *)
Definition swap_distance (w : list Z) (d : nat) : Prop :=
  ((length w <= 8)%nat /\ d = 10%nat) \/ ((8 < length w)%nat /\ (d * length w <= 50 < (d + 1) * length w)%nat).
Definition exchanged (w v : list Z) : Prop :=
  exists a x m y b d, w = a ++ x :: m ++ y :: b /\ v = a ++ y :: m ++ x :: b /\
    swap_distance w d /\ (length m + 1 <= d)%nat /\
    lower x <> lower y /\ ~ counterpart (lower x) (lower y).

(** One of two equal consecutive pairs of letters removed. *)
Definition pair_deleted (w v : list Z) : Prop :=
  (6 <= length w)%nat /\ exists a x y b, w = a ++ [x; y; x; y] ++ b /\ v = a ++ [x; y] ++ b.

(** Two replacements, the second one not before the first one. *)
Definition twice_replaced (t : list (Z * Z)) (w v : list Z) : Prop :=
  exists a b f g a2 b2 f2 g2, In (f, g) t /\ In (f2, g2) t /\ w = a ++ f :: b /\
    a ++ g :: b = a2 ++ f2 :: b2 /\ (length a <= length a2)%nat /\ v = a2 ++ g2 :: b2.

(** The words that a generator looks up for a word, when the search has not been
    stopped, are those given by [E]: nothing else, and all of them unless the
    search is stopped meanwhile. *)
Definition tries (g : status -> res status) (E : list Z -> list Z -> Prop) (ok : list Z -> Prop) : Prop :=
  forall s s', ok (sword s) -> shouldAbort s = false -> g s = Ok s' ->
    exists l, lookups s' = lookups s ++ l /\ Forall (E (sword s)) l /\
      (shouldAbort s' = false -> forall v, E (sword s) v -> In v l).

(** ** What may be suggested *)

(** The analyser does not look at letter case. *)
Definition case_blind_analyzer (an : analyzer) : Prop :=
  forall v w, map lower v = map lower w -> an false v = an false w.

(** A word that some analysis accepts exactly as it is written. *)
Definition well_written (an : analyzer) (w : list Z) : Prop :=
  exists a st, In a (an false w) /\ a STRUCTURE = Some st /\ graded w st SPELL_OK.

(** The part of a split suggestion: well written, possibly with an additional
    capital initial, which is harmless in spell checking. *)
Definition maybe_capitalised (w v : list Z) : Prop := v = w \/ exists c r, w = c :: r /\ v = upper c :: r.
Definition good_part (an : analyzer) (p : list Z) : Prop :=
  exists w, well_written an w /\ maybe_capitalised w p.
Definition good_suggestion (an : analyzer) (w : list Z) : Prop :=
  well_written an w \/
  exists p1 dot p2, w = p1 ++ dot ++ 0x20 :: p2 /\ (dot = [] \/ dot = [0x2E]) /\ good_part an p1 /\ good_part an p2.

(** No word with the letter SCHWA is known. *)
Definition no_schwa (an : analyzer) : Prop := forall w, In SCHWA w -> an false w = [].

(** ** What the typing and OCR strategies try *)

Definition typing_edit (w v : list Z) : Prop :=
  v = w \/ (In SHY w /\ v = without_shy w) \/ vowels_changed w v \/ deleted w v \/ hyphen_added w v \/ doubled w v \/
  inserted_letter (COMMON_LETTERS ++ OTHER_LETTERS) w v \/ exchanged w v \/ pair_deleted w v \/
  (exists t, In t [REPLACEMENTS_1; REPLACEMENTS_2; REPLACEMENTS_3; REPLACEMENTS_4; REPLACEMENTS_5] /\ replaced t w v) \/
  (exists t, In t [REPLACEMENTS_1; REPLACEMENTS_2; REPLACEMENTS_3; REPLACEMENTS_4] /\ double_replaced t w v).
Definition ocr_edit (w v : list Z) : Prop :=
  v = w \/ replaced OCR_REPLACEMENTS w v \/ twice_replaced OCR_REPLACEMENTS w v.
Definition edit (ocr : bool) : list Z -> list Z -> Prop := if ocr then ocr_edit else typing_edit.

(** Two parts of at least two characters (one, after a hyphen) separated by a
    space, in place of a hyphen if there was one. *)
Definition same_letters (v w : list Z) : Prop := map lower v = map lower w.
Definition split_of (w v : list Z) : Prop :=
  exists a sep b p1 p2, w = a ++ sep ++ b /\ (sep = [] \/ sep = [0x2D]) /\ (2 <= length a)%nat /\ (2 <= length (sep ++ b))%nat /\ 
    same_letters p1 a /\ same_letters p2 b /\ v = p1 ++ 0x20 :: p2.

(** A found candidate is a tried word or a split one, up to letter case. *)
Definition comes_from (E : list Z -> list Z -> Prop) (w x : list Z) : Prop :=
  (exists v, E w v /\ same_letters x v) \/ split_of w x.

(** ** Ranks *)

(** Weights of nominal cases. *)
Inductive case_weight : string -> Z -> Prop :=
| cw_nimento : case_weight "nimento"%string 2 | cw_omanto : case_weight "omanto"%string 3 | cw_osanto : case_weight "osanto"%string 5
| cw_sisaolento : case_weight "sisaolento"%string 8 | cw_sisaeronto : case_weight "sisaeronto"%string 12
| cw_sisatulento : case_weight "sisatulento"%string 8 | cw_ulkoolento : case_weight "ulkoolento"%string 12
| cw_ulkoeronto : case_weight "ulkoeronto"%string 30 | cw_ulkotulento : case_weight "ulkotulento"%string 20
| cw_olento : case_weight "olento"%string 20 | cw_tulento : case_weight "tulento"%string 20 | cw_vajanto : case_weight "vajanto"%string 60
| cw_seuranto : case_weight "seuranto"%string 60 | cw_keinonto : case_weight "keinonto"%string 20.
Definition nominal (a : analysis) : Prop :=
  exists n, In n ["nimisana"; "laatusana"; "nimisana_laatusana"; "asemosana"; "etunimi"; "sukunimi"; "paikannimi"; "nimi"]%string /\
    a CLASS = Some (wstr n).
Inductive base_weight (a : analysis) : Z -> Prop :=
| bw_case : forall n p, nominal a -> case_weight n p -> a SIJAMUOTO = Some (wstr n) -> base_weight a p
| bw_no_case : nominal a -> (forall n p, case_weight n p -> a SIJAMUOTO <> Some (wstr n)) -> base_weight a 4
| bw_other : ~ nominal a -> base_weight a 4.

(** Long compounds weigh 8 times more for every part (at most 5 parts are
    counted), words with wrong case 2 or 3 times more. *)
Definition parts_weight (st : list Z) : Z := 8 ^ (Z.of_nat (Nat.min 5 (count_occ Z.eq_dec st 0x3D) - 1)).
Definition verdict_weight (r : spellresult) : Z :=
  match r with SPELL_OK => 1 | SPELL_CAP_FIRST => 2 | _ => 3 end.
Definition weighs (w : list Z) (a : analysis) (r : spellresult) (p : Z) : Prop :=
  exists b st, base_weight a b /\ a STRUCTURE = Some st /\ graded w st r /\ p = b * parts_weight st * verdict_weight r.

(** The rank of a word: the smallest weight of the analyses with the best
    verdict. *)
Definition word_rank (an : analyzer) (v : list Z) (p : Z) : Prop :=
  exists r, (exists a, In a (an false v) /\ weighs v a r p) /\
    forall a q p', In a (an false v) -> weighs v a q p' -> as_good r q /\ (q = r -> p <= p').

(** The rank of a candidate before it is weighted by the number of earlier
    candidates: that of the word, or the sum of the ranks of its parts, six times
    this if the space is in place of a hyphen. *)
Definition candidate_rank (an : analyzer) (w x : list Z) (p : Z) : Prop :=
  (exists v, same_letters x v /\ word_rank an v p) \/
  exists a b u v p1 p2, x = a ++ 0x20 :: b /\ (same_letters a u \/ same_letters a (u ++ [0x2E])) /\ same_letters b v /\
    word_rank an u p1 /\ word_rank an v p2 /\ p = (p1 + p2) * (if Nat.eqb (length x) (length w) then 6 else 1).

(** The part can stand in a split: some analysis wants no other change than an
    initial capital; a final dot of the first part is optional. *)
Definition fits (an : analyzer) (v : list Z) : Prop :=
  exists a st, In a (an false v) /\ a STRUCTURE = Some st /\ (graded v st SPELL_OK \/ graded v st SPELL_CAP_FIRST).
Definition split_known (an : analyzer) (w a b : list Z) : Prop :=
  exists sep, w = a ++ sep ++ b /\ (sep = [0x2D] \/ (sep = [] /\ forall b', b <> 0x2D :: b')) /\ (2 <= length a)%nat /\ (2 <= length (sep ++ b))%nat /\
    (forall a' x y, a = a' ++ [x; y] -> x <> 0x2D /\ y <> 0x2D) /\ (forall x y r, sep ++ b = x :: y :: r -> y <> 0x2D) /\
    (fits an (small_first a) \/ exists a', a = a' ++ [0x2E] /\ fits an (small_first a')) /\ fits an (small_first b).

(** [l'] is [l] in order of increasing rank; entries of equal rank keep their
    order. *)
Definition by_rank (x y : list Z * Z) : Prop := snd x <= snd y.
Definition stably_sorted (l l' : list (list Z * Z)) : Prop :=
  Permutation l l' /\ StronglySorted by_rank l' /\
  forall p, filter (fun x => snd x =? p) l' = filter (fun x => snd x =? p) l.

(** ** Returned suggestions *)

(** The text that is corrected: with IGNORE_DOT, without its final dot. *)
Definition searched (h : handle) (n : list Z) (dot : bool) (core : list Z) : Prop :=
  if dot then ignore_dot h = true /\ n = core ++ [0x2E]
  else core = n /\ (ignore_dot h = true -> forall x, n <> x ++ [0x2E]).

(** The removed dot is put back unless the found word already ends with one. *)
Definition dotted (dot : bool) (x y : list Z) : Prop :=
  if dot then (y = x /\ exists x', x = x' ++ [0x2E]) \/ (y = x ++ [0x2E] /\ forall x', x <> x' ++ [0x2E])
  else y = x.

(** Letter case follows the original. *)
Definition all_capitals (w : list Z) : Prop := ~ no_cased w /\ no_small w.
Definition starts_capital (w : list Z) : Prop := exists c r, w = c :: r /\ (capital c \/ c = SCHWA).
Definition small_text (w : list Z) : Prop := ~ no_small w /\ no_capital w.
Definition case_follows (up : bool) (orig d z : list Z) : Prop :=
  (all_capitals orig -> z = if up then map upper d else d) /\
  (starts_capital orig -> ~ no_small orig -> small_text d -> exists c r, d = c :: r /\ z = upper c :: r) /\
  (~ all_capitals orig -> ~ (starts_capital orig /\ ~ no_small orig /\ small_text d) -> z = d).

(** The same text up to the choice of apostrophes and hyphens. *)
Definition respelt (c d : Z) : Prop := d = c \/ unit_of [d] [c].
Definition same_text (x y : list Z) : Prop := Forall2 respelt x y.

(** How a found candidate is returned. *)
Definition returned (h : handle) (core : list Z) (dot : bool) (x : list Z * Z) (y : list Z) : Prop :=
  exists d z, dotted dot (fst x) d /\ case_follows (accept_all_uppercase h) core d z /\ same_text z y.
