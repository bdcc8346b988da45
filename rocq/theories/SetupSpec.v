(** * Language tags and dictionaries: specification *)
From Verif Require Import Base SetupModel.
From Coq Require Import Permutation Sorted.

(** ** Tags *)

Definition ascii_capital (c : Z) : Prop := 65 <= c <= 90.
(** Letters that differ at most in case (A-Z, a-z). *)
Definition same_letter (c d : Z) : Prop :=
  c = d \/ (ascii_capital c /\ d = c + 32) \/ (ascii_capital d /\ c = d + 32).
Definition has (p s : list Z) : Prop := exists a b, s = a ++ p ++ b.

(** Reading of a tag into a fresh object. *)
Definition reads (s : list Z) (t : tag) : Prop := setBcp47 empty_tag s = Ok t.

(** The parts of a tag that was read. *)
Definition normal_tag (t : tag) : Prop :=
  (~ In 0x2D (language t) /\ ~ In 0x5F (language t) /\ Forall (fun c => ~ ascii_capital c) (language t)) /\
  (script t = [] \/ length (script t) = 4%nat) /\
  (~ In 0x2D (privateUse t) /\ Forall (fun c => ~ ascii_capital c) (privateUse t)).

(** ** Dictionaries *)

(** The request is satisfied by the dictionary. *)
Definition satisfies (requested available : tag) : Prop :=
  language requested = language available /\ script requested = script available /\
  (privateUse requested = [] \/ privateUse requested = privateUse available \/
   (privateUse requested = wstr "standard" /\ privateUse available = [])).

(** The directories that may hold a dictionary, in order. *)
Definition dictionary_dirs (directory : list Z -> list (list Z)) (locations : list (list Z)) : list (list Z) :=
  flat_map (fun l => map (fun n => (l ++ wstr "/5") ++ wstr "/" ++ n)
     (filter (fun n => starts_with (wstr "mor-") n && negb (Nat.eqb (length (skipn 4 n)) 0)) (directory (l ++ wstr "/5")))) locations.
(** The dictionaries in them, in order of discovery. *)
Definition discovered (directory file : list Z -> list (list Z)) (locations : list (list Z)) (ds : list dictionary) : Prop :=
  Forall2 (fun dir d => dictionaryFromPath dir (file (dir ++ wstr "/index.txt")) = Ok d) (dictionary_dirs directory locations) ds.
(** Locations in order of precedence. *)
Definition search_path (defaults : list (list Z)) (path : list Z) : list (list Z) :=
  match path with [] => defaults | _ => path :: defaults end.

(** [d] is the first of [ds] with [P]. *)
Definition first_with (P : dictionary -> Prop) (ds : list dictionary) (d : dictionary) : Prop :=
  P d /\ exists a b, ds = a ++ d :: b /\ Forall (fun x => ~ P x) a.
Definition same_but_default (d e : dictionary) : Prop := setDefault d false = setDefault e false.

Definition valid (d : dictionary) : Prop := language (dtag d) <> [].
Definition named (k : list Z) (d : dictionary) : Prop := valid d /\ toBcp47 (dtag d) = k.
(** The dictionary declares to be the default of its language. *)
Definition declares_default (lang : list Z) (d : dictionary) : Prop :=
  valid d /\ language (dtag d) = lang /\ privateUse (dtag d) = wstr "default".

(** Order of strings as in a telephone directory of bytes. *)
Inductive precedes : list Z -> list Z -> Prop :=
| pr_nil : forall c b, precedes [] (c :: b)
| pr_less : forall c a d b, c < d -> precedes (c :: a) (d :: b)
| pr_same : forall c a b, precedes a b -> precedes (c :: a) (c :: b).

Definition tag_precedes (a b : tag) : Prop :=
  precedes (language a) (language b) \/
  (language a = language b /\ (precedes (script a) (script b) \/ (script a = script b /\ precedes (privateUse a) (privateUse b)))).

(** [d] is offered before the others of its language. *)
Definition offered_first (l : list dictionary) (d : dictionary) : Prop :=
  isDefault d = true \/
  ((privateUse (dtag d) = wstr "standard" \/ length (toBcp47 (dtag d)) = 10%nat) /\
   ~ exists e, In e l /\ isDefault e = true /\ language (dtag e) = language (dtag d)).
(** Increasing order of names. *)
Definition by_name (l : list dictionary) : Prop := StronglySorted precedes (map (fun d => toBcp47 (dtag d)) l).

(** The list agrees with what was discovered. *)
Record listing (ds l : list dictionary) : Prop := {
  (* each name once *)
  ls_names : NoDup (map (fun d => toBcp47 (dtag d)) l);
  (* an entry is the first dictionary discovered with its name *)
  ls_first : forall d, In d l -> exists e, first_with (named (toBcp47 (dtag d))) ds e /\ same_but_default d e;
  (* every name is listed *)
  ls_all : forall e, In e ds -> valid e -> exists d, In d l /\ dtag d = dtag e;
  (* the default of a language is the name of the first that declares it *)
  ls_default : forall d, In d l ->
    (isDefault d = true <-> exists x, first_with (declares_default (language (dtag d))) ds x /\ dtag x = dtag d)
}.

(** Components of a search path. *)
Fixpoint join_path (l : list (list Z)) : list Z :=
  match l with [] => [] | [x] => x | x :: r => x ++ 0x3A :: join_path r end.
