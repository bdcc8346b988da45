(** * What the attributes of an analysis say

    The remarks of an output give the values of the attributes.  If several
    remarks give a value for one attribute, the last one counts. *)
From Verif Require Import Base CharModel AnalysisModel FinModel FinSpec FinWordSpec.

(** ** Values and their short names in the remarks *)
Definition classes : list (string * string) :=
  [("n", "nimisana"); ("l", "laatusana"); ("h", "huudahdussana"); ("ee", "etunimi"); ("es", "sukunimi"); ("ep", "paikannimi"); ("em", "nimi");
   ("t", "teonsana"); ("a", "lyhenne"); ("s", "seikkasana"); ("u", "lukusana"); ("ur", "lukusana"); ("r", "asemosana"); ("c", "sidesana");
   ("d", "suhdesana"); ("k", "kieltosana"); ("p", "etuliite")]%string.
Definition cases : list (string * string) :=
  [("n", "nimento"); ("g", "omanto"); ("p", "osanto"); ("es", "olento"); ("tr", "tulento"); ("ine", "sisaolento"); ("ela", "sisaeronto");
   ("ill", "sisatulento"); ("ade", "ulkoolento"); ("abl", "ulkoeronto"); ("all", "ulkotulento"); ("ab", "vajanto"); ("ko", "seuranto");
   ("in", "keinonto"); ("sti", "kerrontosti"); ("ak", "kohdanto")]%string.
Definition numbers : list (string * string) := [("y", "singular"); ("m", "plural")]%string.
Definition persons : list (string * string) := [("1", "1"); ("2", "2"); ("3", "3"); ("4", "4")]%string.
Definition moods : list (string * string) :=
  [("n1", "A-infinitive"); ("n2", "E-infinitive"); ("n3", "MA-infinitive"); ("n4", "MINEN-infinitive"); ("n5", "MAINEN-infinitive");
   ("t", "indicative"); ("e", "conditional"); ("k", "imperative"); ("m", "potential")]%string.
Definition tenses : list (string * string) := [("p", "present_simple"); ("i", "past_imperfective")]%string.
Definition focuses : list (string * string) := [("kin", "kin"); ("kaan", "kaan")]%string.
Definition possessives : list (string * string) := [("1y", "1s"); ("2y", "2s"); ("1m", "1p"); ("2m", "2p"); ("3", "3")]%string.
Definition degrees : list (string * string) := [("c", "comparative"); ("s", "superlative")]%string.
Definition negatives : list (string * string) := [("t", "true"); ("f", "false"); ("b", "both")]%string.
Definition participles : list (string * string) :=
  [("v", "present_active"); ("a", "present_passive"); ("u", "past_active"); ("t", "past_passive"); ("m", "agent"); ("e", "negation")]%string.

(** The remark is [letter] and the short name of [v]. *)
Definition says (letter : ascii) (table : list (string * string)) (x : item) (v : list Z) : Prop :=
  exists k n, In (k, n) table /\ x = Tag (ch letter :: wstr k) /\ v = wstr n.

(** ** The last remark

    [P before x behind v]: the item [x], which stands between the items [before]
    and [behind], gives the value [v]. *)
Definition place := list item -> item -> list item -> list Z -> Prop.

(** The value given by the last item of [l] that gives one; [before] stands before
    [l]. *)
Definition last_said (P : place) (before l : list item) (r : option (list Z)) : Prop :=
  match r with
  | Some v => exists a x b, l = a ++ x :: b /\ P (before ++ a) x b v /\
      forall a' x' b' v', b = a' ++ x' :: b' -> ~ P (before ++ a ++ x :: a') x' b' v'
  | None => forall a x b v, l = a ++ x :: b -> ~ P (before ++ a) x b v
  end.

(** ** The class

    A boundary behind a hyphen: the part before it, and with it the word if nothing
    follows that has a class, is a prefix.  Before the boundary there have to be
    at least five characters of the output. *)
Definition prefix_end (before : list item) (x : item) : Prop :=
  x = Boundary (ch "c") /\ (5 <= length (render before))%nat /\ exists a, before = a ++ [Hyphen] \/ before = a ++ [Hyphen; mark].

(** A word that can be noun or adjective is an adjective if it has an ending of
    adjectives, or if it belongs to a numeral. *)
Definition adjective (before behind : list item) : Prop :=
  (exists y, In y behind /\ (remark_is "Ssti" y \/ exists v, says "C" degrees y v)) \/ (exists r, before = Class "u" :: r).

Definition gives_class : place := fun before x behind v =>
  (exists k n, In (k, n) classes /\ x = Class k /\ v = wstr n) \/
  (x = Class "nl" /\ adjective before behind /\ v = wstr "laatusana") \/
  (x = Class "nl" /\ ~ adjective before behind /\ v = wstr "nimisana_laatusana") \/
  (prefix_end before x /\ v = wstr "etuliite").

(** The class is known from what stands behind the item [x]. *)
Definition class_behind (before : list item) (x : item) (behind : list item) (r : option (list Z)) : Prop :=
  last_said gives_class (before ++ [x]) behind r.

(** A compound goes on behind [x]. *)
Definition part_behind (before : list item) (x : item) (behind : list item) : Prop :=
  exists a b, behind = a ++ Boundary (ch "c") :: b /\ (5 <= length (render (before ++ x :: a)))%nat.

(** Moods count only if the class is not yet known from what stands behind. *)
Definition gives_mood : place := fun before x behind v => says "T" moods x v /\ class_behind before x behind None.

(** ** What gives the value of an attribute *)
Definition place_of (k : Key) : place := fun before x behind v =>
  match k with
  | CLASS => gives_class before x behind v
  | NUMBER => says "N" numbers x v /\
      ~ class_behind before x behind (Some (wstr "etuliite")) /\ ~ class_behind before x behind (Some (wstr "seikkasana"))
  | SIJAMUOTO => says "S" cases x v /\
      ~ class_behind before x behind (Some (wstr "etuliite")) /\ ~ class_behind before x behind (Some (wstr "seikkasana"))
  | PERSON => says "P" persons x v
  | MOOD => gives_mood before x behind v
  | TENSE => says "A" tenses x v
  | FOCUS => says "F" focuses x v
  | KYSYMYSLIITE => remark_is "Fko" x /\ v = wstr "true"
  | POSSESSIVE => says "O" possessives x v
  | COMPARISON => says "C" degrees x v /\ class_behind before x behind None
  | NEGATIVE => says "E" negatives x v
  | PARTICIPLE => says "R" participles x v /\ ~ part_behind before x behind /\
      (class_behind before x behind None \/ class_behind before x behind (Some (wstr "laatusana")) \/ exists r, behind = r ++ [Class "n"])
  | MALAGA_VAPAA_JALKIOSA => remark_is "Ivj" x /\ (forall r, before <> Hyphen :: r) /\ v = wstr "true"
  | POSSIBLE_GEOGRAPHICAL_NAME => remark_is "Ica" x /\ ~ In (Boundary (ch "c")) behind /\ ~ In (Class "l") behind /\
      (class_behind before x behind None \/ class_behind before x behind (Some (wstr "nimisana")) \/
       class_behind before x behind (Some (wstr "nimisana_laatusana"))) /\ v = wstr "true"
  | REQUIRE_FOLLOWING_VERB => ((remark_is "Ira" x /\ v = wstr "A-infinitive") \/ (remark_is "Irm" x /\ v = wstr "MA-infinitive")) /\
      (class_behind before x behind None \/ class_behind before x behind (Some (wstr "teonsana"))) /\
      forall m, In m ["E-infinitive"; "MINEN-infinitive"; "MA-infinitive"]%string -> ~ last_said gives_mood (before ++ [x]) behind (Some (wstr m))
  | _ => False
  end.

(** The value that the remarks of the output give. *)
Definition said (l : list item) (k : Key) (r : option (list Z)) : Prop := last_said (place_of k) [] l r.

(** ** The attributes of an analysis *)
Definition value_is (r : option (list Z)) (s : string) : Prop := r = Some (wstr s).

(** All attributes say what the remarks say, with four exceptions: the past
    participle of the passive is an adjective; words that are not verbs, and some
    infinitives, have no negation; adverbs in "-sti" have no number; adjectives
    have a degree of comparison, at least "positive", and nouns have none.  There is
    no weight. *)
Definition attributes_of (l : list item) (a : analysis) : Prop :=
  (forall k, In k [PERSON; TENSE; FOCUS; KYSYMYSLIITE; POSSESSIVE; SIJAMUOTO; MOOD; PARTICIPLE; MALAGA_VAPAA_JALKIOSA; POSSIBLE_GEOGRAPHICAL_NAME;
                   REQUIRE_FOLLOWING_VERB; WEIGHT] -> said l k (a k)) /\
  exists class number degree negative,
    said l CLASS class /\ said l NUMBER number /\ said l COMPARISON degree /\ said l NEGATIVE negative /\
    (value_is (a PARTICIPLE) "past_passive" -> value_is (a CLASS) "laatusana") /\
    (~ value_is (a PARTICIPLE) "past_passive" -> a CLASS = class) /\
    (value_is (a SIJAMUOTO) "kerrontosti" -> a NUMBER = None) /\
    (~ value_is (a SIJAMUOTO) "kerrontosti" -> a NUMBER = number) /\
    (let not_verb := (class <> None /\ ~ value_is class "teonsana") \/ value_is (a MOOD) "MINEN-infinitive" \/
                     value_is (a MOOD) "E-infinitive" \/ value_is (a MOOD) "MA-infinitive" in
     (not_verb -> a NEGATIVE = None) /\ (~ not_verb -> a NEGATIVE = negative)) /\
    (let compared := value_is (a CLASS) "laatusana" \/ value_is (a CLASS) "nimisana_laatusana" in
     (degree = None -> (compared -> value_is (a COMPARISON) "positive") /\ (~ compared -> a COMPARISON = None)) /\
     (degree <> None -> (value_is (a CLASS) "nimisana" -> a COMPARISON = None) /\ (~ value_is (a CLASS) "nimisana" -> a COMPARISON = degree))).

(** Outputs in which all remarks that start with [B] are [[Bh]]. *)
Definition usual (l : list item) : Prop := Forall good_item l /\ forall t, In (Tag t) l -> hd 0 t = ch "B" -> t = wstr "Bh".

(** ** Names of organisations

    The remark [[Ion]] on the last part of a compound: the compound can also be the
    name of an organisation.  A boundary at the very end of the output does not
    count. *)
Definition organisation (l : list item) : Prop :=
  (forall r, l <> Hyphen :: r) /\ (forall r, l <> Class "a" :: r) /\
  exists a m b, l = a ++ Boundary (ch "c") :: m ++ Tag (wstr "Ion") :: b /\ (4 <= length (render a))%nat /\
    forall b1 b2, b = b1 ++ Boundary (ch "c") :: b2 -> b2 = [].
