(** * The attributes of an analysis, remark by remark *)
From Verif Require Import Base BaseFacts CharModel AnalysisModel AnalysisProps FinModel FinSpec FinStructure FinTotal FinAttributes FinWordSpec FinHyphens FinWordBase FinAttrSpec.
From Coq Require Import Lia.

(** ** Tables *)

Definition pair_in (k v : list Z) (tb : list (string * string)) : bool := existsb (fun '(k', n) => zlist_eqb k (wstr k') && zlist_eqb v (wstr n)) tb.
Definition table_ok (m : wmap) (tb : list (string * string)) : bool :=
  forallb (fun '(k, v) => pair_in k v tb) m &&
  forallb (fun '(k', n) => match wmap_find m (wstr k') with Some v => zlist_eqb v (wstr n) | None => false end) tb.

Lemma find_pair : forall m k v, wmap_find m k = Some v -> In (k, v) m.
Proof.
  induction m as [|[k' v'] m IH]; intros k v H; [discriminate|]. cbn [wmap_find] in H. destruct (zlist_eqb k' k) eqn:E; [|right; auto].
  apply zlist_eqb_eq in E. injection H as <-. left. now subst.
Qed.
Lemma table_find : forall m tb, table_ok m tb = true -> forall t v, wmap_find m t = Some v <-> exists k n, In (k, n) tb /\ t = wstr k /\ v = wstr n.
Proof.
  intros m tb H t v. unfold table_ok in H. apply andb_true_iff in H. destruct H as [A B]. rewrite forallb_forall in A, B. split.
  - intros F. apply find_pair, A in F. unfold pair_in in F. apply existsb_exists in F. destruct F as ([k n] & I & E). apply andb_true_iff in E. destruct E as [E1 E2].
    apply zlist_eqb_eq in E1, E2. exists k, n. auto.
  - intros (k & n & I & -> & ->). specialize (B _ I). cbn beta iota in B. destruct (wmap_find m (wstr k)) as [v|]; [|discriminate]. apply zlist_eqb_eq in B. now subst.
Qed.

(** The tables of the program and those of the specification. *)
Definition tables : list (wmap * list (string * string)) :=
  [(classMap, ("nl", "nimisana_laatusana")%string :: classes); (sijamuotoMap, cases); (numberMap, numbers); (personMap, persons); (moodMap, moods); (tenseMap, tenses);
   (focusMap, focuses); (possessiveMap, possessives); (comparisonMap, degrees); (negativeMap, negatives); (participleMap, participles)].
Ltac in_table := unfold tables; cbn [In]; tauto.
Lemma tables_ok : forallb (fun '(m, tb) => table_ok m tb) tables = true.
Proof. vm_compute. reflexivity. Qed.
Lemma in_tables : forall m tb, In (m, tb) tables -> forall t v, wmap_find m t = Some v <-> exists k n, In (k, n) tb /\ t = wstr k /\ v = wstr n.
Proof. intros m tb I. apply table_find. pose proof tables_ok as H. rewrite forallb_forall in H. exact (H _ I). Qed.

Lemma says_find : forall m tb c t letter v, In (m, tb) tables -> says letter tb (Tag (c :: t)) v <-> c = ch letter /\ wmap_find m t = Some v.
Proof.
  intros m tb c t letter v I. rewrite (in_tables _ _ I). split.
  - intros (k & n & J & E & ->). injection E as -> ->. split; [reflexivity|]. eauto.
  - intros (-> & k & n & J & -> & ->). exists k, n. auto.
Qed.

Lemma says_unique : forall m tb letter x v v', In (m, tb) tables -> says letter tb x v -> says letter tb x v' -> v = v'.
Proof.
  intros m tb letter x v v' I A B. pose proof A as (k & n & J & -> & _). apply (says_find m tb _ _ _ _ I) in A. apply (says_find m tb _ _ _ _ I) in B. destruct A as [_ A]. destruct B as [_ B]. congruence.
Qed.

(** ** The last remark *)

Lemma last_said_cons : forall P pre x l r, last_said P pre (x :: l) r <->
  (exists v, last_said P (pre ++ [x]) l (Some v) /\ r = Some v) \/
  (last_said P (pre ++ [x]) l None /\ match r with Some v => P pre x l v | None => forall v, ~ P pre x l v end).
Proof.
  intros P pre x l r. split.
  - destruct r as [v|]; cbn [last_said].
    + intros (a & y & b & E & A & N). destruct a as [|z a]; cbn [app] in E; injection E as -> ->.
      * right. rewrite app_nil_r in A. split; [|exact A]. intros a' x' b' v' E. specialize (N a' x' b' v' E). cbn [app] in N. now rewrite <- app_assoc.
      * left. exists v. split; [|reflexivity]. exists a, y, b. split; [reflexivity|]. rewrite <- !app_assoc. split; [exact A|]. intros a' x' b' v' E. rewrite <- app_assoc. exact (N a' x' b' v' E).
    + intros N. right. split.
      * intros a y b v E. rewrite <- app_assoc. apply (N (x :: a)). now rewrite E.
      * intros v. specialize (N [] x l v eq_refl). now rewrite app_nil_r in N.
  - intros [(v & L & ->)|[L M]].
    + destruct L as (a & y & b & -> & A & N). exists (x :: a), y, b. split; [reflexivity|]. rewrite <- app_assoc in A. split; [exact A|]. intros a' x' b' v' E. specialize (N a' x' b' v' E). rewrite <- app_assoc in N. exact N.
    + destruct r as [v|]; cbn [last_said] in *.
      * exists [], x, l. split; [reflexivity|]. rewrite app_nil_r. split; [exact M|]. intros a' x' b' v' E. specialize (L a' x' b' v' E). now rewrite <- app_assoc in L.
      * intros a y b v E. destruct a as [|z a]; cbn [app] in E; injection E as -> ->; [rewrite app_nil_r; apply M|]. specialize (L a y b v eq_refl). now rewrite <- app_assoc in L.
Qed.

Definition functional (P : place) : Prop := forall a x b v v', P a x b v -> P a x b v' -> v = v'.

Lemma last_said_unique : forall P, functional P -> forall l pre r r', last_said P pre l r -> last_said P pre l r' -> r = r'.
Proof.
  intros P F. induction l as [|x l IH]; intros pre r r' A B.
  - destruct r as [v|]; [destruct A as (a & y & b & E & _); destruct a; discriminate|]. destruct r' as [v|]; [destruct B as (a & y & b & E & _); destruct a; discriminate|]. reflexivity.
  - apply last_said_cons in A. apply last_said_cons in B. destruct A as [(v & A & ->)|[A A']], B as [(w & B & ->)|[B B']].
    + exact (IH _ _ _ A B).
    + pose proof (IH _ _ _ A B). discriminate.
    + pose proof (IH _ _ _ A B). discriminate.
    + destruct r as [v|], r' as [w|]; try reflexivity; [f_equal; exact (F _ _ _ _ _ A' B')|now elim (B' v)|now elim (A' w)].
Qed.

Lemma last_said_keep : forall P pre x l r, (forall v, ~ P pre x l v) -> last_said P (pre ++ [x]) l r -> last_said P pre (x :: l) r.
Proof. intros P pre x l r N H. apply last_said_cons. destruct r as [v|]; [left; eauto|right; auto]. Qed.
Lemma last_said_old : forall P pre x l v, last_said P (pre ++ [x]) l (Some v) -> last_said P pre (x :: l) (Some v).
Proof. intros P pre x l v H. apply last_said_cons. left. eauto. Qed.
Lemma last_said_new : forall P pre x l v, last_said P (pre ++ [x]) l None -> P pre x l v -> last_said P pre (x :: l) (Some v).
Proof. intros P pre x l v H N. apply last_said_cons. right. auto. Qed.

Lemma wstr_inj : forall a b, wstr a = wstr b -> a = b.
Proof.
  induction a as [|c a IH]; intros [|d b] H; try discriminate H; [reflexivity|]. cbn [wstr] in H. injection H as H1 H2. f_equal; [|auto].
  apply N2Z.inj in H1. apply (f_equal ascii_of_N) in H1. now rewrite !ascii_N_embedding in H1.
Qed.

Lemma nl_not_class : forall n, ~ In ("nl"%string, n) classes.
Proof. intros n H. cbn [In classes] in H. repeat (destruct H as [H|H]; [injection H; discriminate|]). exact H. Qed.

Lemma class_find : forall k v, k <> "nl"%string -> wmap_find classMap (wstr k) = Some v -> exists n, In (k, n) classes /\ v = wstr n.
Proof.
  intros k v N H. apply (in_tables classMap (("nl", "nimisana_laatusana")%string :: classes)) in H; [|now left]. destruct H as (k' & n & [I|I] & E & ->).
  - injection I as <- <-. exfalso. apply N. now apply wstr_inj.
  - apply wstr_inj in E. subst k'. eauto.
Qed.

Lemma class_unique : forall k n n', In (k, n) classes -> In (k, n') classes -> wstr n = wstr n'.
Proof.
  intros k n n' A B. assert (T : In (classMap, ("nl", "nimisana_laatusana")%string :: classes) tables) by (now left).
  assert (X : wmap_find classMap (wstr k) = Some (wstr n)) by (apply (in_tables _ _ T); exists k, n; split; [now right|auto]).
  assert (Y : wmap_find classMap (wstr k) = Some (wstr n')) by (apply (in_tables _ _ T); exists k, n'; split; [now right|auto]).
  congruence.
Qed.

Lemma class_functional : functional gives_class.
Proof.
  intros a x b v v' A B.
  destruct A as [(k & n & I & -> & ->)|[(-> & AD & ->)|[(-> & AD & ->)|[(-> & _) ->]]]], B as [(k' & n' & I' & E & ->)|[(E & AD' & ->)|[(E & AD' & ->)|[(E & _) ->]]]];
    try reflexivity; try discriminate E; try (now elim AD); try (now elim AD').
  - injection E as <-. exact (class_unique _ _ _ I I').
  - injection E as ->. now elim (nl_not_class n).
  - injection E as ->. now elim (nl_not_class n).
  - injection E as <-. now elim (nl_not_class n').
  - injection E as <-. now elim (nl_not_class n').
Qed.

Lemma mood_functional : functional gives_mood.
Proof. intros a x b v v' [A _] [B _]. eapply says_unique; [|exact A|exact B]. in_table. Qed.

Lemma place_functional : forall k, functional (place_of k).
Proof.
  intros k a x b v v' A B. destruct k; cbn [place_of] in A, B; try (now elim A);
    try (destruct A as [A _]; destruct B as [B _]; eapply says_unique; [|exact A|exact B]; in_table);
    try (eapply says_unique; [|exact A|exact B]; in_table).
  all: try (now eapply class_functional; eassumption).
  all: try (destruct A as (_ & ->); destruct B as (_ & ->); reflexivity).
  all: try (destruct A as (_ & _ & ->); destruct B as (_ & _ & ->); reflexivity).
  all: try (destruct A as (_ & _ & _ & _ & ->); destruct B as (_ & _ & _ & _ & ->); reflexivity).
  all: try (eapply mood_functional; eassumption).
  destruct A as [A _]. destruct B as [B _]. destruct A as [[(u & A) ->]|[(u & A) ->]], B as [[(w & B) ->]|[(w & B) ->]]; try reflexivity; subst x; discriminate.
Qed.

(** ** The state behind an item *)

Definition state_ok (pre post : list item) (s : basic_state) : Prop :=
  (forall k, last_said (place_of k) pre post (battributes s k)) /\
  (classSet s = negb (is_none (battributes s CLASS))) /\
  (battributes s CLASS = None -> (convertNimiLaatusanaToLaatusana s = true <-> exists y, In y post /\ remark_is "Ssti" y)) /\
  (bcPassed s = true <-> exists a b, post = a ++ Boundary (ch "c") :: b /\ (5 <= length (render (pre ++ a)))%nat).

(** Items that say nothing. *)
Definition silent (pre : list item) (x : item) (post : list item) : Prop :=
  (forall k v, ~ place_of k pre x post v) /\ ~ remark_is "Ssti" x /\ (x = Boundary (ch "c") -> (length (render pre) < 5)%nat).

Lemma bc_cons : forall pre x post, (x = Boundary (ch "c") -> (length (render pre) < 5)%nat) ->
  ((exists a b, post = a ++ Boundary (ch "c") :: b /\ (5 <= length (render ((pre ++ [x]) ++ a)))%nat) <->
   (exists a b, x :: post = a ++ Boundary (ch "c") :: b /\ (5 <= length (render (pre ++ a)))%nat)).
Proof.
  intros pre x post N. split; intros (a & b & E & L).
  - exists (x :: a), b. rewrite <- app_assoc in L. split; [now rewrite E|exact L].
  - destruct a as [|y a]; cbn [app] in E; injection E as -> E.
    + exfalso. rewrite app_nil_r in L. specialize (N eq_refl). lia.
    + exists a, b. rewrite <- app_assoc. auto.
Qed.

Lemma sti_cons : forall x post, ~ remark_is "Ssti" x -> ((exists y, In y post /\ remark_is "Ssti" y) <-> exists y, In y (x :: post) /\ remark_is "Ssti" y).
Proof. intros x post N. split; intros (y & I & R); exists y; (split; [|exact R]); [now right|]. destruct I as [<-|I]; [now elim N|exact I]. Qed.

Lemma silent_ok : forall pre x post s, silent pre x post -> state_ok (pre ++ [x]) post s -> state_ok pre (x :: post) s.
Proof.
  intros pre x post s (N & R & B) (A1 & A2 & A3 & A4). split; [|split; [exact A2|split]].
  - intros k. apply last_said_keep; [intros v; apply N|apply A1].
  - intros C. rewrite (A3 C). apply sti_cons, R.
  - rewrite A4. apply bc_cons, B.
Qed.

(** The letter with which remarks for an attribute start. *)
Definition letter_of (k : Key) : Z :=
  match k with
  | NUMBER => ch "N" | SIJAMUOTO => ch "S" | PERSON => ch "P" | MOOD => ch "T" | TENSE => ch "A" | FOCUS | KYSYMYSLIITE => ch "F" | POSSESSIVE => ch "O"
  | COMPARISON => ch "C" | NEGATIVE => ch "E" | PARTICIPLE => ch "R" | MALAGA_VAPAA_JALKIOSA | POSSIBLE_GEOGRAPHICAL_NAME | REQUIRE_FOLLOWING_VERB => ch "I"
  | _ => 0
  end.
Lemma says_letter : forall letter tb c t v, says letter tb (Tag (c :: t)) v -> c = ch letter.
Proof. intros letter tb c t v (k & n & _ & E & _). now injection E. Qed.
Lemma remark_letter : forall s c t, remark_is s (Tag (c :: t)) -> s <> EmptyString -> c = hd 0 (wstr s).
Proof. intros s c t [u E] N. destruct s as [|a s]; [congruence|]. cbn [wstr app hd] in *. now injection E. Qed.
Lemma place_letter : forall k pre c t post v, place_of k pre (Tag (c :: t)) post v -> c = letter_of k.
Proof.
  intros k pre c t post v H. destruct k; cbn [place_of letter_of] in *; try (now elim H);
    try (now destruct H as [H _]; apply says_letter in H); try (now apply says_letter in H); try (now destruct H as [H _]; apply remark_letter in H).
  - exfalso. destruct H as [(k & n & _ & E & _)|[(E & _)|[(E & _)|[(E & _) _]]]]; discriminate.
  - destruct H as [[[H _]|[H _]] _]; now apply remark_letter in H.
Qed.

(** A remark that changes the attributes with its letter only. *)
Lemma tag_update : forall pre c t post s a' conv,
  state_ok (pre ++ [Tag (c :: t)]) post s ->
  (forall k, letter_of k <> c -> a' k = battributes s k) -> c <> 0 ->
  (forall k, letter_of k = c -> last_said (place_of k) pre (Tag (c :: t) :: post) (a' k)) ->
  (battributes s CLASS = None -> (conv = true <-> (convertNimiLaatusanaToLaatusana s = true \/ remark_is "Ssti" (Tag (c :: t))))) ->
  state_ok pre (Tag (c :: t) :: post) (mk_bs a' conv (bcPassed s) (classSet s)).
Proof.
  intros pre c t post s a' conv (A1 & A2 & A3 & A4) O NZ U C.
  assert (CL : a' CLASS = battributes s CLASS) by (apply O; cbn [letter_of]; congruence).
  split; [|split; [|split]]; cbn [battributes convertNimiLaatusanaToLaatusana bcPassed classSet].
  - intros k. destruct (Z.eq_dec (letter_of k) c) as [E|E]; [now apply U|]. rewrite O by exact E. apply last_said_keep; [|apply A1]. intros v H. apply place_letter in H. congruence.
  - now rewrite CL.
  - rewrite CL. intros N. rewrite (C N), (A3 N). split; [intros [(y & I & R)|R]; [exists y; split; [now right|exact R]|eexists; split; [now left|exact R]]|].
    intros (y & [<-|I] & R); [now right|left; eauto].
  - rewrite A4. apply bc_cons. discriminate.
Qed.

Lemma tag_same : forall pre c t post s, state_ok (pre ++ [Tag (c :: t)]) post s -> c <> 0 -> ~ remark_is "Ssti" (Tag (c :: t)) ->
  (forall k v, letter_of k = c -> place_of k pre (Tag (c :: t)) post v -> battributes s k <> None) -> state_ok pre (Tag (c :: t) :: post) s.
Proof.
  intros pre c t post s SO NZ R N. pose proof SO as (A1 & _). destruct s as [a conv bc cs]. refine (tag_update pre c t post _ a conv SO _ NZ _ _); [reflexivity| |tauto].
  intros k E. cbn [battributes] in *. specialize (A1 k). destruct (a k) as [v|] eqn:V; [now apply last_said_old|]. apply last_said_keep; [|exact A1]. intros v H. now apply (N k v E H).
Qed.

(** ** Remarks *)

Definition setv (a : analysis) (key : Key) (m : wmap) (t : list Z) : analysis :=
  match a key with
  | Some _ => a
  | None => match wmap_find m t with Some v => add a key v | None => a end
  end.

Lemma setv_other : forall a key m t k, k <> key -> setv a key m t k = a k.
Proof. intros a key m t k N. unfold setv. destruct (a key); [reflexivity|]. destruct (wmap_find m t); [|reflexivity]. apply add_other. congruence. Qed.

Lemma setv_said : forall a key m t pre x post, last_said (place_of key) (pre ++ [x]) post (a key) -> (forall v, place_of key pre x post v <-> wmap_find m t = Some v) ->
  last_said (place_of key) pre (x :: post) (setv a key m t key).
Proof.
  intros a key m t pre x post H E. unfold setv. destruct (a key) as [v|] eqn:A; [rewrite A; now apply last_said_old|]. destruct (wmap_find m t) as [v|] eqn:F.
  - rewrite add_same by exact A. apply last_said_new; [exact H|]. now apply E.
  - rewrite A. apply last_said_keep; [|exact H]. intros v Q. apply E in Q. congruence.
Qed.

Lemma body_skip : forall P c t R, skipn (length P + 2) (P ++ ch "[" :: (c :: t) ++ ch "]" :: R) = t ++ ch "]" :: R.
Proof. intros P c t R. rewrite skipn_app_more. reflexivity. Qed.

Lemma pba : forall a P c t R key m, parseBasicAttribute a (P ++ ch "[" :: (c :: t) ++ ch "]" :: R) (length P + 2 + length t) (length P) key m = Ok (setv a key m t).
Proof.
  intros a P c t R key m. unfold parseBasicAttribute, setv. destruct (a key); [reflexivity|]. replace (length P + 2 + length t <? length P + 2)%nat with false by lia.
  rewrite body_skip. replace (length P + 2 + length t - length P - 2)%nat with (length t) by lia. rewrite firstn_app, Nat.sub_diag, firstn_all. cbn [firstn]. rewrite app_nil_r. now destruct (wmap_find m t).
Qed.

Lemma starts_tag : forall P c t R s, ~ In (ch "]") (wstr s) -> starts (P ++ ch "[" :: (c :: t) ++ ch "]" :: R) (length P + 2) s = Ok (zlist_eqb (firstn (length (wstr s)) t) (wstr s)).
Proof. intros P c t R s N. replace (length P + 2)%nat with (length P + S 1)%nat by lia. rewrite (starts_body P (c :: t) R s 1) by (cbn [length]; try lia; exact N). reflexivity. Qed.

Lemma firstn_remark : forall (a : ascii) s c t, zlist_eqb (firstn (length (wstr s)) t) (wstr s) = true -> c = ch a -> remark_is (String a s) (Tag (c :: t)).
Proof.
  intros a s c t H ->. apply begins_iff. unfold begins. cbn [wstr length firstn zlist_eqb]. rewrite H. unfold ch. rewrite Z.eqb_refl. reflexivity.
Qed.
Lemma remark_firstn : forall (a : ascii) s c t, remark_is (String a s) (Tag (c :: t)) -> zlist_eqb (firstn (length (wstr s)) t) (wstr s) = true.
Proof. intros a s c t H. apply begins_iff in H. unfold begins in H. cbn [wstr length firstn zlist_eqb] in H. now apply andb_true_iff in H. Qed.

Lemma class_known : forall pre x post s, state_ok (pre ++ [x]) post s -> forall r, class_behind pre x post r <-> battributes s CLASS = r.
Proof.
  intros pre x post s (A & _) r. unfold class_behind. split.
  - intros H. eapply last_said_unique; [exact class_functional| |exact H]. exact (A CLASS).
  - intros <-. exact (A CLASS).
Qed.

Lemma is_iff : forall v s, is v s = true <-> v = wstr s.
Proof. intros v s. unfold is. split; [apply zlist_eqb_eq|intros ->; apply zlist_eqb_refl]. Qed.

Lemma takes_iff : forall a, takes_number a = true <-> a CLASS <> Some (wstr "etuliite") /\ a CLASS <> Some (wstr "seikkasana").
Proof.
  intros a. unfold takes_number. destruct (a CLASS) as [v|]; [|split; [intros _; split; discriminate|reflexivity]].
  rewrite andb_true_iff, !negb_true_iff. rewrite <- !not_true_iff_false, !is_iff. generalize (wstr "etuliite") (wstr "seikkasana"). intros u w. split; intros [A B]; split; congruence.
Qed.

Lemma is_none_iff : forall (A : Type) (x : option A), is_none x = true <-> x = None.
Proof. intros A [x|]; cbn; split; congruence. Qed.

Lemma Key_eq_dec : forall a b : Key, {a = b} + {a <> b}.
Proof. decide equality. Qed.

(** A remark that sets one attribute. *)
Lemma set_one : forall pre c t post s key m (letter : ascii),
  state_ok (pre ++ [Tag (c :: t)]) post s -> c = ch letter -> letter_of key = ch letter -> ch letter <> 0 -> ~ remark_is "Ssti" (Tag (c :: t)) ->
  (forall k, letter_of k = ch letter -> k <> key -> forall v, ~ place_of k pre (Tag (c :: t)) post v) ->
  (forall v, place_of key pre (Tag (c :: t)) post v <-> wmap_find m t = Some v) ->
  state_ok pre (Tag (c :: t) :: post) (set_attributes s (setv (battributes s) key m t)).
Proof.
  intros pre c t post s key m letter SO -> LK NZ NS OT E. unfold set_attributes. refine (tag_update _ _ _ _ _ _ _ SO _ NZ _ _).
  - intros k N. apply setv_other. congruence.
  - intros k Q. destruct (Key_eq_dec k key) as [->|N].
    + apply setv_said; [apply SO|exact E].
    + rewrite setv_other by exact N. apply last_said_keep; [exact (OT k Q N)|apply SO].
  - tauto.
Qed.

(** ** Searching the output for a tag *)

Lemma contains_skip : forall s u v, ~ In (ch "[") u -> contains (ch "[" :: s) (u ++ v) = contains (ch "[" :: s) v.
Proof.
  induction u as [|c u IH]; intros v N; [reflexivity|]. cbn [app contains length firstn zlist_eqb].
  replace (c =? ch "[") with false by (symmetry; apply Z.eqb_neq; intros ->; apply N; now left). cbn [andb orb]. apply IH. intros I. apply N. now right.
Qed.
Lemma contains_open : forall s w, contains (ch "[" :: s) (ch "[" :: w) = zlist_eqb (firstn (length s) w) s || contains (ch "[" :: s) w.
Proof. intros s w. cbn [contains length firstn zlist_eqb]. rewrite Z.eqb_refl. reflexivity. Qed.
Lemma whole_body : forall k body rest, ~ In (ch "]") k -> ~ In (ch "]") body ->
  zlist_eqb (firstn (length (k ++ [ch "]"])) (body ++ ch "]" :: rest)) (k ++ [ch "]"]) = zlist_eqb body k.
Proof.
  induction k as [|c k IH]; intros body rest N M.
  - destruct body as [|d body]; [cbn [app length firstn zlist_eqb]; now rewrite Z.eqb_refl|]. cbn [app length firstn zlist_eqb].
    replace (d =? ch "]") with false by (symmetry; apply Z.eqb_neq; intros ->; apply M; now left). reflexivity.
  - destruct body as [|d body].
    + cbn [app length firstn zlist_eqb]. replace (ch "]" =? c) with false by (symmetry; apply Z.eqb_neq; intros <-; apply N; now left). reflexivity.
    + cbn [app length firstn zlist_eqb]. rewrite IH; [reflexivity|intros I; apply N; now right|intros I; apply M; now right].
Qed.

(** A tag [[k]]. *)
Definition has_body (k : list Z) (x : item) : bool :=
  match x with
  | Boundary c => zlist_eqb [ch "B"; c] k
  | Class c => zlist_eqb (ch "L" :: wstr c) k
  | Tag t => zlist_eqb t k
  | _ => false
  end.

Lemma contains_tag : forall k body v, ~ In (ch "[") body -> ~ In (ch "]") body -> ~ In (ch "]") k ->
  contains (ch "[" :: k ++ [ch "]"]) (ch "[" :: body ++ ch "]" :: v) = zlist_eqb body k || contains (ch "[" :: k ++ [ch "]"]) v.
Proof.
  intros k body v N M K. rewrite contains_open, whole_body by assumption. f_equal. rewrite (contains_skip _ body) by exact N. apply (contains_skip _ [ch "]"] v).
  intros [H|[]]. discriminate H.
Qed.

Lemma contains_item : forall k x v, good_item x -> ~ In (ch "]") k -> hd 0 k <> ch "X" -> k <> [] ->
  contains (ch "[" :: k ++ [ch "]"]) (render_item x ++ v) = has_body k x || contains (ch "[" :: k ++ [ch "]"]) v.
Proof.
  intros k x v G K KX KN.
  assert (X : forall body w, ~ In (ch "[") body -> hd 0 body = ch "X" -> body <> [] -> contains (ch "[" :: k ++ [ch "]"]) (ch "[" :: body ++ w) = contains (ch "[" :: k ++ [ch "]"]) w).
  { intros body w N H NE. rewrite contains_open, (contains_skip _ body) by exact N. destruct body as [|c body]; [congruence|]. cbn [hd] in H. subst c.
    destruct k as [|d k]; [congruence|]. cbn [hd] in KX. cbn [app length firstn zlist_eqb]. replace (ch "X" =? d) with false by (symmetry; apply Z.eqb_neq; congruence). reflexivity. }
  destruct x; cbn [has_body good_item] in *.
  - apply (contains_skip _ [c] v). intros [->|[]]. apply G. vm_compute. tauto.
  - apply (contains_skip _ [ch "-"] v). intros [H|[]]. discriminate H.
  - apply (contains_skip _ [ch ":"] v). intros [H|[]]. discriminate H.
  - change (render_item (Boundary k0) ++ v) with (ch "[" :: [ch "B"; k0] ++ ch "]" :: v). apply contains_tag; [| |exact K].
    + intros [H|[->|[]]]; [discriminate H|]. apply G. vm_compute. tauto.
    + intros [H|[->|[]]]; [discriminate H|]. apply G. vm_compute. tauto.
  - replace (render_item (Class k0) ++ v) with (ch "[" :: (ch "L" :: wstr k0) ++ ch "]" :: v).
    + apply contains_tag; [| |exact K]; intros H; cbn [In class_names] in G; repeat (destruct G as [<-|G]; [vm_compute in H; intuition discriminate|]); exact G.
    + cbn [render_item]. change (wstr "[L") with [ch "["; ch "L"]. change (wstr "]") with [ch "]"]. cbn [app]. now rewrite <- app_assoc.
  - replace (render_item (Pattern p) ++ v) with (ch "[" :: wstr "Xr]" ++ p ++ ch "[" :: wstr "X]" ++ v).
    + rewrite X by (first [reflexivity|discriminate|vm_compute; intuition discriminate]). destruct G as (G & _). rewrite contains_skip by (intros I; apply G in I; vm_compute in I; intuition discriminate).
      apply X; first [reflexivity|discriminate|vm_compute; intuition discriminate].
    + cbn [render_item]. rewrite <- !app_assoc. reflexivity.
  - destruct G as (G1 & G2 & G3). replace (render_item (Remark k0 t) ++ v) with (ch "[" :: [ch "X"; k0; ch "]"] ++ t ++ ch "[" :: wstr "X]" ++ v).
    + rewrite X; [|intros [H|[->|[H|[]]]]; [discriminate H|apply G1; vm_compute; tauto|discriminate H]|reflexivity|discriminate]. rewrite contains_skip by exact G3.
      apply X; first [reflexivity|discriminate|vm_compute; intuition discriminate].
    + cbn [render_item]. change (wstr "[X") with [ch "["; ch "X"]. change (wstr "]") with [ch "]"]. cbn [app]. rewrite <- !app_assoc. reflexivity.
  - destruct G as (_ & G1 & G2 & _). replace (render_item (Tag t) ++ v) with (ch "[" :: t ++ ch "]" :: v).
    + now apply contains_tag.
    + cbn [render_item]. change (wstr "[") with [ch "["]. change (wstr "]") with [ch "]"]. cbn [app]. now rewrite <- app_assoc.
Qed.

Lemma contains_items : forall k l, Forall good_item l -> ~ In (ch "]") k -> hd 0 k <> ch "X" -> k <> [] -> contains (ch "[" :: k ++ [ch "]"]) (render l) = existsb (has_body k) l.
Proof.
  intros k l G K KX KN. induction G as [|x l G1 G2 IH]; [reflexivity|]. rewrite render_cons, contains_item by assumption. cbn [existsb]. now rewrite IH.
Qed.

Lemma contains_boundary : forall l, Forall good_item l -> contains (wstr "[Bc]") (render l) = true <-> In (Boundary (ch "c")) l.
Proof.
  intros l G. change (wstr "[Bc]") with (ch "[" :: wstr "Bc" ++ [ch "]"]). rewrite contains_items; [|exact G|vm_compute; intuition discriminate|discriminate|discriminate].
  rewrite existsb_exists. rewrite Forall_forall in G. split.
  - intros (x & I & H). destruct x; cbn [has_body] in H; try discriminate H; apply zlist_eqb_eq in H.
    + injection H as ->. exact I.
    + exfalso. specialize (G _ I). subst t. destruct G as (_ & _ & _ & _ & _ & _ & G). discriminate (G eq_refl eq_refl).
  - intros I. exists (Boundary (ch "c")). split; [exact I|reflexivity].
Qed.

Lemma contains_adjective : forall l, Forall good_item l -> contains (wstr "[Ll]") (render l) = true <-> In (Class "l") l.
Proof.
  intros l G. change (wstr "[Ll]") with (ch "[" :: wstr "Ll" ++ [ch "]"]). rewrite contains_items; [|exact G|vm_compute; intuition discriminate|discriminate|discriminate].
  rewrite existsb_exists. rewrite Forall_forall in G. split.
  - intros (x & I & H). destruct x; cbn [has_body] in H; try discriminate H; apply zlist_eqb_eq in H.
    + change (wstr "Ll") with (ch "L" :: wstr "l") in H. injection H as H. apply (wstr_inj k "l") in H. now subst k.
    + exfalso. specialize (G _ I). subst t. destruct G as (_ & _ & _ & _ & _ & G & _). now apply G.
  - intros I. exists (Class "l"). split; [exact I|reflexivity].
Qed.

(** ** The end of the output *)

Lemma item_no_nul : forall x, good_item x -> ~ In 0 (render_item x).
Proof.
  intros x G H. destruct x; cbn [good_item render_item] in *.
  - destruct H as [->|[]]. apply G. now left.
  - vm_compute in H. intuition discriminate.
  - vm_compute in H. intuition discriminate.
  - change (wstr "[B") with [ch "["; ch "B"] in H. change (wstr "]") with [ch "]"] in H. cbn [app In] in H. destruct H as [H|[H|[->|[H|[]]]]]; try discriminate H. apply G. now left.
  - cbn [In class_names] in G. repeat (destruct G as [<-|G]; [vm_compute in H; intuition discriminate|]). exact G.
  - destruct G as (G & _). apply in_app_or in H. destruct H as [H|H]; [vm_compute in H; intuition discriminate|]. apply in_app_or in H. destruct H as [H|H]; [|vm_compute in H; intuition discriminate].
    apply G in H. vm_compute in H. intuition discriminate.
  - destruct G as (G1 & G2 & _). change (wstr "[X") with [ch "["; ch "X"] in H. cbn [app In] in H. destruct H as [H|[H|[->|H]]]; try discriminate H; [apply G1; now left|].
    apply in_app_or in H. destruct H as [H|H]; [vm_compute in H; intuition discriminate|]. apply in_app_or in H. destruct H as [H|H]; [now elim G2|vm_compute in H; intuition discriminate].
  - destruct G as (G & _). apply in_app_or in H. destruct H as [H|H]; [vm_compute in H; intuition discriminate|]. apply in_app_or in H. destruct H as [H|H]; [now elim G|vm_compute in H; intuition discriminate].
Qed.
Lemma render_no_nul : forall l, Forall good_item l -> ~ In 0 (render l).
Proof. intros l G. induction G as [|x l G1 G2 IH]; [intros []|]. rewrite render_cons. intros H. apply in_app_or in H. destruct H as [H|H]; [now apply item_no_nul in H|now apply IH]. Qed.

Lemma render_app : forall a b, render (a ++ b) = render a ++ render b.
Proof. intros a b. unfold render. now rewrite map_app, concat_app. Qed.

Lemma last_four : forall (u v : list Z), length v = 4%nat -> skipn (length (u ++ v) - 4) (u ++ v ++ [0]) = v ++ [0].
Proof. intros u v L. rewrite app_length, L. replace (length u + 4 - 4)%nat with (length u) by lia. apply skipn_app_length. Qed.

Lemma app_tail : forall (A : Type) (a b c d : list A), a ++ b = c ++ d -> length b = length d -> a = c /\ b = d.
Proof.
  intros A. induction a as [|x a IH]; intros b c d E L; destruct c as [|y c]; cbn [app] in E.
  - auto.
  - exfalso. subst b. cbn [length] in L. rewrite app_length in L. lia.
  - exfalso. subst d. cbn [length] in L. rewrite app_length in L. lia.
  - injection E as -> E. destruct (IH _ _ _ E L) as [-> ->]. auto.
Qed.
Lemma cstr_app_nul : forall l, ~ In 0 l -> cstr (l ++ [0]) = l.
Proof.
  induction l as [|c l IH]; intros N; [reflexivity|]. cbn [app cstr]. replace (c =? 0) with false by (symmetry; apply Z.eqb_neq; intros ->; apply N; now left).
  f_equal. apply IH. intros I. apply N. now right.
Qed.

Lemma ends_noun : forall l, Forall good_item l -> (4 <= length (render l))%nat ->
  (zlist_eqb (cstr (skipn (length (render l) - 4) (render l ++ [0]))) (wstr "[Ln]") = true <-> exists r, l = r ++ [Class "n"]).
Proof.
  intros l G L. pose proof (render_no_nul l G) as NN. split.
  - intros H. apply zlist_eqb_eq in H.
    assert (E : exists u, render l = u ++ wstr "[Ln]").
    { rewrite skipn_app in H. replace (length (render l) - 4 - length (render l))%nat with 0%nat in H by lia. change (skipn 0 [0]) with [0] in H. rewrite cstr_app_nul in H.
      - exists (firstn (length (render l) - 4) (render l)). rewrite <- H. symmetry. apply firstn_skipn.
      - intros I. apply NN. rewrite <- (firstn_skipn (length (render l) - 4) (render l)). apply in_or_app. now right. }
    clear H NN L. destruct E as [u E]. destruct l as [|x l] using rev_ind; [destruct u; discriminate E|]. clear IHl. exists l. f_equal. f_equal.
    apply Forall_app in G. destruct G as [_ G]. inversion G as [|? ? G1 _]; subst. clear G. rewrite render_app in E. replace (render [x]) with (render_item x) in E by (unfold render; cbn [map concat]; now rewrite app_nil_r).
    assert (T : forall v w, render_item x = w ++ v -> exists q, q ++ v = u ++ wstr "[Ln]") by (intros v w Q; exists (render l ++ w); rewrite <- app_assoc, <- Q; exact E).
    destruct x; cbn [good_item] in G1.
    + destruct (T [c] [] eq_refl) as [q Q]. change (wstr "[Ln]") with ([ch "["; ch "L"; ch "n"] ++ [ch "]"]) in Q. rewrite app_assoc in Q. apply app_tail in Q; [|reflexivity]. destruct Q as [_ Q]. injection Q as ->. exfalso. apply G1. vm_compute. tauto.
    + destruct (T (wstr "-") [] eq_refl) as [q Q]. change (wstr "[Ln]") with ([ch "["; ch "L"; ch "n"] ++ [ch "]"]) in Q. rewrite app_assoc in Q. apply app_tail in Q; [|reflexivity]. destruct Q as [_ Q]. discriminate Q.
    + destruct (T (wstr ":") [] eq_refl) as [q Q]. change (wstr "[Ln]") with ([ch "["; ch "L"; ch "n"] ++ [ch "]"]) in Q. rewrite app_assoc in Q. apply app_tail in Q; [|reflexivity]. destruct Q as [_ Q]. discriminate Q.
    + destruct (T (render_item (Boundary k)) [] eq_refl) as [q Q]. apply app_tail in Q; [|reflexivity]. destruct Q as [_ Q]. discriminate Q.
    + cbn [In class_names] in G1.
      destruct G1 as [<-|G1]; [reflexivity|].
      repeat (destruct G1 as [<-|G1]; [exfalso;
        match goal with |- context [False] => idtac end;
        match type of E with _ ++ render_item (Class ?k) = _ =>
          let r := eval vm_compute in (render_item (Class k)) in
          let n := eval vm_compute in (length r - 4)%nat in
          destruct (T (skipn n (render_item (Class k))) (firstn n (render_item (Class k))) eq_refl) as [q Q]; apply app_tail in Q; [|reflexivity]; destruct Q as [_ Q]; discriminate Q end|]).
      destruct G1.
    + destruct (T (wstr "[X]") (wstr "[Xr]" ++ p)) as [q Q]; [cbn [render_item]; now rewrite app_assoc|]. change (wstr "[Ln]") with ([ch "["] ++ wstr "Ln]") in Q. rewrite app_assoc in Q. apply app_tail in Q; [|reflexivity]. destruct Q as [_ Q]. discriminate Q.
    + destruct (T (wstr "[X]") (wstr "[X" ++ k :: wstr "]" ++ t)) as [q Q]; [cbn [render_item]; rewrite <- app_assoc; cbn [app]; rewrite <- app_assoc; reflexivity|].
      change (wstr "[Ln]") with ([ch "["] ++ wstr "Ln]") in Q. rewrite app_assoc in Q. apply app_tail in Q; [|reflexivity]. destruct Q as [_ Q]. discriminate Q.
    + exfalso. destruct G1 as (_ & G1 & _ & G2 & _ & G3 & _). destruct t as [|c0 t] using rev_ind; [cbn in G2; lia|]. clear IHt. destruct t as [|c1 t] using rev_ind; [cbn in G2; lia|]. clear IHt.
      destruct t as [|c2 t] using rev_ind.
      * destruct (T (wstr "[" ++ [c1; c0] ++ wstr "]") [] eq_refl) as [q Q]. apply app_tail in Q; [|reflexivity]. destruct Q as [_ Q]. vm_compute in Q. injection Q as -> ->. now apply G3.
      * clear IHt. destruct (T ([c2; c1; c0] ++ wstr "]") (wstr "[" ++ t)) as [q Q]; [cbn [render_item]; rewrite <- !app_assoc; reflexivity|]. apply app_tail in Q; [|reflexivity]. destruct Q as [_ Q]. vm_compute in Q. injection Q as -> _ _.
        apply G1. apply in_or_app. left. apply in_or_app. left. apply in_or_app. right. now left.
  - intros [r ->]. rewrite render_app. change (render [Class "n"]) with (wstr "[Ln]"). rewrite <- (app_assoc (render r)), last_four by reflexivity. vm_compute. reflexivity.
Qed.

(** ** A remark of another kind *)

Lemma not_class_tag : forall pre t post v, ~ gives_class pre (Tag t) post v.
Proof. intros pre t post v [(k & n & _ & E & _)|[(E & _)|[(E & _)|[(E & _) _]]]]; discriminate. Qed.

Lemma not_sti : forall c t, c <> ch "S" -> ~ remark_is "Ssti" (Tag (c :: t)).
Proof. intros c t N H. apply remark_letter in H; [|discriminate]. now apply N. Qed.

Lemma tag_text : forall pre c t post, render (pre ++ Tag (c :: t) :: post) ++ [0] = render pre ++ ch "[" :: (c :: t) ++ ch "]" :: render post ++ [0].
Proof.
  intros pre c t post. rewrite render_app, render_cons. cbn [render_item]. change (wstr "[") with [ch "["]. change (wstr "]") with [ch "]"]. cbn [app]. rewrite <- !app_assoc. cbn [app]. do 3 f_equal. now rewrite <- app_assoc.
Qed.

Lemma tag_length : forall pre c t post, length (render (pre ++ Tag (c :: t) :: post)) = (length (render pre) + 3 + length t + length (render post))%nat.
Proof.
  intros pre c t post. pose proof (f_equal (@length Z) (tag_text pre c t post)) as E. rewrite !app_length in E. cbn [app length] in E. rewrite !app_length in E. cbn [length] in E. rewrite app_length in E. cbn [length] in E. lia.
Qed.

(** Remarks on further attributes, [[I..]]. *)
Lemma info_step : forall pre t post s, Forall good_item (pre ++ Tag (ch "I" :: t) :: post) -> state_ok (pre ++ [Tag (ch "I" :: t)]) post s ->
  exists a', addInfoFlag (battributes s) (render pre ++ ch "[" :: (ch "I" :: t) ++ ch "]" :: render post ++ [0]) (length (render pre) + 2) = Ok a' /\
    state_ok pre (Tag (ch "I" :: t) :: post) (set_attributes s a').
Proof.
  intros pre t post s G SO. pose proof (class_known _ _ _ _ SO) as CK. pose proof SO as (A1 & _).
  assert (MK : forall r, last_said gives_mood (pre ++ [Tag (ch "I" :: t)]) post r <-> battributes s MOOD = r).
  { intros r. split; [|intros <-; exact (A1 MOOD)]. intros H. eapply last_said_unique; [exact mood_functional|exact (A1 MOOD)|exact H]. }
  unfold addInfoFlag. rewrite !starts_tag by (vm_compute; intuition discriminate). cbn [bind].
  assert (KEYS : forall k, letter_of k = ch "I" -> k = MALAGA_VAPAA_JALKIOSA \/ k = POSSIBLE_GEOGRAPHICAL_NAME \/ k = REQUIRE_FOLLOWING_VERB).
  { intros k H. destruct k; try discriminate H; auto. }
  assert (NS : ~ remark_is "Ssti" (Tag (ch "I" :: t))) by (apply not_sti; discriminate).
  assert (UPD : forall a', (forall k, k <> MALAGA_VAPAA_JALKIOSA -> k <> POSSIBLE_GEOGRAPHICAL_NAME -> k <> REQUIRE_FOLLOWING_VERB -> a' k = battributes s k) ->
    (forall k, letter_of k = ch "I" -> last_said (place_of k) pre (Tag (ch "I" :: t) :: post) (a' k)) -> state_ok pre (Tag (ch "I" :: t) :: post) (set_attributes s a')).
  { intros a' O U. unfold set_attributes. refine (tag_update _ _ _ _ _ _ _ SO _ ltac:(discriminate) U _); [|tauto].
    intros k N. apply O; intros ->; now apply N. }
  assert (SAME : (forall k v, letter_of k = ch "I" -> ~ place_of k pre (Tag (ch "I" :: t)) post v) -> state_ok pre (Tag (ch "I" :: t) :: post) (set_attributes s (battributes s))).
  { intros N. apply UPD; [reflexivity|]. intros k L. apply last_said_keep; [intros v; now apply N|apply A1]. }
  assert (ONE : forall key v, letter_of key = ch "I" -> place_of key pre (Tag (ch "I" :: t)) post v -> (forall k, letter_of k = ch "I" -> k <> key -> forall w, ~ place_of k pre (Tag (ch "I" :: t)) post w) ->
    state_ok pre (Tag (ch "I" :: t) :: post) (set_attributes s (add (battributes s) key v))).
  { intros key v LK PK OT. apply UPD.
    - intros k N1 N2 N3. apply add_other. intros ->. destruct (KEYS _ LK) as [H|[H|H]]; congruence.
    - intros k L. destruct (Key_eq_dec k key) as [->|N].
      + destruct (battributes s key) as [w|] eqn:V.
        * unfold add. rewrite V, V. apply last_said_old. rewrite <- V. apply A1.
        * rewrite add_same by exact V. apply last_said_new; [rewrite <- V; apply A1|exact PK].
      + rewrite add_other by congruence. apply last_said_keep; [now apply OT|apply A1]. }
  set (vj := zlist_eqb (firstn (length (wstr "vj")) t) (wstr "vj")). set (ca := zlist_eqb (firstn (length (wstr "ca")) t) (wstr "ca")).
  set (ra := zlist_eqb (firstn (length (wstr "ra")) t) (wstr "ra")). set (rm := zlist_eqb (firstn (length (wstr "rm")) t) (wstr "rm")).
  assert (VJ : remark_is "Ivj" (Tag (ch "I" :: t)) <-> vj = true) by (split; [apply remark_firstn|intros H; now apply firstn_remark]).
  assert (CA : remark_is "Ica" (Tag (ch "I" :: t)) <-> ca = true) by (split; [apply remark_firstn|intros H; now apply firstn_remark]).
  assert (RA : remark_is "Ira" (Tag (ch "I" :: t)) <-> ra = true) by (split; [apply remark_firstn|intros H; now apply firstn_remark]).
  assert (RM : remark_is "Irm" (Tag (ch "I" :: t)) <-> rm = true) by (split; [apply remark_firstn|intros H; now apply firstn_remark]).
  assert (EX : forall p q : bool, forall u w, p = zlist_eqb (firstn (length u) t) u -> q = zlist_eqb (firstn (length w) t) w -> length u = length w -> u <> w -> p = true -> q = true -> False).
  { intros p q u w -> -> L N H1 H2. apply zlist_eqb_eq in H1. apply zlist_eqb_eq in H2. apply N. rewrite <- H1, <- H2. now rewrite L. }
  destruct vj eqn:EVJ.
  - assert (RD : exists d, rd (render pre ++ ch "[" :: (ch "I" :: t) ++ ch "]" :: render post ++ [0]) 0 = Ok d /\ (d = ch "-" <-> exists r, pre = Hyphen :: r)).
    { destruct pre as [|y pre']; [exists (ch "["); split; [reflexivity|split; [discriminate|intros [r H]; discriminate H]]|]. rewrite render_cons.
      assert (GY : good_item y) by (inversion G; assumption).
      destruct y; cbn [render_item]; try (exists (ch "["); split; [reflexivity|split; [discriminate|intros [r H]; discriminate H]]).
      - exists c. split; [reflexivity|]. split; [intros ->; exfalso; apply GY; vm_compute; tauto|intros [r H]; discriminate H].
      - exists (ch "-"). split; [reflexivity|]. split; [eauto|reflexivity].
      - exists (ch ":"). split; [reflexivity|]. split; [discriminate|intros [r H]; discriminate H]. }
    destruct RD as (d & -> & HD). cbn [bind]. eexists. split; [reflexivity|].
    assert (OT : forall k, letter_of k = ch "I" -> k <> MALAGA_VAPAA_JALKIOSA -> forall w, ~ place_of k pre (Tag (ch "I" :: t)) post w).
    { intros k L N w H. destruct (KEYS k L) as [->|[->| ->]]; [congruence| |]; cbn [place_of] in H.
      - destruct H as [H _]. apply CA in H. exact (EX true ca _ _ (eq_sym EVJ) eq_refl eq_refl ltac:(discriminate) eq_refl H).
      - destruct H as [[[H _]|[H _]] _]; [apply RA in H; exact (EX true ra _ _ (eq_sym EVJ) eq_refl eq_refl ltac:(discriminate) eq_refl H)|].
        apply RM in H. exact (EX true rm _ _ (eq_sym EVJ) eq_refl eq_refl ltac:(discriminate) eq_refl H). }
    destruct (d =? ch "-") eqn:Q.
    + apply SAME. intros k v L H. destruct (Key_eq_dec k MALAGA_VAPAA_JALKIOSA) as [->|N]; [|now apply (OT k L N v)]. destruct H as (_ & H & _). apply Z.eqb_eq in Q. apply HD in Q. destruct Q as [r Q]. now apply (H r).
    + apply ONE; [reflexivity| |exact OT]. cbn [place_of]. split; [now apply VJ|]. split; [|reflexivity]. intros r E. apply Z.eqb_neq in Q. apply Q, HD. eauto.
  - destruct ca eqn:ECA.
    + eexists. split; [reflexivity|]. rewrite body_skip.
      replace (cstr (t ++ ch "]" :: render post ++ [0])) with ((t ++ [ch "]"]) ++ render post).
      2: { change (t ++ ch "]" :: render post ++ [0]) with (t ++ ([ch "]"] ++ render post) ++ [0]). rewrite app_assoc. rewrite cstr_app_nul; [now rewrite <- app_assoc|].
           apply Forall_app in G. destruct G as [_ G]. inversion G as [|? ? G1 G2]; subst. intros H. apply in_app_or in H. destruct H as [H|[H|H]]; [apply (proj1 G1); now right|discriminate H|]. now apply (render_no_nul post). }
      assert (GP : Forall good_item post) by (apply Forall_app in G; destruct G as [_ G]; now inversion G).
      assert (NB : ~ In (ch "[") (t ++ [ch "]"])).
      { apply Forall_app in G. destruct G as [_ G]. inversion G as [|? ? G1 G2]; subst. intros H. apply in_app_or in H. destruct H as [H|[H|[]]]; [|discriminate H]. apply (proj1 (proj2 G1)). now right. }
      assert (BC : contains (wstr "[Bc]") ((t ++ [ch "]"]) ++ render post) = true <-> In (Boundary (ch "c")) post).
      { rewrite <- contains_boundary by exact GP. change (wstr "[Bc]") with (ch "[" :: wstr "Bc]"). rewrite (contains_skip (wstr "Bc]") _ _ NB). reflexivity. }
      assert (LL : contains (wstr "[Ll]") ((t ++ [ch "]"]) ++ render post) = true <-> In (Class "l") post).
      { rewrite <- contains_adjective by exact GP. change (wstr "[Ll]") with (ch "[" :: wstr "Ll]"). rewrite (contains_skip (wstr "Ll]") _ _ NB). reflexivity. }
      assert (OT : forall k, letter_of k = ch "I" -> k <> POSSIBLE_GEOGRAPHICAL_NAME -> forall w, ~ place_of k pre (Tag (ch "I" :: t)) post w).
      { intros k L N w H. destruct (KEYS k L) as [->|[->| ->]]; [|congruence|]; cbn [place_of] in H.
        - destruct H as [H _]. apply VJ in H. discriminate H.
        - destruct H as [[[H _]|[H _]] _]; [apply RA in H; exact (EX true ra _ _ (eq_sym ECA) eq_refl eq_refl ltac:(discriminate) eq_refl H)|].
          apply RM in H. exact (EX true rm _ _ (eq_sym ECA) eq_refl eq_refl ltac:(discriminate) eq_refl H). }
      set (noun := match battributes s CLASS with None => true | Some v => zlist_eqb (firstn 8 v) (wstr "nimisana") end).
      assert (NO : noun = true <-> battributes s CLASS = None \/ battributes s CLASS = Some (wstr "nimisana") \/ battributes s CLASS = Some (wstr "nimisana_laatusana")).
      { unfold noun. pose proof (A1 CLASS) as CL. destruct (battributes s CLASS) as [v|]; [|split; [auto|reflexivity]]. split.
        - intros H. apply zlist_eqb_eq in H. right. destruct CL as (b1 & y & b2 & _ & CL & _). destruct CL as [(k & n & I & _ & ->)|[(_ & _ & ->)|[(_ & _ & ->)|(_ & ->)]]]; [|discriminate H|now right|discriminate H].
          cbn [In classes] in I. repeat (destruct I as [I|I]; [injection I as <- <-; first [left; reflexivity|discriminate H]|]). destruct I.
        - intros [H|[H|H]]; [discriminate H| |]; injection H as ->; reflexivity. }
      destruct (negb (contains (wstr "[Bc]") ((t ++ [ch "]"]) ++ render post)) && negb (contains (wstr "[Ll]") ((t ++ [ch "]"]) ++ render post)) && noun) eqn:Q.
      * apply andb_true_iff in Q. destruct Q as [Q Q3]. apply andb_true_iff in Q. destruct Q as [Q1 Q2]. apply negb_true_iff in Q1, Q2. apply ONE; [reflexivity| |exact OT]. cbn [place_of].
        split; [now apply CA|]. split; [intros I; apply BC in I; congruence|]. split; [intros I; apply LL in I; congruence|]. split; [|reflexivity]. rewrite !CK. now apply NO.
      * apply SAME. intros k v L H. destruct (Key_eq_dec k POSSIBLE_GEOGRAPHICAL_NAME) as [->|N]; [|now apply (OT k L N v)]. cbn [place_of] in H. destruct H as (_ & H1 & H2 & H3 & _). rewrite !CK in H3. apply NO in H3.
        rewrite H3, andb_true_r in Q. apply andb_false_iff in Q. destruct Q as [Q|Q]; apply negb_false_iff in Q; [now apply H1, BC|now apply H2, LL].
    + eexists. split; [reflexivity|].
      assert (OT : forall k, letter_of k = ch "I" -> k <> REQUIRE_FOLLOWING_VERB -> forall w, ~ place_of k pre (Tag (ch "I" :: t)) post w).
      { intros k L N w H. destruct (KEYS k L) as [->|[->| ->]]; [| |congruence]; cbn [place_of] in H; destruct H as [H _]; [apply VJ in H|apply CA in H]; discriminate H. }
      set (mood := match battributes s MOOD with None => true | Some v => negb (is v "E-infinitive") && negb (is v "MINEN-infinitive") && negb (is v "MA-infinitive") end).
      set (verb := match battributes s CLASS with None => true | Some v => is v "teonsana" end).
      assert (MO : mood = true <-> forall m, In m ["E-infinitive"; "MINEN-infinitive"; "MA-infinitive"]%string -> battributes s MOOD <> Some (wstr m)).
      { unfold mood. destruct (battributes s MOOD) as [v|]; [|split; [intros _ m _; discriminate|reflexivity]]. rewrite !andb_true_iff, !negb_true_iff, <- !not_true_iff_false, !is_iff. split.
        - intros [[H1 H2] H3] m [<-|[<-|[<-|[]]]] E; injection E as E; auto.
        - intros H. repeat split; intros E; [apply (H "E-infinitive"%string)|apply (H "MINEN-infinitive"%string)|apply (H "MA-infinitive"%string)]; try (now rewrite E); cbn; tauto. }
      assert (VE : verb = true <-> battributes s CLASS = None \/ battributes s CLASS = Some (wstr "teonsana")).
      { unfold verb. destruct (battributes s CLASS) as [v|]; [|split; [auto|reflexivity]]. rewrite is_iff. generalize (wstr "teonsana"). intros u. split; [intros ->; now right|intros [H|H]; congruence]. }
      destruct (mood && verb) eqn:Q.
      * apply andb_true_iff in Q. destruct Q as [Q1 Q2]. rewrite MO in Q1. rewrite VE in Q2.
        assert (REST : (class_behind pre (Tag (ch "I" :: t)) post None \/ class_behind pre (Tag (ch "I" :: t)) post (Some (wstr "teonsana"))) /\
          forall m, In m ["E-infinitive"; "MINEN-infinitive"; "MA-infinitive"]%string -> ~ last_said gives_mood (pre ++ [Tag (ch "I" :: t)]) post (Some (wstr m))).
        { rewrite !CK. split; [exact Q2|]. intros m I. rewrite MK. now apply Q1. }
        destruct ra eqn:ERA; [|destruct rm eqn:ERM].
        -- apply ONE; [reflexivity| |exact OT]. cbn [place_of]. split; [left; split; [now apply RA|reflexivity]|exact REST].
        -- apply ONE; [reflexivity| |exact OT]. cbn [place_of]. split; [right; split; [now apply RM|reflexivity]|exact REST].
        -- apply SAME. intros k v L H. destruct (Key_eq_dec k REQUIRE_FOLLOWING_VERB) as [->|N]; [|now apply (OT k L N v)]. cbn [place_of] in H. destruct H as [[[H _]|[H _]] _]; [apply RA in H|apply RM in H]; discriminate H.
      * apply SAME. intros k v L H. destruct (Key_eq_dec k REQUIRE_FOLLOWING_VERB) as [->|N]; [|now apply (OT k L N v)]. cbn [place_of] in H. destruct H as (_ & H1 & H2). rewrite !CK in H1. apply VE in H1.
        assert (mood = true) by (apply MO; intros m I E; apply (H2 m I); now apply MK). rewrite H, H1 in Q. discriminate Q.
Qed.

Ltac other_letter := match goal with |- context [ch ?a =? ch ?b] => change (ch a =? ch b) with false end; cbn match.

Lemma tag_step : forall pre c t post s, Forall good_item (pre ++ Tag (c :: t) :: post) -> (c = ch "B" -> c :: t = wstr "Bh") -> state_ok (pre ++ [Tag (c :: t)]) post s ->
  let o := render (pre ++ Tag (c :: t) :: post) in
  exists s', basic_tag (o ++ [0]) (length o) (length (render pre) + 2 + length t) (length (render pre)) s = Ok s' /\ state_ok pre (Tag (c :: t) :: post) s'.
Proof.
  intros pre c t post s G HB SO o. pose proof (class_known _ _ _ _ SO) as CK. pose proof SO as (A1 & _).
  assert (LEN : length o = (length (render pre) + 3 + length t + length (render post))%nat) by apply tag_length.
  assert (GT : good_item (Tag (c :: t))) by (apply Forall_app in G; destruct G as [_ G]; now inversion G).
  assert (C0 : c <> 0) by (intros ->; apply (proj1 GT); now left).
  assert (TX : o ++ [0] = render pre ++ ch "[" :: (c :: t) ++ ch "]" :: render post ++ [0]) by apply tag_text.
  unfold basic_tag. rewrite TX. rewrite (rd_app _ (render pre) _ c 1) by reflexivity. cbn [bind]. cbv zeta. rewrite !pba. cbn [bind].
  destruct (c =? ch "L") eqn:QL.
  { exfalso. apply Z.eqb_eq in QL. now apply (proj1 (proj2 (proj2 (proj2 (proj2 (proj2 GT)))))). }
  destruct (c =? ch "N") eqn:QN.
  { apply Z.eqb_eq in QN. subst c. clear QL HB. destruct (takes_number (battributes s)) eqn:TN.
    - eexists. split; [reflexivity|]. apply takes_iff in TN. apply (set_one _ _ _ _ _ _ _ "N" SO); try reflexivity; try discriminate; try (apply not_sti; discriminate).
      + intros k L N. destruct k; try discriminate L. congruence.
      + intros v. cbn [place_of]. rewrite !CK, (says_find numberMap numbers) by in_table. tauto.
    - exists s. split; [reflexivity|]. apply (tag_same _ _ _ _ _ SO); [discriminate|apply not_sti; discriminate|].
      intros k v L H. exfalso. destruct k; try discriminate L. cbn [place_of] in H. rewrite !CK in H. destruct H as (_ & H). apply takes_iff in H. congruence. }
  destruct (c =? ch "P") eqn:QP.
  { apply Z.eqb_eq in QP. subst c. clear QL QN HB. eexists. split; [reflexivity|]. apply (set_one _ _ _ _ _ _ _ "P" SO); try reflexivity; try discriminate; try (apply not_sti; discriminate).
    - intros k L N. destruct k; try discriminate L. congruence.
    - intros v. cbn [place_of]. rewrite (says_find personMap persons) by in_table. tauto. }
  destruct (c =? ch "S") eqn:QS.
  { apply Z.eqb_eq in QS. subst c. clear QL QN QP HB. destruct (takes_number (battributes s)) eqn:TN.
    - assert (ST : exists x, (if (length (render pre) + 5 <? length o)%nat then starts (render pre ++ ch "[" :: (ch "S" :: t) ++ ch "]" :: render post ++ [0]) (length (render pre) + 2) "sti" else Ok false) = Ok x /\
        (x = true <-> remark_is "Ssti" (Tag (ch "S" :: t)))).
      { rewrite starts_tag by (vm_compute; intuition discriminate). destruct (length (render pre) + 5 <? length o)%nat eqn:Q5.
        - eexists. split; [reflexivity|]. split; [intros H; now apply firstn_remark|apply remark_firstn].
        - exists false. split; [reflexivity|]. split; [discriminate|]. intros [u E]. exfalso. change (wstr "Ssti" ++ u) with (ch "S" :: ch "s" :: ch "t" :: ch "i" :: u) in E. injection E as ->. cbn [length] in LEN. apply Nat.ltb_ge in Q5. lia. }
      destruct ST as (x & -> & XI). cbn [bind]. eexists. split; [reflexivity|]. apply takes_iff in TN.
      assert (S1 : forall conv, (conv = true <-> convertNimiLaatusanaToLaatusana s = true \/ remark_is "Ssti" (Tag (ch "S" :: t))) ->
        state_ok pre (Tag (ch "S" :: t) :: post) (mk_bs (setv (battributes s) SIJAMUOTO sijamuotoMap t) conv (bcPassed s) (classSet s))).
      { intros conv CV. refine (tag_update _ _ _ _ _ _ _ SO _ ltac:(discriminate) _ _); [| |intros _; exact CV].
        - intros k N. apply setv_other. intros ->. now apply N.
        - intros k L. destruct k; try discriminate L. apply setv_said; [apply A1|]. intros v. cbn [place_of]. rewrite !CK, (says_find sijamuotoMap cases) by in_table. tauto. }
      destruct x; cbn [set_attributes battributes convertNimiLaatusanaToLaatusana bcPassed classSet]; apply S1.
      + split; [intros _; right; now apply XI|reflexivity].
      + split; [intros H; now left|]. intros [H|H]; [exact H|]. apply XI in H. discriminate H.
    - exists s. split; [reflexivity|]. destruct s as [a conv bc cs]. refine (tag_update _ _ _ _ _ _ _ SO _ ltac:(discriminate) _ _); [reflexivity| |].
      + intros k L. destruct k; try discriminate L. apply last_said_keep; [|apply A1]. intros v H. cbn [place_of] in H. rewrite !CK in H. destruct H as (_ & H). apply takes_iff in H. congruence.
      + intros N. exfalso. unfold takes_number in TN. rewrite N in TN. discriminate TN. }
  assert (NS : ~ remark_is "Ssti" (Tag (c :: t))) by (apply not_sti; now apply Z.eqb_neq).
  destruct (c =? ch "T") eqn:QT.
  { apply Z.eqb_eq in QT. subst c. clear QL QN QP QS HB. destruct (is_none (battributes s CLASS)) eqn:IN.
    - eexists. split; [reflexivity|]. apply is_none_iff in IN. apply (set_one _ _ _ _ _ _ _ "T" SO); try reflexivity; try discriminate; try assumption.
      + intros k L N. destruct k; try discriminate L. congruence.
      + intros v. cbn [place_of]. unfold gives_mood. rewrite !CK, (says_find moodMap moods) by in_table. tauto.
    - exists s. split; [reflexivity|]. apply (tag_same _ _ _ _ _ SO); [discriminate|assumption|].
      intros k v L H. exfalso. destruct k; try discriminate L. cbn [place_of] in H. unfold gives_mood in H. rewrite !CK in H. destruct H as (_ & H). apply is_none_iff in H. congruence. }
  destruct (c =? ch "A") eqn:QA.
  { apply Z.eqb_eq in QA. subst c. clear QL QN QP QS QT HB. eexists. split; [reflexivity|]. apply (set_one _ _ _ _ _ _ _ "A" SO); try reflexivity; try discriminate; try assumption.
    - intros k L N. destruct k; try discriminate L. congruence.
    - intros v. cbn [place_of]. rewrite (says_find tenseMap tenses) by in_table. tauto. }
  destruct (c =? ch "F") eqn:QF.
  { apply Z.eqb_eq in QF. subst c. clear QL QN QP QS QT QA HB. rewrite starts_tag by (vm_compute; intuition discriminate). cbn [bind].
    set (ko := zlist_eqb (firstn (length (wstr "ko")) t) (wstr "ko")).
    assert (KO : remark_is "Fko" (Tag (ch "F" :: t)) <-> ko = true) by (split; [apply remark_firstn|intros H; now apply firstn_remark]).
    assert (NF : ko = true -> forall v, ~ says "F" focuses (Tag (ch "F" :: t)) v).
    { intros H v (k & n & I & E & _). injection E as ->. subst ko. destruct I as [I|[I|[]]]; injection I as <- <-; discriminate H. }
    destruct ko eqn:EKO.
    - eexists. split; [reflexivity|]. unfold set_attributes. refine (tag_update _ _ _ _ _ _ _ SO _ ltac:(discriminate) _ _); [| |tauto].
      + intros k N. apply add_other. intros <-. now apply N.
      + intros k L. destruct k; try discriminate L.
        * rewrite add_other by discriminate. apply last_said_keep; [|apply A1]. intros v H. now apply (NF eq_refl v).
        * destruct (battributes s KYSYMYSLIITE) as [w|] eqn:V.
          -- unfold add. rewrite V, V. apply last_said_old. rewrite <- V. apply A1.
          -- rewrite add_same by exact V. apply last_said_new; [rewrite <- V; apply A1|]. cbn [place_of]. split; [now apply KO|reflexivity].
    - eexists. split; [reflexivity|]. apply (set_one _ _ _ _ _ _ _ "F" SO); try reflexivity; try discriminate; try assumption.
      + intros k L N v H. destruct k; try discriminate L; [congruence|]. destruct H as [H _]. apply KO in H. discriminate H.
      + intros v. cbn [place_of]. rewrite (says_find focusMap focuses) by in_table. tauto. }
  destruct (c =? ch "O") eqn:QO.
  { apply Z.eqb_eq in QO. subst c. clear QL QN QP QS QT QA QF HB. eexists. split; [reflexivity|]. apply (set_one _ _ _ _ _ _ _ "O" SO); try reflexivity; try discriminate; try assumption.
    - intros k L N. destruct k; try discriminate L. congruence.
    - intros v. cbn [place_of]. rewrite (says_find possessiveMap possessives) by in_table. tauto. }
  destruct (c =? ch "C") eqn:QC.
  { apply Z.eqb_eq in QC. subst c. clear QL QN QP QS QT QA QF QO HB. destruct (is_none (battributes s CLASS)) eqn:IN.
    - eexists. split; [reflexivity|]. apply is_none_iff in IN. apply (set_one _ _ _ _ _ _ _ "C" SO); try reflexivity; try discriminate; try assumption.
      + intros k L N. destruct k; try discriminate L. congruence.
      + intros v. cbn [place_of]. rewrite !CK, (says_find comparisonMap degrees) by in_table. tauto.
    - exists s. split; [reflexivity|]. apply (tag_same _ _ _ _ _ SO); [discriminate|assumption|].
      intros k v L H. exfalso. destruct k; try discriminate L. cbn [place_of] in H. rewrite !CK in H. destruct H as (_ & H). apply is_none_iff in H. congruence. }
  destruct (c =? ch "E") eqn:QE.
  { apply Z.eqb_eq in QE. subst c. clear QL QN QP QS QT QA QF QO QC HB. eexists. split; [reflexivity|]. apply (set_one _ _ _ _ _ _ _ "E" SO); try reflexivity; try discriminate; try assumption.
    - intros k L N. destruct k; try discriminate L. congruence.
    - intros v. cbn [place_of]. rewrite (says_find negativeMap negatives) by in_table. tauto. }
  destruct (c =? ch "R") eqn:QR.
  { apply Z.eqb_eq in QR. subst c. clear QL QN QP QS QT QA QF QO QC QE HB.
    assert (PB : part_behind pre (Tag (ch "R" :: t)) post <-> bcPassed s = true).
    { destruct SO as (_ & _ & _ & A4). rewrite A4. unfold part_behind. split; intros (a & b & E & L); exists a, b; (split; [exact E|]); rewrite <- app_assoc in *; exact L. }
    assert (NP : (forall v, ~ place_of PARTICIPLE pre (Tag (ch "R" :: t)) post v) -> exists s', Ok s = Ok s' /\ state_ok pre (Tag (ch "R" :: t) :: post) s').
    { intros N. exists s. split; [reflexivity|]. apply (tag_same _ _ _ _ _ SO); [discriminate|assumption|]. intros k v L H. exfalso. destruct k; try discriminate L. now apply (N v). }
    destruct (bcPassed s) eqn:BP.
    - apply NP. intros v (_ & H & _). now apply H, PB.
    - assert (AL : exists x, (match battributes s CLASS with None => Ok true | Some v => if is v "laatusana" then Ok true else if (length o <? 4)%nat then UB
        else Ok (zlist_eqb (cstr (skipn (length o - 4) (render pre ++ ch "[" :: (ch "R" :: t) ++ ch "]" :: render post ++ [0]))) (wstr "[Ln]")) end) = Ok x /\
        (x = true <-> battributes s CLASS = None \/ battributes s CLASS = Some (wstr "laatusana") \/ exists r, post = r ++ [Class "n"])).
      { destruct (battributes s CLASS) as [v|]; [|exists true; split; [reflexivity|tauto]]. destruct (is v "laatusana") eqn:IL.
        - exists true. split; [reflexivity|]. apply is_iff in IL. subst v. tauto.
        - replace (length o <? 4)%nat with false by (symmetry; apply Nat.ltb_ge; rewrite LEN; destruct t; [destruct GT as (_ & _ & _ & GT & _); cbn in GT; lia|cbn [length]; lia]).
          eexists. split; [reflexivity|]. rewrite <- TX. unfold o. rewrite ends_noun; [|exact G|].
          + split.
            * intros [r E]. right. right. destruct post as [|y post] using rev_ind.
              -- apply app_inj_tail in E. destruct E as [_ E]. discriminate E.
              -- change (Tag (ch "R" :: t) :: post ++ [y]) with ((Tag (ch "R" :: t) :: post) ++ [y]) in E. rewrite app_assoc in E. apply app_inj_tail in E. destruct E as [_ ->]. eauto.
            * intros [H|[H|[r ->]]]; [discriminate H|exfalso; apply not_true_iff_false in IL; apply IL, is_iff; revert H; generalize (wstr "laatusana"); intros z H; congruence|]. exists (pre ++ Tag (ch "R" :: t) :: r). now rewrite <- app_assoc.
          + fold o. rewrite LEN. destruct t; [destruct GT as (_ & _ & _ & GT & _); cbn in GT; lia|cbn [length]; lia]. }
      destruct AL as (x & -> & XI). cbn [bind]. destruct x.
      + eexists. split; [reflexivity|]. apply (set_one _ _ _ _ _ _ _ "R" SO); try reflexivity; try discriminate; try assumption.
        * intros k L N. destruct k; try discriminate L. congruence.
        * intros v. cbn [place_of]. rewrite !CK, (says_find participleMap participles) by in_table. rewrite PB. split; [tauto|]. intros H. split; [auto|]. split; [discriminate|now apply XI].
      + apply NP. intros v. cbn [place_of]. rewrite !CK. intros (_ & _ & H). apply XI in H. discriminate H. }
  destruct (c =? ch "I") eqn:QI.
  { apply Z.eqb_eq in QI. subst c. destruct (info_step pre t post s G SO) as (a' & -> & R). cbn [bind]. eauto. }
  assert (KEEP : state_ok pre (Tag (c :: t) :: post) s).
  { apply (tag_same _ _ _ _ _ SO); [exact C0|exact NS|]. intros k v L H. exfalso. subst c. destruct k; try discriminate; now elim C0. }
  destruct (c =? ch "B") eqn:QB; [|eauto].
  apply Z.eqb_eq in QB. specialize (HB QB). injection HB as -> ->. rewrite (rd_app _ (render pre) _ (ch "h") 2) by reflexivity. cbn [bind]. change (ch "h" =? ch "c") with false. rewrite andb_false_r. eauto.
Qed.

(** ** Classes *)

Lemma class_text : forall pre k post, render (pre ++ Class k :: post) ++ [0] = render pre ++ ch "[" :: (ch "L" :: wstr k) ++ ch "]" :: render post ++ [0].
Proof.
  intros pre k post. rewrite render_app, render_cons. cbn [render_item]. change (wstr "[L") with [ch "["; ch "L"]. change (wstr "]") with [ch "]"]. cbn [app]. rewrite <- !app_assoc. cbn [app]. do 3 f_equal. now rewrite <- app_assoc.
Qed.

Lemma class_letters : forall k, In k class_names -> ~ In (ch "[") (wstr k) /\ ~ In (ch "]") (wstr k).
Proof. intros k H. cbn [In class_names] in H. repeat (destruct H as [<-|H]; [split; vm_compute; intuition discriminate|]). destruct H. Qed.

Lemma class_known_name : forall k, In k class_names -> k <> "nl"%string -> exists v, wmap_find classMap (wstr k) = Some v.
Proof. intros k H N. cbn [In class_names] in H. repeat (destruct H as [<-|H]; [first [now elim N | eexists; vm_compute; reflexivity]|]). destruct H. Qed.

Lemma only_nl : forall k R, In k class_names -> prefix_eq (wstr "nl") (wstr k ++ ch "]" :: R) = Ok (String.eqb k "nl").
Proof. intros k R H. cbn [In class_names] in H. repeat (destruct H as [<-|H]; [reflexivity|]). destruct H. Qed.

Lemma class_start : forall l, Forall good_item l -> l <> [] -> exists x, starts (render l ++ [0]) 0 "[Lu]" = Ok x /\ (x = true <-> exists r, l = Class "u" :: r).
Proof.
  intros l G NE. destruct l as [|y l]; [congruence|]. inversion G as [|? ? G1 _]; subst. clear G NE. unfold starts. cbn [skipn]. rewrite render_cons.
  assert (F : (forall r, y :: l <> Class "u" :: r) -> prefix_eq (wstr "[Lu]") ((render_item y ++ render l) ++ [0]) = Ok false -> exists x, prefix_eq (wstr "[Lu]") ((render_item y ++ render l) ++ [0]) = Ok x /\ (x = true <-> exists r, y :: l = Class "u" :: r)).
  { intros N E. exists false. split; [exact E|]. split; [discriminate|]. intros [r H]. now elim (N r). }
  destruct y; cbn [good_item] in G1.
  - apply F; [discriminate|]. cbn [render_item app]. change (wstr "[Lu]") with (ch "[" :: wstr "Lu]"). cbn [prefix_eq]. rewrite (proj2 (Z.eqb_neq _ _)); [reflexivity|]. intros <-. apply G1. vm_compute. tauto.
  - apply F; [discriminate|]. reflexivity.
  - apply F; [discriminate|]. reflexivity.
  - apply F; [discriminate|]. reflexivity.
  - pose proof (class_text [] k l) as T. cbn [app] in T. rewrite render_cons in T. rewrite T. change (render []) with (@nil Z). cbn [app]. change (wstr "[Lu]") with (ch "[" :: (wstr "Lu" ++ [ch "]"])). cbn [prefix_eq]. rewrite Z.eqb_refl.
    change (ch "L" :: wstr k ++ ch "]" :: render l ++ [0]) with ((ch "L" :: wstr k) ++ ch "]" :: render l ++ [0]). change (concat (map render_item l)) with (render l).
    rewrite (prefix_whole (wstr "Lu") (ch "L" :: wstr k)).
    + eexists. split; [reflexivity|]. split.
      * intros H. apply zlist_eqb_eq in H. change (wstr "Lu") with (ch "L" :: wstr "u") in H. injection H as H. apply (wstr_inj k "u") in H. subst k. eauto.
      * intros [r H]. injection H as -> _. reflexivity.
    + vm_compute. intuition discriminate.
    + intros [H|H]; [discriminate H|]. now apply class_letters in H.
  - apply F; [discriminate|]. reflexivity.
  - apply F; [discriminate|]. reflexivity.
  - destruct t as [|c t]; [destruct G1 as (_ & _ & _ & G1 & _); cbn in G1; lia|]. apply F; [discriminate|].
    pose proof (tag_text [] c t l) as T. cbn [app] in T. rewrite render_cons in T. rewrite T. change (render []) with (@nil Z). cbn [app]. change (wstr "[Lu]") with (ch "[" :: ch "L" :: wstr "u]"). cbn [prefix_eq app]. rewrite Z.eqb_refl.
    rewrite (proj2 (Z.eqb_neq _ _)); [reflexivity|]. intros <-. now apply (proj1 (proj2 (proj2 (proj2 (proj2 (proj2 G1)))))).
Qed.

(** Nothing in the whole gives a value, so nothing in its end does. *)
Lemma last_said_suffix : forall P a pre b, last_said P pre (a ++ b) None -> last_said P (pre ++ a) b None.
Proof. intros P a pre b H u x v w E. rewrite <- app_assoc. apply (H (a ++ u) x v w). subst b. now rewrite app_assoc. Qed.

Lemma comparison_known : forall pre post s, state_ok pre post s -> battributes s CLASS = None ->
  ((match battributes s COMPARISON with Some v => is v "comparative" || is v "superlative" | None => false end) = true <-> exists y, In y post /\ exists v, says "C" degrees y v).
Proof.
  intros pre post s (A & _) C. pose proof (A COMPARISON) as H. pose proof (A CLASS) as HC. rewrite C in HC. destruct (battributes s COMPARISON) as [v|].
  - destruct H as (a & x & b & -> & (S & _) & _). split.
    + intros _. exists x. split; [apply in_or_app; right; now left|eauto].
    + intros _. destruct S as (k & n & I & _ & ->). destruct I as [I|[I|[]]]; injection I as <- <-; vm_compute; reflexivity.
  - split; [discriminate|]. intros (y & I & v & S). exfalso. apply in_split in I. destruct I as (a & b & ->). apply (H a y b v eq_refl). cbn [place_of]. split; [exact S|].
    unfold class_behind. rewrite <- app_assoc. apply last_said_suffix. rewrite <- app_assoc. exact HC.
Qed.

(** An item that gives nothing but a class. *)
Lemma class_update : forall pre x post s a' bc cs, (forall k v, k <> CLASS -> ~ place_of k pre x post v) -> ~ remark_is "Ssti" x ->
  state_ok (pre ++ [x]) post s -> (forall k, k <> CLASS -> a' k = battributes s k) ->
  last_said gives_class pre (x :: post) (a' CLASS) -> cs = negb (is_none (a' CLASS)) -> (a' CLASS = None -> battributes s CLASS = None) ->
  (bc = true <-> exists a b, x :: post = a ++ Boundary (ch "c") :: b /\ (5 <= length (render (pre ++ a)))%nat) ->
  state_ok pre (x :: post) (mk_bs a' (convertNimiLaatusanaToLaatusana s) bc cs).
Proof.
  intros pre x post s a' bc cs N R (A1 & A2 & A3 & A4) K C CS CN BC. unfold state_ok. cbn [battributes convertNimiLaatusanaToLaatusana bcPassed classSet]. split; [|split; [exact CS|split; [|exact BC]]].
  - intros k. destruct (Key_eq_dec k CLASS) as [->|D]; [exact C|]. rewrite (K k D). apply last_said_keep; [intros v; now apply N|apply A1].
  - intros H. rewrite (A3 (CN H)). now apply sti_cons.
Qed.

Lemma place_class : forall k pre c post v, k <> CLASS -> ~ place_of k pre (Class c) post v.
Proof.
  intros k pre c post v N H. destruct k; cbn [place_of] in H; try (now elim H); try congruence;
    try (destruct H as [(k' & n & _ & E & _) _]; discriminate E); try (destruct H as (k' & n & _ & E & _); discriminate E);
    try (destruct H as [[u E] _]; discriminate E); destruct H as [[[[u E] _]|[[u E] _]] _]; discriminate E.
Qed.
Lemma place_boundary : forall k pre c post v, k <> CLASS -> ~ place_of k pre (Boundary c) post v.
Proof.
  intros k pre c post v N H. destruct k; cbn [place_of] in H; try (now elim H); try congruence;
    try (destruct H as [(k' & n & _ & E & _) _]; discriminate E); try (destruct H as (k' & n & _ & E & _); discriminate E);
    try (destruct H as [[u E] _]; discriminate E); destruct H as [[[[u E] _]|[[u E] _]] _]; discriminate E.
Qed.

Lemma class_step : forall pre k post s, Forall good_item (pre ++ Class k :: post) -> state_ok (pre ++ [Class k]) post s ->
  let o := render (pre ++ Class k :: post) in
  exists s', basic_tag (o ++ [0]) (length o) (length (render pre) + 2 + length (wstr k)) (length (render pre)) s = Ok s' /\ state_ok pre (Class k :: post) s'.
Proof.
  intros pre k post s G SO o. pose proof SO as (A1 & A2 & A3 & A4).
  assert (GC : In k class_names) by (apply Forall_app in G; destruct G as [_ G]; now inversion G).
  assert (TX : o ++ [0] = render pre ++ ch "[" :: (ch "L" :: wstr k) ++ ch "]" :: render post ++ [0]) by apply class_text.
  unfold basic_tag. rewrite TX. rewrite (rd_app _ (render pre) _ (ch "L") 1) by reflexivity. cbn [bind]. change (ch "L" =? ch "L") with true. cbn match. unfold basic_class.
  assert (C2 : exists c, rd (render pre ++ ch "[" :: (ch "L" :: wstr k) ++ ch "]" :: render post ++ [0]) (length (render pre) + 2) = Ok c /\ c <> ch "]").
  { destruct (class_letters k GC) as [_ N]. destruct k as [|c k]; [exfalso; cbn [In class_names] in GC; intuition discriminate|]. exists (Z.of_N (N_of_ascii c)). split; [now apply rd_app|]. intros E. apply N. left. exact E. }
  destruct C2 as (c2 & -> & C2). cbn [bind]. replace (c2 =? ch "]") with false by (symmetry; now apply Z.eqb_neq). rewrite orb_false_r, A2, negb_involutive.
  assert (BC : bcPassed s = true <-> exists a b, Class k :: post = a ++ Boundary (ch "c") :: b /\ (5 <= length (render (pre ++ a)))%nat) by (rewrite A4; apply bc_cons; discriminate).
  destruct (battributes s CLASS) as [w|] eqn:CL; cbn [is_none].
  { exists s. split; [reflexivity|]. destruct s as [a conv bc cs]. cbn [battributes classSet bcPassed] in *. refine (class_update _ _ _ _ a bc cs _ _ SO _ _ _ _ BC); try reflexivity.
    - intros. now apply place_class.
    - intros [u E]. discriminate E.
    - rewrite CL. apply last_said_old. exact (eq_rect _ _ (A1 CLASS) _ CL).
    - now rewrite CL.
    - intros H. exact H. }
  assert (FIN : forall v, gives_class pre (Class k) post v -> state_ok pre (Class k :: post) (mk_bs (add (battributes s) CLASS v) (convertNimiLaatusanaToLaatusana s) (bcPassed s) true)).
  { intros v GV. refine (class_update _ _ _ _ _ _ _ _ _ SO _ _ _ _ BC).
    - intros. now apply place_class.
    - intros [u E]. discriminate E.
    - intros k0 N. apply add_other. congruence.
    - rewrite add_same by exact CL. apply last_said_new; [|exact GV]. pose proof (A1 CLASS) as H. rewrite CL in H. exact H.
    - now rewrite add_same by exact CL.
    - intros _. exact CL. }
  unfold starts at 1. rewrite body_skip, only_nl by exact GC. cbn [bind]. destruct (String.eqb k "nl") eqn:NL.
  - apply String.eqb_eq in NL. subst k. rewrite <- TX. destruct (class_start (pre ++ Class "nl" :: post) G) as (lu & LU & LI); [destruct pre; discriminate|]. fold o in LU. rewrite LU. cbn [bind].
    eexists. split; [reflexivity|]. apply FIN.
    pose proof (comparison_known _ _ _ SO CL) as CK. specialize (A3 eq_refl).
    assert (AD : convertNimiLaatusanaToLaatusana s || match battributes s COMPARISON with Some v => is v "comparative" || is v "superlative" | None => false end || lu = true <-> adjective pre post).
    { unfold adjective. rewrite !orb_true_iff, A3, CK, LI. split.
      - intros [[(y & I & H)|(y & I & H)]|[r H]]; [left; exists y; auto|left; exists y; auto|]. destruct pre as [|p pre]; [discriminate H|]. right. injection H as -> _. eauto.
      - intros [(y & I & [H|H])|[r ->]]; [left; left; eauto|left; right; eauto|]. right. cbn [app]. eauto. }
    destruct (convertNimiLaatusanaToLaatusana s || _ || lu).
    + right. left. split; [reflexivity|]. split; [now apply AD|reflexivity].
    + right. right. left. split; [reflexivity|]. split; [|reflexivity]. intros H. apply AD in H. discriminate H.
  - rewrite pba. cbn [bind]. eexists. split; [reflexivity|]. unfold setv. rewrite CL. apply String.eqb_neq in NL. destruct (class_known_name k GC NL) as (v & V). rewrite V. apply FIN. left.
    destruct (class_find k v NL V) as (n & I & ->). eauto.
Qed.

(** ** Boundaries *)

Lemma render_one : forall x, render [x] = render_item x.
Proof. intros x. unfold render. cbn [map concat]. apply app_nil_r. Qed.

Lemma ends_hyphen : forall l u, Forall good_item l -> render l = u ++ wstr "-" -> exists r, l = r ++ [Hyphen] /\ render r = u.
Proof.
  intros l u G E. destruct l as [|x l] using rev_ind; [destruct u; discriminate E|]. clear IHl. apply Forall_app in G. destruct G as [_ G]. inversion G as [|? ? G1 _]; subst. clear G.
  rewrite render_app, render_one in E.
  assert (T : forall c w, render_item x = w ++ [c] -> c = ch "-" /\ render l ++ w = u).
  { intros c w Q. rewrite Q, app_assoc in E. apply app_inj_tail in E. destruct E as [E1 E2]. auto. }
  assert (B : forall w, render_item x = w ++ [ch "]"] -> False) by (intros w Q; apply T in Q; destruct Q as [Q _]; discriminate Q).
  destruct x; cbn [good_item] in G1.
  - exfalso. destruct (T c [] eq_refl) as [-> _]. apply G1. vm_compute. tauto.
  - exists l. split; [reflexivity|]. destruct (T (ch "-") [] eq_refl) as [_ Q]. now rewrite app_nil_r in Q.
  - destruct (T (ch ":") [] eq_refl) as [Q _]. discriminate Q.
  - exfalso. apply (B [ch "["; ch "B"; k]). reflexivity.
  - exfalso. apply (B (wstr "[L" ++ wstr k)). now rewrite <- app_assoc.
  - exfalso. apply (B (wstr "[Xr]" ++ p ++ wstr "[X")). rewrite <- !app_assoc. reflexivity.
  - exfalso. apply (B (wstr "[X" ++ k :: wstr "]" ++ t ++ wstr "[X")). cbn [render_item app]. rewrite <- !app_assoc. cbn [app]. rewrite <- !app_assoc. reflexivity.
  - exfalso. apply (B (wstr "[" ++ t)). now rewrite <- app_assoc.
Qed.

Lemma ends_mark : forall l u, Forall good_item l -> render l = u ++ wstr "[Bh]" -> exists r, l = r ++ [mark] /\ render r = u.
Proof.
  intros l u G E. destruct l as [|x l] using rev_ind; [destruct u; discriminate E|]. clear IHl. exists l. apply Forall_app in G. destruct G as [_ G]. inversion G as [|? ? G1 _]; subst. clear G.
  rewrite render_app, render_one in E.
  assert (T : forall v w, render_item x = w ++ v -> exists q, q ++ v = u ++ wstr "[Bh]" /\ q = render l ++ w) by (intros v w Q; exists (render l ++ w); rewrite <- app_assoc, <- Q; auto).
  change (wstr "[Bh]") with (ch "[" :: ch "B" :: ch "h" :: [ch "]"]) in *.
  assert (T1 : forall c w, render_item x = w ++ [c] -> c = ch "]").
  { intros c w Q. destruct (T _ _ Q) as (q & Z & _). change (q ++ [c] = u ++ [ch "["; ch "B"; ch "h"] ++ [ch "]"]) in Z. rewrite app_assoc in Z. apply app_inj_tail in Z. tauto. }
  assert (T3 : forall c w, render_item x = w ++ [ch "["; c; ch "]"] -> False).
  { intros c w Q. destruct (T _ _ Q) as (q & Z & _). change (q ++ [ch "["; c; ch "]"] = u ++ [ch "["] ++ [ch "B"; ch "h"; ch "]"]) in Z. rewrite app_assoc in Z. apply app_tail in Z; [|reflexivity]. destruct Z as [_ Z]. discriminate Z. }
  assert (T4 : forall v w, length v = 4%nat -> render_item x = w ++ v -> v = [ch "["; ch "B"; ch "h"; ch "]"] /\ render l ++ w = u).
  { intros v w L Q. destruct (T _ _ Q) as (q & Z & ->). apply app_tail in Z; [|exact L]. tauto. }
  destruct x; cbn [good_item] in G1.
  - exfalso. pose proof (T1 c [] eq_refl) as ->. apply G1. vm_compute. tauto.
  - exfalso. discriminate (T1 (ch "-") [] eq_refl).
  - exfalso. discriminate (T1 (ch ":") [] eq_refl).
  - exfalso. destruct (T4 (render_item (Boundary k)) [] eq_refl eq_refl) as [Q _]. injection Q as ->. apply G1. vm_compute. tauto.
  - exfalso. cbn [In class_names] in G1.
    repeat (destruct G1 as [<-|G1]; [
      match type of E with _ ++ render_item (Class ?k) = _ =>
        let r := eval vm_compute in (render_item (Class k)) in
        let n := eval vm_compute in (length r - 4)%nat in
        destruct (T4 (skipn n (render_item (Class k))) (firstn n (render_item (Class k))) eq_refl eq_refl) as [Q _]; discriminate Q end|]).
    destruct G1.
  - exfalso. apply (T3 (ch "X") (wstr "[Xr]" ++ p)). cbn [render_item]. now rewrite <- app_assoc.
  - exfalso. apply (T3 (ch "X") (wstr "[X" ++ k :: wstr "]" ++ t)). cbn [render_item]. rewrite <- app_assoc. cbn [app]. rewrite <- app_assoc. reflexivity.
  - destruct G1 as (_ & G1 & _ & G2 & _). destruct t as [|c0 t] using rev_ind; [cbn in G2; lia|]. clear IHt. destruct t as [|c1 t] using rev_ind; [cbn in G2; lia|]. clear IHt.
    destruct t as [|c2 t] using rev_ind.
    + destruct (T4 (wstr "[" ++ [c1; c0] ++ wstr "]") [] eq_refl eq_refl) as [Q Q']. injection Q as -> ->. split; [reflexivity|]. now rewrite app_nil_r in Q'.
    + exfalso. clear IHt. destruct (T4 ([c2; c1; c0] ++ wstr "]") (wstr "[" ++ t) eq_refl) as [Q _]; [cbn [render_item]; rewrite <- !app_assoc; reflexivity|]. injection Q as -> _ _.
      apply G1. apply in_or_app. left. apply in_or_app. left. apply in_or_app. right. now left.
Qed.

Lemma boundary_text : forall pre k post, render (pre ++ Boundary k :: post) ++ [0] = render pre ++ ch "[" :: [ch "B"; k] ++ ch "]" :: render post ++ [0].
Proof. intros pre k post. rewrite render_app, render_cons. cbn [render_item]. change (wstr "[B") with [ch "["; ch "B"]. change (wstr "]") with [ch "]"]. cbn [app]. rewrite <- !app_assoc. reflexivity. Qed.

Lemma hyphen_read : forall pre R, Forall good_item pre -> (5 <= length (render pre))%nat ->
  exists c x, rd (render pre ++ R) (length (render pre) - 1) = Ok c /\ starts (render pre ++ R) (length (render pre) - 5) "-[Bh]" = Ok x /\
  ((c =? ch "-") || x = true <-> exists a, pre = a ++ [Hyphen] \/ pre = a ++ [Hyphen; mark]).
Proof.
  intros pre R G L.
  assert (E1 : exists u c, render pre = u ++ [c]) by (destruct (render pre) as [|c u _] using rev_ind; [cbn in L; lia|eauto]). destruct E1 as (u & c & E1).
  assert (E5 : exists w v, render pre = w ++ v /\ length v = 5%nat).
  { exists (firstn (length (render pre) - 5) (render pre)), (skipn (length (render pre) - 5) (render pre)). split; [symmetry; apply firstn_skipn|]. rewrite skipn_length. lia. }
  destruct E5 as (w & v & E5 & L5). exists c, (zlist_eqb v (wstr "-[Bh]")). split; [|split].
  - rewrite E1. rewrite <- app_assoc. apply rd_at. rewrite app_length. cbn [length]. lia.
  - unfold starts. rewrite E5, app_length, L5. replace (length w + 5 - 5)%nat with (length w) by lia. rewrite <- app_assoc, skipn_app_length. clear -L5.
    destruct v as [|a [|b [|c [|d [|e [|f v]]]]]]; try discriminate L5. change (wstr "-[Bh]") with [ch "-"; ch "["; ch "B"; ch "h"; ch "]"]. cbn [prefix_eq app zlist_eqb].
    rewrite !(Z.eqb_sym a), !(Z.eqb_sym b), !(Z.eqb_sym c), !(Z.eqb_sym d), !(Z.eqb_sym e).
    destruct (_ =? a); [|reflexivity]. destruct (_ =? b); [|reflexivity]. destruct (_ =? c); [|reflexivity]. destruct (_ =? d); [|reflexivity]. destruct (_ =? e); [|reflexivity]. reflexivity.
  - rewrite orb_true_iff, Z.eqb_eq. split.
    + intros [->|H].
      * apply ends_hyphen in E1; [|exact G]. destruct E1 as (r & -> & _). eauto.
      * apply zlist_eqb_eq in H. subst v. change (wstr "-[Bh]") with (wstr "-" ++ wstr "[Bh]") in E5. rewrite app_assoc in E5. apply ends_mark in E5; [|exact G]. destruct E5 as (r & -> & E5).
        apply Forall_app in G. destruct G as [G _]. apply ends_hyphen in E5; [|exact G]. destruct E5 as (r' & -> & _). exists r'. right. now rewrite <- app_assoc.
    + intros [a O]. destruct O as [O|O]; subst pre.
      * left. rewrite render_app in E1. change (render [Hyphen]) with [ch "-"] in E1. apply app_inj_tail in E1. symmetry. tauto.
      * right. rewrite render_app in E5. change (render [Hyphen; mark]) with (wstr "-[Bh]") in E5. apply app_tail in E5; [|now rewrite L5]. destruct E5 as [_ <-]. reflexivity.
Qed.

Lemma boundary_step : forall pre k post s, Forall good_item (pre ++ Boundary k :: post) -> state_ok (pre ++ [Boundary k]) post s ->
  let o := render (pre ++ Boundary k :: post) in
  exists s', basic_tag (o ++ [0]) (length o) (length (render pre) + 3) (length (render pre)) s = Ok s' /\ state_ok pre (Boundary k :: post) s'.
Proof.
  intros pre k post s G SO o. pose proof SO as (A1 & A2 & A3 & A4).
  assert (TX : o ++ [0] = render pre ++ ch "[" :: [ch "B"; k] ++ ch "]" :: render post ++ [0]) by apply boundary_text.
  unfold basic_tag. rewrite TX. rewrite (rd_app _ (render pre) _ (ch "B") 1) by reflexivity. cbn [bind]. repeat other_letter. change (ch "B" =? ch "B") with true. cbn match.
  rewrite (rd_app _ (render pre) _ k 2) by reflexivity. cbn [bind].
  assert (SIL : ~ ((5 <=? length (render pre))%nat && (k =? ch "c") = true) -> state_ok pre (Boundary k :: post) s).
  { intros N. apply silent_ok; [|exact SO].
    assert (N5 : k = ch "c" -> (length (render pre) < 5)%nat).
    { intros ->. destruct (5 <=? length (render pre))%nat eqn:Q; [now elim N|]. now apply Nat.leb_gt in Q. }
    split; [|split].
    - intros k0 v H. destruct (Key_eq_dec k0 CLASS) as [->|D]; [|now apply (place_boundary _ _ _ _ _ D) in H].
      destruct H as [(k' & n & _ & E & _)|[(E & _)|[(E & _)|[(E & L & _) _]]]]; try discriminate E. injection E as ->. specialize (N5 eq_refl). lia.
    - intros [u E]. discriminate E.
    - intros E. injection E as ->. now apply N5. }
  destruct ((5 <=? length (render pre))%nat && (k =? ch "c")) eqn:Q; [|exists s; split; [reflexivity|now apply SIL]].
  clear SIL. apply andb_true_iff in Q. destruct Q as [Q1 Q2]. apply Nat.leb_le in Q1. apply Z.eqb_eq in Q2. subst k.
  assert (GP : Forall good_item pre) by (apply Forall_app in G; tauto).
  destruct (hyphen_read pre (ch "[" :: [ch "B"; ch "c"] ++ ch "]" :: render post ++ [0]) GP Q1) as (c & x & -> & -> & HI). cbn [bind].
  assert (BC : true = true <-> exists a b, Boundary (ch "c") :: post = a ++ Boundary (ch "c") :: b /\ (5 <= length (render (pre ++ a)))%nat).
  { split; [intros _|reflexivity]. exists [], post. split; [reflexivity|]. rewrite app_nil_r. exact Q1. }
  assert (GC : forall v, gives_class pre (Boundary (ch "c")) post v <-> (c =? ch "-") || x = true /\ v = wstr "etuliite").
  { intros v. rewrite HI. split.
    - intros [(k' & n & _ & E & _)|[(E & _)|[(E & _)|[(_ & _ & H) ->]]]]; try discriminate E. auto.
    - intros [H ->]. right. right. right. split; [|reflexivity]. split; [reflexivity|]. auto. }
  rewrite A2, negb_involutive.
  assert (KEEP : (battributes s CLASS = None -> (c =? ch "-") || x = false) -> state_ok pre (Boundary (ch "c") :: post) (mk_bs (battributes s) (convertNimiLaatusanaToLaatusana s) true (classSet s))).
  { intros N. refine (class_update _ _ _ _ _ _ _ _ _ SO _ _ _ _ BC); try reflexivity; [intros; now apply place_boundary|intros [u E]; discriminate E| |exact A2|intros H; exact H].
    pose proof (A1 CLASS) as H. destruct (battributes s CLASS) as [v|]; [now apply last_said_old|]. apply last_said_keep; [|exact H]. intros v W. apply GC in W. destruct W as [W _]. rewrite N in W by reflexivity. discriminate W. }
  destruct (battributes s CLASS) as [v|] eqn:CL; cbn [is_none andb bind].
  - eexists. split; [reflexivity|]. rewrite A2 in KEEP. apply KEEP. discriminate.
  - destruct ((c =? ch "-") || x) eqn:H; eexists; (split; [reflexivity|]).
    + refine (class_update _ _ _ _ _ _ _ _ _ SO _ _ _ _ BC).
      * intros. now apply place_boundary.
      * intros [u E]. discriminate E.
      * intros k0 N. apply add_other. congruence.
      * rewrite add_same by exact CL. apply last_said_new; [|apply GC; auto]. pose proof (A1 CLASS) as W. rewrite CL in W. exact W.
      * now rewrite add_same by exact CL.
      * intros _. exact CL.
    + rewrite A2 in KEEP. apply KEEP. reflexivity.
Qed.

(** ** The whole output *)

Lemma open_at : forall P w R k, ~ In (ch "[") w -> (k <= length w)%nat -> open_bracket (P ++ ch "[" :: w ++ R) (length P + 1 + k) = Ok (length P, true).
Proof.
  intros P w R k N. induction k as [|k IH]; intros L.
  - replace (length P + 1 + 0)%nat with (S (length P)) by lia. cbn [open_bracket]. rewrite rd_app0. cbn [bind]. now rewrite Z.eqb_refl.
  - replace (length P + 1 + S k)%nat with (S (length P + S k)) by lia. cbn [open_bracket]. destruct (nth_error w k) as [c|] eqn:E; [|apply nth_error_None in E; lia].
    rewrite (rd_app _ P _ c (S k)) by (cbn [nth_error]; rewrite nth_error_app1 by lia; exact E). cbn [bind].
    rewrite (proj2 (Z.eqb_neq _ _)) by (intros ->; apply N; now apply nth_error_In in E). replace (length P + S k)%nat with (length P + 1 + k)%nat by lia. apply IH. lia.
Qed.

Lemma x_tag : forall P w L i s, basic_tag (P ++ ch "[" :: ch "X" :: w) L i (length P) s = Ok s.
Proof. intros P w L i s. unfold basic_tag. rewrite (rd_app _ P _ (ch "X") 1) by reflexivity. cbn [bind]. repeat other_letter. reflexivity. Qed.

Lemma walk_x : forall (Q : basic_state -> Prop) P u R L s,
  ((length P < 3)%nat -> Q s) -> (forall f, (length P <= f)%nat -> exists s', basic_loop f (P ++ ch "[" :: (ch "X" :: u) ++ R) L (length P - 1) s = Ok s' /\ Q s') ->
  ~ In (ch "[") u ->
  forall n f, (n <= length u)%nat -> (length P + 2 + n <= f)%nat -> exists s', basic_loop f (P ++ ch "[" :: (ch "X" :: u) ++ R) L (length P + 1 + n) s = Ok s' /\ Q s'.
Proof.
  intros Q P u R L s Q0 Q1 N n. induction n as [|n IH]; intros f Ln Lf; destruct f as [|f]; try lia; cbn [basic_loop].
  - destruct (length P + 1 + 0 <? 2)%nat eqn:E; [apply Nat.ltb_lt in E; exists s; split; [reflexivity|apply Q0; lia]|].
    replace (length P + 1 + 0)%nat with (length P + 1)%nat by lia. rewrite (rd_app _ P _ (ch "X") 1) by reflexivity.
    cbn [bind]. change (ch "X" =? ch "]") with false. cbn match. replace (length P + 1 - 1)%nat with (length P) by lia. destruct f as [|f]; [lia|]. cbn [basic_loop].
    destruct (length P <? 2)%nat eqn:E2; [apply Nat.ltb_lt in E2; exists s; split; [reflexivity|apply Q0; lia]|].
    rewrite rd_app0. cbn [bind]. change (ch "[" =? ch "]") with false. cbn match. apply Q1. lia.
  - replace (length P + 1 + S n <? 2)%nat with false by (symmetry; apply Nat.ltb_ge; lia). destruct (nth_error u n) as [c|] eqn:E; [|apply nth_error_None in E; lia].
    replace (length P + 1 + S n)%nat with (length P + S (S n))%nat by lia. rewrite (rd_app _ P _ c (S (S n))) by (cbn [nth_error app]; rewrite nth_error_app1 by lia; exact E). cbn [bind].
    destruct (c =? ch "]") eqn:C.
    + replace (length P + S (S n))%nat with (length P + 1 + S n)%nat by lia. rewrite (open_at P (ch "X" :: u) R (S n)); [|intros [H|H]; [discriminate H|now apply N]|cbn [length]; lia].
      cbn [bind]. change ((ch "X" :: u) ++ R) with (ch "X" :: u ++ R). rewrite x_tag. cbn [bind]. destruct (length P <? 3)%nat eqn:E3; [apply Nat.ltb_lt in E3; exists s; split; [reflexivity|now apply Q0]|].
      apply Q1. lia.
    + replace (length P + S (S n) - 1)%nat with (length P + 1 + n)%nat by lia. apply IH; lia.
Qed.

Lemma place_none : forall k pre x post v, (match x with Tag _ | Class _ | Boundary _ => False | _ => True end) -> ~ place_of k pre x post v.
Proof.
  intros k pre x post v X H. destruct k; cbn [place_of] in H; try (now elim H);
    try (destruct H as [(k' & n & _ & E & _) _]; subst x; exact X); try (destruct H as (k' & n & _ & E & _); subst x; exact X); try (destruct H as [[u E] _]; subst x; exact X).
  - destruct H as [(k' & n & _ & E & _)|[(E & _)|[(E & _)|[(E & _) _]]]]; subst x; exact X.
  - destruct H as [[[[u E] _]|[[u E] _]] _]; subst x; exact X.
Qed.
Lemma silent_item : forall pre x post, (match x with Tag _ | Class _ | Boundary _ => False | _ => True end) -> silent pre x post.
Proof.
  intros pre x post X. split; [intros; now apply place_none|]. split; [intros [u E]; subst x; exact X|intros E; subst x; destruct X].
Qed.

Lemma short_ok : forall pre post s, Forall good_item pre -> (length (render pre) < 3)%nat -> state_ok pre post s -> state_ok [] (pre ++ post) s.
Proof.
  induction pre as [|x pre IH] using rev_ind; intros post s G L SO; [exact SO|]. rewrite <- app_assoc. cbn [app]. rewrite render_app, render_one, app_length in L.
  apply Forall_app in G. destruct G as [G1 G2]. inversion G2 as [|? ? G _]; subst. apply IH; [exact G1|lia|]. apply silent_ok; [|exact SO]. apply silent_item.
  destruct x; try (exact I); exfalso; cbn [render_item good_item] in *.
  - change (wstr "[B") with [ch "["; ch "B"] in L. change (wstr "]") with [ch "]"] in L. rewrite app_length in L. cbn [length] in L. lia.
  - change (wstr "[L") with [ch "["; ch "L"] in L. change (wstr "]") with [ch "]"] in L. rewrite !app_length in L. cbn [length] in L. lia.
  - destruct G as (_ & _ & _ & G & _). change (wstr "[") with [ch "["] in L. rewrite !app_length in L. cbn [length] in L. lia.
Qed.

Lemma starred_text : forall pre k t post, render (pre ++ Remark k t :: post) ++ [0] = render pre ++ ch "[" :: (ch "X" :: k :: ch "]" :: t) ++ ch "[" :: (ch "X" :: [ch "]"]) ++ render post ++ [0].
Proof.
  intros pre k t post. rewrite render_app, render_cons. cbn [render_item]. change (wstr "[X") with [ch "["; ch "X"]. change (wstr "]") with [ch "]"]. change (wstr "[X]") with [ch "["; ch "X"; ch "]"].
  cbn [app]. rewrite <- !app_assoc. cbn [app]. rewrite <- !app_assoc. reflexivity.
Qed.
Lemma pattern_text : forall pre p post, render (pre ++ Pattern p :: post) ++ [0] = render pre ++ ch "[" :: (ch "X" :: ch "r" :: ch "]" :: p) ++ ch "[" :: (ch "X" :: [ch "]"]) ++ render post ++ [0].
Proof. intros pre p post. rewrite <- starred_text. rewrite !render_app, !render_cons. reflexivity. Qed.

Lemma loop_items : forall pre post s f, Forall good_item (pre ++ post) -> (forall t, In (Tag t) (pre ++ post) -> hd 0 t = ch "B" -> t = wstr "Bh") ->
  state_ok pre post s -> (length (render pre) <= f)%nat ->
  exists s', basic_loop f (render (pre ++ post) ++ [0]) (length (render (pre ++ post))) (length (render pre) - 1) s = Ok s' /\ state_ok [] (pre ++ post) s'.
Proof.
  induction pre as [|x pre IH] using rev_ind; intros post s f G B SO F.
  { exists s. split; [|exact SO]. destruct f; reflexivity. }
  assert (SH : (length (render (pre ++ [x])) < 3)%nat -> state_ok [] ((pre ++ [x]) ++ post) s).
  { intros L. apply short_ok; [|exact L|exact SO]. apply Forall_app in G. tauto. }
  rewrite <- app_assoc in *. cbn [app] in *.
  assert (SHP : forall s', state_ok pre (x :: post) s' -> (length (render pre) < 3)%nat -> state_ok [] (pre ++ x :: post) s').
  { intros s' S' L. apply short_ok; [|exact L|exact S']. apply Forall_app in G. tauto. }
  assert (IH' : forall s' f', state_ok pre (x :: post) s' -> (length (render pre) <= f')%nat ->
    exists s'', basic_loop f' (render (pre ++ x :: post) ++ [0]) (length (render (pre ++ x :: post))) (length (render pre) - 1) s' = Ok s'' /\ state_ok [] (pre ++ x :: post) s'').
  { intros s' f' S' F'. apply IH; assumption. }
  clear IH. assert (RL : length (render (pre ++ [x])) = (length (render pre) + length (render_item x))%nat) by (rewrite render_app, render_one; apply app_length).
  rewrite RL in *. clear RL. set (o := render (pre ++ x :: post)) in *.
  assert (GX : good_item x) by (apply Forall_app in G; destruct G as [_ G]; now inversion G).
  assert (ONE : forall c, render_item x = [c] -> c <> ch "]" -> silent pre x post -> exists s', basic_loop f (o ++ [0]) (length o) (length (render pre) + length (render_item x) - 1) s = Ok s' /\ state_ok [] (pre ++ x :: post) s').
  { intros c E NC SI. rewrite E in *. cbn [length] in *. destruct f as [|f]; [lia|]. cbn [basic_loop]. destruct (length (render pre) + 1 - 1 <? 2)%nat eqn:Q.
    - apply Nat.ltb_lt in Q. exists s. split; [reflexivity|]. apply SH. lia.
    - unfold o at 1. rewrite render_app, render_cons, E, <- app_assoc. cbn [app]. rewrite rd_at by lia. cbn [bind]. rewrite (proj2 (Z.eqb_neq _ _) NC).
      replace (length (render pre) + 1 - 1 - 1)%nat with (length (render pre) - 1)%nat by lia. 
      destruct (IH' s f) as (s' & E' & S'); [now apply silent_ok|lia|]. exists s'. split; [exact E'|exact S']. }
  assert (TAG : forall body, o ++ [0] = render pre ++ ch "[" :: body ++ ch "]" :: render post ++ [0] -> ~ In (ch "[") body -> length (render_item x) = (length body + 2)%nat -> body <> [] ->
    (exists s', basic_tag (o ++ [0]) (length o) (length (render pre) + 1 + length body) (length (render pre)) s = Ok s' /\ state_ok pre (x :: post) s') ->
    exists s', basic_loop f (o ++ [0]) (length o) (length (render pre) + length (render_item x) - 1) s = Ok s' /\ state_ok [] (pre ++ x :: post) s').
  { intros body TX NB LB NE (s' & E' & S'). rewrite LB in *. destruct f as [|f]; [lia|]. destruct body as [|c body]; [congruence|]. cbn [length] in *. cbn [basic_loop].
    replace (length (render pre) + (S (length body) + 2) - 1)%nat with (length (render pre) + 1 + S (length body))%nat by lia.
    replace (length (render pre) + 1 + S (length body) <? 2)%nat with false by (symmetry; apply Nat.ltb_ge; lia).
    assert (RD : rd (o ++ [0]) (length (render pre) + 1 + S (length body)) = Ok (ch "]")).
    { rewrite TX. replace (length (render pre) + 1 + S (length body))%nat with (length (render pre) + (2 + length body))%nat by lia. apply rd_app.
      cbn [nth_error app plus]. rewrite nth_error_app2 by lia. now rewrite Nat.sub_diag. }
    assert (OB : open_bracket (o ++ [0]) (length (render pre) + 1 + S (length body)) = Ok (length (render pre), true)).
    { rewrite TX. apply (open_at (render pre) (c :: body) _ (S (length body)) NB). cbn [length]. lia. }
    rewrite RD. cbn [bind]. rewrite Z.eqb_refl, OB. cbn [bind]. rewrite E'. cbn [bind].
    destruct (length (render pre) <? 3)%nat eqn:Q; [apply Nat.ltb_lt in Q; exists s'; split; [reflexivity|now apply SHP]|]. apply IH'; [exact S'|lia]. }
  assert (XX : forall k t, o ++ [0] = render pre ++ ch "[" :: (ch "X" :: k :: ch "]" :: t) ++ ch "[" :: (ch "X" :: [ch "]"]) ++ render post ++ [0] -> k <> ch "[" -> ~ In (ch "[") t ->
    length (render_item x) = (length t + 7)%nat -> silent pre x post ->
    exists s', basic_loop f (o ++ [0]) (length o) (length (render pre) + length (render_item x) - 1) s = Ok s' /\ state_ok [] (pre ++ x :: post) s').
  { intros k t TX NK NT LX SI. rewrite LX in *. pose proof (silent_ok _ _ _ _ SI SO) as S1.
    set (P1 := render pre ++ ch "[" :: ch "X" :: k :: ch "]" :: t).
    assert (LP : length P1 = (length (render pre) + 4 + length t)%nat) by (unfold P1; rewrite app_length; cbn [length]; lia).
    assert (T1 : o ++ [0] = P1 ++ ch "[" :: (ch "X" :: [ch "]"]) ++ render post ++ [0]) by (rewrite TX; unfold P1; rewrite <- app_assoc; reflexivity).
    replace (length (render pre) + (length t + 7) - 1)%nat with (length P1 + 1 + 1)%nat by lia. rewrite T1.
    apply (walk_x (state_ok [] (pre ++ x :: post)) P1 [ch "]"] (render post ++ [0]) (length o) s); [lia| |intros [H|[]]; discriminate H|cbn; lia|lia].
    intros f1 F1. rewrite <- T1, TX. replace (length P1 - 1)%nat with (length (render pre) + 1 + length (k :: ch "]" :: t))%nat by (cbn [length]; lia).
    apply (walk_x (state_ok [] (pre ++ x :: post)) (render pre) (k :: ch "]" :: t)); [now apply SHP| |intros [H|[H|H]]; [congruence|discriminate H|now apply NT]|lia|cbn [length]; lia].
    intros f2 F2. rewrite <- TX. now apply IH'. }
  destruct x; cbn [good_item] in GX.
  - apply (ONE c); [reflexivity| |now apply silent_item]. intros ->. apply GX. vm_compute. tauto.
  - apply (ONE (ch "-")); [reflexivity|discriminate|now apply silent_item].
  - apply (ONE (ch ":")); [reflexivity|discriminate|now apply silent_item].
  - apply (TAG [ch "B"; k]); [apply boundary_text| |reflexivity|discriminate|].
    + intros [H|[->|[]]]; [discriminate H|]. apply GX. vm_compute. tauto.
    + destruct (boundary_step pre k post s G SO) as (s' & E & S'). exists s'. split; [|exact S']. rewrite <- E. f_equal. cbn [length]. lia.
  - apply (TAG (ch "L" :: wstr k)); [apply class_text| | |discriminate|].
    + intros [H|H]; [discriminate H|]. now apply class_letters in H.
    + cbn [render_item]. rewrite !app_length. cbn [length wstr]. lia.
    + destruct (class_step pre k post s G SO) as (s' & E & S'). exists s'. split; [|exact S']. rewrite <- E. f_equal. cbn [length]. lia.
  - apply (XX (ch "r") p); [apply pattern_text|discriminate| | |now apply silent_item].
    + intros H. apply GX in H. vm_compute in H. intuition discriminate.
    + cbn [render_item]. rewrite !app_length. cbn [length wstr]. lia.
  - destruct GX as (G1 & G2 & G3). apply (XX k t); [apply starred_text| |exact G3| |now apply silent_item].
    + intros ->. apply G1. vm_compute. tauto.
    + cbn [render_item]. rewrite !app_length. cbn [length wstr]. rewrite !app_length. cbn [length]. lia.
  - destruct GX as (G1 & G2 & G3 & G4 & G5). destruct t as [|c t]; [cbn in G4; lia|]. apply (TAG (c :: t)); [apply tag_text|exact G2| |discriminate|].
    + cbn [render_item]. rewrite !app_length. cbn [length wstr]. lia.
    + destruct (tag_step pre c t post s G) as (s' & E & S'); [|exact SO|].
      * intros ->. apply B; [apply in_or_app; right; now left|reflexivity].
      * exists s'. split; [|exact S']. rewrite <- E. f_equal. cbn [length]. lia.
Qed.

Theorem basic_said : forall l, usual l -> render l <> [] -> exists a, parseBasicAttributes (fun _ => None) (render l) = Ok a /\ forall k, said l k (a k).
Proof.
  intros l [G B] NE. unfold parseBasicAttributes.
  destruct (loop_items l [] (mk_bs (fun _ => None) false false false) (length (render l))) as (s & E & (S & _)); rewrite ?app_nil_r in *; try assumption; [|lia|].
  - unfold state_ok. cbn [battributes convertNimiLaatusanaToLaatusana bcPassed classSet]. split; [|split; [reflexivity|split]].
    + intros k a x b v H. destruct a; discriminate H.
    + intros _. split; [discriminate|]. intros (y & [] & _).
    + split; [discriminate|]. intros (a & b & H & _). destruct a; discriminate H.
  - exists (battributes s). destruct (render l) as [|c r]; [congruence|]. rewrite E. split; [reflexivity|]. exact S.
Qed.
