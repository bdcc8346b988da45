(** * What the attributes say, and names of organisations (C63, C64) *)
From Verif Require Import Base BaseFacts CharModel AnalysisModel HyphModel FstModel FstSpec FinModel FinSpec FinStructure FinTotal FinAttributes FinBaseform FinAnalyzer FinExample FinProps FinWordSpec FinHyphens
  FinWordBase FinWordProps FinAttrSpec FinAttrItems FinAttrOrg.
From Coq Require Import Lia.

(** ** C63: attributes *)

Lemma well_formed_render : forall l, well_formed l -> render l <> [] /\ l <> [].
Proof.
  intros l (_ & _ & W & _). assert (N : l <> []) by (intros ->; now apply W). split; [|exact N]. destruct l as [|x l]; [congruence|]. rewrite render_cons. intros E. apply (f_equal (@length Z)) in E. rewrite app_length in E.
  pose proof (render_item_length x). cbn [length] in E. lia.
Qed.

(** The attributes of the first analysis of an output say what the remarks of the
    output say; a second analysis, for the name of an organisation, differs from it
    as [as_name] tells. *)
Theorem C63_attributes : forall l full, well_formed l -> usual l -> exists la, output_analyses (render l) (length (surface l)) full = Ok la /\
  forall a more, la = a :: more -> attributes_of l a /\ forall a', In a' more -> as_name a a'.
Proof.
  intros l full W U. destruct (output_ok l full W) as (la & E & A). exists la. split; [exact E|]. intros a more ->. split.
  - destruct (output_parts _ _ _ _ _ E) as (a0 & st & B & _ & T). destruct (basic_said l U (proj1 (well_formed_render l W))) as (a0' & B' & S). change (fun _ : Key => @None (list Z)) with no_attributes in B'. rewrite B in B'.
    injection B' as <-. exact (attributes_ok l a0 st a S T).
  - intros a' I. destruct A as [[_ A]|(_ & a1 & m1 & Q & _ & M)]; [discriminate A|]. injection Q as -> ->. destruct M as [->|(a2 & -> & M)]; [destruct I|]. destruct I as [<-|[]]. exact M.
Qed.

(** The remarks give one value at most, so the attributes are determined by the
    output. *)
Theorem C63_one_value : forall l k r r', said l k r -> said l k r' -> r = r'.
Proof. intros l k r r' A B. exact (last_said_unique _ (place_functional k) l [] r r' A B). Qed.
Theorem C63_determined : forall l a a', attributes_of l a -> attributes_of l a' ->
  forall k, ~ In k [STRUCTURE; BASEFORM; FSTOUTPUT; WORDIDS; WORDBASES] -> a k = a' k.
Proof.
  intros l a a' (A & ca & na & da & ea & A1 & A2 & A3 & A4 & A5 & A6 & A7 & A8 & (A9 & A10) & A11 & A12) (B & cb & nb & db & eb & B1 & B2 & B3 & B4 & B5 & B6 & B7 & B8 & (B9 & B10) & B11 & B12) k N.
  pose proof (C63_one_value _ _ _ _ A1 B1) as <-. pose proof (C63_one_value _ _ _ _ A2 B2) as <-. pose proof (C63_one_value _ _ _ _ A3 B3) as <-. pose proof (C63_one_value _ _ _ _ A4 B4) as <-. clear A1 A2 A3 A4 B1 B2 B3 B4.
  assert (P : forall k, In k [PERSON; TENSE; FOCUS; KYSYMYSLIITE; POSSESSIVE; SIJAMUOTO; MOOD; PARTICIPLE; MALAGA_VAPAA_JALKIOSA; POSSIBLE_GEOGRAPHICAL_NAME; REQUIRE_FOLLOWING_VERB; WEIGHT] -> a k = a' k) by (intros k' I; exact (C63_one_value _ _ _ _ (A k' I) (B k' I))).
  assert (D : forall v s, value_is v s \/ ~ value_is v s) by (intros v s; rewrite <- has_iff; destruct (has v s); [left; reflexivity|right; discriminate]).
  assert (CL : a CLASS = a' CLASS).
  { rewrite (P PARTICIPLE) in A5, A6 by (clear; cbn [In]; tauto). destruct (D (a' PARTICIPLE) "past_passive"%string) as [H|H]; [rewrite (A5 H), (B5 H)|rewrite (A6 H), (B6 H)]; reflexivity. }
  destruct k; try (apply P; clear; cbn [In]; tauto); try (exfalso; apply N; clear; cbn [In]; tauto).
  - exact CL.
  - rewrite CL in A11, A12. destruct da as [d|].
    + destruct (A12 ltac:(discriminate)) as [X1 X2]. destruct (B12 ltac:(discriminate)) as [Y1 Y2]. destruct (D (a' CLASS) "nimisana"%string) as [H|H]; [rewrite (X1 H), (Y1 H)|rewrite (X2 H), (Y2 H)]; reflexivity.
    + destruct (A11 eq_refl) as [X1 X2]. destruct (B11 eq_refl) as [Y1 Y2].
      assert (DC : (value_is (a' CLASS) "laatusana" \/ value_is (a' CLASS) "nimisana_laatusana") \/ ~ (value_is (a' CLASS) "laatusana" \/ value_is (a' CLASS) "nimisana_laatusana"))
        by (revert D; clear; intros D; destruct (D (a' CLASS) "laatusana"%string); destruct (D (a' CLASS) "nimisana_laatusana"%string); tauto).
      destruct DC as [H|H]; [rewrite (X1 H), (Y1 H)|rewrite (X2 H), (Y2 H)]; reflexivity.
  - rewrite (P MOOD) in A9, A10 by (clear; cbn [In]; tauto). set (nv := (ca <> None /\ ~ value_is ca "teonsana") \/ _ \/ _ \/ _) in *.
    assert (DN : nv \/ ~ nv).
    { unfold nv. revert D; clear; intros D.
      destruct (D (a' MOOD) "MINEN-infinitive"%string); [tauto|]. destruct (D (a' MOOD) "E-infinitive"%string); [tauto|]. destruct (D (a' MOOD) "MA-infinitive"%string); [tauto|].
      destruct ca as [v|]; [|right; tauto]. destruct (D (Some v) "teonsana"%string); [right; tauto|left; left; split; [discriminate|assumption]]. }
    destruct DN as [H|H]; [rewrite (A9 H), (B9 H)|rewrite (A10 H), (B10 H)]; reflexivity.
  - rewrite (P SIJAMUOTO) in A7, A8 by (clear; cbn [In]; tauto). destruct (D (a' SIJAMUOTO) "kerrontosti"%string) as [H|H]; [rewrite (A7 H), (B7 H)|rewrite (A8 H), (B8 H)]; reflexivity.
Qed.

(** For words: each analysis has the attributes that an output of the dictionary for
    the word in small letters gives, or is the analysis as a name that belongs to such an
    analysis. *)
Theorem C63_words : forall T c word full l c' a, finnish_dictionary T -> clean_history T c -> fin_analyze T c word full = Ok (l, c') -> In a l ->
  exists it p a0, well_formed it /\ surface it = voikko_set_case CT_ALL_LOWER word /\ accepts T (voikko_set_case CT_ALL_LOWER word) p (render it) /\ In a0 l /\
    (usual it -> attributes_of it a0) /\ (a = a0 \/ as_name a0 a).
Proof.
  intros T c word full l c' a D H E I. destruct (fin_found T c word full l c' D H E) as (found & L & _ & _ & _ & F & _). rewrite L in I. apply in_concat in I. destruct I as (la & I1 & I2).
  pose proof I1 as I3. apply in_map_iff in I1. destruct I1 as ([[p it] la'] & Q & I1). cbn [snd] in Q. subst la'. destruct (F p it la I1) as (W & S & A & AN & O).
  destruct la as [|a0 more]; [destruct I2|]. exists it, p, a0. split; [exact W|]. split; [exact S|]. split; [exact A|]. split; [rewrite L; apply in_concat; exists (a0 :: more); split; [exact I3|now left]|]. split.
  - intros U. destruct (C63_attributes it full W U) as (la & E' & Z). rewrite S, O in E'. injection E' as <-. exact (proj1 (Z a0 more eq_refl)).
  - destruct I2 as [<-|I2]; [now left|right]. destruct AN as [[_ AN]|(_ & a1 & m1 & Q & _ & M)]; [discriminate AN|]. injection Q as <- <-. destruct M as [->|(a2 & -> & M)]; [destruct I2|]. destruct I2 as [<-|[]]. exact M.
Qed.

(** ** C64: organisations *)

(** There is a second analysis, as a name, if and only if the word is a noun and its
    output is that of an organisation. *)
Theorem C64_organisations : forall l full, well_formed l -> exists la, output_analyses (render l) (length (surface l)) full = Ok la /\
  forall a more, la = a :: more -> (more <> [] <-> value_is (a CLASS) "nimisana" /\ organisation l) /\ (length more <= 1)%nat /\ forall a', In a' more -> as_name a a'.
Proof.
  intros l full W. destruct (output_ok l full W) as (la & E & A). exists la. split; [exact E|]. intros a more ->. split; [|destruct A as [[_ A]|(_ & a1 & m1 & Q & _ & M)]; [discriminate A|]; injection Q as <- <-;
    destruct M as [->|(a2 & -> & M)]; [split; [cbn; lia|intros a' []]|split; [cbn; lia|intros a' [<-|[]]; exact M]]].
  destruct (output_parts _ _ _ _ _ E) as (a0 & st & _ & D & T). rewrite (T CLASS eq_refl). exact (duplicate_spec l _ more (proj1 W) (proj2 (well_formed_render l W)) D).
Qed.

(** For words: each analysis is that of an output of the dictionary, or the second
    analysis for a noun whose output is that of an organisation. *)
Theorem C64_words : forall T c word full l c' a', finnish_dictionary T -> clean_history T c -> fin_analyze T c word full = Ok (l, c') -> In a' l ->
  exists it p a, well_formed it /\ surface it = voikko_set_case CT_ALL_LOWER word /\ accepts T (voikko_set_case CT_ALL_LOWER word) p (render it) /\ In a l /\
    ((organisation it /\ value_is (a CLASS) "nimisana" /\ as_name a a') \/ (a = a' /\ (usual it -> attributes_of it a'))).
Proof.
  intros T c word full l c' a D H E I. destruct (fin_found T c word full l c' D H E) as (found & L & _ & _ & _ & F & _). rewrite L in I. apply in_concat in I. destruct I as (la & I1 & I2).
  pose proof I1 as I3. apply in_map_iff in I1. destruct I1 as ([[p it] la'] & Q & I1). cbn [snd] in Q. subst la'. destruct (F p it la I1) as (W & S & A & AN & O).
  destruct la as [|a0 more]; [destruct I2|]. exists it, p, a0. split; [exact W|]. split; [exact S|]. split; [exact A|]. split; [rewrite L; apply in_concat; exists (a0 :: more); split; [exact I3|now left]|].
  destruct I2 as [<-|I2].
  - right. split; [reflexivity|]. intros U. destruct (C63_attributes it full W U) as (la & E' & Z). rewrite S, O in E'. injection E' as <-. exact (proj1 (Z a0 more eq_refl)).
  - left. destruct (C64_organisations it full W) as (la & E' & Z). rewrite S, O in E'. injection E' as <-. destruct (Z a0 more eq_refl) as (Z1 & _ & Z3). destruct (proj1 Z1) as [Z4 Z5]; [intros ->; destruct I2|]. auto.
Qed.
(** A path determines what is written. *)
Lemma writes_fun : forall T t s s', writes T t s -> writes T t s' -> s = s'.
Proof. intros T t s s' A B. unfold writes in *. destruct (firstNormalChar T <=? symOut t); congruence. Qed.
Lemma transition_fun : forall T q i t t', has_transition T q i t -> has_transition T q i t' -> t = t'.
Proof. intros T q i t t' (l1 & b1 & _ & _ & _ & A) (l2 & b2 & _ & _ & _ & B). congruence. Qed.
Lemma path_not_empty : forall T q fl w out rest, ~ path T q fl w [] out rest.
Proof. intros T q fl w out rest H. inversion H. Qed.
Lemma path_output : forall T q fl w p out rest, path T q fl w p out rest -> forall fl' w' out' rest', path T q fl' w' p out' rest' -> out = out'.
Proof.
  intros T q fl w p out rest H. induction H; intros fl2 w2 out2 rest2 Y.
  - inversion Y; subst; [reflexivity| | |]; exfalso; eapply path_not_empty; eassumption.
  - inversion Y as [? ? ? ? t2 T2|? ? ? ? ? t2 ? s2 ? ? T2 ? ? W2 P2|? ? ? ? t2 ? s2 ? ? T2 ? W2 P2|? ? ? ? ? t2 ? ? s2 ? ? T2 ? ? ? W2 P2]; subst; [exfalso; eapply path_not_empty; eassumption| | |];
      pose proof (transition_fun _ _ _ _ _ H T2) as <-; f_equal; [eapply writes_fun; eassumption|eapply IHpath; exact P2|eapply writes_fun; eassumption|eapply IHpath; exact P2|eapply writes_fun; eassumption|eapply IHpath; exact P2].
  - inversion Y as [? ? ? ? t2 T2|? ? ? ? ? t2 ? s2 ? ? T2 ? ? W2 P2|? ? ? ? t2 ? s2 ? ? T2 ? W2 P2|? ? ? ? ? t2 ? ? s2 ? ? T2 ? ? ? W2 P2]; subst; [exfalso; eapply path_not_empty; eassumption| | |];
      pose proof (transition_fun _ _ _ _ _ H T2) as <-; f_equal; [eapply writes_fun; eassumption|eapply IHpath; exact P2|eapply writes_fun; eassumption|eapply IHpath; exact P2|eapply writes_fun; eassumption|eapply IHpath; exact P2].
  - inversion Y as [? ? ? ? t2 T2|? ? ? ? ? t2 ? s2 ? ? T2 ? ? W2 P2|? ? ? ? t2 ? s2 ? ? T2 ? W2 P2|? ? ? ? ? t2 ? ? s2 ? ? T2 ? ? ? W2 P2]; subst; [exfalso; eapply path_not_empty; eassumption| | |];
      pose proof (transition_fun _ _ _ _ _ H T2) as <-; f_equal; [eapply writes_fun; eassumption|eapply IHpath; exact P2|eapply writes_fun; eassumption|eapply IHpath; exact P2|eapply writes_fun; eassumption|eapply IHpath; exact P2].
Qed.
Lemma accepts_output : forall T w p out out', accepts T w p out -> accepts T w p out' -> out = out'.
Proof. intros T w p out out' A B. exact (path_output _ _ _ _ _ _ _ A _ _ _ _ B). Qed.

(** A word whose output is that of an organisation gets both analyses. *)
Theorem C64_both : forall T c word full l c' p it, finnish_dictionary T -> clean_history T c -> fin_analyze T c word full = Ok (l, c') -> (length word <= 255)%nat -> ~ broken_off T word ->
  accepts T (voikko_set_case CT_ALL_LOWER word) p (render it) -> well_formed it -> surface it = voikko_set_case CT_ALL_LOWER word -> organisation it ->
  exists la, output_analyses (render it) (length (surface it)) full = Ok la /\ (forall a, In a la -> In a l) /\
    forall a, hd_error la = Some a -> value_is (a CLASS) "nimisana" -> exists a', In a' l /\ as_name a a'.
Proof.
  intros T c word full l c' p it D H E LW NB AC W S OR. destruct (fin_found T c word full l c' D H E) as (found & L & _ & _ & _ & F & _ & ALL). specialize (ALL LW NB p (render it) AC).
  apply in_map_iff in ALL. destruct ALL as ([[p' it'] la] & Q & I). cbn [entry_path fst] in Q. subst p'. destruct (F p it' la I) as (W' & S' & A' & _ & O).
  assert (R : render it' = render it) by (exact (accepts_output _ _ _ _ _ A' AC)). exists la. rewrite <- R, S. split; [exact O|].
  assert (IN : forall a, In a la -> In a l) by (intros a J; rewrite L; apply in_concat; exists la; split; [apply in_map_iff; exists (p, it', la); auto|exact J]). split; [exact IN|].
  intros a HD NO. destruct la as [|a0 more]; [discriminate HD|]. injection HD as ->. destruct (C64_organisations it full W) as (la2 & E' & Z). rewrite S, <- R, O in E'. injection E' as <-.
  destruct (Z a more eq_refl) as (Z1 & _ & Z3). destruct more as [|a' more]; [exfalso; now apply (proj2 Z1 (conj NO OR))|]. exists a'. split; [apply IN; right; now left|]. apply Z3. now left.
Qed.

(** ** Examples *)

Definition usual_b (l : list item) : bool := forallb (fun x => match x with Tag t => negb (hd 0 t =? ch "B") || zlist_eqb t (wstr "Bh") | _ => true end) l.
Lemma usual_by : forall l, well_formed l -> usual_b l = true -> usual l.
Proof.
  intros l [G _] H. split; [exact G|]. intros t I B. unfold usual_b in H. rewrite forallb_forall in H. specialize (H _ I). cbn beta iota in H. rewrite B in H. change (ch "B" =? ch "B") with true in H.
  now apply zlist_eqb_eq.
Qed.

(** "kalakeskuksenkin": the remarks of the last part count; the word can be the name of
    an organisation. *)
Definition centre : list item :=
  part "n" "kala" ++ [Tag (wstr "Sn"); Tag (wstr "Ny"); mark; Boundary (ch "c")] ++ [Class "n"; Remark (ch "p") (wstr "keskus"); Tag (wstr "Ion")] ++ letters "keskuksen" ++ [Tag (wstr "Sg"); Tag (wstr "Ny")] ++ letters "kin" ++ [Tag (wstr "Fkin")].
(** "punaisempi": noun or adjective, with an ending of comparison. *)
Definition redder : list item := [Class "nl"] ++ letters "punaise" ++ [Tag (wstr "Cc")] ++ letters "mpi" ++ [Tag (wstr "Sn"); Tag (wstr "Ny")].
(** "tehty": the past participle of the passive of a verb. *)
Definition done : list item := [Class "t"] ++ letters "teh" ++ [Tag (wstr "Rt")] ++ letters "ty" ++ [Tag (wstr "Sn"); Tag (wstr "Ny")].

Ltac spelled := unfold centre, redder, done, part, letters;
  change (wstr "kala") with [107; 97; 108; 97]; change (wstr "keskuksen") with [107; 101; 115; 107; 117; 107; 115; 101; 110]; change (wstr "kin") with [107; 105; 110];
  change (wstr "punaise") with [112; 117; 110; 97; 105; 115; 101]; change (wstr "mpi") with [109; 112; 105]; change (wstr "teh") with [116; 101; 104]; change (wstr "ty") with [116; 121]; cbn [map app].
Ltac spelled_well := spelled; (split; [items_good|split; [|split; [discriminate|split; discriminate]]]); cbn [fits_together]; repeat split; try discriminate; try reflexivity; right; discriminate.

Definition attributes_shown (l : list item) : option (list (option (list Z))) :=
  match output_analyses (render l) (length (surface l)) false with Ok (a :: _) => Some (map a [CLASS; SIJAMUOTO; NUMBER; FOCUS; COMPARISON; PARTICIPLE; NEGATIVE]) | _ => None end.

Example C63_samples : well_formed centre /\ usual centre /\ well_formed redder /\ usual redder /\ well_formed done /\ usual done /\
  attributes_shown centre = Some [Some (wstr "nimisana"); Some (wstr "omanto"); Some (wstr "singular"); Some (wstr "kin"); None; None; None] /\
  attributes_shown redder = Some [Some (wstr "laatusana"); Some (wstr "nimento"); Some (wstr "singular"); None; Some (wstr "comparative"); None; None] /\
  attributes_shown done = Some [Some (wstr "laatusana"); Some (wstr "nimento"); Some (wstr "singular"); None; Some (wstr "positive"); Some (wstr "past_passive"); None].
Proof.
  assert (W1 : well_formed centre) by spelled_well. assert (W2 : well_formed redder) by spelled_well. assert (W3 : well_formed done) by spelled_well.
  split; [exact W1|]. split; [apply usual_by; [exact W1|reflexivity]|]. split; [exact W2|]. split; [apply usual_by; [exact W2|reflexivity]|]. split; [exact W3|]. split; [apply usual_by; [exact W3|reflexivity]|].
  split; [|split]; vm_compute; reflexivity.
Qed.

(** The case of "kalakeskuksenkin" is the genitive by the specification alone. *)
Example C63_said : said centre SIJAMUOTO (Some (wstr "omanto")) /\ said done MOOD None.
Proof.
  assert (W1 : well_formed centre) by spelled_well. assert (W3 : well_formed done) by spelled_well.
  destruct (basic_said centre (usual_by _ W1 eq_refl) (proj1 (well_formed_render _ W1))) as (a & E & S). destruct (basic_said done (usual_by _ W3 eq_refl) (proj1 (well_formed_render _ W3))) as (b & E' & S').
  assert (A : match parseBasicAttributes no_attributes (render centre) with Ok a => a SIJAMUOTO | _ => None end = Some (wstr "omanto")) by (vm_compute; reflexivity).
  assert (B : match parseBasicAttributes no_attributes (render done) with Ok a => a MOOD | _ => None end = None) by (vm_compute; reflexivity).
  change (fun _ : Key => @None (list Z)) with no_attributes in E, E'. rewrite E in A. rewrite E' in B. split; [rewrite <- A; apply S|rewrite <- B; apply S'].
Qed.

(** "kalakeskuksenkin" has two analyses, "kala" has one. *)
Example C64_samples : organisation centre /\ analysed centre = Some 2%nat /\ well_formed (part "n" "kala") /\ ~ organisation (part "n" "kala") /\ analysed (part "n" "kala") = Some 1%nat.
Proof.
  split; [|split; [vm_compute; reflexivity|split; [spelled_well|split; [|vm_compute; reflexivity]]]].
  - split; [discriminate|]. split; [discriminate|]. exists (part "n" "kala" ++ [Tag (wstr "Sn"); Tag (wstr "Ny"); mark]), [Class "n"; Remark (ch "p") (wstr "keskus")], (letters "keskuksen" ++ [Tag (wstr "Sg"); Tag (wstr "Ny")] ++ letters "kin" ++ [Tag (wstr "Fkin")]).
    split; [reflexivity|]. split; [vm_compute; lia|]. intros b1 b2 E. exfalso. assert (I : In (Boundary (ch "c")) (letters "keskuksen" ++ [Tag (wstr "Sg"); Tag (wstr "Ny")] ++ letters "kin" ++ [Tag (wstr "Fkin")])) by (rewrite E; apply in_or_app; right; now left).
    vm_compute in I. intuition discriminate.
  - intros (_ & _ & a & m & b & E & _). assert (I : In (Boundary (ch "c")) (part "n" "kala")) by (rewrite E; apply in_or_app; right; now left). vm_compute in I. intuition discriminate.
Qed.

Print Assumptions C63_attributes.
Print Assumptions C63_one_value.
Print Assumptions C63_determined.
Print Assumptions C63_words.
Print Assumptions C64_organisations.
Print Assumptions C64_words.
Print Assumptions C64_both.
