(** * Properties of the analyser for Finnish (C42, C46, C59, C60). *)
From Coq Require Import Sorted.
From Verif Require Import Base BaseFacts CharModel CharProofs CharProps AnalysisModel HyphModel FstModel FstSpec FstProofs FstLookup FstProps FinModel FinSpec FinStructure FinTotal
  FinAttributes FinBaseform FinDebug FinAnalyzer FinExample.
From Coq Require Import Lia.

(** ** C42: the structure *)

(** For every well-formed output the structure is built inside its buffer; it has
    one symbol for each character, and the borders where the output asks for
    them. *)
Theorem C42_structure : forall l, well_formed l -> exists st, parseStructure (render l) (length (surface l)) = Ok st /\
  structure_of (surface l) st /\ forall n, In n (borders st) <-> border_at l n.
Proof. intros l W. destruct (parseStructure_shape l W) as (st & A & B & _ & D). exists st. auto. Qed.

(** The same holds after the corrections for compounds, for all analyses that the
    output leads to; in a second analysis, for the name of an organisation, the
    first symbol is a capital letter. *)
Theorem C42_structure_of_analyses : forall l full, well_formed l -> exists la, output_analyses (render l) (length (surface l)) full = Ok la /\
  forall a, In a la -> exists st, structure_of (surface l) st /\ (forall n, In n (borders st) <-> border_at l n) /\
    (a STRUCTURE = Some st \/ (a CLASS = Some (wstr "nimi") /\ ((2 <= length st)%nat -> a STRUCTURE = Some (upd st 1 (ch "i"))))).
Proof.
  intros l full W. destruct (output_ok l full W) as (la & E & A). exists la. split; [exact E|]. intros a I.
  destruct A as [[_ ->]|(_ & a1 & more & -> & ((st & ST & SO & BO & _) & _) & M)]; [destruct I|]. exists st. split; [exact SO|]. split; [exact BO|].
  destruct I as [<-|I]; [now left|]. destruct M as [->|(a' & -> & M)]; [destruct I|]. destruct I as [<-|[]]. right.
  destruct M as (_ & M1 & _ & _ & _ & _ & M2 & _). split; [exact M1|]. intros L. now apply M2.
Qed.

(** A compound with a hyphen, an abbreviation with a colon and a name with a
    pattern. *)
Definition compound : list item := nth 2 fish_items [].
Example C42_compound : well_formed compound /\ surface compound = wstr "kala-ahven" /\ parseStructure (render compound) 10 = Ok (wstr "=pppp-=ppppp").
Proof.
  split; [|split; vm_compute; reflexivity]. pose proof fish_well_formed as W. rewrite Forall_forall in W. apply W. vm_compute. tauto.
Qed.
Definition company : list item := [Class "a"] ++ letters "eu" ++ [Colon; Boundary (ch "m")] ++ letters "ssa" ++ [Tag (wstr "Sine")].
Example C42_company : well_formed company /\ surface company = wstr "eu:ssa" /\ parseStructure (render company) 6 = Ok (wstr "=qq:=ppp").
Proof.
  split; [|split; vm_compute; reflexivity]. unfold company, letters. change (map Letter (wstr "eu")) with [Letter 101; Letter 117].
  change (map Letter (wstr "ssa")) with [Letter 115; Letter 115; Letter 97]. cbn [app].
  split; [items_good|split; [|split; [discriminate|split; discriminate]]]. cbn [fits_together]. repeat split; try discriminate; try reflexivity; try (left; reflexivity); right; discriminate.
Qed.
Definition town : list item := [Class "ep"; Pattern (wstr "ip=ipp")] ++ letters "ablah".
Example C42_town : well_formed town /\ parseStructure (render town) 5 = Ok (wstr "=ip=ipp").
Proof.
  split; [|vm_compute; reflexivity]. unfold town, letters. change (map Letter (wstr "ablah")) with [Letter 97; Letter 98; Letter 108; Letter 97; Letter 104]. cbn [app].
  split; [repeat (apply Forall_cons; [try item_good|]); try apply Forall_nil|split; [|split; [discriminate|split; discriminate]]].
  - intros u v H. do 6 (destruct u as [|? u]; [discriminate H|injection H as _ H]). destruct u; discriminate H.
  - vm_compute. repeat split; try discriminate; tauto.
Qed.

(** What the conditions exclude.  An output that starts with a single character and a
    boundary: the terminating NUL is written behind the buffer. *)
Example C42_single : parseStructure (render [Letter 97; Boundary (ch "c")]) 1 = UB.
Proof. vm_compute. reflexivity. Qed.
(** A remark that does not end: the search for its end leaves the output. *)
Example C42_open_remark : parseStructure (wstr "a[Ab") 1 = UB.
Proof. vm_compute. reflexivity. Qed.
(** A colon in a word that is not an abbreviation comes too early. *)
Example C42_colon : parseStructure (wstr "[Ln]abc:de") 6 = Ok (wstr "=:ppppp").
Proof. vm_compute. reflexivity. Qed.

(** ** C46: values of attributes *)

(** The attributes whose values can be enumerated. *)
Definition enumerable : list string :=
  ["CLASS"; "COMPARISON"; "FOCUS"; "KYSYMYSLIITE"; "MALAGA_VAPAA_JALKIOSA"; "MOOD"; "NEGATIVE"; "NUMBER"; "PARTICIPLE"; "PERSON"; "POSSESSIVE";
   "POSSIBLE_GEOGRAPHICAL_NAME"; "REQUIRE_FOLLOWING_VERB"; "SIJAMUOTO"; "TENSE"]%string.

(** Nothing is given for other names, and for these names there are some values
    and no value is given twice. *)
Theorem C46_names : forall name,
  (voikkoGetAttributeValues name = None <-> forall n, name = Some n -> ~ In n enumerable) /\
  forall l, voikkoGetAttributeValues name = Some l -> l <> [] /\ NoDup l.
Proof.
  intros [name|]; [|split; [split; [intros _ n H; discriminate H|reflexivity]|intros l H; discriminate H]].
  assert (D : In name enumerable \/ ~ In name enumerable) by (destruct (in_dec String.string_dec name enumerable); auto).
  destruct D as [D|D].
  - split.
    + split; [|intros H; now elim (H name eq_refl)]. intros H. exfalso. cbn [In enumerable] in D. repeat (destruct D as [<-|D]; [discriminate H|]). exact D.
    + intros l H. cbn [In enumerable] in D.
      repeat (destruct D as [<-|D]; [vm_compute in H; injection H as <-; split; [discriminate|repeat (apply NoDup_cons; [let X := fresh in intros X; vm_compute in X; intuition discriminate|]); apply NoDup_nil]|]).
      destruct D.
  - assert (E : voikkoGetAttributeValues (Some name) = None).
    { unfold voikkoGetAttributeValues, getAttributeValues. repeat match goal with |- context [String.eqb name ?s] =>
        destruct (String.eqb_spec name s) as [->|_]; [exfalso; apply D; vm_compute; tauto|] end. reflexivity. }
    split; [|intros l H; rewrite E in H; discriminate H]. split; [intros _ n Q; injection Q as <-; exact D|intros _; exact E].
Qed.

Lemma basic_empty : parseBasicAttributes no_attributes [] = UB.
Proof. reflexivity. Qed.

Lemma class_name_listed : listed CLASS (wstr "nimi").
Proof. apply among_listed, listed_class. vm_compute. tauto. Qed.

(** The values in an analysis are among those listed for their attribute, for any
    output of any dictionary, with one exception. *)
Theorem C46_values_partial : forall o wlen full la, output_analyses o wlen full = Ok la -> forall a, In a la -> forall k v, a k = Some v ->
  listed k v \/ (k = COMPARISON /\ v = wstr "positive").
Proof.
  intros o wlen full la E a I k v H. unfold output_analyses in E. apply bind_ok in E. destruct E as (valid & _ & E). destruct valid; [|injection E as <-; destruct I].
  apply bind_ok in E. destruct E as (st0 & _ & E). apply bind_ok in E. destruct E as (a0 & B & E). apply bind_ok in E. destruct E as (st & _ & E).
  assert (NE : o <> []) by (intros ->; rewrite basic_empty in B; discriminate B). destruct (parseBasicAttributes_ok o NE) as (a0' & B' & SA). rewrite B in B'. injection B' as <-.
  set (a1 := adjust (add a0 STRUCTURE st)) in *.
  assert (UN : forall k, In k [STRUCTURE; BASEFORM; FSTOUTPUT; WORDIDS; WORDBASES] -> a0 k = None) by (intros k' I'; apply sound_untouched; [exact SA|now apply not_enumerated]).
  assert (BA : bare a1).
  { intros k' T. unfold a1. rewrite adjust_other by (intros I'; cbn in I'; intuition (subst k'; discriminate T)). rewrite add_other by (intros <-; discriminate T). apply UN. destruct k'; try discriminate T; cbn; tauto. }
  assert (VA : forall k v, a1 k = Some v -> listed k v \/ (k = COMPARISON /\ v = wstr "positive")) by (intros k' v' H'; eapply analysis_values; [exact SA|exact H']).
  clearbody a1. clear B SA UN. destruct (duplicateOrgName_ok a1 o BA) as (more & DU & M). rewrite DU in E. cbn [bind] in E. apply bind_ok in E. destruct E as (a2 & F & E). injection E as <-.
  assert (FREE : forall k v, In k [STRUCTURE; BASEFORM; FSTOUTPUT; WORDIDS; WORDBASES] -> listed k v) by (intros k' v' I'; now apply not_listed_name, not_enumerated).
  destruct I as [<-|I].
  - destruct full; [|injection F as <-; now apply VA]. apply bind_ok in F. destruct F as (r & _ & F).
    destruct (parseDebugAttributes_ok (match r with Some v => add (add a1 FSTOUTPUT o) BASEFORM v | None => add a1 FSTOUTPUT o end) o) as (ids & bases & D).
    rewrite D in F. injection F as <-. apply add_some in H. destruct H as [H|[<- ->]]; [|left; apply FREE; cbn; tauto].
    assert (H' : match r with Some v => add (add a1 FSTOUTPUT o) BASEFORM v | None => add a1 FSTOUTPUT o end k = Some v \/ k = WORDIDS) by (destruct ids; [apply add_some in H; destruct H as [H|[<- _]]; auto|auto]).
    destruct H' as [H'| ->]; [|left; apply FREE; cbn; tauto].
    assert (H2 : add a1 FSTOUTPUT o k = Some v \/ k = BASEFORM) by (destruct r; [apply add_some in H'; destruct H' as [H'|[<- _]]; auto|auto]).
    destruct H2 as [H2| ->]; [|left; apply FREE; cbn; tauto]. apply add_some in H2. destruct H2 as [H2|[<- ->]]; [now apply VA|left; apply FREE; cbn; tauto].
  - destruct M as [->|(a' & -> & M)]; [destruct I|]. destruct I as [<-|[]]. destruct M as (_ & M1 & M2 & M3 & M4 & M5 & _ & M6).
    destruct k; try (left; apply FREE; cbn; tauto); try (rewrite M6 in H by (cbn; intuition discriminate); now apply VA); try congruence.
    rewrite M1 in H. injection H as <-. left. exact class_name_listed.
Qed.

(** The exception: adjectives get the degree of comparison "positive", which is not
    listed. *)
Theorem C46_values_refuted : exists l la a, well_formed l /\ output_analyses (render l) (length (surface l)) false = Ok la /\ In a la /\
  a COMPARISON = Some (wstr "positive") /\ ~ listed COMPARISON (wstr "positive").
Proof.
  set (l := [Class "l"; Letter 97; Letter 98]). assert (W : well_formed l).
  { split; [items_good|split; [|split; [discriminate|split; discriminate]]]. cbn [fits_together l]. repeat split; discriminate. }
  assert (E : exists a, output_analyses (render l) (length (surface l)) false = Ok [a] /\ a COMPARISON = Some (wstr "positive")) by (eexists; split; vm_compute; reflexivity).
  destruct E as (a & E & V). exists l, [a], a. split; [exact W|]. split; [exact E|]. split; [now left|]. split; [exact V|]. intros L.
  specialize (L "COMPARISON"%string ltac:(vm_compute; tauto) _ eq_refl). vm_compute in L. intuition discriminate.
Qed.

(** Every listed value occurs: some well-formed output leads to an analysis with
    it. *)
Definition sample_tags : list item :=
  map Class class_names ++ map (fun t => Tag (wstr t))
  ["Sn"; "Sg"; "Sp"; "Ses"; "Str"; "Sine"; "Sela"; "Sill"; "Sade"; "Sabl"; "Sall"; "Sab"; "Sko"; "Sin"; "Ssti"; "Sak"; "Cc"; "Cs"; "Tn1"; "Tn2"; "Tn3"; "Tn4"; "Tn5"; "Tt"; "Te"; "Tk"; "Tm";
   "Ny"; "Nm"; "P1"; "P2"; "P3"; "P4"; "Ap"; "Ai"; "Fkin"; "Fkaan"; "Fko"; "O1y"; "O2y"; "O1m"; "O2m"; "O3"; "Et"; "Ef"; "Eb"; "Rv"; "Ra"; "Ru"; "Rt"; "Rm"; "Re"; "Ivj"; "Ica"; "Ira"; "Irm"]%string.
Definition sample (t : item) : list item := [t; Letter 97; Letter 98].
Definition sample_has (k : Key) (v : list Z) (t : item) : bool :=
  match output_analyses (render (sample t)) 2 false with
  | Ok [a] => match a k with Some w => zlist_eqb w v | None => false end
  | _ => false
  end.

Lemma sample_well_formed : forall t, In t sample_tags -> well_formed (sample t).
Proof.
  intros t I. unfold sample. assert (G : good_item t).
  { revert t I. apply Forall_forall. unfold sample_tags, class_names. cbn [map app]. repeat (apply Forall_cons; [item_good|]). apply Forall_nil. }
  split; [constructor; [exact G|items_good]|]. split.
  - unfold sample_tags in I. apply in_app_or in I. destruct I as [I|I]; apply in_map_iff in I; destruct I as (x & <- & _); cbn [fits_together]; repeat split; discriminate.
  - unfold sample_tags in I. split.
    + destruct t; discriminate.
    + apply in_app_or in I. destruct I as [I|I]; apply in_map_iff in I; destruct I as (x & <- & _); split; discriminate.
Qed.

Theorem C46_all_values_occur : forall n k l v, In (n, k) STRING_TO_KEY -> voikkoGetAttributeValues (Some n) = Some l -> In v l ->
  exists items la a, well_formed items /\ output_analyses (render items) (length (surface items)) false = Ok la /\ In a la /\ a k = Some v.
Proof.
  assert (S : forallb (fun '(n, k) => match voikkoGetAttributeValues (Some n) with Some l => forallb (fun v => existsb (sample_has k v) sample_tags) l | None => true end) STRING_TO_KEY = true) by (vm_compute; reflexivity).
  intros n k l v I E J. rewrite forallb_forall in S. specialize (S _ I). cbv beta iota in S. rewrite E in S. rewrite forallb_forall in S. specialize (S v J). apply existsb_exists in S.
  destruct S as (t & K & S). pose proof (sample_well_formed t K) as W. exists (sample t). unfold sample_has in S.
  assert (L : length (surface (sample t)) = 2%nat).
  { unfold sample_tags in K. apply in_app_or in K. destruct K as [K|K]; apply in_map_iff in K; destruct K as (x & <- & _); reflexivity. }
  rewrite L. destruct (output_analyses (render (sample t)) 2 false) as [[|a [|b m]]| |]; try discriminate S. exists [a], a. split; [exact W|]. split; [reflexivity|]. split; [now left|].
  destruct (a k) as [w|]; [|discriminate S]. apply zlist_eqb_eq in S. now subst w.
Qed.

(** ** C59: the other parsers *)

(** The check of the hyphens, the attributes, the corrections of the structure, the
    base form and the parts of a compound are computed without reading or writing
    outside a buffer, for any output and any structure; no output is too long. *)
Theorem C59_parsers_stay_inside : forall o st,
  (exists x, isValidAnalysis o = Ok x) /\
  (o <> [] -> exists a, parseBasicAttributes no_attributes o = Ok a) /\
  (exists st', fixStructure st o = Ok st') /\
  (exists b, parseBaseform o st = Ok b) /\
  (forall a, exists a', parseDebugAttributes a o = Ok a').
Proof.
  intros o st. split; [apply isValidAnalysis_ok|]. split; [intros N; destruct (parseBasicAttributes_ok o N) as (a & E & _); eauto|].
  split; [destruct (fixStructure_ok st o) as (st' & E & _); eauto|]. split; [apply parseBaseform_ok|].
  intros a. destruct (parseDebugAttributes_ok a o) as (ids & bases & E). eauto.
Qed.

(** Corrections of the structure change letters between small and capital only. *)
Theorem C59_corrections : forall o st st', fixStructure st o = Ok st' -> Forall2 same_case st st'.
Proof. intros o st st' E. destruct (fixStructure_ok st o) as (st2 & E2 & S). rewrite E in E2. injection E2 as <-. exact S. Qed.

(** The parsers at work, and the empty output, for which the loop over the
    attributes starts before the output. *)
Example C59_samples :
  parseBaseform (render compound) (wstr "=pppp-=ppppp") = Ok (Some (wstr "kala-ahven")) /\
  (exists a, parseDebugAttributes no_attributes (wstr "[Ln][Xp]kala[X][Xs]505527[X]kala[Bc][Ln][Xp]keitto[X][Xs]500100[X]keito[Sg][Ny]n") = Ok a /\
     a WORDBASES = Some (wstr "+kala(kala)+keitto(keitto)") /\ a WORDIDS = Some (wstr "+kala(w505527)+keitto(w500100)")) /\
  fixStructure (wstr "=ipp-=ppp") (wstr "[Lep]aaa-[Bc][Ln]bbb[Dg][Sn][Ny]") = Ok (wstr "=ipp-=ppp") /\
  parseBasicAttributes no_attributes [] = UB.
Proof.
  split; [vm_compute; reflexivity|]. split; [|split; vm_compute; reflexivity]. eexists. split; [vm_compute; reflexivity|]. split; vm_compute; reflexivity.
Qed.

(** ** C60: the analyses of a word *)

(** The answer depends on the word only, not on the words before it, as long as
    these leave nothing behind in the transducer. *)
Theorem C60_history : forall T, finnish_dictionary T -> exists answer : bool -> list Z -> list analysis,
  forall c word full, clean_history T c -> exists c', fin_analyze T c word full = Ok (answer full word, c') /\
    (flagDiacriticFeatureCount T = 0%nat \/ ~ broken_off T word -> clean_history T c').
Proof.
  intros T D. exists (fun full word => match fin_analyze T (fresh_analyzer T) word full with Ok (l, _) => l | _ => [] end).
  intros c word full H. destruct (fin_analyze_spec T c word full D (clean_exhausted T c D H)) as (l & c' & E & _ & (d' & F) & _). rewrite F. exists c'. split; [exact E|].
  assert (U : finnish_used T c).
  { destruct H as [H|[H _]]; [|exact H]. clear - H. induction H; [constructor|econstructor; eassumption]. }
  intros [Z|NB].
  - right. split; [exact (finnish_word _ _ _ _ _ _ U E)|exact Z].
  - destruct H as [H|[H Z]]; [left|right]; [exact (finished_word _ _ _ _ _ _ H NB E)|split; [exact (finnish_word _ _ _ _ _ _ U E)|exact Z]].
Qed.

Definition all_known (T : transducer) (word : list Z) : bool :=
  forallb (fun c => match find_symbol (stringToSymbol T) c with Some _ => true | None => false end) word.

Lemma path_known : forall T q fl w p out rest, path T q fl w p out rest -> rest = [] -> all_known T w = true.
Proof.
  intros T q fl w p out rest H. induction H; intros R; subst; auto.
  unfold all_known in *. cbn [forallb]. rewrite IHpath by reflexivity.
  match goal with S : symbol_of T c _ |- _ => unfold symbol_of in S; rewrite S end. reflexivity.
Qed.

Lemma unknown_not_accepted : forall T c word c1, finnish_dictionary T -> used T BUFFER_SIZE c -> (length word <= BUFFER_SIZE)%nat ->
  prepare T c word = Ok (false, c1) -> forall p out, ~ accepts T word p out.
Proof.
  intros T c word c1 ((A & B & C & D & states & E & F) & _) U L P p out AC.
  destruct (used_sized T states A B C D E F BUFFER_SIZE c fin_buffer_two U) as [F2 F3].
  destruct (prepare_spec T states E F c word F2 ltac:(lia)) as (kn & c3 & P1 & _ & _ & P4 & _). rewrite P in P1. apply ok_pair in P1. destruct P1 as [P1 _].
  pose proof (path_known _ _ _ _ _ _ _ AC eq_refl) as K. unfold all_known in K. congruence.
Qed.

(** One analysed output: the path in the dictionary, the output and its
    analyses. *)
Definition entry : Type := list nat * list item * list analysis.
Definition entry_path (x : entry) : list nat := fst (fst x).

Lemma entries : forall T word full (paths : list (list nat * list Z * nat)) lists, finnish_dictionary T ->
  (forall p out k, In (p, out, k) paths -> accepts T word p out) ->
  Forall2 (fun r la => output_analyses (fst r) (length word) full = Ok la) (map (fun '(_, out, k) => (out, k)) paths) lists ->
  exists found : list entry, map entry_path found = map (fun '(p, _, _) => p) paths /\ concat (map snd found) = concat lists /\
    (forall p it la, In (p, it, la) found -> well_formed it /\ surface it = word /\ accepts T word p (render it) /\ analyses_of it full la /\ output_analyses (render it) (length word) full = Ok la).
Proof.
  intros T word full paths lists D. revert lists. induction paths as [|[[p out] k] paths IH]; intros lists A F; cbn [map] in F; inversion F as [|? la ? lists' O1 O2]; subst.
  - exists []. split; [reflexivity|]. split; [reflexivity|]. intros p it la [].
  - destruct (IH lists' (fun p out k I => A p out k (or_intror I)) O2) as (found & E1 & E2 & E3).
    pose proof (A p out k (or_introl eq_refl)) as AC. destruct (proj2 D _ _ _ AC) as (it & W & -> & S).
    exists ((p, it, la) :: found). cbn [map concat entry_path fst snd]. split; [now rewrite <- E1|]. split; [now rewrite <- E2|].
    intros p' it' la' [X|X]; [|now apply E3]. injection X as <- <- <-. split; [exact W|]. split; [exact S|]. split; [exact AC|].
    destruct (output_ok it full W) as (la2 & O3 & AN). rewrite S in O3. cbn [fst] in O1. assert (LA : la2 = la) by (rewrite O1 in O3; now injection O3). subst la2. auto.
Qed.

Lemma concat_two : forall T word full (found : list entry), (forall p it la, In (p, it, la) found -> well_formed it /\ surface it = word /\ accepts T word p (render it) /\ analyses_of it full la) ->
  (length (concat (map snd found)) <= 2 * length found)%nat.
Proof.
  induction found as [|[[p it] la] found IH]; intros H; [cbn; lia|]. cbn [map concat snd length]. rewrite app_length.
  specialize (IH (fun p it la I => H p it la (or_intror I))). destruct (H p it la (or_introl eq_refl)) as (_ & _ & _ & A).
  assert (length la <= 2)%nat by (destruct A as [[_ ->]|(_ & a & more & -> & _ & [->|(a' & -> & _)])]; cbn; lia). lia.
Qed.

Lemma fin_found : forall T c word full l c', finnish_dictionary T -> clean_history T c -> fin_analyze T c word full = Ok (l, c') ->
  let low := voikko_set_case CT_ALL_LOWER word in
  exists found : list entry, l = concat (map snd found) /\ (length found <= 99)%nat /\ (length l <= 198)%nat /\
    StronglySorted before (map entry_path found) /\
    (forall p it la, In (p, it, la) found -> well_formed it /\ surface it = low /\ accepts T low p (render it) /\ analyses_of it full la /\ output_analyses (render it) (length low) full = Ok la) /\
    (forall p p' out', In p (map entry_path found) -> accepts T low p' out' -> before p' p -> In p' (map entry_path found)) /\
    ((length word <= 255)%nat -> ~ broken_off T word -> forall p out, accepts T low p out -> In p (map entry_path found)).
Proof.
  intros T c word full l c' D H E low. pose proof (clean_exhausted T c D H) as X.
  destruct (fin_analyze_spec T c word full D X) as (l2 & c2 & E2 & _ & _ & S). rewrite E in E2. apply ok_pair in E2. destruct E2 as [<- <-]. cbv zeta in S. fold low in S.
  pose proof fin_buffer_word as BW. assert (LL : (length word <= LIBVOIKKO_MAX_WORD_CHARS)%nat -> (length low <= BUFFER_SIZE)%nat) by (unfold low; rewrite set_case_length; lia).
  assert (U : used T BUFFER_SIZE c) by (destruct X as [X|[X _]]; [eapply exhausted_used; exact X|exact X]).
  assert (NONE : l = [] -> ((length word <= 255)%nat -> forall p out, ~ accepts T low p out) ->
    exists found : list entry, l = concat (map snd found) /\ (length found <= 99)%nat /\ (length l <= 198)%nat /\ StronglySorted before (map entry_path found) /\
    (forall p it la, In (p, it, la) found -> well_formed it /\ surface it = low /\ accepts T low p (render it) /\ analyses_of it full la /\ output_analyses (render it) (length low) full = Ok la) /\
    (forall p p' out', In p (map entry_path found) -> accepts T low p' out' -> before p' p -> In p' (map entry_path found)) /\
    ((length word <= 255)%nat -> ~ broken_off T word -> forall p out, accepts T low p out -> In p (map entry_path found))).
  { intros -> N. exists []. split; [reflexivity|]. split; [cbn; lia|]. split; [cbn; lia|]. split; [constructor|]. split; [intros p it la []|]. split; [intros p p' out' []|].
    intros L _ p out A. exfalso. exact (N L p out A). }
  destruct S as [(-> & _ & L)|[(-> & L & P)|(c1 & results & e & lists & L & P & LK & (d1 & d2 & X1 & X2) & N1 & N2 & O & ->)]].
  - apply NONE; [reflexivity|]. intros L2. change LIBVOIKKO_MAX_WORD_CHARS with 255%nat in L. lia.
  - apply NONE; [reflexivity|]. intros _. exact (unknown_not_accepted T c low c' D U (LL L) P).
  - clear NONE. destruct (lookup_paths _ _ _ _ _ _ _ _ _ _ _ (proj1 D) fin_buffer_two X (LL L) fin_buffer_pos P LK) as (paths & M1 & M2 & M3 & M4 & M5).
    assert (AC : forall p out k, In (p, out, k) paths -> accepts T low p out) by (intros p out k I; exact (proj2 (acc_accepts _ _ _ _ _ _ (M3 p out k I)))).
    rewrite <- M1 in O. replace (length word) with (length low) in O by (unfold low; apply set_case_length).
    destruct (entries T low full paths lists D AC O) as (found & F1 & F2 & F3). exists found. rewrite F2. split; [reflexivity|].
    assert (LF : (length found <= 99)%nat).
    { assert (Q : length found = length results) by (rewrite <- M1, map_length, <- (map_length entry_path), F1, map_length; reflexivity). rewrite Q.
      destruct e as [o|]; [specialize (N2 ltac:(discriminate)); lia|specialize (N1 eq_refl); lia]. }
    split; [exact LF|]. split; [rewrite <- F2; pose proof (concat_two T low full found (fun p it la I => let (W, R) := F3 p it la I in let (S, R) := R in let (A, R) := R in conj W (conj S (conj A (proj1 R))))); lia|]. rewrite F1. split; [exact M2|]. split; [exact F3|]. split.
    + intros p p' out' I A B. apply in_map_iff in I. destruct I as ([[p0 out0] k0] & Q & I). subst p0. apply in_map_iff.
      exists (p', out', length low). split; [reflexivity|]. eapply M4; [exact I| |exact B]. apply accepts_acc. split; [reflexivity|exact A].
    + intros _ NB p out A. assert (e = Some End) as ->.
      { destruct e as [o|].
        - destruct o; try reflexivity; exfalso; apply NB; exists d1, results; eexists _, d2; (split; [exact X1|split; [exact X2|right; eexists; split; [reflexivity|discriminate]]]).
        - exfalso. apply NB. exists d1, results, None, d2. split; [exact X1|]. split; [exact X2|]. left. now apply N1. }
      apply in_map_iff. exists (p, out, length low). split; [reflexivity|]. apply M5; [reflexivity|]. apply accepts_acc. split; [reflexivity|exact A].
Qed.

(** The analyses of a word are those of at most 99 outputs.  The outputs are well
    formed, belong to the word in small letters, and are taken in the order of the
    dictionary; nothing is left out before one that is found.  Nothing is left out
    at all for words of at most 255 characters whose search is not broken off. *)
Theorem C60_analyses_partial : forall T c word full l c', finnish_dictionary T -> clean_history T c -> fin_analyze T c word full = Ok (l, c') ->
  let low := voikko_set_case CT_ALL_LOWER word in
  exists found : list entry, l = concat (map snd found) /\ (length found <= 99)%nat /\ (length l <= 198)%nat /\
    StronglySorted before (map entry_path found) /\
    (forall p it la, In (p, it, la) found -> well_formed it /\ surface it = low /\ accepts T low p (render it) /\ analyses_of it full la) /\
    (forall p p' out', In p (map entry_path found) -> accepts T low p' out' -> before p' p -> In p' (map entry_path found)) /\
    ((length word <= 255)%nat -> ~ broken_off T word -> forall p out, accepts T low p out -> In p (map entry_path found)).
Proof.
  intros T c word full l c' D H E low. destruct (fin_found T c word full l c' D H E) as (found & A1 & A2 & A3 & A4 & A5 & A6). exists found. split; [exact A1|]. split; [exact A2|]. split; [exact A3|].
  split; [exact A4|]. split; [|exact A6]. intros p it la I. destruct (A5 p it la I) as (B1 & B2 & B3 & B4 & _). auto.
Qed.

(** *** Examples *)
Lemma lookup_same : forall T len c results c2, lookup T false len c results (Some End) c2 ->
  forall results' e c2', lookup T false len c results' e c2' -> (length results' <= length results)%nat /\ forall o, e = Some o -> o = End.
Proof.
  intros T len c results c2 H. remember (Some End) as e0 eqn:E0. induction H; intros results' e' c2' H'; try discriminate.
  - inversion H' as [?|? ? ? ? ? ? ? ST LK|? ? ? ST NF]; subst.
    + split; [cbn; lia|discriminate].
    + rewrite H in ST. apply ok_pair in ST. destruct ST as [Q1 Q2]. injection Q1 as <- <-. subst. destruct (IHlookup eq_refl _ _ _ LK) as [A B]. cbn [length]. split; [lia|exact B].
    + rewrite H in ST. apply ok_pair in ST. destruct ST as [Q1 _]. subst. exfalso. eapply NF. reflexivity.
  - injection E0 as ->. inversion H' as [?|? ? ? ? ? ? ? ST LK|? ? ? ST NF]; subst.
    + split; [cbn; lia|discriminate].
    + rewrite H in ST. apply ok_pair in ST. destruct ST as [Q1 _]. discriminate Q1.
    + rewrite H in ST. apply ok_pair in ST. destruct ST as [<- _]. split; [cbn; lia|]. intros o Q. now injection Q as <-.
Qed.

(** The search comes to its end, by computation. *)
Definition ends (T : transducer) (word : list Z) : bool :=
  match prepare T (fresh_analyzer T) (voikko_set_case CT_ALL_LOWER word) with
  | Ok (true, c1) => match collect 99 T false BUFFER_SIZE c1 with Ok (results, Some End, _) => (length results <? 99)%nat | _ => false end
  | _ => true
  end.
Lemma ends_not_broken : forall T word, ends T word = true -> ~ broken_off T word.
Proof.
  intros T word H (c1 & results & e & c2 & P & L & B). unfold ends, fresh_analyzer in H. rewrite P in H.
  destruct (collect 99 T false BUFFER_SIZE c1) as [[[results' e'] c2']| |] eqn:C; try discriminate H. destruct e' as [o|]; [|discriminate H]. destruct o; try discriminate H.
  apply collect_lookup in C. destruct (lookup_same _ _ _ _ _ C _ _ _ L) as [A D]. apply Nat.ltb_lt in H. destruct B as [B|(o & B1 & B2)]; [lia|]. now apply B2, D.
Qed.

Definition shown_fin (T : transducer) (c : configuration) (full : bool) (word : list Z) : option (list (option (list Z) * option (list Z) * option (list Z))) :=
  match fin_analyze T c word full with Ok (l, _) => Some (map (fun a => (a STRUCTURE, a SIJAMUOTO, a BASEFORM)) l) | _ => None end.

(** The dictionary with three words, before and after it has been used; the first
    letter of "KALAA" does not matter. *)
Example C60_fish : shown_fin fish (fresh_analyzer fish) true (wstr "KALAA") = Some [(Some (wstr "=ppppp"), Some (wstr "osanto"), Some (wstr "kala"))] /\
  shown_fin fish (fresh_analyzer fish) true (wstr "kala-ahven") = Some [(Some (wstr "=pppp-=ppppp"), Some (wstr "nimento"), Some (wstr "kala-ahven"))] /\
  shown_fin fish (fresh_analyzer fish) false (wstr "kala-ahven") = Some [(Some (wstr "=pppp-=ppppp"), Some (wstr "nimento"), None)] /\
  shown_fin fish (fresh_analyzer fish) true (wstr "ahven") = Some [].
Proof. split; [|split; [|split]]; vm_compute; reflexivity. Qed.

Example C60_fish_clean : exists l c, fin_analyze fish (fresh_analyzer fish) (wstr "kala") true = Ok (l, c) /\ length l = 1%nat /\ finnish_finished fish c /\
  shown_fin fish c true (wstr "KALAA") = Some [(Some (wstr "=ppppp"), Some (wstr "osanto"), Some (wstr "kala"))].
Proof.
  assert (X : exists l c, fin_analyze fish (fresh_analyzer fish) (wstr "kala") true = Ok (l, c) /\ length l = 1%nat /\
    shown_fin fish c true (wstr "KALAA") = Some [(Some (wstr "=ppppp"), Some (wstr "osanto"), Some (wstr "kala"))]) by (eexists; eexists; split; [vm_compute; reflexivity|split; vm_compute; reflexivity]).
  destruct X as (l & c & E & L & S). exists l, c. split; [exact E|]. split; [exact L|]. split; [|exact S].
  apply (finished_word fish (fresh_analyzer fish) (wstr "kala") true l c); [exact (finished_new fish)| |exact E]. apply ends_not_broken. vm_compute. reflexivity.
Qed.

(** *** Words with very many outputs

    In this dictionary "ab" has 100 outputs, which all set a flag; "ba" needs the
    flag to be set and is not accepted. *)
Definition crowd : transducer := mk_fst
  ([mk_cell 1 0 2 1; mk_cell 2 0 104 0; mk_cell 3 3 3 0; mk_cell 4 5 103 99] ++ map (fun i => mk_cell 4 (5 + Z.of_nat i) 103 0) (seq 1 99) ++
   [mk_cell FINAL 0 0 0; mk_cell 4 4 105 0; mk_cell 3 3 103 0])
  [(97, 3); (98, 4)]
  ([[]; []; []; wstr "a"; wstr "b"] ++ map (fun i => wstr "b[Xs]" ++ [1000 + Z.of_nat i] ++ wstr "[X]") (seq 0 100))
  [mk_ofv Operation_P 0 0; mk_ofv Operation_P 0 2; mk_ofv Operation_R 0 2] 1 3 105.

Lemma crowd_dictionary : finnish_dictionary crowd.
Proof.
  apply (dictionary_by_words crowd [0;2;3;103;104;105]%nat 8
    (map (fun i => (wstr "ab", render [Letter 97; Letter 98; Remark (ch "s") [1000 + Z.of_nat i]])) (seq 0 100) ++ [(wstr "ba", wstr "ba")])).
  - vm_compute. reflexivity.
  - vm_compute. reflexivity.
  - intros w out I. apply in_app_or in I. destruct I as [I|[I|[]]].
    + apply in_map_iff in I. destruct I as (i & E & _). injection E as <- <-. exists [Letter 97; Letter 98; Remark (ch "s") [1000 + Z.of_nat i]].
      split; [|split; reflexivity]. split; [|split; [|split; [discriminate|split; discriminate]]].
      * apply Forall_cons; [item_good|]. apply Forall_cons; [item_good|]. apply Forall_cons; [|apply Forall_nil]. cbn [good_item].
        split; [vm_compute; intuition discriminate|]. change (ch "[") with 91. split; intros [H|[]]; lia.
      * cbn [fits_together]. reflexivity.
    + injection I as <- <-. exists [Letter 98; Letter 97]. split; [|split; reflexivity]. split; [items_good|split; [|split; [discriminate|split; discriminate]]]. cbn [fits_together]. reflexivity.
Qed.

(** The last of the 100 outputs is not reported. *)
Theorem C60_complete_refuted : exists T word p out l c', finnish_dictionary T /\ accepts T (voikko_set_case CT_ALL_LOWER word) p out /\ isValidAnalysis out = Ok true /\
  fin_analyze T (fresh_analyzer T) word true = Ok (l, c') /\ forall a, In a l -> a FSTOUTPUT <> Some out.
Proof.
  set (out := wstr "ab[Xs]" ++ [1099] ++ wstr "[X]").
  assert (E : exists l c', fin_analyze crowd (fresh_analyzer crowd) (wstr "ab") true = Ok (l, c')) by (eexists; eexists; vm_compute; reflexivity).
  assert (S : match fin_analyze crowd (fresh_analyzer crowd) (wstr "ab") true with
    | Ok (l, _) => forallb (fun a => match a FSTOUTPUT with Some o => negb (zlist_eqb o out) | None => true end) l | _ => false end = true) by (vm_compute; reflexivity).
  destruct E as (l & c' & E). rewrite E in S. exists crowd, (wstr "ab"), [0; 2; 102; 103]%nat, out, l, c'.
  split; [exact crowd_dictionary|]. split; [|split; [vm_compute; reflexivity|split; [exact E|]]].
  - replace (voikko_set_case CT_ALL_LOWER (wstr "ab")) with (wstr "ab") by (vm_compute; reflexivity). unfold accepts, out.
    change (wstr "ab[Xs]" ++ [1099] ++ wstr "[X]") with ([] ++ wstr "a" ++ (wstr "b[Xs]" ++ [1099] ++ wstr "[X]") ++ @nil Z).
    eapply path_flag with (t := mk_cell 1 0 2 1) (o := mk_ofv Operation_P 0 2).
    + exists 1%nat, false. repeat split; try reflexivity; try (cbn; lia); discriminate.
    + cbn. lia.
    + reflexivity.
    + apply flag_P.
    + reflexivity.
    + eapply path_read with (t := mk_cell 3 3 3 0).
      * exists 2%nat, false. repeat split; try reflexivity; try (cbn; lia); discriminate.
      * cbn. unfold FINAL. lia.
      * reflexivity.
      * reflexivity.
      * eapply path_read with (t := mk_cell 4 104 103 0).
        -- exists 102%nat, false. repeat split; try reflexivity; try (cbn; lia); discriminate.
        -- cbn. unfold FINAL. lia.
        -- reflexivity.
        -- reflexivity.
        -- eapply path_final with (t := mk_cell FINAL 0 0 0); [|reflexivity]. exists 103%nat, false. repeat split; try reflexivity; try (cbn; lia); discriminate.
  - rewrite forallb_forall in S. intros a I X. specialize (S a I). cbn beta in S. rewrite X, zlist_eqb_refl in S. discriminate S.
Qed.

(** After a word with 99 outputs or more the flags keep their values: then a word
    that the dictionary does not have gets an analysis, but not before. *)
Theorem C60_history_refuted : exists T c word l c1 l2 c2, finnish_dictionary T /\ finnish_used T c /\
  fin_analyze T c word false = Ok (l, c1) /\ length l = 1%nat /\ fin_analyze T (fresh_analyzer T) word false = Ok (l2, c2) /\ length l2 = 0%nat.
Proof.
  assert (E : exists l0 c l c1 l2 c2, fin_analyze crowd (fresh_analyzer crowd) (wstr "ab") false = Ok (l0, c) /\ fin_analyze crowd c (wstr "ba") false = Ok (l, c1) /\ length l = 1%nat /\
    fin_analyze crowd (fresh_analyzer crowd) (wstr "ba") false = Ok (l2, c2) /\ length l2 = 0%nat).
  { eexists. eexists. eexists. eexists. eexists. eexists. split; [vm_compute; reflexivity|]. split; [vm_compute; reflexivity|]. split; [vm_compute; reflexivity|]. split; vm_compute; reflexivity. }
  destruct E as (l0 & c & l & c1 & l2 & c2 & E0 & E1 & L1 & E2 & L2). exists crowd, c, (wstr "ba"), l, c1, l2, c2. split; [exact crowd_dictionary|].
  split; [|split; [exact E1|split; [exact L1|split; [exact E2|exact L2]]]]. exact (finnish_word crowd _ (wstr "ab") false l0 c (finnish_new crowd) E0).
Qed.

Print Assumptions C42_structure.
Print Assumptions C42_structure_of_analyses.
Print Assumptions C46_names.
Print Assumptions C46_values_partial.
Print Assumptions C46_values_refuted.
Print Assumptions C46_all_values_occur.
Print Assumptions C59_parsers_stay_inside.
Print Assumptions C59_corrections.
Print Assumptions C60_history.
Print Assumptions C60_analyses_partial.
Print Assumptions C60_complete_refuted.
Print Assumptions C60_history_refuted.
