(** * The parts of a word with their base forms (C78) *)
From Verif Require Import Base BaseFacts CharModel AnalysisModel SetupModel HyphModel FstModel FstSpec FinModel FinSpec FinStructure FinTotal FinAttributes FinBaseform FinAnalyzer FinExample FinProps FinDebug FinPartsSpec FinPartsProofs.
From Coq Require Import Lia.

(** ** Which outputs are described *)

Lemma app_last : forall (A : Type) (p : list A) x a y b, p ++ [x] = a ++ y :: b -> (b = [] /\ p = a /\ x = y) \/ (exists b', b = b' ++ [x] /\ p = a ++ y :: b').
Proof.
  intros A p x a y b E. destruct (@exists_last A (y :: b) ltac:(discriminate)) as (q & z & Q). rewrite Q, app_assoc in E. apply app_inj_tail in E. destruct E as (E1 & E2). subst z.
  destruct q as [|y' q].
  - cbn [app] in Q. injection Q as -> ->. left. rewrite app_nil_r in E1. auto.
  - cbn [app] in Q. injection Q as <- ->. right. exists q. auto.
Qed.
Lemma surface_app : forall a b, surface (a ++ b) = surface a ++ surface b. Proof. intros. unfold surface. rewrite map_app, concat_app. reflexivity. Qed.

Lemma plain_snoc : forall open p x, plain_part open p -> tidy_item x -> (forall k, x <> Class k) -> (forall t, x = Remark (ch "j") t -> open = false /\ surface p = []) ->
  (forall a, p = a ++ [Hyphen] -> ~ starts_part x) -> plain_part open (p ++ [x]).
Proof.
  intros open p x (P1 & P2 & P3 & P5 & P6) T NC J NB. split; [|split; [|split; [|split]]].
  - intros k I. apply in_app_or in I. destruct I as [I|[I|[]]]; [exact (P1 k I)|exact (NC k I)].
  - intros a t b E. apply app_last in E. destruct E as [(-> & <- & E)|(b' & -> & E)]; [|exact (P2 _ _ _ E)]. destruct (J t E) as (J1 & J2). split; [exact J1|]. split; [exact J2|]. subst x. apply T. reflexivity.
  - intros a y b E. change (a ++ Hyphen :: y :: b) with (a ++ [Hyphen] ++ y :: b) in E. rewrite app_assoc in E. apply app_last in E. destruct E as [(-> & E & <-)|(b' & -> & E)]; [exact (NB a E)|].
    rewrite <- app_assoc in E. exact (P3 _ _ _ E).
  - intros k t I. apply in_app_or in I. destruct I as [I|[I|[]]]; [exact (P5 k t I)|]. subst x. destruct T as (_ & T1 & T2 & _). auto.
  - rewrite surface_app. intros I. apply in_app_or in I. destruct I as [I|I]; [exact (P6 I)|]. unfold surface in I. cbn [map concat] in I. rewrite app_nil_r in I. exact (proj1 T I).
Qed.
Lemma plain_nil : forall open, plain_part open [].
Proof.
  intros open. split; [intros k []|]. split; [intros [|? ?] t b E; discriminate E|]. split; [intros [|? ?] x b E; discriminate E|]. split; [intros k t []|intros []].
Qed.
Lemma base_origin : forall p b0, base_of b0 p = b0 \/ exists u k t v, p = u ++ Remark k t :: v /\ ((k = ch "p" /\ base_of b0 p = t) \/ (k = ch "j" /\ base_of b0 p = wstr "+" ++ t)).
Proof.
  induction p as [|x p IH]; intros b0; [left; reflexivity|].
  assert (L : forall b1, base_of b0 (x :: p) = base_of b1 p -> b1 = b0 \/ (exists k t, x = Remark k t /\ ((k = ch "p" /\ b1 = t) \/ (k = ch "j" /\ b1 = wstr "+" ++ t))) ->
    base_of b0 (x :: p) = b0 \/ exists u k t v, x :: p = u ++ Remark k t :: v /\ ((k = ch "p" /\ base_of b0 (x :: p) = t) \/ (k = ch "j" /\ base_of b0 (x :: p) = wstr "+" ++ t))).
  { intros b1 E X. rewrite E. destruct (IH b1) as [H|(u & k & t & v & -> & H)].
    - rewrite H. destruct X as [->|(k & t & -> & X)]; [left; reflexivity|right]. exists [], k, t, p. split; [reflexivity|exact X].
    - right. exists (x :: u), k, t, v. split; [reflexivity|exact H]. }
  destruct x as [c| | |k|k|q|k t|t]; try (apply (L b0 eq_refl); left; reflexivity). apply (L _ eq_refl). destruct (k =? ch "p") eqn:KP; [right; exists k, t; split; [reflexivity|left; split; [now apply Z.eqb_eq|reflexivity]]|].
  destruct (k =? ch "j") eqn:KJ; [right; exists k, t; split; [reflexivity|right; split; [now apply Z.eqb_eq|reflexivity]]|left; reflexivity].
Qed.

Lemma tidy_suffix : forall a b, tidy (a ++ b) -> tidy b.
Proof.
  intros a b (T1 & T3). split; [apply Forall_app in T1; apply T1|].
  intros a' k t b' -> K. apply (T3 (a ++ a') k t b'); [apply app_assoc|exact K].
Qed.

Lemma covered : forall n l open b0 p, (length l <= n)%nat -> tidy (p ++ l) -> plain_part open p -> (open = false -> b0 = []) -> (forall a x r, p = a ++ [Hyphen] -> l = x :: r -> ~ starts_part x) ->
  exists B I, described open b0 (p ++ l) B I.
Proof.
  induction n as [|n IH]; intros l open b0 p L T P O NB.
  - destruct l; [|cbn [length] in L; lia]. rewrite app_nil_r in *. eexists _, _. apply d_last; [exact P|].
    destruct open; [right; right; reflexivity|]. rewrite (O eq_refl). destruct (base_origin p []) as [->|(u & k & t & v & E & H)]; [left; reflexivity|right; left]. destruct T as (T1 & T3).
    assert (K : k = ch "p" \/ k = ch "j") by (destruct H as [(H & _)|(H & _)]; auto). split.
    + destruct (T3 u k t v E K) as [N|(k' & N)]; [|exfalso; destruct P as (P & _); apply (P k'); rewrite E; apply in_or_app; right; right; exact N].
      rewrite E, surface_app. intros X. apply app_eq_nil in X. apply N. apply (proj2 X).
    + rewrite Forall_forall in T1. assert (TI : tidy_item (Remark k t)) by (apply T1; rewrite E; apply in_or_app; right; left; reflexivity). destruct TI as (_ & _ & _ & TP & _).
      destruct H as [(-> & ->)|(-> & ->)]; [exact (TP eq_refl)|]. change (symbols (wstr "+" ++ t)) with (ch "+" :: symbols t). discriminate.
  - destruct l as [|x l].
    { apply (IH [] open b0 p); try assumption; try (cbn [length]; lia). }
    assert (TX : tidy_item x). { destruct T as (T1 & _). apply Forall_app in T1. destruct T1 as (_ & T1). now inversion T1. }
    cbn [length] in L. assert (TN : tidy ([] ++ l)). { apply (tidy_suffix (p ++ [x])). rewrite <- app_assoc. exact T. }
    assert (NEXT : (forall k, x <> Class k) -> (forall t, x = Remark (ch "j") t -> open = false /\ surface p = []) -> (forall y r, x = Hyphen -> l = y :: r -> ~ starts_part y) -> exists B I, described open b0 (p ++ x :: l) B I).
    { intros NC NJ NH. change (p ++ x :: l) with (p ++ [x] ++ l). rewrite app_assoc. apply IH; [lia| | |exact O|].
      - rewrite <- app_assoc. exact T.
      - apply plain_snoc; [exact P|exact TX|exact NC|exact NJ|]. intros a E. exact (NB a x l E eq_refl).
      - intros a y r E. apply app_inj_tail in E. destruct E as (_ & E). apply (NH y r E). }
    destruct x as [c| | |k|k|q|k t|t]; try (apply NEXT; intros; discriminate).
    + destruct l as [|y l']; [apply NEXT; intros; discriminate|].
      assert (SD : starts_part y \/ ~ starts_part y) by (destruct y; cbn [starts_part]; try (right; intros []; fail); [left; exact Logic.I|destruct (Z.eq_dec (hd 0 t) (ch "B")); auto]).
      destruct SD as [SD|SD]; [|apply NEXT; try (intros; discriminate); intros z r _ Z; injection Z as <- _; exact SD].
      destruct (IH l' false [] []) as (B & I & D); [cbn [length] in L; lia|apply (tidy_suffix [y]); exact TN|apply plain_nil|reflexivity|intros a k' r E; destruct a; discriminate E|].
      eexists _, _. apply d_hyphen; [exact P|exact SD|exact D].
    + destruct (IH l false [] []) as (B & I & D); [lia|exact TN|apply plain_nil|reflexivity|intros a k' r E; destruct a; discriminate E|].
      eexists _, _. apply d_class; [exact P|exact D].
    + destruct (Z.eq_dec k (ch "j")) as [->|K]; [|apply NEXT; try (intros; discriminate); intros t' E; injection E as E _; contradiction].
      assert (D : (open = true \/ surface p <> []) \/ (open = false /\ surface p = [])) by (destruct open; [left; left; reflexivity|]; destruct (surface p); [right; auto|left; right; discriminate]).
      destruct D as [D|D]; [|apply NEXT; try (intros; discriminate); intros t' _; exact D].
      destruct (IH l true (wstr "+" ++ t) []) as (B & I & DD); [lia|exact TN|apply plain_nil|discriminate|intros a k' r E; destruct a; discriminate E|].
      eexists _, _. destruct TX as (_ & X1 & _ & _ & X2). apply d_ending; [exact P|exact D|exact (X2 eq_refl)|exact X1|exact DD].
Qed.

(** Every tidy output is described. *)
Theorem C78_described : forall l, tidy l -> exists B I, described false [] l B I.
Proof. intros l T. apply (covered (length l) l false [] []); [reflexivity|exact T|apply plain_nil|reflexivity|intros a k r E; destruct a; discriminate E]. Qed.

(** ** The attributes *)

Definition described_by (l : list item) (a : analysis) (B I : list Z) : Prop :=
  a WORDBASES = Some B /\ ((exists t, In (Remark (ch "s") t) l) -> a WORDIDS = Some I) /\ ((forall t, ~ In (Remark (ch "s") t) l) -> a WORDIDS = None).

Lemma number_in : forall l, if existsb is_number l then exists t, In (Remark (ch "s") t) l else forall t, ~ In (Remark (ch "s") t) l.
Proof.
  intros l. destruct (existsb is_number l) eqn:E.
  - apply existsb_exists in E. destruct E as (x & I & E). destruct x; try discriminate E. cbn [is_number] in E. apply Z.eqb_eq in E. subst k. exists t. exact I.
  - intros t I. assert (X : existsb is_number l = true) by (apply existsb_exists; eexists; split; [exact I|apply Z.eqb_refl]). congruence.
Qed.

Lemma output_debug : forall l wlen a more, render l <> [] -> output_analyses (render l) wlen true = Ok (a :: more) ->
  exists a2, a2 WORDIDS = None /\ a2 WORDBASES = None /\ parseDebugAttributes a2 (render l) = Ok a.
Proof.
  intros l wlen a more NE E. unfold output_analyses in E. apply bind_ok in E. destruct E as (valid & _ & E). destruct valid; [|discriminate E].
  apply bind_ok in E. destruct E as (st0 & _ & E). apply bind_ok in E. destruct E as (a0 & B & E). apply bind_ok in E. destruct E as (st & _ & E).
  apply bind_ok in E. destruct E as (more' & _ & E). apply bind_ok in E. destruct E as (a2 & F & E). injection E as -> ->. apply bind_ok in F. destruct F as (r & _ & F).
  destruct (parseBasicAttributes_ok (render l) NE) as (a0' & B' & SA). rewrite B in B'. injection B' as <-.
  assert (UN : forall k, In k [WORDIDS; WORDBASES] -> adjust (add a0 STRUCTURE st) k = None).
  { intros k I. assert (U : a0 k = None) by (apply sound_untouched; [exact SA|apply not_enumerated; cbn [In] in *; tauto]).
    rewrite adjust_other, add_other; [exact U| |]; cbn [In] in *; intros X; intuition (subst; discriminate). }
  eexists. split; [|split; [|exact F]]; destruct r; rewrite ?(add_other _ BASEFORM), ?(add_other _ FSTOUTPUT) by discriminate; apply UN; cbn [In]; tauto.
Qed.

(** What the attributes of an output are: the parts that the output describes.  (Partial:
    outputs that are not described, see [C78_described], are left out; see also the
    refutations.) *)
Theorem C78_output_partial : forall l a more B I, well_formed l -> output_analyses (render l) (length (surface l)) true = Ok (a :: more) -> described false [] l B I -> described_by l a B I.
Proof.
  intros l a more B I W E D.
  assert (NE : render l <> []).
  { intros X. destruct W as (_ & _ & W & _). apply W. clear - X. unfold render, surface in *. induction l as [|x l IH]; [reflexivity|]. cbn [map concat] in *. apply app_eq_nil in X. destruct X as [E1 E2].
    rewrite (IH E2). destruct x; try reflexivity; discriminate E1. }
  destruct (output_debug l _ a more NE E) as (a2 & U1 & U2 & P). apply (debug_described a2 l B I a (proj1 W) D) in P. subst a. assert (N := number_in l). unfold described_by.
  destruct (existsb is_number l).
  - split; [apply add_same; rewrite add_other by discriminate; exact U2|]. split; [intros _; rewrite add_other by discriminate; apply add_same; exact U1|]. intros X. destruct N as (t & N). elim (X t N).
  - split; [apply add_same; exact U2|]. split; [intros (t & X); elim (N t X)|intros _; rewrite add_other by discriminate; exact U1].
Qed.

(** For words: the parts are those of an output of the dictionary for the word in small
    letters.  (Partial as above.) *)
Theorem C78_words_partial : forall T c word l c' an, finnish_dictionary T -> clean_history T c -> fin_analyze T c word true = Ok (l, c') -> In an l -> an FSTOUTPUT <> None ->
  exists it p, surface it = voikko_set_case CT_ALL_LOWER word /\ accepts T (voikko_set_case CT_ALL_LOWER word) p (render it) /\ an FSTOUTPUT = Some (render it) /\
    (forall B I, described false [] it B I -> described_by it an B I) /\ (tidy it -> exists B I, described_by it an B I).
Proof.
  intros T c word l c' a D H E I FO. destruct (fin_found T c word true l c' D H E) as (found & L & _ & _ & _ & F & _). rewrite L in I. apply in_concat in I. destruct I as (la & I1 & I2).
  apply in_map_iff in I1. destruct I1 as ([[p it] la'] & Q & I1). cbn [snd] in Q. subst la'. destruct (F p it la I1) as (W & S & A & AN & O). exists it, p. split; [exact S|]. split; [exact A|].
  destruct AN as [[_ ->]|(V & b & more & -> & AO & M)]; [destruct I2|]. destruct I2 as [<-|I2].
  - split; [apply AO|]. rewrite <- S in O. split.
    + intros B I X. exact (C78_output_partial it b more B I W O X).
    + intros T'. destruct (C78_described it T') as (B & I & X). exists B, I. exact (C78_output_partial it b more B I W O X).
  - exfalso. destruct M as [->|(a' & -> & M)]; [destruct I2|]. destruct I2 as [<-|[]]. apply FO. apply M.
Qed.

(** ** Samples *)

(** A test for tidy outputs. *)
Fixpoint splits (l : list item) : list (list item) := l :: match l with [] => [] | _ :: r => splits r end.
Lemma in_splits : forall a b, In b (splits (a ++ b)).
Proof. induction a as [|x a IH]; intros b; [destruct b; left; reflexivity|]. right. apply IH. Qed.
Definition without (c : Z) (l : list Z) : bool := forallb (fun d => negb (d =? c)) l.
Lemma without_spec : forall c l, without c l = true -> ~ In c l.
Proof. intros c l H I. unfold without in H. rewrite forallb_forall in H. specialize (H c I). rewrite Z.eqb_refl in H. discriminate. Qed.
Definition tidy_itemb (x : item) : bool :=
  without (ch "+") (surface_item x) && match x with Remark k t => without (ch "]") t && negb (hd 0 t =? ch "+") && nonempty (symbols t) && nonempty t | _ => true end.
Definition tidyb (l : list item) : bool :=
  forallb tidy_itemb l && forallb (fun b => match b with Remark _ _ :: r => nonempty (surface r) || existsb (fun x => match x with Class _ => true | _ => false end) r | _ => true end) (splits l).
Lemma nonempty_spec : forall l, nonempty l = true -> l <> []. Proof. intros [|c l] H; [discriminate H|discriminate]. Qed.
Lemma tidyb_ok : forall l, tidyb l = true -> tidy l.
Proof.
  intros l H. unfold tidyb in H. apply andb_true_iff in H. destruct H as (H1 & H2). rewrite forallb_forall in H1, H2. split.
  - apply Forall_forall. intros x I. specialize (H1 x I). unfold tidy_itemb in H1. apply andb_true_iff in H1. destruct H1 as (H1 & H3). split; [apply without_spec, H1|]. destruct x; try exact Logic.I.
    rewrite !andb_true_iff in H3. destruct H3 as (((A & B) & C) & D). split; [apply without_spec, A|]. split; [apply Z.eqb_neq, negb_true_iff, B|]. split; intros _; apply nonempty_spec; assumption.
  - intros a k t b -> _. specialize (H2 _ (in_splits a _)). cbn beta iota in H2. apply orb_true_iff in H2. destruct H2 as [H2|H2]; [left; apply nonempty_spec, H2|right].
    apply existsb_exists in H2. destruct H2 as (x & I & X). destruct x; try discriminate X. exists k0. exact I.
Qed.

(** The attributes of an output, by computation. *)
Definition values (l : list item) : option (option (list Z) * option (list Z)) :=
  match output_analyses (render l) (length (surface l)) true with Ok (a :: _) => Some (a WORDBASES, a WORDIDS) | _ => None end.
Definition noun (id : string) (base : string) (text : string) : list item := [Class "n"; Remark (ch "p") (wstr base); Remark (ch "s") (wstr id)] ++ letters text.
(** "koydenvetoa" and "Alkio-opistossa" of the documentation (without the umlaut). *)
Definition rope : list item := noun "506953" "koysi" "koyde" ++ [Tag (wstr "Sg"); Tag (wstr "Ny")] ++ [Class "n"] ++ letters "n" ++ [Boundary (ch "c")] ++ noun "517284" "veto" "veto" ++ [Tag (wstr "Sp"); Tag (wstr "Ny")] ++ letters "a".
Definition college : list item := noun "518215" "Alkio" "alkio" ++ [Hyphen; Boundary (ch "c")] ++ noun "510148" "opisto" "opisto" ++ [Tag (wstr "Sine"); Tag (wstr "Ny")] ++ letters "ssa".
(** "nopeustutka", "kissaton". *)
Definition speed : list item := [Class "l"; Remark (ch "p") (wstr "nopea")] ++ letters "nope" ++ [Class "n"; Remark (ch "j") (wstr "us")] ++ letters "us" ++ [Boundary (ch "c"); Class "n"; Remark (ch "p") (wstr "tutka")] ++ letters "tutka" ++ [Tag (wstr "Sn"); Tag (wstr "Ny")].
Definition catless : list item := [Class "n"; Remark (ch "p") (wstr "kissa")] ++ letters "kissa" ++ [Class "l"; Remark (ch "j") (wstr "ton")] ++ letters "ttoma" ++ [Tag (wstr "Sp"); Tag (wstr "Ny")] ++ letters "a".
(** "kansalliseepos" and "kansallista" with an ending inside the part; a last part without letters. *)
Definition epic : list item := [Class "n"; Remark (ch "p") (wstr "kansa")] ++ letters "kansa" ++ [Remark (ch "j") (wstr "llinen")] ++ letters "llis" ++ [Boundary (ch "c"); Class "n"; Remark (ch "p") (wstr "eepos")] ++ letters "eepos" ++ [Tag (wstr "Sn"); Tag (wstr "Ny")].
Definition national : list item := [Class "n"; Remark (ch "p") (wstr "kansa")] ++ letters "kansa" ++ [Remark (ch "j") (wstr "llinen")] ++ letters "llis" ++ [Tag (wstr "Sp"); Tag (wstr "Ny")] ++ letters "ta".
Definition lost : list item := [Class "n"; Remark (ch "p") (wstr "kala")] ++ letters "kala" ++ [Class "n"; Remark (ch "p") (wstr "keitto"); Tag (wstr "Sn"); Tag (wstr "Ny")].

Ltac parts_formed := unfold rope, college, speed, catless, epic, national, lost, noun, letters; cbn [map app];
  repeat match goal with |- context [map Letter (wstr ?x)] => let v := eval vm_compute in (map Letter (wstr x)) in change (map Letter (wstr x)) with v end; cbn [app];
  split; [items_good|split; [|split; [discriminate|split; discriminate]]]; cbn [fits_together]; repeat split; try discriminate; try reflexivity; try (right; discriminate).

Lemma C78_sample_forms : well_formed rope /\ well_formed college /\ well_formed speed /\ well_formed catless /\ well_formed epic /\ well_formed national /\ well_formed lost.
Proof. split; [parts_formed|]. split; [parts_formed|]. split; [parts_formed|]. split; [parts_formed|]. split; [parts_formed|]. split; parts_formed. Qed.

Example C78_samples :
  Forall tidy [rope; college; speed; catless; epic; national] /\
  values rope = Some (Some (wstr "+koyde(koysi)+n+veto(veto)"), Some (wstr "+koyde(w506953)+n+veto(w517284)")) /\
  values college = Some (Some (wstr "+alkio(Alkio)+-+opisto(opisto)"), Some (wstr "+alkio(w518215)+-+opisto(w510148)")) /\
  values speed = Some (Some (wstr "+nope(nopea)+us(+us)+tutka(tutka)"), None) /\
  values catless = Some (Some (wstr "+kissa(kissa)+ton(+ton)"), None) /\
  values national = Some (Some (wstr "+kansa(kansa)+llinen(+llinen)"), None).
Proof.
  split; [repeat (apply Forall_cons; [apply tidyb_ok; vm_compute; reflexivity|]); apply Forall_nil|].
  split; [vm_compute; reflexivity|]. split; [vm_compute; reflexivity|]. split; [vm_compute; reflexivity|]. split; vm_compute; reflexivity.
Qed.

(** The description itself, for a compound. *)
Example C78_rope_described : described false [] rope (wstr "+koyde(koysi)+n+veto(veto)") (wstr "+koyde(w506953)+n+veto(w517284)").
Proof.
  assert (T : tidy rope) by (apply tidyb_ok; vm_compute; reflexivity). destruct (C78_described rope T) as (B & I & D).
  assert (V : exists a more, output_analyses (render rope) (length (surface rope)) true = Ok (a :: more) /\ a WORDBASES = Some (wstr "+koyde(koysi)+n+veto(veto)") /\ a WORDIDS = Some (wstr "+koyde(w506953)+n+veto(w517284)")).
  { destruct (output_analyses (render rope) (length (surface rope)) true) as [[|a more]| |] eqn:E; try (exfalso; vm_compute in E; discriminate E). exists a, more. split; [reflexivity|].
    assert (X : values rope = Some (a WORDBASES, a WORDIDS)) by (unfold values; rewrite E; reflexivity).
    assert (Y : values rope = Some (Some (wstr "+koyde(koysi)+n+veto(veto)"), Some (wstr "+koyde(w506953)+n+veto(w517284)"))) by (vm_compute; reflexivity). rewrite X in Y. injection Y as Y1 Y2. auto. }
  destruct V as (a & more & E & V1 & V2). destruct (C78_output_partial rope a more B I (proj1 C78_sample_forms) E D) as (W1 & W2 & _). assert (EB : B = wstr "+koyde(koysi)+n+veto(veto)") by congruence.
  assert (EI : I = wstr "+koyde(w506953)+n+veto(w517284)") by (rewrite W2 in V2 by (exists (wstr "506953"); right; right; left; reflexivity); congruence). rewrite <- EB, <- EI. exact D.
Qed.

(** ** Where the attribute is not as documented *)

(** The endings of a word are separated from the other parts by a plus sign, but not if an
    ending is inside a part: "kansalliseepos", for which the documentation has
    "+kansa(kansa)+llis(+llinen)+eepos(eepos)". *)
Theorem C78_ending_refuted : well_formed epic /\ surface epic = wstr "kansalliseepos" /\ values epic = Some (Some (wstr "+kansa(kansa)llis(+llinen)+eepos(eepos)"), None).
Proof. split; [apply C78_sample_forms|]. split; vm_compute; reflexivity. Qed.

(** All parts of the word are listed, but not if the last part has a base form and no
    letters: its base form takes the place of the part before it. *)
Theorem C78_letterless_refuted : well_formed lost /\ surface lost = wstr "kala" /\ values lost = Some (Some (wstr "+keitto(keitto)"), None).
Proof. split; [apply C78_sample_forms|]. split; vm_compute; reflexivity. Qed.

(** A word of the sample dictionary. *)
Example C78_fish : exists l c a, fin_analyze fish (fresh_analyzer fish) (wstr "Kalaa") true = Ok (l, c) /\ In a l /\ a FSTOUTPUT <> None /\ a WORDBASES = Some (wstr "+kala(kala)") /\ Forall tidy fish_items.
Proof.
  destruct (fin_analyze fish (fresh_analyzer fish) (wstr "Kalaa") true) as [[l c]| |] eqn:E; try (exfalso; vm_compute in E; discriminate E).
  assert (X : map (fun a => (a FSTOUTPUT, a WORDBASES)) l = [(Some (wstr "[Ln][Xp]kala[X]kala[Sp][Ny]a"), Some (wstr "+kala(kala)"))]).
  { replace l with (match fin_analyze fish (fresh_analyzer fish) (wstr "Kalaa") true with Ok (l, _) => l | _ => [] end) by (rewrite E; reflexivity). vm_compute. reflexivity. }
  destruct l as [|a [|a' l]]; try discriminate X. cbn [map] in X. injection X as X1 X2. exists [a], c, a. split; [reflexivity|]. split; [left; reflexivity|]. split; [rewrite X1; discriminate|]. split; [exact X2|].
  unfold fish_items. repeat (apply Forall_cons; [apply tidyb_ok; vm_compute; reflexivity|]). apply Forall_nil.
Qed.

Print Assumptions C78_described.
Print Assumptions C78_output_partial.
Print Assumptions C78_words_partial.
Print Assumptions C78_rope_described.
Print Assumptions C78_ending_refuted.
Print Assumptions C78_letterless_refuted.
