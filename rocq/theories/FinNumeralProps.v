(** * The base forms of numerals *)
From Verif Require Import Base BaseFacts CharModel AnalysisModel HyphModel FstModel FstSpec FinModel FinSpec FinStructure FinTotal FinBaseform FinAnalyzer FinExample FinProps FinWordSpec FinHyphens FinWordBase FinWordProps FinNumeralSpec FinNumeralProofs FinNumeralBase.
From Coq Require Import Lia.

Lemma usual_u : forall l, usual_base l -> forall a b, l = a ++ Class "u" :: b -> (3 <= length (render b))%nat.
Proof. intros l (_ & R & _) a b E. apply (R a (Class "u") b E); [apply in_or_app; right; now left|]. right. exists "u"%string. split; [reflexivity|]. now left. Qed.

(** ** C75: numerals *)

(** The base form of a numeral consists of what is in front of it and of the base
    forms of its parts. *)
Theorem C75_numerals : forall l a r an, usual_base l -> numeral l a r -> no_sources r -> analysis_of l true an ->
  exists st v, an STRUCTURE = Some st /\ numeral_form r v /\ (forall v', numeral_form r v' -> v' = v) /\ an BASEFORM = Some (written (symbols st) (surface a) ++ v).
Proof.
  intros l a r an U (E & NC & NN) NS ((st & ST & _ & _ & PB) & _). pose proof (usual_u l U) as UU. destruct U as (G & R & RK & DE). specialize (PB eq_refl). rewrite (parse_runn l st G RK UU DE) in PB.
  rewrite E in PB. rewrite runn_numeral in PB by solve [exact NC|exact (UU a r E)].
  assert (GR : Forall good_item r) by (rewrite E in G; apply Forall_app in G; exact (Forall_inv_tail (proj2 G))).
  assert (F : forall v, numeral_form r v -> nrun r [] (digit_start r) false = Some v).
  { intros v V. apply form_found; [exact GR|exact NN| | |exact V].
    - intros k t I. specialize (RK k t). rewrite E in RK. specialize (RK ltac:(apply in_or_app; right; now right)). change (wstr "pjs") with [ch "p"; ch "j"; ch "s"] in RK. cbn [In] in RK.
      exists k, t. split; [reflexivity|]. destruct RK as [<-|[<-|[<-|[]]]]; [now left|now right|]. elim (NS t I).
    - intros a' b' E'. apply (R (a ++ Class "u" :: a') new_part b'); [rewrite E, E', <- app_assoc; reflexivity| |now left]. apply in_or_app. left. apply in_or_app. right. now left. }
  destruct (form_exists r) as [v V]. exists st, v. split; [exact ST|]. split; [exact V|]. pose proof (F v V) as FV. rewrite FV in PB. split; [|injection PB as PB; rewrite <- PB; reflexivity].
  intros v' V'. specialize (F v' V'). rewrite FV in F. now injection F as <-.
Qed.

(** For words. *)
Theorem C75_words : forall T c word l c' an, finnish_dictionary T -> clean_history T c -> fin_analyze T c word true = Ok (l, c') -> In an l -> an FSTOUTPUT <> None ->
  exists it p, surface it = voikko_set_case CT_ALL_LOWER word /\ accepts T (voikko_set_case CT_ALL_LOWER word) p (render it) /\ an FSTOUTPUT = Some (render it) /\
    (forall a r, usual_base it -> numeral it a r -> no_sources r -> exists st v, an STRUCTURE = Some st /\ numeral_form r v /\ an BASEFORM = Some (written (symbols st) (surface a) ++ v)).
Proof.
  intros T c word l c' a D H E I FO. destruct (C60_analyses_partial T c word true l c' D H E) as (found & L & _ & _ & _ & F & _). rewrite L in I. apply in_concat in I. destruct I as (la & I1 & I2).
  apply in_map_iff in I1. destruct I1 as ([[p it] la'] & Q & I1). cbn [snd] in Q. subst la'. destruct (F p it la I1) as (W & S & A & AN). exists it, p. split; [exact S|]. split; [exact A|].
  destruct AN as [[_ ->]|(V & b & more & -> & AO & M)]; [destruct I2|]. destruct I2 as [<-|I2].
  - split; [apply AO|]. intros a' r U N NS. destruct (C75_numerals it a' r b U N NS AO) as (st & v & H1 & H2 & _ & H3). exists st, v. auto.
  - exfalso. destruct M as [->|(a' & -> & M)]; [destruct I2|]. destruct I2 as [<-|[]]. apply FO. apply M.
Qed.

(** ** C62: everything else *)

Lemma run_base : forall l st, Forall good_item l -> base_form l st (run l [] (symbols st) None 0).
Proof.
  intros l st G. unfold base_form. destruct (run_outcome l [] (symbols st) None 0 G ltac:(discriminate)) as [H|[(N & H)|(_ & F & H)]].
  - left. exact H.
  - right. rewrite H. split; [|reflexivity]. intros a k t b -> B _. exfalso. unfold no_base in N. rewrite Forall_forall in N. apply (N (Remark k t)); [apply in_or_app; right; now left|exact B].
  - right. auto.
Qed.

Lemma first_class : forall l, (exists a k r, l = a ++ Class k :: r /\ forall x, In x a -> ~ is_class x) \/ (forall x, In x l -> ~ is_class x).
Proof.
  induction l as [|x l IH]; [right; intros x []|]. assert (D : is_class x \/ ~ is_class x) by (destruct x; try (right; intros (k0 & E); discriminate E); left; eexists; reflexivity).
  destruct D as [(k & ->)|D]; [left; exists [], k, l; split; [reflexivity|intros x []]|]. destruct IH as [(a & k & r & -> & N)|N].
  - left. exists (x :: a), k, r. split; [reflexivity|]. intros y [<-|I]; [exact D|now apply N].
  - right. intros y [<-|I]; [exact D|now apply N].
Qed.

Lemma noun_or_not : forall r, (exists k, In (Class k) r /\ In k ["n"; "l"; "nl"]%string) \/ (forall k, In (Class k) r -> ~ In k ["n"; "l"; "nl"]%string).
Proof.
  induction r as [|x r [(k & I & K)|IH]]; [right; intros k []|left; exists k; split; [now right|exact K]|].
  destruct x as [c| | |k|k|q|k t|t]; try (right; intros k' [E|I]; [discriminate E|now apply IH]). destruct (in_dec string_dec k ["n"; "l"; "nl"]%string) as [K|K]; [left; exists k; split; [now left|exact K]|].
  right. intros k' [E|I]; [injection E as <-; exact K|now apply IH].
Qed.

(** If the output is not a numeral -- also if a numeral is followed by a noun or
    adjective -- then the base form is the beginning of the word, with the
    capitals of the structure, and the base form of its last part.  (Names of places
    with several inflected words are in [FinPlaceProps].) *)
Theorem C62_last_part : forall l an, usual_base l -> (forall a r, ~ numeral l a r) -> analysis_of l true an ->
  exists st v, an STRUCTURE = Some st /\ base_form l st v /\ (forall v', base_form l st v' -> v' = v) /\ (an BASEFORM = Some v \/ (v = [] /\ an BASEFORM = None)).
Proof.
  intros l an U N ((st & ST & _ & _ & PB) & _). pose proof (usual_u l U) as UU. destruct U as (G & R & RK & DE). specialize (PB eq_refl). rewrite (parse_runn l st G RK UU DE) in PB.
  assert (Q : runn l [] (symbols st) None 0 false = optional (run l [] (symbols st) None 0)).
  { destruct (first_class l) as [(a & k & r & E & NC)|NC].
    - destruct (string_dec k "u") as [->|K].
      + destruct (noun_or_not r) as [H|H]; [|elim (N a r); split; [exact E|split; assumption]]. rewrite E. rewrite runn_numeral by solve [exact NC|exact (UU a r E)]. rewrite nrun_none; [reflexivity|exact H|].
        intros a' k b' E' K. apply (R (a ++ Class "u" :: a') (Class k) b'); [rewrite E, E', <- app_assoc; reflexivity| |right; exists k; split; [reflexivity|now right]]. apply in_or_app. left. apply in_or_app. right. now left.
      + apply runn_other. intros a' r' E' NC'. rewrite E in E'. clear - E' NC NC' K. revert a' E' NC'. induction a as [|x a IH]; intros [|y a'] E' NC'; cbn [app] in E'.
        * injection E' as E1 _. congruence.
        * injection E' as E1 _. apply (NC' y); [now left|]. now exists k.
        * injection E' as E1 _. apply (NC x); [now left|]. now exists "u"%string.
        * injection E' as E1 E2. apply (IH (fun z I => NC z (or_intror I)) a' E2). intros z I. apply NC'. now right.
    - apply runn_other. intros a' r' E' _. apply (NC (Class "u")); [rewrite E'; apply in_or_app; right; now left|now exists "u"%string]. }
  rewrite Q in PB. injection PB as PB. exists st, (run l [] (symbols st) None 0). pose proof (run_base l st G) as B. split; [exact ST|]. split; [exact B|].
  split; [intros v' B'; exact (base_form_unique l st v' _ B' B)|]. rewrite <- PB. destruct (run l [] (symbols st) None 0); [right|left]; auto.
Qed.

(** *** Examples.  "kahdessatoista" has the base form "kaksitoista", "25:ssa" has
    "25"; a noun behind a numeral, "kaksikalat", has "kaksikala". *)
Lemma roomy_by : forall l, (fix go l := match l with
  | [] => true
  | x :: r => (match x with Boundary k => negb (k =? ch "c") | Class k => negb (existsb (String.eqb k) ["u"; "n"; "l"; "nl"]%string) | _ => true end || (3 <=? length (render r))%nat) && go r
  end) l = true -> roomy l.
Proof.
  intros l H a x b E _ X. subst l. induction a as [|y a IH].
  - cbn [app] in H. apply andb_true_iff in H. destruct H as [H _]. apply orb_true_iff in H. destruct H as [H|H]; [|now apply Nat.leb_le]. exfalso. destruct X as [->|(k & -> & K)]; [discriminate H|].
    cbn [In] in K. destruct K as [<-|[<-|[<-|[<-|[]]]]]; discriminate H.
  - cbn [app] in H. apply andb_true_iff in H. apply IH. apply H.
Qed.

Lemma usual_by : forall l, Forall good_item l -> (fix go l := match l with
  | [] => true
  | x :: r => (match x with Boundary k => negb (k =? ch "c") | Class k => negb (existsb (String.eqb k) ["u"; "n"; "l"; "nl"]%string) | _ => true end || (3 <=? length (render r))%nat) && go r
  end) l = true ->
  forallb (fun x => match x with Remark k _ => mem k (wstr "pjs") | Tag t => negb (zlist_eqb t (wstr "De")) | _ => true end) l = true -> usual_base l.
Proof.
  intros l G R F. rewrite forallb_forall in F. split; [exact G|]. split; [now apply roomy_by|]. split.
  - intros k t I. specialize (F _ I). cbn beta iota in F. now apply mem_In.
  - intros a b ->. specialize (F (Tag (wstr "De")) ltac:(apply in_or_app; right; now left)). discriminate F.
Qed.

Definition twelve : list item :=
  [Class "u"; Remark (ch "p") (wstr "kaksi")] ++ letters "kahdessa" ++ [Tag (wstr "Sine"); Tag (wstr "Ny"); new_part; Class "u"; Remark (ch "p") (wstr "toista")] ++ letters "toista".
Definition in_25 : list item := Class "u" :: letters "25" ++ [Tag (wstr "Sine"); Tag (wstr "Ny"); Colon] ++ letters "ssa".
Definition two_fish : list item := [Class "u"; Remark (ch "p") (wstr "kaksi")] ++ letters "kaksi" ++ [new_part; Class "n"; Remark (ch "p") (wstr "kala")] ++ letters "kalat" ++ [Tag (wstr "Sn"); Tag (wstr "Nm")].

Ltac numeral_items := unfold twelve, in_25, two_fish, letters; change (wstr "kahdessa") with [107; 97; 104; 100; 101; 115; 115; 97]; change (wstr "toista") with [116; 111; 105; 115; 116; 97];
  change (wstr "kaksi") with [107; 97; 107; 115; 105]; change (wstr "25") with [50; 53]; change (wstr "ssa") with [115; 115; 97]; change (wstr "kalat") with [107; 97; 108; 97; 116]; change (wstr "kala") with [107; 97; 108; 97]; unfold new_part; cbn [map app].
Ltac numeral_well := numeral_items; (split; [items_good|split; [|split; [discriminate|split; discriminate]]]); cbn [fits_together]; repeat split; try discriminate; try reflexivity; first [left; reflexivity|right; discriminate].

Example C75_twelve : well_formed twelve /\ usual_base twelve /\ surface twelve = wstr "kahdessatoista" /\ numeral twelve [] (tl twelve) /\ no_sources (tl twelve) /\
  base_of twelve = Some (wstr "kaksitoista") /\ numeral_form (tl twelve) (wstr "kaksitoista").
Proof.
  split; [numeral_well|]. split; [apply usual_by; [numeral_items; items_good|vm_compute; reflexivity|vm_compute; reflexivity]|]. split; [reflexivity|].
  split; [split; [reflexivity|split; [intros x []|]]|split; [|split; [vm_compute; reflexivity|]]].
  - numeral_items. cbn [tl In]. intros k H. repeat (destruct H as [E|H]; [first [discriminate E|injection E as <-; cbn [In]; intuition discriminate]|]). destruct H.
  - intros t. numeral_items. cbn [tl In]. intros H. repeat (destruct H as [E|H]; [first [discriminate E|injection E as E _; discriminate E]|]). destruct H.
  - exists ([Remark (ch "p") (wstr "kaksi")] ++ letters "kahdessa" ++ [Tag (wstr "Sine"); Tag (wstr "Ny")]), [[Class "u"; Remark (ch "p") (wstr "toista")] ++ letters "toista"], (wstr "kaksi"), [wstr "toista"].
    split; [reflexivity|]. split; [|split; [intros []|split; [intros _|split; [|reflexivity]]]].
    + intros q [<-|[<-|[]]]; numeral_items; cbn [In]; intuition discriminate.
    + right. exists [], (ch "p"), (wstr "kaksi"), (letters "kahdessa" ++ [Tag (wstr "Sine"); Tag (wstr "Ny")]). split; [reflexivity|]. split; [constructor|]. split; [exists (ch "p"), (wstr "kaksi"); auto|reflexivity].
    + constructor; [|constructor]. right. exists [Class "u"], (ch "p"), (wstr "toista"), (letters "toista"). split; [reflexivity|]. split; [constructor; [intros (k & t & E & _); discriminate E|constructor]|]. split; [exists (ch "p"), (wstr "toista"); auto|reflexivity].
Qed.

Example C75_digits : well_formed in_25 /\ usual_base in_25 /\ surface in_25 = wstr "25:ssa" /\ numeral in_25 [] (tl in_25) /\ base_of in_25 = Some (wstr "25") /\ in_digits (tl in_25) /\ digits_form (tl in_25) (wstr "25").
Proof.
  split; [numeral_well|]. split; [apply usual_by; [numeral_items; items_good|vm_compute; reflexivity|vm_compute; reflexivity]|]. split; [reflexivity|]. split; [|split; [vm_compute; reflexivity|split; [reflexivity|]]].
  - split; [reflexivity|]. split; [intros x []|]. numeral_items. cbn [tl In]. intros k H. repeat (destruct H as [E|H]; [discriminate E|]). destruct H.
  - exists (letters "25"), ([Tag (wstr "Sine"); Tag (wstr "Ny"); Colon] ++ letters "ssa"). split; [reflexivity|]. split; [numeral_items; repeat constructor|]. split; [|reflexivity]. right. eexists. eexists. split; [reflexivity|]. intros [].
Qed.

Example C62_two_fish : well_formed two_fish /\ usual_base two_fish /\ (forall a r, ~ numeral two_fish a r) /\ surface two_fish = wstr "kaksikalat" /\ base_of two_fish = Some (wstr "kaksikala").
Proof.
  split; [numeral_well|]. split; [apply usual_by; [numeral_items; items_good|vm_compute; reflexivity|vm_compute; reflexivity]|]. split; [|split; [reflexivity|vm_compute; reflexivity]].
  intros a r (E & NC & NN). assert (A : a = []).
  { destruct a as [|x a]; [reflexivity|]. exfalso. injection E as <- _. apply (NC (Class "u")); [now left|now exists "u"%string]. }
  subst a. injection E as <-. apply (NN "n"%string); [|now left]. numeral_items. cbn [In]. tauto.
Qed.

(** *** The number of the word in a database *)
Definition numbered : list item := [Class "u"; Remark (ch "s") (wstr "12"); Remark (ch "p") (wstr "kaksi")] ++ letters "kaksi" ++ [Tag (wstr "Sn"); Tag (wstr "Ny")].
Lemma numbered_well : well_formed numbered.
Proof. unfold numbered. numeral_well. Qed.
Lemma numbered_usual : usual_base numbered.
Proof. apply usual_by; [unfold numbered; numeral_items; items_good|vm_compute; reflexivity|vm_compute; reflexivity]. Qed.

(** The remark [[Xs]...[X]], with the number of the word in a database, is not part
    of the word.  Yet its text becomes part of the base form of a numeral: this
    base form is "12kaksi". *)
Theorem C75_sources_refuted : exists l r an, well_formed l /\ usual_base l /\ numeral l [] r /\ output_analyses (render l) (length (surface l)) true = Ok [an] /\
  numeral_form r (wstr "kaksi") /\ an BASEFORM = Some (wstr "12kaksi").
Proof.
  assert (E : exists an, output_analyses (render numbered) (length (surface numbered)) true = Ok [an] /\ an BASEFORM = Some (wstr "12kaksi")) by (eexists; split; vm_compute; reflexivity).
  destruct E as (an & E1 & E2). exists numbered, (tl numbered), an. split; [exact numbered_well|]. split; [exact numbered_usual|]. split; [|split; [exact E1|split; [|exact E2]]]; clear E1 E2.
  - split; [reflexivity|]. split; [intros x []|]. unfold numbered. numeral_items. cbn [tl In]. intros k H. repeat (destruct H as [E|H]; [discriminate E|]). destruct H.
  - exists (tl numbered), [], (wstr "kaksi"), []. split; [reflexivity|]. split; [intros q [<-|[]]; unfold numbered; numeral_items; cbn [tl In]; intuition discriminate|]. split; [intros []|]. split; [intros _|split; [constructor|reflexivity]].
    right. exists [Remark (ch "s") (wstr "12")], (ch "p"), (wstr "kaksi"), (letters "kaksi" ++ [Tag (wstr "Sn"); Tag (wstr "Ny")]). split; [reflexivity|]. split.
    + constructor; [|constructor]. intros (k & t & E & D). injection E as <- _. destruct D as [D|D]; discriminate D.
    + split; [exists (ch "p"), (wstr "kaksi"); auto|reflexivity].
Qed.

Print Assumptions C75_numerals.
Print Assumptions C75_words.
Print Assumptions C75_sources_refuted.
Print Assumptions C62_last_part.
