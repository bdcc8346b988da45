(** * Compounds and base forms in analyses for Finnish *)
From Verif Require Import Base BaseFacts CharModel AnalysisModel HyphModel FstModel FstSpec FinModel FinSpec FinStructure FinTotal FinBaseform FinAnalyzer FinExample FinProps FinWordSpec FinHyphens FinWordBase.
From Coq Require Import Lia.

(** ** C61: how compounds are written *)

(** An output leads to an analysis if and only if the joints of its parts are
    written according to the rules. *)
Theorem C61_hyphens : forall l full, well_formed l -> ordinary l -> exists la, output_analyses (render l) (length (surface l)) full = Ok la /\
  (la <> [] <-> (forall before hyphen c, joint l before hyphen c -> correct_joint before hyphen c) /\ ~ (name_open l /\ noun_open l)).
Proof.
  intros l full W O. destruct (output_ok l full W) as (la & E & A). exists la. split; [exact E|]. pose proof (valid_iff l O) as V. rewrite <- V.
  destruct A as [[A1 ->]|(A1 & a & more & -> & _)]; rewrite A1; split; try discriminate; try congruence; reflexivity.
Qed.

(** For words: each analysis comes from an output of the dictionary for the word in
    small letters, and the joints of this output are written according to the
    rules. *)
Theorem C61_words : forall T c word full l c' a, finnish_dictionary T -> clean_history T c -> fin_analyze T c word full = Ok (l, c') -> In a l ->
  exists it p, well_formed it /\ surface it = voikko_set_case CT_ALL_LOWER word /\ accepts T (voikko_set_case CT_ALL_LOWER word) p (render it) /\
    (ordinary it -> (forall before hyphen c, joint it before hyphen c -> correct_joint before hyphen c) /\ ~ (name_open it /\ noun_open it)).
Proof.
  intros T c word full l c' a D H E I. destruct (C60_analyses_partial T c word full l c' D H E) as (found & L & _ & _ & _ & F & _). rewrite L in I. apply in_concat in I. destruct I as (la & I1 & I2).
  apply in_map_iff in I1. destruct I1 as ([[p it] la'] & Q & I1). cbn [snd] in Q. subst la'. destruct (F p it la I1) as (W & S & A & AN). exists it, p. split; [exact W|]. split; [exact S|]. split; [exact A|].
  intros O. apply (valid_iff it O). destruct AN as [[_ ->]|(V & _)]; [destruct I2|exact V].
Qed.

(** *** Examples: "kala-ahven" is right, "kalaahven" is not; "suomijoki" with a name
    and a noun is not, "suomi-joki" is. *)
Definition part (k s : string) : list item := [Class k; Remark (ch "p") (wstr s)] ++ letters s.
Definition two_parts (k1 s1 : string) (hyphen : bool) (k2 s2 : string) : list item :=
  part k1 s1 ++ (if hyphen then [Hyphen] else []) ++ [mark; Boundary (ch "c")] ++ part k2 s2.

Ltac parts_good := unfold two_parts, part, letters; change (wstr "kala") with [107; 97; 108; 97]; change (wstr "ahven") with [97; 104; 118; 101; 110];
  change (wstr "suomi") with [115; 117; 111; 109; 105]; change (wstr "joki") with [106; 111; 107; 105]; cbn [map app].
Ltac parts_well := parts_good; (split; [items_good|split; [|split; [discriminate|split; discriminate]]]); cbn [fits_together]; repeat split; try discriminate; try reflexivity; right; discriminate.
Lemma ordinary_by : forall l, Forall good_item l ->
  forallb (fun x => negb (begins "Isf" x) && negb (begins "Icu" x) && (negb (begins "Bh" x) || is_mark x)) l = true ->
  forallb (fun c => lower c =? c) (characters l) = true -> ordinary l.
Proof.
  intros l G R C. split; [exact G|]. rewrite !forallb_forall in *. split.
  - intros x I. specialize (R x I). apply andb_true_iff in R. destruct R as [R R3]. apply andb_true_iff in R. destruct R as [R1 R2]. rewrite <- !begins_iff, <- is_mark_iff.
    destruct (begins "Isf" x), (begins "Icu" x), (begins "Bh" x), (is_mark x); try discriminate; repeat split; auto; discriminate.
  - intros c I. specialize (C c I). now apply Z.eqb_eq.
Qed.

Ltac ordinary_here := apply ordinary_by; [parts_good; items_good|vm_compute; reflexivity|vm_compute; reflexivity].

Definition analysed (l : list item) : option nat := match output_analyses (render l) (length (surface l)) true with Ok la => Some (length la) | _ => None end.

Example C61_fish : let right_ := two_parts "n" "kala" true "n" "ahven" in let wrong := two_parts "n" "kala" false "n" "ahven" in
  well_formed right_ /\ ordinary right_ /\ well_formed wrong /\ ordinary wrong /\ surface right_ = wstr "kala-ahven" /\ surface wrong = wstr "kalaahven" /\
  analysed right_ = Some 1%nat /\ analysed wrong = Some 0%nat /\
  joint wrong (wstr "kala") false 97 /\ ~ correct_joint (wstr "kala") false 97.
Proof.
  cbv zeta. split; [parts_well|]. split; [ordinary_here|]. split; [parts_well|]. split; [ordinary_here|]. split; [reflexivity|]. split; [reflexivity|]. split; [vm_compute; reflexivity|]. split; [vm_compute; reflexivity|]. split.
  - exists (part "n" "kala"), [Boundary (ch "c"); Class "n"; Remark (ch "p") (wstr "ahven")], (Letter 97), (letters "hven"). split; [reflexivity|]. split.
    + intros _ a' E. apply (f_equal (@rev item)) in E. rewrite rev_app_distr in E. vm_compute in E. discriminate E.
    + split; [reflexivity|]. split; [|reflexivity]. intros y [<-|[<-|[<-|[]]]]; split; try reflexivity; discriminate.
  - vm_compute. intros H. apply H. left. split; [reflexivity|]. tauto.
Qed.

Example C61_name : let right_ := two_parts "ep" "suomi" true "n" "joki" in let wrong := two_parts "ep" "suomi" false "n" "joki" in
  well_formed wrong /\ ordinary wrong /\ name_open wrong /\ noun_open wrong /\ analysed wrong = Some 0%nat /\ well_formed right_ /\ ordinary right_ /\ ~ name_open right_.
Proof.
  cbv zeta. split; [parts_well|]. split; [ordinary_here|]. split; [|split; [|split; [vm_compute; reflexivity|]]].
  - apply name_end_open. vm_compute. reflexivity.
  - apply noun_end_open. vm_compute. reflexivity.
  - split; [parts_well|]. split; [ordinary_here|]. rewrite <- name_end_open. vm_compute. discriminate.
Qed.

(** ** C62: base forms *)

(** The base form in an analysis is the beginning of the word, with the capitals of
    the structure, and the base form of its last part. *)
Theorem C62_simple : forall l a, simple_base l -> analysis_of l true a ->
  exists st v, a STRUCTURE = Some st /\ base_form l st v /\ (forall v', base_form l st v' -> v' = v) /\
    (a BASEFORM = Some v \/ (v = [] /\ a BASEFORM = None)).
Proof.
  intros l a S ((st & ST & _ & _ & PB) & _). destruct (baseform_content l st S) as (v & B & E). rewrite (PB eq_refl) in E. injection E as E. exists st, v. split; [exact ST|]. split; [exact B|].
  split; [intros v' B'; exact (base_form_unique l st v' v B' B)|]. rewrite E. destruct v as [|c v]; [right|left]; auto.
Qed.

(** For words. *)
Theorem C62_simple_words : forall T c word l c' a, finnish_dictionary T -> clean_history T c -> fin_analyze T c word true = Ok (l, c') -> In a l -> a FSTOUTPUT <> None ->
  exists it p, surface it = voikko_set_case CT_ALL_LOWER word /\ accepts T (voikko_set_case CT_ALL_LOWER word) p (render it) /\ a FSTOUTPUT = Some (render it) /\
    (simple_base it -> exists st v, a STRUCTURE = Some st /\ base_form it st v /\ (a BASEFORM = Some v \/ (v = [] /\ a BASEFORM = None))).
Proof.
  intros T c word l c' a D H E I FO. destruct (C60_analyses_partial T c word true l c' D H E) as (found & L & _ & _ & _ & F & _). rewrite L in I. apply in_concat in I. destruct I as (la & I1 & I2).
  apply in_map_iff in I1. destruct I1 as ([[p it] la'] & Q & I1). cbn [snd] in Q. subst la'. destruct (F p it la I1) as (W & S & A & AN). exists it, p. split; [exact S|]. split; [exact A|].
  destruct AN as [[_ ->]|(V & b & more & -> & AO & M)]; [destruct I2|]. destruct I2 as [<-|I2].
  - split; [apply AO|]. intros SB. destruct (C62_simple it b SB AO) as (st & v & H1 & H2 & _ & H3). exists st, v. auto.
  - exfalso. destruct M as [->|(a' & -> & M)]; [destruct I2|]. destruct I2 as [<-|[]]. apply FO. apply M.
Qed.

(** *** Examples.  "kala-ahvenen" has the base form "kala-ahven", "kalaa" has
    "kala"; "kala-ja" with a base form for "kala" only is its own base form;
    "uusi-suomen", with a capital in its first part, has "Uusi-Suomi". *)
Lemma simple_by : forall l, Forall good_item l ->
  forallb (fun x => match x with Remark k _ => mem k (wstr "pjs") | Class k => negb (String.eqb k "u") | Tag t => negb (zlist_eqb t (wstr "De")) | _ => true end) l = true -> simple_base l.
Proof.
  intros l G R. rewrite forallb_forall in R. split; [exact G|]. split; [|split].
  - intros k t I. specialize (R _ I). cbn beta iota in R. now apply mem_In.
  - intros a b ->. specialize (R (Class "u") ltac:(apply in_or_app; right; now left)). discriminate R.
  - intros a b ->. specialize (R (Tag (wstr "De")) ltac:(apply in_or_app; right; now left)). discriminate R.
Qed.

Definition base_of (l : list item) : option (list Z) := match output_analyses (render l) (length (surface l)) true with Ok (a :: _) => a BASEFORM | _ => None end.

Definition fishes : list item := part "n" "kala" ++ [Hyphen; mark; Boundary (ch "c")] ++ part "n" "ahven" ++ letters "en" ++ [Tag (wstr "Sg"); Tag (wstr "Ny")].
Definition and_fish : list item := part "n" "kala" ++ [Hyphen; Boundary (ch "c")] ++ letters "ja".
Definition new_finland : list item :=
  [Class "ep"; Remark (ch "p") (wstr "Uusi"); Pattern (wstr "ippp")] ++ letters "uusi" ++ [Hyphen; Boundary (ch "c"); Class "ep"; Remark (ch "p") (wstr "Suomi"); Pattern (wstr "ipppp")] ++ letters "suome" ++ [Tag (wstr "Sg"); Tag (wstr "Ny")].

Example C62_fishes : simple_base fishes /\ surface fishes = wstr "kala-ahvenen" /\ base_of fishes = Some (wstr "kala-ahven") /\ base_form fishes (wstr "=pppp-=ppppppp") (wstr "kala-ahven").
Proof.
  assert (S : simple_base fishes).
  { apply simple_by; [|vm_compute; reflexivity]. unfold fishes, part, letters. change (wstr "kala") with [107; 97; 108; 97]; change (wstr "ahven") with [97; 104; 118; 101; 110]. change (wstr "en") with [101; 110]. cbn [map app]. items_good. }
  split; [exact S|]. split; [reflexivity|]. split; [vm_compute; reflexivity|].
  destruct (baseform_content fishes (wstr "=pppp-=ppppppp") S) as (v & B & E). replace (wstr "kala-ahven") with v; [exact B|].
  assert (Q : parseBaseform (render fishes) (wstr "=pppp-=ppppppp") = Ok (Some (wstr "kala-ahven"))) by (vm_compute; reflexivity). rewrite Q in E. clear - E. revert E. generalize (wstr "kala-ahven") as u. intros u E. destruct v; cbn [optional] in E; congruence.
Qed.

Example C62_others : base_of (nth 1 fish_items []) = Some (wstr "kala") /\ base_of and_fish = Some (wstr "kala-ja") /\
  surface new_finland = wstr "uusi-suome" /\ base_of new_finland = Some (wstr "Uusi-Suomi").
Proof. repeat split; vm_compute; reflexivity. Qed.

Print Assumptions C61_hyphens.
Print Assumptions C61_words.
Print Assumptions C62_simple.
Print Assumptions C62_simple_words.
