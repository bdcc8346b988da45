(** * The base forms of all words that are not numerals *)
From Verif Require Import Base BaseFacts CharModel AnalysisModel HyphModel FstModel FstSpec FinModel FinSpec FinStructure FinTotal FinBaseform FinAnalyzer FinExample FinProps FinWordSpec FinHyphens FinWordBase FinWordProps FinNumeralSpec FinNumeralProofs FinNumeralBase FinNumeralProps FinPlaceSpec FinPlaceProofs FinPlaceBase.
From Coq Require Import Lia.

(** ** C62: base forms *)

(** If the output is not a numeral -- also if a numeral is followed by a noun or
    adjective -- then the base form is the beginning of the word, with the capitals
    of the structure, and the base form of its last part; parts of names of places
    in front of a hyphen are replaced by their own base forms. *)
Theorem C62_base_forms : forall l an, base_items l -> (forall a r, ~ numeral l a r) -> analysis_of l true an ->
  exists st v, an STRUCTURE = Some st /\ places_form [] l [] (symbols st) v /\ (forall v', places_form [] l [] (symbols st) v' -> v' = v) /\ (an BASEFORM = Some v \/ (v = [] /\ an BASEFORM = None)).
Proof.
  intros l an U N ((st & ST & _ & _ & PB) & _). specialize (PB eq_refl). rewrite (parse_runp l st U) in PB. destruct U as (G & R & RK).
  assert (UU : forall a b, l = a ++ Class "u" :: b -> (3 <= length (render b))%nat).
  { intros a b E. apply (R a (Class "u") b E); [apply in_or_app; right; now left|]. right. exists "u"%string. split; [reflexivity|]. now left. }
  rewrite runp_runq in PB.
  - injection PB as PB. pose proof (runq_form (length l) l [] [] (symbols st) false false false (le_n _) G eq_refl) as F. change (render []) with (@nil Z) in F.
    exists st, (runq l [] [] (symbols st) None 0 false false false). split; [exact ST|]. split; [exact F|]. split; [intros v' F'; exact (places_form_unique _ _ _ _ _ _ F' F)|].
    rewrite <- PB. destruct (runq l [] [] (symbols st) None 0 false false false); [right|left]; auto.
  - intros _ a r E NC. split; [exact (UU a r E)|]. destruct (noun_or_not r) as [H|H]; [|elim (N a r); split; [exact E|split; assumption]].
    apply nrun_none; [exact H|]. intros a' k b' E' K. apply (R (a ++ Class "u" :: a') (Class k) b'); [rewrite E, E', <- app_assoc; reflexivity| |right; exists k; split; [reflexivity|now right]]. apply in_or_app. left. apply in_or_app. right. now left.
Qed.

(** Without such names, this is the rule for the last part. *)
Theorem C62_no_places : forall l st v, (forall a k t m b, ~ place_hyphen [] l a k t m b) -> (places_form [] l [] (symbols st) v <-> base_form l st v).
Proof.
  intros l st v NO. split.
  - intros F. inversion F as [P1 l1 w1 sy1 v1 NO' LF'|P1 l1 a' k' t' m' b' w1 sy1 v1 PH' FI' F1]; subst; [exact LF'|]. now elim (NO a' k' t' m' b').
  - intros F. apply pf_last; [exact NO|exact F].
Qed.

(** For words. *)
Theorem C62_words : forall T c word l c' an, finnish_dictionary T -> clean_history T c -> fin_analyze T c word true = Ok (l, c') -> In an l -> an FSTOUTPUT <> None ->
  exists it p, surface it = voikko_set_case CT_ALL_LOWER word /\ accepts T (voikko_set_case CT_ALL_LOWER word) p (render it) /\ an FSTOUTPUT = Some (render it) /\
    (base_items it -> (forall a r, ~ numeral it a r) -> exists st v, an STRUCTURE = Some st /\ places_form [] it [] (symbols st) v /\ (an BASEFORM = Some v \/ (v = [] /\ an BASEFORM = None))).
Proof.
  intros T c word l c' a D H E I FO. destruct (C60_analyses_partial T c word true l c' D H E) as (found & L & _ & _ & _ & F & _). rewrite L in I. apply in_concat in I. destruct I as (la & I1 & I2).
  apply in_map_iff in I1. destruct I1 as ([[p it] la'] & Q & I1). cbn [snd] in Q. subst la'. destruct (F p it la I1) as (W & S & A & AN). exists it, p. split; [exact S|]. split; [exact A|].
  destruct AN as [[_ ->]|(V & b & more & -> & AO & M)]; [destruct I2|]. destruct I2 as [<-|I2].
  - split; [apply AO|]. intros U N. destruct (C62_base_forms it b U N AO) as (st & v & H1 & H2 & _ & H3). exists st, v. auto.
  - exfalso. destruct M as [->|(a' & -> & M)]; [destruct I2|]. destruct I2 as [<-|[]]. apply FO. apply M.
Qed.

(** *** Example: "isolla-britannialla" has the base form "Iso-Britannia". *)
Definition iso_m : list item := letters "iso" ++ [Tag (wstr "Sade"); Tag (wstr "Ny")] ++ letters "lla".
Definition britannia : list item := [Boundary (ch "c"); Class "ep"; Remark (ch "p") (wstr "Britannia"); Pattern (wstr "ipppppppp")] ++ letters "britannia" ++ [Tag (wstr "Sade"); Tag (wstr "Ny")] ++ letters "lla".
Definition great_britain : list item := [Class "l"; Tag (wstr "De"); Remark (ch "p") (wstr "iso")] ++ iso_m ++ Hyphen :: britannia.

Ltac place_items := unfold great_britain, iso_m, britannia, letters; change (wstr "iso") with [105; 115; 111]; change (wstr "lla") with [108; 108; 97]; change (wstr "britannia") with [98; 114; 105; 116; 97; 110; 110; 105; 97]; cbn [map app].
Lemma great_britain_well : well_formed great_britain.
Proof. place_items. (split; [items_good|split; [|split; [discriminate|split; discriminate]]]); cbn [fits_together]; repeat split; try discriminate; try reflexivity; 
  try solve [left; reflexivity|right; discriminate].
  intros u v E. assert (I : In (ch "=") (wstr "ipppppppp")) by (rewrite E; apply in_or_app; right; now left). vm_compute in I. intuition discriminate.
Qed.
Lemma great_britain_base : base_items great_britain.
Proof.
  split; [apply great_britain_well|]. split; [apply roomy_by; vm_compute; reflexivity|]. intros k t I. revert I. place_items. cbn [In]. intros I.
  repeat (destruct I as [I|I]; [first [discriminate I|injection I as <- _; vm_compute; tauto]|]). destruct I.
Qed.
Lemma iso_hyphen : place_hyphen [] great_britain [Class "l"; Tag (wstr "De")] (ch "p") (wstr "iso") iso_m britannia.
Proof.
  split; [reflexivity|]. split; [exists (ch "p"), (wstr "iso"); auto|]. split; [place_items; repeat constructor; intros (k & t & E & _); discriminate E|]. split; [reflexivity|]. split; [|split].
  - exists [Class "l"], (Remark (ch "p") (wstr "iso") :: iso_m). split; [reflexivity|]. split.
    + intros z. place_items. cbn [In]. intros I. split; [intros (k & ->)|intros ->]; repeat (destruct I as [I|I]; [discriminate I|]); destruct I.
    + intros p k q E _. destruct p as [|y p]; [injection E as <- _; now left|]. injection E as _ E. now destruct p.
  - intros m' E. apply (f_equal (@rev item)) in E. rewrite rev_app_distr in E. revert E. place_items. cbn [rev app]. discriminate.
  - unfold britannia. cbn [app In]. tauto.
Qed.
Example C62_great_britain : well_formed great_britain /\ base_items great_britain /\ (forall a r, ~ numeral great_britain a r) /\ surface great_britain = wstr "isolla-britannialla" /\
  place_hyphen [] great_britain [Class "l"; Tag (wstr "De")] (ch "p") (wstr "iso") iso_m britannia /\ base_of great_britain = Some (wstr "Iso-Britannia").
Proof.
  split; [exact great_britain_well|]. split; [exact great_britain_base|]. split; [|split; [reflexivity|split; [exact iso_hyphen|vm_compute; reflexivity]]].
  intros a r (E & _). assert (I : In (Class "u") great_britain) by (rewrite E; apply in_or_app; right; now left). clear E. revert I. place_items. cbn [In]. intros I. repeat (destruct I as [I|I]; [discriminate I|]). destruct I.
Qed.

Print Assumptions C62_base_forms.
Print Assumptions C62_no_places.
Print Assumptions C62_words.
