(** * Reading the text form of transducers: property C71. *)
From Verif Require Import Base BaseFacts Utf8Model Utf8Spec FstModel FstSpec FstProps FstFileModel FstFileProps WfstModel WfstSpec WfstProps
  CompilerModel CompilerSpec CompilerReading CompilerProps CompilerWeightProps CompilerTextModel CompilerTextSpec CompilerTextProofs.

(** The dictionary made from a text, for a machine of either byte order, accepts
    the words that the transducer written in the text accepts, with the same
    outputs. *)
Theorem C71_text : forall A text otherByteOrder file, text_form A text -> writable A -> fitting A ->
  voikkovfstc_text otherByteOrder text = Ok (Some file) ->
  exists T, load file = Ok (Loaded T) /\ forall w out, (exists p, accepts T w p out) <-> accepted A w out.
Proof.
  intros A text b file TX WR FIT E. rewrite (text_same A text b TX WR) in E. injection E as E. destruct (C69_compiled A b file FIT E) as (T & LD & _ & SAME). eauto.
Qed.
Print Assumptions C71_text.

(** And there is such a dictionary if the states are numbered in the order in
    which they first occur and every transition leads to one of them. *)
Theorem C71_accepts_text : forall A text otherByteOrder, text_form A text -> writable A -> fitting A -> in_order 0 A ->
  (forall q q' s o, In (Arc q q' s o) A -> exists i, In i A /\ match i with Final q => q | Arc q _ _ _ => q end = q') ->
  exists file, voikkovfstc_text otherByteOrder text = Ok (Some file).
Proof.
  intros A text b TX WR FIT ORD TG. rewrite (text_same A text b TX WR). destruct (C69_accepts_input A b FIT ORD TG) as (file & ->). eauto.
Qed.
Print Assumptions C71_accepts_text.

(** The same with weights, whatever the texts of the weights stand for. *)
Theorem C71_weighted_text : forall weight_of_text weight_of_zero A text file,
  weighted_text_form (fun z w => a_word w /\ weight_of_text w = Some z) A text -> writable (map fst A) -> fitting_weighted A ->
  voikkovfstc_w_text weight_of_text weight_of_zero false text = Ok (Some file) ->
  exists W, load_weighted file = Ok (Loaded W) /\
    forall w out z, (exists p, waccepts W w p out /\ path_weight W p = z) <-> accepted_with A w out z.
Proof.
  intros wt wz A text file TX WR FIT E. rewrite (weighted_text_same wt wz _ (fun z w H => H) A text false TX WR) in E. injection E as E.
  destruct (C70_compiled A file FIT E) as (W & LD & _ & _ & _ & SAME). eauto.
Qed.
Print Assumptions C71_weighted_text.
Theorem C71_accepts_weighted_text : forall weight_of_text weight_of_zero A text otherByteOrder,
  weighted_text_form (fun z w => a_word w /\ weight_of_text w = Some z) A text -> writable (map fst A) -> fitting_weighted A -> in_order 0 (map fst A) ->
  (forall q q' s o z, In (Arc q q' s o, z) A -> exists i, In i (map fst A) /\ match i with Final q => q | Arc q _ _ _ => q end = q') ->
  exists file, voikkovfstc_w_text weight_of_text weight_of_zero otherByteOrder text = Ok (Some file).
Proof.
  intros wt wz A text b TX WR FIT ORD TG. rewrite (weighted_text_same wt wz _ (fun z w H => H) A text b TX WR).
  destruct (C70_accepts_input A b FIT ORD TG) as (file & ->). eauto.
Qed.
Print Assumptions C71_accepts_weighted_text.

(** A line that is taken for a transition has two numbers and two words.  (There
    may be no space around the second number.) *)
Theorem C71_transition_line : forall l q q' i o, ~ In 10 l -> parse_line l = Some (ATT_TRANSITION q q' i o) ->
  exists b1 n1 b2 n2 b3 b4 after, l = b1 ++ n1 ++ b2 ++ n2 ++ b3 ++ i ++ b4 ++ o ++ after /\
    blank b1 /\ signed (Z.of_nat q) n1 /\ blank b2 /\ signed (Z.of_nat q') n2 /\ blank b3 /\ a_word i /\ gap b4 /\ a_word o /\
    (after = [] \/ exists c more, after = c :: more /\ white c).
Proof.
  intros l q q' i o N E. destruct (transition_line l q q' i o N E) as (b1 & n1 & b2 & n2 & b3 & b4 & after & -> & X1 & X2 & X3 & X4 & X5 & X6 & X7 & X8 & X9).
  do 7 eexists. conjs; eauto. destruct after as [|c more]; [auto|]. right. exists c, more. split; auto. cbn in X9. apply white_is in X9. destruct X9 as [X9| ->]; auto. exfalso. apply N. rewrite !in_app_iff. cbn. tauto.
Qed.
Print Assumptions C71_transition_line.

(** Missing: lines without a number, and with a number that is too large; see
    below. *)
Theorem C71_final_line_partial : forall l q, ~ In 10 l -> parse_line l = Some (ATT_FINAL q) ->
  (exists c, In c l /\ ~ white c /\ c <> 0x2B /\ c <> 0x2D) -> Z.of_nat q < 2 ^ 32 - 1 ->
  exists b n, l = b ++ n /\ blank b /\ signed (Z.of_nat q) n.
Proof.
  intros l q N E (c & IC & W1 & W2 & W3) Q. destruct (final_line l q N E) as (b & n & -> & B & [S|[[_ X]|X]]); [eauto| |lia]. exfalso. apply in_app_iff in IC. unfold blank in B. rewrite Forall_forall in B.
  destruct IC as [IC|IC]; [exact (W1 (B c IC))|]. destruct X as [->|[->| ->]]; cbn in IC; intuition congruence.
Qed.
Print Assumptions C71_final_line_partial.

(** A line that is empty, or has only white space or a sign, should be an error
    or be skipped.  It makes the initial state final: the dictionary then has
    the empty word and the words that lead back to this state. *)
Theorem C71_blank_refuted : exists A text line file T p,
  text_form A text /\ writable A /\ fitting A /\ In line [[]; wstr "  "; wstr "-"] /\
  voikkovfstc_text false (text ++ line ++ [10]) = Ok (Some file) /\ load file = Ok (Loaded T) /\ accepts T [] p [] /\ ~ accepted A [] [].
Proof.
  exists [Arc 0 1 (Letter 0x61) (Letter 0x62); Final 1]. eexists. exists []. eexists. eexists. exists [0]%nat. split.
  { eapply text_line; [apply (arc_text 0 1 (Letter 0x61) (Letter 0x62) [] (wstr "0") [9] (wstr "1") [9] [9] [])|eapply text_line; [apply (final_text 1 [] (wstr "1"))|apply text_nil]].
    all: try (apply (one_digit 0); lia); try (apply (one_digit 1); lia); try (split; [constructor; [unfold white; auto|constructor]|discriminate]); try constructor; auto. }
  split. { split; repeat constructor; try discriminate; unfold white; cbn; lia. }
  split. { unfold fitting. conjs.
    - repeat constructor; try discriminate; unfold encodable; cbn; try lia; intuition discriminate.
    - exists 0x61. cbn. auto.
    - intros l N I. apply NoDup_incl_length in I; auto. cbn in I. lia.
    - vm_compute. discriminate. }
  split; [left; auto|]. split; [vm_compute; reflexivity|]. split; [vm_compute; reflexivity|]. split.
  - eapply path_final; [exists 1%nat, false; conjs; [reflexivity|cbn; lia|cbn; lia|discriminate|reflexivity]|reflexivity].
  - unfold accepted. intros R. inversion R as [q st I|q q' c o st w out I R'|q q' o st w out I R'|q q' op f v o st st' w out I FR R']; subst; cbn in I; intuition discriminate.
Qed.
Print Assumptions C71_blank_refuted.

(** With weights, white space after a final state makes the program use a variable
    that has no value. *)
Theorem C71_final_weight_refuted : forall weight_of_text weight_of_zero text q n g after, digits_of q n -> Z.of_nat q < 2 ^ 32 -> gap g -> text = n ++ g ++ [10] ++ after ->
  voikkovfstc_w_text weight_of_text weight_of_zero false text = UB.
Proof.
  intros wt wz text q n g after D L G ->. unfold voikkovfstc_w_text, main_text. rewrite app_assoc. rewrite getlines_line; [|apply app_newline; [apply word_newline; eapply digits_word; eauto|apply blank_newline, G]].
  cbn [app read_input]. unfold parse_weighted_line. pose proof (read_unsigned_digits [] q n g 0 (Forall_nil _) D L) as R. cbn [app] in R. unfold istringstream at 1. rewrite R; [|rewrite <- (app_nil_r g); apply ends_gap; auto].
  destruct g as [|c g]; [destruct G; congruence|]. cbn [at_end s_eof]. unfold read_string, sentry. cbn [s_eof s_fail s_rest orb]. pose proof (skip_blank (c :: g) [] (proj1 G)) as X. rewrite app_nil_r in X. rewrite X. reflexivity.
Qed.
Print Assumptions C71_final_weight_refuted.

(** ** Texts *)

(** A transducer as other programs write it. *)
Definition tab_line (fields : list (list Z)) : list Z := match fields with [] => [] | f :: r => f ++ flat_map (fun x => 9 :: x) r end ++ [10].
Definition corrector_text : list Z :=
  tab_line [wstr "0"; wstr "0"; wstr "a"; wstr "a"; wstr "0.0"] ++
  tab_line [wstr "0"; wstr "0"; wstr "e"; [0xC3; 0xA4]; wstr "3.0"] ++
  tab_line [wstr "0"; wstr "1"; wstr "b"; wstr "b"; wstr "0.5"] ++
  tab_line [wstr "1"; wstr "1"; wstr "b"; wstr "@0@"; wstr "1.2"] ++
  tab_line [wstr "1"; wstr "2"; wstr "@U.K.1@"; wstr "@0@"; wstr "0.0"] ++
  tab_line [wstr "2"; wstr "0"; wstr "@0@"; wstr "@0@"; wstr "-0.7"] ++
  tab_line [wstr "2"; wstr "0.1"].
(** Weights with one digit after the point. *)
Definition one_digit_weight (text : list Z) : option Z :=
  match text with
  | [a; 0x2E; b] => Some (100 * (a - 48) + 10 * (b - 48))
  | [0x2D; a; 0x2E; b] => Some (- (100 * (a - 48) + 10 * (b - 48)))
  | _ => None
  end.
Definition text_corrector : list (item * Z) :=
  [ (Arc 0 0 (Letter 0x61) (Letter 0x61), 0);
    (Arc 0 0 (Letter 0x65) (Letter 0xE4), 300);
    (Arc 0 1 (Letter 0x62) (Letter 0x62), 50);
    (Arc 1 1 (Letter 0x62) Epsilon, 120);
    (Arc 1 2 (Flag Operation_U (wstr "K") (Some (wstr "1"))) Epsilon, 0);
    (Arc 2 0 Epsilon Epsilon, -70);
    (Final 2, 10) ].

Lemma tab_gap : gap [9]. Proof. split; [constructor; [unfold white; auto|constructor]|discriminate]. Qed.
Example corrector_form : weighted_text_form (fun z w => a_word w /\ one_digit_weight w = Some z) text_corrector corrector_text.
Proof.
  assert (forall q q' i o z n n' w A r, digits_of q n -> digits_of q' n' -> a_word w -> one_digit_weight w = Some z ->
    weighted_text_form (fun z w => a_word w /\ one_digit_weight w = Some z) A r ->
    weighted_text_form (fun z w => a_word w /\ one_digit_weight w = Some z) ((Arc q q' i o, z) :: A) (([] ++ n ++ [9] ++ n' ++ [9] ++ symbol_field i ++ [9] ++ symbol_field o ++ [9] ++ w) ++ [10] ++ r)) as L.
  { intros q q' i o z n n' w A r D1 D2 A1 A2 F. constructor; auto. apply weighted_arc_text; auto using tab_gap. constructor. }
  unfold corrector_text, text_corrector.
  apply (L 0%nat 0%nat (Letter 0x61) (Letter 0x61) 0 (wstr "0") (wstr "0") (wstr "0.0")); [apply (one_digit 0); lia|apply (one_digit 0); lia|split; [discriminate|repeat constructor; unfold white; cbn; lia]|reflexivity|].
  apply (L 0%nat 0%nat (Letter 0x65) (Letter 0xE4) 300 (wstr "0") (wstr "0") (wstr "3.0")); [apply (one_digit 0); lia|apply (one_digit 0); lia|split; [discriminate|repeat constructor; unfold white; cbn; lia]|reflexivity|].
  apply (L 0%nat 1%nat (Letter 0x62) (Letter 0x62) 50 (wstr "0") (wstr "1") (wstr "0.5")); [apply (one_digit 0); lia|apply (one_digit 1); lia|split; [discriminate|repeat constructor; unfold white; cbn; lia]|reflexivity|].
  apply (L 1%nat 1%nat (Letter 0x62) Epsilon 120 (wstr "1") (wstr "1") (wstr "1.2")); [apply (one_digit 1); lia|apply (one_digit 1); lia|split; [discriminate|repeat constructor; unfold white; cbn; lia]|reflexivity|].
  apply (L 1%nat 2%nat (Flag Operation_U (wstr "K") (Some (wstr "1"))) Epsilon 0 (wstr "1") (wstr "2") (wstr "0.0")); [apply (one_digit 1); lia|apply (one_digit 2); lia|split; [discriminate|repeat constructor; unfold white; cbn; lia]|reflexivity|].
  apply (L 2%nat 0%nat Epsilon Epsilon (-70) (wstr "2") (wstr "0") (wstr "-0.7")); [apply (one_digit 2); lia|apply (one_digit 0); lia|split; [discriminate|repeat constructor; unfold white; cbn; lia]|reflexivity|].
  apply (weighted_text_line _ (Final 2, 10) [] (wstr "2" ++ [9] ++ wstr "0.1") []); [|constructor].
  apply (weighted_final_text _ 2 [] (wstr "2") [9] (wstr "0.1") 10); [constructor|apply (one_digit 2); lia|apply tab_gap|]. split; [split; [discriminate|repeat constructor; unfold white; cbn; lia]|reflexivity].
Qed.
Example corrector_writable : writable (map fst text_corrector).
Proof. split; repeat constructor; try discriminate; unfold white; cbn; lia. Qed.
Example corrector_compiled : exists file W c1 c2, voikkovfstc_w_text one_digit_weight 0 false corrector_text = Ok (Some file) /\ load_weighted file = Ok (Loaded W) /\
  wprepare W (new_wconfiguration (w_featureCount W) 100) (wstr "ebb") = Ok (true, c1) /\
  wlookup W 50 c1 [([0xE4; 0x62; 0x62], 340); ([0xE4; 0x62], 480)] (Some WEnd) c2.
Proof.
  do 4 eexists. split; [vm_compute; reflexivity|]. split; [vm_compute; reflexivity|]. split; [vm_compute; reflexivity|].
  apply (wcollect_lookup 5); vm_compute; reflexivity.
Qed.

Example some_lines :
  parse_line (wstr "12 3 a b") = Some (ATT_TRANSITION 12 3 (wstr "a") (wstr "b")) /\
  parse_line (wstr " 12 +3a b 0.5") = Some (ATT_TRANSITION 12 3 (wstr "a") (wstr "b")) /\
  parse_line (wstr "12") = Some (ATT_FINAL 12) /\ parse_line (wstr "12 ") = None /\ parse_line (wstr "12 0.5") = None /\
  parse_line (wstr "12 3 a") = None /\ parse_line (wstr "a 3 a b") = None /\ parse_line [] = Some (ATT_FINAL 0).
Proof. conjs; reflexivity. Qed.
