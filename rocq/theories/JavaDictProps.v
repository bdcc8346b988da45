(** * Properties of dictionaries of the Java interface (C88). *)
From Verif Require Import Base BaseFacts PyModel PyProofs JavaDictModel JavaDictSpec.

Lemma cmp_refl : forall a, string_compareTo a a = 0.
Proof. intros a. induction a as [|x a IH]; cbn [string_compareTo]; [reflexivity|]. now rewrite Z.eqb_refl. Qed.
Lemma cmp_zero : forall a b, string_compareTo a b = 0 -> a = b.
Proof.
  intros a. induction a as [|x a IH]; intros [|y b] H; cbn [string_compareTo length] in H; try lia; [reflexivity|].
  destruct (x =? y) eqn:E; [|lia]. apply Z.eqb_eq in E. subst y. f_equal. now apply IH.
Qed.
Lemma cmp_sym : forall a b, string_compareTo b a = - string_compareTo a b.
Proof.
  intros a. induction a as [|x a IH]; intros [|y b]; cbn [string_compareTo length]; try lia.
  rewrite (Z.eqb_sym y x). destruct (x =? y); [apply IH|lia].
Qed.
Lemma cmp_before : forall a b, string_compareTo a b < 0 <-> string_before a b.
Proof.
  intros a. induction a as [|x a IH]; intros b.
  - destruct b as [|y b]; cbn [string_compareTo length].
    + split; [lia|]. intros [(y & r & E)|(p & x & y & r & s & E & _)]; [discriminate|]. destruct p; discriminate.
    + split; [|lia]. intros _. left. exists y, b. reflexivity.
  - destruct b as [|y b]; cbn [string_compareTo length].
    + split; [lia|]. intros [(y & r & E)|(p & u & v & r & s & _ & E & _)]; [discriminate|]. destruct p; discriminate.
    + destruct (x =? y) eqn:E.
      * apply Z.eqb_eq in E. subst y. rewrite IH. split.
        -- intros [(y & r & ->)|(p & u & v & r & s & -> & -> & L)]; [left; exists y, r; reflexivity|right; exists (x :: p), u, v, r, s; auto].
        -- intros [(y & r & Q)|(p & u & v & r & s & Q1 & Q2 & L)].
           ++ injection Q as ->. left. now exists y, r.
           ++ destruct p as [|z p]; cbn in Q1, Q2; [injection Q1 as -> _; injection Q2 as -> _; lia|].
              injection Q1 as _ ->. injection Q2 as _ ->. right. exists p, u, v, r, s. auto.
      * apply Z.eqb_neq in E. split.
        -- intros L. right. exists [], x, y, a, b. repeat split; lia.
        -- intros [(z & r & Q)|(p & u & v & r & s & Q1 & Q2 & L)]; [injection Q as Q _; congruence|].
           destruct p as [|z p]; cbn in Q1, Q2; [injection Q1 as -> _; injection Q2 as -> _; lia|]. injection Q1 as -> _. injection Q2 as -> _. congruence.
Qed.
Lemma cmp_trans : forall a b c, string_compareTo a b < 0 -> string_compareTo b c < 0 -> string_compareTo a c < 0.
Proof.
  intros a. induction a as [|x a IH]; intros [|y b] [|z c]; cbn [string_compareTo length]; intros H K; try lia.
  destruct (x =? y) eqn:E1, (y =? z) eqn:E2; repeat match goal with H : (_ =? _) = true |- _ => apply Z.eqb_eq in H; subst end.
  - rewrite Z.eqb_refl. eapply IH; eauto.
  - now rewrite E2.
  - now rewrite E1.
  - apply Z.eqb_neq in E1, E2. replace (x =? z) with false by lia. lia.
Qed.
Lemma cmp_int : forall a b, java_string a -> java_string b -> -0x80000000 <= string_compareTo a b <= 0x7FFFFFFF.
Proof.
  intros a. induction a as [|x a IH]; intros [|y b] (FA & LA) (FB & LB); cbn [string_compareTo length] in *; try lia.
  inversion FA; inversion FB; subst. destruct (x =? y); [|lia]. apply IH; split; auto; lia.
Qed.
Lemma str_eq_iff : forall a b, str_eq a b = true <-> a = b.
Proof.
  intros a. induction a as [|x a IH]; intros [|y b]; cbn; split; intros H; try discriminate; auto.
  - apply andb_true_iff in H. destruct H as (E & H). apply Z.eqb_eq in E. apply IH in H. now subst.
  - injection H as -> ->. rewrite Z.eqb_refl. cbn. now apply IH.
Qed.

(** A dictionary compares as smaller exactly if it comes before the other. *)
Theorem C88_before : forall a b, dict_compareTo a b < 0 <-> dict_before a b.
Proof.
  intros a b. unfold dict_compareTo, dict_before. rewrite <- !cmp_before.
  assert (forall s t, (string_compareTo s t =? 0) = true <-> s = t) as Z.
  { intros s t. rewrite Z.eqb_eq. split; [apply cmp_zero|intros ->; apply cmp_refl]. }
  destruct (string_compareTo (d_language a) (d_language b) =? 0) eqn:E1; cbn [negb].
  - rewrite (proj1 (Z _ _) E1), cmp_refl. destruct (string_compareTo (d_script a) (d_script b) =? 0) eqn:E2; cbn [negb].
    + rewrite (proj1 (Z _ _) E2), cmp_refl. destruct (string_compareTo (d_variant a) (d_variant b) =? 0) eqn:E3; cbn [negb].
      * rewrite (proj1 (Z _ _) E3), cmp_refl. intuition lia.
      * split; [tauto|]. intros [H|(_ & [H|(_ & [H|(H & _)])])]; try lia. rewrite (proj2 (Z _ _) H) in E3. discriminate.
    + split; [tauto|]. intros [H|(_ & [H|(H & _)])]; try lia. rewrite (proj2 (Z _ _) H) in E2. discriminate.
  - split; [tauto|]. intros [H|(H & _)]; [auto|]. rewrite (proj2 (Z _ _) H) in E1. discriminate.
Qed.
Print Assumptions C88_before.

(** The comparison is that of a total order, and 0 exactly for dictionaries
    that are equal. *)
Theorem C88_order :
  (forall a b, dict_compareTo a b = 0 <-> a = b) /\
  (forall a b, Z.sgn (dict_compareTo b a) = - Z.sgn (dict_compareTo a b)) /\
  (forall a b c, dict_compareTo a b < 0 -> dict_compareTo b c < 0 -> dict_compareTo a c < 0).
Proof.
  assert (forall a b, dict_compareTo b a = - dict_compareTo a b) as SY.
  { intros a b. unfold dict_compareTo. rewrite (cmp_sym (d_language a)), (cmp_sym (d_script a)), (cmp_sym (d_variant a)), (cmp_sym (d_description a)).
    repeat match goal with |- context [negb (- ?x =? 0)] => replace (- x =? 0) with (x =? 0) by lia end.
    destruct (string_compareTo (d_language a) (d_language b) =? 0); cbn [negb]; auto.
    destruct (string_compareTo (d_script a) (d_script b) =? 0); cbn [negb]; auto.
    destruct (string_compareTo (d_variant a) (d_variant b) =? 0); cbn [negb]; auto. }
  split; [|split].
  - intros [la sa va da] [lb sb vb db]. unfold dict_compareTo. cbn [d_language d_script d_variant d_description]. split.
    + destruct (string_compareTo la lb =? 0) eqn:E1; cbn [negb]; [|lia]. destruct (string_compareTo sa sb =? 0) eqn:E2; cbn [negb]; [|lia].
      destruct (string_compareTo va vb =? 0) eqn:E3; cbn [negb]; [|lia]. intros E4. apply Z.eqb_eq in E1, E2, E3.
      apply cmp_zero in E1, E2, E3, E4. now subst.
    + intros E. injection E as -> -> -> ->. rewrite !cmp_refl. reflexivity.
  - intros a b. rewrite SY. apply Z.sgn_opp.
  - intros a b c. rewrite !C88_before. unfold dict_before. rewrite <- !cmp_before.
    intros [H1|(E1 & [H1|(E2 & [H1|(E3 & H1)])])] [K1|(F1 & [K1|(F2 & [K1|(F3 & K1)])])];
      rewrite ?E1, ?E2, ?E3 in *; rewrite <- ?F1, <- ?F2, <- ?F3 in *;
      first [left; solve [eauto using cmp_trans]
            |right; split; [congruence|]; left; solve [eauto using cmp_trans]
            |right; split; [congruence|]; right; split; [congruence|]; left; solve [eauto using cmp_trans]
            |right; split; [congruence|]; right; split; [congruence|]; right; split; [congruence|]; solve [eauto using cmp_trans]].
Qed.
Print Assumptions C88_order.

(** [equals] holds exactly for equal dictionaries, so it agrees with the
    comparison, and equal dictionaries have equal hash codes. *)
Theorem C88_equals : forall a b, (dict_equals a b = true <-> a = b) /\
  (dict_equals a b = true <-> dict_compareTo a b = 0) /\ (dict_equals a b = true -> dict_hashCode a = dict_hashCode b).
Proof.
  intros a b.
  assert (dict_equals a b = true <-> a = b) as EQ.
  { destruct a as [la sa va da], b as [lb sb vb db]. unfold dict_equals. cbn [d_language d_script d_variant d_description]. split.
    - destruct (str_eq da db) eqn:E1; cbn [negb]; [|discriminate]. destruct (str_eq la lb) eqn:E2; cbn [negb]; [|discriminate].
      destruct (str_eq sa sb) eqn:E3; cbn [negb]; [|discriminate]. destruct (str_eq va vb) eqn:E4; cbn [negb]; [|discriminate].
      apply str_eq_iff in E1, E2, E3, E4. now subst.
    - intros E. injection E as -> -> -> ->. rewrite !(proj2 (str_eq_iff _ _) eq_refl). reflexivity. }
  split; [auto|]. split; [|intros E; apply EQ in E; now subst].
  rewrite EQ. symmetry. apply C88_order.
Qed.
Print Assumptions C88_equals.

(** The result is an [int]: no difference overflows. *)
Theorem C88_int : forall a b, java_dict a -> java_dict b -> -0x80000000 <= dict_compareTo a b <= 0x7FFFFFFF.
Proof.
  intros a b (A1 & A2 & A3 & A4) (B1 & B2 & B3 & B4). unfold dict_compareTo.
  destruct (string_compareTo (d_language a) (d_language b) =? 0); cbn [negb]; [|now apply cmp_int].
  destruct (string_compareTo (d_script a) (d_script b) =? 0); cbn [negb]; [|now apply cmp_int].
  destruct (string_compareTo (d_variant a) (d_variant b) =? 0); cbn [negb]; now apply cmp_int.
Qed.
Print Assumptions C88_int.

Example C88_ex :
  let a := mk_dict (wstr "fi") [] (wstr "medicine") (wstr "x") in
  let b := mk_dict (wstr "fi") [] (wstr "standard") (wstr "a") in
  let c := mk_dict (wstr "fi") (wstr "Latn") (wstr "dialects") [] in
  java_dict a /\ java_dict b /\ java_dict c /\ dict_compareTo a b = -6 /\ dict_compareTo b c = -4 /\ dict_compareTo a c = -4 /\
  dict_equals a b = false /\ dict_equals a a = true /\ dict_hashCode a <> dict_hashCode b /\ dict_before a b.
Proof.
  cbv zeta. assert (forall s, forallb (fun u => (0 <=? u) && (u <=? 0xFFFF)) s && (Z.of_nat (length s) <=? 0x7FFFFFFF) = true -> java_string s) as J.
  { intros s H. apply andb_true_iff in H. destruct H as (H & L). split; [|lia]. rewrite forallb_forall in H. apply Forall_forall. intros u I. specialize (H u I). lia. }
  do 3 (split; [repeat split; apply J; vm_compute; reflexivity|]). do 5 (split; [vm_compute; reflexivity|]).
  split; [vm_compute; discriminate|]. apply C88_before. vm_compute. reflexivity.
Qed.
