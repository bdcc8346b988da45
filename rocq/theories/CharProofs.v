(** Lemmas about characters, case, normalisation and non-words. *)
From Verif Require Import Base BaseFacts CharModel CharSpec.

Ltac Zify.zify_post_hook ::= Z.div_mod_to_equations.

(** ** Exhaustive reasoning over the code points that have case. *)
Lemma lower_id_out : forall c, ~ (0 <= c < 0x600) -> lower c = c.
Proof.
  intros c H. unfold lower, in_range.
  repeat match goal with |- context [if ?b then _ else _] => let E := fresh in destruct b eqn:E; [exfalso; clear -E H; lia | clear E] end.
  reflexivity.
Qed.

Lemma upper_id_out : forall c, ~ (0 <= c < 0x600) -> upper c = c.
Proof.
  intros c H. unfold upper, in_range.
  repeat match goal with |- context [if ?b then _ else _] => let E := fresh in destruct b eqn:E; [exfalso; clear -E H; lia | clear E] end.
  reflexivity.
Qed.

Definition case_check (c : Z) : bool :=
  (lower (lower c) =? lower c) && (upper (upper c) =? upper c) &&
  (lower (upper c) =? lower c) && (upper (lower c) =? upper c) &&
  negb (isUpper c && isLower c) && in_range 0 0x5FF (lower c) && in_range 0 0x5FF (upper c).

Lemma case_checked : forall c, 0 <= c < 0x600 -> case_check c = true.
Proof.
  intros c H. apply (zrange_forallb case_check 1536); [|lia].
  vm_compute. reflexivity.
Qed.

Lemma case_laws : forall c,
  lower (lower c) = lower c /\ upper (upper c) = upper c /\
  lower (upper c) = lower c /\ upper (lower c) = upper c.
Proof.
  intros c. destruct (Z_lt_dec c 0) as [H|H]; [|destruct (Z_lt_dec c 0x600)].
  - rewrite (lower_id_out c), (upper_id_out c) by lia. rewrite (lower_id_out c), (upper_id_out c) by lia. auto.
  - pose proof (case_checked c ltac:(lia)) as E. unfold case_check in E.
    repeat rewrite andb_true_iff in E. rewrite !Z.eqb_eq in E.
    destruct E as ((((((A & B) & C) & D) & _) & _) & _). auto.
  - rewrite (lower_id_out c), (upper_id_out c) by lia. rewrite (lower_id_out c), (upper_id_out c) by lia. auto.
Qed.

Lemma upper_lower_excl : forall c, isUpper c = true -> isLower c = true -> False.
Proof.
  intros c. destruct (Z_lt_dec c 0) as [H|H]; [|destruct (Z_lt_dec c 0x600)].
  - unfold isUpper, isLower. rewrite (upper_id_out c) by lia. lia.
  - pose proof (case_checked c ltac:(lia)) as E. unfold case_check in E.
    repeat rewrite andb_true_iff in E. intros A B. rewrite A, B in E. simpl in E. intuition.
  - unfold isUpper, isLower. rewrite (upper_id_out c) by lia. lia.
Qed.

Definition alt_b (lo hi u l : Z) : bool := in_range lo hi u && Z.even (u - lo) && (l =? u + 1).
Definition shift_b (lo hi d u l : Z) : bool := in_range lo hi u && (l =? u + d).
Definition case_pairb (u l : Z) : bool :=
  shift_b 65 90 32 u l || (shift_b 192 222 32 u l && negb (u =? 215)) ||
  alt_b 256 310 u l || alt_b 313 327 u l || alt_b 330 374 u l || alt_b 377 381 u l ||
  ((u =? 439) && (l =? 658)) || alt_b 478 494 u l || alt_b 504 542 u l ||
  shift_b 1024 1039 80 u l || shift_b 1040 1071 32 u l || alt_b 1120 1152 u l || alt_b 1162 1318 u l.

Lemma alt_b_spec : forall lo hi u l, alt_b lo hi u l = true <-> alternating_from lo hi u l.
Proof.
  intros. unfold alt_b, alternating_from. rewrite !andb_true_iff, in_range_spec, Z.even_spec, Z.eqb_eq. tauto.
Qed.
Lemma shift_b_spec : forall lo hi d u l, shift_b lo hi d u l = true <-> shifted lo hi d u l.
Proof. intros. unfold shift_b, shifted. rewrite !andb_true_iff, in_range_spec, Z.eqb_eq. tauto. Qed.

Lemma case_pairb_spec : forall u l, case_pairb u l = true <-> case_pair u l.
Proof.
  intros. unfold case_pairb, case_pair. rewrite !orb_true_iff, !andb_true_iff, !alt_b_spec, !shift_b_spec, !Z.eqb_eq, negb_true_iff, Z.eqb_neq.
  tauto.
Qed.

(** The small letters that a capital [u] could be paired with. *)
Definition cand (u : Z) : list Z := [u + 1; u + 32; u + 80; 658].

Lemma case_pair_range : forall u l, case_pair u l -> 0 <= u < 0x600 /\ In l (cand u).
Proof.
  intros u l H. unfold case_pair, alternating_from, shifted, cand in *. simpl.
  repeat destruct H as [H|H]; intuition lia.
Qed.

Definition pair_check (u : Z) : bool :=
  forallb (fun l => implb (case_pairb u l) (negb (u =? l) && (lower u =? l))) (cand u) &&
  ((u =? lower u) || case_pairb u (lower u)).

Lemma pair_checked : forall u, 0 <= u < 0x600 -> pair_check u = true.
Proof. intros c H. apply (zrange_forallb pair_check 1536); [|lia]. vm_compute. reflexivity. Qed.

Lemma case_pair_lower : forall u l, case_pair u l <-> (u <> l /\ lower u = l).
Proof.
  intros u l. split.
  - intros H. destruct (case_pair_range _ _ H) as [R I]. pose proof (pair_checked u R) as E.
    unfold pair_check in E. apply andb_true_iff in E. destruct E as [E _].
    rewrite forallb_forall in E. specialize (E l I). apply case_pairb_spec in H. rewrite H in E.
    simpl in E. lia.
  - intros [N E]. destruct (Z_lt_dec u 0); [|destruct (Z_lt_dec u 0x600)].
    + rewrite lower_id_out in E; lia.
    + pose proof (pair_checked u ltac:(lia)) as C. unfold pair_check in C. apply andb_true_iff in C.
      destruct C as [_ C]. rewrite E in C. apply orb_true_iff in C. destruct C as [C|C]; [lia|].
      apply case_pairb_spec; auto.
    + rewrite lower_id_out in E; lia.
Qed.

Lemma case_pair_upper : forall u l, case_pair u l <-> (u <> l /\ upper l = u).
Proof.
  intros u l. rewrite case_pair_lower. split; intros [H E]; subst.
  - pose proof (case_laws u) as (A & B & C & D). split; [auto|].
    rewrite D.
    destruct (isUpper u) eqn:U.
    + destruct (isLower u) eqn:L; [exfalso; eapply upper_lower_excl; eauto|].
      unfold isLower in L. lia.
    + unfold isUpper in U. lia.
  - pose proof (case_laws l) as (A & B & C & D). split; [auto|].
    rewrite C.
    destruct (isLower l) eqn:U.
    + destruct (isUpper l) eqn:L; [exfalso; eapply upper_lower_excl; eauto|].
      unfold isUpper in L. lia.
    + unfold isLower in U. lia.
Qed.

Lemma isUpper_spec : forall c, isUpper c = true <-> capital c \/ c = SCHWA.
Proof.
  intros c. unfold isUpper, capital, SCHWA. split.
  - intros H. destruct (Z.eq_dec c (lower c)) as [e|n]; [right; rewrite <- e, Z.eqb_refl in H; simpl in H; lia|].
    left. exists (lower c). apply case_pair_lower; auto.
  - intros [[l H]| ->]; [|reflexivity]. apply case_pair_lower in H. lia.
Qed.

Lemma isLower_spec : forall c, isLower c = true <-> small c.
Proof.
  intros c. unfold isLower, small. split.
  - intros H. exists (upper c). apply case_pair_upper. split; [|auto]. lia.
  - intros [u H]. apply case_pair_upper in H. lia.
Qed.

Lemma isUpper_lower : forall c, c <> SCHWA -> isUpper (lower c) = false.
Proof.
  intros c H. unfold isUpper. destruct (case_laws c) as (A & _ & _ & D). rewrite A, Z.eqb_refl. simpl.
  apply Z.eqb_neq. intros E. apply (f_equal upper) in E. rewrite D in E.
  change (upper 0x18F) with 0x18F in E.
  assert (isLower c = true) as L by (unfold isLower, SCHWA in *; lia).
  apply isLower_spec in L. destruct L as [u P].
  pose proof P as P'. apply case_pair_upper in P'. destruct P' as [_ P']. rewrite E in P'.
  apply case_pair_lower in P. subst u. destruct P as [N P]. vm_compute in P. congruence.
Qed.

Lemma isLower_upper : forall c, isLower (upper c) = false.
Proof. intros c. unfold isLower. destruct (case_laws c) as (_ & B & _). rewrite B, Z.eqb_refl. auto. Qed.

Lemma isLower_lower : forall c, isUpper c = true -> c <> SCHWA -> isLower (lower c) = true.
Proof.
  intros c H N. unfold isLower, isUpper, SCHWA in *. destruct (case_laws c) as (A & B & C & D).
  rewrite D. assert (isUpper c = true) as U by auto.
  destruct (isLower c) eqn:L; [exfalso; eapply upper_lower_excl; eauto|]. unfold isLower in L. lia.
Qed.

Lemma isUpper_upper : forall c, isLower c = true -> isUpper (upper c) = true.
Proof.
  intros c H. unfold isUpper. destruct (case_laws c) as (A & B & C & D). rewrite C.
  destruct (isUpper c) eqn:L; [exfalso; eapply upper_lower_excl; eauto|]. unfold isLower, isUpper in *. lia.
Qed.

(** ** voikko_casetype *)
Lemma casetype_loop_spec : forall w a b n,
  casetype_loop w a b n =
  (a && negb (existsb isUpper w), b && negb (existsb isLower w),
   n && negb (existsb isUpper w) && negb (existsb isLower w)).
Proof.
  induction w; intros; cbn [casetype_loop existsb negb].
  - rewrite !andb_true_r. auto.
  - destruct (isUpper a) eqn:?, (isLower a) eqn:?; cbn [orb]; rewrite IHw;
    destruct (existsb isUpper w), (existsb isLower w), a0, b, n; auto.
Qed.

Lemma existsb_false_Forall : forall A (f : A -> bool) l, existsb f l = false <-> Forall (fun x => f x = false) l.
Proof.
  induction l; simpl; split; intros; auto.
  - apply orb_false_iff in H. constructor; tauto.
  - inversion H; subst. apply orb_false_iff. tauto.
Qed.

Definition ct_fun (w : list Z) : casetype :=
  match w with
  | [] => CT_NO_LETTERS
  | c :: r =>
    if negb (existsb isUpper w) && negb (existsb isLower w) then CT_NO_LETTERS
    else if negb (existsb isLower w) then CT_ALL_UPPER
    else if existsb isUpper r then CT_COMPLEX
    else if isUpper c then CT_FIRST_UPPER else CT_ALL_LOWER
  end.

Lemma casetype_fun : forall w, voikko_casetype w = ct_fun w.
Proof.
  destruct w as [|c r]; [auto|]. unfold voikko_casetype, ct_fun. cbn [existsb].
  destruct (isUpper c) eqn:?, (isLower c) eqn:?; rewrite casetype_loop_spec; cbn [orb andb negb];
  destruct (existsb isUpper r), (existsb isLower r); cbn [orb andb negb]; auto.
Qed.

Lemma no_capital_iff : forall w, no_capital w <-> existsb isUpper w = false.
Proof.
  intros. rewrite existsb_false_Forall. unfold no_capital. rewrite !Forall_forall.
  split; intros H x Hx; specialize (H x Hx).
  - destruct (isUpper x) eqn:E; auto. apply isUpper_spec in E. tauto.
  - split; intros E; rewrite (proj2 (isUpper_spec x)) in H; tauto || discriminate.
Qed.

Lemma no_small_iff : forall w, no_small w <-> existsb isLower w = false.
Proof.
  intros. rewrite existsb_false_Forall. unfold no_small. rewrite !Forall_forall.
  split; intros H x Hx; specialize (H x Hx).
  - destruct (isLower x) eqn:E; auto. apply isLower_spec in E. tauto.
  - intros E. rewrite (proj2 (isLower_spec x)) in H; auto. discriminate.
Qed.

Lemma no_cased_iff : forall w, no_cased w <-> existsb isUpper w = false /\ existsb isLower w = false.
Proof.
  intros. rewrite <- no_capital_iff, <- no_small_iff. unfold no_cased, no_capital, no_small.
  rewrite !Forall_forall. split.
  - intros H; split; intros x Hx; specialize (H x Hx); tauto.
  - intros [A B] x Hx; specialize (A x Hx); specialize (B x Hx); tauto.
Qed.

Lemma casetype_cases : forall w,
  match voikko_casetype w with
  | CT_NO_LETTERS => no_cased w
  | CT_ALL_UPPER => ~ no_cased w /\ no_small w
  | CT_ALL_LOWER => ~ no_small w /\ no_capital w
  | CT_FIRST_UPPER => ~ no_small w /\ exists c r, w = c :: r /\ (capital c \/ c = SCHWA) /\ no_capital r
  | CT_COMPLEX => ~ no_small w /\ exists c r, w = c :: r /\ ~ no_capital r
  end.
Proof.
  intros w. rewrite casetype_fun. destruct w as [|c r].
  - simpl. constructor.
  - unfold ct_fun.
    pose proof (no_cased_iff (c :: r)) as N1. pose proof (no_small_iff (c :: r)) as N2.
    pose proof (no_capital_iff (c :: r)) as N3. pose proof (no_capital_iff r) as N4.
    pose proof (isUpper_spec c) as N5. pose proof (upper_lower_excl c) as N6.
    cbn [existsb] in *.
    assert (true = false <-> False) as T by (split; [discriminate|tauto]).
    destruct (isUpper c) eqn:U, (isLower c) eqn:L, (existsb isUpper r) eqn:UR, (existsb isLower r) eqn:LR;
    cbn [orb andb negb] in *; try (exfalso; apply N6; reflexivity); clear N6;
    try tauto; split; try tauto; exists c, r; tauto.
Qed.

(** ** voikko_set_case *)
Lemma set_case_length : forall ct w, length (voikko_set_case ct w) = length w.
Proof. intros [] [|c r]; simpl; auto; rewrite map_length; auto. Qed.

Lemma existsb_map : forall A B (f : B -> bool) (g : A -> B) l, existsb f (map g l) = existsb (fun x => f (g x)) l.
Proof. induction l; simpl; auto. rewrite IHl; auto. Qed.

Lemma existsb_upper_lower : forall w, ~ In SCHWA w -> existsb isUpper (map lower w) = false.
Proof.
  intros. rewrite existsb_false_Forall. apply Forall_forall. intros x Hx.
  apply in_map_iff in Hx. destruct Hx as (y & <- & Hy). apply isUpper_lower. intros ->; auto.
Qed.

Lemma existsb_lower_upper : forall w, existsb isLower (map upper w) = false.
Proof.
  intros. rewrite existsb_false_Forall. apply Forall_forall. intros x Hx.
  apply in_map_iff in Hx. destruct Hx as (y & <- & Hy). apply isLower_upper.
Qed.

Definition cased (c : Z) : bool := isUpper c || isLower c.

Lemma isLower_lower_cased : forall c, c <> SCHWA -> isLower (lower c) = cased c.
Proof.
  intros c N. unfold cased. destruct (isUpper c) eqn:U; simpl.
  - apply isLower_lower; auto.
  - unfold isUpper in U. assert (lower c = c) as -> by lia. auto.
Qed.

Lemma isUpper_upper_cased : forall c, isUpper (upper c) = cased c.
Proof.
  intros c. unfold cased. destruct (isLower c) eqn:U.
  - rewrite orb_true_r. apply isUpper_upper; auto.
  - unfold isLower in U. assert (upper c = c) as -> by lia. rewrite orb_false_r; auto.
Qed.

Lemma existsb_lower_lower : forall w, ~ In SCHWA w -> existsb isLower (map lower w) = existsb cased w.
Proof.
  induction w; intros; cbn [map existsb]; auto. rewrite IHw, isLower_lower_cased; auto.
  - intros ->. apply H; left; auto.
  - intros Q; apply H; right; auto.
Qed.

Lemma existsb_upper_upper : forall w, existsb isUpper (map upper w) = existsb cased w.
Proof. induction w; cbn [map existsb]; auto. rewrite IHw, isUpper_upper_cased; auto. Qed.

Lemma existsb_cased : forall w, existsb cased w = existsb isUpper w || existsb isLower w.
Proof. induction w; cbn [existsb]; auto. rewrite IHw. unfold cased. destruct (isUpper a), (isLower a), (existsb isUpper w), (existsb isLower w); auto. Qed.

Lemma not_no_cased : forall w, ~ no_cased w <-> existsb cased w = true.
Proof.
  intros. rewrite no_cased_iff, existsb_cased.
  destruct (existsb isUpper w), (existsb isLower w); simpl; intuition congruence.
Qed.

Lemma casetype_all_lower : forall w, ~ In SCHWA w -> ~ no_cased w ->
  voikko_casetype (voikko_set_case CT_ALL_LOWER w) = CT_ALL_LOWER.
Proof.
  intros w S H. apply not_no_cased in H. destruct w as [|c r]; [discriminate|].
  rewrite casetype_fun. cbn [voikko_set_case map ct_fun].
  change (existsb isUpper (lower c :: map lower r)) with (existsb isUpper (map lower (c :: r))).
  change (existsb isLower (lower c :: map lower r)) with (existsb isLower (map lower (c :: r))).
  rewrite existsb_upper_lower, existsb_lower_lower, H by auto. simpl.
  rewrite existsb_upper_lower, isUpper_lower; auto.
  - intros ->; apply S; left; auto.
  - intros Q; apply S; right; auto.
Qed.

Lemma casetype_all_upper : forall w, ~ no_cased w ->
  voikko_casetype (voikko_set_case CT_ALL_UPPER w) = CT_ALL_UPPER.
Proof.
  intros w H. apply not_no_cased in H. destruct w as [|c r]; [discriminate|].
  rewrite casetype_fun. cbn [voikko_set_case map ct_fun].
  change (existsb isUpper (upper c :: map upper r)) with (existsb isUpper (map upper (c :: r))).
  change (existsb isLower (upper c :: map upper r)) with (existsb isLower (map upper (c :: r))).
  rewrite existsb_lower_upper, existsb_upper_upper, H. auto.
Qed.

Lemma casetype_first_upper : forall c r, ~ In SCHWA (c :: r) -> (capital c \/ small c) -> ~ no_cased r ->
  voikko_casetype (voikko_set_case CT_FIRST_UPPER (c :: r)) = CT_FIRST_UPPER.
Proof.
  intros c r S C H. apply not_no_cased in H.
  assert (~ In SCHWA r) as SR by (intros Q; apply S; right; auto).
  rewrite casetype_fun. cbn [voikko_set_case ct_fun existsb].
  rewrite isUpper_upper_cased, isLower_upper, existsb_lower_lower, H, existsb_upper_lower by auto.
  assert (cased c = true) as ->.
  { unfold cased. destruct C as [C|C].
    - rewrite (proj2 (isUpper_spec c)); auto.
    - rewrite (proj2 (isLower_spec c)); auto. apply orb_true_r. }
  simpl. auto.
Qed.

(** ** Letters and case *)
Definition is_letter (c : Z) : bool := match get_char_type c with CHAR_LETTER => true | _ => false end.

Definition letter_check (c : Z) : bool :=
  (negb (is_letter c) || is_letter (lower c)) && (negb (is_letter c) || is_letter (upper c) || (c =? 0xE0)).

Lemma letter_case : forall c, is_letter c = true ->
  is_letter (lower c) = true /\ (c <> 0xE0 -> is_letter (upper c) = true).
Proof.
  intros c H. destruct (Z_lt_dec c 0); [|destruct (Z_lt_dec c 0x600)].
  - rewrite lower_id_out, upper_id_out by lia. auto.
  - assert (letter_check c = true) as E.
    { apply (zrange_forallb letter_check 1536); [|lia]. vm_compute. reflexivity. }
    unfold letter_check in E. rewrite H in E. cbn [negb orb] in E. apply andb_true_iff in E.
    destruct E as [E1 E2]. split; auto. intros N. apply orb_true_iff in E2. destruct E2; [auto|lia].
  - rewrite lower_id_out, upper_id_out by lia. auto.
Qed.

(** ** Normalisation *)
Lemma find1_some : forall A (t : list (Z * A)) a x, find1 t a = Some x -> In (a, x) t.
Proof. induction t as [|[k v] t IH]; simpl; intros; [discriminate|]. destruct (Z.eqb_spec a k); [left; congruence|auto]. Qed.

Lemma find2_some : forall t a b x, find2 t a b = Some x -> In ((a, b), x) t.
Proof.
  induction t as [|[[k l] v] t IH]; simpl; intros; [discriminate|].
  destruct (Z.eqb_spec a k), (Z.eqb_spec b l); simpl in H; auto. left; congruence.
Qed.

Lemma norm1_cases : forall c, (exists l, unit_of [c] l /\ norm1 c = l) \/ ((forall l, ~ unit_of [c] l) /\ norm1 c = [c]).
Proof.
  intros c. unfold norm1.
  destruct (find1 CONV_1TO1 c) eqn:E1.
  { left. apply find1_some in E1. simpl in E1.
    repeat destruct E1 as [E1|E1]; try tauto; injection E1 as <- <-; eexists; split; try constructor; reflexivity. }
  destruct (find1 CONV_1TO2 c) eqn:E2.
  { left. apply find1_some in E2. simpl in E2.
    repeat destruct E2 as [E2|E2]; try tauto; injection E2 as <- <-; eexists; split; try constructor; reflexivity. }
  destruct (find1 CONV_1TO3 c) eqn:E3.
  { left. apply find1_some in E3. simpl in E3.
    repeat destruct E3 as [E3|E3]; try tauto; injection E3 as <- <-; eexists; split; try constructor; reflexivity. }
  right. split; auto. intros l H. inversion H; subst; discriminate.
Qed.

Lemma norm1_len : forall c, (1 <= length (norm1 c) <= 3)%nat.
Proof.
  intros c. destruct (norm1_cases c) as [(l & U & ->) | (_ & ->)]; [|simpl; lia].
  inversion U; subst; simpl; lia.
Qed.

Lemma list_ind2 : forall (P : list Z -> Prop), P [] -> (forall a, P [a]) ->
  (forall a b l, P l -> P (b :: l) -> P (a :: b :: l)) -> forall l, P l.
Proof.
  intros P H0 H1 H2. assert (forall l, P l /\ forall a, P (a :: l)) as H.
  { induction l; [split; auto|]. destruct IHl. split; auto. }
  intros; apply H.
Qed.

Lemma norm_loop_cons2 : forall c d r, norm_loop (c :: d :: r) =
  match find2 CONV_2TO1 c d with Some x => x :: norm_loop r | None => norm1 c ++ norm_loop (d :: r) end.
Proof. reflexivity. Qed.

Lemma norm_loop_len : forall w, (length (norm_loop w) <= 3 * length w)%nat.
Proof.
  induction w using list_ind2.
  - simpl; lia.
  - cbn [norm_loop]. rewrite app_nil_r. pose proof (norm1_len a). simpl; lia.
  - rewrite norm_loop_cons2. destruct (find2 CONV_2TO1 a b).
    + cbn [length]. lia.
    + rewrite app_length. pose proof (norm1_len a). cbn [length] in *. lia.
Qed.

Lemma normalise_ok : forall w, voikko_normalise w = Ok (norm_loop w).
Proof.
  intros. unfold voikko_normalise. pose proof (norm_loop_len w).
  destruct (Nat.leb_spec (length (norm_loop w) + 1) (length w * 3 + 1)); auto; lia.
Qed.

Lemma norm_loop_nonempty : forall w, w <> [] -> norm_loop w <> [].
Proof.
  intros [|c [|d r]] H; [congruence| |].
  - cbn [norm_loop]. rewrite app_nil_r. pose proof (norm1_len c). destruct (norm1 c); simpl in *; [lia|discriminate].
  - rewrite norm_loop_cons2. destruct (find2 CONV_2TO1 c d); [discriminate|].
    pose proof (norm1_len c). destruct (norm1 c); simpl in *; [lia|discriminate].
Qed.

(** ** Composition table *)
Definition all_marks : list Z := [0x300; 0x301; 0x302; 0x303; 0x306; 0x308; 0x30a; 0x30c; 0x327].

Lemma composed_with_marks : forall m, ~ In m all_marks -> composed_with m = [].
Proof.
  intros m H. unfold composed_with.
  destruct m as [|p|p]; auto.
  repeat (destruct p as [p|p|]; auto); exfalso; apply H; unfold all_marks; simpl; tauto.
Qed.

Lemma combining_marks : forall m, combining m <-> In m all_marks.
Proof.
  intros m. split.
  - intros H. destruct (in_dec Z.eq_dec m all_marks); auto. elim H. apply composed_with_marks; auto.
  - unfold all_marks. cbn [In]. intros H.
    repeat (destruct H as [H|H]; [subst m; intros Q; vm_compute in Q; discriminate Q|]). destruct H.
Qed.

Definition pairs_eqb (p q : Z * Z) : bool := (fst p =? fst q) && (snd p =? snd q).
Lemma pairs_eqb_eq : forall p q, pairs_eqb p q = true <-> p = q.
Proof.
  intros [a b] [c d]. unfold pairs_eqb; simpl. rewrite andb_true_iff, !Z.eqb_eq. split; [intros [-> ->]|intros H; injection H]; auto.
Qed.

Lemma find2_composes : forall a b x, find2 CONV_2TO1 a b = Some x <-> composes a b x.
Proof.
  intros a b x. split.
  - intros H. apply find2_some in H.
    assert (forallb (fun r => existsb (pairs_eqb (fst (fst r), snd r)) (composed_with (snd (fst r)))) CONV_2TO1 = true) as E
      by (vm_compute; reflexivity).
    rewrite forallb_forall in E. specialize (E _ H). cbn [fst snd] in E. unfold composes.
    apply existsb_exists in E. destruct E as (q & I & E). apply pairs_eqb_eq in E. subst; auto.
  - unfold composes. intros H. destruct (in_dec Z.eq_dec b all_marks) as [M|M].
    + assert (forallb (fun m => forallb (fun r => match find2 CONV_2TO1 (fst r) m with Some z => z =? snd r | None => false end)
         (composed_with m)) all_marks = true) as E by (vm_compute; reflexivity).
      rewrite forallb_forall in E. specialize (E b M). rewrite forallb_forall in E. specialize (E _ H). cbn [fst snd] in E.
      destruct (find2 CONV_2TO1 a b); [|discriminate]. f_equal; lia.
    + rewrite composed_with_marks in H by auto. destruct H.
Qed.

(** Facts about the characters of the table, checked on every row. *)
Definition row_check (r : (Z * Z) * Z) : bool :=
  let '((a, b), x) := r in
  negb (mem a all_marks) && negb (mem x all_marks) && mem b all_marks &&
  (match norm1 x with [y] => y =? x | _ => false end) &&
  forallb (fun r' => negb (fst (fst r') =? x)) CONV_2TO1.

Lemma rows_checked : forall r, In r CONV_2TO1 -> row_check r = true.
Proof. apply forallb_forall. vm_compute. reflexivity. Qed.

Lemma composes_facts : forall a b x, composes a b x ->
  ~ combining a /\ ~ combining x /\ combining b /\ norm1 x = [x] /\ (forall d, find2 CONV_2TO1 x d = None).
Proof.
  intros a b x H. apply find2_composes in H. apply find2_some in H.
  pose proof (rows_checked _ H) as E. unfold row_check in E.
  apply andb_true_iff in E. destruct E as [E E5]. apply andb_true_iff in E. destruct E as [E E4].
  apply andb_true_iff in E. destruct E as [E E3]. apply andb_true_iff in E. destruct E as [E1 E2].
  rewrite !combining_marks. rewrite <- !mem_In. repeat split.
  - intros Q; rewrite Q in E1; discriminate.
  - intros Q; rewrite Q in E2; discriminate.
  - auto.
  - destruct (norm1 x) as [|y [|? ?]]; try discriminate. f_equal; lia.
  - intros d. destruct (find2 CONV_2TO1 x d) eqn:F; auto. apply find2_some in F.
    rewrite forallb_forall in E5. specialize (E5 _ F). simpl in E5. lia.
Qed.

Lemma find2_mark : forall a b, ~ combining b -> find2 CONV_2TO1 a b = None.
Proof.
  intros a b H. destruct (find2 CONV_2TO1 a b) eqn:F; auto. apply find2_composes in F.
  apply composes_facts in F. tauto.
Qed.

Definition starts_combining (w : list Z) : Prop := match w with [] => False | c :: _ => combining c end.

Lemma norm_loop_app : forall a w, ~ starts_combining w -> norm_loop (a ++ w) = norm_loop a ++ norm_loop w.
Proof.
  intros a w H. induction a using list_ind2.
  - reflexivity.
  - destruct w as [|c w]; [cbn [app norm_loop]; rewrite !app_nil_r; reflexivity|].
    cbn [app]. rewrite norm_loop_cons2, find2_mark by (simpl in H; auto).
    cbn [norm_loop]. rewrite app_nil_r. reflexivity.
  - cbn [app]. rewrite !norm_loop_cons2. destruct (find2 CONV_2TO1 a b).
    + cbn [app]. rewrite IHa. reflexivity.
    + cbn [app] in IHa0. rewrite IHa0. rewrite app_assoc. reflexivity.
Qed.

Lemma norm_loop_cons_plain : forall c w, (forall d, find2 CONV_2TO1 c d = None) -> norm_loop (c :: w) = norm1 c ++ norm_loop w.
Proof. intros c [|d w] H; [reflexivity|]. rewrite norm_loop_cons2, H. reflexivity. Qed.

Lemma find2_fst_none : forall c, forallb (fun r => negb (fst (fst r) =? c)) CONV_2TO1 = true -> forall d, find2 CONV_2TO1 c d = None.
Proof.
  intros c H d. destruct (find2 CONV_2TO1 c d) eqn:F; auto. apply find2_some in F.
  rewrite forallb_forall in H. specialize (H _ F). simpl in H. lia.
Qed.

Lemma unit_norm : forall c l b, unit_of [c] l -> norm_loop (c :: b) = l ++ norm_loop b.
Proof.
  intros c l b H. rewrite norm_loop_cons_plain.
  - f_equal. inversion H; reflexivity.
  - apply find2_fst_none. inversion H; reflexivity.
Qed.

Lemma not_combining_dec : forall c, mem c all_marks = false -> ~ combining c.
Proof. intros c H Q. apply combining_marks in Q. apply mem_In in Q. congruence. Qed.

Lemma find2_not_combining_next : forall c b, (forall m b', b = m :: b' -> ~ combining m) ->
  norm_loop (c :: b) = norm1 c ++ norm_loop b.
Proof.
  intros c [|d b] H; [reflexivity|]. rewrite norm_loop_cons2, find2_mark; eauto.
Qed.

(** Normalising the replacement text of a unit leaves it alone (in a context
    that does not add a combining mark to its last letter). *)
Lemma unit_image_norm : forall c l b, unit_of [c] l ->
  (ends_in_letter c -> forall m b', b = m :: b' -> ~ combining m) ->
  norm_loop (l ++ b) = l ++ norm_loop b.
Proof.
  intros c l b H N.
  assert (ends_in_letter c \/ (l = [0x27] \/ l = [0x2D])) as D.
  { inversion H; subst; unfold ends_in_letter; auto; left; lia. }
  destruct D as [D|D].
  - specialize (N D).
    inversion H; subst; cbn [app];
      try (exfalso; unfold ends_in_letter in D; lia);
      repeat (rewrite norm_loop_cons2, find2_mark by (apply not_combining_dec; reflexivity); cbn [norm1 app]);
      rewrite find2_not_combining_next by auto; reflexivity.
  - destruct D as [-> | ->]; cbn [app]; rewrite norm_loop_cons_plain by (apply find2_fst_none; reflexivity); reflexivity.
Qed.

Lemma respelled_norm : forall u v, respelled u v -> norm_loop u = norm_loop v.
Proof.
  intros u v H. destruct H.
  - pose proof (composes_facts _ _ _ H) as (A & B & C & D & E).
    rewrite (norm_loop_app a (base :: mark :: b)), (norm_loop_app a (x :: b)) by auto.
    rewrite norm_loop_cons2. apply find2_composes in H. rewrite H.
    rewrite norm_loop_cons_plain, D by auto. reflexivity.
  - assert (~ combining c) as NC by (inversion H; apply not_combining_dec; reflexivity).
    rewrite norm_loop_app by auto.
    rewrite norm_loop_app.
    + f_equal. rewrite (unit_norm _ l) by auto. symmetry. eapply unit_image_norm; eauto.
    + inversion H; simpl; apply not_combining_dec; reflexivity.
Qed.

Lemma plain_norm : forall w, plain w -> norm_loop w = w.
Proof.
  induction w as [|c|c d w IH1 IH2] using list_ind2; intros [U C].
  - reflexivity.
  - cbn [norm_loop]. rewrite app_nil_r. destruct (norm1_cases c) as [(l & Q & _)|[_ ->]]; auto.
    elim (U c); [left; auto | exists l; auto].
  - rewrite norm_loop_cons2. destruct (find2 CONV_2TO1 c d) eqn:F.
    + apply find2_composes in F. elim (C [] w c d z); auto.
    + destruct (norm1_cases c) as [(l & Q & _)|[_ ->]].
      * elim (U c); [left; auto | exists l; auto].
      * cbn [app]. f_equal. apply IH2. split.
        -- intros e I. apply U. right; auto.
        -- intros a b u v x E. apply (C (c :: a) b u v x). simpl. rewrite E. auto.
Qed.

Lemma norm_plain : forall w,
  (forall a b c m, w = a ++ c :: m :: b -> ends_in_letter c -> ~ combining m) ->
  norm_loop (norm_loop w) = norm_loop w.
Proof.
  assert (forall c r, norm_loop (c :: r) = match r with d :: r' => match find2 CONV_2TO1 c d with Some x => x :: norm_loop r' | None => norm1 c ++ norm_loop r end | [] => norm1 c ++ norm_loop r end) as UF by reflexivity.
  (* the normal form of a text that does not start with a mark does not start with one either *)
  assert (forall w, ~ starts_combining w -> ~ starts_combining (norm_loop w)) as NS.
  { intros [|c [|d r]] H; [auto| |].
    - cbn [norm_loop]. rewrite app_nil_r. destruct (norm1_cases c) as [(l & Q & ->)|[_ ->]]; auto.
      inversion Q; simpl; apply not_combining_dec; reflexivity.
    - rewrite norm_loop_cons2. destruct (find2 CONV_2TO1 c d) eqn:F.
      + apply find2_composes, composes_facts in F. simpl. tauto.
      + destruct (norm1_cases c) as [(l & Q & ->)|[_ ->]]; auto.
        inversion Q; simpl; apply not_combining_dec; reflexivity. }
  assert (forall w, starts_combining w -> exists m r, w = m :: r /\ norm_loop w = m :: norm_loop r) as SC.
  { intros [|c r] H; [destruct H|]. exists c, r. split; auto.
    rewrite norm_loop_cons_plain.
    - destruct (norm1_cases c) as [(l & Q & _)|[_ ->]]; auto.
      exfalso. simpl in H. apply combining_marks in H. apply mem_In in H. inversion Q; subst; discriminate.
    - intros d. destruct (find2 CONV_2TO1 c d) eqn:F; auto. apply find2_composes, composes_facts in F. simpl in H. tauto. }
  induction w as [|c|c d w IH1 IH2] using list_ind2; intros H.
  - reflexivity.
  - cbn [norm_loop]. rewrite app_nil_r. destruct (norm1_cases c) as [(l & Q & ->)|[_ E]].
    + pose proof (unit_image_norm c l [] Q ltac:(intros; discriminate)) as P. cbn [norm_loop] in P. rewrite !app_nil_r in P. auto.
    + rewrite E. cbn [norm_loop]. rewrite E. auto.
  - rewrite norm_loop_cons2. destruct (find2 CONV_2TO1 c d) eqn:F.
    + apply find2_composes in F. pose proof (composes_facts _ _ _ F) as (A & B & C & D & E).
      rewrite norm_loop_cons_plain, D by auto. cbn [app]. f_equal. apply IH1.
      intros a b e m -> . apply (H (c :: d :: a) b e m). reflexivity.
    + assert (norm_loop (norm_loop (d :: w)) = norm_loop (d :: w)) as IH.
      { apply IH2. intros a b e m E. apply (H (c :: a) b e m). rewrite E. reflexivity. }
      destruct (norm1_cases c) as [(l & Q & E)|[_ E]]; rewrite E.
      * rewrite (unit_image_norm c l); auto.
        { rewrite IH. auto. }
        intros L m b' EQ CM.
        assert (~ combining d) as ND by (apply (H [] w c d); auto).
        apply (NS (d :: w) ND). rewrite EQ. exact CM.
      * cbn [app]. destruct (in_dec Z.eq_dec d all_marks) as [M|M].
        -- apply combining_marks in M. destruct (SC (d :: w) M) as (m & r & EQ & EN).
           injection EQ as <- <-. rewrite EN. rewrite norm_loop_cons2, F, E. cbn [app]. f_equal.
           rewrite <- EN. auto.
        -- assert (~ combining d) as ND by (rewrite combining_marks; auto).
           rewrite find2_not_combining_next.
           ++ rewrite E, IH. auto.
           ++ intros m b' EQ CM. apply (NS (d :: w) ND). rewrite EQ. exact CM.
Qed.

(** ** Non-words *)
Lemma wmemchr_spec : forall p c n, (n <= length p)%nat ->
  match wmemchr p c n with
  | Ok (Some i) => (i < n)%nat /\ nth_error p i = Some c /\ ~ In c (firstn i p)
  | Ok None => ~ In c (firstn n p)
  | _ => False
  end.
Proof.
  induction p; intros c n H.
  - destruct n; simpl in *; [tauto|lia].
  - destruct n; cbn [wmemchr firstn]; [tauto|].
    destruct (Z.eqb_spec a c).
    + subst. simpl. repeat split; auto; lia.
    + specialize (IHp c n ltac:(simpl in *; lia)). destruct (wmemchr p c n) as [[i|]| |]; simpl; auto.
      * destruct IHp as (A & B & C). repeat split; auto; try lia. intros [?|?]; auto.
      * intros [?|?]; auto.
Qed.

Lemma nth_error_split_In : forall (l : list Z) i c, nth_error l i = Some c -> l = firstn i l ++ c :: skipn (S i) l.
Proof. intros. rewrite <- (firstn_skipn i l) at 1. f_equal. apply skipn_cons_nth; auto. Qed.

Lemma first_occurrence_unique : forall (a a' : list Z) c b b', a ++ c :: b = a' ++ c :: b' -> ~ In c a -> ~ In c a' -> a = a' /\ b = b'.
Proof.
  induction a; destruct a'; simpl; intros c b b' E N N'; injection E; intros; subst.
  - auto.
  - tauto.
  - tauto.
  - destruct (IHa a' c b b') as [-> ->]; auto.
Qed.

Lemma in_firstn : forall (l : list Z) n x, In x (firstn n l) <-> exists i, (i < n)%nat /\ nth_error l i = Some x.
Proof.
  intros. split.
  - intros H. apply In_nth_error in H. destruct H as [i H]. 
    assert (i < length (firstn n l))%nat by (eapply nth_error_lt; eauto). rewrite firstn_length in H0.
    exists i. split; [lia|]. rewrite nth_error_firstn_lt in H; auto; lia.
  - intros (i & L & H). apply nth_error_In with (n := i). rewrite nth_error_firstn_lt; auto.
Qed.

Lemma nonword_block : forall w k (P : Z -> bool), (4 <= length w)%nat -> P 0x2E = false ->
  exists r, (o <- wmemchr w k (length w - 3) ;;
   match o with
   | None => Ok false
   | Some i => c <- rd w (i + 1) ;;
       if P c then (o2 <- wmemchr (skipn (i + 1) w) 0x2E (length w - i - 2) ;;
                    Ok match o2 with Some _ => true | None => false end)
       else Ok false
   end) = Ok r /\
  (r = true <-> exists a x b c, w = a ++ [k] ++ (x :: b) ++ [0x2E] ++ c /\ ~ In k a /\ P x = true /\ c <> []).
Proof.
  intros w k P L PD.
  pose proof (wmemchr_spec w k (length w - 3) ltac:(lia)) as S1.
  destruct (wmemchr w k (length w - 3)) as [[i|]| |]; try contradiction; cbn [bind].
  - destruct S1 as (Li & Ni & Fi).
    destruct (rd_lt _ w (i + 1) ltac:(lia)) as (x & Rx & Nx). rewrite Rx. cbn [bind].
    assert (w = firstn i w ++ k :: x :: skipn (i + 2) w) as Dec.
    { rewrite (nth_error_split_In w i k Ni) at 1. f_equal. f_equal.
      rewrite (skipn_cons_nth _ w (S i) x); [f_equal; f_equal; lia|]. rewrite <- Nx. f_equal; lia. }
    destruct (P x) eqn:Px.
    + pose proof (wmemchr_spec (skipn (i + 1) w) 0x2E (length w - i - 2) ltac:(rewrite skipn_length; lia)) as S2.
      destruct (wmemchr (skipn (i + 1) w) 0x2E (length w - i - 2)) as [[j|]| |]; try contradiction; cbn [bind];
      eexists; (split; [reflexivity|]).
      * destruct S2 as (Lj & Nj & Fj). split; auto. intros _.
        rewrite nth_error_skipn in Nj.
        assert (j <> 0)%nat as J0. { intros ->. rewrite Nat.add_0_r in Nj. rewrite Nx in Nj. injection Nj as ->. congruence. }
        exists (firstn i w), x, (firstn (j - 1) (skipn (i + 2) w)), (skipn (i + j + 2) w).
        repeat split; auto.
        -- cbn [app]. rewrite Dec at 1. f_equal. f_equal. f_equal.
           rewrite (nth_error_split_In (skipn (i + 2) w) (j - 1) 0x2E) at 1.
           ++ f_equal. f_equal. rewrite skipn_skipn. f_equal. lia.
           ++ rewrite nth_error_skipn. rewrite <- Nj. f_equal. lia.
        -- intros E. apply (f_equal (@length Z)) in E. rewrite skipn_length in E. simpl in E. lia.
      * split; [discriminate|]. intros (a & x' & b & c & E & Na & Px' & Nc). exfalso.
        rewrite Dec in E. cbn [app] in E. apply first_occurrence_unique in E; auto.
        destruct E as [Ea Eb]. injection Eb as <- Eb.
        apply S2. apply in_firstn. exists (1 + length b)%nat.
        assert (length w = i + 2 + (length b + 1 + length c))%nat as LW.
        { assert (length (skipn (i + 2) w) = length b + 1 + length c)%nat as Q by (rewrite Eb; rewrite !app_length; simpl; lia).
          rewrite skipn_length in Q. lia. }
        assert (length c <> 0)%nat by (destruct c; simpl; congruence).
        split; [lia|]. rewrite nth_error_skipn.
        replace (i + 1 + (1 + length b))%nat with (i + 2 + length b)%nat by lia.
        rewrite <- nth_error_skipn, Eb. rewrite nth_error_app2, Nat.sub_diag by lia. reflexivity.
    + eexists; split; [reflexivity|]. split; [discriminate|]. intros (a & x' & b & c & E & Na & Px' & Nc). exfalso.
      rewrite Dec in E. cbn [app] in E. apply first_occurrence_unique in E; auto.
      destruct E as [_ Eb]. injection Eb as <- Eb. congruence.
  - eexists; split; [reflexivity|]. split; [discriminate|]. intros (a & x' & b & c & E & Na & Px' & Nc). exfalso.
    apply S1. apply in_firstn. exists (length a).
    assert (length w = length a + 3 + length b + length c)%nat as LW by (rewrite E; repeat (rewrite ?app_length; cbn [length]); lia).
    assert (length c <> 0)%nat by (destruct c; simpl; congruence).
    split; [lia|]. rewrite E. rewrite nth_error_app2, Nat.sub_diag by lia. reflexivity.
Qed.

Lemma is_nonword_spec : forall w, exists r, voikko_is_nonword w = Ok r /\
  (r = true <-> url_like w \/ email_like w \/ www_like w).
Proof.
  intros w. unfold voikko_is_nonword.
  assert (url_like w -> (4 <= length w)%nat) as L1.
  { intros (a & b & c & -> & _ & N). destruct c; [congruence|]. repeat (rewrite ?app_length; cbn [length]); lia. }
  assert (email_like w -> (4 <= length w)%nat) as L2.
  { intros (a & x & b & c & -> & _ & _ & N). destruct c; [congruence|]. repeat (rewrite ?app_length; cbn [length]); lia. }
  assert (www_like w -> (7 <= length w)%nat) as L3 by (intros (x & b & c & E & _ & L); auto).
  destruct (Nat.ltb_spec (length w) 4) as [L|L].
  { eexists; split; [reflexivity|]. split; [discriminate|]. intros [H|[H|H]]; apply L1 in H || apply L2 in H || apply L3 in H; lia. }
  destruct (nonword_block w 0x2F (fun c => c =? 0x2F) L eq_refl) as (b1 & E1 & S1).
  destruct (nonword_block w 0x40 (fun c => negb (c =? 0x2E)) L eq_refl) as (b2 & E2 & S2).
  assert (b1 = true <-> url_like w) as U.
  { rewrite S1. unfold url_like. split.
    - intros (a & x & b & c & -> & N & P & C). apply Z.eqb_eq in P. subst x. exists a, b, c. split; auto.
    - intros (a & b & c & -> & N & C). exists a, 0x2F, b, c. split; auto. }
  assert (b2 = true <-> email_like w) as Em.
  { rewrite S2. unfold email_like. split; intros (a & x & b & c & -> & N & P & C); exists a, x, b, c; repeat split; auto; lia. }
  clear S1 S2. cbn beta in E1, E2.
  (* the model inlines the two blocks; re-associate the binds *)
  assert (forall A B C (m : res A) (f : A -> res B) (g : B -> res C), bind m (fun a => bind (f a) g) = bind (bind m f) g) as AS
    by (intros A B C [?| |]; reflexivity).
  rewrite AS. rewrite E1. cbn [bind]. destruct b1.
  { eexists; split; [reflexivity|]. tauto. }
  rewrite AS. rewrite E2. cbn [bind]. destruct b2.
  { eexists; split; [reflexivity|]. tauto. }
  assert (~ url_like w) as NU by (intros H; apply U in H; discriminate).
  assert (~ email_like w) as NE by (intros H; apply Em in H; discriminate).
  destruct (Nat.ltb_spec (length w) 7) as [L7|L7].
  { eexists; split; [reflexivity|]. split; [discriminate|]. intros [H|[H|H]]; try tauto. apply L3 in H; lia. }
  destruct (prefix_eq_ok (wstr "www.") w ltac:(simpl; lia)) as [p Ep]. rewrite Ep. cbn [bind].
  destruct p; cbn [negb].
  - apply prefix_eq_true in Ep.
    destruct (rd_lt _ w 4 ltac:(lia)) as (x & Rx & Nx). rewrite Rx. cbn [bind].
    assert (w = wstr "www." ++ x :: skipn 5 w) as Dec.
    { rewrite <- Ep. rewrite <- (firstn_skipn 4 w) at 1. f_equal. apply skipn_cons_nth; auto. }
    destruct (Z.eqb_spec x 0x2E).
    + eexists; split; [reflexivity|]. split; [discriminate|]. intros [H|[H|H]]; try tauto.
      destruct H as (x' & b & c & E & Nx' & _). rewrite Dec in E. cbn in E. injection E; intros; congruence.
    + pose proof (wmemchr_spec (skipn 5 w) 0x2E (length w - 5) ltac:(rewrite skipn_length; lia)) as S3.
      destruct (wmemchr (skipn 5 w) 0x2E (length w - 5)) as [[j|]| |]; try contradiction; cbn [bind];
      eexists; (split; [reflexivity|]).
      * split; auto. intros _. right. right. destruct S3 as (Lj & Nj & _).
        exists x, (firstn j (skipn 5 w)), (skipn (S j) (skipn 5 w)).
        split; [|split; auto]. rewrite Dec at 1. cbn [app]. f_equal. f_equal. apply nth_error_split_In; auto.
      * split; [discriminate|]. intros [H|[H|H]]; try tauto. exfalso.
        destruct H as (x' & b & c & E & Nx' & _). apply S3.
        assert (skipn 5 w = b ++ 0x2E :: c) as Q by (rewrite E; reflexivity).
        rewrite firstn_all2 by (rewrite skipn_length; lia). rewrite Q. apply in_or_app. right; left; auto.
  - eexists; split; [reflexivity|]. split; [discriminate|]. intros [H|[H|H]]; try tauto. exfalso.
    destruct H as (x' & b & c & E & Nx' & _). rewrite E in Ep.
    rewrite firstn_eq_prefix_eq in Ep; [discriminate|]. reflexivity.
Qed.
