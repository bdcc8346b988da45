(** * C41: attributes of an analysis *)
From Verif Require Import Base BaseFacts AnalysisModel AnalysisSpec.

(** ** Lemmas *)

Lemma key_eqb_eq : forall a b, key_eqb a b = true <-> a = b.
Proof. intros a b. unfold key_eqb. rewrite Nat.eqb_eq. split; [|intros ->; auto]. destruct a, b; cbn; intros H; try discriminate; auto. Qed.
Lemma key_eqb_refl : forall a, key_eqb a a = true.
Proof. intros. apply key_eqb_eq. auto. Qed.
Lemma key_eqb_neq : forall a b, a <> b -> key_eqb a b = false.
Proof. intros a b H. destruct (key_eqb a b) eqn:E; auto. apply key_eqb_eq in E. contradiction. Qed.
Lemma key_dec : forall a b : Key, {a = b} + {a <> b}.
Proof. decide equality. Qed.

Lemma set_key_same : forall A (f : Key -> A) k x, set_key f k x k = x.
Proof. intros. unfold set_key. rewrite key_eqb_refl. auto. Qed.
Lemma set_key_other : forall A (f : Key -> A) k x k', k <> k' -> set_key f k x k' = f k'.
Proof. intros. unfold set_key. rewrite key_eqb_neq; auto. Qed.

Lemma all_keys_complete : forall k, In k all_keys.
Proof. intros k. unfold all_keys. destruct k; cbn; tauto. Qed.
Lemma all_keys_nodup : NoDup all_keys.
Proof.
  unfold all_keys. repeat (constructor; [cbn; intuition discriminate|]). constructor.
Qed.

Lemma run_snoc : forall ops o, run (ops ++ [o]) = do_op (run ops) o.
Proof. intros. unfold run. rewrite fold_left_app. reflexivity. Qed.

(** The attribute after one more call. *)
Lemma do_op_attr : forall a o k,
  attributes (do_op a o) k =
    if key_eqb (op_key o) k then
      match op_value o with
      | None => None
      | Some v => match attributes a k with Some x => Some x | None => Some v end
      end
    else attributes a k.
Proof.
  intros a o k. destruct o as [k0 v|k0 v|k0]; cbn [do_op op_key op_value].
  - unfold addAttribute, map_insert. cbn [attributes]. destruct (key_eqb k0 k) eqn:E.
    + apply key_eqb_eq in E. subst k0. destruct (attributes a k) eqn:F; auto. rewrite set_key_same; auto.
    + assert (k0 <> k) by (intros ->; rewrite key_eqb_refl in E; discriminate).
      destruct (attributes a k0); auto. rewrite set_key_other; auto.
  - unfold addConstAttribute, map_insert. cbn [attributes]. destruct (key_eqb k0 k) eqn:E.
    + apply key_eqb_eq in E. subst k0. destruct (attributes a k) eqn:F; auto. rewrite set_key_same; auto.
    + assert (k0 <> k) by (intros ->; rewrite key_eqb_refl in E; discriminate).
      destruct (attributes a k0); auto. rewrite set_key_other; auto.
  - unfold removeAttribute. destruct (key_eqb k0 k) eqn:E.
    + apply key_eqb_eq in E. subst k0. destruct (attributes a k) eqn:F; auto.
      destruct (constAttributes a k); cbn [attributes]; apply set_key_same.
    + assert (k0 <> k) by (intros ->; rewrite key_eqb_refl in E; discriminate).
      destruct (attributes a k0); auto. destruct (constAttributes a k0); cbn [attributes]; rewrite set_key_other; auto.
Qed.

Lemma op_value_none : forall o, op_value o = None -> o = Remove (op_key o).
Proof. intros [k v|k v|k] H; cbn in *; congruence. Qed.

Lemma app_snoc_cases : forall (A : Type) (b a l : list A) o x,
  b ++ o :: a = l ++ [x] -> (a = [] /\ b = l /\ o = x) \/ (exists a', a = a' ++ [x] /\ l = b ++ o :: a').
Proof.
  intros A b a l o x H. destruct a as [|y a' _] using rev_ind.
  - left. apply app_inj_tail in H. destruct H; subst; auto.
  - right. exists a'. rewrite app_comm_cons, app_assoc in H. apply app_inj_tail in H. destruct H; subst; auto.
Qed.

Lemma attr_none : forall ops k, attributes (run ops) k = None <-> unset ops k.
Proof.
  induction ops as [|o ops IH] using rev_ind; intros k.
  - split; auto. intros _. exists [], []. auto.
  - rewrite run_snoc, do_op_attr. split.
    + intros H. destruct (key_eqb (op_key o) k) eqn:E.
      * apply key_eqb_eq in E. destruct (op_value o) as [v|] eqn:O; [destruct (attributes (run ops) k); discriminate|].
        exists (ops ++ [o]), []. rewrite app_nil_r. split; auto. split; auto. right. exists ops.
        apply op_value_none in O. rewrite O, E. auto.
      * apply IH in H. destruct H as (b1 & b2 & -> & Hb & Hf). exists b1, (b2 ++ [o]). rewrite app_assoc. split; auto.
        split; auto. apply Forall_app. split; auto. constructor; auto. intros D. rewrite D, key_eqb_refl in E. discriminate.
    + intros (b1 & b2 & E & Hb & Hf). destruct b2 as [|y b2 _] using rev_ind.
      * rewrite app_nil_r in E. subst b1. destruct Hb as [Hb|(b0 & Hb)]; [destruct ops; discriminate|].
        apply app_inj_tail in Hb. destruct Hb as [_ ->]. cbn [op_key op_value]. rewrite key_eqb_refl. auto.
      * rewrite app_assoc in E. apply app_inj_tail in E. destruct E as [-> ->]. apply Forall_app in Hf. destruct Hf as [Hf Hy].
        inversion Hy. subst. rewrite key_eqb_neq by auto. apply IH. exists b1, b2. auto.
Qed.

(** [holds] describes exactly the stored values. *)
Lemma holds_iff : forall ops k v, holds ops k v <-> attributes (run ops) k = Some v.
Proof.
  induction ops as [|o ops IH] using rev_ind; intros k v.
  - split; [intros H|discriminate]. destruct H as (b & o & a & E & _). destruct b; discriminate.
  - rewrite run_snoc, do_op_attr. split.
    + intros (before & o' & after & E & K & Hv & Hn & Hr).
      symmetry in E; apply app_snoc_cases in E. destruct E as [(-> & -> & ->)|(a' & -> & ->)].
      * rewrite K, key_eqb_refl, Hv. apply attr_none in Hn. rewrite Hn. auto.
      * assert (A : attributes (run (before ++ o' :: a')) k = Some v).
        { apply IH. exists before, o', a'. split; auto. split; auto. split; auto. split; auto.
          intros I. apply Hr. apply in_or_app. auto. }
        destruct (key_eqb (op_key o) k) eqn:E; auto. apply key_eqb_eq in E. rewrite A.
        destruct (op_value o) eqn:O; auto. apply op_value_none in O. exfalso. apply Hr. apply in_or_app. right.
        left. rewrite O. congruence.
    + intros H.
      assert (EXT : attributes (run ops) k = Some v -> o <> Remove k -> holds (ops ++ [o]) k v).
      { intros F NR. apply IH in F. destruct F as (before & o' & after & -> & K & Hv & Hn & Hr).
        exists before, o', (after ++ [o]). split; [rewrite <- app_assoc; auto|]. split; auto. split; auto. split; auto.
        intros I. apply in_app_or in I. destruct I as [I|[I|[]]]; auto. }
      destruct (key_eqb (op_key o) k) eqn:E.
      * apply key_eqb_eq in E. destruct (op_value o) as [v0|] eqn:O; [|discriminate].
        destruct (attributes (run ops) k) as [x|] eqn:F.
        -- inversion H; subst x. apply EXT; auto. intros ->. discriminate.
        -- inversion H; subst v0. exists ops, o, []. split; auto. split; auto. split; auto. split; auto. apply attr_none; auto.
      * apply EXT; auto. intros ->. cbn [op_key] in E. rewrite key_eqb_refl in E. discriminate.
Qed.

(** ** Theorems *)

(** C41: the value of an attribute is the first one added since the attribute
    last had no value; a removed attribute has none. *)
Theorem C41_first_write_wins : forall ops k t,
  getValue (run ops) k = Some t <-> exists v, holds ops k v /\ text v = t.
Proof.
  intros. unfold getValue. split.
  - destruct (attributes (run ops) k) as [v|] eqn:E; [|discriminate]. intros H. inversion H. exists v. split; auto.
    apply holds_iff; auto.
  - intros (v & H & <-). apply holds_iff in H. rewrite H. auto.
Qed.
Print Assumptions C41_first_write_wins.
Definition ex_ops := [Add CLASS (mkValue 1 (wstr "nimisana")); AddConst CLASS (mkValue 2 (wstr "teonsana"));
                      Add BASEFORM (mkValue 3 (wstr "koira")); Remove BASEFORM; Add BASEFORM (mkValue 4 (wstr "kissa"));
                      AddConst MOOD (mkValue 5 (wstr "indicative")); Remove MOOD].
Example C41_first_write_wins_ex :
  getValue (run ex_ops) CLASS = Some (wstr "nimisana") /\ getValue (run ex_ops) BASEFORM = Some (wstr "kissa") /\
  getValue (run ex_ops) MOOD = None /\ getValue (run ex_ops) FOCUS = None.
Proof. repeat split. Qed.

Lemma find_name : forall s k, string_find STRING_TO_KEY s = Some k <-> has_name k s.
Proof.
  intros s k. unfold has_name. split.
  - unfold STRING_TO_KEY. cbn [string_find].
    repeat match goal with |- context [String.eqb ?n s] => destruct (String.eqb n s) eqn:?E end;
    intros H; inversion H; match goal with H : String.eqb _ _ = true |- _ => apply String.eqb_eq in H; subst s end; reflexivity.
  - destruct k; cbn; intros H; inversion H; reflexivity.
Qed.

(** C41: looking an attribute up by its name gives its value; a name that is
    not an attribute name has no value. *)
Theorem C41_lookup_by_name : forall a s,
  (forall k, has_name k s -> getValueS a s = getValue a k) /\
  ((forall k, ~ has_name k s) -> getValueS a s = None).
Proof.
  intros a s. unfold getValueS. split.
  - intros k H. apply find_name in H. rewrite H. auto.
  - intros H. destruct (string_find STRING_TO_KEY s) as [k|] eqn:E; auto. apply find_name in E. elim (H _ E).
Qed.
Print Assumptions C41_lookup_by_name.
Example C41_lookup_by_name_ex : getValueS (run ex_ops) "CLASS" = Some (wstr "nimisana") /\ getValueS (run ex_ops) "class" = None.
Proof. split; reflexivity. Qed.

Lemma key_names_ok : forall ks, exists l, key_names ks = Ok l /\ Forall2 has_name ks l.
Proof.
  induction ks as [|k r (l & E & F)]; [exists []; split; auto|].
  cbn [key_names]. assert (exists s, nth_error KEY_TO_STRING (key_int k) = Some s) as (s & Hs) by (destruct k; cbn; eauto).
  exists (s :: l). unfold rd. rewrite Hs. cbn [bind]. rewrite E. split; auto.
Qed.

Lemma has_name_inj : forall k k' s, has_name k s -> has_name k' s -> k = k'.
Proof. intros k k' s H1 H2. apply find_name in H1. apply find_name in H2. congruence. Qed.

Inductive increasing : list Key -> Prop :=
| inc_nil : increasing []
| inc_cons : forall k l, Forall (fun k' => (key_int k < key_int k')%nat) l -> increasing l -> increasing (k :: l).

Lemma increasing_filter : forall f l, increasing l -> increasing (filter f l).
Proof.
  induction l as [|k l IH]; intros H; [constructor|]. inversion H. subst. cbn [filter]. destruct (f k); auto.
  constructor; auto. apply Forall_forall. intros x I. apply filter_In in I. destruct I as [I _].
  rewrite Forall_forall in H2. auto.
Qed.

Lemma increasing_all : increasing all_keys.
Proof. unfold all_keys. repeat (constructor; [repeat constructor|]). constructor. Qed.

Lemma names_sorted : forall ks l, increasing ks -> Forall2 has_name ks l -> sorted_by_position l.
Proof.
  induction ks as [|k ks IH]; intros l I F; inversion F as [|k' s ks' l' Hk HF]; subst; [constructor|].
  inversion I as [|k1 l1 HA HB]. subst. constructor; auto. intros s' H.
  destruct (In_nth_error _ _ H) as (i & Hi).
  assert (exists k', In k' ks /\ has_name k' s') as (k' & Ik & Hk').
  { clear - HF H. induction HF; [destruct H|]. destruct H as [->|H]; [exists x; split; auto; left; auto|].
    destruct (IHHF H) as (k' & A & B). exists k'. split; auto. right; auto. }
  rewrite Forall_forall in HA. exists (key_int k), (key_int k'). split; auto.
Qed.

(** C41: the listed attribute names are exactly those that have a value, each
    once, in the fixed order. *)
Theorem C41_key_list : forall ops, exists a l,
  seal (run ops) = Ok a /\ getKeys a = Some l /\
  (forall s, In s l <-> getValueS a s <> None) /\
  NoDup l /\ sorted_by_position l /\ (forall k, getValue a k = getValue (run ops) k).
Proof.
  intros ops. unfold seal. destruct (key_names_ok (present_keys (run ops))) as (l & E & F). rewrite E. cbn [bind].
  eexists. exists l. split; [reflexivity|]. split; [reflexivity|].
  assert (PK : forall k, In k (present_keys (run ops)) <-> getValue (run ops) k <> None).
  { intros k. unfold present_keys, getValue. rewrite filter_In. split.
    - intros [_ H]. destruct (attributes (run ops) k); congruence.
    - intros H. split; [apply all_keys_complete|]. destruct (attributes (run ops) k); congruence. }
  assert (INC : increasing (present_keys (run ops))) by (apply increasing_filter, increasing_all).
  split; [|split; [|split; [eapply names_sorted; eauto|reflexivity]]].
  - intros s. split.
    + intros H. assert (exists k, In k (present_keys (run ops)) /\ has_name k s) as (k & Ik & Hk).
      { clear - F H. induction F; [destruct H|]. destruct H as [->|H]; [exists x; split; auto; left; auto|].
        destruct (IHF H) as (k & A & B). exists k. split; auto. right; auto. }
      unfold getValueS. apply find_name in Hk. rewrite Hk. apply PK in Ik. exact Ik.
    + unfold getValueS. destruct (string_find STRING_TO_KEY s) as [k|] eqn:K; [|congruence]. intros H.
      apply find_name in K. assert (In k (present_keys (run ops))) as Ik by (apply PK; exact H).
      clear - F Ik K. induction F as [|x y l l' Hx F IH]; [destruct Ik|]. destruct Ik as [->|Ik]; [|right; auto].
      left. unfold has_name in *. congruence.
  - clear - F INC. induction F as [|x y l l' Hx F IH]; constructor.
    + intros H. inversion INC as [|k1 l1 HA HB]. subst. assert (exists k, In k l /\ has_name k y) as (k & Ik & Hk).
      { clear - F H. induction F; [destruct H|]. destruct H as [->|H]; [exists x; split; auto; left; auto|].
        destruct (IHF H) as (k & A & B). exists k. split; auto. right; auto. }
      rewrite Forall_forall in HA. apply HA in Ik. assert (k = x) by (eapply has_name_inj; eauto). subst. lia.
    + inversion INC. auto.
Qed.
Print Assumptions C41_key_list.
Example C41_key_list_ex : bind (seal (run ex_ops)) (fun a => Ok (getKeys a)) = Ok (Some ["BASEFORM"; "CLASS"]%string).
Proof. reflexivity. Qed.

(** ** Ownership *)

Definition ok_state (ops : list op) (a : analysis_object) : Prop :=
  (forall k v, attributes a k = Some v ->
     In (address v) (given ops) \/ (In (address v) (lent ops) /\ constAttributes a k = true)) /\
  (forall x, In x (freed a) -> In x (given ops)).

Lemma given_app : forall a b, given (a ++ b) = given a ++ given b.
Proof. intros. unfold given. apply flat_map_app. Qed.
Lemma lent_app : forall a b, lent (a ++ b) = lent a ++ lent b.
Proof. intros. unfold lent. apply flat_map_app. Qed.

Lemma ok_run : forall ops, ok_state ops (run ops).
Proof.
  induction ops as [|o ops IH] using rev_ind; [split; [discriminate|intros x []]|].
  rewrite run_snoc. destruct IH as [A B]. unfold ok_state. rewrite given_app, lent_app.
  assert (LIFT : forall k v, attributes (run ops) k = Some v ->
            In (address v) (given ops ++ given [o]) \/ (In (address v) (lent ops ++ lent [o]) /\ constAttributes (run ops) k = true)).
  { intros k v H. apply A in H. destruct H as [H|[H C]]; [left|right; split; auto]; apply in_or_app; auto. }
  split.
  - intros k v H. rewrite do_op_attr in H. destruct (key_eqb (op_key o) k) eqn:E.
    + apply key_eqb_eq in E. destruct o as [k0 w|k0 w|k0]; cbn [op_key op_value] in *; subst k0; [| |discriminate].
      * destruct (attributes (run ops) k) eqn:F.
        -- inversion H; subst. apply LIFT in F. exact F.
        -- inversion H; subst. left. apply in_or_app. right. cbn. auto.
      * cbn [do_op]. unfold addConstAttribute. cbn [constAttributes]. rewrite set_key_same.
        destruct (attributes (run ops) k) eqn:F.
        -- inversion H; subst. apply LIFT in F. destruct F as [F|[F _]]; auto.
        -- inversion H; subst. right. split; auto. apply in_or_app. right. cbn. auto.
    + assert (op_key o <> k) by (intros <-; rewrite key_eqb_refl in E; discriminate).
      apply LIFT in H. destruct H as [H|[H C]]; auto. right. split; auto.
      destruct o as [k0 w|k0 w|k0]; cbn [do_op op_key] in *.
      * exact C.
      * unfold addConstAttribute; cbn [constAttributes]; rewrite set_key_other; auto.
      * unfold removeAttribute. destruct (attributes (run ops) k0); auto.
        destruct (constAttributes (run ops) k0); cbn [constAttributes]; auto. rewrite set_key_other; auto.
  - intros x H. apply in_or_app. destruct o as [k0 w|k0 w|k0]; cbn [do_op] in H.
    + left. auto.
    + left. auto.
    + unfold removeAttribute in H. destruct (attributes (run ops) k0) as [v|] eqn:F; auto.
      destruct (constAttributes (run ops) k0) eqn:C; cbn [freed] in H; auto.
      apply in_app_or in H. destruct H as [H|[<-|[]]]; auto. apply A in F. destruct F as [F|[_ F]]; auto. congruence.
Qed.

(** C41: a lent value is never freed: whatever is freed over the object's life
    was handed over. *)
Theorem C41_lent_values_kept : forall ops x, In x (destroy (run ops)) -> In x (given ops).
Proof.
  intros ops x H. destruct (ok_run ops) as [A B]. unfold destroy in H. apply in_app_or in H. destruct H as [H|H]; auto.
  apply in_flat_map in H. destruct H as (k & _ & H). destruct (attributes (run ops) k) as [v|] eqn:F; [|destruct H].
  destruct (constAttributes (run ops) k) eqn:C; [destruct H|]. destruct H as [<-|[]].
  apply A in F. destruct F as [F|[_ F]]; auto. congruence.
Qed.
Print Assumptions C41_lent_values_kept.

(** Counting. *)
Notation occ x l := (count_occ Nat.eq_dec l x).

Definition live_owned (a : analysis_object) (ks : list Key) : list nat :=
  flat_map (fun k => match attributes a k with
                     | Some v => if constAttributes a k then [] else [address v]
                     | None => [] end) ks.

Lemma occ_app : forall x a b, occ x (a ++ b) = (occ x a + occ x b)%nat.
Proof. intros. apply count_occ_app. Qed.

Lemma flat_map_ext_in : forall A B (f g : A -> list B) l, (forall x, In x l -> f x = g x) -> flat_map f l = flat_map g l.
Proof. induction l; intros H; cbn; auto. rewrite (H a) by (left; auto). rewrite IHl; auto. intros; apply H; right; auto. Qed.

(** Changing one key changes the count by that key's contribution. *)
Lemma live_change : forall a b k x ks, NoDup ks -> In k ks ->
  (forall k', k' <> k -> attributes a k' = attributes b k' /\ constAttributes a k' = constAttributes b k') ->
  (occ x (live_owned a ks) + occ x (live_owned b [k]) = occ x (live_owned b ks) + occ x (live_owned a [k]))%nat.
Proof.
  intros a b k x ks ND I H. induction ND as [|k0 ks N ND IH]; [destruct I|].
  change (live_owned a (k0 :: ks)) with (live_owned a ([k0] ++ ks)). change (live_owned b (k0 :: ks)) with (live_owned b ([k0] ++ ks)).
  assert (AP : forall c, live_owned c ([k0] ++ ks) = live_owned c [k0] ++ live_owned c ks) by (intros; unfold live_owned; apply flat_map_app).
  rewrite !AP, !occ_app. destruct (key_dec k0 k) as [->|D].
  - assert (live_owned a ks = live_owned b ks) as ->.
    { apply flat_map_ext_in. intros y Iy. destruct (H y) as [-> ->]; auto. intros ->. contradiction. }
    lia.
  - destruct I as [I|I]; [contradiction|]. specialize (IH I).
    assert (live_owned a [k0] = live_owned b [k0]) as -> by (cbn; destruct (H k0 D) as [-> ->]; auto). lia.
Qed.

Lemma destroy_live : forall a, destroy a = freed a ++ live_owned a all_keys.
Proof. reflexivity. Qed.

(** C41: no value is freed more often than it was handed over: no double free as
    long as the caller hands each array over once. *)
Lemma freed_bound : forall ops x, (occ x (destroy (run ops)) <= occ x (given ops))%nat.
Proof.
  induction ops as [|o ops IH] using rev_ind; intros x; [cbn; lia|].
  rewrite run_snoc, given_app, occ_app. specialize (IH x). rewrite destroy_live, occ_app in *. set (a := run ops) in *.
  assert (FR : forall k', k' <> op_key o -> attributes (do_op a o) k' = attributes a k' /\ constAttributes (do_op a o) k' = constAttributes a k').
  { intros k' D. split; [rewrite do_op_attr, key_eqb_neq; auto|].
    destruct o as [k0 w|k0 w|k0]; cbn [do_op op_key] in *; auto.
    - unfold addConstAttribute. cbn [constAttributes]. apply set_key_other. auto.
    - unfold removeAttribute. destruct (attributes a k0); auto. destruct (constAttributes a k0) eqn:C; cbn [constAttributes]; auto.
      apply set_key_other; auto. }
  pose proof (live_change (do_op a o) a (op_key o) x all_keys all_keys_nodup (all_keys_complete _) FR) as L.
  assert (occ x (freed (do_op a o)) + occ x (live_owned (do_op a o) [op_key o]) <=
          occ x (freed a) + occ x (live_owned a [op_key o]) + occ x (given [o]))%nat as K; [|lia].
  clear L FR IH. unfold live_owned. cbn [flat_map]. rewrite !app_nil_r. rewrite do_op_attr, key_eqb_refl.
  destruct o as [k0 w|k0 w|k0]; cbn [do_op op_key op_value given flat_map app].
  - unfold addAttribute. cbn [freed constAttributes]. destruct (attributes a k0) eqn:F; [lia|].
    destruct (constAttributes a k0); cbn [count_occ]; lia.
  - unfold addConstAttribute. cbn [freed constAttributes]. rewrite set_key_same.
    destruct (attributes a k0) eqn:F; cbn [count_occ]; lia.
  - unfold removeAttribute. destruct (attributes a k0) eqn:F; [|cbn; lia].
    destruct (constAttributes a k0) eqn:C; cbn [freed]; [cbn; lia|]. rewrite occ_app. cbn [count_occ]. lia.
Qed.

Theorem C41_no_double_free : forall ops, NoDup (given ops) -> NoDup (destroy (run ops)).
Proof.
  intros ops H. rewrite (NoDup_count_occ Nat.eq_dec) in *. intros x. pose proof (freed_bound ops x). specialize (H x). lia.
Qed.
Print Assumptions C41_no_double_free.
Example C41_no_double_free_ex : NoDup (given ex_ops) /\ destroy (run ex_ops) = [3; 4]%nat.
Proof. split; [|reflexivity]. cbn. repeat (constructor; [cbn; intuition discriminate|]). constructor. Qed.

(** C41 (nothing leaked) is false: handing over a value for an attribute that
    already has one leaks it, and lending one leaks the value handed over before. *)
Theorem C41_no_leak_refuted : ~ (forall ops x, In x (given ops) -> In x (destroy (run ops))).
Proof.
  intros H. specialize (H [Add CLASS (mkValue 1 []); Add CLASS (mkValue 2 [])] 2%nat).
  vm_compute in H. destruct H as [H|[]]; auto. discriminate.
Qed.
Print Assumptions C41_no_leak_refuted.

(** [fresh_keys ops]: an attribute is only added while it has no value. *)
Definition fresh_keys (ops : list op) : Prop :=
  forall before o after v, ops = before ++ o :: after -> op_value o = Some v -> unset before (op_key o).

Definition tidy (a : analysis_object) : Prop := forall k, attributes a k = None -> constAttributes a k = false.

Lemma tidy_run : forall ops, tidy (run ops).
Proof.
  induction ops as [|o ops IH] using rev_ind; [intros k _; reflexivity|].
  rewrite run_snoc. intros k H. rewrite do_op_attr in H. destruct o as [k0 w|k0 w|k0]; cbn [do_op op_key op_value] in *.
  - destruct (key_eqb k0 k) eqn:E.
    + destruct (attributes (run ops) k); discriminate.
    + cbn. auto.
  - destruct (key_eqb k0 k) eqn:E.
    + destruct (attributes (run ops) k); discriminate.
    + cbn. unfold set_key. rewrite E. auto.
  - unfold removeAttribute. destruct (key_eqb k0 k) eqn:E.
    + apply key_eqb_eq in E. subst k0. destruct (attributes (run ops) k) eqn:F; [|auto].
      destruct (constAttributes (run ops) k) eqn:C; cbn [constAttributes]; auto. apply set_key_same.
    + assert (k0 <> k) by (intros ->; rewrite key_eqb_refl in E; discriminate).
      destruct (attributes (run ops) k0); auto. destruct (constAttributes (run ops) k0) eqn:C; cbn [constAttributes]; auto.
      rewrite set_key_other; auto.
Qed.

(** C41: if attributes are only added while they have no value, everything
    handed over is freed exactly as often as it was handed over. *)
Theorem C41_no_leak_partial : forall ops, fresh_keys ops ->
  forall x, count_occ Nat.eq_dec (destroy (run ops)) x = count_occ Nat.eq_dec (given ops) x.
Proof.
  induction ops as [|o ops IH] using rev_ind; intros FK x; [reflexivity|].
  assert (FK' : fresh_keys ops).
  { intros before o' after v E V. apply (FK before o' (after ++ [o]) v); auto. rewrite E, <- app_assoc. reflexivity. }
  specialize (IH FK' x). rewrite run_snoc, given_app, occ_app. rewrite destroy_live, occ_app in *. set (a := run ops) in *.
  assert (FR : forall k', k' <> op_key o -> attributes (do_op a o) k' = attributes a k' /\ constAttributes (do_op a o) k' = constAttributes a k').
  { intros k' D. split; [rewrite do_op_attr, key_eqb_neq; auto|].
    destruct o as [k0 w|k0 w|k0]; cbn [do_op op_key] in *; auto.
    - unfold addConstAttribute. cbn [constAttributes]. apply set_key_other. auto.
    - unfold removeAttribute. destruct (attributes a k0); auto. destruct (constAttributes a k0) eqn:C; cbn [constAttributes]; auto.
      apply set_key_other; auto. }
  pose proof (live_change (do_op a o) a (op_key o) x all_keys all_keys_nodup (all_keys_complete _) FR) as L.
  assert (occ x (freed (do_op a o)) + occ x (live_owned (do_op a o) [op_key o]) =
          occ x (freed a) + occ x (live_owned a [op_key o]) + occ x (given [o]))%nat as K; [|lia].
  assert (FO : forall v, op_value o = Some v -> attributes a (op_key o) = None).
  { intros v V. apply attr_none. exact (FK ops o [] v eq_refl V). }
  assert (TD : attributes a (op_key o) = None -> constAttributes a (op_key o) = false) by (apply (tidy_run ops)).
  clear L FR IH FK FK'. unfold live_owned. cbn [flat_map]. rewrite !app_nil_r. rewrite do_op_attr, key_eqb_refl.
  destruct o as [k0 w|k0 w|k0]; cbn [do_op op_key op_value given flat_map app] in *.
  - rewrite (FO w eq_refl). unfold addAttribute. cbn [freed constAttributes]. rewrite TD by eauto. cbn [count_occ]. lia.
  - rewrite (FO w eq_refl). unfold addConstAttribute. cbn [freed constAttributes]. rewrite set_key_same. cbn [count_occ]. lia.
  - unfold removeAttribute. destruct (attributes a k0) eqn:F; [|cbn; lia].
    destruct (constAttributes a k0) eqn:C; cbn [freed]; [cbn; lia|]. rewrite occ_app. cbn [count_occ]. lia.
Qed.
Print Assumptions C41_no_leak_partial.
Example C41_no_leak_partial_ex :
  destroy (run [Add CLASS (mkValue 1 []); AddConst MOOD (mkValue 2 []); Remove CLASS; Add CLASS (mkValue 3 [])]) = [1; 3]%nat.
Proof. reflexivity. Qed.

(** The view used by the models of the analysers agrees with the object. *)
Lemma view_ops : forall ops k,
  getValue (run ops) k =
  fold_left (fun a o => match o with Add k v | AddConst k v => add a k (text v) | Remove k => remove a k end) ops no_attributes k.
Proof.
  induction ops as [|o ops IH] using rev_ind; intros k; [reflexivity|].
  rewrite run_snoc, fold_left_app. cbn [fold_left]. unfold getValue. rewrite do_op_attr.
  set (f := fold_left _ _ _) in *. assert (IH' : forall k, f k = match attributes (run ops) k with Some v => Some (text v) | None => None end)
    by (intros k1; rewrite <- (IH k1); reflexivity). clear IH.
  destruct o as [k0 w|k0 w|k0]; cbn [op_key op_value]; unfold add, remove.
  1,2: rewrite (IH' k0); destruct (key_eqb k0 k) eqn:E;
    [apply key_eqb_eq in E; subst k0; destruct (attributes (run ops) k) eqn:F; [rewrite IH', F; auto|rewrite set_key_same; auto]
    |assert (k0 <> k) by (intros ->; rewrite key_eqb_refl in E; discriminate);
     destruct (attributes (run ops) k0); [rewrite IH'; auto|rewrite set_key_other, IH' by auto; auto]].
  rewrite (IH' k0). destruct (key_eqb k0 k) eqn:E.
  - apply key_eqb_eq in E. subst k0. destruct (attributes (run ops) k) eqn:F; [rewrite set_key_same; auto|rewrite IH', F; auto].
  - assert (k0 <> k) by (intros ->; rewrite key_eqb_refl in E; discriminate).
    destruct (attributes (run ops) k0); [rewrite set_key_other, IH' by auto; auto|rewrite IH'; auto].
Qed.
