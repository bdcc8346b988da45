(** * The table of transitions that the dictionary compiler wrote. *)
From Verif Require Import Base BaseFacts FstModel FstSpec FstFileModel FstFileProofs CompilerReading.

Lemma Forall2_length : forall A B (R : A -> B -> Prop) l m, Forall2 R l m -> length l = length m.
Proof. intros A B R l m F. induction F; cbn; auto. Qed.

Lemma some_inj : forall A (a b : A), Some a = Some b -> a = b.
Proof. congruence. Qed.

Lemma bytes_cells_cell : forall c r, cell_ok c -> bytes_cells (cell_bytes c ++ r) = c :: bytes_cells r.
Proof.
  intros [a b t m] r (A & B & C & D). unfold FstFileProofs.byte in *. cbn [symIn symOut targetState moreTransitions] in *.
  unfold cell_bytes, le16, le32. cbn [symIn symOut targetState moreTransitions app bytes_cells]. f_equal. unfold bytes_cell. f_equal.
  - rewrite of_le16_bytes. apply Z.mod_small. lia.
  - rewrite of_le16_bytes. apply Z.mod_small. lia.
  - rewrite of_le32_bytes. rewrite (Z.mod_small t) by lia. rewrite (Z.mod_small m) by lia. rewrite (Z.mod_small (t + 16777216 * m)) by lia. Z.div_mod_to_equations; lia.
  - rewrite of_le32_bytes. rewrite (Z.mod_small t) by lia. rewrite (Z.mod_small m) by lia. rewrite (Z.mod_small (t + 16777216 * m)) by lia. Z.div_mod_to_equations; lia.
Qed.

Definition overflow_cell (n : Z) : cell := mk_cell (n mod 65536) (n / 65536) 0 0.
Lemma bytes_cells_overflow : forall n r, 0 <= n < 2 ^ 32 -> bytes_cells (write_overflow false n ++ r) = overflow_cell n :: bytes_cells r.
Proof.
  intros n r B. unfold write_overflow, le32. cbn [app bytes_cells]. f_equal. unfold bytes_cell, overflow_cell. f_equal.
  - apply of_le16_bytes.
  - unfold of_le16. Z.div_mod_to_equations; lia.
Qed.

(** The cells of a state. *)
Definition state_layout (offsets : list nat) (ts : list atrans) (cells : list cell) : Prop :=
  let n := Z.of_nat (length ts) in
  exists t rest c oc cs, sort_transitions ts = t :: rest /\
    to_cell offsets (if 255 <? n then 255 else n - 1) t = Some c /\ overflow oc = n - 1 /\
    Forall2 (fun a d => to_cell offsets 0 a = Some d) rest cs /\
    cells = c :: (if 255 <? n then [oc] else []) ++ cs.

(** The place of the transition [k], in the order of the file, in a state. *)
Definition place (big : bool) (k : nat) : nat :=
  match k with O => 0 | S j => S j + (if big then 1 else 0) end.

Lemma state_layout_length : forall offsets ts cells, state_layout offsets ts cells -> length cells = state_size ts.
Proof.
  intros offsets ts cells (t & rest & c & oc & cs & S & _ & _ & F & ->). apply Forall2_length in F. pose proof (sort_length ts) as L. rewrite S in L. cbn [length] in L.
  unfold state_size. cbn [length]. rewrite app_length. destruct (Z.ltb_spec 255 (Z.of_nat (length ts))), (Nat.leb_spec (length ts) 255); cbn [length]; lia.
Qed.

Lemma write_cells : forall offsets l bytes, write_all (fun t => option_map (write_cell false) (to_cell offsets 0 t)) l = Some bytes ->
  exists cs, Forall2 (fun a d => to_cell offsets 0 a = Some d) l cs /\ forall r, bytes_cells (bytes ++ r) = cs ++ bytes_cells r.
Proof.
  induction l as [|t l IH]; intros bytes E; cbn [write_all] in E.
  - apply some_inj in E. subst bytes. exists []. split; [constructor|reflexivity].
  - destruct (to_cell offsets 0 t) as [c|] eqn:C; [|discriminate]. cbn [option_map] in E.
    destruct (write_all _ l) as [b|]; [|discriminate]. apply some_inj in E. subst bytes. destruct (IH b eq_refl) as (cs & F & G). exists (c :: cs). split; [constructor; auto|].
    intros r. unfold write_cell. rewrite <- app_assoc, bytes_cells_cell, G; [reflexivity|]. eapply to_cell_ok; [|exact C]. split; lia.
Qed.

Lemma write_state_cells : forall offsets ts bytes, Z.of_nat (length ts) <= 2 ^ 32 -> write_state false offsets ts = Some bytes ->
  exists cells, state_layout offsets ts cells /\ forall r, bytes_cells (bytes ++ r) = cells ++ bytes_cells r.
Proof.
  intros offsets ts bytes B E. unfold write_state in E. destruct (sort_transitions ts) as [|t rest] eqn:S; [discriminate|].
  pose proof (sort_length ts) as L. rewrite S in L. cbn [length] in L. cbv zeta in E.
  destruct (to_cell offsets _ t) as [c|] eqn:C; [|discriminate]. destruct (write_all _ rest) as [b|] eqn:W; [|discriminate]. apply some_inj in E. subst bytes.
  apply write_cells in W. destruct W as (cs & F & G).
  exists (c :: (if 255 <? Z.of_nat (length ts) then [overflow_cell (Z.of_nat (length ts) - 1)] else []) ++ cs). split.
  - exists t, rest, c, (overflow_cell (Z.of_nat (length ts) - 1)), cs. conjs; auto. unfold overflow, overflow_cell. cbn [symIn symOut]. Z.div_mod_to_equations; lia.
  - intros r. rewrite <- app_assoc. unfold write_cell at 1. rewrite bytes_cells_cell.
    + cbn [app]. f_equal. destruct (Z.ltb_spec 255 (Z.of_nat (length ts))).
      * rewrite <- app_assoc. rewrite bytes_cells_overflow by lia. rewrite G. reflexivity.
      * cbn [app]. apply G.
    + eapply to_cell_ok; [|exact C]. destruct (Z.ltb_spec 255 (Z.of_nat (length ts))); split; lia.
Qed.

Lemma write_states_cells : forall offsets states bytes, Forall (fun ts : list atrans => Z.of_nat (length ts) <= 2 ^ 32) states ->
  write_all (write_state false offsets) states = Some bytes ->
  exists cellss, Forall2 (state_layout offsets) states cellss /\ bytes_cells bytes = concat cellss.
Proof.
  intros offsets states. assert (forall bytes, Forall (fun ts : list atrans => Z.of_nat (length ts) <= 2 ^ 32) states ->
    write_all (write_state false offsets) states = Some bytes ->
    exists cellss, Forall2 (state_layout offsets) states cellss /\ forall r, bytes_cells (bytes ++ r) = concat cellss ++ bytes_cells r) as G.
  { induction states as [|ts states IH]; intros bytes F E; cbn [write_all] in E.
    - apply some_inj in E. subst bytes. exists []. split; [constructor|reflexivity].
    - inversion F; subst. destruct (write_state false offsets ts) as [a|] eqn:W; [|discriminate]. destruct (write_all _ states) as [b|]; [|discriminate]. apply some_inj in E. subst bytes.
      destruct (IH b) as (cellss & L & G); auto. apply write_state_cells in W; auto. destruct W as (cells & L1 & G1).
      exists (cells :: cellss). split; [constructor; auto|]. intros r. cbn [concat]. rewrite <- !app_assoc, G1, G. reflexivity. }
  intros bytes F E. destruct (G bytes F E) as (cellss & L & X). exists cellss. split; auto. specialize (X []). cbn [bytes_cells] in X. rewrite !app_nil_r in X. exact X.
Qed.

(** Where the cells of a state are. *)
Lemma state_place : forall offsets states cellss k o b, Forall2 (state_layout offsets) states cellss -> nth_error (state_offsets b states) k = Some o ->
  exists pre ts cells post, nth_error states k = Some ts /\ state_layout offsets ts cells /\ concat cellss = pre ++ cells ++ post /\ o = (b + length pre)%nat.
Proof.
  intros offsets states cellss k o b F. revert k b. induction F as [|ts cells states cellss L F IH]; intros k b E; [destruct k; discriminate|].
  cbn [state_offsets] in E. destruct k as [|k]; cbn [nth_error] in E.
  - injection E as <-. exists [], ts, cells, (concat cellss). conjs; auto; cbn; lia.
  - destruct (IH _ _ E) as (pre & ts' & cells' & post & A & B & C & D). exists (cells ++ pre), ts', cells', post. conjs; auto.
    + cbn [concat]. rewrite C, <- app_assoc. reflexivity.
    + rewrite app_length, (state_layout_length _ _ _ L). lia.
Qed.

Lemma state_offsets_length : forall states b, length (state_offsets b states) = length states.
Proof. induction states; intros b; cbn [state_offsets length]; auto. Qed.

Lemma state_size_small : forall ts, (256 * state_size ts <= 257 * length ts)%nat.
Proof. intros ts. unfold state_size. destruct (Nat.leb_spec (length ts) 255); lia. Qed.

Lemma table_size : forall offsets states cellss, Forall2 (state_layout offsets) states cellss -> (256 * length (concat cellss) <= 257 * length (concat states))%nat.
Proof.
  intros offsets states cellss F. induction F as [|ts cells states cellss L F IH]; cbn [concat]; [auto|]. rewrite !app_length, (state_layout_length _ _ _ L).
  pose proof (state_size_small ts). lia.
Qed.

(** The transitions of a state. *)
Lemma layout_transitions : forall T pre cells post offsets ts, transitions T = pre ++ cells ++ post -> state_layout offsets ts cells -> Z.of_nat (length ts) <= 2 ^ 32 ->
  let big := 255 <? Z.of_nat (length ts) in
  extent T (length pre) = Some ((length pre + length cells - 1)%nat, big) /\ (0 < length cells)%nat /\
  (forall i t, has_transition T (length pre) i t -> exists k a more, nth_error (sort_transitions ts) k = Some a /\ i = (length pre + place big k)%nat /\
     (place big k < length cells)%nat /\ to_cell offsets more a = Some t) /\
  (forall k a, nth_error (sort_transitions ts) k = Some a -> exists t more, has_transition T (length pre) (length pre + place big k) t /\ to_cell offsets more a = Some t).
Proof.
  intros T pre cells post offsets ts ET LAY B. pose proof (state_layout_length _ _ _ LAY) as LL. destruct LAY as (t & rest & c & oc & cs & SO & C & OC & F & EC).
  pose proof (sort_length ts) as L. rewrite SO in *. cbn [length] in L. pose proof (Forall2_length _ _ _ _ _ F) as LF.
  set (n := Z.of_nat (length ts)) in *. cbv zeta.
  assert (forall j, (j < length cells)%nat -> nth_error (transitions T) (length pre + j) = nth_error cells j) as NTH.
  { intros j J. rewrite ET, nth_error_app2 by lia. rewrite nth_error_app1 by lia. f_equal. lia. }
  assert (length cells = (S (length cs) + if (255 <? n)%Z then 1 else 0)%nat) as LC.
  { rewrite EC. cbn [length]. rewrite app_length. destruct (255 <? n); cbn [length]; lia. }
  assert (forall k, (k < length cs)%nat -> nth_error cells (place (255 <? n) (S k)) = nth_error cs k) as PL.
  { intros k K. rewrite EC. unfold place. destruct (255 <? n); cbn [app plus nth_error].
    - rewrite Nat.add_1_r. reflexivity.
    - rewrite Nat.add_0_r. reflexivity. }
  assert (forall k a d, nth_error rest k = Some a -> nth_error cs k = Some d -> to_cell offsets 0 a = Some d) as FF.
  { clear - F. induction F as [|x y rest cs XY F IH]; intros [|k] a d A D; try discriminate; cbn in *; [congruence|eauto]. }
  assert (extent T (length pre) = Some ((length pre + length cells - 1)%nat, 255 <? n)) as EX.
  { unfold extent. replace (nth_error (transitions T) (length pre)) with (Some c) by (rewrite <- (Nat.add_0_r (length pre)) at 1; rewrite NTH by lia; rewrite EC; reflexivity).
    assert (moreTransitions c = if 255 <? n then 255 else n - 1) as -> by (eapply to_cell_ok; [|exact C]; destruct (Z.ltb_spec 255 n); split; lia).
    destruct (255 <? n) eqn:BIG; [apply Z.ltb_lt in BIG|apply Z.ltb_ge in BIG].
    - change (255 =? 255) with true. cbv iota. rewrite NTH by lia. replace (nth_error cells 1) with (Some oc) by (rewrite EC; reflexivity). f_equal. f_equal. rewrite OC. lia.
    - destruct (Z.eqb_spec (n - 1) 255); [lia|]. f_equal. f_equal. lia. }
  conjs; auto; [lia| |].
  - intros i d (last & big & E & I & O & X). rewrite EX in E. injection E as <- <-.
    replace i with (length pre + (i - length pre))%nat in X by lia. rewrite NTH in X by lia.
    destruct (i - length pre)%nat as [|j] eqn:Q.
    + rewrite EC in X. cbn in X. injection X as <-. exists 0%nat, t. eexists. cbn [nth_error place]. conjs; eauto; lia.
    + assert (exists k, S j = place (255 <? n) (S k) /\ (k < length cs)%nat) as (k & K1 & K2).
      { unfold place. destruct (255 <? n) eqn:BIG; [|exists j; lia]. destruct j as [|j]; [elim (O eq_refl); lia|]. exists j. lia. }
      rewrite K1, PL in X by auto. destruct (nth_error rest k) as [a|] eqn:R; [|apply nth_error_None in R; lia].
      exists (S k), a, 0. cbn [nth_error]. conjs; eauto; [lia|]. unfold place. lia.
  - intros k a I. destruct k as [|k]; cbn [nth_error] in I.
    + injection I as <-. exists c. eexists. split; [|exact C]. do 2 eexists. split; [exact EX|]. split; [cbn [place]; lia|]. split; [cbn [place]; lia|].
      cbn [place]. rewrite NTH by lia. rewrite EC. reflexivity.
    + assert (k < length rest)%nat as KL by (apply nth_error_Some; congruence).
      destruct (nth_error cs k) as [d|] eqn:D; [|apply nth_error_None in D; lia].
      exists d, 0. split; [|eauto]. do 2 eexists. split; [exact EX|]. assert (place (255 <? n)%Z (S k) < length cells)%nat as PC by (rewrite LC; unfold place; destruct (255 <? n); lia).
      split; [lia|]. split; [intros Y; rewrite Y; unfold place; lia|]. rewrite NTH by auto. rewrite PL by lia. auto.
Qed.
