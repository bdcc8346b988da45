(** * Compiling a transducer with weights preserves its meaning. *)
From Coq Require Import Permutation Sorted.
From Verif Require Import Base BaseFacts Utf8Model Utf8Spec Utf8Proofs FstModel FstSpec FstFileModel FstFileProofs WfstModel WfstSpec
  CompilerModel CompilerSpec CompilerSymbols CompilerReading CompilerLoading CompilerTable CompilerProofs.

(** ** Cells with weights *)

Definition wcell_fits (c : wcell) : Prop := wcell_ok c /\ -32768 <= w_weight c < 32768.

Lemma int16_bytes : forall x, -32768 <= x < 32768 -> to_int16 (of_le16 (x mod 256) (x / 256 mod 256)) = x.
Proof. intros x B. rewrite of_le16_bytes. unfold to_int16. rewrite Z.mod_mod by lia. destruct (Z.ltb_spec (x mod 65536) 32768); Z.div_mod_to_equations; lia. Qed.

Lemma bytes_wcells_cell : forall c r, wcell_fits c -> bytes_wcells (wcell_bytes c ++ r) = c :: bytes_wcells r.
Proof.
  intros [a b t w m e] r ((A & B & C & D & F) & W). unfold FstFileProofs.byte in *. cbn [w_symIn w_symOut w_target w_weight w_more w_reserved] in *. subst e.
  unfold wcell_bytes, le16, le32. cbn [w_symIn w_symOut w_target w_weight w_more w_reserved app bytes_wcells]. f_equal. unfold bytes_wcell. f_equal.
  - rewrite of_le32_bytes. apply Z.mod_small. lia.
  - rewrite of_le32_bytes. apply Z.mod_small. lia.
  - rewrite of_le32_bytes. apply Z.mod_small. lia.
  - apply int16_bytes. lia.
  - apply Z.mod_small. lia.
Qed.

Definition woverflow_cell (n : Z) : wcell := mk_wcell n 0 0 0 0 0.
Lemma bytes_wcells_overflow : forall n r, 0 <= n < 2 ^ 32 -> bytes_wcells (write_woverflow false n ++ r) = woverflow_cell n :: bytes_wcells r.
Proof.
  intros n r B. unfold write_woverflow, le32. cbn [app bytes_wcells]. f_equal. unfold bytes_wcell, woverflow_cell. f_equal.
  rewrite of_le32_bytes. apply Z.mod_small. lia.
Qed.

(** The cells of a state. *)
Definition wstate_layout (offsets : list nat) (ts : list atrans) (cells : list wcell) : Prop :=
  let n := Z.of_nat (length ts) in
  exists t rest c cs, sort_transitions ts = t :: rest /\
    to_wcell offsets (if 255 <? n then 255 else n - 1) t = Some c /\
    Forall2 (fun a d => to_wcell offsets 0 a = Some d) rest cs /\
    cells = c :: (if 255 <? n then [woverflow_cell (n - 1)] else []) ++ cs.

Definition at_fits (a : atrans) : Prop :=
  (a_in a = 0xFFFFFFFF \/ 0 <= a_in a < FINAL) /\ 0 <= a_out a < 65536 /\ -32768 <= a_weight a < 32768.

Section CELLS.
Variable offsets : list nat.
Hypothesis OFF : Forall (fun o => Z.of_nat o < 2 ^ 32) offsets.

Lemma to_wcell_fits : forall more a c, 0 <= more < 256 -> at_fits a -> to_wcell offsets more a = Some c -> wcell_fits c.
Proof.
  intros more a c M (A & B & C) E. unfold to_wcell in E. destruct (nth_error offsets (a_state a)) as [o|] eqn:O; [|discriminate]. apply some_inj in E. subst c.
  rewrite Forall_forall in OFF. specialize (OFF o (nth_error_In _ _ O)). unfold FINAL in A.
  split; [|exact C]. unfold wcell_ok, FstFileProofs.byte. cbn [w_symIn w_symOut w_target w_weight w_more w_reserved]. conjs; lia.
Qed.

Lemma write_wcells : forall l bytes, Forall at_fits l -> write_all (fun t => option_map (write_wcell false) (to_wcell offsets 0 t)) l = Some bytes ->
  exists cs, Forall2 (fun a d => to_wcell offsets 0 a = Some d) l cs /\ forall r, bytes_wcells (bytes ++ r) = cs ++ bytes_wcells r.
Proof.
  induction l as [|t l IH]; intros bytes F E; cbn [write_all] in E.
  - apply some_inj in E. subst bytes. exists []. split; [constructor|reflexivity].
  - inversion F; subst. destruct (to_wcell offsets 0 t) as [c|] eqn:C; [|discriminate]. cbn [option_map] in E.
    destruct (write_all _ l) as [b|]; [|discriminate]. apply some_inj in E. subst bytes. destruct (IH b) as (cs & F2 & G); auto. exists (c :: cs). split; [constructor; auto|].
    intros r. unfold write_wcell. rewrite <- app_assoc, bytes_wcells_cell, G; [reflexivity|]. eapply to_wcell_fits; [|eassumption|exact C]. lia.
Qed.

Lemma write_wstate_cells : forall ts bytes, Z.of_nat (length ts) <= 2 ^ 32 -> Forall at_fits ts -> write_wstate false offsets ts = Some bytes ->
  exists cells, wstate_layout offsets ts cells /\ forall r, bytes_wcells (bytes ++ r) = cells ++ bytes_wcells r.
Proof.
  intros ts bytes B FA E. unfold write_wstate in E. destruct (sort_transitions ts) as [|t rest] eqn:S; [discriminate|].
  pose proof (sort_length ts) as L. rewrite S in L. cbn [length] in L. cbv zeta in E.
  assert (Forall at_fits (t :: rest)) as FS. { apply Forall_forall. intros a I. rewrite <- S in I. apply (proj1 (sort_in _ _)) in I. rewrite Forall_forall in FA. auto. }
  inversion FS; subst.
  destruct (to_wcell offsets _ t) as [c|] eqn:C; [|discriminate]. destruct (write_all _ rest) as [b|] eqn:W; [|discriminate]. apply some_inj in E. subst bytes.
  apply write_wcells in W; auto. destruct W as (cs & F & G).
  exists (c :: (if 255 <? Z.of_nat (length ts) then [woverflow_cell (Z.of_nat (length ts) - 1)] else []) ++ cs). split.
  - exists t, rest, c, cs. conjs; auto.
  - intros r. rewrite <- app_assoc. unfold write_wcell at 1. rewrite bytes_wcells_cell.
    + cbn [app]. f_equal. destruct (Z.ltb_spec 255 (Z.of_nat (length ts))).
      * rewrite <- app_assoc. rewrite bytes_wcells_overflow by lia. rewrite G. reflexivity.
      * cbn [app]. apply G.
    + eapply to_wcell_fits; [|eassumption|exact C]. destruct (Z.ltb_spec 255 (Z.of_nat (length ts))); lia.
Qed.

Lemma write_wstates_cells : forall states bytes, Forall (fun ts : list atrans => Z.of_nat (length ts) <= 2 ^ 32 /\ Forall at_fits ts) states ->
  write_all (write_wstate false offsets) states = Some bytes ->
  exists cellss, Forall2 (wstate_layout offsets) states cellss /\ bytes_wcells bytes = concat cellss.
Proof.
  intros states. assert (forall bytes, Forall (fun ts : list atrans => Z.of_nat (length ts) <= 2 ^ 32 /\ Forall at_fits ts) states ->
    write_all (write_wstate false offsets) states = Some bytes ->
    exists cellss, Forall2 (wstate_layout offsets) states cellss /\ forall r, bytes_wcells (bytes ++ r) = concat cellss ++ bytes_wcells r) as G.
  { induction states as [|ts states IH]; intros bytes F E; cbn [write_all] in E.
    - apply some_inj in E. subst bytes. exists []. split; [constructor|reflexivity].
    - inversion F as [|? ? [F1 F2] F3]; subst. destruct (write_wstate false offsets ts) as [a|] eqn:W; [|discriminate]. destruct (write_all _ states) as [b|]; [|discriminate]. apply some_inj in E. subst bytes.
      destruct (IH b) as (cellss & L & G); auto. apply write_wstate_cells in W; auto. destruct W as (cells & L1 & G1).
      exists (cells :: cellss). split; [constructor; auto|]. intros r. cbn [concat]. rewrite <- !app_assoc, G1, G. reflexivity. }
  intros bytes F E. destruct (G bytes F E) as (cellss & L & X). exists cellss. split; auto. specialize (X []). cbn [bytes_wcells] in X. rewrite !app_nil_r in X. exact X.
Qed.

(** Without the weights it is the layout of a table without weights. *)
Hypothesis OFF24 : Forall (fun o => Z.of_nat o < 2 ^ 24) offsets.

Lemma forget_cell : forall more a c, at_fits a -> to_wcell offsets more a = Some c -> to_cell offsets more a = Some (forget_weight c).
Proof.
  intros more a c (A & B & _) E. unfold to_wcell in E. unfold to_cell. destruct (nth_error offsets (a_state a)) as [o|] eqn:O; [|discriminate]. apply some_inj in E. subst c.
  rewrite Forall_forall in OFF24. specialize (OFF24 o (nth_error_In _ _ O)). unfold forget_weight. cbn [w_symIn w_symOut w_target w_more]. f_equal. f_equal.
  - unfold FINAL in *. destruct A as [->|A]; [reflexivity|]. destruct (Z.eqb_spec (a_in a) 0xFFFFFFFF); [lia|]. apply Z.mod_small. lia.
  - apply Z.mod_small. lia.
  - apply Z.mod_small. lia.
Qed.

Lemma wlayout_layout : forall ts cells, (0 < length ts)%nat -> Z.of_nat (length ts) <= 2 ^ 24 -> Forall at_fits ts -> wstate_layout offsets ts cells -> state_layout offsets ts (map forget_weight cells).
Proof.
  intros ts cells POS LEN FA (t & rest & c & cs & S & C & F & ->).
  assert (Forall at_fits (t :: rest)) as FS. { apply Forall_forall. intros a I. rewrite <- S in I. apply (proj1 (sort_in _ _)) in I. rewrite Forall_forall in FA. auto. }
  inversion FS as [|? ? F1 F2]; subst.
  exists t, rest, (forget_weight c), (forget_weight (woverflow_cell (Z.of_nat (length ts) - 1))), (map forget_weight cs). conjs; auto.
  - apply forget_cell; auto.
  - unfold forget_weight, overflow, woverflow_cell. cbn [w_symIn w_symOut symIn symOut]. destruct (Z.eqb_spec (Z.of_nat (length ts) - 1) 0xFFFFFFFF); [lia|]. lia.
  - clear - F F2 OFF24. induction F as [|x y rest cs XY F IH]; cbn [map]; [constructor|]. inversion F2; subst. constructor; [|auto]. apply forget_cell; auto.
  - cbn [map]. rewrite map_app. destruct (255 <? Z.of_nat (length ts)); reflexivity.
Qed.

Lemma wlayout_at : forall ts cells k a, wstate_layout offsets ts cells -> nth_error (sort_transitions ts) k = Some a ->
  exists c more, nth_error cells (place (255 <? Z.of_nat (length ts))%Z k) = Some c /\ to_wcell offsets more a = Some c.
Proof.
  intros ts cells k a (t & rest & c & cs & S & C & F & ->) E. rewrite S in E. destruct k as [|k]; cbn [nth_error place] in *.
  - injection E as <-. exists c. eexists. split; [reflexivity|exact C].
  - assert (exists d, nth_error cs k = Some d /\ to_wcell offsets 0 a = Some d) as (d & D1 & D2).
    { clear - F E. revert k E. induction F as [|x y rest cs XY F IH]; intros [|k] E; try discriminate; cbn in *; [injection E as <-; eauto|eauto]. }
    exists d, 0. split; auto. destruct (255 <? Z.of_nat (length ts)); cbn [app plus nth_error].
    + rewrite Nat.add_1_r. cbn [nth_error]. auto.
    + rewrite Nat.add_0_r. auto.
Qed.
Lemma wlayout_second : forall ts cells, wstate_layout offsets ts cells -> 255 < Z.of_nat (length ts) -> nth_error cells 1 = Some (woverflow_cell (Z.of_nat (length ts) - 1)).
Proof. intros ts cells (t & rest & c & cs & S & C & F & ->) B. destruct (Z.ltb_spec 255 (Z.of_nat (length ts))); [|lia]. reflexivity. Qed.
Lemma wlayout_length : forall ts cells, wstate_layout offsets ts cells -> length cells = state_size ts.
Proof.
  intros ts cells (t & rest & c & cs & S & _ & F & ->). apply Forall2_length in F. pose proof (sort_length ts) as L. rewrite S in L. cbn [length] in L.
  unfold state_size. cbn [length]. rewrite app_length. destruct (Z.ltb_spec 255 (Z.of_nat (length ts))), (Nat.leb_spec (length ts) 255); cbn [length]; lia.
Qed.
Lemma wlayout_rest : forall ts cells i c, wstate_layout offsets ts cells -> nth_error cells (S i) = Some c -> w_more c = 0.
Proof.
  intros ts cells i c (t & rest & h & cs & _ & _ & F & ->) E. cbn [nth_error] in E. apply nth_error_In in E. apply in_app_iff in E. destruct E as [E|E].
  - destruct (255 <? Z.of_nat (length ts)); [|contradiction]. destruct E as [<-|[]]. reflexivity.
  - clear - F E. induction F as [|x y rest cs XY F IH]; [contradiction|]. destruct E as [->|E]; auto.
    unfold to_wcell in XY. destruct (nth_error offsets (a_state x)); [|discriminate]. apply some_inj in XY. subst c. reflexivity.
Qed.
Lemma wlayout_heads : forall l cl, Forall2 (wstate_layout offsets) l cl -> forall b i c, nth_error (concat cl) i = Some c ->
  (exists q, nth_error (state_offsets b l) q = Some (b + i)%nat) \/ w_more c = 0.
Proof.
  intros l cl F. induction F as [|ts cells l cl L F IH]; intros b i c E; [destruct i; discriminate|]. cbn [concat] in E. pose proof (wlayout_length _ _ L) as LEN. cbn [state_offsets].
  destruct (Nat.lt_ge_cases i (length cells)) as [I|I].
  - rewrite nth_error_app1 in E by auto. destruct i as [|i]; [left; exists 0%nat; cbn [nth_error]; f_equal; lia|right]. eapply wlayout_rest; eauto.
  - rewrite nth_error_app2 in E by auto. destruct (IH (b + state_size ts)%nat _ _ E) as [(q & Q)|Q]; [left|auto]. exists (S q). cbn [nth_error]. rewrite Q. f_equal. lia.
Qed.
End CELLS.

(** ** The order of the transitions *)

Definition in_before (a b : atrans) : Prop :=
  a_in a = 0 \/ (a_in a = 0xFFFFFFFF /\ a_in b <> 0) \/ (a_in b <> 0 /\ a_in b <> 0xFFFFFFFF /\ a_in a <= a_in b).

Lemma file_before_true : forall a b, at_fits a -> at_fits b -> file_before a b = true -> in_before a b.
Proof.
  intros a b (A & _) (B & _). unfold file_before, in_before, FINAL in *.
  destruct (Z.eqb_spec (a_in a) (a_in b)); [discriminate|]. destruct (Z.eqb_spec (a_in a) 0); [auto|]. destruct (Z.eqb_spec (a_in b) 0); [discriminate|].
  destruct (Z.eqb_spec (a_in a) 0xFFFFFFFF); [auto|]. destruct (Z.eqb_spec (a_in b) 0xFFFFFFFF); [discriminate|]. intros E. apply Z.ltb_lt in E. right. right. lia.
Qed.
Lemma file_before_false : forall a b, at_fits a -> at_fits b -> file_before a b = false -> in_before b a.
Proof.
  intros a b (A & _) (B & _). unfold file_before, in_before, FINAL in *.
  destruct (Z.eqb_spec (a_in a) (a_in b)); [intros _; lia|]. destruct (Z.eqb_spec (a_in a) 0); [discriminate|]. destruct (Z.eqb_spec (a_in b) 0); [auto|].
  destruct (Z.eqb_spec (a_in a) 0xFFFFFFFF); [discriminate|]. destruct (Z.eqb_spec (a_in b) 0xFFFFFFFF); [auto|]. intros E. apply Z.ltb_ge in E. right. right. lia.
Qed.
Lemma in_before_trans : forall a b c, in_before a b -> in_before b c -> in_before a c.
Proof. intros a b c. unfold in_before. lia. Qed.

Lemma sort_in_order : forall l, Forall at_fits l -> StronglySorted in_before (sort_transitions l).
Proof.
  assert (forall t l, at_fits t -> Forall at_fits l -> StronglySorted in_before l -> StronglySorted in_before (insert_transition t l) /\
     forall x, In x (insert_transition t l) <-> x = t \/ In x l) as INS.
  { intros t l T. induction l as [|u l IH]; intros F S; cbn [insert_transition].
    - split; [repeat constructor|]. cbn. intuition.
    - inversion F; subst. inversion S as [|? ? S1 S2]; subst. destruct (file_before u t) eqn:E.
      + destruct IH as [I1 I2]; auto. split.
        * constructor; auto. apply Forall_forall. intros x X. apply I2 in X. destruct X as [ -> |X]; [apply file_before_true; auto|]. rewrite Forall_forall in S2. auto.
        * intros x. cbn [In]. rewrite I2. intuition.
      + split; [|cbn; intuition]. apply file_before_false in E; auto. constructor; [constructor; auto|]. constructor; auto.
        apply Forall_forall. intros x X. rewrite Forall_forall in S2. eapply in_before_trans; eauto. }
  induction l as [|t l IH]; intros F; cbn [sort_transitions]; [constructor|]. inversion F; subst.
  apply INS; auto. apply Forall_forall. intros x X. apply (proj1 (sort_in _ _)) in X. rewrite Forall_forall in *. auto.
Qed.

Lemma sorted_at : forall A (R : A -> A -> Prop) l i j a b, StronglySorted R l -> (i < j)%nat -> nth_error l i = Some a -> nth_error l j = Some b -> R a b.
Proof.
  intros A R l i j a b S. revert i j. induction S as [|x l S IH F]; intros i j L E1 E2; [destruct i; discriminate|].
  destruct i as [|i], j as [|j]; try lia; cbn [nth_error] in *.
  - injection E1 as <-. rewrite Forall_forall in F. apply F. eapply nth_error_In; eauto.
  - apply (IH i j); auto. lia.
Qed.

Lemma place_order : forall big k l, (place big k < place big l)%nat -> (k < l)%nat.
Proof. intros [|] [|k] [|l]; cbn; lia. Qed.

(** ** The table *)

Definition witem_cell (D : list symbol) (offsets : list nat) (x : item * Z) (c : wcell) : Prop :=
  w_weight c = snd x /\
  match fst x with
  | Final _ => w_symIn c = 0xFFFFFFFF
  | Arc _ q' s o => exists ks ko off, nth_error D ks = Some s /\ nth_error D ko = Some o /\ nth_error offsets q' = Some off /\
      w_symIn c = Z.of_nat ks /\ w_symOut c = Z.of_nat ko /\ w_target c = Z.of_nat off
  end.

Record wtable_loaded (A : list (item * Z)) (D : list symbol) (offsets : list nat) (W : wtransducer) : Prop := mk_wtl {
  wtl_table : table_loaded (map fst A) D offsets (forget W);
  wtl_from : forall q off i c, nth_error offsets q = Some off -> has_wtransition W off i c -> exists x, In x A /\ wsource x = q /\ witem_cell D offsets x c;
  wtl_to : forall q off x, nth_error offsets q = Some off -> In x A -> wsource x = q -> exists i c, has_wtransition W off i c /\ witem_cell D offsets x c;
  wtl_order : forall q off i j a b, nth_error offsets q = Some off -> has_wtransition W off i a -> has_wtransition W off j b -> (i < j)%nat -> file_order a b;
  wtl_second : forall q off h o, nth_error offsets q = Some off -> nth_error (wtransitions W) off = Some h -> w_more h = 255 ->
    nth_error (wtransitions W) (off + 1) = Some o -> w_symOut o = 0 /\ 0 <= w_symIn o < 0xFFFFFFFF;
  wtl_heads : forall i c, nth_error (wtransitions W) i = Some c -> (exists q, nth_error offsets q = Some i) \/ w_more c = 0;
  wtl_apart : forall q off i j a b, nth_error offsets q = Some off -> has_wtransition W off i a -> has_wtransition W off j b -> i <> j ->
    exists k l x y, k <> l /\ nth_error A k = Some x /\ nth_error A l = Some y /\ wsource x = q /\ wsource y = q /\ witem_cell D offsets x a /\ witem_cell D offsets y b
}.

(** Places in a filtered list, and in a sorted one, come from different places. *)
Lemma filter_places : forall X (f : X -> bool) l, exists g : nat -> nat, (forall k x, nth_error (filter f l) k = Some x -> nth_error l (g k) = Some x /\ f x = true) /\
  forall k m, (k < length (filter f l))%nat -> (m < length (filter f l))%nat -> k <> m -> g k <> g m.
Proof.
  intros X f l. induction l as [|a l (g & G1 & G2)].
  - exists (fun k => k). split; [intros [|k] x E; discriminate|auto].
  - cbn [filter]. destruct (f a) eqn:F.
    + exists (fun k => match k with O => O | S k => S (g k) end). split.
      * intros [|k] x E; cbn [nth_error] in *; [injection E as <-; auto|auto].
      * intros [|k] [|m] K M N; cbn [length] in *; try congruence. intros E. injection E as E. apply (G2 k m); try lia; auto.
    + exists (fun k => S (g k)). split; [intros k x E; cbn [nth_error]; auto|]. intros k m K M N E. injection E as E. apply (G2 k m); auto.
Qed.

Lemma insert_transition_perm : forall t l, Permutation (t :: l) (insert_transition t l).
Proof. intros t l. induction l as [|u l IH]; cbn [insert_transition]; [auto|]. destruct (file_before u t); [|auto]. etransitivity; [apply perm_swap|]. constructor. auto. Qed.
Lemma sort_transitions_perm : forall l, Permutation l (sort_transitions l).
Proof. induction l as [|t l IH]; cbn [sort_transitions]; [auto|]. etransitivity; [apply perm_skip; exact IH|]. apply insert_transition_perm. Qed.

Lemma perm_places : forall X (l l' : list X) k m, Permutation l l' -> (k < length l')%nat -> (m < length l')%nat -> k <> m ->
  exists k' m', k' <> m' /\ nth_error l k' = nth_error l' k /\ nth_error l m' = nth_error l' m.
Proof.
  intros X l l' k m P K M N. apply Permutation_nth_error in P. destruct P as (_ & f & I & E). exists (f k), (f m). conjs; auto.
Qed.

Lemma offsets_small : forall l b, Forall (fun ts : list atrans => (0 < length ts)%nat) l -> Forall (fun o => 256 * o + 256 <= 256 * b + 257 * length (concat l))%nat (state_offsets b l).
Proof.
  induction l as [|ts l IH]; intros b F; cbn [state_offsets]; [constructor|]. inversion F; subst. cbn [concat]. rewrite app_length. pose proof (state_size_small ts). constructor; [lia|].
  eapply Forall_impl; [|apply IH; auto]. cbn. intros o X. lia.
Qed.

Lemma map_concat : forall X Y (f : X -> Y) ll, map f (concat ll) = concat (map (map f) ll).
Proof. intros X Y f ll. rewrite concat_map. reflexivity. Qed.

Lemma wloaded_table : forall A syms states D bytes W, fitting_weighted A -> was_read A syms states -> Z.of_nat (length syms) < 65536 ->
  map snd (sort_symbols (with_codes syms)) = map text D -> Forall proper_symbol D ->
  let states' := map (map (renumber (sort_symbols (with_codes syms)))) states in
  write_all (write_wstate false (state_offsets 0 states')) states' = Some bytes -> wtransitions W = bytes_wcells bytes ->
  wtable_loaded A D (state_offsets 0 states') W.
Proof.
  intros A syms states D bytes W [FIT WE] R SM ED PD states' E ET. set (offsets := state_offsets 0 states') in *.
  assert (Forall (fun ts : list atrans => (0 < length ts)%nat /\ (length ts <= length A)%nat /\ Forall at_fits ts) states') as ST.
  { apply Forall_forall. intros ts I. conjs.
    - unfold states' in I. apply in_map_iff in I. destruct I as (old & <- & I). pose proof (wr_nonempty _ _ _ R) as NE. rewrite Forall_forall in NE. specialize (NE old I). rewrite map_length. destruct old; [congruence|cbn; lia].
    - exact (state_count A syms states R ts I).
    - apply In_nth_error in I. destruct I as (q & Q). apply Forall_forall. intros a I. destruct (state_items A syms states R q ts a Q I) as (x & X1 & X2 & ->).
      pose proof (renumbered A syms states D x FIT R SM ED PD X1) as RE. cbv zeta in RE. rewrite Forall_forall in WE. specialize (WE x X1). unfold at_fits, FINAL. pose proof (symbols_count syms D ED) as SC.
      destruct (fst x) as [q0|q0 q' s o].
      + rewrite RE. cbn [a_in a_out a_weight]. conjs; auto; lia.
      + destruct RE as (ks & ko & K1 & K2 & ->). cbn [a_in a_out a_weight]. assert (ks < length D)%nat by (apply nth_error_Some; congruence). assert (ko < length D)%nat by (apply nth_error_Some; congruence). lia. }
  pose proof (items_count A FIT) as SIZE. pose proof (transitions_count A syms states R) as TOT. fold states' in TOT.
  assert (Forall (fun o => Z.of_nat o < 2 ^ 24) offsets) as O24.
  { eapply Forall_impl; [|apply (offsets_small states' 0%nat)].
    - cbn. intros o X. rewrite TOT in X. lia.
    - eapply Forall_impl; [|exact ST]. cbn. tauto. }
  assert (Forall (fun o => Z.of_nat o < 2 ^ 32) offsets) as O32 by (eapply Forall_impl; [|exact O24]; cbn; lia).
  destruct (write_wstates_cells offsets O32 states' bytes) as (wcellss & LAY & CELLS); auto.
  { eapply Forall_impl; [|exact ST]. cbn. intros ts (_ & X & Y). split; auto. lia. }
  assert (Forall2 (state_layout offsets) states' (map (map forget_weight) wcellss)) as LAY2.
  { clearbody offsets states'. clear - LAY ST O24 SIZE. induction LAY as [|ts cs l cl L F IH]; cbn [map]; [constructor|]. inversion ST as [|? ? (S1 & S2 & S3) S4]; subst. constructor; [|auto].
    apply wlayout_layout; auto. lia. }
  assert (transitions (forget W) = concat (map (map forget_weight) wcellss)) as ET2 by (cbn [forget transitions]; rewrite ET, CELLS; apply map_concat).
  assert (table_loaded (map fst A) D offsets (forget W)) as TL by (apply laid_out with (cellss := map (map forget_weight) wcellss); auto).
  (* where a state is *)
  assert (forall q off, nth_error offsets q = Some off -> exists pre ts cells post, nth_error states' q = Some ts /\ wstate_layout offsets ts cells /\
    wtransitions W = pre ++ cells ++ post /\ off = length pre /\ transitions (forget W) = map forget_weight pre ++ map forget_weight cells ++ map forget_weight post /\
    state_layout offsets ts (map forget_weight cells) /\ Z.of_nat (length ts) <= 2 ^ 32 /\ Forall at_fits ts /\ (length ts <= length A)%nat) as PLACE.
  { assert (forall l cl, Forall2 (wstate_layout offsets) l cl -> Forall (fun ts : list atrans => (0 < length ts)%nat /\ (length ts <= length A)%nat /\ Forall at_fits ts) l ->
      forall b q off, nth_error (state_offsets b l) q = Some off -> exists pre ts cells post, nth_error l q = Some ts /\ wstate_layout offsets ts cells /\ concat cl = pre ++ cells ++ post /\ off = (b + length pre)%nat) as G.
    { intros l cl F. induction F as [|ts cells l cl L F IH]; intros SF b q off Q; [destruct q; discriminate|]. cbn [state_offsets] in Q. inversion SF as [|? ? (S1 & S2 & S3) S4]; subst. destruct q as [|q]; cbn [nth_error] in Q.
      - injection Q as <-. exists [], ts, cells, (concat cl). conjs; auto; cbn; lia.
      - destruct (IH S4 _ _ _ Q) as (pre & ts' & cells' & post & A1 & A2 & A3 & A4). exists (cells ++ pre), ts', cells', post. conjs; auto.
        + cbn [concat]. rewrite A3, <- app_assoc. reflexivity.
        + assert (state_layout offsets ts (map forget_weight cells)) as SLay by (apply wlayout_layout; auto; lia). apply state_layout_length in SLay. rewrite map_length in SLay. rewrite app_length, SLay. lia. }
    intros q off Q. destruct (G states' wcellss LAY ST 0%nat q off Q) as (pre & ts & cells & post & A1 & A2 & A3 & A4). exists pre, ts, cells, post.
    rewrite Forall_forall in ST. destruct (ST ts (nth_error_In _ _ A1)) as (S1 & S2 & S3). rewrite ET2, <- map_concat, ET, CELLS, A3, !map_app. conjs; auto; [|lia]. apply wlayout_layout; auto. lia. }
  assert (forall q off i c, nth_error offsets q = Some off -> has_wtransition W off i c -> exists ts k a more, nth_error states' q = Some ts /\ Forall at_fits ts /\
    nth_error (sort_transitions ts) k = Some a /\ i = (off + place (255 <? Z.of_nat (length ts))%Z k)%nat /\ to_wcell offsets more a = Some c) as FROM.
  { intros q off i c Q [H1 H2]. destruct (PLACE q off Q) as (pre & ts & cells & post & A1 & A2 & A3 & -> & A5 & A6 & A7 & A8 & A9).
    destruct (layout_transitions (forget W) (map forget_weight pre) (map forget_weight cells) (map forget_weight post) offsets ts A5 A6 A7) as (_ & _ & X & _). rewrite map_length in X.
    destruct (X i _ H2) as (k & a & more & K1 & K2 & K3 & K4). exists ts, k, a. destruct (wlayout_at offsets ts cells k a A2 K1) as (c' & more' & C1 & C2). exists more'. conjs; auto.
    assert (c' = c); [|congruence]. rewrite A3, K2 in H1. rewrite map_length in K3. rewrite nth_error_app2 in H1 by lia. rewrite nth_error_app1 in H1 by lia.
    replace (length pre + place (255 <? Z.of_nat (length ts))%Z k - length pre)%nat with (place (255 <? Z.of_nat (length ts))%Z k) in H1 by lia. congruence. }
  assert (forall x more c, In x A -> to_wcell offsets more (renumber (sort_symbols (with_codes syms)) (image syms x)) = Some c -> witem_cell D offsets x c) as CELL.
  { intros [it z] more c I C. pose proof (renumbered A syms states D _ FIT R SM ED PD I) as RE. cbv zeta in RE. cbn [fst snd] in *. unfold witem_cell. cbn [fst snd]. destruct it as [q|q q' s o].
    - rewrite RE in C. unfold to_wcell in C. cbn [a_state a_in a_out a_weight] in C. destruct (nth_error offsets 0); [|discriminate]. apply some_inj in C. subst c. split; reflexivity.
    - destruct RE as (ks & ko & K1 & K2 & RE). rewrite RE in C. unfold to_wcell in C. cbn [a_state a_in a_out a_weight] in C. destruct (nth_error offsets q') as [off|] eqn:O; [|discriminate].
      apply some_inj in C. subst c. split; [reflexivity|]. exists ks, ko, off. cbn [w_symIn w_symOut w_target]. conjs; auto. }
  constructor; auto.
  - intros q off i c Q H. destruct (FROM q off i c Q H) as (ts & k & a & more & A1 & A2 & A3 & A4 & A5).
    destruct (state_items A syms states R q ts a A1) as (x & X1 & X2 & ->). { apply sort_in. eapply nth_error_In; eauto. } exists x. conjs; auto. eapply CELL; eauto.
  - intros q off x Q I S. destruct (PLACE q off Q) as (pre & ts & cells & post & A1 & A2 & A3 & -> & A5 & A6 & A7 & A8 & A9).
    destruct (layout_transitions (forget W) (map forget_weight pre) (map forget_weight cells) (map forget_weight post) offsets ts A5 A6 A7) as (_ & _ & FR & TO). rewrite map_length in *.
    assert (In (renumber (sort_symbols (with_codes syms)) (image syms x)) ts) as J by (apply (item_state A syms states R ts x); auto; rewrite S; auto).
    apply sort_in in J. apply In_nth_error in J. destruct J as (k & J). destruct (TO k _ J) as (t & more & H & C). destruct (wlayout_at offsets ts cells k _ A2 J) as (c & more' & C1 & C2).
    exists (length pre + place (255 <? Z.of_nat (length ts))%Z k)%nat, c. assert (place (255 <? Z.of_nat (length ts))%Z k < length cells)%nat as PC by (apply nth_error_Some; congruence).
    assert (nth_error (wtransitions W) (length pre + place (255 <? Z.of_nat (length ts))%Z k) = Some c) as NT.
    { rewrite A3, nth_error_app2 by lia. rewrite nth_error_app1 by lia. rewrite <- C1. f_equal. lia. }
    split; [|eapply CELL; eauto]. split; auto. assert (t = forget_weight c) as <-; auto.
    destruct H as (? & ? & _ & _ & _ & H). cbn [forget transitions] in H. rewrite nth_error_map, NT in H. cbn in H. congruence.
  - intros q off i j a b Q H1 H2 L. destruct (FROM q off i a Q H1) as (ts & k & x & more & A1 & A2 & A3 & A4 & A5). destruct (FROM q off j b Q H2) as (ts' & l & y & more' & B1 & B2 & B3 & B4 & B5).
    assert (ts' = ts) by congruence. subst ts'. assert (k < l)%nat as KL by (eapply place_order with (big := 255 <? Z.of_nat (length ts)); lia).
    pose proof (sorted_at _ _ _ _ _ _ _ (sort_in_order ts A2) KL A3 B3) as X. unfold in_before in X. unfold file_order.
    unfold to_wcell in A5, B5. destruct (nth_error offsets (a_state x)); [|discriminate]. destruct (nth_error offsets (a_state y)); [|discriminate]. apply some_inj in A5, B5. subst a b. cbn [w_symIn]. exact X.
  - intros q off h o Q H M O. destruct (PLACE q off Q) as (pre & ts & cells & post & A1 & A2 & A3 & -> & A5 & A6 & A7 & A8 & A9).
    assert (255 < Z.of_nat (length ts)) as BIG.
    { destruct A2 as (t & rest & c & cs & S & C & F & ->). rewrite A3, nth_error_app2 in H by lia. rewrite Nat.sub_diag in H. cbn in H. injection H as <-.
      unfold to_wcell in C. destruct (nth_error offsets (a_state t)); [|discriminate]. apply some_inj in C. subst c. cbn [w_more] in M. destruct (Z.ltb_spec 255 (Z.of_nat (length ts))); lia. }
    pose proof (wlayout_second offsets ts cells A2 BIG) as S2. assert (1 < length cells)%nat by (apply nth_error_Some; congruence).
    rewrite A3, nth_error_app2 in O by lia. rewrite nth_error_app1 in O by lia. replace (length pre + 1 - length pre)%nat with 1%nat in O by lia. rewrite S2 in O. injection O as <-. cbn [woverflow_cell w_symIn w_symOut]. lia.
  - intros i c H. rewrite ET, CELLS in H. exact (wlayout_heads offsets states' wcellss LAY 0 i c H).
  - intros q off i j a b Q H1 H2 N. destruct (FROM q off i a Q H1) as (ts & k & x & more & A1 & A2 & A3 & A4 & A5). destruct (FROM q off j b Q H2) as (ts' & l & y & more' & B1 & B2 & B3 & B4 & B5).
    assert (ts' = ts) by congruence. subst ts'. assert (k <> l) as KL by congruence.
    destruct (perm_places _ ts (sort_transitions ts) k l) as (k' & l' & KL' & E1 & E2); auto.
    { apply sort_transitions_perm. } { apply nth_error_Some. congruence. } { apply nth_error_Some. congruence. }
    rewrite A3 in E1. rewrite B3 in E2. clear A3 B3 KL. unfold states' in A1. rewrite nth_error_map in A1. destruct (nth_error states q) as [old|] eqn:OLD; [|discriminate].
    apply some_inj in A1. pose proof (wr_states _ _ _ R q old OLD) as EO. rewrite EO, map_map in A1. subst ts. rewrite nth_error_map in E1, E2.
    destruct (filter_places _ (fun i => Nat.eqb (wsource i) q) A) as (g & G1 & G2).
    destruct (nth_error (filter _ A) k') as [x0|] eqn:F1; [|discriminate]. destruct (nth_error (filter _ A) l') as [y0|] eqn:F2; [|discriminate]. cbn [option_map] in E1, E2. apply some_inj in E1, E2.
    destruct (G1 _ _ F1) as [G3 G4]. destruct (G1 _ _ F2) as [G5 G6]. apply Nat.eqb_eq in G4, G6. exists (g k'), (g l'), x0, y0. conjs; auto.
    + apply G2; auto; apply nth_error_Some; congruence.
    + apply (CELL x0 more); [eapply nth_error_In; eauto|]. rewrite E1. auto.
    + apply (CELL y0 more'); [eapply nth_error_In; eauto|]. rewrite E2. auto.
Qed.

(** ** Paths *)

Lemma witem_cell_item : forall D offsets x c, Z.of_nat (length D) < 65536 -> witem_cell D offsets x c -> item_cell D offsets (fst x) (forget_weight c).
Proof.
  intros D offsets [[q|q q' s o] z] c SM [_ H]; cbn [fst] in H; unfold item_cell, forget_weight; cbn [fst symIn symOut targetState].
  - rewrite H. reflexivity.
  - destruct H as (ks & ko & off & K1 & K2 & K3 & E1 & E2 & E3). exists ks, ko, off. assert (ks < length D)%nat by (apply nth_error_Some; congruence).
    destruct (Z.eqb_spec (w_symIn c) 0xFFFFFFFF); [lia|]. conjs; auto.
Qed.

Section PATHS.
Variables (A : list (item * Z)) (D : list symbol) (fs vs : list (list Z)) (offsets : list nat) (W : wtransducer).
Hypothesis PROPER : Forall proper_symbol (symbols_of (map fst A)).
Hypothesis WEIGHTS : Forall (fun x => -32768 <= snd x < 32768) A.
Hypothesis SL : symbols_loaded D fs vs (forget W).
Hypothesis TL : wtable_loaded A D offsets W.
Hypothesis DISTINCT : forall k l s, nth_error D k = Some s -> nth_error D l = Some s -> k = l.

Lemma weight_at_cell : forall q i c, has_wtransition W q i c -> weight_at W i = w_weight c.
Proof. intros q i c [H _]. unfold weight_at. rewrite H. reflexivity. Qed.

Lemma has_weight : forall q i t, has_transition (forget W) q i t -> exists c, has_wtransition W q i c /\ t = forget_weight c.
Proof.
  intros q i t H. pose proof H as (last & big & _ & _ & _ & X). cbn [forget transitions] in X. rewrite nth_error_map in X. destruct (nth_error (wtransitions W) i) as [c|] eqn:E; [|discriminate].
  cbn in X. injection X as <-. exists c. split; auto. split; auto.
Qed.

Lemma wrun_path : forall q st w out z, weighted_run A q st w out z -> forall fl off, flags_agree fs vs fl st -> nth_error offsets q = Some off ->
  exists p, path (forget W) off fl w p out [] /\ path_weight W p = z.
Proof.
  pose proof (sl_small _ _ _ _ SL) as SM.
  assert (forall k s, nth_error D k = Some s -> Z.of_nat k <> FINAL) as NF.
  { intros k s K. assert (k < length D)%nat by (apply nth_error_Some; congruence). unfold FINAL. lia. }
  intros q st w out z R. induction R as [q z st I|q q' c o z st w out y I R IH|q q' o z st w out y I R IH|q q' op f v o z st st' w out y I FR R IH]; intros fl off AG Q;
    destruct (wtl_to _ _ _ _ TL q off _ Q I eq_refl) as (i & cl & HW & CW); pose proof (weight_at_cell _ _ _ HW) as WA; pose proof (witem_cell_item _ _ _ _ SM CW) as C;
    destruct CW as [CW _]; cbn [fst snd] in *; pose proof (proj2 HW) as H.
  - exists [i]. split; [eapply path_final; eauto|]. cbn. lia.
  - destruct C as (ks & ko & off' & K1 & K2 & K3 & E1 & E2 & E3). destruct (IH fl off' AG K3) as (p & P & PW). exists (i :: p). split; [|cbn [path_weight fold_right]; unfold path_weight in PW; lia].
    eapply path_read; eauto.
    + rewrite E1. eauto.
    + rewrite E1. apply (sl_kind _ _ _ _ SL _ _ K1).
    + eapply written_ok; eauto.
    + rewrite E3, Nat2Z.id. auto.
  - destruct C as (ks & ko & off' & K1 & K2 & K3 & E1 & E2 & E3). destruct (IH fl off' AG K3) as (p & P & PW). exists (i :: p). split; [|cbn [path_weight fold_right]; unfold path_weight in PW; lia].
    eapply path_epsilon; eauto.
    + rewrite E1. pose proof (sl_kind _ _ _ _ SL _ _ K1) as X. cbn in X. subst ks. reflexivity.
    + eapply written_ok; eauto.
    + rewrite E3, Nat2Z.id. auto.
  - destruct C as (ks & ko & off' & K1 & K2 & K3 & E1 & E2 & E3). destruct (sl_kind _ _ _ _ SL _ _ K1) as (B & d & X & Y).
    destruct (item_proper (map fst A) PROPER q q' (Flag op f v) o) as [PS _]. { apply in_map_iff. eexists. split; [|exact I]. reflexivity. }
    destruct (flag_forward fs vs fl st st' op f v d (sl_values _ _ _ _ SL) PS AG Y FR) as (fl' & FS & AG').
    destruct (IH fl' off' AG' K3) as (p & P & PW). exists (i :: p). split; [|cbn [path_weight fold_right]; unfold path_weight in PW; lia].
    eapply path_flag; eauto.
    + rewrite E1. auto.
    + rewrite E1, Nat2Z.id. eauto.
    + eapply written_ok; eauto.
    + rewrite E3, Nat2Z.id. auto.
Qed.

Lemma path_wrun : forall off fl w p out rest, path (forget W) off fl w p out rest -> rest = [] -> forall q st, flags_agree fs vs fl st -> nth_error offsets q = Some off ->
  weighted_run A q st w out (path_weight W p).
Proof.
  pose proof (sl_small _ _ _ _ SL) as SM. pose proof (sl_fn _ _ _ _ SL) as FN.
  assert (forall k s, nth_error D k = Some s -> Z.of_nat k <> FINAL) as NF.
  { intros k s K. assert (k < length D)%nat by (apply nth_error_Some; congruence). unfold FINAL. lia. }
  intros off fl w p out rest P.
  induction P as [off fl w i t H F|off fl c w i t p s out rest H F SY WR P IH|off fl w i t p s out rest H F WR P IH|off fl fl' w i t d p s out rest H B DI FS WR P IH];
    intros RE q st AG Q; destruct (has_weight _ _ _ H) as (cl & HW & ET); destruct (wtl_from _ _ _ _ TL q off i cl Q HW) as ([it z] & I & SRC & CW);
    pose proof (weight_at_cell _ _ _ HW) as WA; pose proof (witem_cell_item _ _ _ _ SM CW) as C; rewrite <- ET in C; destruct CW as [CW _];
    unfold wsource in SRC; cbn [path_weight fold_right]; fold (path_weight W p) || idtac; rewrite WA, CW; destruct it as [q0|q0 q' x o]; cbn [source item_cell fst snd] in *; subst q0.
  - subst w. rewrite Z.add_0_r. apply wrun_final. auto.
  - destruct C as (ks & ko & off' & K1 & K2 & K3 & E1 & E2 & E3). elim (NF _ _ K1). congruence.
  - contradiction.
  - destruct C as (ks & ko & off' & K1 & K2 & K3 & E1 & E2 & E3). rewrite E1 in SY. destruct (sl_letter _ _ _ _ SL _ _ SY) as (k & Ek & K4). apply Nat2Z.inj in Ek. subst k.
    assert (x = Letter c) by congruence. subst x. apply (written_ok D fs vs _ SL _ _ _ _ K2 E2) in WR. subst s. eapply wrun_letter; eauto. apply IH; auto. rewrite E3, Nat2Z.id. auto.
  - unfold FINAL in C. lia.
  - destruct C as (ks & ko & off' & K1 & K2 & K3 & E1 & E2 & E3). assert (ks = 0%nat) by lia. subst ks.
    assert (x = Epsilon). { pose proof (sl_kind _ _ _ _ SL _ _ K1) as X. destruct x; auto; cbv iota in X; lia. }
    subst x. apply (written_ok D fs vs _ SL _ _ _ _ K2 E2) in WR. subst s. eapply wrun_epsilon; eauto. apply IH; auto. rewrite E3, Nat2Z.id. auto.
  - rewrite C in B. unfold FINAL in B. lia.
  - destruct C as (ks & ko & off' & K1 & K2 & K3 & E1 & E2 & E3). rewrite E1 in B, DI. rewrite Nat2Z.id in DI. pose proof (sl_kind _ _ _ _ SL _ _ K1) as X.
    destruct x as [|op f v|c|y]; [lia| |lia|lia]. destruct X as (_ & d' & D1 & D2). assert (d' = d) by congruence. subst d'.
    destruct (item_proper (map fst A) PROPER q q' (Flag op f v) o) as [PS _]. { apply in_map_iff. eexists. split; [|exact I]. reflexivity. }
    destruct (flag_backward fs vs fl fl' st op f v d (sl_values _ _ _ _ SL) PS AG D2 FS) as (st' & FR & AG').
    apply (written_ok D fs vs _ SL _ _ _ _ K2 E2) in WR. subst s. eapply wrun_flag; eauto. apply IH; auto. rewrite E3, Nat2Z.id. auto.
Qed.

Lemma same_weighted_meaning : forall w out z, (exists p, waccepts W w p out /\ path_weight W p = z) <-> accepted_with A w out z.
Proof.
  pose proof (wtl_table _ _ _ _ TL) as TT.
  intros w out z. unfold waccepts, accepts, accepted_with. split.
  - intros (p & P & <-). eapply path_wrun; eauto; [eapply neutral_agrees; eauto|apply (tl_start _ _ _ _ TT)].
  - intros R. eapply wrun_path; eauto; [eapply neutral_agrees; eauto|apply (tl_start _ _ _ _ TT)].
Qed.

Lemma wloaded_good : good_weighted W.
Proof.
  pose proof (wtl_table _ _ _ _ TL) as TT. destruct (loaded_good (map fst A) D fs vs offsets (forget W) SL TT) as (G1 & G2 & G3 & G4 & _).
  unfold good_weighted. conjs; auto; try apply G1.
  exists (fun off => exists q, nth_error offsets q = Some off). split; [exists 0%nat; apply (tl_start _ _ _ _ TT)|].
  intros off (q & Q). destruct (loaded_state (map fst A) D fs vs offsets (forget W) SL TT q off Q) as [L1 L2]. split.
  - split; auto. intros h o H M O. eapply wtl_second; eauto.
  - intros i c H. destruct (L2 i _ (proj2 H)) as [L3 L4]. destruct (wtl_from _ _ _ _ TL q off i c Q H) as (x & X1 & X2 & X3 & X4). rewrite Forall_forall in WEIGHTS. specialize (WEIGHTS x X1).
    pose proof (sl_small _ _ _ _ SL) as SM. assert (w_symIn c < FINAL \/ w_symIn c = 0xFFFFFFFF) as SI.
    { destruct (fst x); [auto|]. destruct X4 as (ks & ko & o' & K1 & _ & _ & K4 & _). left. assert (ks < length D)%nat by (apply nth_error_Some; congruence). unfold FINAL. lia. }
    split.
    + split; [exact L3|]. split; auto. lia.
    + intros N. apply L4. unfold forget_weight. cbn [symIn]. destruct (Z.eqb_spec (w_symIn c) 0xFFFFFFFF); [congruence|]. unfold FINAL in *. lia.
Qed.

(** The order is that of the file at every place, also where no state is. *)
Lemma single : forall q i c, (forall k, nth_error offsets k <> Some q) -> has_wtransition W q i c -> i = q.
Proof.
  intros q i c N [H (last & big & E & B & _)]. unfold extent in E. cbn [forget transitions] in E. rewrite nth_error_map in E. destruct (nth_error (wtransitions W) q) as [h|] eqn:Q; [|discriminate].
  destruct (wtl_heads _ _ _ _ TL q h Q) as [(k & K)|M]; [elim (N k K)|]. cbn [option_map forget_weight moreTransitions] in E. rewrite M in E. cbn in E. injection E as <- <-. lia.
Qed.
Lemma state_or_not : forall q, (exists k, nth_error offsets k = Some q) \/ (forall k, nth_error offsets k <> Some q).
Proof.
  intros q. destruct (in_dec Nat.eq_dec q offsets) as [I|I]; [left; apply In_nth_error; auto|right]. intros k K. apply I. eapply nth_error_In; eauto.
Qed.

Lemma wordered : in_file_order W.
Proof.
  intros q i j a b H1 H2 L. destruct (state_or_not q) as [(k & K)|N].
  - eapply wtl_order; eauto.
  - pose proof (single _ _ _ N H1). pose proof (single _ _ _ N H2). lia.
Qed.

Lemma wone_flag : one_flag_each A -> one_flag W.
Proof.
  intros O q i j a b H1 H2 F1 F2. destruct (state_or_not q) as [(k & K)|N].
  - destruct (wtl_from _ _ _ _ TL k q i a K H1) as ([it z] & I1 & S1 & _ & C1). destruct (wtl_from _ _ _ _ TL k q j b K H2) as ([it' z'] & I2 & S2 & _ & C2).
    pose proof (sl_small _ _ _ _ SL) as SM. pose proof (sl_fn _ _ _ _ SL) as FN. cbn [forget firstNormalChar] in FN. unfold wsource in *. cbn [fst] in *.
    destruct it as [q0|q0 q1 s o]; [lia|]. destruct it' as [q0'|q0' q1' s' o']; [lia|]. cbn [source] in *. subst q0 q0'.
    destruct C1 as (ks & ko & off & K1 & _ & _ & E1 & _). destruct C2 as (ks' & ko' & off' & K1' & _ & _ & E1' & _).
    pose proof (sl_kind _ _ _ _ SL _ _ K1) as X. pose proof (sl_kind _ _ _ _ SL _ _ K1') as X'. cbn [forget firstNormalChar] in X, X'.
    destruct s as [|op f v|c|t]; [lia| |lia|lia]. destruct s' as [|op' f' v'|c'|t']; [lia| |lia|lia].
    rewrite E1, E1'. pose proof (O _ _ _ _ _ _ _ _ _ _ _ _ _ I1 I2) as EQ. rewrite <- EQ in K1'. 
    rewrite (DISTINCT _ _ _ K1 K1'). reflexivity.
  - pose proof (single _ _ _ N H1). pose proof (single _ _ _ N H2). destruct H1 as [H1 _], H2 as [H2 _]. subst i j. congruence.
Qed.
End PATHS.

(** ** Everything together *)

Lemma compiled_layout : forall A file, fitting_weighted A -> voikkovfstc_w false (map weighted_line A) = Some file ->
  exists W D fs vs offsets, load_weighted file = Ok (Loaded W) /\ symbols_loaded D fs vs (forget W) /\ wtable_loaded A D offsets W /\
    forall k l s, nth_error D k = Some s -> nth_error D l = Some s -> k = l.
Proof.
  intros A file [FIT WE] E. unfold voikkovfstc_w, main_vfstc in E. destruct (read_lines (map wline A) [[]] []) as [[syms states]|] eqn:R; [|discriminate].
  assert (Forall proper_symbol (symbols_of (map fst A))) as PR by apply FIT.
  apply (read_lines_ok A [] _ _ _ _ was_read_start) in R; [|inversion PR; auto]. cbn [app] in R.
  destruct (sorted_symbols (map fst A) syms FIT (wr_nodup _ _ _ R) (wr_syms _ _ _ R)) as (SM & F & L & G & ED & PD & CF & CL & CG & NL & ND).
  unfold compile in E. cbv iota zeta in E.
  match type of E with match ?x with _ => _ end = _ => destruct x as [bytes|] eqn:WA; [|discriminate] end. apply some_inj in E. subst file.
  assert (Z.of_nat (length (Epsilon :: F ++ L ++ G)) < 65536) as SM2.
  { rewrite <- (map_length text (Epsilon :: F ++ L ++ G)), <- ED, map_length, <- (Permutation_length (sort_perm (with_codes syms))), with_codes_length. auto. }
  destruct (load_weighted_whole F L G bytes PD CF CL CG NL ND SM2) as (O & fs & vs & K & GR & LOAD). rewrite ED. rewrite LOAD.
  assert (Forall proper_symbol (Epsilon :: F ++ L ++ G)) as PD' by (constructor; [exact I|auto]).
  match goal with |- context [Ok (Loaded ?x)] => set (W := x) end.
  pose proof (loaded_symbols F L G O fs vs (map forget_weight (bytes_wcells bytes)) CF CL CG NL ND SM2 K GR) as SL.
  assert (symbols_loaded (Epsilon :: F ++ L ++ G) fs vs (forget W)) as SL2.
  { unfold forget, W. cbn [wtransitions w_stringToSymbol w_symbolToString w_symbolToDiacritic w_featureCount w_firstNormalChar]. rewrite map_length. exact SL. }
  pose proof (wloaded_table A syms states (Epsilon :: F ++ L ++ G) bytes W (conj FIT WE) R SM ED PD' WA eq_refl) as TL.
  assert (NoDup (Epsilon :: F ++ L ++ G)) as NDD.
  { apply NoDup_map_inv with (f := text). rewrite <- ED. eapply Permutation_NoDup; [apply Permutation_map; apply sort_perm|]. rewrite with_codes_snd. apply (wr_nodup _ _ _ R). }
  assert (forall k l s, nth_error (Epsilon :: F ++ L ++ G) k = Some s -> nth_error (Epsilon :: F ++ L ++ G) l = Some s -> k = l) as DISTINCT.
  { intros k l s K1 K2. rewrite NoDup_nth_error in NDD. apply NDD; [apply nth_error_Some; congruence|congruence]. }
  exists W, (Epsilon :: F ++ L ++ G), fs, vs, (state_offsets 0 (map (map (renumber (sort_symbols (with_codes syms)))) states)). conjs; auto.
Qed.

Lemma compiled_weighted : forall A file, fitting_weighted A -> voikkovfstc_w false (map weighted_line A) = Some file ->
  exists W, load_weighted file = Ok (Loaded W) /\ good_weighted W /\ in_file_order W /\ (one_flag_each A -> one_flag W) /\
    forall w out z, (exists p, waccepts W w p out /\ path_weight W p = z) <-> accepted_with A w out z.
Proof.
  intros A file FIT E. destruct (compiled_layout A file FIT E) as (W & D & fs & vs & offsets & LOAD & SL & TL & DISTINCT). destruct FIT as [FIT WE].
  assert (Forall proper_symbol (symbols_of (map fst A))) as PR by apply FIT. exists W. split; auto.
  split; [eapply wloaded_good; eauto|]. split; [eapply wordered; eauto|]. split; [eapply wone_flag; eauto|]. intros. eapply same_weighted_meaning; eauto.
Qed.
