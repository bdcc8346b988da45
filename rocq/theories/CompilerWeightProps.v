(** * The dictionary compiler and weights: property C70. *)
From Coq Require Import Permutation Sorted.
From Verif Require Import Base BaseFacts Utf8Model Utf8Spec Utf8Proofs FstModel FstSpec FstProps FstFileModel FstFileProofs FstFileProps WfstModel WfstSpec WfstProps
  CompilerModel CompilerSpec CompilerSymbols CompilerReading CompilerLoading CompilerTable CompilerProofs CompilerWeights.

(** What the compiler has made of a transducer with weights can be loaded on a
    machine of the same byte order; it accepts the same words with the same
    outputs and weights.  Its table is as the search for words assumes. *)
Theorem C70_compiled : forall A file, fitting_weighted A -> voikkovfstc_w false (map weighted_line A) = Some file ->
  exists W, load_weighted file = Ok (Loaded W) /\ good_weighted W /\ in_file_order W /\ (one_flag_each A -> one_flag W) /\
    forall w out z, (exists p, waccepts W w p out /\ path_weight W p = z) <-> accepted_with A w out z.
Proof. exact compiled_weighted. Qed.
Print Assumptions C70_compiled.

(** Missing: states with two different flags, where words are lost (see
    below), and weights whose sum needs more than 16 bits. *)
Theorem C70_lookup_partial : forall A file, fitting_weighted A -> one_flag_each A -> voikkovfstc_w false (map weighted_line A) = Some file ->
  exists W, load_weighted file = Ok (Loaded W) /\
    forall size word c1 len results c2, (2 <= size)%nat -> (length word <= size)%nat -> (0 < len)%nat ->
      wprepare W (new_wconfiguration (w_featureCount W) size) word = Ok (true, c1) -> wlookup W len c1 results (Some WEnd) c2 ->
      (forall out z, accepted_with A word out z -> -32768 <= z < 32768) ->
      forall out z, In (out, z) results <-> accepted_with A word out z.
Proof.
  intros A file FIT ONE E. destruct (C70_compiled A file FIT E) as (W & LD & G & ORD & FL & SAME). exists W. split; auto.
  intros size word c1 len results c2 S WL L P K R out z.
  rewrite (C54_weights_partial W size _ word c1 len results c2 G ORD (FL ONE) S (wused_new W size) WL L P K).
  - rewrite <- SAME. split; intros (p & A1 & A2); eauto.
  - intros p o AC. apply (R o). apply SAME. eauto.
Qed.
Print Assumptions C70_lookup_partial.

(** Missing: weights that are negative or whose low byte is 128 or more, which
    are not the same on a machine of the other byte order (see
    [C40_weighted_refuted]). *)
Theorem C70_byte_order_partial : forall A file, fitting_weighted A -> Forall (fun x => 0 <= snd x /\ snd x mod 256 < 128) A ->
  voikkovfstc_w true (map weighted_line A) = Some file ->
  exists file', voikkovfstc_w false (map weighted_line A) = Some file' /\ load_weighted file = load_weighted file'.
Proof.
  intros A file [FIT WE] WB E. unfold voikkovfstc_w, main_vfstc in *. destruct (read_lines (map wline A) [[]] []) as [[syms states]|] eqn:R; [|discriminate].
  assert (Forall proper_symbol (symbols_of (map fst A))) as PR by apply FIT.
  apply (read_lines_ok A [] _ _ _ _ was_read_start) in R; [|inversion PR; auto]. cbn [app] in R.
  destruct (sorted_symbols (map fst A) syms FIT (wr_nodup _ _ _ R) (wr_syms _ _ _ R)) as (SM & F & L & G & ED & PD & _).
  cbv zeta in *. set (sorted := sort_symbols (with_codes syms)) in *. set (states' := map (map (renumber sorted)) states) in *.
  pose proof (items_count A FIT) as SIZE. pose proof (transitions_count A syms states R) as TOT. fold sorted states' in TOT.
  assert (Forall proper_symbol (Epsilon :: F ++ L ++ G)) as PD' by (constructor; [exact I|auto]).
  assert (Forall (fun ts : list atrans => (0 < length ts)%nat) states') as NE.
  { unfold states'. apply Forall_map. eapply Forall_impl; [|apply (wr_nonempty _ _ _ R)]. intros ts N. rewrite map_length. destruct ts; [congruence|cbn; lia]. }
  destruct (C40_weighted_partial (map snd sorted) states') as [_ X]; auto.
  - unfold fits. conjs.
    + rewrite ED, map_length. pose proof (symbols_count syms (Epsilon :: F ++ L ++ G) ED). lia.
    + rewrite ED. apply Forall_map. eapply Forall_impl; [|exact PD']. intros s. apply proper_bytes.
    + apply Forall_forall. intros ts I. pose proof (state_count A syms states R ts I). lia.
  - apply Forall_forall. intros ts I. apply In_nth_error in I. destruct I as (q & Q). apply Forall_forall. intros a I.
    destruct (state_items A syms states R q ts a Q I) as (x & X1 & X2 & ->). pose proof (renumbered A syms states _ x FIT R SM ED PD' X1) as RE. cbv zeta in RE.
    pose proof (symbols_count syms (Epsilon :: F ++ L ++ G) ED) as SC. rewrite Forall_forall in WE, WB. specialize (WE x X1). specialize (WB x X1). destruct (fst x) as [q0|q0 q' s o].
    + rewrite RE. cbn [a_in a_out a_weight]. conjs; lia.
    + destruct RE as (ks & ko & K1 & K2 & ->). cbn [a_in a_out a_weight].
      assert (ks < length (Epsilon :: F ++ L ++ G))%nat by (apply nth_error_Some; congruence). assert (ko < length (Epsilon :: F ++ L ++ G))%nat by (apply nth_error_Some; congruence). conjs; lia.
  - eapply Forall_impl; [|apply (offsets_small states' 0%nat NE)]. cbn. intros o X. rewrite TOT in X. lia.
Qed.
Print Assumptions C70_byte_order_partial.

(** The compiler accepts transducers whose states are numbered in the order in
    which they first occur and whose transitions all lead to states that occur. *)
Theorem C70_accepts_input : forall A otherByteOrder, fitting_weighted A -> in_order 0 (map fst A) ->
  (forall q q' s o z, In (Arc q q' s o, z) A -> exists i, In i (map fst A) /\ match i with Final q => q | Arc q _ _ _ => q end = q') ->
  exists file, voikkovfstc_w otherByteOrder (map weighted_line A) = Some file.
Proof.
  intros A b [FIT WE] ORD TARGETS. unfold voikkovfstc_w, main_vfstc. assert (Forall proper_symbol (symbols_of (map fst A))) as PR by apply FIT. assert (Forall proper_symbol (flat_map item_symbols (map fst A))) as PR' by (inversion PR; auto).
  destruct (read_lines_accepts A [] [[]] [] was_read_start PR' ORD) as (syms & states & R). rewrite R.
  apply (read_lines_ok A [] _ _ _ _ was_read_start PR') in R. cbn [app] in R.
  destruct (sorted_symbols (map fst A) syms FIT (wr_nodup _ _ _ R) (wr_syms _ _ _ R)) as (SM & F & L & G & ED & PD & _). cbv zeta.
  set (sorted := sort_symbols (with_codes syms)) in *. set (states' := map (map (renumber sorted)) states).
  unfold compile. cbv zeta iota. set (offsets := state_offsets 0 states').
  assert (length offsets = length states) as LO by (unfold offsets, states'; rewrite state_offsets_length, map_length; auto).
  assert (exists i0, In i0 A) as (i0 & I0) by (destruct FIT as (_ & (c & C) & _); destruct A as [|i A]; [destruct C as [C|[]]; discriminate|exists i; left; auto]).
  assert (forall ts a more, In ts states' -> In a ts -> exists c, to_wcell offsets more a = Some c) as CELL.
  { intros ts a more I J. unfold to_wcell. assert (a_state a < length offsets)%nat as B.
    { apply In_nth_error in I. destruct I as (q & Q). destruct (state_items A syms states R q ts a Q J) as (x & X1 & X2 & ->). rewrite LO.
      assert (Forall proper_symbol (Epsilon :: F ++ L ++ G)) as PD' by (constructor; [exact Logic.I|auto]).
      pose proof (renumbered A syms states _ x FIT R SM ED PD' X1) as X. cbv zeta in X. destruct x as [[q0|q0 q' s o] z]; cbn [fst snd] in X.
      - rewrite X. cbn [a_state]. pose proof (wr_sources _ _ _ R i0 I0). lia.
      - destruct X as (ks & ko & _ & _ & ->). cbn [a_state]. destruct (TARGETS _ _ _ _ _ X1) as (i & I1 & I2). apply in_map_iff in I1. destruct I1 as (y & <- & I1).
        pose proof (wr_sources _ _ _ R y I1) as Y. unfold wsource, source in Y. rewrite I2 in Y. auto. }
    destruct (nth_error offsets (a_state a)) eqn:E; eauto. apply nth_error_None in E. lia. }
  assert (forall l ts, In ts states' -> incl l ts -> exists bytes, write_all (fun t => option_map (write_wcell b) (to_wcell offsets 0 t)) l = Some bytes) as ALL.
  { intros l ts I. induction l as [|a l IH]; intros J; cbn [write_all]; [eauto|]. destruct (CELL ts a 0 I (J a (or_introl eq_refl))) as (c & ->). cbn [option_map].
    destruct IH as (bytes & ->); [intros x X; apply J; right; auto|]. eauto. }
  assert (forall l, incl l states' -> exists bytes, write_all (write_wstate b offsets) l = Some bytes) as STATES.
  { induction l as [|ts l IH]; intros J; cbn [write_all]; [eauto|].
    assert (exists x, write_wstate b offsets ts = Some x) as (x & ->).
    { assert (In ts states') as I by (apply J; left; auto). unfold write_wstate. destruct (sort_transitions ts) as [|t rest] eqn:S.
      - exfalso. pose proof (sort_length ts) as X. rewrite S in X. destruct ts; [|discriminate]. unfold states' in I. apply in_map_iff in I. destruct I as (old & Y & I).
        pose proof (wr_nonempty _ _ _ R) as NE. rewrite Forall_forall in NE. specialize (NE old I). destruct old; [congruence|discriminate].
      - cbv zeta. assert (forall u, In u (t :: rest) -> In u ts) as SUB by (intros u U; rewrite <- S in U; apply sort_in; auto).
        destruct (CELL ts t (if 255 <? Z.of_nat (length ts) then 255 else Z.of_nat (length ts) - 1) I (SUB t (or_introl eq_refl))) as (c & ->).
        destruct (ALL rest ts I) as (bytes & ->); [intros y Y; apply SUB; right; auto|]. eauto. }
    destruct IH as (bytes & ->); [intros y Y; apply J; right; auto|]. eauto. }
  destruct (STATES states' (incl_refl _)) as (bytes & ->). eauto.
Qed.
Print Assumptions C70_accepts_input.

(** ** Two transducers *)

(** This one corrects: it copies "a", changes "e" into "ä" at the cost of 300, and
    removes a repeated "b". *)
Definition small_corrector : list (item * Z) :=
  [ (Arc 0 0 (Letter 0x61) (Letter 0x61), 0);
    (Arc 0 0 (Letter 0x65) (Letter 0xE4), 300);
    (Arc 0 1 (Letter 0x62) (Letter 0x62), 5);
    (Arc 1 1 (Letter 0x62) Epsilon, 120);
    (Arc 1 2 (Flag Operation_U (wstr "K") (Some (wstr "1"))) Epsilon, 0);
    (Arc 2 0 Epsilon Epsilon, -7);
    (Final 2, 1) ].

Example small_corrector_fits : fitting_weighted small_corrector /\ one_flag_each small_corrector.
Proof.
  split; [split|].
  - unfold fitting. conjs.
    + repeat constructor; try discriminate; unfold encodable; cbn; try lia; intuition discriminate.
    + exists 0x61. cbn. auto.
    + intros l N I. apply NoDup_incl_length in I; auto. cbn in I. lia.
    + vm_compute. discriminate.
  - repeat constructor; cbn; lia.
  - intros q q1 q2 op f v op' f' v' o o' z z' I1 I2. cbn in I1, I2. repeat (destruct I1 as [I1|I1]; [try discriminate I1|]); try contradiction.
    repeat (destruct I2 as [I2|I2]; [try discriminate I2|]); try contradiction. congruence.
Qed.

Example small_corrector_in_order : in_order 0 (map fst small_corrector) /\
  forall q q' s o z, In (Arc q q' s o, z) small_corrector -> exists i, In i (map fst small_corrector) /\ match i with Final q => q | Arc q _ _ _ => q end = q'.
Proof.
  split.
  - apply in_order_new; [reflexivity|]. apply in_order_old; [cbn; lia|]. apply in_order_old; [cbn; lia|]. apply in_order_new; [reflexivity|]. apply in_order_old; [cbn; lia|].
    apply in_order_new; [reflexivity|]. apply in_order_old; [cbn; lia|]. constructor.
  - intros q q' s o z I. cbn in I. repeat (destruct I as [I|I]; [first [discriminate|injection I as <- <- <- <- <-]|]); try contradiction.
    all: first [exists (Arc 0 0 (Letter 0x61) (Letter 0x61)); split; [cbn; auto|reflexivity]|exists (Arc 1 1 (Letter 0x62) Epsilon); split; [cbn; tauto|reflexivity]|exists (Final 2); split; [cbn; tauto|reflexivity]].
Qed.

Example small_corrector_accepts : accepted_with small_corrector (wstr "ebb") [0xE4; 0x62] 426.
Proof.
  unfold accepted_with. change [0xE4; 0x62] with (written (Letter 0xE4) ++ written (Letter 0x62) ++ written Epsilon ++ written Epsilon ++ []). change 426 with (300 + (5 + (120 + (0 + 1)))).
  eapply wrun_letter; [cbn; auto|]. eapply wrun_letter; [cbn; auto|]. eapply wrun_letter; [cbn; tauto|]. eapply wrun_flag; [cbn; tauto|apply rule_U_set; reflexivity|]. apply wrun_final. cbn. tauto.
Qed.

Example small_corrector_lookup : exists file W c1 c2, voikkovfstc_w false (map weighted_line small_corrector) = Some file /\ load_weighted file = Ok (Loaded W) /\
  wprepare W (new_wconfiguration (w_featureCount W) 100) (wstr "ebb") = Ok (true, c1) /\ wlookup W 50 c1 [([0xE4; 0x62; 0x62], 304); ([0xE4; 0x62], 426)] (Some WEnd) c2.
Proof.
  do 4 eexists. split; [vm_compute; reflexivity|]. split; [vm_compute; reflexivity|]. split; [vm_compute; reflexivity|].
  apply (wcollect_lookup 5); vm_compute; reflexivity.
Qed.

(** After "a" this one needs a flag that is not set or, at the cost of 3, one that
    can always be set. *)
Definition two_flags : list (item * Z) :=
  [ (Arc 0 1 (Letter 0x61) (Letter 0x62), 10);
    (Arc 1 2 (Flag Operation_R (wstr "F") (Some (wstr "x"))) Epsilon, 0);
    (Arc 1 2 (Flag Operation_U (wstr "F") (Some (wstr "x"))) Epsilon, 3);
    (Final 2, 0) ].

(** A transducer with two flags at one state is compiled as well, but at the end
    of a word only the first of them is tried: a word that is accepted through
    the second is not found. *)
Theorem C70_two_flags_refuted : exists A file W word c1 c2 out z,
  fitting_weighted A /\ voikkovfstc_w false (map weighted_line A) = Some file /\ load_weighted file = Ok (Loaded W) /\
  wprepare W (new_wconfiguration (w_featureCount W) 20) word = Ok (true, c1) /\ wlookup W 10 c1 [] (Some WEnd) c2 /\ accepted_with A word out z.
Proof.
  exists two_flags. eexists. eexists. exists (wstr "a"). eexists. eexists. exists (wstr "b"), 13. split; [split|].
  - unfold fitting. conjs.
    + repeat constructor; try discriminate; unfold encodable; cbn; try lia; intuition discriminate.
    + exists 0x61. cbn. auto.
    + intros l N I. apply NoDup_incl_length in I; auto. cbn in I. lia.
    + vm_compute. discriminate.
  - repeat constructor; cbn; lia.
  - split; [vm_compute; reflexivity|]. split; [vm_compute; reflexivity|]. split; [vm_compute; reflexivity|]. split; [apply (wcollect_lookup 5); vm_compute; reflexivity|].
    unfold accepted_with. change (wstr "b") with (written (Letter 0x62) ++ written Epsilon ++ []). change 13 with (10 + (3 + 0)).
    eapply wrun_letter; [cbn; auto|]. eapply wrun_flag; [cbn; tauto|apply rule_U_set; reflexivity|]. apply wrun_final. cbn. tauto.
Qed.
Print Assumptions C70_two_flags_refuted.
