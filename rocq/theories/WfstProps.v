(** * Properties of looking up words in a weighted transducer (C36-C39, C54). *)
From Coq Require Import Sorted.
From Verif Require Import Base BaseFacts FstModel FstFileModel FstSpec FstProofs FstPaths FstLookup FstProps WfstModel WfstSpec WfstProofs WfstPaths WfstLookup.

(** ** A test for well-formed tables, for the examples *)
Definition wlisting (W : wtransducer) (q : nat) : list (nat * wcell) :=
  match extent (forget W) q with
  | Some (last, big) => filter (fun '(i, _) => negb (big && Nat.eqb i (q + 1)))
      (combine (seq q (S last - q)) (firstn (S last - q) (skipn q (wtransitions W))))
  | None => []
  end.

Lemma wlisting_in : forall W q i c, has_wtransition W q i c -> In (i, c) (wlisting W q).
Proof.
  intros W q i t [N (last & big & E & I & B & _)]. unfold wlisting. rewrite E.
  apply filter_In. split.
  - replace i with (q + (i - q))%nat by lia.
    assert (M : nth_error (firstn (S last - q) (skipn q (wtransitions W))) (i - q) = Some t).
    { rewrite nth_error_firstn_lt by lia. rewrite nth_error_skipn. replace (q + (i - q))%nat with i by lia. assumption. }
    revert M. generalize (firstn (S last - q) (skipn q (wtransitions W))) (firstn_le_length (S last - q) (skipn q (wtransitions W))).
    intros l LL M. revert M LL. generalize (i - q)%nat. generalize (S last - q)%nat. clear. revert q.
    induction l as [|a l IH]; intros q n k M LL; [destruct k; discriminate|].
    cbn [length] in LL. destruct n as [|n]; [lia|]. cbn [seq combine]. destruct k as [|k]; cbn in M.
    + injection M as ->. left. f_equal. lia.
    + right. replace (q + S k)%nat with (S q + k)%nat by lia. apply IH; [assumption|lia].
  - destruct big; [|reflexivity]. cbn. rewrite (proj2 (Nat.eqb_neq _ _)) by auto. reflexivity.
Qed.

Definition good_weightedb (W : wtransducer) (states : list nat) : bool :=
  good_transducerb (forget W) states &&
  forallb (fun c => ((w_symIn c <? FINAL) || (w_symIn c =? 0xFFFFFFFF)) && (-32768 <=? w_weight c) && (w_weight c <? 32768)) (wtransitions W) &&
  forallb (fun q => match nth_error (wtransitions W) q with
    | Some h => negb (w_more h =? 255) || match nth_error (wtransitions W) (q + 1) with
        | Some o => (w_symOut o =? 0) && (0 <=? w_symIn o) && (w_symIn o <? 0xFFFFFFFF)
        | None => true
        end
    | None => true
    end) states.

Lemma good_transducerb_states : forall T states, good_transducerb T states = true -> forall q, In q states -> good_state T q /\
  forall i t, has_transition T q i t -> good_transition T t /\ (symIn t <> FINAL -> In (Z.to_nat (targetState t)) states).
Proof.
  intros T states H. unfold good_transducerb in H. rewrite !andb_true_iff in H. destruct H as (_ & H7).
  rewrite forallb_forall in H7. intros q Q. specialize (H7 _ Q). unfold good_stateb in H7. rewrite andb_true_iff in H7. destruct H7 as [G1 G2]. split.
  { unfold good_state. destruct (extent T q) as [[last big]|]; [|discriminate]. rewrite !andb_true_iff in G1. destruct G1 as [[G3 G4] G5].
    exists last, big. split; [reflexivity|]. split; [lia|]. split; [lia|]. destruct big; lia. }
  intros i t HT. rewrite forallb_forall in G2. specialize (G2 _ (cells_of_in _ _ _ _ HT)). rewrite andb_true_iff in G2. destruct G2 as [G2 G3]. split.
  - unfold good_transitionb in G2. rewrite orb_true_iff in G2. destruct G2 as [G2|G2]; [left; lia|right].
    rewrite !andb_true_iff in G2. destruct G2 as ((((A & B) & C) & D) & E). split; [lia|]. split; [lia|]. split; [lia|]. split.
    + intros X. replace ((0 <? symIn t) && (symIn t <? firstNormalChar T)) with true in D by lia.
      destruct (nth_error (symbolToDiacritic T) (Z.to_nat (symIn t))) as [o|]; [|discriminate]. exists o. split; [reflexivity|]. lia.
    + intros X. replace (firstNormalChar T <=? symOut t) with true in E by lia.
      destruct (nth_error (symbolToString T) (Z.to_nat (symOut t))) as [s|]; [|discriminate]. eauto.
  - intros NF. rewrite orb_true_iff in G3. destruct G3 as [G3|G3]; [lia|]. rewrite existsb_exists in G3. destruct G3 as (x & X & E).
    apply Nat.eqb_eq in E. now subst x.
Qed.

Lemma good_weightedb_good : forall W states, good_weightedb W states = true -> good_weighted W.
Proof.
  intros W states H. unfold good_weightedb in H. rewrite !andb_true_iff in H. destruct H as ((H1 & H2) & H3).
  pose proof (good_transducerb_states _ _ H1) as ST. destruct (good_transducerb_good _ _ H1) as (A & B & C & D & _).
  unfold good_weighted. split; [exact A|]. split; [exact B|]. split; [exact C|]. split; [exact D|]. exists (fun q => In q states). split.
  { unfold good_transducerb in H1. rewrite !andb_true_iff in H1. destruct H1 as ((_ & H1) & _). rewrite existsb_exists in H1.
    destruct H1 as (x & X & E). apply Nat.eqb_eq in E. now subst x. }
  rewrite forallb_forall in H2. rewrite forallb_forall in H3. intros q Q. destruct (ST q Q) as [S1 S2]. split.
  - split; [assumption|]. intros h o E1 E2 E3. specialize (H3 _ Q). rewrite E1, E2, E3 in H3. cbn [Z.eqb Pos.eqb negb orb] in H3. lia.
  - intros i c [N HT]. specialize (H2 _ (nth_error_In _ _ N)). cbn beta in H2. rewrite !andb_true_iff, orb_true_iff in H2.
    destruct (S2 _ _ HT) as [G1 G2]. split.
    + split; [assumption|]. lia.
    + intros NF. apply G2. unfold forget_weight. cbn [symIn]. replace (w_symIn c =? 0xFFFFFFFF) with false by lia. lia.
Qed.

Definition file_orderb (a b : wcell) : bool :=
  (w_symIn a =? 0) || ((w_symIn a =? 0xFFFFFFFF) && negb (w_symIn b =? 0)) ||
  (negb (w_symIn b =? 0) && negb (w_symIn b =? 0xFFFFFFFF) && (w_symIn a <=? w_symIn b)).

Definition is_flag (W : wtransducer) (a : wcell) : bool := (0 <? w_symIn a) && (w_symIn a <? w_firstNormalChar W).

Definition orderedb (W : wtransducer) : bool :=
  forallb (fun q => let l := wlisting W q in forallb (fun '(i, a) => forallb (fun '(j, b) =>
    negb (i <? j)%nat || file_orderb a b) l) l) (seq 0 (length (wtransitions W))).

Definition one_flagb (W : wtransducer) : bool :=
  forallb (fun q => let l := wlisting W q in forallb (fun '(i, a) => forallb (fun '(j, b) =>
    negb (is_flag W a && is_flag W b) || (w_symIn a =? w_symIn b)) l) l) (seq 0 (length (wtransitions W))).

Lemma has_wtransition_range : forall W q i c, has_wtransition W q i c -> In q (seq 0 (length (wtransitions W))).
Proof.
  intros W q i c [N (last & big & E & I & _)]. apply in_seq. assert (nth_error (wtransitions W) i <> None) by congruence.
  apply nth_error_Some in H. lia.
Qed.

Lemma orderedb_ordered : forall W, orderedb W = true -> in_file_order W.
Proof.
  intros W H q i j a b HA HB L. unfold orderedb in H. rewrite forallb_forall in H. specialize (H q (has_wtransition_range _ _ _ _ HA)).
  cbn zeta in H. rewrite forallb_forall in H. specialize (H _ (wlisting_in _ _ _ _ HA)). cbn beta iota in H.
  rewrite forallb_forall in H. specialize (H _ (wlisting_in _ _ _ _ HB)). cbn beta iota in H.
  unfold file_orderb in H. unfold file_order. lia.
Qed.

Lemma one_flagb_one : forall W, one_flagb W = true -> one_flag W.
Proof.
  intros W H q i j a b HA HB FA FB. unfold one_flagb in H. rewrite forallb_forall in H. specialize (H q (has_wtransition_range _ _ _ _ HA)).
  cbn zeta in H. rewrite forallb_forall in H. specialize (H _ (wlisting_in _ _ _ _ HA)). cbn beta iota in H.
  rewrite forallb_forall in H. specialize (H _ (wlisting_in _ _ _ _ HB)). cbn beta iota in H.
  unfold is_flag in H. lia.
Qed.

(** ** Example transducers

    With flags: "a" has two results, "b" is only accepted where the flag has
    been set. *)
Definition wcell' (i o t w m : Z) : wcell := mk_wcell i o t w m 0.
Definition wfinal (w m : Z) : wcell := wcell' 0xFFFFFFFF 0 0 w m.

Definition wsmall : wtransducer := mk_wfst
  [wcell' 2 0 5 1 2; wcell' 3 5 3 10 0; wcell' 3 6 4 20 0;
   wcell' 1 0 4 (-3) 0;
   wfinal 100 0;
   wcell' 4 4 4 7 0]
  [(97, 3); (98, 4)]
  [[]; []; []; wstr "a"; wstr "b"; wstr "A+"; wstr "B"]
  [mk_ofv Operation_P 0 0; mk_ofv Operation_P 0 2; mk_ofv Operation_R 0 2]
  1 3.

Example wsmall_good : good_weighted wsmall /\ in_file_order wsmall /\ one_flag wsmall.
Proof.
  split; [apply (good_weightedb_good wsmall [0; 3; 4; 5]%nat); vm_compute; reflexivity|].
  split; [apply orderedb_ordered; vm_compute; reflexivity|apply one_flagb_one; vm_compute; reflexivity].
Qed.

(** With a state of 301 transitions, so that its second cell is a number and the
    binary search is used. *)
Definition wlarge : wtransducer := mk_wfst
  (wcell' 1 1 302 5 255 :: wcell' 300 0 0 0 0 :: map (fun i => wcell' (Z.of_nat i) (Z.of_nat i) 302 (Z.of_nat i) 0) (seq 2 300) ++ [wfinal 0 0])
  (map (fun i => (1000 + Z.of_nat i, Z.of_nat i)) (seq 1 301))
  ([] :: map (fun i => [2000 + Z.of_nat i]) (seq 1 301))
  [] 0 1.

Example wlarge_good : good_weighted wlarge /\ in_file_order wlarge /\ one_flag wlarge.
Proof.
  split; [apply (good_weightedb_good wlarge [0; 302]%nat); vm_compute; reflexivity|].
  split; [apply orderedb_ordered; vm_compute; reflexivity|apply one_flagb_one; vm_compute; reflexivity].
Qed.

Fixpoint wcollect_from (step : wconfiguration -> res (woutcome * wconfiguration * nat)) (n : nat) (c : wconfiguration)
    : res (list (list Z * Z) * option woutcome * wconfiguration) :=
  match n with
  | O => Ok ([], None, c)
  | S n =>
      '(o, c1, _) <- step c ;;
      match o with
      | WFound out k => '(l, e, c2) <- wcollect_from step n c1 ;; Ok ((out, k) :: l, e, c2)
      | _ => Ok ([], Some o, c1)
      end
  end.
Definition wcollect (n : nat) (W : wtransducer) (len : nat) (c : wconfiguration) := wcollect_from (fun c => wnext W c len) n c.

Lemma wcollect_lookup_from : forall step W len, (forall c, step c = wnext W c len) ->
  forall n c results e c2, wcollect_from step n c = Ok (results, e, c2) -> wlookup W len c results e c2.
Proof.
  intros step W len ST. induction n as [|n IH]; intros c results e c2 E; cbn [wcollect_from] in E.
  - injection E as <- <- <-. constructor.
  - apply bind_ok in E. destruct E as ([[o c1] k] & S & E). rewrite ST in S.
    destruct o; try (injection E as <- <- <-; eapply wlookup_false; [exact S|discriminate]).
    apply bind_ok in E. destruct E as ([[l e'] c3] & C & E). injection E as <- <- <-. econstructor; [exact S|]. auto.
Qed.

Lemma wcollect_lookup : forall n W len c results e c2, wcollect n W len c = Ok (results, e, c2) -> wlookup W len c results e c2.
Proof. intros n W len c results e c2 E. eapply wcollect_lookup_from; [|exact E]. reflexivity. Qed.

(** ** What a lookup returns *)
Lemma wlookup_paths : forall W size c word known c1 len results e c2, good_weighted W -> (2 <= size)%nat -> wused W size c ->
  (length word <= size)%nat -> (0 < len)%nat -> wprepare W c word = Ok (known, c1) -> wlookup W len c1 results e c2 ->
  (known = true <-> known_prefix W word = word) /\
  exists M : list (list nat * list Z), map (fun '(p, out) => (out, to_int16 (path_weight W p))) M = results /\
    StronglySorted before (map fst M) /\
    (forall p out, In (p, out) M -> waccepts W (known_prefix W word) p out) /\
    (in_file_order W /\ one_flag W ->
      (forall p out p' out', In (p, out) M -> waccepts W (known_prefix W word) p' out' -> before p' p -> In (p', out') M) /\
      (e = Some WEnd -> forall p out, waccepts W (known_prefix W word) p out -> In (p, out) M)).
Proof.
  intros W size c word known c1 len results e c2 (A & B & C & D & states & E & F) S U WL L P K.
  destruct (wused_sized W states A B C D E F size c S U) as [F1 F2].
  destruct (wprepare_spec W states B E F c word F1 ltac:(lia)) as (kn & c3 & P1 & P2 & P3 & P4).
  rewrite P1 in P. injection P as <- <-. split; [exact P3|].
  destruct (wlookup_spec W states A B C D F (known_prefix W word) len L _ _ _ _ K _ _ [] P4) as (_ & _ & _ & (M & M1 & M2 & M3 & M4) & _).
  - apply wchain_start; auto.
  - apply (wfound_start W states F).
  - constructor.
  - cbn [app] in *.
    assert (AC : forall p out k, acc (forget W) (known_prefix W word) false (neutral (forget W)) p out k -> k = length (known_prefix W word) /\ waccepts W (known_prefix W word) p out)
      by (intros p out k X; exact (acc_accepts _ _ _ _ _ _ X)).
    assert (CA : forall p out, waccepts W (known_prefix W word) p out -> acc (forget W) (known_prefix W word) false (neutral (forget W)) p out (length (known_prefix W word)))
      by (intros p out X; apply accepts_acc; split; [reflexivity|exact X]).
    exists (map (fun '(p, out, _) => (p, out)) M). split; [|split; [|split]].
    + rewrite <- M1. unfold shown. rewrite map_map. apply map_ext. intros [[p out] k]. reflexivity.
    + rewrite map_map. erewrite map_ext; [exact M2|]. intros [[p out] k]. reflexivity.
    + intros p out I. apply in_map_iff in I. destruct I as ([[p' o'] k] & X & I). injection X as -> ->. now destruct (AC _ _ _ (M3 _ _ _ I)).
    + intros OO. destruct (M4 OO) as [N1 N2]. split.
      * intros p out p' out' I X Y. apply in_map_iff in I. destruct I as ([[p2 o2] k] & Z & I). injection Z as -> ->.
        apply in_map_iff. exists (p', out', length (known_prefix W word)). split; [reflexivity|]. eapply N1; eauto.
      * intros X p out Y. apply in_map_iff. exists (p, out, length (known_prefix W word)). split; [reflexivity|]. apply N2; auto.
Qed.

(** ** C36 *)

(** Every result comes from an accepting path: its input is the word, all flags
    on it are satisfied, and the result is what the path writes.  Unlike in the
    unweighted transducer this holds after any history, abandoned and failed
    lookups included.  A caller that goes on although [prepare] was false gets
    results for the characters before the first unknown one. *)
Theorem C36_weighted_sound : forall W size c word known c1 len results e c2 out w,
  good_weighted W -> (2 <= size)%nat -> wused W size c -> (length word <= size)%nat -> (0 < len)%nat ->
  wprepare W c word = Ok (known, c1) -> wlookup W len c1 results e c2 -> In (out, w) results ->
  (exists p, waccepts W (known_prefix W word) p out) /\
  (known = true -> exists p, waccepts W word p out).
Proof.
  intros W size c word known c1 len results e c2 out w G S U WL L P K I.
  destruct (wlookup_paths _ _ _ _ _ _ _ _ _ _ G S U WL L P K) as (KN & M & <- & _ & M3 & _).
  apply in_map_iff in I. destruct I as ([p o] & X & I). injection X as -> _. split; [eauto|].
  intros T. apply (proj1 KN) in T. rewrite T in M3. eauto.
Qed.

Definition wfresh : wconfiguration := new_wconfiguration 1 20.

(** "a" gives its two results, with a flag set and cleared on the way; "b" needs
    the flag and has none, also when the lookup of "a" is given up half way. *)
Example C36_wsmall : exists c1 c2 c3 c4, wprepare wsmall wfresh (wstr "a") = Ok (true, c1) /\
  wlookup wsmall 10 c1 [(wstr "A+", 107)] None c2 /\ wprepare wsmall c2 (wstr "b") = Ok (true, c3) /\
  wlookup wsmall 10 c3 [] (Some WEnd) c4.
Proof.
  eexists. eexists. eexists. eexists. split; [vm_compute; reflexivity|]. split; [apply (wcollect_lookup 1); vm_compute; reflexivity|].
  split; [vm_compute; reflexivity|]. apply (wcollect_lookup 5). vm_compute. reflexivity.
Qed.

Example C36_wlarge : exists c1 c2, wprepare wlarge (new_wconfiguration 0 20) [1000 + 299] = Ok (true, c1) /\
  wlookup wlarge 10 c1 [([2000 + 299], 299)] (Some WEnd) c2.
Proof.
  eexists. eexists. split; [vm_compute; reflexivity|]. apply (wcollect_lookup 5). vm_compute. reflexivity.
Qed.

(** ** C37 *)

(** In a table whose states are in the order in which the compiler writes them,
    and where no state has transitions for two different flags: when the
    transducer says that there are no more results, the results are those of
    all accepting paths, each path once, in the order of the table. *)
Theorem C37_weighted_partial : forall W size c word c1 len results c2,
  good_weighted W -> in_file_order W -> one_flag W -> (2 <= size)%nat -> wused W size c -> (length word <= size)%nat -> (0 < len)%nat ->
  wprepare W c word = Ok (true, c1) -> wlookup W len c1 results (Some WEnd) c2 ->
  exists paths : list (list nat * list Z),
    map snd paths = map fst results /\ StronglySorted before (map fst paths) /\
    forall p out, In (p, out) paths <-> waccepts W word p out.
Proof.
  intros W size c word c1 len results c2 G O1 O2 S U WL L P K.
  destruct (wlookup_paths _ _ _ _ _ _ _ _ _ _ G S U WL L P K) as (KN & M & M1 & M2 & M3 & M4).
  rewrite (proj1 KN eq_refl) in *. exists M. split; [rewrite <- M1, map_map; apply map_ext; now intros [? ?]|]. split; [exact M2|].
  intros p out. split; [auto|]. intros A. apply M4; auto.
Qed.

(** Here the state after "a" has a flag that is not satisfied and, after it, one
    that is. *)
Definition wtwo : wtransducer := mk_wfst
  [wcell' 3 5 1 10 0; wcell' 1 0 3 0 1; wcell' 2 0 3 0 0; wfinal 0 0]
  [(97, 3); (98, 4)]
  [[]; []; []; wstr "a"; wstr "b"; wstr "A+"; wstr "B"]
  [mk_ofv Operation_P 0 0; mk_ofv Operation_R 0 2; mk_ofv Operation_P 0 3]
  1 3.

(** At the end of the word the search leaves a state at the first flag that is
    not satisfied: the flags after it are not tried, and a word that is accepted
    through them is not found. *)
Theorem C37_weighted_refuted : exists W size word c1 len c2 p out,
  good_weighted W /\ in_file_order W /\ wprepare W (new_wconfiguration (w_featureCount W) size) word = Ok (true, c1) /\
  wlookup W len c1 [] (Some WEnd) c2 /\ waccepts W word p out.
Proof.
  assert (G : exists c1 c2, wprepare wtwo (new_wconfiguration 1 20) (wstr "a") = Ok (true, c1) /\ wlookup wtwo 10 c1 [] (Some WEnd) c2).
  { eexists. eexists. split; [vm_compute; reflexivity|]. apply (wcollect_lookup 5). vm_compute. reflexivity. }
  destruct G as (c1 & c2 & P & L). exists wtwo, 20%nat, (wstr "a"), c1, 10%nat, c2, [0; 2; 3]%nat, (wstr "A+").
  split; [apply (good_weightedb_good wtwo [0; 1; 3]%nat); vm_compute; reflexivity|].
  split; [apply orderedb_ordered; vm_compute; reflexivity|]. split; [exact P|]. split; [exact L|].
  unfold waccepts, accepts.
  change (wstr "A+") with (wstr "A+" ++ [] ++ @nil Z).
  eapply path_read with (t := mk_cell 3 5 1 0).
  - exists 0%nat, false. repeat split; try reflexivity; try (cbn; lia); discriminate.
  - cbn. unfold FINAL. lia.
  - reflexivity.
  - reflexivity.
  - eapply path_flag with (t := mk_cell 2 0 3 0) (o := mk_ofv Operation_P 0 3).
    + exists 2%nat, false. repeat split; try reflexivity; try (cbn; lia); discriminate.
    + cbn. lia.
    + reflexivity.
    + eapply flag_P; reflexivity.
    + reflexivity.
    + eapply path_final with (t := mk_cell FINAL 0 0 0); [|reflexivity]. exists 3%nat, false. repeat split; try reflexivity; try (cbn; lia); discriminate.
Qed.

(** ** C38 *)

(** Nothing that was looked up before matters, carried on to the end or not: the
    same word gives the same results and weights, one after the other, as on a
    new configuration. *)
Theorem C38_weighted_history : forall W size c word known c1 len results e c2,
  good_weighted W -> (2 <= size)%nat -> wused W size c -> (length word <= size)%nat -> (0 < len)%nat ->
  wprepare W c word = Ok (known, c1) -> wlookup W len c1 results e c2 ->
  exists c3 c4, wprepare W (new_wconfiguration (w_featureCount W) size) word = Ok (known, c3) /\ wlookup W len c3 results e c4.
Proof.
  intros W size c word known c1 len results e c2 (A & B & C & D & states & E & F) S U WL L P K.
  destruct (wused_sized W states A B C D E F size c S U) as [F1 F2].
  destruct (wprepare_spec W states B E F c word F1 ltac:(lia)) as (kn & c3 & P1 & P2 & P3 & P4).
  rewrite P1 in P. injection P as -> ->.
  pose proof (new_wsized W states B F size S) as NS.
  destruct (wprepare_spec W states B E F _ word NS ltac:(cbn [wc_size new_wconfiguration]; lia)) as (kn' & c4 & Q1 & Q2 & Q3 & Q4).
  exists c4. edestruct (wlookup_same W states A B C D F (known_prefix W word) len L _ _ _ _ K c4) as (c5 & X).
  - apply P4.
  - apply Q4.
  - rewrite P2, Q2. exact F2.
  - exists c5. split; [|exact X]. rewrite Q1. f_equal. f_equal. destruct known, kn'; try reflexivity.
    + exfalso. destruct P3 as [P3 _], Q3 as [_ Q3]. specialize (Q3 (P3 eq_refl)). discriminate.
    + exfalso. destruct Q3 as [Q3 _], P3 as [_ P3]. specialize (P3 (Q3 eq_refl)). discriminate.
Qed.

(** ** C39 *)

(** After any history, including abandoned and failed lookups: preparing a word
    no longer than the buffers, and then asking for one result after another
    until the first false, never reads or writes outside an array, never reads
    uninitialised memory, and every result fits with its terminator into the
    buffer of the caller. *)
Theorem C39_weighted_no_overflow : forall W size c word len,
  good_weighted W -> (2 <= size)%nat -> wused W size c -> (length word <= size)%nat -> (0 < len)%nat ->
  exists known c1, wprepare W c word = Ok (known, c1) /\
    forall results e c2, wlookup W len c1 results e c2 ->
      Forall (fun '(out, _) => (length out < len)%nat) results /\
      (e = None -> exists o c3 n, wnext W c2 len = Ok (o, c3, n)).
Proof.
  intros W size c word len (A & B & C & D & states & E & F) S U WL L.
  destruct (wused_sized W states A B C D E F size c S U) as [F2 F3].
  destruct (wprepare_spec W states B E F c word F2 ltac:(lia)) as (kn & c1 & P1 & P2 & P3 & P4).
  exists kn, c1. split; [assumption|]. intros results e c2 K.
  destruct (wlookup_spec W states A B C D F (known_prefix W word) len L _ _ _ _ K _ _ [] P4 (wchain_start W states B E F _) (wfound_start W states F _)) as (_ & _ & X & _ & Y); [constructor|].
  auto.
Qed.

(** A word longer than the buffers is written past their end. *)
Example C39_weighted_long_word : wprepare wsmall wfresh (repeat 97 21) = UB.
Proof. vm_compute. reflexivity. Qed.

Example C39_weighted_small_buffer : exists c1 c2, wprepare wsmall wfresh (wstr "a") = Ok (true, c1) /\ wnext wsmall c1 3 = Ok (WTooLong, c2, 1%nat).
Proof. eexists. eexists. split; [vm_compute; reflexivity|]. vm_compute. reflexivity. Qed.

(** ** C54 *)

(** The weight of a result is the sum of the weights along an accepting path that
    writes it, if that sum is between -32768 and 32767; in general it is that
    sum modulo 65536. *)
Theorem C54_weight_partial : forall W size c word c1 len results e c2 out w,
  good_weighted W -> (2 <= size)%nat -> wused W size c -> (length word <= size)%nat -> (0 < len)%nat ->
  wprepare W c word = Ok (true, c1) -> wlookup W len c1 results e c2 -> In (out, w) results ->
  exists p, waccepts W word p out /\ -32768 <= w < 32768 /\ (exists k, path_weight W p = w + 65536 * k) /\
    (-32768 <= path_weight W p < 32768 -> w = path_weight W p).
Proof.
  intros W size c word c1 len results e c2 out w G S U WL L P K I.
  destruct (wlookup_paths _ _ _ _ _ _ _ _ _ _ G S U WL L P K) as (KN & M & <- & _ & M3 & _).
  rewrite (proj1 KN eq_refl) in *. apply in_map_iff in I. destruct I as ([p o] & X & I). injection X as -> <-. exists p. split; [auto|].
  unfold to_int16. pose proof (Z.mod_pos_bound (path_weight W p) 65536 ltac:(lia)) as MB.
  pose proof (Z.div_mod (path_weight W p) 65536 ltac:(lia)) as DM.
  destruct (path_weight W p mod 65536 <? 32768) eqn:X.
  - split; [lia|]. split; [exists (path_weight W p / 65536); lia|]. lia.
  - split; [lia|]. split; [exists (path_weight W p / 65536 + 1); lia|]. lia.
Qed.

(** With complete results, each accepting path gives one result with its own
    weight. *)
Theorem C54_weights_partial : forall W size c word c1 len results c2,
  good_weighted W -> in_file_order W -> one_flag W -> (2 <= size)%nat -> wused W size c -> (length word <= size)%nat -> (0 < len)%nat ->
  wprepare W c word = Ok (true, c1) -> wlookup W len c1 results (Some WEnd) c2 ->
  (forall p out, waccepts W word p out -> -32768 <= path_weight W p < 32768) ->
  forall out w, In (out, w) results <-> exists p, waccepts W word p out /\ w = path_weight W p.
Proof.
  intros W size c word c1 len results c2 G O1 O2 S U WL L P K R out w.
  destruct (wlookup_paths _ _ _ _ _ _ _ _ _ _ G S U WL L P K) as (KN & M & <- & M2 & M3 & M4).
  rewrite (proj1 KN eq_refl) in *.
  assert (I16 : forall x, -32768 <= x < 32768 -> to_int16 x = x).
  { intros x X. unfold to_int16. pose proof (Z.mod_pos_bound x 65536 ltac:(lia)). pose proof (Z.div_mod x 65536 ltac:(lia)).
    destruct (x mod 65536 <? 32768) eqn:Y; lia. }
  rewrite in_map_iff. split.
  - intros ([p o] & X & I). injection X as -> <-. exists p. split; [auto|]. apply I16. eapply R. apply M3; eauto.
  - intros (p & A & ->). exists (p, out). split; [now rewrite I16 by eauto|]. apply M4; auto.
Qed.

Definition wheavy : wtransducer := mk_wfst
  [wcell' 1 1 1 20000 0; wfinal 20000 0] [(97, 1)] [[]; wstr "a"] [] 0 1.

(** The sum is kept in 16 bits: a word whose only path has the weights 20000 and
    20000 is reported with the weight -25536, better than every other word. *)
Theorem C54_weight_sum_refuted : exists W size word c1 len results c2 out w,
  good_weighted W /\ in_file_order W /\ one_flag W /\ wprepare W (new_wconfiguration (w_featureCount W) size) word = Ok (true, c1) /\
  wlookup W len c1 results (Some WEnd) c2 /\ In (out, w) results /\ forall p, waccepts W word p out -> path_weight W p <> w.
Proof.
  assert (G : exists c1 c2, wprepare wheavy (new_wconfiguration 0 20) (wstr "a") = Ok (true, c1) /\ wlookup wheavy 10 c1 [(wstr "a", -25536)] (Some WEnd) c2).
  { eexists. eexists. split; [vm_compute; reflexivity|]. apply (wcollect_lookup 5). vm_compute. reflexivity. }
  destruct G as (c1 & c2 & P & L).
  assert (G1 : good_weighted wheavy) by (apply (good_weightedb_good wheavy [0; 1]%nat); vm_compute; reflexivity).
  assert (G2 : in_file_order wheavy) by (apply orderedb_ordered; vm_compute; reflexivity).
  assert (G3 : one_flag wheavy) by (apply one_flagb_one; vm_compute; reflexivity).
  exists wheavy, 20%nat, (wstr "a"), c1, 10%nat, [(wstr "a", -25536)], c2, (wstr "a"), (-25536).
  do 5 (split; [assumption|]). split; [now left|]. intros p A.
  destruct (wlookup_paths wheavy 20 (new_wconfiguration 0 20) (wstr "a") true c1 10 _ (Some WEnd) c2 G1 ltac:(lia) (wused_new _ _) ltac:(cbn; lia) ltac:(lia) P L)
    as (_ & M & M1 & _ & M3 & M4).
  destruct (M4 (conj G2 G3)) as [_ M5]. change (known_prefix wheavy (wstr "a")) with (wstr "a") in *.
  assert (A0 : waccepts wheavy (wstr "a") [0; 1]%nat (wstr "a")).
  { unfold waccepts, accepts. change (wstr "a") with (wstr "a" ++ @nil Z) at 2. eapply path_read with (t := mk_cell 1 1 1 0).
    - exists 0%nat, false. repeat split; try reflexivity; try (cbn; lia); discriminate.
    - cbn. unfold FINAL. lia.
    - reflexivity.
    - reflexivity.
    - eapply path_final with (t := mk_cell FINAL 0 0 0); [|reflexivity]. exists 1%nat, false. repeat split; try reflexivity; try (cbn; lia); discriminate. }
  pose proof (M5 eq_refl _ _ A) as I1. pose proof (M5 eq_refl _ _ A0) as I2.
  destruct M as [|[p1 o1] [|? ?]]; try discriminate. destruct I1 as [I1|[]], I2 as [I2|[]]. injection I1 as -> ->. injection I2 as ->. vm_compute. discriminate.
Qed.

Print Assumptions C36_weighted_sound.
Print Assumptions C37_weighted_partial.
Print Assumptions C37_weighted_refuted.
Print Assumptions C38_weighted_history.
Print Assumptions C39_weighted_no_overflow.
Print Assumptions C54_weight_partial.
Print Assumptions C54_weights_partial.
Print Assumptions C54_weight_sum_refuted.
