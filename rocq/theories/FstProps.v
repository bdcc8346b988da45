(** * Properties of looking up words in an unweighted transducer (C36-C39). *)
From Coq Require Import Sorted.
From Verif Require Import Base BaseFacts FstModel FstSpec FstProofs FstPaths FstLookup.

(** ** A test for well-formed tables, for the examples *)
Definition cells_of (T : transducer) (q : nat) : list cell :=
  match extent T q with
  | Some (last, big) => map snd (filter (fun '(i, _) => negb (big && Nat.eqb i (q + 1)))
      (combine (seq q (S last - q)) (firstn (S last - q) (skipn q (transitions T)))))
  | None => []
  end.

Definition good_transitionb (T : transducer) (t : cell) : bool :=
  (symIn t =? FINAL) ||
  ((0 <=? symIn t) && negb (symIn t =? unknownSymbolOrdinal T) && (0 <=? targetState t) &&
   (if (0 <? symIn t) && (symIn t <? firstNormalChar T) then
      match nth_error (symbolToDiacritic T) (Z.to_nat (symIn t)) with
      | Some o => (ofv_feature o <? flagDiacriticFeatureCount T)%nat && (0 <=? ofv_value o)
      | None => false
      end
    else true) &&
   (if firstNormalChar T <=? symOut t then match nth_error (symbolToString T) (Z.to_nat (symOut t)) with Some _ => true | None => false end else true)).

Definition good_stateb (T : transducer) (states : list nat) (q : nat) : bool :=
  match extent T q with
  | Some (last, big) =>
      (last <? length (transitions T))%nat && (Z.of_nat last <? 2 ^ 32 - 1) && (if big then (q + 255 <=? last)%nat else (last <? q + 255)%nat)
  | None => false
  end && forallb (fun t => good_transitionb T t && ((symIn t =? FINAL) || existsb (Nat.eqb (Z.to_nat (targetState t))) states)) (cells_of T q).

Definition good_transducerb (T : transducer) (states : list nat) : bool :=
  (0 <? firstNormalChar T) && (firstNormalChar T <? FINAL) &&
  forallb (fun '(_, s) => (firstNormalChar T <=? s) && (s <? unknownSymbolOrdinal T)) (stringToSymbol T) &&
  (firstNormalChar T <=? unknownSymbolOrdinal T) &&
  match nth_error (symbolToString T) 0 with Some [] => true | _ => false end &&
  existsb (Nat.eqb 0) states && forallb (good_stateb T states) states.

Lemma nth_error_combine_seq : forall A (l : list A) q i x, nth_error l i = Some x -> In ((q + i)%nat, x) (combine (seq q (length l)) l).
Proof.
  induction l as [|a l IH]; intros q [|i] x H; cbn in *; try discriminate.
  - injection H as ->. left. f_equal. lia.
  - right. replace (q + S i)%nat with (S q + i)%nat by lia. auto.
Qed.

Lemma cells_of_in : forall T q i t, has_transition T q i t -> In t (cells_of T q).
Proof.
  intros T q i t (last & big & E & I & B & N). unfold cells_of. rewrite E. apply in_map_iff. exists (i, t). split; [reflexivity|].
  apply filter_In. split.
  - replace i with (q + (i - q))%nat by lia.
    assert (L : (last - q < length (skipn q (transitions T)))%nat \/ (length (skipn q (transitions T)) <= last - q)%nat) by lia.
    assert (M : nth_error (firstn (S last - q) (skipn q (transitions T))) (i - q) = Some t).
    { rewrite nth_error_firstn_lt by lia. rewrite nth_error_skipn. replace (q + (i - q))%nat with i by lia. assumption. }
    revert M. generalize (firstn (S last - q) (skipn q (transitions T))) (firstn_le_length (S last - q) (skipn q (transitions T))).
    intros l LL M. revert M LL. generalize (i - q)%nat. generalize (S last - q)%nat. clear. revert q.
    induction l as [|a l IH]; intros q n k M LL; [destruct k; discriminate|].
    cbn [length] in LL. destruct n as [|n]; [lia|]. cbn [seq combine]. destruct k as [|k]; cbn in M.
    + injection M as ->. left. f_equal. lia.
    + right. replace (q + S k)%nat with (S q + k)%nat by lia. apply IH; [assumption|lia].
  - destruct big; [|reflexivity]. cbn. rewrite (proj2 (Nat.eqb_neq _ _)) by auto. reflexivity.
Qed.

Lemma good_transducerb_good : forall T states, good_transducerb T states = true -> good_transducer T.
Proof.
  intros T states H. unfold good_transducerb in H. rewrite !andb_true_iff in H. destruct H as ((((((H1 & H2) & H3) & H4) & H5) & H6) & H7).
  unfold good_transducer. split; [lia|]. split.
  { intros c s S. unfold symbol_of in S. rewrite forallb_forall in H3. clear - S H3. induction (stringToSymbol T) as [|[k v] l IH]; [discriminate|].
    cbn in S. destruct (k =? c).
    - injection S as ->. specialize (H3 (k, s) (or_introl eq_refl)). cbn in H3. lia.
    - apply IH; try assumption. intros x X. apply H3. now right. }
  split; [lia|]. split; [destruct (nth_error (symbolToString T) 0) as [[|]|]; congruence|].
  exists (fun q => In q states). split.
  { rewrite existsb_exists in H6. destruct H6 as (x & X & E). apply Nat.eqb_eq in E. now subst x. }
  rewrite forallb_forall in H7. intros q Q. specialize (H7 _ Q). unfold good_stateb in H7. rewrite andb_true_iff in H7. destruct H7 as [G1 G2]. split.
  { unfold good_state. destruct (extent T q) as [[last big]|]; [|discriminate]. rewrite !andb_true_iff in G1. destruct G1 as [[G3 G4] G5].
    exists last, big. split; [reflexivity|]. split; [lia|]. split; [lia|]. destruct big; lia. }
  intros i t HT. rewrite forallb_forall in G2. specialize (G2 _ (cells_of_in _ _ _ _ HT)). rewrite andb_true_iff in G2. destruct G2 as [G2 G3]. split.
  - unfold good_transitionb in G2. rewrite orb_true_iff in G2. destruct G2 as [G2|G2]; [left; lia|right].
    rewrite !andb_true_iff in G2. destruct G2 as ((((A & B) & C) & D) & E). split; [lia|]. split; [lia|]. split; [lia|]. split.
    + intros X. replace ((0 <? symIn t) && (symIn t <? firstNormalChar T)) with true in D by lia.
      destruct (nth_error (symbolToDiacritic T) (Z.to_nat (symIn t))) as [o|]; [|discriminate]. exists o. split; [reflexivity|]. lia.
    + intros X. replace (firstNormalChar T <=? symOut t) with true in E by lia.
      destruct (nth_error (symbolToString T) (Z.to_nat (symOut t))) as [s|]; [|discriminate]. eauto.
  - intros NF. rewrite orb_true_iff in G3. destruct G3 as [G3|G3]; [lia|]. rewrite existsb_exists in G3. destruct G3 as (x & X & E).
    apply Nat.eqb_eq in E. now subst x.
Qed.

(** ** Example transducers

    A small one with flags: "a" has two results, "b" is only accepted where the
    flag has been set. *)
Definition small : transducer := mk_fst
  [mk_cell 3 5 3 2; mk_cell 2 0 5 0; mk_cell 3 6 4 0;
   mk_cell 1 0 4 0;
   mk_cell FINAL 0 0 0;
   mk_cell 4 4 4 0]
  [(97, 3); (98, 4)]
  [[]; []; []; wstr "a"; wstr "b"; wstr "A+"; wstr "B"]
  [mk_ofv Operation_P 0 0; mk_ofv Operation_P 0 2; mk_ofv Operation_R 0 2]
  1 3 7.

Example small_good : good_transducer small.
Proof. apply (good_transducerb_good small [0; 3; 4; 5]%nat). vm_compute. reflexivity. Qed.

(** One with a state of 300 transitions, so that its second cell is a number. *)
Definition large : transducer := mk_fst
  (mk_cell 1 1 302 255 :: mk_cell 300 0 0 0 :: map (fun i => mk_cell (Z.of_nat i) (Z.of_nat i) 302 0) (seq 2 300) ++ [mk_cell FINAL 0 0 0])
  (map (fun i => (1000 + Z.of_nat i, Z.of_nat i)) (seq 1 301))
  ([] :: map (fun i => [2000 + Z.of_nat i]) (seq 1 301))
  [] 0 1 302.

Example large_good : good_transducer large.
Proof. apply (good_transducerb_good large [0; 302]%nat). vm_compute. reflexivity. Qed.

(** ** C36 *)

(** Every result of a lookup comes from an accepting path: its input is the
    word (for [nextPrefix], the reported number of characters of it), all flags
    on it are satisfied, and the result is what the path writes.  This holds
    when the lookups before it were carried on to the end, and always when the
    transducer has no flags. *)
Lemma flags_neutral : forall T size c, good_transducer T -> (2 <= size)%nat ->
  exhausted T size c \/ (used T size c /\ flagDiacriticFeatureCount T = 0%nat) -> currentFlagValues c = neutral T /\ sized T c /\ bufferSize c = size.
Proof.
  intros T size c (A & B & C & D & states & E & F) S [H|[H Z]].
  - split; [eapply exhausted_neutral; eauto|]. eapply used_sized; eauto. now apply exhausted_used.
  - destruct (used_sized T states A B C D E F size c S H) as [X Y]. split; [|auto]. destruct X as (_ & _ & _ & _ & _ & _ & L & _).
    unfold neutral. rewrite Z in *. destruct (currentFlagValues c); [reflexivity|discriminate].
Qed.

Lemma acc_accepts : forall T word prefix p out k, acc T word prefix (neutral T) p out k ->
  if prefix then accepts_prefix T word p out k else k = length word /\ accepts T word p out.
Proof.
  intros T word [] p out k (P & L & E).
  - split; assumption.
  - rewrite E in * by reflexivity. rewrite skipn_all in P. split; [reflexivity|assumption].
Qed.

Lemma accepts_acc : forall T word (prefix : bool) p out k, (if prefix then accepts_prefix T word p out k else k = length word /\ accepts T word p out) ->
  acc T word prefix (neutral T) p out k.
Proof.
  intros T word [] p out k H; unfold acc.
  - destruct H as [H1 H2]. split; [assumption|]. split; [assumption|discriminate].
  - destruct H as [-> H2]. rewrite skipn_all. split; [exact H2|auto].
Qed.

Lemma lookup_paths : forall T size c word known c1 prefix len results e c2, good_transducer T -> (2 <= size)%nat ->
  exhausted T size c \/ (used T size c /\ flagDiacriticFeatureCount T = 0%nat) -> (length word <= size)%nat -> (0 < len)%nat ->
  prepare T c word = Ok (known, c1) -> lookup T prefix len c1 results e c2 ->
  exists M, map (fun '(_, out, k) => (out, k)) M = results /\ StronglySorted before (map rpath M) /\
     (forall p out k, In (p, out, k) M -> acc T word prefix (neutral T) p out k) /\
     (forall p out k p' out' k', In (p, out, k) M -> acc T word prefix (neutral T) p' out' k' -> before p' p -> In (p', out', k') M) /\
     (e = Some End -> forall p out k, acc T word prefix (neutral T) p out k -> In (p, out, k) M).
Proof.
  intros T size c word known c1 prefix len results e c2 G S H W L P K. destruct (flags_neutral T size c G S H) as (F1 & F2 & F3).
  destruct G as (A & B & C & D & states & E & F).
  destruct (prepare_spec T states E F c word F2 ltac:(lia)) as (kn & c3 & P1 & P2 & P3 & P4 & P5).
  rewrite P1 in P. injection P as <- <-. rewrite F1 in P5.
  destruct (lookup_spec T states A B C D F word prefix len L _ _ _ _ K (neutral T) _ _ [] (P5 prefix)) as (_ & _ & _ & (M & M1 & M2 & M3 & M4 & M5) & _).
  - apply chain_start; auto. apply good_flags_neutral. assumption.
  - apply (found_start T states F).
  - constructor.
  - cbn [app] in *. exists M. repeat (split; [assumption|]). intros X. apply M5. assumption.
Qed.

Theorem C36_sound : forall T size c word known c1 prefix len results e c2 out k,
  good_transducer T -> (2 <= size)%nat -> exhausted T size c \/ (used T size c /\ flagDiacriticFeatureCount T = 0%nat) ->
  (length word <= size)%nat -> (0 < len)%nat ->
  prepare T c word = Ok (known, c1) -> lookup T prefix len c1 results e c2 -> In (out, k) results ->
  exists p, if prefix then accepts_prefix T word p out k else k = length word /\ accepts T word p out.
Proof.
  intros T size c word known c1 prefix len results e c2 out k G S H W L P K I.
  destruct (lookup_paths _ _ _ _ _ _ _ _ _ _ _ G S H W L P K) as (M & <- & _ & M3 & _).
  apply in_map_iff in I. destruct I as ([[p o] n] & X & I). injection X as -> ->. exists p. apply acc_accepts. auto.
Qed.

(** The example: "a" gives its two results, in the order of the table, with a
    flag set and cleared again on the way. *)
Fixpoint collect (n : nat) (T : transducer) (prefix : bool) (len : nat) (c : configuration) : res (list (list Z * nat) * option outcome * configuration) :=
  match n with
  | O => Ok ([], None, c)
  | S n =>
      '(o, c1) <- step T prefix len c ;;
      match o with
      | Found out k => '(l, e, c2) <- collect n T prefix len c1 ;; Ok ((out, k) :: l, e, c2)
      | _ => Ok ([], Some o, c1)
      end
  end.

Lemma collect_lookup : forall n T prefix len c results e c2, collect n T prefix len c = Ok (results, e, c2) -> lookup T prefix len c results e c2.
Proof.
  induction n as [|n IH]; intros T prefix len c results e c2 E; cbn [collect] in E.
  - injection E as <- <- <-. constructor.
  - apply bind_ok in E. destruct E as ([o c1] & S & E). destruct o; try (injection E as <- <- <-; apply lookup_false; [exact S|discriminate]).
    apply bind_ok in E. destruct E as ([[l e'] c3] & C & E). injection E as <- <- <-. econstructor; [exact S|]. auto.
Qed.

Definition fresh : configuration := new_configuration 1 20.
Definition prepared (c : configuration) (word : list Z) : configuration := match prepare small c word with Ok (_, c1) => c1 | _ => c end.
Definition all_a : list (list Z * nat) := [(wstr "A+", 1%nat); (wstr "B", 1%nat)].

Example C36_small : exists c1 c2, prepare small fresh (wstr "a") = Ok (true, c1) /\ lookup small false 10 c1 all_a (Some End) c2.
Proof.
  eexists. eexists. split; [vm_compute; reflexivity|]. apply (collect_lookup 5). vm_compute. reflexivity.
Qed.

Example C36_small_prefix : exists c1 c2, prepare small fresh (wstr "ab") = Ok (true, c1) /\ lookup small true 10 c1 all_a (Some End) c2.
Proof.
  eexists. eexists. split; [vm_compute; reflexivity|]. apply (collect_lookup 5). vm_compute. reflexivity.
Qed.

Example C36_large : exists c1 c2, prepare large (new_configuration 0 20) [1000 + 301] = Ok (true, c1) /\
  lookup large false 10 c1 [([2000 + 301], 1%nat)] (Some End) c2.
Proof.
  eexists. eexists. split; [vm_compute; reflexivity|]. apply (collect_lookup 5). vm_compute. reflexivity.
Qed.

(** The words that end in the middle of the table are not accepted. *)
Lemma small_b : forall p out, ~ accepts small (wstr "b") p out.
Proof.
  intros p out A. destruct C36_small as (c1 & c2 & P & L).
  assert (G : exists c3 c4, prepare small fresh (wstr "b") = Ok (true, c3) /\ lookup small false 10 c3 [] (Some End) c4).
  { eexists. eexists. split; [vm_compute; reflexivity|]. apply (collect_lookup 5). vm_compute. reflexivity. }
  destruct G as (c3 & c4 & P' & L').
  destruct (lookup_paths small 20 fresh (wstr "b") true c3 false 10 [] (Some End) c4 small_good ltac:(lia) (or_introl (exhausted_new _ _)) ltac:(cbn; lia) ltac:(lia) P' L')
    as (M & M1 & _ & _ & _ & M5).
  destruct M; [|discriminate]. apply (M5 eq_refl p out 1%nat). apply accepts_acc. split; [reflexivity|assumption].
Qed.

(** After a lookup that was given up in the middle the flags keep their values,
    and the next lookup returns a result that no accepting path has. *)
Theorem C36_any_history_refuted : exists T size c word known c1 len results e c2 out k,
  good_transducer T /\ used T size c /\ prepare T c word = Ok (known, c1) /\ lookup T false len c1 results e c2 /\ In (out, k) results /\
  forall p, ~ accepts T word p out.
Proof.
  assert (G : exists c1 c2 c3 c4, prepare small fresh (wstr "a") = Ok (true, c1) /\ lookup small false 10 c1 [(wstr "A+", 1%nat)] None c2 /\
    prepare small c2 (wstr "b") = Ok (true, c3) /\ lookup small false 10 c3 [(wstr "b", 1%nat)] (Some End) c4).
  { eexists. eexists. eexists. eexists. split; [vm_compute; reflexivity|]. split; [apply (collect_lookup 1); vm_compute; reflexivity|].
    split; [vm_compute; reflexivity|]. apply (collect_lookup 5); vm_compute; reflexivity. }
  destruct G as (c1 & c2 & c3 & c4 & P & L & P' & L').
  exists small, 20%nat, c2, (wstr "b"), true, c3, 10%nat, [(wstr "b", 1%nat)], (Some End), c4, (wstr "b"), 1%nat.
  split; [exact small_good|]. split; [|split; [exact P'|split; [exact L'|split; [now left|]]]].
  - eapply used_lookup; [apply used_new| | |exact P|exact L]; cbn; lia.
  - intros p. apply small_b.
Qed.

(** ** C37 *)

(** When the transducer says that there are no more results, the results are
    those of all accepting paths: each path once, in the order of the table. *)
Theorem C37_complete : forall T size c word known c1 (prefix : bool) len results c2,
  good_transducer T -> (2 <= size)%nat -> exhausted T size c \/ (used T size c /\ flagDiacriticFeatureCount T = 0%nat) ->
  (length word <= size)%nat -> (0 < len)%nat ->
  prepare T c word = Ok (known, c1) -> lookup T prefix len c1 results (Some End) c2 ->
  exists paths, map (fun '(_, out, k) => (out, k)) paths = results /\
    StronglySorted before (map (fun '(p, _, _) => p) paths) /\
    forall p out k, In (p, out, k) paths <-> if prefix then accepts_prefix T word p out k else k = length word /\ accepts T word p out.
Proof.
  intros T size c word known c1 prefix len results c2 G S H W L P K.
  destruct (lookup_paths _ _ _ _ _ _ _ _ _ _ _ G S H W L P K) as (M & M1 & M2 & M3 & _ & M5).
  exists M. split; [assumption|]. split; [exact M2|]. intros p out k. split.
  - intros I. apply acc_accepts. auto.
  - intros A. apply M5; [reflexivity|]. now apply accepts_acc.
Qed.

(** When the caller gives up, or a limit is reached, the results so far are
    those of the first accepting paths in the same order. *)
Theorem C37_initial_segment : forall T size c word known c1 (prefix : bool) len results e c2,
  good_transducer T -> (2 <= size)%nat -> exhausted T size c \/ (used T size c /\ flagDiacriticFeatureCount T = 0%nat) ->
  (length word <= size)%nat -> (0 < len)%nat ->
  prepare T c word = Ok (known, c1) -> lookup T prefix len c1 results e c2 ->
  exists paths, map (fun '(_, out, k) => (out, k)) paths = results /\
    StronglySorted before (map (fun '(p, _, _) => p) paths) /\
    (forall p out k, In (p, out, k) paths -> if prefix then accepts_prefix T word p out k else k = length word /\ accepts T word p out) /\
    forall p out k p' out' k', In (p, out, k) paths -> before p' p ->
      (if prefix then accepts_prefix T word p' out' k' else k' = length word /\ accepts T word p' out') -> In (p', out', k') paths.
Proof.
  intros T size c word known c1 prefix len results e c2 G S H W L P K.
  destruct (lookup_paths _ _ _ _ _ _ _ _ _ _ _ G S H W L P K) as (M & M1 & M2 & M3 & M4 & _).
  exists M. split; [assumption|]. split; [exact M2|]. split.
  - intros p out k I. apply acc_accepts. auto.
  - intros p out k p' out' k' I B A. eapply M4; eauto. now apply accepts_acc.
Qed.

(** The order is strict, so no path is listed twice. *)
Lemma before_irreflexive : forall p, ~ before p p.
Proof. induction p as [|i p IH]; intros B; inversion B; subst; [lia|auto]. Qed.

(** Here "b" is only accepted where the flag has not been set. *)
Definition strict : transducer := mk_fst
  [mk_cell 3 5 3 1; mk_cell 2 0 5 0; mk_cell FINAL 0 0 0;
   mk_cell 1 0 4 0;
   mk_cell FINAL 0 0 0;
   mk_cell 4 4 4 0]
  [(97, 3); (98, 4)]
  [[]; []; []; wstr "a"; wstr "b"; wstr "A+"; wstr "B"]
  [mk_ofv Operation_P 0 0; mk_ofv Operation_P 0 2; mk_ofv Operation_D 0 2]
  1 3 7.

Example strict_good : good_transducer strict.
Proof. apply (good_transducerb_good strict [0; 3; 4; 5]%nat). vm_compute. reflexivity. Qed.

(** After an abandoned lookup results can also be missing: the flag that is
    still set forbids the only result. *)
Theorem C37_any_history_refuted : exists T size c word known c1 len c2 p out,
  good_transducer T /\ used T size c /\ prepare T c word = Ok (known, c1) /\ lookup T false len c1 [] (Some End) c2 /\
  accepts T word p out.
Proof.
  assert (G : exists c1 c2 c3 c4, prepare strict fresh (wstr "a") = Ok (true, c1) /\ lookup strict false 10 c1 [(wstr "A+", 1%nat)] None c2 /\
    prepare strict c2 (wstr "b") = Ok (true, c3) /\ lookup strict false 10 c3 [] (Some End) c4).
  { eexists. eexists. eexists. eexists. split; [vm_compute; reflexivity|]. split; [apply (collect_lookup 1); vm_compute; reflexivity|].
    split; [vm_compute; reflexivity|]. apply (collect_lookup 5); vm_compute; reflexivity. }
  destruct G as (c1 & c2 & c3 & c4 & P & L & P' & L').
  exists strict, 20%nat, c2, (wstr "b"), true, c3, 10%nat, c4, [1; 5; 4]%nat, (wstr "b").
  split; [exact strict_good|]. split; [|split; [exact P'|split; [exact L'|]]].
  - eapply used_lookup; [apply used_new| | |exact P|exact L]; cbn; lia.
  - change (wstr "b") with ([] ++ [98] ++ @nil Z) at 2. unfold accepts.
    eapply path_flag with (t := mk_cell 2 0 5 0) (o := mk_ofv Operation_D 0 2).
    + exists 1%nat, false. repeat split; try reflexivity; try lia; discriminate.
    + cbn. lia.
    + reflexivity.
    + eapply flag_D_value; [lia|reflexivity|lia].
    + reflexivity.
    + eapply path_read with (t := mk_cell 4 4 4 0).
      * exists 5%nat, false. repeat split; try reflexivity; try lia; discriminate.
      * cbn. unfold FINAL. lia.
      * reflexivity.
      * reflexivity.
      * eapply path_final with (t := mk_cell FINAL 0 0 0); [|reflexivity]. exists 4%nat, false. repeat split; try reflexivity; try lia; discriminate.
Qed.

(** ** C38 *)

(** The lookups that went before, if carried on to the end, do not matter: the
    same word gives the same results, one after the other, as on a new
    configuration. *)
Theorem C38_history : forall T size c word known c1 prefix len results e c2,
  good_transducer T -> (2 <= size)%nat -> exhausted T size c \/ (used T size c /\ flagDiacriticFeatureCount T = 0%nat) ->
  (length word <= size)%nat -> (0 < len)%nat ->
  prepare T c word = Ok (known, c1) -> lookup T prefix len c1 results e c2 ->
  exists c3 c4, prepare T (new_configuration (flagDiacriticFeatureCount T) size) word = Ok (known, c3) /\
    lookup T prefix len c3 results e c4.
Proof.
  intros T size c word known c1 prefix len results e c2 G S H W L P K. destruct (flags_neutral T size c G S H) as (F1 & F2 & F3).
  destruct G as (A & B & C & D & states & E & F).
  destruct (prepare_spec T states E F c word F2 ltac:(lia)) as (kn & c3 & P1 & P2 & P3 & P4 & P5).
  rewrite P1 in P. injection P as -> ->.
  pose proof (new_sized T B size S) as NS.
  destruct (prepare_spec T states E F _ word NS ltac:(cbn [bufferSize new_configuration]; lia)) as (kn' & c4 & Q1 & Q2 & Q3 & Q4 & Q5).
  exists c4. edestruct (lookup_same T states A B C D F word prefix len L _ _ _ _ K c4) as (c5 & X).
  - apply P5.
  - rewrite F1. apply Q5.
  - rewrite P2, Q2. exact F3.
  - exists c5. split; [|exact X]. rewrite Q1. now rewrite Q4, P4.
Qed.

(** With an abandoned lookup before it, the same word gives other results. *)
Theorem C38_any_history_refuted : exists T size c word known c1 c2 c3 c4 len,
  good_transducer T /\ used T size c /\ prepare T c word = Ok (known, c1) /\ lookup T false len c1 [(wstr "b", 1%nat)] (Some End) c2 /\
  prepare T (new_configuration (flagDiacriticFeatureCount T) size) word = Ok (known, c3) /\ lookup T false len c3 [] (Some End) c4.
Proof.
  assert (G : exists c1 c2 c3 c4, prepare small fresh (wstr "a") = Ok (true, c1) /\ lookup small false 10 c1 [(wstr "A+", 1%nat)] None c2 /\
    prepare small c2 (wstr "b") = Ok (true, c3) /\ lookup small false 10 c3 [(wstr "b", 1%nat)] (Some End) c4).
  { eexists. eexists. eexists. eexists. split; [vm_compute; reflexivity|]. split; [apply (collect_lookup 1); vm_compute; reflexivity|].
    split; [vm_compute; reflexivity|]. apply (collect_lookup 5); vm_compute; reflexivity. }
  destruct G as (c1 & c2 & c3 & c4 & P & L & P' & L').
  assert (G : exists c5 c6, prepare small fresh (wstr "b") = Ok (true, c5) /\ lookup small false 10 c5 [] (Some End) c6).
  { eexists. eexists. split; [vm_compute; reflexivity|]. apply (collect_lookup 5). vm_compute. reflexivity. }
  destruct G as (c5 & c6 & P'' & L'').
  exists small, 20%nat, c2, (wstr "b"), true, c3, c4, c5, c6, 10%nat.
  split; [exact small_good|]. split; [|split; [exact P'|split; [exact L'|split; [exact P''|exact L'']]]].
  eapply used_lookup; [apply used_new| | |exact P|exact L]; cbn; lia.
Qed.

(** ** C39 *)

(** After any history, including abandoned and failed lookups: preparing a word
    no longer than the buffers, and then asking for one result after another
    until the first false, never reads or writes outside an array, never reads
    uninitialised memory, and every result fits with its terminator into the
    buffer of the caller. *)
Theorem C39_no_overflow : forall T size c word prefix len,
  good_transducer T -> (2 <= size)%nat -> used T size c -> (length word <= size)%nat -> (0 < len)%nat ->
  exists known c1, prepare T c word = Ok (known, c1) /\
    forall results e c2, lookup T prefix len c1 results e c2 ->
      Forall (fun '(out, _) => (length out < len)%nat) results /\
      (e = None -> exists o c3, step T prefix len c2 = Ok (o, c3)).
Proof.
  intros T size c word prefix len (A & B & C & D & states & E & F) S U W L.
  destruct (used_sized T states A B C D E F size c S U) as [F2 F3].
  destruct (prepare_spec T states E F c word F2 ltac:(lia)) as (kn & c1 & P1 & P2 & P3 & P4 & P5).
  exists kn, c1. split; [assumption|]. intros results e c2 K.
  pose proof F2 as (_ & _ & _ & _ & _ & _ & GF).
  destruct (lookup_spec T states A B C D F word prefix len L _ _ _ _ K _ _ _ [] (P5 prefix) (chain_start T states E F word prefix _ GF) (found_start T states F _ _ _)) as (_ & _ & X & _ & Y); [constructor|].
  auto.
Qed.

(** A word longer than the buffers is written past their end. *)
Example C39_long_word : prepare small fresh (repeat 97 21) = UB.
Proof. vm_compute. reflexivity. Qed.

(** A result that is too long for the buffer of the caller is not written. *)
Example C39_small_buffer : exists c1 c2, prepare small fresh (wstr "a") = Ok (true, c1) /\ step small false 3 c1 = Ok (TooLong, c2).
Proof. eexists. eexists. split; [vm_compute; reflexivity|]. vm_compute. reflexivity. Qed.

Print Assumptions C36_sound.
Print Assumptions C36_any_history_refuted.
Print Assumptions C37_complete.
Print Assumptions C37_initial_segment.
Print Assumptions C37_any_history_refuted.
Print Assumptions C38_history.
Print Assumptions C38_any_history_refuted.
Print Assumptions C39_no_overflow.
