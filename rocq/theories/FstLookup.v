(** * Looking up words one after another. *)
From Coq Require Import Sorted.
From Verif Require Import Base BaseFacts FstModel FstSpec FstProofs FstPaths.

Lemma step_search : forall T prefix len c, step T prefix len c = search MAX_LOOP_COUNT T prefix len c.
Proof. intros T [] len c; reflexivity. Qed.

Lemma ok_pair : forall A B (a c : A) (b d : B), Ok (a, b) = Ok (c, d) -> a = c /\ b = d.
Proof. intros A B a c b d H. injection H. auto. Qed.

Lemma write_output_length : forall T syms len out o, write_output T syms len out = Ok (Some o) -> (length o < len)%nat.
Proof.
  induction syms as [|s syms IH]; intros len out o E; cbn [write_output] in E.
  - destruct (length out <? len)%nat eqn:L; [|discriminate]. injection E as <-. lia.
  - apply bind_ok in E. destruct E as (str & _ & E). destruct (len <=? length out + length str + 1)%nat; [discriminate|]. eauto.
Qed.

Lemma asearch_length : forall n T word prefix len size f r out k fr, asearch n T word prefix len size f r = (Found out k, fr) -> (length out < len)%nat.
Proof.
  induction n as [|n IH]; intros T word prefix len size f r out k fr E; cbn [asearch] in E; [discriminate|].
  destruct (topscan T word prefix f) as [[[i t] [[fl pos]|]]|].
  - destruct (Nat.eqb (length r + 2) size); [discriminate|]. eauto.
  - destruct (write_output T (osyms T r) len []) as [[o|]| |] eqn:W; try discriminate. injection E as <- _ _. eapply write_output_length; eauto.
  - destruct r; [discriminate|]. eauto.
Qed.

Lemma prepare_loop_spec : forall T input syms len known, (len + length input <= length syms)%nat ->
  exists syms', prepare_loop T input syms len known = Ok (syms', (len + length input)%nat, known && forallb (fun c => match find_symbol (stringToSymbol T) c with Some _ => true | None => false end) input) /\
    length syms' = length syms /\ (forall j, (j < len)%nat -> nth_error syms' j = nth_error syms j) /\
    (forall j ch, nth_error input j = Some ch -> nth_error syms' (len + j)%nat = Some (input_symbol T ch)).
Proof.
  intros T. induction input as [|c input IH]; intros syms len known L; cbn [prepare_loop forallb length] in *.
  - exists syms. rewrite andb_true_r, Nat.add_0_r. split; [reflexivity|]. split; [reflexivity|]. split; [auto|]. intros [|j] ch H; discriminate.
  - assert (X : forall s known', s = input_symbol T c ->
      exists syms', prepare_loop T input (upd syms len s) (S len) known' =
        Ok (syms', (len + S (length input))%nat, known' && forallb (fun c => match find_symbol (stringToSymbol T) c with Some _ => true | None => false end) input) /\
      length syms' = length syms /\ (forall j, (j < len)%nat -> nth_error syms' j = nth_error syms j) /\
      (forall j ch, nth_error (c :: input) j = Some ch -> nth_error syms' (len + j)%nat = Some (input_symbol T ch))).
    { intros s known' ->. destruct (IH (upd syms len (input_symbol T c)) (S len) known') as (syms' & E1 & E2 & E3 & E4); [rewrite upd_length; lia|].
      exists syms'. rewrite E1. replace (S len + length input)%nat with (len + S (length input))%nat by lia. split; [reflexivity|].
      rewrite upd_length in E2. split; [assumption|]. split.
      - intros j J. rewrite E3 by lia. apply upd_other. lia.
      - intros [|j] ch H; cbn [nth_error] in H.
        + injection H as <-. rewrite Nat.add_0_r, E3 by lia. apply upd_same. lia.
        + replace (len + S j)%nat with (S len + j)%nat by lia. auto. }
    unfold input_symbol in X at 1. destruct (find_symbol (stringToSymbol T) c) as [v|] eqn:F.
    + rewrite FstProofs.wr_ok by lia. cbn [bind andb]. apply X. reflexivity.
    + rewrite FstProofs.wr_ok by lia. cbn [bind andb]. rewrite andb_false_r. apply (X _ false). reflexivity.
Qed.

Section Lookup.
Variable T : transducer.
Variable states : nat -> Prop.
Hypothesis Tnormal : 0 < firstNormalChar T < FINAL.
Hypothesis Tsymbols : forall c s, symbol_of T c s -> firstNormalChar T <= s < unknownSymbolOrdinal T.
Hypothesis Tunknown : firstNormalChar T <= unknownSymbolOrdinal T.
Hypothesis Tepsilon : nth_error (symbolToString T) 0 = Some [].
Hypothesis Tinitial : states 0%nat.
Hypothesis Tstates : forall q, states q -> good_state T q /\
  forall i t, has_transition T q i t -> good_transition T t /\ (symIn t <> FINAL -> states (Z.to_nat (targetState t))).

Definition start (fl : list Z) : frame := mk_fr 0 0 fl 0.

Lemma start_in : forall word fl, good_flags T fl -> in_state T states word (start fl).
Proof. intros word fl G. repeat split; cbn; try assumption; try apply G; try lia. Qed.

Lemma prepare_spec : forall c word, sized T c -> (length word <= bufferSize c)%nat ->
  exists known c1, prepare T c word = Ok (known, c1) /\ bufferSize c1 = bufferSize c /\ currentFlagValues c1 = currentFlagValues c /\
    known = forallb (fun c => match find_symbol (stringToSymbol T) c with Some _ => true | None => false end) word /\
    forall prefix, represents T states word prefix c1 (start (currentFlagValues c)) [].
Proof.
  intros c word (S1 & S2 & S3 & S4 & S5 & S6 & S7) L. unfold prepare.
  rewrite !FstProofs.wr_ok by lia. cbn [bind].
  destruct (prepare_loop_spec T word (inputSymbolStack c) 0 true) as (syms & -> & E1 & E2 & E3); [lia|]. cbn [bind andb Nat.add].
  eexists; eexists. split; [reflexivity|]. split; [reflexivity|]. split; [reflexivity|]. split; [reflexivity|]. intros prefix.
  unfold represents. cbn [stackDepth inputDepth currentFlagValues stateIndexStack currentTransitionStack outputSymbolStack updatedFlagValue updatedFlagFeature flagDepth start fr_pos fr_flags length].
  split.
  - unfold shape. cbn [bufferSize stackDepth stateIndexStack currentTransitionStack outputSymbolStack updatedFlagValue updatedFlagFeature inputLength inputSymbolStack].
    rewrite !upd_length. repeat (split; [solve [auto; lia]|]). lia.
  - repeat (split; [reflexivity|]). apply stk_base; try reflexivity; [now apply start_in| |]; cbn [start fr_ct]; apply upd_same; lia.
Qed.

Lemma lookup_spec : forall word prefix len, (0 < len)%nat -> forall c results e c', lookup T prefix len c results e c' ->
  forall fl0 f r L, represents T states word prefix c f r -> chain T states word prefix fl0 f r ->
    found T word prefix fl0 f r L -> StronglySorted before (map rpath L) ->
  sized T c' /\ bufferSize c' = bufferSize c /\ Forall (fun '(out, _) => (length out < len)%nat) results /\
  (exists M, map (fun '(_, out, k) => (out, k)) M = results /\ StronglySorted before (map rpath (L ++ M)) /\
     (forall p out k, In (p, out, k) (L ++ M) -> acc T word prefix fl0 p out k) /\
     (forall p out k p' out' k', In (p, out, k) (L ++ M) -> acc T word prefix fl0 p' out' k' -> before p' p -> In (p', out', k') (L ++ M)) /\
     (e = Some End -> currentFlagValues c' = fl0 /\ forall p out k, acc T word prefix fl0 p out k -> In (p, out, k) (L ++ M))) /\
  (e = None -> exists o c'', step T prefix len c' = Ok (o, c'')).
Proof.
  intros word prefix len LEN. induction 1; intros fl0 f r L RP CH FD SO.
  - split; [eapply represents_sized; eauto|]. split; [reflexivity|]. split; [constructor|]. split.
    + exists []. rewrite app_nil_r. split; [reflexivity|]. split; [assumption|]. destruct FD as [F1 F2]. split; [|split; [|discriminate]].
      * intros p out k I. now destruct (F1 _ _ _ I).
      * intros p out k p' out' k' I A B. destruct (F1 _ _ _ I) as [_ B2]. apply F2; [assumption|].
        clear - B B2. revert p B B2. generalize (position f r). intros q p B. revert q.
        induction B; intros q' B2; inversion B2; subst; try (apply before_here; lia); apply before_later; auto.
    + intros _. rewrite step_search. edestruct search_sim as (c'' & E & _); [..|eauto]; eauto.
  - rewrite step_search in H.
    edestruct (search_sim T states word prefix Tnormal Tsymbols Tunknown Tepsilon Tstates MAX_LOOP_COUNT c f r len LEN RP) as (c'' & E & E1 & E2 & E3).
    rewrite E in H. apply ok_pair in H. destruct H as [H <-].
    destruct (asearch MAX_LOOP_COUNT T word prefix len (bufferSize c) f r) as [o [f' r']] eqn:AS. cbn [fst snd] in *. subst o.
    pose proof (asearch_length _ _ _ _ _ _ _ _ _ _ _ AS) as LO.
    destruct (asearch_found T states word prefix Tnormal Tsymbols Tunknown Tepsilon Tstates _ _ _ _ _ _ _ _ _ _ CH LEN FD SO AS) as (CH' & p & FD' & SO').
    destruct (IHlookup fl0 f' r' (L ++ [(p, out, k)])) as (I1 & I2 & I3 & (M & M1 & M2 & M3 & M4 & M5) & I5); auto; [apply E3; discriminate|].
    split; [assumption|]. split; [congruence|]. split; [constructor; assumption|]. split; [|assumption].
    exists ((p, out, k) :: M). rewrite <- !app_assoc in M2, M3, M4, M5. cbn [app] in *. split; [cbn [map]; now rewrite M1|]. auto.
  - rewrite step_search in H.
    edestruct (search_sim T states word prefix Tnormal Tsymbols Tunknown Tepsilon Tstates MAX_LOOP_COUNT c f r len LEN RP) as (c'' & E & E1 & E2 & E3).
    rewrite E in H. apply ok_pair in H. destruct H as [H <-].
    destruct (asearch MAX_LOOP_COUNT T word prefix len (bufferSize c) f r) as [o [f' r']] eqn:AS. cbn [fst snd] in *. subst o.
    pose proof (asearch_found T states word prefix Tnormal Tsymbols Tunknown Tepsilon Tstates _ _ _ _ _ _ _ _ _ _ CH LEN FD SO AS) as AF.
    split; [assumption|]. split; [assumption|]. split; [constructor|]. split; [|discriminate].
    exists []. rewrite app_nil_r. split; [reflexivity|]. split; [assumption|]. destruct FD as [F1 F2]. split; [|split].
    + intros p out k I. now destruct (F1 _ _ _ I).
    + intros p out k p' out' k' I A B. destruct (F1 _ _ _ I) as [_ B2]. apply F2; [assumption|].
      clear - B B2. revert p B B2. generalize (position f r). intros q p B. revert q.
      induction B; intros q' B2; inversion B2; subst; try (apply before_here; lia); apply before_later; auto.
    + intros X. injection X as ->. destruct AF as (A1 & -> & A3). split; [|assumption].
      destruct (E3 ltac:(discriminate)) as (_ & _ & _ & FL & _). rewrite FL. inversion A1; subst; reflexivity.
Qed.

Lemma found_start : forall word prefix fl, found T word prefix fl (start fl) [] [].
Proof.
  intros word prefix fl. split; [intros p out n []|]. intros p out n (P & _) B. unfold position, start in B. cbn in B.
  destruct (before_one _ _ B) as (j & q & -> & J). lia.
Qed.

Lemma chain_start : forall word prefix fl, good_flags T fl -> chain T states word prefix fl (start fl) [].
Proof. intros word prefix fl G. apply chain_base; try reflexivity. now apply start_in. Qed.

Lemma new_sized : forall size, (2 <= size)%nat -> sized T (new_configuration (flagDiacriticFeatureCount T) size).
Proof.
  intros size S. unfold sized, new_configuration. cbn [bufferSize stateIndexStack currentTransitionStack outputSymbolStack inputSymbolStack updatedFlagValue updatedFlagFeature currentFlagValues].
  rewrite !repeat_length. repeat (split; [solve [auto]|]). split.
  - intros NZ. rewrite (proj2 (Nat.eqb_neq _ _)) by assumption. rewrite repeat_length. auto.
  - apply (good_flags_neutral T Tsymbols).
Qed.

Lemma used_sized : forall size c, (2 <= size)%nat -> used T size c -> sized T c /\ bufferSize c = size.
Proof.
  intros size c S. induction 1.
  - split; [now apply new_sized|reflexivity].
  - destruct IHused as [I1 I2]. destruct (prepare_spec c word I1 ltac:(lia)) as (kn & c3 & P1 & P2 & P3 & P4 & P5). rewrite P1 in H2. injection H2 as <- <-.
    pose proof I1 as (_ & _ & _ & _ & _ & _ & GF).
    destruct (lookup_spec word prefix len H1 _ _ _ _ H3 _ _ _ [] (P5 prefix) (chain_start word prefix _ GF) (found_start _ _ _)) as (A & B & _); [constructor|].
    split; [assumption|congruence].
Qed.

Lemma exhausted_used : forall size c, exhausted T size c -> used T size c.
Proof.
  induction 1; [constructor|econstructor; eauto|]. eapply used_lookup with (prefix := false) (len := 1%nat); [eassumption|eassumption|exact (le_n 1)|eassumption|constructor].
Qed.

Lemma prepare_flags : forall c word known c1, prepare T c word = Ok (known, c1) -> currentFlagValues c1 = currentFlagValues c.
Proof.
  intros c word known c1 H. unfold prepare in H. apply bind_ok in H. destruct H as (st & _ & H). apply bind_ok in H. destruct H as (ct & _ & H).
  apply bind_ok in H. destruct H as ([[syms l] kn] & _ & H). injection H as _ <-. reflexivity.
Qed.

Lemma exhausted_neutral : forall size c, (2 <= size)%nat -> exhausted T size c -> currentFlagValues c = neutral T.
Proof.
  intros size c S. induction 1; [reflexivity| |rewrite (prepare_flags _ _ _ _ H1); assumption].
  destruct (used_sized size c S (exhausted_used _ _ H)) as [I1 I2]. destruct (prepare_spec c word I1 ltac:(lia)) as (kn & c3 & P1 & P2 & P3 & P4 & P5). rewrite P1 in H2. injection H2 as <- <-.
  pose proof I1 as (_ & _ & _ & _ & _ & _ & GF).
  destruct (lookup_spec word prefix len H1 _ _ _ _ H3 _ _ _ [] (P5 prefix) (chain_start word prefix _ GF) (found_start _ _ _)) as (A & B & _ & (M & _ & _ & _ & _ & M5) & _); [constructor|].
  destruct (M5 eq_refl) as [-> _]. assumption.
Qed.

Lemma lookup_same : forall word prefix len, (0 < len)%nat -> forall c results e c', lookup T prefix len c results e c' ->
  forall d f r, represents T states word prefix c f r -> represents T states word prefix d f r -> bufferSize c = bufferSize d ->
  exists d', lookup T prefix len d results e d'.
Proof.
  intros word prefix len LEN. induction 1; intros d f r RC RD SZ.
  - exists d. constructor.
  - rewrite step_search in H.
    destruct (search_sim T states word prefix Tnormal Tsymbols Tunknown Tepsilon Tstates MAX_LOOP_COUNT c f r len LEN RC) as (c'' & E & E1 & E2 & E3).
    destruct (search_sim T states word prefix Tnormal Tsymbols Tunknown Tepsilon Tstates MAX_LOOP_COUNT d f r len LEN RD) as (d'' & D & D1 & D2 & D3).
    rewrite <- SZ in D, D3. rewrite E in H. apply ok_pair in H. destruct H as [H <-]. rewrite H in D, E3, D3.
    destruct (IHlookup d'' _ _ (E3 ltac:(discriminate)) (D3 ltac:(discriminate)) ltac:(congruence)) as (d' & L). exists d'. econstructor; [|exact L]. now rewrite step_search.
  - rewrite step_search in H.
    destruct (search_sim T states word prefix Tnormal Tsymbols Tunknown Tepsilon Tstates MAX_LOOP_COUNT c f r len LEN RC) as (c'' & E & E1 & E2 & E3).
    destruct (search_sim T states word prefix Tnormal Tsymbols Tunknown Tepsilon Tstates MAX_LOOP_COUNT d f r len LEN RD) as (d'' & D & D1 & D2 & D3).
    rewrite <- SZ in D. rewrite E in H. apply ok_pair in H. destruct H as [H <-]. rewrite H in D. exists d''. apply lookup_false; [|assumption]. now rewrite step_search.
Qed.

End Lookup.
