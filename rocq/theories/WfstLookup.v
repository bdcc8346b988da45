(** * Looking up words one after another in a weighted transducer. *)
From Coq Require Import Sorted.
From Verif Require Import Base BaseFacts FstModel FstFileModel FstSpec FstProofs FstPaths FstLookup WfstModel WfstSpec WfstProofs WfstPaths.

Lemma ok_triple : forall A B C (a d : A) (b e : B) (c f : C), Ok (a, b, c) = Ok (d, e, f) -> a = d /\ b = e /\ c = f.
Proof. intros. injection H. auto. Qed.

Lemma known_prefix_length : forall W word, (length (known_prefix W word) <= length word)%nat.
Proof. intros W. induction word as [|c w IH]; cbn; [lia|]. destruct (find_symbol (w_stringToSymbol W) c); cbn; lia. Qed.

Lemma wprepare_loop_spec : forall W input syms len, (len + length input <= length syms)%nat ->
  exists syms' known, wprepare_loop W input syms len = Ok (syms', (len + length (known_prefix W input))%nat, known) /\
    (known = true <-> known_prefix W input = input) /\
    length syms' = length syms /\ (forall j, (j < len)%nat -> nth_error syms' j = nth_error syms j) /\
    (forall j ch, nth_error (known_prefix W input) j = Some ch -> nth_error syms' (len + j)%nat = Some (input_symbol (forget W) ch)).
Proof.
  intros W. induction input as [|c input IH]; intros syms len L; cbn [wprepare_loop known_prefix length] in *.
  - exists syms, true. rewrite Nat.add_0_r. split; [reflexivity|]. split; [tauto|]. split; [reflexivity|]. split; [auto|]. intros [|j] ch H; discriminate.
  - destruct (find_symbol (w_stringToSymbol W) c) as [v|] eqn:F.
    + rewrite FstProofs.wr_ok by lia. cbn [bind]. destruct (IH (upd syms len v) (S len)) as (syms' & known & E1 & E2 & E3 & E4 & E5); [rewrite upd_length; lia|].
      exists syms', known. rewrite E1. cbn [length]. replace (S len + length (known_prefix W input))%nat with (len + S (length (known_prefix W input)))%nat by lia.
      split; [reflexivity|]. split; [rewrite E2; split; intros X; [now rewrite X|now injection X]|]. rewrite upd_length in E3. split; [assumption|]. split.
      * intros j J. rewrite E4 by lia. apply upd_other. lia.
      * intros [|j] ch H; cbn [nth_error] in H.
        -- injection H as <-. rewrite Nat.add_0_r, E4 by lia. rewrite upd_same by lia. unfold input_symbol, forget. cbn [stringToSymbol]. now rewrite F.
        -- replace (len + S j)%nat with (S len + j)%nat by lia. auto.
    + exists syms, false. rewrite Nat.add_0_r. split; [reflexivity|]. split; [split; discriminate|]. split; [reflexivity|]. split; [auto|]. intros [|j] ch H; discriminate.
Qed.

Ltac wproj := cbn [wc_size wc_stackDepth wc_flagDepth wc_inputDepth wc_states wc_transitions wc_inputs wc_outputs wc_flags wc_inputLength].

Section WLookup.
Variable W : wtransducer.
Variable states : nat -> Prop.
Local Notation T := (forget W).
Hypothesis Wnormal : 0 < w_firstNormalChar W < FINAL.
Hypothesis Wsymbols : forall c s, find_symbol (w_stringToSymbol W) c = Some s -> w_firstNormalChar W <= s < Z.of_nat (length (w_symbolToString W)).
Hypothesis Wunknown : w_firstNormalChar W <= Z.of_nat (length (w_symbolToString W)).
Hypothesis Wepsilon : nth_error (w_symbolToString W) 0 = Some [].
Hypothesis Winitial : states 0%nat.
Hypothesis Wstates : forall q, states q -> good_wstate W q /\
  forall i c, has_wtransition W q i c -> good_wtransition W c /\ (w_symIn c <> 0xFFFFFFFF -> states (Z.to_nat (w_target c))).
Local Notation Tst := (Tstates W states Wstates).
Local Notation Tsy := (Tsymbols W Wsymbols).
Local Notation start := (start (neutral T)).

Lemma wstart_in : forall word, in_state T states word start.
Proof. intros word. apply (start_in T states Winitial Tst). apply (good_flags_neutral T Tsy). Qed.

Lemma wprepare_spec : forall c word, wsized W c -> (length word <= wc_size c)%nat ->
  exists known c1, wprepare W c word = Ok (known, c1) /\ wc_size c1 = wc_size c /\ (known = true <-> known_prefix W word = word) /\
    wrepresents W states (known_prefix W word) c1 start [].
Proof.
  intros c word (S1 & S2 & S3 & S4 & S5 & S6 & S7) L. unfold wprepare.
  rewrite !FstProofs.wr_ok by lia. cbn [bind].
  destruct (wprepare_loop_spec W word (wc_inputs c) 0) as (syms & known & -> & E0 & E1 & E2 & E3); [lia|]. cbn [bind Nat.add].
  eexists; eexists. split; [reflexivity|]. split; [reflexivity|]. split; [exact E0|].
  unfold wrepresents. wproj. split.
  - unfold wshape. wproj. rewrite !upd_length. repeat (split; [solve [auto; lia]|]). lia.
  - repeat (split; [reflexivity|]). apply wstk_base; try reflexivity; [now apply wstart_in| | |exact S7]; cbn [FstLookup.start fr_ct]; apply upd_same; lia.
Qed.

Lemma wfound_start : forall word, wfound W word (neutral T) start [] [].
Proof.
  intros word. split; [intros p out n []|]. intros _. apply (found_start T states Tst).
Qed.

Lemma wchain_start : forall word, chain T states word false (neutral T) start [].
Proof. intros word. apply chain_base; try reflexivity. apply wstart_in. Qed.

Lemma wnext_spec : forall word len c f r, (0 < len)%nat -> wrepresents W states word c f r ->
  exists o f' r' n c', wasearch MAX_LOOP_COUNT W word len (wc_size c) f r (fr_pos f) = (o, (f', r'), n) /\
    wnext W c len = Ok (o, c', n) /\ wc_size c' = wc_size c /\ wsized W c' /\ (o <> WTooDeep -> wrepresents W states word c' f' r').
Proof.
  intros word len c f r LEN RP. unfold wnext. replace (wc_inputDepth c) with (fr_pos f) by (destruct RP as (_ & _ & RP & _); now rewrite RP).
  pose proof (wsearch_sim W states word Wnormal Wsymbols Wunknown Wepsilon Wstates MAX_LOOP_COUNT c f r (fr_pos f) len LEN RP) as S.
  destruct (wasearch MAX_LOOP_COUNT W word len (wc_size c) f r (fr_pos f)) as [[o [f' r']] n].
  destruct S as (c' & S1 & S2 & S3 & S4). exists o, f', r', n, c'. auto.
Qed.

Definition shown (M : list result) : list (list Z * Z) := map (fun '(p, out, _) => (out, to_int16 (path_weight W p))) M.

Lemma wlookup_spec : forall word len, (0 < len)%nat -> forall c results e c', wlookup W len c results e c' ->
  forall f r L, wrepresents W states word c f r -> chain T states word false (neutral T) f r ->
    wfound W word (neutral T) f r L -> StronglySorted before (map rpath L) ->
  wsized W c' /\ wc_size c' = wc_size c /\ Forall (fun '(out, _) => (length out < len)%nat) results /\
  (exists M, shown M = results /\ StronglySorted before (map rpath (L ++ M)) /\
     (forall p out k, In (p, out, k) (L ++ M) -> acc T word false (neutral T) p out k) /\
     (in_file_order W /\ one_flag W ->
       (forall p out k p' out' k', In (p, out, k) (L ++ M) -> acc T word false (neutral T) p' out' k' -> before p' p -> In (p', out', k') (L ++ M)) /\
       (e = Some WEnd -> forall p out k, acc T word false (neutral T) p out k -> In (p, out, k) (L ++ M)))) /\
  (e = None -> exists o c'' n, wnext W c' len = Ok (o, c'', n)).
Proof.
  intros word len LEN.
  assert (BASE : forall f r L, wfound W word (neutral T) f r L ->
    (forall p out k, In (p, out, k) L -> acc T word false (neutral T) p out k) /\
    (in_file_order W /\ one_flag W -> forall p out k p' out' k', In (p, out, k) L -> acc T word false (neutral T) p' out' k' -> before p' p -> In (p', out', k') L)).
  { intros f r L [F1 F2]. split; [intros p out k I; now destruct (F1 _ _ _ I)|]. intros OO p out k p' out' k' I A B.
    destruct (F1 _ _ _ I) as [_ B2]. destruct (F2 OO) as [_ F3]. apply F3; [assumption|].
    clear - B B2. revert p B B2. generalize (position f r). intros q p B. revert q.
    induction B; intros q' B2; inversion B2; subst; try (apply before_here; lia); apply before_later; auto. }
  induction 1; intros f r L RP CH FD SO.
  - split; [apply wshape_sized with (word := word), RP|]. split; [reflexivity|]. split; [constructor|]. split.
    + exists []. rewrite app_nil_r. split; [reflexivity|]. split; [assumption|]. destruct (BASE _ _ _ FD) as [B1 B2]. split; [assumption|].
      intros OO. split; [exact (B2 OO)|discriminate].
    + intros _. destruct (wnext_spec _ _ _ _ _ LEN RP) as (o & f' & r' & n & c' & _ & E & _). eauto.
  - destruct (wnext_spec _ _ _ _ _ LEN RP) as (o & f' & r' & n' & c' & AS & E & E1 & E2 & E3).
    rewrite E in H. apply ok_triple in H. destruct H as (-> & -> & ->).
    destruct (wasearch_found W states word Wnormal Wsymbols Wunknown Wepsilon Wstates _ _ _ _ _ _ _ _ _ _ _ _ CH LEN FD SO AS) as (CH' & LO & p & -> & FD' & SO').
    destruct (IHwlookup f' r' (L ++ [(p, out, length word)])) as (I1 & I2 & I3 & (M & M1 & M2 & M3 & M4) & I5); auto; [apply E3; discriminate|].
    split; [assumption|]. split; [congruence|]. split; [constructor; assumption|]. split; [|assumption].
    exists ((p, out, length word) :: M). rewrite <- !app_assoc in M2, M3, M4. cbn [app] in *. split; [unfold shown; cbn [map]; fold (shown M); now rewrite M1|]. auto.
  - destruct (wnext_spec _ _ _ _ _ LEN RP) as (o & f' & r' & n' & c' & AS & E & E1 & E2 & E3).
    rewrite E in H. apply ok_triple in H. destruct H as (-> & -> & ->).
    pose proof (wasearch_found W states word Wnormal Wsymbols Wunknown Wepsilon Wstates _ _ _ _ _ _ _ _ _ _ _ _ CH LEN FD SO AS) as AF.
    split; [assumption|]. split; [assumption|]. split; [constructor|]. split; [|discriminate].
    exists []. rewrite app_nil_r. split; [reflexivity|]. split; [assumption|]. destruct (BASE _ _ _ FD) as [B1 B2]. split; [assumption|].
    intros OO. split; [exact (B2 OO)|]. intros X. injection X as ->. destruct AF as (_ & _ & AF). auto.
Qed.

Lemma new_wsized : forall size, (2 <= size)%nat -> wsized W (new_wconfiguration (w_featureCount W) size).
Proof.
  intros size SZ. unfold wsized, new_wconfiguration. wproj.
  rewrite !app_length, !repeat_length. repeat (split; [solve [auto]|]). split.
  - destruct size as [|n]; [lia|]. rewrite Nat.sub_succ, Nat.sub_0_r. lia.
  - unfold block. cbn [Nat.mul skipn]. rewrite firstn_app, repeat_length, Nat.sub_diag. cbn [firstn]. rewrite app_nil_r.
    rewrite <- (repeat_length 0 (w_featureCount W)) at 1. rewrite firstn_all. reflexivity.
Qed.

Lemma wused_sized : forall size c, (2 <= size)%nat -> wused W size c -> wsized W c /\ wc_size c = size.
Proof.
  intros size c S. induction 1.
  - split; [now apply new_wsized|reflexivity].
  - destruct IHwused as [I1 I2]. destruct (wprepare_spec c word I1 ltac:(lia)) as (kn & c3 & P1 & P2 & P3 & P4). rewrite P1 in H2. injection H2 as <- <-.
    destruct (wlookup_spec _ len H1 _ _ _ _ H3 _ _ [] P4 (wchain_start _) (wfound_start _)) as (A & B & _); [constructor|].
    split; [assumption|congruence].
Qed.

Lemma wlookup_same : forall word len, (0 < len)%nat -> forall c results e c', wlookup W len c results e c' ->
  forall d f r, wrepresents W states word c f r -> wrepresents W states word d f r -> wc_size c = wc_size d ->
  exists d', wlookup W len d results e d'.
Proof.
  intros word len LEN. induction 1; intros d f r RC RD SZ.
  - exists d. constructor.
  - destruct (wnext_spec _ _ _ _ _ LEN RC) as (o & f' & r' & n1 & c' & A1 & E & E1 & E2 & E3).
    destruct (wnext_spec _ _ _ _ _ LEN RD) as (o2 & f2 & r2 & n2 & d' & A2 & D & D1 & D2 & D3). rewrite <- SZ, A1 in A2. injection A2 as <- <- <- <-.
    rewrite E in H. apply ok_triple in H. destruct H as (-> & -> & ->).
    destruct (IHwlookup d' f' r' (E3 ltac:(discriminate)) (D3 ltac:(discriminate)) ltac:(congruence)) as (d2 & L). exists d2. econstructor; [exact D|exact L].
  - destruct (wnext_spec _ _ _ _ _ LEN RC) as (o & f' & r' & n1 & c' & A1 & E & E1 & E2 & E3).
    destruct (wnext_spec _ _ _ _ _ LEN RD) as (o2 & f2 & r2 & n2 & d' & A2 & D & D1 & D2 & D3). rewrite <- SZ, A1 in A2. injection A2 as <- <- <- <-.
    rewrite E in H. apply ok_triple in H. destruct H as (-> & -> & ->). exists d'. eapply wlookup_false; eauto.
Qed.

End WLookup.
