(** * The search of the transducer simulates a simple stack machine. *)
From Verif Require Import Base BaseFacts FstModel FstSpec.

(** ** Updates of arrays *)
Lemma upd_length : forall A (l : list A) i x, length (upd l i x) = length l.
Proof. induction l as [|a l IH]; intros [|i] x; cbn; auto. Qed.

Lemma upd_same : forall A (l : list A) i x, (i < length l)%nat -> nth_error (upd l i x) i = Some x.
Proof. induction l as [|a l IH]; intros [|i] x H; cbn in *; try lia; auto. apply IH. lia. Qed.

Lemma upd_other : forall A (l : list A) i j x, i <> j -> nth_error (upd l i x) j = nth_error l j.
Proof. induction l as [|a l IH]; intros [|i] [|j] x H; cbn; auto; try congruence. Qed.

Lemma upd_id : forall A (l : list A) i x, nth_error l i = Some x -> upd l i x = l.
Proof. induction l as [|a l IH]; intros [|i] x H; cbn in *; try congruence. f_equal. auto. Qed.

Lemma upd_upd : forall A (l : list A) i x y, upd (upd l i x) i y = upd l i y.
Proof. induction l as [|a l IH]; intros [|i] x y; cbn; auto. f_equal. auto. Qed.

Lemma wr_ok : forall A (l : list A) i x, (i < length l)%nat -> wr l i x = Ok (upd l i x).
Proof. intros. unfold wr. destruct (Nat.ltb_spec i (length l)); [reflexivity|lia]. Qed.

Lemma rdu_ok : forall l i n, nth_error l i = Some (Z.of_nat n) -> rdu l i = Ok n.
Proof.
  intros l i n H. unfold rdu, rd. rewrite H. cbn [bind]. destruct (Z.ltb_spec (Z.of_nat n) 0); [lia|].
  now rewrite Nat2Z.id.
Qed.

(** ** The stack machine *)
Record frame : Type := mk_fr { fr_state : nat; fr_ct : nat; fr_flags : list Z; fr_pos : nat }.
Definition set_ct (f : frame) (ct : nat) : frame := mk_fr (fr_state f) ct (fr_flags f) (fr_pos f).

Definition input_symbol (T : transducer) (c : Z) : Z :=
  match find_symbol (stringToSymbol T) c with Some s => s | None => unknownSymbolOrdinal T end.

(** What can be done with a transition: nothing, accept, or go on with these
    flags and this position. *)
Definition act (T : transducer) (word : list Z) (prefix : bool) (fl : list Z) (pos : nat) (t : cell)
    : option (option (list Z * nat)) :=
  if symIn t =? FINAL then if Nat.eqb pos (length word) || prefix then Some None else None
  else if firstNormalChar T <=? symIn t then
    match nth_error word pos with
    | Some c => if input_symbol T c =? symIn t then Some (Some (fl, S pos)) else None
    | None => None
    end
  else if symIn t =? 0 then Some (Some (fl, pos))
  else
    match nth_error (symbolToDiacritic T) (Z.to_nat (symIn t)) with
    | None => None
    | Some o =>
        match nth_error fl (ofv_feature o) with
        | None => None
        | Some v =>
            match flag_operation o v with
            | None => None
            | Some None => Some (Some (fl, pos))
            | Some (Some v') => Some (Some (upd fl (ofv_feature o) v', pos))
            end
        end
    end.

Fixpoint ascan (k : nat) (T : transducer) (word : list Z) (prefix : bool) (q : nat) (big : bool) (fl : list Z) (pos i : nat)
    : option (nat * cell * option (list Z * nat)) :=
  match k with
  | O => None
  | S k' =>
      if big && Nat.eqb i (q + 1) then ascan k' T word prefix q big fl pos (S i)
      else
        match nth_error (transitions T) i with
        | None => None
        | Some t =>
            match act T word prefix fl pos t with
            | Some a => Some (i, t, a)
            | None => ascan k' T word prefix q big fl pos (S i)
            end
        end
  end.

Definition outsym (T : transducer) (i : nat) : Z :=
  match nth_error (transitions T) i with
  | Some t => if firstNormalChar T <=? symOut t then symOut t else 0
  | None => 0
  end.
Definition osyms (T : transducer) (below : list frame) : list Z := rev (map (fun f => outsym T (fr_ct f)) below).

Definition topscan (T : transducer) (word : list Z) (prefix : bool) (f : frame) :=
  match extent T (fr_state f) with
  | None => None
  | Some (last, big) => ascan (S last - fr_ct f) T word prefix (fr_state f) big (fr_flags f) (fr_pos f) (fr_ct f)
  end.

Fixpoint asearch (n : nat) (T : transducer) (word : list Z) (prefix : bool) (bufferLen size : nat) (top : frame) (below : list frame)
    : outcome * (frame * list frame) :=
  match n with
  | O => (LoopLimit, (top, below))
  | S n' =>
      match topscan T word prefix top with
      | None =>
          match below with
          | [] => (End, (top, []))
          | g :: r => asearch n' T word prefix bufferLen size (set_ct g (S (fr_ct g))) r
          end
      | Some (i, t, None) =>
          match write_output T (osyms T below) bufferLen [] with
          | Ok (Some out) => (Found out (fr_pos top), (set_ct top (S i), below))
          | _ => (TooLong, (top, below))
          end
      | Some (i, t, Some (fl, pos)) =>
          if Nat.eqb (length below + 2) size then (TooDeep, (top, below))
          else
            let q := Z.to_nat (targetState t) in
            asearch n' T word prefix bufferLen size (mk_fr q q fl pos) (set_ct top i :: below)
      end
  end.

Lemma extent_le : forall T q last big, extent T q = Some (last, big) -> (q <= last)%nat.
Proof.
  intros T q last big E. unfold extent in E. destruct (nth_error (transitions T) q) as [h|]; [|discriminate].
  destruct (moreTransitions h =? 255).
  - destruct (nth_error (transitions T) (q + 1)); [|discriminate]. injection E as <- <-. lia.
  - injection E as <- <-. lia.
Qed.

(** ** Simulation *)
Section Simulation.
Variable T : transducer.
Variable states : nat -> Prop.
Variable word : list Z.
Variable prefix : bool.
Hypothesis Tnormal : 0 < firstNormalChar T < FINAL.
Hypothesis Tsymbols : forall c s, symbol_of T c s -> firstNormalChar T <= s < unknownSymbolOrdinal T.
Hypothesis Tunknown : firstNormalChar T <= unknownSymbolOrdinal T.
Hypothesis Tepsilon : nth_error (symbolToString T) 0 = Some [].
Hypothesis Tinitial : states 0%nat.
Hypothesis Tstates : forall q, states q -> good_state T q /\
  forall i t, has_transition T q i t -> good_transition T t /\ (symIn t <> FINAL -> states (Z.to_nat (targetState t))).

Definition is_flag (t : cell) : bool := negb (firstNormalChar T <=? symIn t) && negb (symIn t =? 0).

(** Parts of a configuration that do not change. *)
Definition shape (c : configuration) : Prop :=
  (2 <= bufferSize c)%nat /\ (stackDepth c + 2 <= bufferSize c)%nat /\
  length (stateIndexStack c) = bufferSize c /\ length (currentTransitionStack c) = bufferSize c /\
  length (outputSymbolStack c) = bufferSize c /\
  (flagDiacriticFeatureCount T <> 0%nat -> length (updatedFlagValue c) = bufferSize c /\ length (updatedFlagFeature c) = bufferSize c) /\
  inputLength c = length word /\
  (forall j ch, nth_error word j = Some ch -> nth_error (inputSymbolStack c) j = Some (input_symbol T ch)) /\
  length (inputSymbolStack c) = bufferSize c.

Definition good_flags (fl : list Z) : Prop := length fl = flagDiacriticFeatureCount T /\ Forall (fun v => 0 <= v) fl.

Definition in_state (f : frame) : Prop :=
  states (fr_state f) /\ good_flags (fr_flags f) /\ (fr_pos f <= length word)%nat /\
  (fr_state f <= fr_ct f)%nat /\ forall last big, extent T (fr_state f) = Some (last, big) -> (fr_ct f <= S last)%nat.

(** The arrays of a configuration hold the stack [top :: below]. *)
Inductive stk (sis cts outs uv uf : list Z) : frame -> list frame -> nat -> Prop :=
| stk_base f : fr_state f = 0%nat -> fr_pos f = 0%nat -> in_state f ->
    nth_error sis 0 = Some 0 -> nth_error cts 0 = Some (Z.of_nat (fr_ct f)) ->
    stk sis cts outs uv uf f [] 0
| stk_push f g r fd t : stk sis cts outs uv uf g r fd -> in_state f ->
    has_transition T (fr_state g) (fr_ct g) t ->
    act T word prefix (fr_flags g) (fr_pos g) t = Some (Some (fr_flags f, fr_pos f)) ->
    fr_state f = Z.to_nat (targetState t) ->
    nth_error outs (length r) = Some (outsym T (fr_ct g)) ->
    nth_error sis (S (length r)) = Some (targetState t) ->
    nth_error cts (S (length r)) = Some (Z.of_nat (fr_ct f)) ->
    (is_flag t = true -> exists o v, nth_error (symbolToDiacritic T) (Z.to_nat (symIn t)) = Some o /\
       nth_error (fr_flags g) (ofv_feature o) = Some v /\
       nth_error uf fd = Some (Z.of_nat (ofv_feature o)) /\ nth_error uv fd = Some v) ->
    stk sis cts outs uv uf f (g :: r) (if is_flag t then S fd else fd).

Definition represents (c : configuration) (f : frame) (r : list frame) : Prop :=
  shape c /\ stackDepth c = length r /\ inputDepth c = fr_pos f /\ currentFlagValues c = fr_flags f /\
  stk (stateIndexStack c) (currentTransitionStack c) (outputSymbolStack c) (updatedFlagValue c) (updatedFlagFeature c)
    f r (flagDepth c).

Lemma stk_depth : forall sis cts outs uv uf f r fd, stk sis cts outs uv uf f r fd -> (fd <= length r)%nat.
Proof. induction 1; cbn; [lia|]. destruct (is_flag t); lia. Qed.

Lemma stk_in : forall sis cts outs uv uf f r fd, stk sis cts outs uv uf f r fd -> in_state f.
Proof. destruct 1; auto. Qed.

Lemma stk_top : forall sis cts outs uv uf f r fd, stk sis cts outs uv uf f r fd ->
  nth_error sis (length r) = Some (Z.of_nat (fr_state f)) /\ nth_error cts (length r) = Some (Z.of_nat (fr_ct f)).
Proof.
  destruct 1; cbn [length].
  - rewrite H. auto.
  - split; [|assumption]. rewrite H5, H3. f_equal.
    destruct (stk_in _ _ _ _ _ _ _ _ H) as [A _]. destruct (Tstates _ A) as [_ B]. destruct (B _ _ H1) as [C _].
    destruct C as [C|[_ [_ [C _]]]]; [|lia].
    unfold act in H2. rewrite C, Z.eqb_refl in H2. destruct (_ || _); discriminate.
Qed.

Lemma stk_ext : forall sis cts outs uv uf f r fd, stk sis cts outs uv uf f r fd ->
  forall sis' cts' outs' uv' uf',
  (forall j, (j <= length r)%nat -> nth_error sis' j = nth_error sis j) ->
  (forall j, (j <= length r)%nat -> nth_error cts' j = nth_error cts j) ->
  (forall j, (j < length r)%nat -> nth_error outs' j = nth_error outs j) ->
  (forall j, (j < fd)%nat -> nth_error uv' j = nth_error uv j) ->
  (forall j, (j < fd)%nat -> nth_error uf' j = nth_error uf j) ->
  stk sis' cts' outs' uv' uf' f r fd.
Proof.
  induction 1; intros sis' cts' outs' uv' uf' A B C D E.
  - constructor; auto; cbn [length] in *; [rewrite A; auto|rewrite B; auto].
  - cbn [length] in *. econstructor; eauto.
    + apply IHstk; intros j J; [apply A|apply B|apply C|apply D|apply E]; try lia; destruct (is_flag t); lia.
    + rewrite C by lia. assumption.
    + rewrite A by lia. assumption.
    + rewrite B by lia. assumption.
    + intros F. destruct (H7 F) as (o & v & P & Q & R & S'). exists o, v. rewrite F in D, E.
      rewrite D, E by lia. auto.
Qed.

Lemma stk_set : forall sis cts outs uv uf f r fd i, stk sis cts outs uv uf f r fd ->
  (length r < length cts)%nat -> in_state (set_ct f i) ->
  stk sis (upd cts (length r) (Z.of_nat i)) outs uv uf (set_ct f i) r fd.
Proof.
  intros sis cts outs uv uf f r fd i H L I. destruct H; cbn [length] in *.
  - constructor; auto. cbn [fr_ct set_ct]. apply upd_same. assumption.
  - apply stk_push with (f := set_ct f i); cbn [fr_flags fr_pos fr_state fr_ct set_ct length]; auto.
    + eapply stk_ext; eauto. intros j J. apply upd_other. lia.
    + apply upd_same. assumption.
Qed.

Lemma osyms_spec : forall sis cts outs uv uf f r fd, stk sis cts outs uv uf f r fd ->
  (length r <= length outs)%nat -> firstn (length r) outs = osyms T r.
Proof.
  induction 1; intros L; cbn [length] in *; [reflexivity|].
  unfold osyms in *. cbn [map rev]. rewrite <- IHstk by lia.
  assert (G : forall A (l : list A) n x, nth_error l n = Some x -> firstn (S n) l = firstn n l ++ [x]).
  { clear. induction l as [|a l IH]; intros [|n] x H; cbn in *; try congruence. f_equal. auto. }
  now apply G.
Qed.

Lemma good_flags_neutral : good_flags (neutral T).
Proof.
  split; [apply repeat_length|]. apply Forall_forall. intros v H. apply repeat_spec in H. lia.
Qed.

Lemma upd_flags : forall fl f v, good_flags fl -> 0 <= v -> good_flags (upd fl f v).
Proof.
  intros fl f v [A B] V. split; [now rewrite upd_length|]. clear A. revert f.
  induction B as [|x l X B IH]; intros [|f]; cbn; constructor; auto.
Qed.

Lemma flag_value : forall o v u, 0 <= ofv_value o -> flag_operation o v = Some (Some u) -> 0 <= u.
Proof.
  intros [op f x] v u X. unfold flag_operation. cbn [ofv_op ofv_value] in *. destruct op; intros E.
  - injection E as <-. assumption.
  - injection E as <-. unfold FlagValueNeutral. lia.
  - destruct (negb (v =? 0)); [destruct (negb _); discriminate|]. injection E as <-. assumption.
  - destruct (_ && _); [discriminate|]. destruct (_ && _); discriminate.
  - destruct (_ || _); discriminate.
Qed.

(** Going on along a transition leads to a good frame. *)
Lemma act_in : forall f t fl pos, in_state f -> has_transition T (fr_state f) (fr_ct f) t ->
  act T word prefix (fr_flags f) (fr_pos f) t = Some (Some (fl, pos)) ->
  in_state (mk_fr (Z.to_nat (targetState t)) (Z.to_nat (targetState t)) fl pos).
Proof.
  intros f t fl pos (S1 & G & L & _) HT A. destruct (Tstates _ S1) as [_ B]. destruct (B _ _ HT) as [C D].
  unfold act in A. destruct (symIn t =? FINAL) eqn:E0; [destruct (_ || _); discriminate|].
  apply Z.eqb_neq in E0. destruct C as [C|(C0 & C1 & C2 & C3 & C4)]; [contradiction|].
  assert (ST : states (Z.to_nat (targetState t))) by auto.
  assert (R : good_flags fl /\ (pos <= length word)%nat).
  { destruct (firstNormalChar T <=? symIn t) eqn:E1.
    - destruct (nth_error word (fr_pos f)) eqn:E2; [|discriminate]. destruct (input_symbol T z =? symIn t); [|discriminate].
      injection A as <- <-. split; [assumption|]. assert (fr_pos f < length word)%nat by (apply nth_error_Some; congruence). lia.
    - destruct (symIn t =? 0) eqn:E2; [injection A as <- <-; auto|].
      destruct C3 as (o & O1 & O2 & O3); [lia|]. rewrite O1 in A.
      destruct (nth_error (fr_flags f) (ofv_feature o)) eqn:E3; [|discriminate].
      destruct (flag_operation o z) as [[u|]|] eqn:E4; [| |discriminate]; injection A as <- <-; [|auto].
      split; [|assumption]. apply upd_flags; [assumption|]. eapply flag_value; eauto. }
  destruct R as [R1 R2]. split; [exact ST|]. split; [exact R1|]. split; [exact R2|]. cbn [fr_state fr_ct]. split; [lia|].
  intros last big E. apply extent_le in E. lia.
Qed.

(** The scan of a state. *)
Definition final_result (bufferLen : nat) (c : configuration) (i : nat) : res scanned :=
  syms <- (if (stackDepth c <=? length (outputSymbolStack c))%nat
           then Ok (firstn (stackDepth c) (outputSymbolStack c)) else UB) ;;
  o <- write_output T syms bufferLen [] ;;
  match o with
  | None => Ok (Stop TooLong c)
  | Some out =>
      cts <- wr (currentTransitionStack c) (stackDepth c) (Z.of_nat (S i)) ;;
      Ok (Stop (Found out (inputDepth c))
            (mk_conf (bufferSize c) (stackDepth c) (flagDepth c) (inputDepth c) (stateIndexStack c) cts
               (inputSymbolStack c) (outputSymbolStack c) (currentFlagValues c) (updatedFlagValue c)
               (updatedFlagFeature c) (inputLength c)))
  end.
Definition down_result (c : configuration) (i : nat) (t : cell) : res scanned :=
  if firstNormalChar T <=? symIn t then go_down T c i t
  else o <- flagDiacriticCheck T c (symIn t) ;; match o with Some c' => go_down T c' i t | None => Ok Exhausted end.

Lemma input_known : forall ch, firstNormalChar T <= input_symbol T ch <= unknownSymbolOrdinal T.
Proof.
  intros ch. unfold input_symbol. destruct (find_symbol (stringToSymbol T) ch) eqn:E; [|lia].
  specialize (Tsymbols ch z E). lia.
Qed.

(** One transition. *)
Lemma scan_cell : forall q i t bufferLen c f maxTc tc, states q -> has_transition T q i t -> shape c ->
  inputDepth c = fr_pos f -> (fr_pos f <= length word)%nat -> currentFlagValues c = fr_flags f -> good_flags (fr_flags f) ->
  (flagDepth c <= stackDepth c)%nat ->
  forall n, (tc <= maxTc)%nat -> (Nat.eqb tc 1 && (255 <=? maxTc)%nat = false) ->
  scan (S n) T prefix bufferLen c maxTc tc i =
  match act T word prefix (fr_flags f) (fr_pos f) t with
  | Some None => final_result bufferLen c i
  | Some (Some _) => down_result c i t
  | None => scan n T prefix bufferLen c maxTc (S tc) (S i)
  end.
Proof.
  intros q i t bufferLen c f maxTc tc Q HT SH ID IL FL GF FD n TC SK. cbn [scan].
  replace (negb (tc <=? maxTc)%nat) with false by (destruct (Nat.leb_spec tc maxTc); [reflexivity|lia]).
  rewrite SK. destruct (Tstates _ Q) as [_ B]. destruct (B _ _ HT) as [C _].
  destruct HT as (last & big & _ & _ & _ & N). unfold rd at 1. rewrite N. cbn [bind].
  unfold act. fold FINAL. destruct (symIn t =? FINAL) eqn:E0.
  - rewrite ID. destruct SH as (_ & _ & _ & _ & _ & _ & SI & _). rewrite SI. destruct (_ || _); [|reflexivity].
    unfold final_result. rewrite ID, SI. reflexivity.
  - apply Z.eqb_neq in E0. destruct C as [C|(C0 & C1 & C2 & C3 & C4)]; [contradiction|].
    assert (IS : (if (inputDepth c <? inputLength c)%nat
                  then s <- rdu (inputSymbolStack c) (inputDepth c) ;; Ok (Z.of_nat s =? symIn t) else Ok false) =
                 Ok (match nth_error word (fr_pos f) with Some ch => input_symbol T ch =? symIn t | None => false end)).
    { destruct SH as (_ & _ & _ & _ & _ & _ & SI & SW & _). rewrite SI, ID.
      destruct (Nat.ltb_spec (fr_pos f) (length word)).
      - destruct (nth_error word (fr_pos f)) as [ch|] eqn:E; [|apply nth_error_None in E; lia].
        pose proof (input_known ch). rewrite (rdu_ok _ _ (Z.to_nat (input_symbol T ch))).
        + cbn [bind]. do 2 f_equal. lia.
        + rewrite (SW _ _ E). f_equal. lia.
      - destruct (nth_error word (fr_pos f)) as [ch|] eqn:E; [|reflexivity].
        assert (fr_pos f < length word)%nat by (apply nth_error_Some; congruence). lia. }
    rewrite IS. cbn [bind].
    destruct (firstNormalChar T <=? symIn t) eqn:E1.
    + replace (symIn t <? firstNormalChar T) with false by lia.
      destruct (nth_error word (fr_pos f)) as [ch|]; [|reflexivity].
      destruct (input_symbol T ch =? symIn t); [|reflexivity]. unfold down_result. now rewrite E1.
    + replace (symIn t <? firstNormalChar T) with true by lia.
      assert (NM : (match nth_error word (fr_pos f) with Some ch => input_symbol T ch =? symIn t | None => false end) = false).
      { destruct (nth_error word (fr_pos f)) as [ch|]; [|reflexivity]. pose proof (input_known ch). lia. }
      rewrite NM. unfold down_result. rewrite E1. unfold flagDiacriticCheck.
      destruct (symIn t =? 0) eqn:E2.
      * rewrite orb_true_r. reflexivity.
      * destruct C3 as (o & O1 & O2 & O3); [lia|].
        destruct (Nat.eqb_spec (flagDiacriticFeatureCount T) 0) as [Z0|Z0]; [lia|]. cbn [orb].
        destruct (Z.ltb_spec (symIn t) 0); [lia|]. unfold rd at 1 3. rewrite O1. cbn [bind].
        unfold rd. rewrite FL. destruct (nth_error (fr_flags f) (ofv_feature o)) as [v|] eqn:E3.
        2:{ apply nth_error_None in E3. destruct GF as [GF _]. lia. }
        cbn [bind]. destruct SH as (S1 & S2 & S3 & S4 & S5 & S6 & _). destruct (S6 Z0) as [S7 S8].
        destruct (flag_operation o v) as [[u|]|] eqn:E4; [| |reflexivity].
        -- rewrite !wr_ok by lia. cbn [bind]. rewrite wr_ok by (apply nth_error_Some; congruence). reflexivity.
        -- rewrite !wr_ok by lia. reflexivity.
Qed.

Lemma scan_spec : forall k q last big i bufferLen c f, states q -> extent T q = Some (last, big) -> shape c ->
  inputDepth c = fr_pos f -> (fr_pos f <= length word)%nat -> currentFlagValues c = fr_flags f -> good_flags (fr_flags f) ->
  (flagDepth c <= stackDepth c)%nat ->
  k = (S last - i)%nat -> (q <= i <= S last)%nat ->
  forall n, (k <= n)%nat ->
  scan n T prefix bufferLen c (last - q) (i - q) i =
  match ascan k T word prefix q big (fr_flags f) (fr_pos f) i with
  | None => Ok Exhausted
  | Some (i', t, None) => final_result bufferLen c i'
  | Some (i', t, Some _) => down_result c i' t
  end.
Proof.
  assert (CELL : forall q last big i, states q -> extent T q = Some (last, big) -> (q <= i <= last)%nat -> exists t, nth_error (transitions T) i = Some t).
  { intros q last big i Q X I. destruct (Tstates _ Q) as [(l' & b' & X' & L1 & _) _]. rewrite X in X'. injection X' as <- <-.
    destruct (nth_error (transitions T) i) eqn:E; [eauto|]. apply nth_error_None in E. lia. }
  induction k as [k IH] using lt_wf_ind. intros q last big i bufferLen c f Q X SH ID IL FL GF FD K I n N. pose proof (extent_le _ _ _ _ X) as XL.
  destruct k as [|k].
  - cbn [ascan]. assert (E : (i - q <=? last - q)%nat = false) by (apply Nat.leb_gt; lia).
    destruct n; cbn [scan]; rewrite E; reflexivity.
  - destruct n as [|n]; [lia|].
    destruct (Tstates _ Q) as [(l' & b' & X' & L1 & L2 & BG) _]. rewrite X in X'. injection X' as <- <-.
    destruct (big && Nat.eqb i (q + 1)) eqn:EB.
    + apply andb_true_iff in EB. destruct EB as [-> EB]. apply Nat.eqb_eq in EB. subst i.
      assert (KK : exists k', k = S k') by (destruct k; [lia|eauto]). destruct KK as [k' ->].
      assert (SC : scan (S n) T prefix bufferLen c (last - q) (q + 1 - q) (q + 1) = scan (S n) T prefix bufferLen c (last - q) (S (q + 1) - q) (S (q + 1))).
      { cbn [scan]. replace (q + 1 - q)%nat with 1%nat by lia. replace (S (q + 1) - q)%nat with 2%nat by lia.
        cbn [Nat.eqb andb]. destruct (Nat.leb_spec 255 (last - q)) as [W|W]; [|lia].
        destruct (Nat.leb_spec 1 (last - q)); [|lia]. destruct (Nat.leb_spec 2 (last - q)); [|lia]. reflexivity. }
      rewrite SC. cbn [ascan]. replace (Nat.eqb (q + 1) (q + 1)) with true by (symmetry; apply Nat.eqb_refl). cbn [andb].
      change (scan (S n) T prefix bufferLen c (last - q) (S (q + 1) - q) (S (q + 1)) =
        match ascan (S k') T word prefix q true (fr_flags f) (fr_pos f) (S (q + 1)) with
        | None => Ok Exhausted | Some (i', t, None) => final_result bufferLen c i' | Some (i', t, Some _) => down_result c i' t end).
      apply IH; auto; lia.
    + destruct (CELL q last big i Q X ltac:(lia)) as [t Ht].
      assert (HT : has_transition T q i t).
      { exists last, big. split; [assumption|]. split; [lia|]. split; [|assumption]. intros ->. cbn [andb] in EB. apply Nat.eqb_neq in EB. assumption. }
      rewrite (scan_cell q i t bufferLen c f (last - q) (i - q)) ; auto; [|lia|].
      2:{ destruct (Nat.eqb_spec (i - q) 1) as [E1|]; [|reflexivity]. cbn [andb]. apply Nat.leb_gt.
          destruct big; [|lia]. cbn [andb] in EB. apply Nat.eqb_neq in EB. lia. }
      cbn [ascan]. rewrite EB, Ht. destruct (act T word prefix (fr_flags f) (fr_pos f) t) as [[x|]|] eqn:EA; try reflexivity.
      replace (S (i - q)) with (S i - q)%nat by lia. apply IH; auto; lia.
Qed.

Lemma ascan_in : forall k q last big fl pos i i' t a, states q -> extent T q = Some (last, big) -> k = (S last - i)%nat -> (q <= i)%nat ->
  ascan k T word prefix q big fl pos i = Some (i', t, a) ->
  (i <= i')%nat /\ has_transition T q i' t /\ act T word prefix fl pos t = Some a /\
  forall j u, (i <= j < i')%nat -> has_transition T q j u -> act T word prefix fl pos u = None.
Proof.
  induction k as [|k IH]; intros q last big fl pos i i' t a Q X K I E; [discriminate|]. cbn [ascan] in E.
  assert (K' : k = (S last - S i)%nat) by lia. assert (I' : (q <= S i)%nat) by lia.
  destruct (big && Nat.eqb i (q + 1)) eqn:EB.
  - destruct (IH _ _ _ _ _ _ _ _ _ Q X K' I' E) as (A & B & C & D). split; [lia|]. split; [assumption|]. split; [assumption|].
    intros j u J HU. destruct (Nat.eq_dec j i) as [->|]; [|apply (D j); [lia|assumption]].
    destruct HU as (l' & b' & X' & _ & NB & _). rewrite X in X'. injection X' as <- <-.
    apply andb_true_iff in EB. destruct EB as [EB1 EB2]. apply Nat.eqb_eq in EB2. now apply NB in EB1.
  - destruct (nth_error (transitions T) i) as [x|] eqn:EX; [|discriminate].
    assert (HT : has_transition T q i x).
    { exists last, big. split; [assumption|]. split; [lia|]. split; [|assumption]. intros ->. cbn [andb] in EB. now apply Nat.eqb_neq in EB. }
    destruct (act T word prefix fl pos x) as [y|] eqn:EA.
    + injection E as <- <- <-. split; [lia|]. split; [assumption|]. split; [assumption|]. intros j u J _. lia.
    + destruct (IH _ _ _ _ _ _ _ _ _ Q X K' I' E) as (A & B & C & D). split; [lia|]. split; [assumption|]. split; [assumption|].
      intros j u J HU. destruct (Nat.eq_dec j i) as [->|]; [|apply (D j); [lia|assumption]].
      destruct HU as (_ & _ & _ & _ & _ & N). congruence.
Qed.

Lemma ascan_none : forall k q last big fl pos i, states q -> extent T q = Some (last, big) -> k = (S last - i)%nat -> (q <= i)%nat ->
  ascan k T word prefix q big fl pos i = None ->
  forall j u, (i <= j)%nat -> has_transition T q j u -> act T word prefix fl pos u = None.
Proof.
  induction k as [|k IH]; intros q last big fl pos i Q X K I E j u J HU.
  - destruct HU as (l' & b' & X' & B & _). rewrite X in X'. injection X' as <- <-. lia.
  - cbn [ascan] in E. assert (K' : k = (S last - S i)%nat) by lia. assert (I' : (q <= S i)%nat) by lia.
    destruct (big && Nat.eqb i (q + 1)) eqn:EB.
    + destruct (Nat.eq_dec j i) as [->|]; [|apply (IH _ _ _ _ _ _ Q X K' I' E j); [lia|assumption]].
      destruct HU as (l' & b' & X' & _ & NB & _). rewrite X in X'. injection X' as <- <-.
      apply andb_true_iff in EB. destruct EB as [EB1 EB2]. apply Nat.eqb_eq in EB2. now apply NB in EB1.
    + destruct (nth_error (transitions T) i) as [x|] eqn:EX.
      * destruct (act T word prefix fl pos x) as [y|] eqn:EA; [discriminate|].
        destruct (Nat.eq_dec j i) as [->|]; [|apply (IH _ _ _ _ _ _ Q X K' I' E j); [lia|assumption]].
        destruct HU as (_ & _ & _ & _ & _ & N). congruence.
      * destruct (Tstates _ Q) as [(l' & b' & X' & L1 & _) _]. rewrite X in X'. injection X' as <- <-. apply nth_error_None in EX.
        lia.
Qed.

(** Writing the output. *)
Definition has_string (s : Z) (str : list Z) : Prop := 0 <= s /\ nth_error (symbolToString T) (Z.to_nat s) = Some str.

Lemma write_output_spec : forall syms strs bufferLen out, Forall2 has_string syms strs -> (length out < bufferLen)%nat ->
  write_output T syms bufferLen out = Ok (Some (out ++ concat strs)) \/ write_output T syms bufferLen out = Ok None.
Proof.
  induction syms as [|s syms IH]; intros strs bufferLen out H L; inversion H; subst; cbn [write_output].
  - destruct (Nat.ltb_spec (length out) bufferLen); [|lia]. left. cbn [concat]. now rewrite app_nil_r.
  - destruct H2 as [S1 S2]. destruct (Z.ltb_spec s 0); [lia|]. unfold rd. rewrite S2. cbn [bind].
    destruct (Nat.leb_spec bufferLen (length out + length y + 1)); [now right|].
    destruct (IH l' bufferLen (out ++ y) H4) as [E|E]; [rewrite app_length; lia| |]; rewrite E; cbn [concat]; [left|now right].
    now rewrite app_assoc.
Qed.

Lemma outsym_string : forall q i t, states q -> has_transition T q i t -> symIn t <> FINAL ->
  exists str, has_string (outsym T i) str /\ writes T t str.
Proof.
  intros q i t Q HT NF. destruct (Tstates _ Q) as [_ B]. destruct (B _ _ HT) as [[C|(_ & _ & _ & _ & C)] _]; [contradiction|].
  destruct HT as (_ & _ & _ & _ & _ & N). unfold outsym, writes. rewrite N.
  destruct (firstNormalChar T <=? symOut t) eqn:E.
  - destruct C as [s C]; [lia|]. exists s. split; [|assumption]. split; [lia|assumption].
  - exists []. split; [|reflexivity]. split; [lia|exact Tepsilon].
Qed.

Lemma act_not_final : forall fl pos t x, act T word prefix fl pos t = Some (Some x) -> symIn t <> FINAL.
Proof.
  intros fl pos t x A E. unfold act in A. rewrite E, Z.eqb_refl in A. destruct (_ || _); discriminate.
Qed.

Lemma osyms_strings : forall sis cts outs uv uf f r fd, stk sis cts outs uv uf f r fd -> exists strs, Forall2 has_string (osyms T r) strs.
Proof.
  induction 1; [exists []; constructor|]. destruct IHstk as [strs I].
  destruct (stk_in _ _ _ _ _ _ _ _ H) as [Q _].
  destruct (outsym_string _ _ _ Q H1 (act_not_final _ _ _ _ H2)) as (str & S1 & _).
  exists (strs ++ [str]). unfold osyms in *. cbn [map rev]. apply Forall2_app; [assumption|]. constructor; [assumption|constructor].
Qed.

Definition sized (c : configuration) : Prop :=
  (2 <= bufferSize c)%nat /\
  length (stateIndexStack c) = bufferSize c /\ length (currentTransitionStack c) = bufferSize c /\
  length (outputSymbolStack c) = bufferSize c /\ length (inputSymbolStack c) = bufferSize c /\
  (flagDiacriticFeatureCount T <> 0%nat -> length (updatedFlagValue c) = bufferSize c /\ length (updatedFlagFeature c) = bufferSize c) /\
  good_flags (currentFlagValues c).

Lemma represents_sized : forall c f r, represents c f r -> sized c.
Proof.
  intros c f r (SH & _ & _ & FL & K). destruct SH as (S1 & S2 & S3 & S4 & S5 & S6 & S7 & S8 & S9).
  repeat (split; [solve [auto]|]). rewrite FL. apply (stk_in _ _ _ _ _ _ _ _ K).
Qed.

Lemma getMaxTc_spec : forall q last big, states q -> extent T q = Some (last, big) -> getMaxTc T q = Ok (last - q)%nat.
Proof.
  intros q last big Q X. destruct (Tstates _ Q) as [(l' & b' & X' & L1 & L2 & BG) _]. rewrite X in X'. injection X' as <- <-.
  unfold getMaxTc, rd. unfold extent in X. destruct (nth_error (transitions T) q) as [h|]; [|discriminate]. cbn [bind].
  destruct (moreTransitions h =? 255).
  - destruct (nth_error (transitions T) (q + 1)) as [o|]; [|discriminate]. injection X as <- <-. cbn [bind].
    rewrite Z.mod_small by lia. f_equal. lia.
  - injection X as <- <-. f_equal. lia.
Qed.

(** Result of going on along a transition. *)
Lemma down_sim : forall c f r i t fl pos, represents c f r -> has_transition T (fr_state f) i t -> (fr_ct f <= i)%nat ->
  act T word prefix (fr_flags f) (fr_pos f) t = Some (Some (fl, pos)) ->
  (if Nat.eqb (length r + 2) (bufferSize c) then exists c', down_result c i t = Ok (Stop TooDeep c') /\ sized c' /\ bufferSize c' = bufferSize c
   else exists c', down_result c i t = Ok (Down c') /\ bufferSize c' = bufferSize c /\
     represents c' (mk_fr (Z.to_nat (targetState t)) (Z.to_nat (targetState t)) fl pos) (set_ct f i :: r)).
Proof.
  intros c f r i t fl pos RP HT I A.
  pose proof (represents_sized _ _ _ RP) as SZ.
  destruct RP as (SH & SD & ID & FL & K). pose proof SH as (S1 & S2 & S3 & S4 & S5 & S6 & S7 & S8 & S9).
  pose proof (stk_in _ _ _ _ _ _ _ _ K) as IN. pose proof (stk_depth _ _ _ _ _ _ _ _ K) as FD.
  pose proof IN as (Q & GF & PL & CT & CL).
  assert (IN' : in_state (set_ct f i)).
  { split; [exact Q|]. split; [exact GF|]. split; [exact PL|]. cbn [fr_state fr_ct set_ct]. split; [lia|].
    intros last big X. destruct HT as (l' & b' & X' & B & _). rewrite X in X'. injection X' as <- <-. lia. }
  pose proof (act_in (set_ct f i) t fl pos IN' HT A) as IN2.
  destruct (Tstates _ Q) as [_ B]. destruct (B _ _ HT) as [GT NX]. pose proof (act_not_final _ _ _ _ A) as NF.
  destruct GT as [GT|(C0 & C1 & C2 & C3 & C4)]; [contradiction|].
  assert (OS : outsym T i = if firstNormalChar T <=? symOut t then symOut t else 0).
  { unfold outsym. destruct HT as (_ & _ & _ & _ & _ & N). now rewrite N. }
  (* the configuration after the flag check *)
  assert (FC : exists c1, down_result c i t = go_down T c1 i t /\
     bufferSize c1 = bufferSize c /\ stackDepth c1 = stackDepth c /\ stateIndexStack c1 = stateIndexStack c /\
     currentTransitionStack c1 = currentTransitionStack c /\ inputSymbolStack c1 = inputSymbolStack c /\
     outputSymbolStack c1 = outputSymbolStack c /\ inputLength c1 = inputLength c /\ inputDepth c1 = inputDepth c /\
     currentFlagValues c1 = fl /\ pos = (if firstNormalChar T <=? symIn t then S (inputDepth c) else inputDepth c) /\
     flagDepth c1 = (if is_flag t then S (flagDepth c) else flagDepth c) /\
     length (updatedFlagValue c1) = length (updatedFlagValue c) /\ length (updatedFlagFeature c1) = length (updatedFlagFeature c) /\
     (forall j, (j < flagDepth c)%nat -> nth_error (updatedFlagValue c1) j = nth_error (updatedFlagValue c) j) /\
     (forall j, (j < flagDepth c)%nat -> nth_error (updatedFlagFeature c1) j = nth_error (updatedFlagFeature c) j) /\
     (is_flag t = true -> exists o v, nth_error (symbolToDiacritic T) (Z.to_nat (symIn t)) = Some o /\
       nth_error (fr_flags f) (ofv_feature o) = Some v /\
       nth_error (updatedFlagFeature c1) (flagDepth c) = Some (Z.of_nat (ofv_feature o)) /\ nth_error (updatedFlagValue c1) (flagDepth c) = Some v)).
  { unfold act in A. replace (symIn t =? FINAL) with false in A by (symmetry; now apply Z.eqb_neq).
    unfold down_result, is_flag. destruct (firstNormalChar T <=? symIn t) eqn:E1; cbn [negb andb].
    - destruct (nth_error word (fr_pos f)) as [ch|]; [|discriminate]. destruct (input_symbol T ch =? symIn t); [|discriminate].
      injection A as <- <-. exists c. rewrite ID. repeat (split; [solve [auto; lia]|]). discriminate.
    - unfold flagDiacriticCheck. destruct (symIn t =? 0) eqn:E2; cbn [negb].
      + injection A as <- <-. rewrite orb_true_r. cbn [bind]. exists c. rewrite ID. repeat (split; [solve [auto; lia]|]). discriminate.
      + destruct C3 as (o & O1 & O2 & O3); [lia|]. rewrite O1 in A.
        destruct (Nat.eqb_spec (flagDiacriticFeatureCount T) 0) as [Z0|Z0]; [lia|]. cbn [orb].
        destruct (Z.ltb_spec (symIn t) 0); [lia|]. unfold rd at 1. rewrite O1. cbn [bind]. unfold rd. rewrite FL.
        destruct (nth_error (fr_flags f) (ofv_feature o)) as [v|] eqn:E3; [|discriminate]. cbn [bind].
        destruct (S6 Z0) as [S10 S11].
        assert (LF : (ofv_feature o < length (fr_flags f))%nat) by (apply nth_error_Some; congruence).
        destruct (flag_operation o v) as [[u|]|] eqn:E4; [| |discriminate]; injection A as <- <-;
          rewrite !wr_ok by lia; cbn [bind]; rewrite ?wr_ok by assumption; cbn [bind]; eexists; (split; [reflexivity|]);
          cbn [bufferSize stackDepth stateIndexStack currentTransitionStack inputSymbolStack outputSymbolStack inputLength inputDepth
               currentFlagValues flagDepth updatedFlagValue updatedFlagFeature];
          rewrite ?upd_length; repeat (split; [solve [auto; intros; apply upd_other; lia]|]);
          intros _; exists o, v; rewrite !upd_same by lia; auto. }
  destruct FC as (c1 & -> & D1 & D2 & D3 & D4 & D5 & D6 & D7 & D8 & D9 & D10 & D11 & D12 & D13 & D14 & D15 & D16).
  unfold go_down. rewrite D1, D2, SD.
  destruct (Nat.eqb_spec (length r + 2) (bufferSize c)) as [E|E].
  - exists c1. split; [reflexivity|]. split; [|assumption]. unfold sized. rewrite D1, D3, D4, D5, D6, D9, D12, D13.
    repeat (split; [solve [auto]|]). apply IN2.
  - rewrite D3, D4, D6. rewrite !wr_ok by (rewrite ?upd_length; lia). cbn [bind]. rewrite wr_ok by (rewrite ?upd_length; lia). cbn [bind].
    eexists. split; [reflexivity|]. cbn [bufferSize]. split; [reflexivity|].
    assert (CC : stk (upd (stateIndexStack c) (S (length r)) (targetState t))
                     (upd (upd (currentTransitionStack c) (length r) (Z.of_nat i)) (S (length r)) (targetState t))
                     (upd (outputSymbolStack c) (length r) (if firstNormalChar T <=? symOut t then symOut t else 0))
                     (updatedFlagValue c1) (updatedFlagFeature c1) (set_ct f i) r (flagDepth c)).
    { eapply stk_ext; [apply stk_set with (i := i); [exact K|lia|exact IN']| | | | |]; intros j J; rewrite ?upd_other by lia; auto. }
    unfold represents. cbn [bufferSize stackDepth stateIndexStack currentTransitionStack inputSymbolStack outputSymbolStack inputLength inputDepth
               currentFlagValues flagDepth updatedFlagValue updatedFlagFeature length fr_pos fr_flags].
    split; [|split; [reflexivity|split; [rewrite D8, D10; reflexivity|split; [assumption|]]]].
    + unfold shape. cbn [bufferSize stackDepth stateIndexStack currentTransitionStack inputSymbolStack outputSymbolStack inputLength inputDepth
               currentFlagValues flagDepth updatedFlagValue updatedFlagFeature].
      rewrite ?upd_length, D5, D7, D12, D13. repeat (split; [solve [auto; lia]|]). auto.
    + rewrite D11. apply stk_push with (t := t); auto; cbn [fr_flags fr_pos fr_state fr_ct set_ct].
      * rewrite upd_same by lia. now rewrite OS.
      * apply upd_same. lia.
      * rewrite upd_same by (rewrite upd_length; lia). f_equal. lia.
Qed.

(** Going back. *)
Lemma up_sim : forall c f g r, represents c f (g :: r) -> exists c', go_up T c = Ok c' /\ bufferSize c' = bufferSize c /\
  represents c' (set_ct g (S (fr_ct g))) r.
Proof.
  intros c f g r (SH & SD & ID & FL & K). pose proof SH as (S1 & S2 & S3 & S4 & S5 & S6 & S7 & S8 & S9).
  cbn [length] in SD. inversion K as [|f0 g0 r0 fd t KG IN HT A ST O1 O2 O3 FG]; subst f0 g0 r0.
  pose proof (stk_in _ _ _ _ _ _ _ _ KG) as (Q & GF & PL & CT & CL).
  destruct (stk_top _ _ _ _ _ _ _ _ KG) as [T1 T2].
  destruct (Tstates _ Q) as [_ B]. destruct (B _ _ HT) as [GT NX]. pose proof (act_not_final _ _ _ _ A) as NF.
  destruct GT as [GT|(C0 & C1 & C2 & C3 & C4)]; [contradiction|].
  assert (IN' : in_state (set_ct g (S (fr_ct g)))).
  { split; [exact Q|]. split; [exact GF|]. split; [exact PL|]. cbn [fr_state fr_ct set_ct]. split; [lia|].
    intros last big X. destruct HT as (l' & b' & X' & D & _). rewrite X in X'. injection X' as <- <-. lia. }
  assert (N : nth_error (transitions T) (fr_ct g) = Some t) by (destruct HT as (_ & _ & _ & _ & _ & N); exact N).
  unfold go_up. rewrite SD. rewrite (rdu_ok _ _ _ T2). cbn [bind]. unfold rd. rewrite N. cbn [bind].
  rewrite wr_ok by lia. cbn [bind].
  assert (KK : stk (stateIndexStack c) (upd (currentTransitionStack c) (length r) (Z.of_nat (S (fr_ct g)))) (outputSymbolStack c)
     (updatedFlagValue c) (updatedFlagFeature c) (set_ct g (S (fr_ct g))) r fd).
  { apply stk_set; [assumption|lia|assumption]. }
  assert (SHP : forall fl ip fdp, shape (mk_conf (bufferSize c) (length r) fdp ip (stateIndexStack c)
     (upd (currentTransitionStack c) (length r) (Z.of_nat (S (fr_ct g)))) (inputSymbolStack c) (outputSymbolStack c) fl
     (updatedFlagValue c) (updatedFlagFeature c) (inputLength c))).
  { intros. unfold shape. cbn [bufferSize stackDepth stateIndexStack currentTransitionStack inputSymbolStack outputSymbolStack inputLength
       updatedFlagValue updatedFlagFeature]. rewrite upd_length. repeat (split; [solve [auto; lia]|]). assumption. }
  unfold act in A. replace (symIn t =? FINAL) with false in A by (symmetry; now apply Z.eqb_neq).
  destruct (firstNormalChar T <=? symIn t) eqn:E1.
  - assert (FF : is_flag t = false) by (unfold is_flag; now rewrite E1).
    destruct (nth_error word (fr_pos g)) as [ch|]; [|discriminate]. destruct (input_symbol T ch =? symIn t); [|discriminate].
    injection A as A1 A2. rewrite ID, <- A2. eexists. split; [reflexivity|]. split; [reflexivity|].
    unfold represents. cbn [stackDepth inputDepth currentFlagValues flagDepth stateIndexStack currentTransitionStack outputSymbolStack updatedFlagValue updatedFlagFeature fr_pos fr_flags set_ct].
    split; [apply SHP|]. split; [reflexivity|]. split; [reflexivity|]. split; [congruence|].
    match goal with H : (if is_flag t then S fd else fd) = _ |- _ => rewrite FF in H; rewrite <- H end. exact KK.
  - destruct (symIn t =? 0) eqn:E2.
    + assert (FF : is_flag t = false) by (unfold is_flag; rewrite E1, E2; reflexivity).
      rewrite andb_false_r. injection A as A1 A2. eexists. split; [reflexivity|]. split; [reflexivity|].
      unfold represents. cbn [stackDepth inputDepth currentFlagValues flagDepth stateIndexStack currentTransitionStack outputSymbolStack updatedFlagValue updatedFlagFeature fr_pos fr_flags set_ct].
      split; [apply SHP|]. split; [reflexivity|]. split; [congruence|]. split; [congruence|].
      match goal with H : (if is_flag t then S fd else fd) = _ |- _ => rewrite FF in H; rewrite <- H end. exact KK.
    + assert (FF : is_flag t = true) by (unfold is_flag; rewrite E1, E2; reflexivity).
      destruct (FG FF) as (o & v & F1 & F2 & F3 & F4). rewrite F1, F2 in A.
      match goal with H : (if is_flag t then S fd else fd) = _ |- _ => rewrite FF in H; rewrite <- H end.
      destruct C3 as (o' & O1' & O2' & O3'); [lia|]. rewrite F1 in O1'. injection O1' as <-.
      destruct (Nat.eqb_spec (flagDiacriticFeatureCount T) 0) as [Z0|Z0]; [lia|]. cbn [negb andb].
      rewrite (rdu_ok _ _ _ F3). cbn [bind].
      assert (V : 0 <= v). { destruct GF as [_ GF]. rewrite Forall_forall in GF. apply GF. eapply nth_error_In; eauto. }
      rewrite (rdu_ok _ _ (Z.to_nat v)) by (rewrite F4; f_equal; lia). cbn [bind].
      rewrite FL. assert (LF : (ofv_feature o < length (fr_flags f))%nat).
      { destruct IN as (_ & [IN _] & _). lia. }
      rewrite wr_ok by assumption. cbn [bind]. eexists. split; [reflexivity|]. split; [reflexivity|].
      unfold represents. cbn [stackDepth inputDepth currentFlagValues flagDepth stateIndexStack currentTransitionStack outputSymbolStack updatedFlagValue updatedFlagFeature fr_pos fr_flags set_ct].
      split; [apply SHP|]. split; [reflexivity|].
      destruct (flag_operation o v) as [[u|]|]; [| |discriminate]; injection A as A1 A2; (split; [congruence|]); (split; [|exact KK]).
      * rewrite <- A1, upd_upd, Z2Nat.id by assumption. now apply upd_id.
      * rewrite <- A1, Z2Nat.id by assumption. now apply upd_id.
Qed.

Theorem search_sim : forall n c f r bufferLen, (0 < bufferLen)%nat -> represents c f r ->
  exists c', search n T prefix bufferLen c = Ok (fst (asearch n T word prefix bufferLen (bufferSize c) f r), c') /\
    bufferSize c' = bufferSize c /\ sized c' /\
    (fst (asearch n T word prefix bufferLen (bufferSize c) f r) <> TooDeep ->
     represents c' (fst (snd (asearch n T word prefix bufferLen (bufferSize c) f r))) (snd (snd (asearch n T word prefix bufferLen (bufferSize c) f r)))).
Proof.
  induction n as [|n IH]; intros c f r bufferLen BL RP; cbn [search asearch].
  { exists c. cbn [fst snd]. split; [reflexivity|]. split; [reflexivity|]. split; [eapply represents_sized; eauto|]. auto. }
  pose proof RP as (SH & SD & ID & FL & K). pose proof SH as (S1 & S2 & S3 & S4 & S5 & S6 & S7 & S8 & S9).
  pose proof (stk_in _ _ _ _ _ _ _ _ K) as IN. pose proof IN as (Q & GF & PL & CT & CL).
  pose proof (stk_depth _ _ _ _ _ _ _ _ K) as FD. destruct (stk_top _ _ _ _ _ _ _ _ K) as [T1 T2].
  destruct (Tstates _ Q) as [(last & big & X & L1 & L2 & BG) _]. pose proof (extent_le _ _ _ _ X) as XL. specialize (CL _ _ X).
  rewrite SD, (rdu_ok _ _ _ T1), (rdu_ok _ _ _ T2). cbn [bind]. rewrite (getMaxTc_spec _ _ _ Q X). cbn [bind].
  replace (Z.to_nat ((Z.of_nat (fr_ct f) - Z.of_nat (fr_state f)) mod 2 ^ 32)) with (fr_ct f - fr_state f)%nat
    by (rewrite Z.mod_small by lia; lia).
  rewrite (scan_spec (S last - fr_ct f) (fr_state f) last big (fr_ct f) bufferLen c f) by (auto; lia).
  unfold topscan. rewrite X.
  destruct (ascan (S last - fr_ct f) T word prefix (fr_state f) big (fr_flags f) (fr_pos f) (fr_ct f)) as [[[i t] a]|] eqn:EA.
  - destruct (ascan_in _ _ _ _ _ _ _ _ _ _ Q X eq_refl CT EA) as (A1 & A2 & A3 & _).
    destruct a as [[fl pos]|].
    + pose proof (down_sim c f r i t fl pos RP A2 A1 A3) as D. destruct (Nat.eqb (length r + 2) (bufferSize c)).
      * destruct D as (c' & -> & D1 & D2). cbn [bind fst snd]. exists c'. split; [reflexivity|]. split; [assumption|]. split; [assumption|]. congruence.
      * destruct D as (c' & -> & D1 & D2). cbn [bind]. destruct (IH _ _ _ bufferLen BL D2) as (c'' & I1 & I2 & I3 & I4). rewrite D1 in *.
        exists c''. split; [exact I1|]. split; [assumption|]. split; assumption.
    + unfold final_result. destruct (Nat.leb_spec (stackDepth c) (length (outputSymbolStack c))); [|lia]. cbn [bind].
      rewrite SD, (osyms_spec _ _ _ _ _ _ _ _ K) by lia.
      destruct (osyms_strings _ _ _ _ _ _ _ _ K) as [strs ST].
      destruct (write_output_spec _ _ bufferLen [] ST BL) as [E|E]; rewrite E; cbn [bind fst snd].
      * rewrite wr_ok by lia. cbn [bind]. eexists. split; [now rewrite ID|]. cbn [bufferSize]. split; [reflexivity|].
        assert (IN' : in_state (set_ct f (S i))).
        { split; [exact Q|]. split; [exact GF|]. split; [exact PL|]. cbn [fr_state fr_ct set_ct]. split; [lia|].
          intros last' big' X''. destruct A2 as (l' & b' & X' & D & _). rewrite X'' in X'. injection X' as <- <-. lia. }
        match goal with |- sized ?c' /\ _ => assert (RP' : represents c' (set_ct f (S i)) r) end.
        { unfold represents. cbn [stackDepth inputDepth currentFlagValues flagDepth stateIndexStack currentTransitionStack outputSymbolStack updatedFlagValue updatedFlagFeature fr_pos fr_flags set_ct].
          split; [|split; [solve [auto]|split; [solve [auto]|split; [solve [auto]|]]]].
          - unfold shape. cbn [bufferSize stackDepth stateIndexStack currentTransitionStack inputSymbolStack outputSymbolStack inputLength
              updatedFlagValue updatedFlagFeature]. rewrite upd_length. repeat (split; [solve [auto; lia]|]). assumption.
          - apply stk_set; [assumption|lia|assumption]. }
        split; [eapply represents_sized; eauto|]. auto.
      * exists c. split; [reflexivity|]. split; [reflexivity|]. split; [eapply represents_sized; eauto|]. auto.
  - cbn [bind]. destruct r as [|g r].
    + cbn [length Nat.eqb fst snd]. exists c. split; [reflexivity|]. split; [reflexivity|]. split; [eapply represents_sized; eauto|]. auto.
    + cbn [length Nat.eqb]. destruct (up_sim _ _ _ _ RP) as (c' & -> & U1 & U2). cbn [bind].
      destruct (IH _ _ _ bufferLen BL U2) as (c'' & I1 & I2 & I3 & I4). rewrite U1 in *.
      exists c''. split; [exact I1|]. split; [assumption|]. split; assumption.
Qed.

End Simulation.
