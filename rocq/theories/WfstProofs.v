(** * The search of the weighted transducer simulates a stack machine. *)
From Verif Require Import Base BaseFacts FstModel FstFileModel FstSpec FstProofs WfstModel WfstSpec.

(** ** Blocks of flag values *)
Definition block (n : nat) (l : list Z) (d : nat) : list Z := firstn n (skipn (d * n) l).

Lemma block_app : forall n a b d, (S d * n <= length a)%nat -> block n (a ++ b) d = block n a d.
Proof.
  intros n a b d L. unfold block. rewrite skipn_app, firstn_app, skipn_length.
  replace (n - (length a - d * n))%nat with 0%nat by (cbn in L; lia). cbn [firstn]. apply app_nil_r.
Qed.

Lemma block_firstn : forall n l d m, (S d * n <= m)%nat -> block n (firstn m l) d = block n l d.
Proof.
  intros n l d m L. unfold block. rewrite skipn_firstn_comm, firstn_firstn. f_equal. cbn in L. lia.
Qed.

Lemma block_at : forall n a x y d, length a = (d * n)%nat -> length x = n -> block n (a ++ x ++ y) d = x.
Proof.
  intros n a x y d LA LX. unfold block. rewrite skipn_app, <- LA, Nat.sub_diag, skipn_all. cbn [skipn app].
  rewrite <- LX, firstn_app, Nat.sub_diag, firstn_all. cbn [firstn]. apply app_nil_r.
Qed.

Lemma block_length : forall n l d, (S d * n <= length l)%nat -> length (block n l d) = n.
Proof. intros n l d L. unfold block. rewrite firstn_length, skipn_length. cbn in L. lia. Qed.

Lemma block_nth : forall n l d j x, nth_error (block n l d) j = Some x -> nth_error l (d * n + j) = Some x.
Proof.
  intros n l d j x H. unfold block in H.
  assert (J : (j < n)%nat).
  { assert (j < length (firstn n (skipn (d * n) l)))%nat by (apply nth_error_Some; congruence). rewrite firstn_length in *. lia. }
  rewrite nth_error_firstn_lt in H by assumption. now rewrite nth_error_skipn in H.
Qed.

Lemma upd_middle : forall A (a x y : list A) j v, (j < length x)%nat -> upd (a ++ x ++ y) (length a + j) v = a ++ upd x j v ++ y.
Proof.
  intros A a x y j v L. induction a as [|b a IH]; cbn [app length Nat.add upd].
  - revert j L. induction x as [|c x IHx]; intros [|j] L; cbn in *; try lia; [reflexivity|]. f_equal. apply IHx. lia.
  - now rewrite IH.
Qed.

(** What the flag check leaves in the array. *)
Lemma copy_spec : forall n l d, (S (S d) * n <= length l)%nat ->
  exists l', copy_block l (d * n) (d * n + n) n = Ok l' /\ length l' = length l /\
    (forall e, (e <= d)%nat -> block n l' e = block n l e) /\ block n l' (S d) = block n l d /\
    forall j v, (j < n)%nat -> exists l2, wr l' (d * n + n + j) v = Ok l2 /\ length l2 = length l /\
      (forall e, (e <= d)%nat -> block n l2 e = block n l e) /\ block n l2 (S d) = upd (block n l d) j v.
Proof.
  intros n l d L. cbn in L. unfold copy_block.
  replace ((d * n + n <=? length l) && (d * n + n + n <=? length l))%nat with true
    by (symmetry; apply andb_true_iff; split; apply Nat.leb_le; lia).
  fold (block n l d).
  assert (LB : length (block n l d) = n) by (apply block_length; cbn; lia).
  assert (LF : length (firstn (d * n + n) l) = (S d * n)%nat) by (rewrite firstn_length; cbn; lia).
  assert (LS : length (skipn (d * n + n + n) l) = (length l - (d * n + n + n))%nat) by apply skipn_length.
  assert (BF : forall x e, (e <= d)%nat -> block n (firstn (d * n + n) l ++ x) e = block n l e).
  { intros x e E. assert (S e * n <= S d * n)%nat by (apply Nat.mul_le_mono_r; lia).
    rewrite block_app by (rewrite LF; assumption). apply block_firstn. cbn in *; lia. }
  eexists. split; [reflexivity|]. split; [rewrite !app_length, LF, LB, LS; cbn; lia|]. split; [intros; now apply BF|].
  split; [apply block_at; assumption|]. intros j v J.
  eexists. split; [apply wr_ok; rewrite !app_length, LF, LB, LS; cbn; lia|].
  replace (d * n + n + j)%nat with (length (firstn (d * n + n) l) + j)%nat by (rewrite LF; cbn; lia).
  rewrite upd_middle by lia.
  split; [rewrite !app_length, upd_length, LF, LB, LS; cbn; lia|]. split; [intros; now apply BF|].
  apply block_at; [assumption|]. now rewrite upd_length.
Qed.

(** ** The stack machine *)
Definition insym (W : wtransducer) (word : list Z) (pos : nat) : Z :=
  match nth_error word pos with Some c => input_symbol (forget W) c | None => 0 end.

Fixpoint wascan (k : nat) (W : wtransducer) (word : list Z) (q last : nat) (big : bool) (fl : list Z) (pos i : nat)
    : option (nat * wcell * option (list Z * nat)) :=
  match k with
  | O => None
  | S k' =>
      if (last <? i)%nat then None
      else if big && Nat.eqb i (q + 1) then wascan k' W word q last big fl pos (S i)
      else
        match nth_error (wtransitions W) i with
        | None => None
        | Some c =>
            match act (forget W) word false fl pos (forget_weight c) with
            | Some a => Some (i, c, a)
            | None =>
                if w_symIn c =? 0xFFFFFFFF then wascan k' W word q last big fl pos (S i)
                else if insym W word pos <? w_symIn c then None
                else if (1 <=? i - q)%nat && (w_firstNormalChar W <=? w_symIn c) && (w_symIn c <? insym W word pos) then
                  match wbinary (last - i) W i (insym W word pos) 0 (last - i) with
                  | Ok m => wascan k' W word q last big fl pos (S (i + m))
                  | _ => None
                  end
                else wascan k' W word q last big fl pos (S i)
            end
        end
  end.

Definition wtopscan (W : wtransducer) (word : list Z) (f : frame) :=
  match extent (forget W) (fr_state f) with
  | None => None
  | Some (last, big) => wascan (S last - fr_ct f) W word (fr_state f) last big (fr_flags f) (fr_pos f) (fr_ct f)
  end.

Fixpoint wasearch (n : nat) (W : wtransducer) (word : list Z) (bufferLen size : nat) (top : frame) (below : list frame) (reached : nat)
    : woutcome * (frame * list frame) * nat :=
  match n with
  | O => (WLoopLimit, (top, below), reached)
  | S n' =>
      match wtopscan W word top with
      | None =>
          match below with
          | [] => (WEnd, (top, []), reached)
          | g :: r => wasearch n' W word bufferLen size (set_ct g (S (fr_ct g))) r reached
          end
      | Some (i, t, None) =>
          match write_output (forget W) (osyms (forget W) below) bufferLen [] with
          | Ok (Some out) => (WFound out (to_int16 (path_weight W (rev (map fr_ct below) ++ [i]))), (set_ct top (S i), below), reached)
          | _ => (WTooLong, (top, below), reached)
          end
      | Some (i, t, Some (fl, pos)) =>
          if Nat.eqb (length below + 2) size then (WTooDeep, (top, below), reached)
          else
            let q := Z.to_nat (w_target t) in
            wasearch n' W word bufferLen size (mk_fr q q fl pos) (set_ct top i :: below)
              (if Nat.eqb pos (fr_pos top) then reached else Nat.max reached pos)
      end
  end.

(** The binary search stays within the state and moves only over smaller symbols. *)
Lemma wbinary_spec : forall fuel W ct x lo hi, (lo < hi)%nat -> (hi - lo <= S fuel)%nat -> (ct + hi < length (wtransitions W))%nat ->
  exists m, wbinary fuel W ct x lo hi = Ok m /\ (lo <= m < hi)%nat /\
    (m = lo \/ exists c, nth_error (wtransitions W) (ct + m) = Some c /\ w_symIn c < x).
Proof.
  induction fuel as [|fuel IH]; intros W ct x lo hi L F B; cbn [wbinary].
  - destruct (Nat.ltb_spec (lo + 1) hi); [lia|]. exists lo. split; [reflexivity|]. split; [lia|]. now left.
  - destruct (Nat.ltb_spec (lo + 1) hi); [|exists lo; split; [reflexivity|]; split; [lia|]; now left].
    assert (M : (lo < (lo + hi) / 2 < hi)%nat).
    { split; [apply Nat.div_le_lower_bound; lia|apply Nat.div_lt_upper_bound; lia]. }
    unfold rd. destruct (nth_error (wtransitions W) (ct + (lo + hi) / 2)) as [c|] eqn:N; [|apply nth_error_None in N; lia]. cbn [bind].
    destruct (Z.ltb_spec (w_symIn c) x).
    + destruct (IH W ct x ((lo + hi) / 2)%nat hi) as (m & E & R & V); [lia|lia|lia|]. exists m. split; [assumption|]. split; [lia|].
      right. destruct V as [->|V]; eauto.
    + destruct (IH W ct x lo ((lo + hi) / 2)%nat) as (m & E & R & V); [lia|lia|lia|]. exists m. split; [assumption|]. split; [lia|]. assumption.
Qed.

Lemma to_int16_add : forall a b, to_int16 (to_int16 a + b) = to_int16 (a + b).
Proof.
  intros a b. unfold to_int16.
  assert (forall x, 0 <= x mod 65536 < 65536) by (intros; apply Z.mod_pos_bound; lia).
  assert (E : forall x k, (x + k * 65536) mod 65536 = x mod 65536) by (intros; apply Z.mod_add; lia).
  destruct (Z.ltb_spec (a mod 65536) 32768).
  - replace ((a mod 65536 + b) mod 65536) with ((a + b) mod 65536); [reflexivity|].
    rewrite Z.add_mod_idemp_l by lia. reflexivity.
  - replace ((a mod 65536 - 65536 + b) mod 65536) with ((a + b) mod 65536); [reflexivity|].
    replace (a mod 65536 - 65536 + b) with (a mod 65536 + b + (-1) * 65536) by lia. rewrite E, Z.add_mod_idemp_l by lia. reflexivity.
Qed.

Lemma to_int16_idem : forall a, to_int16 (to_int16 a) = to_int16 a.
Proof. intros a. pose proof (to_int16_add a 0) as H. now rewrite !Z.add_0_r in H. Qed.

(** ** Simulation *)
Section Simulation.
Variable W : wtransducer.
Variable states : nat -> Prop.
Variable word : list Z.
Local Notation T := (forget W).
Hypothesis Wnormal : 0 < w_firstNormalChar W < FINAL.
Hypothesis Wsymbols : forall c s, find_symbol (w_stringToSymbol W) c = Some s -> w_firstNormalChar W <= s < Z.of_nat (length (w_symbolToString W)).
Hypothesis Wunknown : w_firstNormalChar W <= Z.of_nat (length (w_symbolToString W)).
Hypothesis Wepsilon : nth_error (w_symbolToString W) 0 = Some [].
Hypothesis Wstates : forall q, states q -> good_wstate W q /\
  forall i c, has_wtransition W q i c -> good_wtransition W c /\ (w_symIn c <> 0xFFFFFFFF -> states (Z.to_nat (w_target c))).

Local Notation in_state := (in_state T states word).
Local Notation act := (act T word false).

Lemma transition_cell : forall q i t, has_transition T q i t -> exists c, has_wtransition W q i c /\ t = forget_weight c.
Proof.
  intros q i t HT. pose proof HT as (_ & _ & _ & _ & _ & N). unfold forget in N. cbn [transitions] in N. rewrite nth_error_map in N.
  destruct (nth_error (wtransitions W) i) as [c|] eqn:E; [|discriminate]. cbn in N. injection N as <-. exists c. split; [|reflexivity]. split; assumption.
Qed.

Lemma final_cell : forall q i c, states q -> has_wtransition W q i c -> (symIn (forget_weight c) = FINAL <-> w_symIn c = 0xFFFFFFFF).
Proof.
  intros q i c Q H. destruct (Wstates _ Q) as [_ B]. destruct (B _ _ H) as [(_ & G & _) _]. unfold forget_weight. cbn [symIn].
  destruct (Z.eqb_spec (w_symIn c) 0xFFFFFFFF); unfold FINAL in *; split; intros; try lia; reflexivity.
Qed.

Lemma symIn_cell : forall c, w_symIn c <> 0xFFFFFFFF -> symIn (forget_weight c) = w_symIn c.
Proof. intros c H. unfold forget_weight. cbn [symIn]. now rewrite (proj2 (Z.eqb_neq _ _)). Qed.

Lemma Tstates : forall q, states q -> good_state T q /\
  forall i t, has_transition T q i t -> good_transition T t /\ (symIn t <> FINAL -> states (Z.to_nat (targetState t))).
Proof.
  intros q Q. destruct (Wstates _ Q) as [[A _] B]. split; [assumption|]. intros i t HT. destruct (transition_cell _ _ _ HT) as (c & H & ->).
  destruct (B _ _ H) as [[C _] D]. split; [assumption|]. intros NF. apply D. intros E. apply NF. now apply (final_cell q i).
Qed.

Lemma Tsymbols : forall c s, symbol_of T c s -> firstNormalChar T <= s < unknownSymbolOrdinal T.
Proof. exact Wsymbols. Qed.

Definition wshape (c : wconfiguration) : Prop :=
  (2 <= wc_size c)%nat /\ (wc_stackDepth c + 2 <= wc_size c)%nat /\
  length (wc_states c) = wc_size c /\ length (wc_transitions c) = wc_size c /\ length (wc_outputs c) = wc_size c /\
  length (wc_flags c) = (wc_size c * w_featureCount W)%nat /\
  block (w_featureCount W) (wc_flags c) 0 = neutral T /\
  wc_inputLength c = length word /\
  (forall j ch, nth_error word j = Some ch -> nth_error (wc_inputs c) j = Some (input_symbol T ch)) /\
  length (wc_inputs c) = wc_size c.

(** The arrays of a configuration hold the stack [top :: below]. *)
Inductive wstk (sis cts outs fls : list Z) : frame -> list frame -> nat -> Prop :=
| wstk_base f : fr_state f = 0%nat -> fr_pos f = 0%nat -> in_state f ->
    nth_error sis 0 = Some 0 -> nth_error cts 0 = Some (Z.of_nat (fr_ct f)) -> block (w_featureCount W) fls 0 = fr_flags f ->
    wstk sis cts outs fls f [] 0
| wstk_push f g r fd fd' t : wstk sis cts outs fls g r fd -> in_state f ->
    has_wtransition W (fr_state g) (fr_ct g) t ->
    act (fr_flags g) (fr_pos g) (forget_weight t) = Some (Some (fr_flags f, fr_pos f)) ->
    fr_state f = Z.to_nat (w_target t) ->
    nth_error outs (length r) = Some (outsym T (fr_ct g)) ->
    nth_error sis (S (length r)) = Some (w_target t) ->
    nth_error cts (S (length r)) = Some (Z.of_nat (fr_ct f)) ->
    fd' = (if is_flag T (forget_weight t) then S fd else fd) ->
    block (w_featureCount W) fls fd' = fr_flags f ->
    wstk sis cts outs fls f (g :: r) fd'.

Definition wrepresents (c : wconfiguration) (f : frame) (r : list frame) : Prop :=
  wshape c /\ wc_stackDepth c = length r /\ wc_inputDepth c = fr_pos f /\
  wstk (wc_states c) (wc_transitions c) (wc_outputs c) (wc_flags c) f r (wc_flagDepth c).

Lemma wstk_depth : forall sis cts outs fls f r fd, wstk sis cts outs fls f r fd -> (fd <= length r)%nat.
Proof. induction 1; cbn; [lia|]. subst fd'. destruct (is_flag T (forget_weight t)); lia. Qed.

Lemma wstk_in : forall sis cts outs fls f r fd, wstk sis cts outs fls f r fd -> in_state f.
Proof. destruct 1; auto. Qed.

Lemma wstk_block : forall sis cts outs fls f r fd, wstk sis cts outs fls f r fd -> block (w_featureCount W) fls fd = fr_flags f.
Proof. destruct 1; auto. Qed.

Lemma wact_not_final : forall fl pos c x, act fl pos (forget_weight c) = Some (Some x) -> symIn (forget_weight c) <> FINAL.
Proof. intros. eapply act_not_final. eassumption. Qed.

Lemma wstk_top : forall sis cts outs fls f r fd, wstk sis cts outs fls f r fd ->
  nth_error sis (length r) = Some (Z.of_nat (fr_state f)) /\ nth_error cts (length r) = Some (Z.of_nat (fr_ct f)).
Proof.
  destruct 1; cbn [length].
  - rewrite H. auto.
  - split; [|assumption]. rewrite H5, H3. f_equal.
    destruct (wstk_in _ _ _ _ _ _ _ H) as [A _]. destruct (Tstates _ A) as [_ B]. destruct (B _ _ (proj2 H1)) as [C _].
    destruct C as [C|[_ [_ [C _]]]]; [|cbn in C; lia]. now apply wact_not_final in H2.
Qed.

Lemma wstk_ext : forall sis cts outs fls f r fd, wstk sis cts outs fls f r fd ->
  forall sis' cts' outs' fls',
  (forall j, (j <= length r)%nat -> nth_error sis' j = nth_error sis j) ->
  (forall j, (j <= length r)%nat -> nth_error cts' j = nth_error cts j) ->
  (forall j, (j < length r)%nat -> nth_error outs' j = nth_error outs j) ->
  (forall j, (j <= fd)%nat -> block (w_featureCount W) fls' j = block (w_featureCount W) fls j) ->
  wstk sis' cts' outs' fls' f r fd.
Proof.
  induction 1; intros sis' cts' outs' fls' A B C D.
  - constructor; auto; cbn [length] in *; [rewrite A; auto|rewrite B; auto|rewrite D; auto].
  - cbn [length] in *. apply wstk_push with (fd := fd) (t := t); auto.
    + apply IHwstk; intros j J; [apply A|apply B|apply C|apply D]; try lia. subst fd'. destruct (is_flag T (forget_weight t)); lia.
    + rewrite C by lia. assumption.
    + rewrite A by lia. assumption.
    + rewrite B by lia. assumption.
    + rewrite D by lia. assumption.
Qed.

Lemma wstk_set : forall sis cts outs fls f r fd i, wstk sis cts outs fls f r fd ->
  (length r < length cts)%nat -> in_state (set_ct f i) ->
  wstk sis (upd cts (length r) (Z.of_nat i)) outs fls (set_ct f i) r fd.
Proof.
  intros sis cts outs fls f r fd i H L I. destruct H; cbn [length] in *.
  - constructor; auto. cbn [fr_ct set_ct]. apply upd_same. assumption.
  - apply wstk_push with (fd := fd) (t := t); cbn [fr_flags fr_pos fr_state fr_ct set_ct length]; auto.
    + eapply wstk_ext; eauto. intros j J. apply upd_other. lia.
    + apply upd_same. assumption.
Qed.

Lemma wosyms_spec : forall sis cts outs fls f r fd, wstk sis cts outs fls f r fd ->
  (length r <= length outs)%nat -> firstn (length r) outs = osyms T r.
Proof.
  induction 1; intros L; cbn [length] in *; [reflexivity|].
  unfold osyms in *. cbn [map rev]. rewrite <- IHwstk by lia.
  assert (G : forall A (l : list A) n x, nth_error l n = Some x -> firstn (S n) l = firstn n l ++ [x]).
  { clear. induction l as [|a l IH]; intros [|n] x H; cbn in *; try congruence. f_equal. auto. }
  now apply G.
Qed.

Lemma wcts_spec : forall sis cts outs fls f r fd, wstk sis cts outs fls f r fd ->
  firstn (length r) cts = map Z.of_nat (rev (map fr_ct r)).
Proof.
  induction 1; cbn [length]; [reflexivity|].
  assert (G : forall A (l : list A) n x, nth_error l n = Some x -> firstn (S n) l = firstn n l ++ [x]).
  { clear. induction l as [|a l IH]; intros [|n] x H; cbn in *; try congruence. f_equal. auto. }
  destruct (wstk_top _ _ _ _ _ _ _ H) as [_ C]. rewrite (G _ _ _ _ C), IHwstk. cbn [map rev]. now rewrite map_app.
Qed.

Lemma wcts_cells : forall sis cts outs fls f r fd, wstk sis cts outs fls f r fd ->
  Forall (fun i => exists c, nth_error (wtransitions W) i = Some c) (rev (map fr_ct r)).
Proof.
  induction 1; cbn [map rev]; [constructor|]. apply Forall_app. split; [assumption|]. constructor; [|constructor]. destruct H1. eauto.
Qed.

Lemma add_weights_spec : forall l w, Forall (fun i => exists c, nth_error (wtransitions W) i = Some c) l ->
  w = to_int16 w -> add_weights W (map Z.of_nat l) w = Ok (to_int16 (w + path_weight W l)).
Proof.
  induction l as [|i l IH]; intros w F E; cbn [map add_weights].
  - unfold path_weight. cbn [fold_right]. rewrite Z.add_0_r. now rewrite <- E.
  - inversion F as [|i' l' (c & N) F']; subst. destruct (Z.ltb_spec (Z.of_nat i) 0); [lia|]. unfold rd. rewrite Nat2Z.id, N. cbn [bind].
    rewrite IH; [|assumption|symmetry; apply to_int16_idem].
    rewrite to_int16_add. unfold path_weight. cbn [fold_right]. unfold weight_at at 2. rewrite N. do 2 f_equal. lia.
Qed.

Lemma path_weight_app : forall p q, path_weight W (p ++ q) = path_weight W p + path_weight W q.
Proof.
  intros p q. induction p as [|i p IH]; [reflexivity|]. cbn [app]. unfold path_weight in *. cbn [fold_right]. lia.
Qed.

Lemma wwrite_same : forall syms len out, wwrite_output W syms len out = write_output T syms len out.
Proof.
  induction syms as [|s syms IH]; intros len out; [reflexivity|]. cbn [wwrite_output write_output].
  change (symbolToString T) with (w_symbolToString W).
  destruct (if s <? 0 then UB else rd (w_symbolToString W) (Z.to_nat s)) as [str| |]; cbn [bind]; [|reflexivity|reflexivity].
  destruct (len <=? length out + length str + 1)%nat; [reflexivity|]. apply IH.
Qed.

(** The scan of a state. *)
Definition wfinal_result (bufferLen : nat) (c : wconfiguration) (i : nat) (t : wcell) : res wscanned :=
  if negb (wc_stackDepth c <=? length (wc_outputs c))%nat then UB
  else
    o <- wwrite_output W (firstn (wc_stackDepth c) (wc_outputs c)) bufferLen [] ;;
    match o with
    | None => Ok (WStop WTooLong c)
    | Some out =>
        cts <- wr (wc_transitions c) (wc_stackDepth c) (Z.of_nat (S i)) ;;
        w <- add_weights W (firstn (wc_stackDepth c) cts) (w_weight t) ;;
        Ok (WStop (WFound out w)
              (mk_wconf (wc_size c) (wc_stackDepth c) (wc_flagDepth c) (wc_inputDepth c) (wc_states c) cts
                 (wc_inputs c) (wc_outputs c) (wc_flags c) (wc_inputLength c)))
    end.
Definition wdown_result (c : wconfiguration) (reached i : nat) (t : wcell) : res wscanned :=
  if w_firstNormalChar W <=? w_symIn t then wgo_down W c reached i t
  else o <- wflagDiacriticCheck W c (w_symIn t) ;; match o with Some c' => wgo_down W c' reached i t | None => Ok WExhausted end.

Lemma insym_range : forall pos, (pos < length word)%nat -> w_firstNormalChar W <= insym W word pos.
Proof.
  intros pos L. unfold insym. destruct (nth_error word pos) as [ch|] eqn:E; [|apply nth_error_None in E; lia].
  apply (input_known T Tsymbols Wunknown).
Qed.

Lemma insym_end : insym W word (length word) = 0.
Proof. unfold insym. destruct (nth_error word (length word)) eqn:E; [|reflexivity]. assert (length word < length word)%nat by (apply nth_error_Some; congruence). lia. Qed.

(** One transition. *)
Lemma wscan_cell : forall q i t bufferLen c f reached maxTc tc, states q -> has_wtransition W q i t -> wshape c ->
  wc_inputDepth c = fr_pos f -> (fr_pos f <= length word)%nat ->
  block (w_featureCount W) (wc_flags c) (wc_flagDepth c) = fr_flags f -> good_flags T (fr_flags f) ->
  (wc_flagDepth c <= wc_stackDepth c)%nat ->
  forall n, (tc <= maxTc)%nat -> (Nat.eqb tc 1 && (255 <=? maxTc)%nat = false) ->
  wscan (S n) W bufferLen c reached (insym W word (fr_pos f)) maxTc tc i =
  match act (fr_flags f) (fr_pos f) (forget_weight t) with
  | Some None => wfinal_result bufferLen c i t
  | Some (Some _) => wdown_result c reached i t
  | None =>
      if w_symIn t =? 0xFFFFFFFF then wscan n W bufferLen c reached (insym W word (fr_pos f)) maxTc (S tc) (S i)
      else if insym W word (fr_pos f) <? w_symIn t then Ok WExhausted
      else
        m <- (if (1 <=? tc)%nat && (w_firstNormalChar W <=? w_symIn t) && (w_symIn t <? insym W word (fr_pos f))
              then wbinary (maxTc - tc) W i (insym W word (fr_pos f)) 0 (maxTc - tc) else Ok 0%nat) ;;
        wscan n W bufferLen c reached (insym W word (fr_pos f)) maxTc (S (tc + m)) (S (i + m))
  end.
Proof.
  intros q i t bufferLen c f reached maxTc tc Q HT SH ID IL FL GF FD n TC SK. cbn [wscan].
  replace (negb (tc <=? maxTc)%nat) with false by (destruct (Nat.leb_spec tc maxTc); [reflexivity|lia]).
  rewrite SK. destruct (Wstates _ Q) as [_ B]. destruct (B _ _ HT) as [(C & C' & _) _]. pose proof (final_cell _ _ _ Q HT) as FC.
  destruct HT as (N & _). unfold rd at 1. rewrite N. cbn [bind].
  unfold FstProofs.act. destruct (Z.eqb_spec (w_symIn t) 0xFFFFFFFF) as [E0|E0].
  - apply FC in E0. rewrite E0, Z.eqb_refl, orb_false_r. rewrite ID. destruct SH as (_ & _ & _ & _ & _ & _ & _ & SI & _). rewrite SI.
    destruct (Nat.eqb (fr_pos f) (length word)); [|reflexivity]. unfold wfinal_result. rewrite ID, SI. reflexivity.
  - unfold good_transition in C. rewrite (symIn_cell _ E0) in *. destruct C as [C|(C0 & C1 & C2 & C3 & C4)]; [exfalso; apply E0, FC, C|].
    replace (w_symIn t =? FINAL) with false by lia.
    destruct SH as (S1 & S2 & S3 & S4 & S5 & S6 & S7 & SI & SW & S8). rewrite SI, ID.
    change (firstNormalChar T) with (w_firstNormalChar W) in *.
    destruct (w_firstNormalChar W <=? w_symIn t) eqn:E1.
    + rewrite andb_true_r. replace (w_symIn t <? w_firstNormalChar W) with false by lia. unfold wdown_result. rewrite E1.
      destruct (Nat.ltb_spec (fr_pos f) (length word)) as [L|L].
      * pose proof (insym_range _ L) as R. replace (insym W word (fr_pos f) =? 0) with false by lia. cbn [andb].
        assert (A : match nth_error word (fr_pos f) with
           | Some c0 => if input_symbol T c0 =? w_symIn t then Some (Some (fr_flags f, S (fr_pos f))) else None | None => None end =
           if insym W word (fr_pos f) =? w_symIn t then Some (Some (fr_flags f, S (fr_pos f))) else None).
        { unfold insym. destruct (nth_error word (fr_pos f)) eqn:E; [reflexivity|]. apply nth_error_None in E. lia. }
        rewrite A. destruct (insym W word (fr_pos f) =? w_symIn t) eqn:E2; [reflexivity|]. cbn [bind].
        rewrite andb_true_r. destruct (insym W word (fr_pos f) <? w_symIn t); reflexivity.
      * assert (EP : fr_pos f = length word) by lia. rewrite EP. rewrite insym_end. cbn [Z.eqb].
        destruct (nth_error word (length word)) eqn:E; [assert (length word < length word)%nat by (apply nth_error_Some; congruence); lia|].
        replace (0 <? w_symIn t) with true by lia. reflexivity.
    + rewrite andb_false_r. replace (w_symIn t <? w_firstNormalChar W) with true by lia.
      assert (NM : (fr_pos f <? length word)%nat && (insym W word (fr_pos f) =? w_symIn t) = false).
      { destruct (Nat.ltb_spec (fr_pos f) (length word)) as [L|L]; [|reflexivity]. pose proof (insym_range _ L). cbn [andb]. lia. }
      rewrite NM. unfold wdown_result. rewrite E1. unfold wflagDiacriticCheck.
      destruct (w_symIn t =? 0) eqn:E2.
      * rewrite orb_true_r. reflexivity.
      * destruct C3 as (o & O1 & O2 & O3); [lia|]. change (flagDiacriticFeatureCount T) with (w_featureCount W) in *.
        change (symbolToDiacritic T) with (w_symbolToDiacritic W) in *.
        destruct (Nat.eqb_spec (w_featureCount W) 0) as [Z0|Z0]; [lia|]. cbn [orb].
        destruct (Z.ltb_spec (w_symIn t) 0); [lia|]. unfold rd at 1 3. rewrite O1. cbn [bind].
        destruct (nth_error (fr_flags f) (ofv_feature o)) as [v|] eqn:E3.
        2:{ apply nth_error_None in E3. destruct GF as [GF _]. cbn in GF. lia. }
        unfold rd. rewrite <- FL in E3. rewrite (block_nth _ _ _ _ _ E3). cbn [bind].
        assert (LL : (S (S (wc_flagDepth c)) * w_featureCount W <= length (wc_flags c))%nat) by (rewrite S6; apply Nat.mul_le_mono_r; lia).
        destruct (copy_spec _ _ _ LL) as (l' & -> & L1 & L2 & L3 & L4). cbn [bind].
        rewrite !andb_false_r. cbn [andb].
        destruct (flag_operation o v) as [[u|]|] eqn:E4.
        -- destruct (L4 (ofv_feature o) u O2) as (l2 & -> & _). reflexivity.
        -- reflexivity.
        -- cbn [bind]. destruct (_ <? _); reflexivity.
Qed.

Lemma wscan_cells : forall q last big i, states q -> extent T q = Some (last, big) -> (q <= i <= last)%nat ->
  (last < length (wtransitions W))%nat /\ exists t, nth_error (wtransitions W) i = Some t.
Proof.
  intros q last big i Q X I. destruct (Tstates _ Q) as [(l' & b' & X' & L1 & _) _]. rewrite X in X'. injection X' as <- <-.
  unfold forget in L1. cbn [transitions] in L1. rewrite map_length in L1. split; [assumption|].
  destruct (nth_error (wtransitions W) i) eqn:E; [eauto|]. apply nth_error_None in E. lia.
Qed.

Lemma wbinary_ok : forall i last x, (i <= last)%nat -> (last < length (wtransitions W))%nat ->
  exists m, wbinary (last - i) W i x 0 (last - i) = Ok m /\ (i + m <= last)%nat /\
    (m = 0%nat \/ exists c, nth_error (wtransitions W) (i + m) = Some c /\ w_symIn c < x).
Proof.
  intros i last x L B. destruct (Nat.eq_dec (last - i) 0) as [E|E].
  - rewrite E. exists 0%nat. split; [reflexivity|]. split; [lia|]. now left.
  - destruct (wbinary_spec (last - i) W i x 0 (last - i)) as (m & A1 & A2 & A3); try lia. exists m. split; [assumption|]. split; [lia|]. assumption.
Qed.

Lemma wscan_spec : forall k q last big i bufferLen c f reached, states q -> extent T q = Some (last, big) -> wshape c ->
  wc_inputDepth c = fr_pos f -> (fr_pos f <= length word)%nat ->
  block (w_featureCount W) (wc_flags c) (wc_flagDepth c) = fr_flags f -> good_flags T (fr_flags f) ->
  (wc_flagDepth c <= wc_stackDepth c)%nat ->
  (S last - i <= k)%nat -> (q <= i <= S last)%nat ->
  forall n, (S last - i <= n)%nat ->
  wscan n W bufferLen c reached (insym W word (fr_pos f)) (last - q) (i - q) i =
  match wascan k W word q last big (fr_flags f) (fr_pos f) i with
  | None => Ok WExhausted
  | Some (i', t, None) => wfinal_result bufferLen c i' t
  | Some (i', t, Some _) => wdown_result c reached i' t
  end.
Proof.
  induction k as [|k IH]; intros q last big i bufferLen c f reached Q X SH ID IL FL GF FD K I n N; pose proof (extent_le _ _ _ _ X) as XL.
  - cbn [wascan]. assert (E : (i - q <=? last - q)%nat = false) by (apply Nat.leb_gt; lia).
    destruct n; cbn [wscan]; rewrite E; reflexivity.
  - cbn [wascan]. destruct (Nat.ltb_spec last i) as [LI|LI].
    { assert (E : (i - q <=? last - q)%nat = false) by (apply Nat.leb_gt; lia). destruct n; cbn [wscan]; rewrite E; reflexivity. }
    destruct n as [|n]; [lia|].
    destruct (Tstates _ Q) as [(l' & b' & X' & L1 & L2 & BG) _]. rewrite X in X'. injection X' as <- <-.
    destruct (wscan_cells q last big i Q X ltac:(lia)) as [LL [t Ht]].
    destruct (big && Nat.eqb i (q + 1)) eqn:EB.
    + apply andb_true_iff in EB. destruct EB as [-> EB]. apply Nat.eqb_eq in EB. subst i.
      assert (SC : wscan (S n) W bufferLen c reached (insym W word (fr_pos f)) (last - q) (q + 1 - q) (q + 1) =
                   wscan (S n) W bufferLen c reached (insym W word (fr_pos f)) (last - q) (S (q + 1) - q) (S (q + 1))).
      { cbn [wscan]. replace (q + 1 - q)%nat with 1%nat by lia. replace (S (q + 1) - q)%nat with 2%nat by lia.
        cbn [Nat.eqb andb]. destruct (Nat.leb_spec 255 (last - q)) as [Y|Y]; [|lia].
        destruct (Nat.leb_spec 1 (last - q)); [|lia]. destruct (Nat.leb_spec 2 (last - q)); [|lia]. reflexivity. }
      rewrite SC. apply IH; auto; lia.
    + assert (HT : has_wtransition W q i t).
      { split; [assumption|]. exists last, big. split; [assumption|]. split; [lia|]. split; [intros ->; cbn [andb] in EB; now apply Nat.eqb_neq in EB|].
        unfold forget. cbn [transitions]. rewrite nth_error_map, Ht. reflexivity. }
      rewrite (wscan_cell q i t bufferLen c f reached (last - q) (i - q)); auto; [|lia|].
      2:{ destruct (Nat.eqb_spec (i - q) 1) as [E1|]; [|reflexivity]. cbn [andb]. apply Nat.leb_gt.
          destruct big; [|lia]. cbn [andb] in EB. apply Nat.eqb_neq in EB. lia. }
      rewrite Ht. destruct (act (fr_flags f) (fr_pos f) (forget_weight t)) as [[x|]|] eqn:EA; try reflexivity.
      destruct (w_symIn t =? 4294967295).
      { replace (S (i - q)) with (S i - q)%nat by lia. apply IH; auto; lia. }
      destruct (insym W word (fr_pos f) <? w_symIn t); [reflexivity|].
      destruct ((1 <=? i - q)%nat && (w_firstNormalChar W <=? w_symIn t) && (w_symIn t <? insym W word (fr_pos f))).
      * replace (last - q - (i - q))%nat with (last - i)%nat by lia.
        destruct (wbinary_ok i last (insym W word (fr_pos f)) ltac:(lia) LL) as (m & -> & M & _). cbn [bind].
        replace (S (i - q + m)) with (S (i + m) - q)%nat by lia. apply IH; auto; lia.
      * cbn [bind]. replace (S (i - q + 0)) with (S i - q)%nat by lia. replace (S (i + 0)) with (S i) by lia. apply IH; auto; lia.
Qed.

Lemma wascan_in : forall k q last big fl pos i i' t a, states q -> extent T q = Some (last, big) -> (q <= i)%nat ->
  wascan k W word q last big fl pos i = Some (i', t, a) ->
  (i <= i')%nat /\ has_wtransition W q i' t /\ act fl pos (forget_weight t) = Some a.
Proof.
  induction k as [|k IH]; intros q last big fl pos i i' t a Q X I E; [discriminate|]. cbn [wascan] in E.
  destruct (Nat.ltb_spec last i) as [LI|LI]; [discriminate|].
  assert (NX : forall j, (i <= j)%nat -> wascan k W word q last big fl pos (S j) = Some (i', t, a) ->
     (i <= i')%nat /\ has_wtransition W q i' t /\ act fl pos (forget_weight t) = Some a).
  { intros j J EJ. assert (QJ : (q <= S j)%nat) by lia. destruct (IH _ _ _ _ _ _ _ _ _ Q X QJ EJ) as (A & B & C). split; [lia|]. auto. }
  destruct (big && Nat.eqb i (q + 1)) eqn:EB; [apply (NX i); auto|].
  destruct (nth_error (wtransitions W) i) as [c|] eqn:N; [|discriminate].
  destruct (act fl pos (forget_weight c)) as [y|] eqn:EA.
  - injection E as <- <- <-. split; [lia|]. split; [|assumption]. split; [assumption|]. exists last, big. split; [assumption|]. split; [lia|].
    split; [intros ->; cbn [andb] in EB; now apply Nat.eqb_neq in EB|]. unfold forget. cbn [transitions]. rewrite nth_error_map, N. reflexivity.
  - destruct (w_symIn c =? 4294967295); [apply (NX i); auto|]. destruct (insym W word pos <? w_symIn c); [discriminate|].
    destruct ((1 <=? i - q)%nat && _ && _); [|apply (NX i); auto]. destruct (wbinary (last - i) W i (insym W word pos) 0 (last - i)) as [m| |]; try discriminate.
    eapply NX; [|exact E]. lia.
Qed.

Definition wsized (c : wconfiguration) : Prop :=
  (2 <= wc_size c)%nat /\
  length (wc_states c) = wc_size c /\ length (wc_transitions c) = wc_size c /\ length (wc_outputs c) = wc_size c /\
  length (wc_inputs c) = wc_size c /\ length (wc_flags c) = (wc_size c * w_featureCount W)%nat /\
  block (w_featureCount W) (wc_flags c) 0 = neutral T.

Lemma wshape_sized : forall c, wshape c -> wsized c.
Proof. intros c (S1 & S2 & S3 & S4 & S5 & S6 & S7 & S8 & S9 & S10). repeat (split; [assumption|]). assumption. Qed.

Lemma wgetMaxTc_spec : forall q last big, states q -> extent T q = Some (last, big) -> wgetMaxTc W q = Ok (last - q)%nat.
Proof.
  intros q last big Q X. destruct (Wstates _ Q) as [[(l' & b' & X' & L1 & L2 & BG) OV] _]. rewrite X in X'. injection X' as <- <-.
  unfold wgetMaxTc, rd. unfold extent, forget in X. cbn [transitions] in X. rewrite !nth_error_map in X.
  destruct (nth_error (wtransitions W) q) as [h|] eqn:EH; [|discriminate]. cbn [bind option_map moreTransitions forget_weight] in *.
  destruct (w_more h =? 255) eqn:M.
  - destruct (nth_error (wtransitions W) (q + 1)) as [o|] eqn:EO; [|discriminate]. cbn [option_map] in X. injection X as <- <-. cbn [bind].
    assert (Z0 : w_symOut o = 0 /\ 0 <= w_symIn o < 4294967295) by (eapply OV; eauto; lia). destruct Z0 as [Z0 Z1].
    unfold overflow in *. cbn [symIn symOut forget_weight] in *. rewrite Z0 in *.
    destruct (Z.eqb_spec (w_symIn o) 4294967295) as [E|E].
    + lia.
    + rewrite Z.mod_small by lia. f_equal. lia.
  - injection X as <- <-. f_equal. lia.
Qed.

Ltac wproj := cbn [wc_size wc_stackDepth wc_flagDepth wc_inputDepth wc_states wc_transitions wc_inputs wc_outputs wc_flags wc_inputLength].

(** Result of going on along a transition. *)
Lemma wdown_sim : forall c f r i t fl pos reached, wrepresents c f r -> has_wtransition W (fr_state f) i t -> (fr_ct f <= i)%nat ->
  act (fr_flags f) (fr_pos f) (forget_weight t) = Some (Some (fl, pos)) ->
  (if Nat.eqb (length r + 2) (wc_size c) then exists c', wdown_result c reached i t = Ok (WStop WTooDeep c') /\ wsized c' /\ wc_size c' = wc_size c
   else exists c', wdown_result c reached i t = Ok (WDown c' (if Nat.eqb pos (fr_pos f) then reached else Nat.max reached pos)) /\ wc_size c' = wc_size c /\
     wrepresents c' (mk_fr (Z.to_nat (w_target t)) (Z.to_nat (w_target t)) fl pos) (set_ct f i :: r)).
Proof.
  intros c f r i t fl pos reached RP HT I A.
  destruct RP as (SH & SD & ID & K). pose proof SH as (S1 & S2 & S3 & S4 & S5 & S6 & S7 & S8 & S9 & S10).
  pose proof (wstk_in _ _ _ _ _ _ _ K) as IN. pose proof (wstk_depth _ _ _ _ _ _ _ K) as FD. pose proof (wstk_block _ _ _ _ _ _ _ K) as BK.
  pose proof IN as (Q & GF & PL & CT & CL).
  assert (IN' : in_state (set_ct f i)).
  { split; [exact Q|]. split; [exact GF|]. split; [exact PL|]. cbn [fr_state fr_ct set_ct]. split; [lia|].
    intros last big X. destruct HT as (_ & l' & b' & X' & B & _). rewrite X in X'. injection X' as <- <-. lia. }
  pose proof (act_in T states word false Tsymbols Tstates (set_ct f i) _ fl pos IN' (proj2 HT) A) as IN2. cbn [forget_weight targetState] in IN2.
  pose proof (final_cell _ _ _ Q HT) as FCL.
  destruct (Wstates _ Q) as [_ B]. destruct (B _ _ HT) as [(GT & GS & _) NX]. pose proof (wact_not_final _ _ _ _ A) as NF.
  assert (E0 : w_symIn t <> 4294967295) by (intros E; apply NF, FCL, E).
  unfold good_transition in GT. rewrite (symIn_cell _ E0) in *. destruct GT as [GT|(C0 & C1 & C2 & C3 & C4)]; [contradiction|]. cbn [targetState symOut forget_weight] in C2, C4.
  change (firstNormalChar T) with (w_firstNormalChar W) in *. change (flagDiacriticFeatureCount T) with (w_featureCount W) in *.
  change (symbolToDiacritic T) with (w_symbolToDiacritic W) in *.
  assert (OS : outsym T i = if w_firstNormalChar W <=? w_symOut t then w_symOut t else 0).
  { unfold outsym. destruct HT as (_ & _ & _ & _ & _ & _ & N). now rewrite N. }
  (* the configuration after the flag check *)
  assert (FC : exists c1, wdown_result c reached i t = wgo_down W c1 reached i t /\
     wc_size c1 = wc_size c /\ wc_stackDepth c1 = wc_stackDepth c /\ wc_states c1 = wc_states c /\
     wc_transitions c1 = wc_transitions c /\ wc_inputs c1 = wc_inputs c /\
     wc_outputs c1 = wc_outputs c /\ wc_inputLength c1 = wc_inputLength c /\ wc_inputDepth c1 = wc_inputDepth c /\
     pos = (if w_firstNormalChar W <=? w_symIn t then S (wc_inputDepth c) else wc_inputDepth c) /\
     wc_flagDepth c1 = (if is_flag T (forget_weight t) then S (wc_flagDepth c) else wc_flagDepth c) /\
     length (wc_flags c1) = length (wc_flags c) /\
     (forall j, (j <= wc_flagDepth c)%nat -> block (w_featureCount W) (wc_flags c1) j = block (w_featureCount W) (wc_flags c) j) /\
     block (w_featureCount W) (wc_flags c1) (wc_flagDepth c1) = fl).
  { unfold FstProofs.act in A. rewrite (symIn_cell _ E0) in A. replace (w_symIn t =? FINAL) with false in A by (symmetry; now apply Z.eqb_neq).
    unfold wdown_result, is_flag. rewrite (symIn_cell _ E0). change (firstNormalChar T) with (w_firstNormalChar W) in *.
    destruct (w_firstNormalChar W <=? w_symIn t) eqn:E1; cbn [negb andb].
    - destruct (nth_error word (fr_pos f)) as [ch|]; [|discriminate]. destruct (input_symbol T ch =? w_symIn t); [|discriminate].
      injection A as <- <-. exists c. rewrite ID. repeat (split; [solve [auto; lia]|]). assumption.
    - unfold wflagDiacriticCheck. destruct (w_symIn t =? 0) eqn:E2; cbn [negb].
      + injection A as <- <-. rewrite orb_true_r. cbn [bind]. exists c. rewrite ID. repeat (split; [solve [auto; lia]|]). assumption.
      + destruct C3 as (o & O1 & O2 & O3); [lia|]. change (symbolToDiacritic T) with (w_symbolToDiacritic W) in A. rewrite O1 in A.
        destruct (Nat.eqb_spec (w_featureCount W) 0) as [Z0|Z0]; [lia|]. cbn [orb].
        destruct (Z.ltb_spec (w_symIn t) 0); [lia|]. unfold rd at 1. rewrite O1. cbn [bind]. unfold rd.
        destruct (nth_error (fr_flags f) (ofv_feature o)) as [v|] eqn:E3; [|discriminate]. cbn [bind].
        rewrite <- BK in E3. rewrite (block_nth _ _ _ _ _ E3). cbn [bind].
        assert (LL : (S (S (wc_flagDepth c)) * w_featureCount W <= length (wc_flags c))%nat) by (rewrite S6; apply Nat.mul_le_mono_r; lia).
        destruct (copy_spec _ _ _ LL) as (l' & -> & L1 & L2 & L3 & L4).
        destruct (flag_operation o v) as [[u|]|] eqn:E4; [| |discriminate]; injection A as <- <-; cbn [bind].
        * destruct (L4 (ofv_feature o) u O2) as (l2 & -> & M1 & M2 & M3). cbn [bind]. eexists. split; [reflexivity|]. wproj.
          repeat (split; [solve [auto]|]). rewrite M3. now rewrite BK.
        * eexists. split; [reflexivity|]. wproj. repeat (split; [solve [auto]|]). rewrite L3. now rewrite BK. }
  destruct FC as (c1 & -> & D1 & D2 & D3 & D4 & D5 & D6 & D7 & D8 & D10 & D11 & D12 & D14 & D16).
  unfold wgo_down. rewrite D1, D2, SD.
  destruct (Nat.eqb_spec (length r + 2) (wc_size c)) as [E|E].
  - exists c1. split; [reflexivity|]. split; [|assumption]. unfold wsized. rewrite D1, D3, D4, D5, D6, D12, D14 by lia.
    repeat (split; [solve [auto]|]). assumption.
  - rewrite D3, D4, D6. rewrite !wr_ok by (rewrite ?upd_length; lia). cbn [bind]. rewrite wr_ok by (rewrite ?upd_length; lia). cbn [bind].
    eexists. split; [f_equal; f_equal; rewrite D8|].
    { rewrite D10, <- ID. destruct (w_firstNormalChar W <=? w_symIn t); cbn [andb].
      - rewrite (proj2 (Nat.eqb_neq _ _)) by lia. destruct (Nat.ltb_spec reached (S (wc_inputDepth c))); lia.
      - now rewrite Nat.eqb_refl. }
    wproj. split; [reflexivity|].
    assert (CC : wstk (upd (wc_states c) (S (length r)) (w_target t))
                     (upd (upd (wc_transitions c) (length r) (Z.of_nat i)) (S (length r)) (w_target t))
                     (upd (wc_outputs c) (length r) (if w_firstNormalChar W <=? w_symOut t then w_symOut t else 0))
                     (wc_flags c1) (set_ct f i) r (wc_flagDepth c)).
    { eapply wstk_ext; [apply wstk_set with (i := i); [exact K|lia|exact IN']| | | |]; intros j J; rewrite ?upd_other by lia; auto. }
    unfold wrepresents. wproj. cbn [length fr_pos].
    split; [|split; [reflexivity|split; [rewrite D8, D10; reflexivity|]]].
    + unfold wshape. wproj. rewrite ?upd_length, D5, D7, D12, D14 by lia. repeat (split; [solve [auto; lia]|]). auto.
    + apply wstk_push with (fd := wc_flagDepth c) (t := t); auto; cbn [fr_flags fr_pos fr_state fr_ct set_ct].
      * rewrite upd_same by lia. now rewrite OS.
      * apply upd_same. lia.
      * rewrite upd_same by (rewrite upd_length; lia). f_equal. lia.
Qed.

(** Going back. *)
Lemma wup_sim : forall c f g r, wrepresents c f (g :: r) -> exists c', wgo_up W c = Ok c' /\ wc_size c' = wc_size c /\
  wrepresents c' (set_ct g (S (fr_ct g))) r.
Proof.
  intros c f g r (SH & SD & ID & K). pose proof SH as (S1 & S2 & S3 & S4 & S5 & S6 & S7 & S8 & S9 & S10).
  cbn [length] in SD. inversion K as [|f0 g0 r0 fd fd' t KG IN HT A ST O1 O2 O3 FE FB]; subst f0 g0 r0.
  pose proof (wstk_in _ _ _ _ _ _ _ KG) as (Q & GF & PL & CT & CL).
  destruct (wstk_top _ _ _ _ _ _ _ KG) as [T1 T2].
  pose proof (final_cell _ _ _ Q HT) as FCL.
  destruct (Wstates _ Q) as [_ B]. destruct (B _ _ HT) as [(GT & GS & _) NX]. pose proof (wact_not_final _ _ _ _ A) as NF.
  assert (E0 : w_symIn t <> 4294967295) by (intros E; apply NF, FCL, E).
  unfold good_transition in GT. rewrite (symIn_cell _ E0) in *. destruct GT as [GT|(C0 & C1 & C2 & C3 & C4)]; [contradiction|].
  assert (IN' : in_state (set_ct g (S (fr_ct g)))).
  { split; [exact Q|]. split; [exact GF|]. split; [exact PL|]. cbn [fr_state fr_ct set_ct]. split; [lia|].
    intros last big X. destruct HT as (_ & l' & b' & X' & D & _). rewrite X in X'. injection X' as <- <-. lia. }
  unfold wgo_up. rewrite SD. rewrite (rdu_ok _ _ _ T2). cbn [bind]. unfold rd. rewrite (proj1 HT). cbn [bind].
  rewrite wr_ok by lia. cbn [bind]. rewrite Z.mod_small by (unfold FINAL in *; lia).
  assert (KK : wstk (wc_states c) (upd (wc_transitions c) (length r) (Z.of_nat (S (fr_ct g)))) (wc_outputs c)
     (wc_flags c) (set_ct g (S (fr_ct g))) r fd).
  { apply wstk_set; [assumption|lia|assumption]. }
  assert (SHP : forall ip fdp, wshape (mk_wconf (wc_size c) (length r) fdp ip (wc_states c)
     (upd (wc_transitions c) (length r) (Z.of_nat (S (fr_ct g)))) (wc_inputs c) (wc_outputs c) (wc_flags c) (wc_inputLength c))).
  { intros. unfold wshape. wproj. rewrite upd_length. repeat (split; [solve [auto; lia]|]). assumption. }
  unfold FstProofs.act in A. rewrite (symIn_cell _ E0) in A. replace (w_symIn t =? FINAL) with false in A by (symmetry; now apply Z.eqb_neq).
  unfold is_flag in FE. rewrite (symIn_cell _ E0) in FE.
  change (firstNormalChar T) with (w_firstNormalChar W) in *.
  destruct (w_firstNormalChar W <=? w_symIn t) eqn:E1; cbn [negb andb] in FE.
  - destruct (nth_error word (fr_pos g)) as [ch|]; [|discriminate]. destruct (input_symbol T ch =? w_symIn t); [|discriminate].
    injection A as A1 A2. rewrite ID, <- A2. eexists. split; [reflexivity|]. split; [reflexivity|].
    unfold wrepresents. wproj. cbn [fr_pos set_ct]. split; [apply SHP|]. split; [reflexivity|]. split; [reflexivity|]. rewrite FE. exact KK.
  - destruct (w_symIn t =? 0) eqn:E2; cbn [negb] in FE.
    + rewrite andb_false_r. injection A as A1 A2. eexists. split; [reflexivity|]. split; [reflexivity|].
      unfold wrepresents. wproj. cbn [fr_pos set_ct]. split; [apply SHP|]. split; [reflexivity|]. split; [congruence|]. rewrite FE. exact KK.
    + destruct C3 as (o' & O1' & O2' & O3'); [lia|]. change (flagDiacriticFeatureCount T) with (w_featureCount W) in *.
      destruct (Nat.eqb_spec (w_featureCount W) 0) as [Z0|Z0]; [lia|]. cbn [negb andb]. rewrite FE.
      eexists. split; [reflexivity|]. split; [reflexivity|].
      unfold wrepresents. wproj. cbn [fr_pos set_ct]. split; [apply SHP|]. split; [reflexivity|]. split; [|exact KK].
      destruct (nth_error (symbolToDiacritic T) (Z.to_nat (w_symIn t))) as [o|]; [|discriminate].
      destruct (nth_error (fr_flags g) (ofv_feature o)) as [v|]; [|discriminate].
      destruct (flag_operation o v) as [[u|]|]; [| |discriminate]; injection A as A1 A2; congruence.
Qed.

Lemma wosyms_strings : forall sis cts outs fls f r fd, wstk sis cts outs fls f r fd -> exists strs, Forall2 (has_string T) (osyms T r) strs.
Proof.
  induction 1; [exists []; constructor|]. destruct IHwstk as [strs I].
  destruct (wstk_in _ _ _ _ _ _ _ H) as [Q _].
  destruct (outsym_string T states Wnormal Wepsilon Tstates _ _ _ Q (proj2 H1) (wact_not_final _ _ _ _ H2)) as (str & X1 & _).
  exists (strs ++ [str]). unfold osyms in *. cbn [map rev]. apply Forall2_app; [assumption|]. constructor; [assumption|constructor].
Qed.

Theorem wsearch_sim : forall n c f r reached bufferLen, (0 < bufferLen)%nat -> wrepresents c f r ->
  let '(o, (f', r'), reached') := wasearch n W word bufferLen (wc_size c) f r reached in
  exists c', wsearch n W bufferLen c reached = Ok (o, c', reached') /\ wc_size c' = wc_size c /\ wsized c' /\
    (o <> WTooDeep -> wrepresents c' f' r').
Proof.
  induction n as [|n IH]; intros c f r reached bufferLen BL RP; cbn [wsearch wasearch].
  { exists c. split; [reflexivity|]. split; [reflexivity|]. split; [apply wshape_sized, RP|]. auto. }
  pose proof RP as (SH & SD & ID & K). pose proof SH as (S1 & S2 & S3 & S4 & S5 & S6 & S7 & S8 & S9 & S10).
  pose proof (wstk_in _ _ _ _ _ _ _ K) as IN. pose proof IN as (Q & GF & PL & CT & CL).
  pose proof (wstk_depth _ _ _ _ _ _ _ K) as FD. destruct (wstk_top _ _ _ _ _ _ _ K) as [T1 T2]. pose proof (wstk_block _ _ _ _ _ _ _ K) as BK.
  destruct (Tstates _ Q) as [(last & big & X & L1 & L2 & BG) _]. pose proof (extent_le _ _ _ _ X) as XL. specialize (CL _ _ X).
  rewrite SD, (rdu_ok _ _ _ T1), (rdu_ok _ _ _ T2). cbn [bind]. rewrite (wgetMaxTc_spec _ _ _ Q X). cbn [bind].
  assert (IS : (if (wc_inputDepth c =? wc_inputLength c)%nat then Ok 0%nat else rdu (wc_inputs c) (wc_inputDepth c)) = Ok (Z.to_nat (insym W word (fr_pos f)))
     /\ 0 <= insym W word (fr_pos f)).
  { rewrite S8, ID. destruct (Nat.eqb_spec (fr_pos f) (length word)) as [E|E].
    - rewrite E, insym_end. split; [reflexivity|lia].
    - pose proof (insym_range (fr_pos f) ltac:(lia)) as R. split; [|lia]. unfold insym in *.
      destruct (nth_error word (fr_pos f)) as [ch|] eqn:E2; [|apply nth_error_None in E2; lia].
      apply rdu_ok. rewrite (S9 _ _ E2). f_equal. lia. }
  destruct IS as [IS IP]. rewrite IS. cbn [bind]. rewrite Z2Nat.id by assumption.
  replace (Z.to_nat ((Z.of_nat (fr_ct f) - Z.of_nat (fr_state f)) mod 2 ^ 32)) with (fr_ct f - fr_state f)%nat
    by (rewrite Z.mod_small by lia; lia).
  rewrite (wscan_spec (S last - fr_ct f) (fr_state f) last big (fr_ct f) bufferLen c f reached) by (auto; lia).
  unfold wtopscan. rewrite X.
  destruct (wascan (S last - fr_ct f) W word (fr_state f) last big (fr_flags f) (fr_pos f) (fr_ct f)) as [[[i t] a]|] eqn:EA.
  - destruct (wascan_in _ _ _ _ _ _ _ _ _ _ Q X CT EA) as (A1 & A2 & A3).
    destruct a as [[fl pos]|].
    + pose proof (wdown_sim c f r i t fl pos reached RP A2 A1 A3) as D. destruct (Nat.eqb (length r + 2) (wc_size c)).
      * destruct D as (c' & -> & D1 & D2). cbn [bind]. exists c'. split; [reflexivity|]. split; [assumption|]. split; [assumption|]. congruence.
      * destruct D as (c' & -> & D1 & D2). cbn [bind].
        specialize (IH _ _ _ (if Nat.eqb pos (fr_pos f) then reached else Nat.max reached pos) bufferLen BL D2). rewrite D1 in IH.
        destruct (wasearch n W word bufferLen (wc_size c) _ _ _) as [[o [f' r']] reached']. destruct IH as (c'' & I1 & I2 & I3 & I4).
        exists c''. split; [exact I1|]. split; [assumption|]. split; assumption.
    + unfold wfinal_result. replace (negb (wc_stackDepth c <=? length (wc_outputs c))%nat) with false
        by (symmetry; apply negb_false_iff, Nat.leb_le; lia).
      rewrite SD, (wosyms_spec _ _ _ _ _ _ _ K), wwrite_same by lia.
      destruct (wosyms_strings _ _ _ _ _ _ _ K) as [strs ST].
      destruct (write_output_spec T states Tsymbols Tstates _ _ bufferLen [] ST BL) as [E|E]; rewrite E; cbn [bind].
      * rewrite wr_ok by lia. cbn [bind].
        assert (IN' : in_state (set_ct f (S i))).
        { split; [exact Q|]. split; [exact GF|]. split; [exact PL|]. cbn [fr_state fr_ct set_ct]. split; [lia|].
          intros last' big' X''. destruct A2 as (_ & l' & b' & X' & D & _). rewrite X'' in X'. injection X' as <- <-. lia. }
        pose proof (wstk_set _ _ _ _ _ _ _ (S i) K ltac:(lia) IN') as K'.
        rewrite (wcts_spec _ _ _ _ _ _ _ K').
        destruct (Wstates _ Q) as [_ B]. destruct (B _ _ A2) as [(_ & _ & GW) _].
        assert (TI : w_weight t = to_int16 (w_weight t)).
        { unfold to_int16. destruct (Z.ltb_spec (w_weight t mod 65536) 32768); pose proof (Z.div_mod (w_weight t) 65536);
          pose proof (Z.mod_pos_bound (w_weight t) 65536); assert (w_weight t / 65536 = 0 \/ w_weight t / 65536 = -1) by lia; lia. }
        rewrite add_weights_spec; [|apply (wcts_cells _ _ _ _ _ _ _ K)|assumption]. cbn [bind].
        eexists. split; [rewrite path_weight_app|].
        { replace (path_weight W [i]) with (w_weight t); [now rewrite Z.add_comm|].
          unfold path_weight. cbn [fold_right]. unfold weight_at. rewrite (proj1 A2). lia. }
        wproj. split; [reflexivity|].
        match goal with |- wsized ?c' /\ _ => assert (RP' : wrepresents c' (set_ct f (S i)) r) end.
        { unfold wrepresents. wproj. cbn [fr_pos set_ct].
          split; [|split; [solve [auto]|split; [solve [auto]|exact K']]].
          unfold wshape. wproj. rewrite upd_length. repeat (split; [solve [auto; lia]|]). assumption. }
        split; [apply wshape_sized, RP'|]. auto.
      * exists c. split; [reflexivity|]. split; [reflexivity|]. split; [apply wshape_sized, SH|]. auto.
  - cbn [bind]. destruct r as [|g r].
    + cbn [length Nat.eqb]. exists c. split; [reflexivity|]. split; [reflexivity|]. split; [apply wshape_sized, SH|]. auto.
    + cbn [length Nat.eqb]. destruct (wup_sim _ _ _ _ RP) as (c' & -> & U1 & U2). cbn [bind].
      specialize (IH _ _ _ reached bufferLen BL U2). rewrite U1 in IH.
      destruct (wasearch n W word bufferLen (wc_size c) _ _ _) as [[o [f' r']] reached']. destruct IH as (c'' & I1 & I2 & I3 & I4).
      exists c''. split; [exact I1|]. split; [assumption|]. split; assumption.
Qed.

End Simulation.
