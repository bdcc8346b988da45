(** * The stack machine of the weighted transducer and the accepting paths. *)
From Coq Require Import Sorted.
From Verif Require Import Base BaseFacts FstModel FstFileModel FstSpec FstProofs FstPaths FstLookup WfstModel WfstSpec WfstProofs.

Section WPaths.
Variable W : wtransducer.
Variable states : nat -> Prop.
Variable word : list Z.
Local Notation T := (forget W).
Hypothesis Wnormal : 0 < w_firstNormalChar W < FINAL.
Hypothesis Wsymbols : forall c s, find_symbol (w_stringToSymbol W) c = Some s -> w_firstNormalChar W <= s < Z.of_nat (length (w_symbolToString W)).
Hypothesis Wunknown : w_firstNormalChar W <= Z.of_nat (length (w_symbolToString W)).
Hypothesis Wepsilon : nth_error (w_symbolToString W) 0 = Some [].
Hypothesis Wstates : forall q, states q -> good_wstate W q /\
  forall i c, has_wtransition W q i c -> good_wtransition W c /\ (w_symIn c <> 0xFFFFFFFF -> states (Z.to_nat (w_target c))).

Local Notation in_state := (in_state T states word).
Local Notation act := (act T word false).
Local Notation chain := (chain T states word false).
Local Notation acc := (acc T word false).
Local Notation found := (found T word false).
Local Notation Tst := (Tstates W states Wstates).
Local Notation Tsy := (Tsymbols W Wsymbols).

Lemma wtopscan_some : forall f i t a, in_state f -> wtopscan W word f = Some (i, t, a) ->
  (fr_ct f <= i)%nat /\ has_wtransition W (fr_state f) i t /\ act (fr_flags f) (fr_pos f) (forget_weight t) = Some a /\
  in_state (set_ct f (S i)) /\ in_state (set_ct f i).
Proof.
  intros f i t a (Q & GF & PL & CT & CL) E. unfold wtopscan in E. destruct (extent T (fr_state f)) as [[last big]|] eqn:X; [|discriminate].
  destruct (wascan_in W states word Wstates _ _ _ _ _ _ _ _ _ _ Q X CT E) as (A & B & C). repeat (split; [assumption|]).
  assert (G : forall j, (i <= j <= S i)%nat -> in_state (set_ct f j)).
  { intros j J. split; [exact Q|]. split; [exact GF|]. split; [exact PL|]. cbn [fr_state fr_ct set_ct]. split; [lia|].
    intros l' b' X'. destruct B as (_ & l2 & b2 & X2 & I & _). rewrite X' in X2. injection X2 as <- <-. lia. }
  split; apply G; lia.
Qed.

Lemma wtopscan_next : forall f i t fl pos, in_state f -> wtopscan W word f = Some (i, t, Some (fl, pos)) ->
  in_state (mk_fr (Z.to_nat (w_target t)) (Z.to_nat (w_target t)) fl pos).
Proof.
  intros f i t fl pos I E. destruct (wtopscan_some _ _ _ _ I E) as (A & B & C & _ & D).
  apply (act_in T states word false Tsy Tst (set_ct f i) _ fl pos D (proj2 B) C).
Qed.

(** ** Tables in file order *)
Section Ordered.
Hypothesis ordered : in_file_order W.
Hypothesis flags : one_flag W.

Lemma act_normal : forall q j u fl pos, states q -> has_wtransition W q j u -> w_symIn u <> 0xFFFFFFFF -> w_firstNormalChar W <= w_symIn u ->
  (pos <= length word)%nat -> insym W word pos <> w_symIn u -> act fl pos (forget_weight u) = None.
Proof.
  intros q j u fl pos Q HU NF N PL NE. unfold FstProofs.act. rewrite symIn_cell by assumption.
  destruct (Wstates _ Q) as [_ B]. destruct (B _ _ HU) as [(_ & [G|G] & _) _]; [|contradiction].
  replace (w_symIn u =? FINAL) with false by lia. change (firstNormalChar T) with (w_firstNormalChar W).
  replace (w_firstNormalChar W <=? w_symIn u) with true by lia. unfold insym in NE.
  destruct (nth_error word pos) as [ch|]; [|reflexivity]. now rewrite (proj2 (Z.eqb_neq _ _)).
Qed.

(** What stops the scan stops it rightly. *)
Lemma stop_right : forall q i t j u fl pos, states q -> good_flags T fl -> (pos <= length word)%nat ->
  has_wtransition W q i t -> has_wtransition W q j u -> (i < j)%nat ->
  act fl pos (forget_weight t) = None -> w_symIn t <> 0xFFFFFFFF -> insym W word pos < w_symIn t ->
  act fl pos (forget_weight u) = None.
Proof.
  intros q i t j u fl pos Q GF PL HT HU IJ A NF LT.
  destruct (ordered _ _ _ _ _ HT HU IJ) as [O|[[O _]|(O1 & O2 & O3)]]; [|contradiction|].
  { assert (0 <= insym W word pos); [|lia]. destruct (Nat.eq_dec pos (length word)) as [->|].
    - rewrite insym_end by assumption. lia.
    - pose proof (insym_range W states word Wsymbols Wunknown Wstates pos ltac:(lia)). lia. }
  destruct (Z.le_gt_cases (w_firstNormalChar W) (w_symIn u)) as [N|N].
  - eapply act_normal; eauto. lia.
  - destruct (Nat.eq_dec pos (length word)) as [E|E].
    + rewrite E, insym_end in LT by assumption.
      assert (S1 : w_symIn t = w_symIn u) by (apply (flags q i j t u HT HU); lia).
      unfold FstProofs.act in *. rewrite !symIn_cell in * by assumption. rewrite <- S1. exact A.
    + pose proof (insym_range W states word Wsymbols Wunknown Wstates pos ltac:(lia)). lia.
Qed.

Lemma file_order_le : forall q i j a b, has_wtransition W q i a -> has_wtransition W q j b -> (i <= j)%nat ->
  w_firstNormalChar W <= w_symIn a -> w_symIn a <> 0xFFFFFFFF -> w_symIn b <> 0xFFFFFFFF /\ w_symIn a <= w_symIn b.
Proof.
  intros q i j a b A B L N F. destruct (Nat.eq_dec i j) as [->|NE].
  - destruct A as [A _]. destruct B as [B _]. replace b with a by congruence. split; [assumption|lia].
  - destruct (ordered _ _ _ _ _ A B ltac:(lia)) as [O|[[O _]|(O1 & O2 & O3)]]; [lia|contradiction|auto].
Qed.

Lemma wascan_skip : forall k q last big fl pos i, states q -> extent T q = Some (last, big) -> good_flags T fl -> (pos <= length word)%nat ->
  (S last - i <= k)%nat -> (q <= i)%nat ->
  match wascan k W word q last big fl pos i with
  | Some (i', _, _) => forall j u, (i <= j < i')%nat -> has_wtransition W q j u -> act fl pos (forget_weight u) = None
  | None => forall j u, (i <= j)%nat -> has_wtransition W q j u -> act fl pos (forget_weight u) = None
  end.
Proof.
  induction k as [|k IH]; intros q last big fl pos i Q X GF PL K I; cbn [wascan].
  { intros j u J (_ & l' & b' & X' & B & _). rewrite X in X'. injection X' as <- <-. lia. }
  destruct (Nat.ltb_spec last i) as [LI|LI].
  { intros j u J (_ & l' & b' & X' & B & _). rewrite X in X'. injection X' as <- <-. lia. }
  assert (NX : forall i2, (i < i2)%nat -> (forall j u, (i <= j < i2)%nat -> has_wtransition W q j u -> act fl pos (forget_weight u) = None) ->
    match wascan k W word q last big fl pos i2 with
    | Some (i', _, _) => forall j u, (i <= j < i')%nat -> has_wtransition W q j u -> act fl pos (forget_weight u) = None
    | None => forall j u, (i <= j)%nat -> has_wtransition W q j u -> act fl pos (forget_weight u) = None
    end).
  { intros i2 J2 N2. assert (K2 : (S last - i2 <= k)%nat) by lia. assert (I2 : (q <= i2)%nat) by lia.
    specialize (IH q last big fl pos i2 Q X GF PL K2 I2). destruct (wascan k W word q last big fl pos i2) as [[[i' t'] a']|].
    - intros j u J. destruct (Nat.lt_ge_cases j i2); [apply N2; lia|apply IH; lia].
    - intros j u J. destruct (Nat.lt_ge_cases j i2); [apply N2; lia|apply IH; lia]. }
  destruct (big && Nat.eqb i (q + 1)) eqn:EB.
  { apply NX; [lia|]. intros j u J (_ & l' & b' & X' & _ & NB & _). replace j with i in * by lia. rewrite X in X'. injection X' as <- <-.
    apply andb_true_iff in EB. destruct EB as [-> EB]. apply Nat.eqb_eq in EB. exfalso. now apply NB. }
  destruct (wscan_cells W states Wstates q last big i Q X ltac:(lia)) as [LL [t Ht]]. rewrite Ht.
  assert (HT : has_wtransition W q i t).
  { split; [assumption|]. exists last, big. split; [assumption|]. split; [lia|].
    split; [intros ->; cbn [andb] in EB; now apply Nat.eqb_neq in EB|]. unfold forget. cbn [transitions]. rewrite nth_error_map, Ht. reflexivity. }
  assert (SAME : forall u, has_wtransition W q i u -> u = t) by (intros u (N & _); congruence).
  destruct (act fl pos (forget_weight t)) as [a|] eqn:A; [intros j u J; lia|].
  assert (ONE : forall j u, (i <= j < S i)%nat -> has_wtransition W q j u -> act fl pos (forget_weight u) = None).
  { intros j u J HU. replace j with i in HU by lia. apply SAME in HU. now subst u. }
  destruct (Z.eqb_spec (w_symIn t) 0xFFFFFFFF) as [F|F]; [apply NX; [lia|exact ONE]|].
  destruct (Z.ltb_spec (insym W word pos) (w_symIn t)) as [S|S].
  { intros j u J HU. destruct (Nat.eq_dec j i) as [->|NE]; [apply SAME in HU; now subst u|]. apply (stop_right q i t j u fl pos); auto. lia. }
  destruct ((1 <=? i - q)%nat && (w_firstNormalChar W <=? w_symIn t) && (w_symIn t <? insym W word pos)) eqn:EC; [|apply NX; [lia|exact ONE]].
  rewrite !andb_true_iff in EC. destruct EC as [[C1 C2] C3].
  destruct (wbinary_ok W states Wsymbols Wstates i last (insym W word pos) LI LL) as (m & -> & M & V). apply NX; [lia|].
  intros j u J HU. destruct (Nat.eq_dec m 0) as [->|M0]; [apply ONE with j; [lia|assumption]|].
  destruct V as [V|(c & V1 & V2)]; [contradiction|].
  assert (HC : has_wtransition W q (i + m) c).
  { split; [assumption|]. exists last, big. split; [assumption|]. split; [lia|]. split; [intros ->; destruct HT as (_ & ? & ? & ? & ? & ? & _); lia|].
    unfold forget. cbn [transitions]. rewrite nth_error_map, V1. reflexivity. }
  destruct (file_order_le q i j t u HT HU ltac:(lia) ltac:(lia) F) as [U1 U2].
  destruct (file_order_le q j (i + m)%nat u c HU HC ltac:(lia) ltac:(lia) U1) as [U3 U4].
  eapply act_normal; eauto; lia.
Qed.

Lemma wtopscan_skip : forall f, in_state f ->
  match wtopscan W word f with
  | Some (i', _, _) => forall j u, (fr_ct f <= j < i')%nat -> has_transition T (fr_state f) j u -> act (fr_flags f) (fr_pos f) u = None
  | None => forall j u, (fr_ct f <= j)%nat -> has_transition T (fr_state f) j u -> act (fr_flags f) (fr_pos f) u = None
  end.
Proof.
  intros f (Q & GF & PL & CT & CL). unfold wtopscan. destruct (extent T (fr_state f)) as [[last big]|] eqn:X.
  - pose proof (wascan_skip (S last - fr_ct f) _ last big _ _ (fr_ct f) Q X GF PL ltac:(lia) CT) as H.
    destruct (wascan _ W word _ _ _ _ _ _) as [[[i' t'] a']|]; intros j u J HU; destruct (transition_cell _ _ _ _ HU) as (c & HC & ->); eauto.
  - intros j u J (l & b & X' & _). congruence.
Qed.

End Ordered.

(** ** The results *)
Definition listed (fl0 : list Z) (f : frame) (r : list frame) (L : list result) : Prop :=
  forall p out n, In (p, out, n) L -> acc fl0 p out n /\ before p (position f r).

Lemma listed_move : forall fl0 f r L i, listed fl0 f r L -> (fr_ct f <= i)%nat -> listed fl0 (set_ct f i) r L.
Proof.
  intros fl0 f r L i F LE p out n I. destruct (F _ _ _ I) as [A B]. split; [assumption|]. unfold position in *. eapply (before_end T states Tst); [exact B|exact LE].
Qed.

Lemma listed_down : forall fl0 f r L f', listed fl0 f r L -> listed fl0 f' (f :: r) L.
Proof.
  intros fl0 f r L f' F p out n I. destruct (F _ _ _ I) as [X B]. split; [assumption|]. unfold position in *. cbn [map rev]. rewrite <- app_assoc. cbn [app].
  eapply (before_end T states Tst); [exact B|lia].
Qed.

Lemma listed_up : forall fl0 f g r L, listed fl0 f (g :: r) L -> listed fl0 (set_ct g (S (fr_ct g))) r L.
Proof.
  intros fl0 f g r L F p out n I. destruct (F _ _ _ I) as [X B]. split; [assumption|]. unfold position in *. cbn [map rev fr_ct set_ct] in *.
  rewrite <- app_assoc in B. cbn [app] in B.
  clear - B. revert p B. induction (rev (map fr_ct r)) as [|b a IH]; intros p B; cbn [app] in *.
  - inversion B; subst; constructor; lia.
  - inversion B; subst; [now constructor|]. apply before_later. auto.
Qed.

Lemma acc_position : forall fl0 f r t strs, chain fl0 f r -> has_transition T (fr_state f) (fr_ct f) t ->
  act (fr_flags f) (fr_pos f) t = Some None -> Forall2 (has_string T) (osyms T r) strs ->
  acc fl0 (position f r) (concat strs) (fr_pos f).
Proof.
  intros fl0 f r t strs CH HT A ST. destruct (act_final _ _ _ _ _ _ A) as [TF TP].
  pose proof (chain_in T states word false _ _ _ CH) as (_ & _ & PL & _). split; [|split; auto]. unfold position. rewrite <- (app_nil_r (concat strs)).
  eapply (chain_path T states word false Wnormal Tsy Wepsilon Tst); eauto. econstructor; eauto.
Qed.

Lemma listed_final : forall fl0 f r L t strs, chain fl0 f r -> listed fl0 f r L ->
  has_transition T (fr_state f) (fr_ct f) t -> act (fr_flags f) (fr_pos f) t = Some None -> Forall2 (has_string T) (osyms T r) strs ->
  listed fl0 (set_ct f (S (fr_ct f))) r (L ++ [(position f r, concat strs, fr_pos f)]).
Proof.
  intros fl0 f r L t strs CH F HT A ST p out n I. apply in_app_iff in I. destruct I as [I|[I|[]]].
  - apply (listed_move fl0 f r L (S (fr_ct f)) F ltac:(lia)). assumption.
  - injection I as <- <- <-. split; [eapply acc_position; eauto|]. unfold position. cbn [fr_ct set_ct]. apply before_in. lia.
Qed.

Definition wfound (fl0 : list Z) (f : frame) (r : list frame) (L : list result) : Prop :=
  listed fl0 f r L /\ (in_file_order W /\ one_flag W -> found fl0 f r L).

Theorem wasearch_found : forall n bufferLen size fl0 f r reached L o f' r' reached', chain fl0 f r -> (0 < bufferLen)%nat ->
  wfound fl0 f r L -> StronglySorted before (map rpath L) ->
  wasearch n W word bufferLen size f r reached = (o, (f', r'), reached') ->
  match o with
  | WFound out w => chain fl0 f' r' /\ (length out < bufferLen)%nat /\ exists p, w = to_int16 (path_weight W p) /\
      wfound fl0 f' r' (L ++ [(p, out, length word)]) /\ StronglySorted before (map rpath (L ++ [(p, out, length word)]))
  | WEnd => chain fl0 f' r' /\ r' = [] /\ (in_file_order W /\ one_flag W -> forall p out k, acc fl0 p out k -> In (p, out, k) L)
  | WTooDeep => True
  | _ => chain fl0 f' r'
  end.
Proof.
  induction n as [|n IH]; intros bufferLen size fl0 f r reached L o f' r' reached' CH BL FD SO E; cbn [wasearch] in E; [injection E as <- <- <- <-; assumption|].
  pose proof (chain_in T states word false _ _ _ CH) as IN. destruct FD as [FL FO].
  assert (SK : in_file_order W /\ one_flag W ->
    match wtopscan W word f with
    | Some (i', _, _) => forall j u, (fr_ct f <= j < i')%nat -> has_transition T (fr_state f) j u -> act (fr_flags f) (fr_pos f) u = None
    | None => forall j u, (fr_ct f <= j)%nat -> has_transition T (fr_state f) j u -> act (fr_flags f) (fr_pos f) u = None
    end) by (intros [O1 O2]; now apply wtopscan_skip).
  destruct (wtopscan W word f) as [[[i t] [[fl pos]|]]|] eqn:ES.
  - destruct (wtopscan_some _ _ _ _ IN ES) as (A & B & C & D1 & D2).
    destruct (Nat.eqb (length r + 2) size); [injection E as <- _ _ _; exact I|].
    assert (CS : chain fl0 (set_ct f i) r) by (apply chain_set; assumption).
    eapply IH; [| | |exact SO|exact E]; [|assumption|split].
    + eapply chain_push; [exact CS|apply (wtopscan_next _ _ _ _ _ IN ES)|exact (proj2 B)|exact C|reflexivity].
    + apply listed_down. apply listed_move; assumption.
    + intros OO. apply (found_down T states word false Wnormal Tsy Wunknown Wepsilon Tst fl0 (set_ct f i) r L (forget_weight t) fl pos); auto; [|exact (proj2 B)].
      apply (found_move T states word false Wnormal Tsy Wunknown Wepsilon Tst); auto. exact (SK OO).
  - destruct (wtopscan_some _ _ _ _ IN ES) as (A & B & C & D1 & D2).
    destruct (chain_strings T states word false Wnormal Wepsilon Tst _ _ _ CH) as [strs ST].
    destruct (write_output_spec T states Tsy Tst _ _ bufferLen [] ST BL) as [X|X]; rewrite X in E; injection E as <- <- <- <-; [|assumption].
    assert (CS : chain fl0 (set_ct f i) r) by (apply chain_set; assumption).
    split; [apply chain_set; assumption|]. split; [eapply FstLookup.write_output_length; exact X|]. cbn [app].
    destruct (act_final _ _ _ _ _ _ C) as [_ TP]. rewrite <- (TP eq_refl).
    exists (position (set_ct f i) r). split; [reflexivity|].
    pose proof (listed_move fl0 f r L i FL A) as LM. split; [split|].
    + apply (listed_final fl0 (set_ct f i) r L (forget_weight t) strs); auto. exact (proj2 B).
    + intros OO. apply (found_final T states word false Wnormal Tsy Wunknown Wepsilon Tst fl0 (set_ct f i) r L (forget_weight t) strs); auto; [|exact (proj2 B)].
      apply (found_move T states word false Wnormal Tsy Wunknown Wepsilon Tst); auto. exact (SK OO).
    + apply sorted_snoc; [assumption|]. intros p' o' k' Y. now destruct (LM _ _ _ Y).
  - destruct r as [|g r].
    + injection E as <- <- <- <-. split; [assumption|]. split; [reflexivity|]. intros OO p out k X.
      destruct (FO OO) as [_ F2]. pose proof X as (P & _). destruct (path_cons T states Tsy Tst _ _ _ _ _ _ P) as (j & q & -> & _).
      destruct (Nat.lt_ge_cases j (fr_ct f)) as [Y|Y].
      * apply F2; [assumption|]. now apply before_here.
      * exfalso. eapply (no_path T states word false Wnormal Tsy Wunknown Wepsilon Tst fl0 f []); [exact CH|exact X|]. intros u U. eapply (SK OO); eauto.
    + eapply IH; [apply (chain_back T states word false Tsy Tst _ _ _ _ CH)|exact BL| |exact SO|exact E]. split; [eapply listed_up; eauto|].
      intros OO. eapply (found_up T states word false Wnormal Tsy Wunknown Wepsilon Tst); [exact CH|auto|]. exact (SK OO).
Qed.

End WPaths.
