(** * The stack machine enumerates the accepting paths. *)
From Coq Require Import Sorted.
From Verif Require Import Base BaseFacts FstModel FstSpec FstProofs.

Lemma flag_operation_step : forall o fl v, nth_error fl (ofv_feature o) = Some v ->
  (forall u, flag_operation o v = Some (Some u) -> flag_step o fl (upd fl (ofv_feature o) u)) /\
  (flag_operation o v = Some None -> flag_step o fl fl).
Proof.
  intros [op f x] fl v N. cbn [ofv_feature] in N. unfold flag_operation, FlagValueAny, FlagValueNeutral. cbn [ofv_op ofv_value ofv_feature].
  destruct op; split; try intros u E; try intros E; try discriminate.
  - injection E as <-. constructor.
  - injection E as <-. constructor.
  - destruct (negb (v =? 0)) eqn:E1; [destruct (negb (v =? x)); discriminate|]. injection E as <-. constructor.
    replace v with 0 in N by lia. assumption.
  - destruct (negb (v =? 0)) eqn:E1; [|discriminate]. destruct (negb (v =? x)) eqn:E2; [discriminate|].
    assert (v = x) by lia. subst v. constructor; [lia|assumption].
  - destruct ((x =? 1) && (v =? 0)); [discriminate|]. destruct (negb (x =? 1) && negb (v =? x)); discriminate.
  - destruct ((x =? 1) && (v =? 0)) eqn:E1; [discriminate|]. destruct (negb (x =? 1) && negb (v =? x)) eqn:E2; [discriminate|].
    destruct (Z.eq_dec x 1) as [->|X].
    + econstructor; [exact N|lia].
    + constructor; [assumption|]. replace x with v by lia. assumption.
  - destruct (((x =? 1) && negb (v =? 0)) || (v =? x)); discriminate.
  - destruct (((x =? 1) && negb (v =? 0)) || (v =? x)) eqn:E1; [discriminate|].
    destruct (Z.eq_dec x 1) as [->|X].
    + constructor. replace v with 0 in N by lia. assumption.
    + econstructor; [assumption|exact N|lia].
Qed.

Lemma flag_step_operation : forall o fl fl', flag_step o fl fl' -> (ofv_feature o < length fl)%nat ->
  exists v, nth_error fl (ofv_feature o) = Some v /\
  ((exists u, flag_operation o v = Some (Some u) /\ fl' = upd fl (ofv_feature o) u) \/ (flag_operation o v = Some None /\ fl' = fl)).
Proof.
  intros o fl fl' H L. destruct (nth_error fl (ofv_feature o)) as [v|] eqn:N; [|apply nth_error_None in N; lia].
  exists v. split; [reflexivity|]. unfold flag_operation, FlagValueAny, FlagValueNeutral.
  destruct H; cbn [ofv_op ofv_value ofv_feature] in *.
  - left. eauto.
  - left. eauto.
  - left. exists v0. replace v with 0 by congruence. split; reflexivity.
  - right. replace v with v0 by congruence. rewrite (proj2 (Z.eqb_neq v0 0)) by assumption. rewrite Z.eqb_refl. split; reflexivity.
  - right. rewrite N in H. injection H as ->. rewrite (proj2 (Z.eqb_neq x 0)) by assumption. split; reflexivity.
  - right. replace v with v0 by congruence. rewrite (proj2 (Z.eqb_neq v0 1)) by assumption. rewrite Z.eqb_refl. split; reflexivity.
  - right. replace v with 0 by congruence. split; reflexivity.
  - right. rewrite N in H0. injection H0 as ->. rewrite (proj2 (Z.eqb_neq v0 1)) by assumption. rewrite (proj2 (Z.eqb_neq x v0)) by assumption. split; reflexivity.
Qed.

Section Paths.
Variable T : transducer.
Variable states : nat -> Prop.
Variable word : list Z.
Variable prefix : bool.
Hypothesis Tnormal : 0 < firstNormalChar T < FINAL.
Hypothesis Tsymbols : forall c s, symbol_of T c s -> firstNormalChar T <= s < unknownSymbolOrdinal T.
Hypothesis Tunknown : firstNormalChar T <= unknownSymbolOrdinal T.
Hypothesis Tepsilon : nth_error (symbolToString T) 0 = Some [].
Hypothesis Tinitial : states 0%nat.
Hypothesis Tstates : forall q, states q -> good_state T q /\
  forall i t, has_transition T q i t -> good_transition T t /\ (symIn t <> FINAL -> states (Z.to_nat (targetState t))).

Local Notation in_state := (FstProofs.in_state T states word).
Local Notation act := (FstProofs.act T word prefix).
Local Notation has_string := (FstProofs.has_string T).

Lemma skipn_nth : forall A (l : list A) n x, nth_error l n = Some x -> skipn n l = x :: skipn (S n) l.
Proof. induction l as [|a l IH]; intros [|n] x H; cbn in *; try congruence. now apply IH. Qed.

(** A step of the machine is a step of a path. *)
Lemma act_path : forall q i t fl pos fl' pos' s p out rest, states q -> has_transition T q i t ->
  act fl pos t = Some (Some (fl', pos')) -> writes T t s ->
  path T (Z.to_nat (targetState t)) fl' (skipn pos' word) p out rest ->
  path T q fl (skipn pos word) (i :: p) (s ++ out) rest.
Proof.
  intros q i t fl pos fl' pos' s p out rest Q HT A W P. pose proof (act_not_final _ _ _ _ _ _ _ A) as NF.
  destruct (Tstates _ Q) as [_ B]. destruct (B _ _ HT) as [[C|(C0 & C1 & C2 & C3 & C4)] _]; [contradiction|].
  unfold FstProofs.act in A. rewrite (proj2 (Z.eqb_neq _ _) NF) in A.
  destruct (firstNormalChar T <=? symIn t) eqn:E1.
  - destruct (nth_error word pos) as [ch|] eqn:E2; [|discriminate]. destruct (input_symbol T ch =? symIn t) eqn:E3; [|discriminate].
    injection A as <- <-. apply Z.eqb_eq in E3. rewrite (skipn_nth _ _ _ _ E2). eapply path_read; eauto.
    unfold symbol_of. unfold input_symbol in E3. destruct (find_symbol (stringToSymbol T) ch); [congruence|]. congruence.
  - destruct (symIn t =? 0) eqn:E2.
    + injection A as <- <-. eapply path_epsilon; eauto. lia.
    + destruct C3 as (o & O1 & O2 & O3); [lia|]. rewrite O1 in A. destruct (nth_error fl (ofv_feature o)) as [v|] eqn:E3; [|discriminate].
      destruct (flag_operation_step _ _ _ E3) as [F1 F2].
      destruct (flag_operation o v) as [[u|]|] eqn:E4; [| |discriminate]; injection A as <- <-;
        (eapply path_flag; [exact HT|lia|exact O1| |exact W|exact P]); auto.
Qed.

Lemma act_final : forall fl pos t, act fl pos t = Some None -> symIn t = FINAL /\ (prefix = false -> pos = length word).
Proof.
  intros fl pos t C. unfold FstProofs.act in C. destruct (symIn t =? FINAL) eqn:E1.
  - apply Z.eqb_eq in E1. split; [assumption|]. intros ->. destruct (Nat.eqb_spec pos (length word)); [assumption|]. discriminate.
  - exfalso. destruct (firstNormalChar T <=? symIn t).
    { destruct (nth_error word pos) as [ch|]; [|discriminate]. destruct (input_symbol T ch =? symIn t); discriminate. }
    destruct (symIn t =? 0); [discriminate|]. destruct (nth_error (symbolToDiacritic T) _) as [o|]; [|discriminate].
    destruct (nth_error fl (ofv_feature o)) as [v|]; [|discriminate]. destruct (flag_operation o v) as [[]|]; discriminate.
Qed.

(** A step of a path is a step of the machine. *)
Lemma path_act : forall q fl w i p out rest, path T q fl w (i :: p) out rest -> states q -> good_flags T fl ->
  forall pos, w = skipn pos word -> (pos <= length word)%nat ->
  (exists t, has_transition T q i t /\ symIn t = FINAL /\ p = [] /\ out = [] /\ rest = w) \/
  (exists t fl' pos' s out', has_transition T q i t /\ act fl pos t = Some (Some (fl', pos')) /\ writes T t s /\ out = s ++ out' /\
     path T (Z.to_nat (targetState t)) fl' (skipn pos' word) p out' rest).
Proof.
  intros q fl w i p out rest P Q GF pos W L. inversion P; subst.
  - left. eexists. repeat (split; [eassumption || reflexivity|]). reflexivity.
  - right. exists t, fl, (S pos), s, out0. split; [assumption|].
    destruct (nth_error word pos) as [ch|] eqn:E.
    2:{ apply nth_error_None in E. rewrite skipn_all2 in * by assumption. discriminate. }
    match goal with H : _ :: _ = skipn pos word |- _ => rewrite (skipn_nth _ _ _ _ E) in H; injection H as -> -> end.
    split; [|auto]. unfold FstProofs.act. rewrite (proj2 (Z.eqb_neq _ _)) by assumption. rewrite E.
    match goal with H : symbol_of T ch _ |- _ => pose proof (Tsymbols _ _ H) as B; unfold symbol_of in H; unfold input_symbol; rewrite H end.
    rewrite Z.eqb_refl. replace (firstNormalChar T <=? symIn t) with true by lia. reflexivity.
  - right. exists t, fl, pos, s, out0. split; [assumption|]. split; [|auto]. unfold FstProofs.act.
    match goal with H : symIn t = 0 |- _ => rewrite H end. replace (0 =? FINAL) with false by (unfold FINAL; reflexivity).
    replace (firstNormalChar T <=? 0) with false by lia. reflexivity.
  - right. exists t, fl', pos, s, out0. split; [assumption|]. split; [|auto].
    destruct (Tstates _ Q) as [_ B]. match goal with H : has_transition T q i t |- _ => destruct (B _ _ H) as [[C|(C0 & C1 & C2 & C3 & C4)] _] end.
    { lia. }
    destruct C3 as (o' & O1 & O2 & O3); [lia|].
    match goal with H : nth_error (symbolToDiacritic T) _ = Some o |- _ => rewrite H in O1; injection O1 as <- end.
    destruct (flag_step_operation o fl fl') as (v & V1 & V2); [assumption|destruct GF; lia|].
    unfold FstProofs.act. replace (symIn t =? FINAL) with false by lia. replace (firstNormalChar T <=? symIn t) with false by lia.
    replace (symIn t =? 0) with false by lia. replace (nth_error (symbolToDiacritic T) (Z.to_nat (symIn t))) with (Some o) by (symmetry; assumption).
    rewrite V1. destruct V2 as [(u & -> & ->)|[-> ->]]; reflexivity.
Qed.

Definition result : Type := (list nat * list Z * nat)%type.
Definition extend (ps : list nat) (s : list Z) (x : result) : result := let '(p, o, n) := x in (ps ++ p, s ++ o, n).

Local Notation topscan := (FstProofs.topscan T word prefix).

(** All results found from a frame on. *)
Inductive explore : frame -> list result -> Prop :=
| explore_none f : topscan f = None -> explore f []
| explore_final f i t L : topscan f = Some (i, t, None) -> explore (set_ct f (S i)) L -> explore f (([i], [], fr_pos f) :: L)
| explore_go f i t fl pos s L1 L2 : topscan f = Some (i, t, Some (fl, pos)) -> writes T t s ->
    explore (mk_fr (Z.to_nat (targetState t)) (Z.to_nat (targetState t)) fl pos) L1 ->
    explore (set_ct f (S i)) L2 -> explore f (map (extend [i] s) L1 ++ L2).

Lemma topscan_some : forall f i t a, in_state f -> topscan f = Some (i, t, a) ->
  (fr_ct f <= i)%nat /\ has_transition T (fr_state f) i t /\ act (fr_flags f) (fr_pos f) t = Some a /\
  (forall j u, (fr_ct f <= j < i)%nat -> has_transition T (fr_state f) j u -> act (fr_flags f) (fr_pos f) u = None) /\
  in_state (set_ct f (S i)) /\ in_state (set_ct f i).
Proof.
  intros f i t a (Q & GF & PL & CT & CL) E. unfold FstProofs.topscan in E. destruct (extent T (fr_state f)) as [[last big]|] eqn:X; [|discriminate].
  destruct (ascan_in _ _ _ _ Tsymbols Tstates _ _ _ _ _ _ _ _ _ _ Q X eq_refl CT E) as (A & B & C & D). repeat (split; [assumption|]).
  assert (G : forall j, (i <= j <= S i)%nat -> in_state (set_ct f j)).
  { intros j J. split; [exact Q|]. split; [exact GF|]. split; [exact PL|]. cbn [fr_state fr_ct set_ct]. split; [lia|].
    intros l' b' X'. destruct B as (l2 & b2 & X2 & I & _). rewrite X' in X2. injection X2 as <- <-. lia. }
  split; apply G; lia.
Qed.

Lemma topscan_none : forall f, in_state f -> topscan f = None ->
  forall j u, (fr_ct f <= j)%nat -> has_transition T (fr_state f) j u -> act (fr_flags f) (fr_pos f) u = None.
Proof.
  intros f (Q & GF & PL & CT & CL) E. unfold FstProofs.topscan in E. destruct (extent T (fr_state f)) as [[last big]|] eqn:X.
  - exact (ascan_none _ _ _ _ Tsymbols Tstates _ _ _ _ _ _ _ Q X eq_refl CT E).
  - intros j u J (l & b & X' & _). congruence.
Qed.

Lemma topscan_next : forall f i t fl pos, in_state f -> topscan f = Some (i, t, Some (fl, pos)) ->
  in_state (mk_fr (Z.to_nat (targetState t)) (Z.to_nat (targetState t)) fl pos).
Proof.
  intros f i t fl pos I E. destruct (topscan_some _ _ _ _ I E) as (A & B & C & _ & _ & D).
  apply (act_in T states word prefix Tsymbols Tstates (set_ct f i) t fl pos D B C).
Qed.

Definition result_ok (f : frame) (x : result) : Prop :=
  let '(p, o, n) := x in
  path T (fr_state f) (fr_flags f) (skipn (fr_pos f) word) p o (skipn n word) /\
  (n <= length word)%nat /\ (prefix = false -> n = length word) /\ exists i p', p = i :: p' /\ (fr_ct f <= i)%nat.

Lemma explore_sound : forall f L, explore f L -> in_state f -> Forall (result_ok f) L.
Proof.
  induction 1; intros I.
  - constructor.
  - destruct (topscan_some _ _ _ _ I H) as (A & B & C & D & E & _). constructor.
    + unfold result_ok. destruct (act_final _ _ _ C) as [E1 E2].
      split; [econstructor; eauto|]. destruct I as (_ & _ & PL & _). split; [assumption|]. split; [assumption|eauto].
    + specialize (IHexplore E). eapply Forall_impl; [|exact IHexplore]. intros [[p o] n]. unfold result_ok. cbn [fr_state fr_flags fr_pos fr_ct set_ct].
      intros (X1 & X2 & X3 & j & p' & -> & X4). repeat (split; [assumption|]). exists j, p'. split; [reflexivity|lia].
  - destruct (topscan_some _ _ _ _ I H) as (A & B & C & D & E & _). apply Forall_app. split.
    + specialize (IHexplore1 (topscan_next _ _ _ _ _ I H)). rewrite Forall_map. eapply Forall_impl; [|exact IHexplore1].
      intros [[p o] n]. unfold result_ok. cbn [extend fr_state fr_flags fr_pos fr_ct app].
      intros (X1 & X2 & X3 & _). split; [|split; [assumption|split; [assumption|exists i, p; auto]]].
      eapply act_path; [apply I|exact B|exact C|assumption|exact X1].
    + specialize (IHexplore2 E). eapply Forall_impl; [|exact IHexplore2]. intros [[p o] n]. unfold result_ok. cbn [fr_state fr_flags fr_pos fr_ct set_ct].
      intros (X1 & X2 & X3 & j & p' & -> & X4). repeat (split; [assumption|]). exists j, p'. split; [reflexivity|lia].
Qed.

Lemma explore_complete : forall f L, explore f L -> in_state f ->
  forall i p out n, (fr_ct f <= i)%nat -> (n <= length word)%nat -> (prefix = false -> n = length word) ->
  path T (fr_state f) (fr_flags f) (skipn (fr_pos f) word) (i :: p) out (skipn n word) ->
  In (i :: p, out, n) L.
Proof.
  assert (FIN : forall f i t n, in_state f -> has_transition T (fr_state f) i t -> symIn t = FINAL -> (n <= length word)%nat ->
    (prefix = false -> n = length word) -> skipn n word = skipn (fr_pos f) word -> n = fr_pos f /\ act (fr_flags f) (fr_pos f) t = Some None).
  { intros f i t n (_ & _ & PL & _) HT F NL PR E.
    assert (N : n = fr_pos f). { apply (f_equal (@length Z)) in E. rewrite !skipn_length in E. lia. }
    split; [assumption|]. unfold FstProofs.act. rewrite F, Z.eqb_refl. destruct prefix; [now rewrite orb_true_r|].
    rewrite <- N, PR by reflexivity. now rewrite Nat.eqb_refl. }
  induction 1; intros I j p out n J NL PR P; pose proof I as (Q & GF & PL & _);
    destruct (path_act _ _ _ _ _ _ _ P Q GF (fr_pos f) eq_refl PL) as [(u & U1 & U2 & -> & -> & U3)|(u & fl' & pos' & s' & out' & U1 & U2 & U3 & U4 & U5)].
  - destruct (FIN f j u n I U1 U2 NL PR U3) as [_ FA]. rewrite (topscan_none _ I H j u J U1) in FA. discriminate.
  - rewrite (topscan_none _ I H j u J U1) in U2. discriminate.
  - destruct (FIN f j u n I U1 U2 NL PR U3) as [-> FA].
    destruct (topscan_some _ _ _ _ I H) as (A & B & C & D & E & _).
    destruct (lt_eq_lt_dec j i) as [[JI| ->]|JI].
    + rewrite (D j u ltac:(lia) U1) in FA. discriminate.
    + left. reflexivity.
    + right. apply IHexplore; auto.
  - destruct (topscan_some _ _ _ _ I H) as (A & B & C & D & E & _).
    destruct (lt_eq_lt_dec j i) as [[JI| ->]|JI].
    + rewrite (D j u ltac:(lia) U1) in U2. discriminate.
    + destruct U1 as (_ & _ & _ & _ & _ & N1). destruct B as (_ & _ & _ & _ & _ & N2). congruence.
    + right. apply IHexplore; auto.
  - destruct (FIN f j u n I U1 U2 NL PR U3) as [-> FA].
    destruct (topscan_some _ _ _ _ I H) as (A & B & C & D & E & _).
    apply in_app_iff. destruct (lt_eq_lt_dec j i) as [[JI| ->]|JI].
    + rewrite (D j u ltac:(lia) U1) in FA. discriminate.
    + destruct U1 as (_ & _ & _ & _ & _ & N1). destruct B as (_ & _ & _ & _ & _ & N2). congruence.
    + right. apply IHexplore2; auto.
  - destruct (topscan_some _ _ _ _ I H) as (A & B & C & D & E & _).
    apply in_app_iff. destruct (lt_eq_lt_dec j i) as [[JI| ->]|JI].
    + rewrite (D j u ltac:(lia) U1) in U2. discriminate.
    + left. assert (u = t). { destruct U1 as (_ & _ & _ & _ & _ & N1). destruct B as (_ & _ & _ & _ & _ & N2). congruence. } subst u.
      rewrite C in U2. injection U2 as <- <-.
      assert (s' = s). { unfold writes in *. destruct (firstNormalChar T <=? symOut t); congruence. } subst s'.
      rewrite in_map_iff. exists (p, out', n). split; [cbn [extend app]; now rewrite U4|].
      destruct p as [|j' p']; [inversion U5|].
      apply IHexplore1; auto; [apply (topscan_next _ _ _ _ _ I H)|].
      cbn [fr_ct]. inversion U5; subst; match goal with X : has_transition T _ j' _ |- _ => destruct X as (? & ? & ? & ? & _); lia end.
    + right. apply IHexplore2; auto.
Qed.

Lemma sorted_app : forall A (R : A -> A -> Prop) l1 l2, StronglySorted R l1 -> StronglySorted R l2 ->
  (forall x y, In x l1 -> In y l2 -> R x y) -> StronglySorted R (l1 ++ l2).
Proof.
  induction 1 as [|a l1 S1 IH F]; intros S2 C; cbn; [assumption|]. constructor.
  - apply IH; [assumption|]. intros. apply C; [now right|assumption].
  - apply Forall_app. split; [assumption|]. apply Forall_forall. intros y Y. apply C; [now left|assumption].
Qed.

Definition rpath (x : result) : list nat := let '(p, _, _) := x in p.

Lemma explore_sorted : forall f L, explore f L -> in_state f -> StronglySorted before (map rpath L).
Proof.
  induction 1; intros I; pose proof I as I0.
  - constructor.
  - destruct (topscan_some _ _ _ _ I H) as (_ & _ & _ & _ & E & _). cbn [map rpath]. constructor; [auto|].
    rewrite Forall_map. eapply Forall_impl; [|exact (explore_sound _ _ H0 E)]. intros [[p o] n] (_ & _ & _ & j & p' & -> & J).
    cbn [fr_ct set_ct] in J. cbn [rpath]. constructor. lia.
  - destruct (topscan_some _ _ _ _ I H) as (_ & _ & _ & _ & E & _). rewrite map_app. apply sorted_app.
    + specialize (IHexplore1 (topscan_next _ _ _ _ _ I H)). rewrite map_map.
      clear - IHexplore1. induction L1 as [|[[p o] n] L1 IH]; cbn [map rpath extend app]; [constructor|].
      cbn [map rpath] in IHexplore1. inversion IHexplore1; subst. constructor; [auto|].
      rewrite Forall_map. rewrite Forall_map in *. eapply Forall_impl; [|eassumption]. intros [[p' o'] n'] B. cbn [rpath extend app]. now constructor.
    + auto.
    + intros x y X Y. rewrite in_map_iff in X, Y. destruct X as (x' & <- & X). destruct Y as (y' & <- & Y).
      rewrite in_map_iff in X. destruct X as ([[p o] n] & <- & X). cbn [rpath extend app].
      pose proof (explore_sound _ _ H2 E) as F. rewrite Forall_forall in F. specialize (F _ Y). destruct y' as [[p2 o2] n2].
      destruct F as (_ & _ & _ & j & p' & -> & J). cbn [fr_ct set_ct] in J. cbn [rpath]. constructor. lia.
Qed.

(** The results still to come from a stack. *)
Inductive remaining : frame -> list frame -> list result -> Prop :=
| remaining_base f L : explore f L -> remaining f [] L
| remaining_push f g r strs L1 L2 : Forall2 has_string (osyms T (g :: r)) strs -> explore f L1 ->
    remaining (set_ct g (S (fr_ct g))) r L2 ->
    remaining f (g :: r) (map (extend (rev (map fr_ct (g :: r))) (concat strs)) L1 ++ L2).

Lemma has_string_fun : forall syms a b, Forall2 has_string syms a -> Forall2 has_string syms b -> a = b.
Proof.
  induction syms as [|s syms IH]; intros a b A B; inversion A; inversion B; subst; [reflexivity|].
  f_equal; [|auto]. destruct H1 as [_ H1]. destruct H6 as [_ H6]. congruence.
Qed.

Lemma osyms_cons : forall g r strs, Forall2 has_string (osyms T (g :: r)) strs ->
  exists s0 s, strs = s0 ++ [s] /\ Forall2 has_string (osyms T r) s0 /\ has_string (outsym T (fr_ct g)) s.
Proof.
  intros g r strs H. unfold osyms in H. cbn [map rev] in H. apply Forall2_app_inv_l in H. destruct H as (a & b & A & B & ->).
  inversion B; subst. inversion H3; subst. eauto.
Qed.

Lemma extend_extend : forall p1 s1 p2 s2 x, extend p1 s1 (extend p2 s2 x) = extend (p1 ++ p2) (s1 ++ s2) x.
Proof. intros p1 s1 p2 s2 [[p o] n]. cbn [extend]. now rewrite !app_assoc. Qed.

(** Putting the results of one more step in front. *)
Lemma remaining_step : forall f r f' P Q, in_state f ->
  (forall L, explore f' L -> explore f (map (extend P Q) [] ++ L)) -> forall L, remaining f' r L -> fr_state f' = fr_state f -> remaining f r L.
Proof.
  intros f r f' P Q I H L R ST. inversion R; subst.
  - constructor. now apply H.
  - econstructor; eauto. now apply H.
Qed.

Inductive chain (fl0 : list Z) : frame -> list frame -> Prop :=
| chain_base f : fr_state f = 0%nat -> fr_pos f = 0%nat -> fr_flags f = fl0 -> in_state f -> chain fl0 f []
| chain_push f g r t : chain fl0 g r -> in_state f -> has_transition T (fr_state g) (fr_ct g) t ->
    act (fr_flags g) (fr_pos g) t = Some (Some (fr_flags f, fr_pos f)) -> fr_state f = Z.to_nat (targetState t) ->
    chain fl0 f (g :: r).

Lemma chain_in : forall fl0 f r, chain fl0 f r -> in_state f.
Proof. destruct 1; assumption. Qed.

Lemma chain_set : forall fl0 f r i, chain fl0 f r -> in_state (set_ct f i) -> chain fl0 (set_ct f i) r.
Proof. intros fl0 f r i H I. destruct H; [constructor; auto|econstructor; eauto]. Qed.

Lemma chain_strings : forall fl0 f r, chain fl0 f r -> exists strs, Forall2 has_string (osyms T r) strs.
Proof.
  induction 1; [exists []; constructor|]. destruct IHchain as [strs IH]. pose proof (chain_in _ _ _ H) as (Q & _).
  destruct (outsym_string T states Tnormal Tepsilon Tstates _ _ _ Q H1 (act_not_final _ _ _ _ _ _ _ H2)) as (s & S1 & _).
  exists (strs ++ [s]). unfold osyms. cbn [map rev]. apply Forall2_app; [assumption|]. constructor; [assumption|constructor].
Qed.

Lemma chain_back : forall fl0 f g r, chain fl0 f (g :: r) -> chain fl0 (set_ct g (S (fr_ct g))) r.
Proof.
  intros fl0 f g r H. inversion H; subst. apply chain_set; [assumption|].
  pose proof (chain_in _ _ _ H2) as (Q & GF & PL & CT & CL). split; [exact Q|]. split; [exact GF|]. split; [exact PL|].
  cbn [fr_state fr_ct set_ct]. split; [lia|]. intros last big X. destruct H4 as (l & b & X' & B & _). rewrite X in X'. injection X' as <- <-. lia.
Qed.

Lemma set_ct_twice : forall f i j, set_ct (set_ct f i) j = set_ct f j.
Proof. reflexivity. Qed.

Theorem asearch_remaining : forall n bufferLen size fl0 f r o f' r', chain fl0 f r -> (0 < bufferLen)%nat ->
  asearch n T word prefix bufferLen size f r = (o, (f', r')) ->
  match o with
  | Found out k => chain fl0 f' r' /\ exists p, forall L, remaining f' r' L -> remaining f r ((p, out, k) :: L)
  | End => chain fl0 f' r' /\ r' = [] /\ remaining f r []
  | _ => True
  end.
Proof.
  induction n as [|n IH]; intros bufferLen size fl0 f r o f' r' CH BL E; cbn [asearch] in E; [injection E as <- _ _; exact I|].
  pose proof (chain_in _ _ _ CH) as IN.
  destruct (topscan f) as [[[i t] [[fl pos]|]]|] eqn:ES.
  - destruct (topscan_some _ _ _ _ IN ES) as (A & B & C & _ & D1 & D2).
    destruct (Nat.eqb (length r + 2) size); [injection E as <- _ _; exact I|].
    assert (CH' : chain fl0 (mk_fr (Z.to_nat (targetState t)) (Z.to_nat (targetState t)) fl pos) (set_ct f i :: r)).
    { eapply chain_push; [apply chain_set; [exact CH|exact D2]|apply (topscan_next _ _ _ _ _ IN ES)|exact B|exact C|reflexivity]. }
    assert (STEP : forall L, remaining (mk_fr (Z.to_nat (targetState t)) (Z.to_nat (targetState t)) fl pos) (set_ct f i :: r) L -> remaining f r L).
    { intros L R. inversion R as [|f0 g0 r0 strs L1 L2 F1 F2 F3]; subst. rewrite set_ct_twice in F3. cbn [fr_ct set_ct] in F3.
      destruct (osyms_cons _ _ _ F1) as (s0 & s & -> & G1 & G2). cbn [fr_ct set_ct] in G2.
      destruct IN as (Q & _). destruct (outsym_string T states Tnormal Tepsilon Tstates _ _ _ Q B (act_not_final _ _ _ _ _ _ _ C)) as (s' & S1 & S2).
      assert (s' = s) by (destruct S1 as [_ S1]; destruct G2 as [_ G2]; congruence). subst s'.
      cbn [map fr_ct set_ct rev]. rewrite concat_app. cbn [concat]. rewrite app_nil_r.
      inversion F3 as [f0 L0 X0|f0 g0 r0 strs0 L3 L4 X1 X2 X3]; subst.
      - constructor. inversion G1; subst. cbn [map rev app concat]. eapply explore_go; eauto.
      - assert (strs0 = s0) by (eapply has_string_fun; eauto). subst strs0.
        replace (map (extend (rev (map fr_ct (g0 :: r0)) ++ [i]) (concat s0 ++ s)) L1) with
          (map (extend (rev (map fr_ct (g0 :: r0))) (concat s0)) (map (extend [i] s) L1)).
        2:{ rewrite map_map. apply map_ext. intros x. apply extend_extend. }
        rewrite app_assoc, <- map_app. econstructor; eauto. eapply explore_go; eauto. }
    specialize (IH _ _ _ _ _ _ _ _ CH' BL E). destruct o as [out k| | | |]; auto.
    + destruct IH as (I1 & p & I2). split; [assumption|]. exists p. auto.
    + destruct IH as (I1 & I2 & I3). auto.
  - destruct (topscan_some _ _ _ _ IN ES) as (A & B & C & _ & D1 & D2).
    destruct (chain_strings _ _ _ CH) as [strs ST].
    destruct (write_output_spec T states Tsymbols Tstates _ _ bufferLen [] ST BL) as [W|W]; rewrite W in E; injection E as <- <- <-; [|exact I].
    split; [apply chain_set; assumption|]. exists (rev (map fr_ct r) ++ [i]). intros L R. inversion R; subst.
    + inversion ST; subst. cbn [map rev app concat]. constructor. eapply explore_final; eauto.
    + assert (strs0 = strs) by (eapply has_string_fun; eauto). subst strs0.
      change ((rev (map fr_ct (g :: r0)) ++ [i], [] ++ concat strs, fr_pos f) :: map (extend (rev (map fr_ct (g :: r0))) (concat strs)) L1 ++ L2)
        with ((rev (map fr_ct (g :: r0)) ++ [i], concat strs, fr_pos f) :: map (extend (rev (map fr_ct (g :: r0))) (concat strs)) L1 ++ L2).
      replace (rev (map fr_ct (g :: r0)) ++ [i], concat strs, fr_pos f) with (extend (rev (map fr_ct (g :: r0))) (concat strs) ([i], [], fr_pos f))
        by (cbn [extend]; now rewrite app_nil_r).
      rewrite app_comm_cons, <- map_cons. econstructor; eauto. eapply explore_final; eauto.
  - destruct r as [|g r].
    + injection E as <- <- <-. split; [assumption|]. split; [reflexivity|]. constructor. now constructor.
    + pose proof (chain_back _ _ _ _ CH) as CB. specialize (IH _ _ _ _ _ _ _ _ CB BL E). destruct (chain_strings _ _ _ CH) as [strs ST].
      assert (STEP : forall L, remaining (set_ct g (S (fr_ct g))) r L -> remaining f (g :: r) L).
      { intros L R. change L with (map (extend (rev (map fr_ct (g :: r))) (concat strs)) [] ++ L). econstructor; eauto. now constructor. }
      destruct o as [out k| | | |]; auto.
      * destruct IH as (I1 & p & I2). split; [assumption|]. exists p. auto.
      * destruct IH as (I1 & I2 & I3). auto.
Qed.

(** Every result found is the output of a path. *)
Lemma chain_path : forall fl0 f r, chain fl0 f r -> forall p out rest strs, Forall2 has_string (osyms T r) strs ->
  path T (fr_state f) (fr_flags f) (skipn (fr_pos f) word) p out rest ->
  path T 0 fl0 word (rev (map fr_ct r) ++ p) (concat strs ++ out) rest.
Proof.
  induction 1; intros p out rest strs ST P.
  - inversion ST; subst. cbn [map rev app concat]. rewrite H, H0 in P. exact P.
  - destruct (osyms_cons _ _ _ ST) as (s0 & s & -> & G1 & G2). pose proof (chain_in _ _ _ H) as (Q & _).
    destruct (outsym_string T states Tnormal Tepsilon Tstates _ _ _ Q H1 (act_not_final _ _ _ _ _ _ _ H2)) as (s' & S1 & S2).
    assert (s' = s) by (destruct S1 as [_ S1]; destruct G2 as [_ G2]; congruence). subst s'.
    cbn [map rev]. rewrite concat_app. cbn [concat]. rewrite app_nil_r, <- !app_assoc. apply IHchain; [assumption|].
    rewrite H3 in P. eapply act_path; eauto.
Qed.

Theorem asearch_sound : forall n bufferLen size fl0 f r out k f' r', chain fl0 f r -> (0 < bufferLen)%nat ->
  asearch n T word prefix bufferLen size f r = (Found out k, (f', r')) ->
  (k <= length word)%nat /\ (prefix = false -> k = length word) /\ exists p, path T 0 fl0 word p out (skipn k word).
Proof.
  induction n as [|n IH]; intros bufferLen size fl0 f r out k f' r' CH BL E; cbn [asearch] in E; [discriminate|].
  pose proof (chain_in _ _ _ CH) as IN.
  destruct (topscan f) as [[[i t] [[fl pos]|]]|] eqn:ES.
  - destruct (topscan_some _ _ _ _ IN ES) as (A & B & C & _ & D1 & D2).
    destruct (Nat.eqb (length r + 2) size); [discriminate|]. eapply IH; [|exact BL|exact E].
    eapply chain_push; [apply chain_set; [exact CH|exact D2]|apply (topscan_next _ _ _ _ _ IN ES)|exact B|exact C|reflexivity].
  - destruct (topscan_some _ _ _ _ IN ES) as (A & B & C & _ & D1 & D2).
    destruct (chain_strings _ _ _ CH) as [strs ST].
    destruct (write_output_spec T states Tsymbols Tstates _ _ bufferLen [] ST BL) as [W|W]; rewrite W in E; [|discriminate]. injection E as <- <- _ _.
    assert (EX : result_ok f ([i], [], fr_pos f)).
    { unfold result_ok. destruct (act_final _ _ _ C) as [E1 E2].
      split; [econstructor; eauto|]. destruct IN as (_ & _ & PL & _). split; [assumption|]. split; [assumption|eauto]. }
    destruct EX as (X1 & X2 & X3 & _). split; [assumption|]. split; [assumption|].
    exists (rev (map fr_ct r) ++ [i]). cbn [app]. rewrite <- (app_nil_r (concat strs)). eapply chain_path; eauto.
  - destruct r as [|g r]; [discriminate|]. eapply IH; [|exact BL|exact E]. apply (chain_back _ _ _ _ CH).
Qed.

(** Acceptance seen from the start of the search. *)
Definition acc (fl0 : list Z) (p : list nat) (out : list Z) (n : nat) : Prop :=
  path T 0 fl0 word p out (skipn n word) /\ (n <= length word)%nat /\ (prefix = false -> n = length word).

Lemma path_cons : forall q fl w p out rest, path T q fl w p out rest -> exists i p', p = i :: p' /\ (q <= i)%nat.
Proof.
  intros q fl w p out rest P. inversion P; subst; eexists; eexists; (split; [reflexivity|]);
    match goal with X : has_transition T _ _ _ |- _ => destruct X as (? & ? & ? & ? & _); lia end.
Qed.

(** A path that begins with the transitions on the stack goes on from the top. *)
Lemma path_split : forall fl0 f r, chain fl0 f r -> forall p out n strs, path T 0 fl0 word (rev (map fr_ct r) ++ p) out (skipn n word) ->
  p <> [] -> Forall2 has_string (osyms T r) strs ->
  exists out', out = concat strs ++ out' /\ path T (fr_state f) (fr_flags f) (skipn (fr_pos f) word) p out' (skipn n word).
Proof.
  induction 1; intros p out n strs P NE ST.
  - exists out. inversion ST; subst. cbn [map rev app] in P. rewrite H, H0. split; [reflexivity|exact P].
  - destruct (osyms_cons _ _ _ ST) as (s0 & s & -> & G1 & G2).
    cbn [map rev] in P. rewrite <- app_assoc in P. edestruct IHchain as (out' & EO & P'); [exact P|discriminate|exact G1|]. subst out.
    pose proof (chain_in _ _ _ H) as (Q & GF & PL & _). cbn [app] in P'.
    destruct (path_act _ _ _ _ _ _ _ P' Q GF (fr_pos g) eq_refl PL) as [(u & U1 & U2 & U3 & _)|(u & fl' & pos' & s' & o' & U1 & U2 & U3 & U4 & U5)].
    + subst p. now destruct NE.
    + assert (u = t). { destruct U1 as (_ & _ & _ & _ & _ & N1). destruct H1 as (_ & _ & _ & _ & _ & N2). congruence. } subst u.
      rewrite H2 in U2. injection U2 as <- <-. exists o'. rewrite H3. split; [|exact U5].
      destruct (outsym_string T states Tnormal Tepsilon Tstates _ _ _ Q H1 (act_not_final _ _ _ _ _ _ _ H2)) as (s2 & S1 & S2).
      assert (s2 = s) by (destruct S1 as [_ S1]; destruct G2 as [_ G2]; congruence). subst s2.
      assert (s' = s). { unfold writes in *. destruct (firstNormalChar T <=? symOut t); congruence. } subst s'.
      rewrite concat_app, U4. cbn [concat]. now rewrite app_nil_r, <- app_assoc.
Qed.

Definition position (f : frame) (r : list frame) : list nat := rev (map fr_ct r) ++ [fr_ct f].

Lemma before_app : forall a p x y, before p (a ++ [x]) -> (exists q, p = a ++ q /\ before q [x]) \/ (forall l, before p (a ++ y :: l)).
Proof.
  induction a as [|b a IH]; intros p x y B; cbn [app] in *.
  - left. eauto.
  - inversion B; subst.
    + right. intros l. now constructor.
    + destruct (IH _ _ y H1) as [(q & -> & Q)|Q].
      * left. eauto.
      * right. intros l. apply before_later. apply Q.
Qed.

Lemma before_one : forall p x, before p [x] -> exists j q, p = j :: q /\ (j < x)%nat.
Proof. intros p x B. inversion B; subst; [eauto|]. inversion H1. Qed.

(** All paths before the current position satisfy [D]. *)
Definition covered (fl0 : list Z) (f : frame) (r : list frame) (D : list nat -> list Z -> nat -> Prop) : Prop :=
  forall p out n, acc fl0 p out n -> before p (position f r) -> D p out n.

(** What has been found: exactly the paths before the current position. *)
Definition found (fl0 : list Z) (f : frame) (r : list frame) (L : list result) : Prop :=
  (forall p out n, In (p, out, n) L -> acc fl0 p out n /\ before p (position f r)) /\
  (forall p out n, acc fl0 p out n -> before p (position f r) -> In (p, out, n) L).

(** Advancing within a state over transitions that cannot be taken. *)
Lemma no_path : forall fl0 f r j p out n, chain fl0 f r -> acc fl0 (rev (map fr_ct r) ++ j :: p) out n ->
  (forall u, has_transition T (fr_state f) j u -> act (fr_flags f) (fr_pos f) u = None) -> False.
Proof.
  intros fl0 f r j p out n CH (P & NL & PR) NA. destruct (chain_strings _ _ _ CH) as [strs ST].
  edestruct path_split as (out' & _ & P'); [exact CH|exact P|discriminate|exact ST|].
  pose proof (chain_in _ _ _ CH) as (Q & GF & PL & _).
  destruct (path_act _ _ _ _ _ _ _ P' Q GF (fr_pos f) eq_refl PL) as [(u & U1 & U2 & U3 & U4 & U5)|(u & fl' & pos' & s' & o' & U1 & U2 & _)].
  - specialize (NA _ U1). unfold FstProofs.act in NA. rewrite U2, Z.eqb_refl in NA.
    assert (N : n = fr_pos f). { apply (f_equal (@length Z)) in U5. rewrite !skipn_length in U5. lia. }
    destruct prefix; [rewrite orb_true_r in NA; discriminate|]. rewrite <- N, PR in NA by reflexivity. rewrite Nat.eqb_refl in NA. discriminate.
  - rewrite (NA _ U1) in U2. discriminate.
Qed.

Lemma before_end : forall a p x y l, before p (a ++ [x]) -> (x <= y)%nat -> before p (a ++ y :: l).
Proof.
  induction a as [|b a IH]; intros p x y l B L; cbn [app] in *.
  - destruct (before_one _ _ B) as (j & q & -> & J). constructor. lia.
  - inversion B; subst; [now constructor|]. apply before_later. eapply IH; eauto.
Qed.

Lemma before_in : forall a j q x, (j < x)%nat -> before (a ++ j :: q) (a ++ [x]).
Proof. induction a as [|b a IH]; intros j q x L; cbn [app]; [now constructor|]. apply before_later. auto. Qed.

(** Moving the position forward within the top state over a stretch without accepting paths. *)
Lemma covered_move : forall fl0 f r D i, chain fl0 f r -> covered fl0 f r D -> (fr_ct f <= i)%nat ->
  (forall j u, (fr_ct f <= j < i)%nat -> has_transition T (fr_state f) j u -> act (fr_flags f) (fr_pos f) u = None) ->
  covered fl0 (set_ct f i) r D.
Proof.
  intros fl0 f r D i CH F2 LE NA p out n A B. apply F2; [assumption|]. unfold position in *. cbn [fr_ct set_ct] in B.
  destruct (before_app _ _ _ (fr_ct f) B) as [(q & -> & Q)|Q]; [|apply Q].
  destruct (before_one _ _ Q) as (j & q' & -> & J). destruct (Nat.lt_ge_cases j (fr_ct f)) as [X|X].
  - now apply before_in.
  - exfalso. eapply no_path; [exact CH|exact A|]. intros u U. eapply NA; [|exact U]. lia.
Qed.

Lemma found_move : forall fl0 f r L i, chain fl0 f r -> found fl0 f r L -> (fr_ct f <= i)%nat ->
  (forall j u, (fr_ct f <= j < i)%nat -> has_transition T (fr_state f) j u -> act (fr_flags f) (fr_pos f) u = None) ->
  found fl0 (set_ct f i) r L.
Proof.
  intros fl0 f r L i CH [F1 F2] LE NA. split.
  - intros p out n I. destruct (F1 _ _ _ I) as [A B]. split; [assumption|]. unfold position in *. eapply before_end; [exact B|exact LE].
  - exact (covered_move fl0 f r _ i CH F2 LE NA).
Qed.

Lemma covered_down : forall fl0 f r D t fl pos, chain fl0 f r -> covered fl0 f r D ->
  has_transition T (fr_state f) (fr_ct f) t -> act (fr_flags f) (fr_pos f) t = Some (Some (fl, pos)) ->
  covered fl0 (mk_fr (Z.to_nat (targetState t)) (Z.to_nat (targetState t)) fl pos) (f :: r) D.
Proof.
  intros fl0 f r D t fl pos CH F2 HT A. unfold covered, position. cbn [map rev fr_ct].
  intros p out n X B. destruct (before_app _ _ _ 0%nat B) as [(q & -> & Q)|Q].
  - exfalso. destruct (before_one _ _ Q) as (j & q' & -> & J). destruct X as (P & NL & PR). rewrite <- app_assoc in P.
    destruct (chain_strings _ _ _ CH) as [strs ST]. edestruct path_split as (o' & _ & P'); [exact CH|exact P|discriminate|exact ST|].
    pose proof (chain_in _ _ _ CH) as (Q' & GF & PL & _). cbn [app] in P'.
    destruct (path_act _ _ _ _ _ _ _ P' Q' GF (fr_pos f) eq_refl PL) as [(u & U1 & U2 & U3 & _)|(u & fl' & pos' & s' & o2 & U1 & U2 & U3 & U4 & U5)]; [discriminate|].
    assert (u = t). { destruct U1 as (_ & _ & _ & _ & _ & N1). destruct HT as (_ & _ & _ & _ & _ & N2). congruence. } subst u.
    destruct (path_cons _ _ _ _ _ _ U5) as (j' & p' & E & LE). injection E as <- <-. lia.
  - apply F2; [assumption|]. unfold position. clear - Q. revert p Q. induction (rev (map fr_ct r)) as [|b a IH]; intros p Q; cbn [app] in *.
    + specialize (Q []). inversion Q; subst; [now constructor|]. inversion H1; subst; [lia|]. match goal with Y : before _ [] |- _ => inversion Y end.
    + destruct p as [|c p]; [specialize (Q []); inversion Q|]. destruct (Nat.lt_ge_cases c b) as [X|X]; [now constructor|].
      assert (c = b) by (specialize (Q []); inversion Q; subst; lia). subst c. apply before_later. apply IH. intros l. specialize (Q l). inversion Q; subst; [lia|assumption].
Qed.

Lemma found_down : forall fl0 f r L t fl pos, chain fl0 f r -> found fl0 f r L ->
  has_transition T (fr_state f) (fr_ct f) t -> act (fr_flags f) (fr_pos f) t = Some (Some (fl, pos)) ->
  found fl0 (mk_fr (Z.to_nat (targetState t)) (Z.to_nat (targetState t)) fl pos) (f :: r) L.
Proof.
  intros fl0 f r L t fl pos CH [F1 F2] HT A. split; [|exact (covered_down fl0 f r _ t fl pos CH F2 HT A)].
  unfold position. cbn [map rev fr_ct].
  intros p out n I. destruct (F1 _ _ _ I) as [X B]. split; [assumption|]. rewrite <- app_assoc. cbn [app]. eapply before_end; [exact B|lia].
Qed.

(** Leaving a state whose paths with a prefix in [D] are covered. *)
Lemma covered_leave : forall fl0 f g r D, chain fl0 f (g :: r) -> covered fl0 f (g :: r) D ->
  (forall p out n, acc fl0 (rev (map fr_ct (g :: r)) ++ p) out n -> D (rev (map fr_ct (g :: r)) ++ p) out n) ->
  covered fl0 (set_ct g (S (fr_ct g))) r D.
Proof.
  intros fl0 f g r D CH F2 TS. unfold covered, position in *. cbn [map rev fr_ct set_ct] in *.
  intros p out n X B.
  destruct (before_app _ _ _ (fr_ct g) B) as [(q & -> & Q)|Q]; [|apply F2; [assumption|]; rewrite <- app_assoc; apply Q].
  destruct (before_one _ _ Q) as (j & q' & -> & J). destruct (Nat.eq_dec j (fr_ct g)) as [->|NE].
  - replace (rev (map fr_ct r) ++ fr_ct g :: q') with ((rev (map fr_ct r) ++ [fr_ct g]) ++ q') in * by (now rewrite <- app_assoc). auto.
  - apply F2; [assumption|]. rewrite <- app_assoc. cbn [app]. clear - J NE. induction (rev (map fr_ct r)) as [|b a IH]; cbn [app]; [constructor; lia|]. apply before_later. auto.
Qed.

Lemma covered_up : forall fl0 f g r D, chain fl0 f (g :: r) -> covered fl0 f (g :: r) D ->
  (forall j u, (fr_ct f <= j)%nat -> has_transition T (fr_state f) j u -> act (fr_flags f) (fr_pos f) u = None) ->
  covered fl0 (set_ct g (S (fr_ct g))) r D.
Proof.
  intros fl0 f g r D CH F2 TS. eapply covered_leave; [exact CH|exact F2|]. intros q' out n X. destruct q' as [|j' q'].
  - exfalso. rewrite app_nil_r in X. cbn [map rev] in X.
    inversion CH; subst. destruct X as (P & NL & PR). destruct (chain_strings _ _ _ H1) as [strs ST]. edestruct path_split as (o' & _ & P'); [exact H1|exact P|discriminate|exact ST|].
    inversion P'; subst; try solve [match goal with X : path T _ _ _ [] _ _ |- _ => inversion X end].
    assert (t = t0). { destruct H3 as (_ & _ & _ & _ & _ & N1). match goal with X : has_transition T _ (fr_ct g) t0 |- _ => destruct X as (_ & _ & _ & _ & _ & N2) end. congruence. } subst t0.
    apply (act_not_final _ _ _ _ _ _ _ H5). assumption.
  - destruct (Nat.lt_ge_cases j' (fr_ct f)) as [Y|Y].
    + apply F2; [assumption|]. unfold position. now apply before_in.
    + exfalso. eapply no_path; [exact CH|exact X|]. intros u U. eapply TS; eauto.
Qed.

Lemma found_up : forall fl0 f g r L, chain fl0 f (g :: r) -> found fl0 f (g :: r) L ->
  (forall j u, (fr_ct f <= j)%nat -> has_transition T (fr_state f) j u -> act (fr_flags f) (fr_pos f) u = None) ->
  found fl0 (set_ct g (S (fr_ct g))) r L.
Proof.
  intros fl0 f g r L CH [F1 F2] TS. split; [|exact (covered_up fl0 f g r _ CH F2 TS)].
  unfold position in *. cbn [map rev fr_ct set_ct] in *.
  intros p out n I. destruct (F1 _ _ _ I) as [X B]. split; [assumption|]. rewrite <- app_assoc in B. cbn [app] in B.
  clear - B. revert p B. induction (rev (map fr_ct r)) as [|b a IH]; intros p B; cbn [app] in *.
  - inversion B; subst; constructor; lia.
  - inversion B; subst; [now constructor|]. apply before_later. auto.
Qed.

Lemma covered_final : forall fl0 f r D t strs, chain fl0 f r -> covered fl0 f r D ->
  has_transition T (fr_state f) (fr_ct f) t -> act (fr_flags f) (fr_pos f) t = Some None -> Forall2 has_string (osyms T r) strs ->
  covered fl0 (set_ct f (S (fr_ct f))) r (fun p out n => D p out n \/ (p, out, n) = (position f r, concat strs, fr_pos f)).
Proof.
  intros fl0 f r D t strs CH F2 HT A ST p out n X B. destruct (act_final _ _ _ A) as [TF TP]. unfold position in *. cbn [fr_ct set_ct] in B.
  destruct (before_app _ _ _ (fr_ct f) B) as [(q & -> & Q)|Q]; [|left; apply F2; [assumption|unfold position; apply Q]].
  destruct (before_one _ _ Q) as (j & q' & -> & J). destruct (Nat.eq_dec j (fr_ct f)) as [->|NE].
  - right. pose proof X as (P & NL & PR). edestruct path_split as (o' & EO & P'); [exact CH|exact P|discriminate|exact ST|].
    pose proof (chain_in _ _ _ CH) as (Q' & GF & PL & _).
    destruct (path_act _ _ _ _ _ _ _ P' Q' GF (fr_pos f) eq_refl PL) as [(u & U1 & U2 & U3 & U4 & U5)|(u & fl' & pos' & s' & o2 & U1 & U2 & _)].
    + subst q'. assert (N : n = fr_pos f). { apply (f_equal (@length Z)) in U5. rewrite !skipn_length in U5. lia. }
      subst n out o'. now rewrite app_nil_r.
    + assert (u = t). { destruct U1 as (_ & _ & _ & _ & _ & N1). destruct HT as (_ & _ & _ & _ & _ & N2). congruence. } subst u. rewrite A in U2. discriminate.
  - left. apply F2; [assumption|]. apply before_in. lia.
Qed.

Lemma found_final : forall fl0 f r L t strs, chain fl0 f r -> found fl0 f r L ->
  has_transition T (fr_state f) (fr_ct f) t -> act (fr_flags f) (fr_pos f) t = Some None -> Forall2 has_string (osyms T r) strs ->
  found fl0 (set_ct f (S (fr_ct f))) r (L ++ [(position f r, concat strs, fr_pos f)]).
Proof.
  intros fl0 f r L t strs CH [F1 F2] HT A ST. destruct (act_final _ _ _ A) as [TF TP]. split.
  - intros p out n I. apply in_app_iff in I. destruct I as [I|[I|[]]].
    + destruct (F1 _ _ _ I) as [X B]. split; [assumption|]. unfold position in *. cbn [fr_ct set_ct]. eapply before_end; [exact B|lia].
    + injection I as <- <- <-. split.
      * pose proof (chain_in _ _ _ CH) as (_ & _ & PL & _). split; [|split; auto]. unfold position. rewrite <- (app_nil_r (concat strs)).
        eapply chain_path; eauto. econstructor; eauto.
      * unfold position. cbn [fr_ct set_ct]. apply before_in. lia.
  - intros p out n X B. apply in_app_iff. destruct (covered_final fl0 f r _ t strs CH F2 HT A ST p out n X B) as [Y|Y]; [now left|].
    right. left. now symmetry.
Qed.

Lemma sorted_snoc : forall (L : list result) p out k, StronglySorted before (map rpath L) ->
  (forall p' out' k', In (p', out', k') L -> before p' p) -> StronglySorted before (map rpath (L ++ [(p, out, k)])).
Proof.
  intros L p out k S H. rewrite map_app. cbn [map rpath]. apply sorted_app; [assumption|repeat constructor|].
  intros x y X [<-|[]]. rewrite in_map_iff in X. destruct X as ([[p' o'] k'] & <- & X). cbn [rpath]. eauto.
Qed.

Theorem asearch_found : forall n bufferLen size fl0 f r L o f' r', chain fl0 f r -> (0 < bufferLen)%nat ->
  found fl0 f r L -> StronglySorted before (map rpath L) ->
  asearch n T word prefix bufferLen size f r = (o, (f', r')) ->
  match o with
  | Found out k => chain fl0 f' r' /\ exists p, found fl0 f' r' (L ++ [(p, out, k)]) /\ StronglySorted before (map rpath (L ++ [(p, out, k)]))
  | End => chain fl0 f' r' /\ r' = [] /\ forall p out k, acc fl0 p out k -> In (p, out, k) L
  | TooDeep => True
  | _ => chain fl0 f' r' 
  end.
Proof.
  induction n as [|n IH]; intros bufferLen size fl0 f r L o f' r' CH BL FD SO E; cbn [asearch] in E; [injection E as <- <- <-; assumption|].
  pose proof (chain_in _ _ _ CH) as IN.
  destruct (topscan f) as [[[i t] [[fl pos]|]]|] eqn:ES.
  - destruct (topscan_some _ _ _ _ IN ES) as (A & B & C & D0 & D1 & D2).
    destruct (Nat.eqb (length r + 2) size); [injection E as <- _ _; exact I|].
    eapply IH; [| |apply (found_down fl0 (set_ct f i) r L t fl pos); auto|exact SO|exact E]; [|assumption| |].
    + eapply chain_push; [apply chain_set; [exact CH|exact D2]|apply (topscan_next _ _ _ _ _ IN ES)|exact B|exact C|reflexivity].
    + apply chain_set; assumption.
    + apply found_move; auto.
  - destruct (topscan_some _ _ _ _ IN ES) as (A & B & C & D0 & D1 & D2).
    destruct (chain_strings _ _ _ CH) as [strs ST].
    destruct (write_output_spec T states Tsymbols Tstates _ _ bufferLen [] ST BL) as [W|W]; rewrite W in E; injection E as <- <- <-; [|assumption].
    split; [apply chain_set; assumption|]. cbn [app]. exists (position (set_ct f i) r).
    assert (FM : found fl0 (set_ct f i) r L) by (apply found_move; auto).
    split.
    + apply (found_final fl0 (set_ct f i) r L t strs); auto. apply chain_set; assumption.
    + apply sorted_snoc; [assumption|]. intros p' o' k' X. now destruct (proj1 FM _ _ _ X).
  - destruct r as [|g r].
    + injection E as <- <- <-. split; [assumption|]. split; [reflexivity|]. intros p out k X.
      destruct FD as [_ F2]. pose proof X as (P & _). destruct (path_cons _ _ _ _ _ _ P) as (j & q & -> & _).
      destruct (Nat.lt_ge_cases j (fr_ct f)) as [Y|Y].
      * apply F2; [assumption|]. now apply before_here.
      * exfalso. eapply (no_path fl0 f []); [exact CH|exact X|]. intros u U. eapply topscan_none; eauto.
    + eapply IH; [apply (chain_back _ _ _ _ CH)|exact BL|eapply found_up; [exact CH|exact FD|]|exact SO|exact E]. intros j u. now apply topscan_none.
Qed.

(** The stack in a configuration is a chain. *)
Lemma stk_chain : forall sis cts outs uv uf f r fd, stk T states word prefix sis cts outs uv uf f r fd -> exists fl0, good_flags T fl0 /\ chain fl0 f r.
Proof.
  induction 1.
  - exists (fr_flags f). split; [apply H1|]. constructor; auto.
  - destruct IHstk as (fl0 & G & C). exists fl0. split; [assumption|]. econstructor; eauto.
Qed.

End Paths.
