(** * What the dictionary compiler has read. *)
From Coq Require Import Permutation.
From Verif Require Import Base BaseFacts Utf8Model Utf8Spec Utf8Proofs FstModel FstFileModel FstFileProofs CompilerModel CompilerSpec CompilerSymbols.

Notation text := CompilerSpec.symbol_text.
Ltac conjs := repeat match goal with |- _ /\ _ => split end.

Lemma byte_of_letter : forall c, encodable c -> exists b r, rfc3629 c = b :: r /\ (b = 0x40 <-> c = 0x40) /\ (b = 0x5B <-> c = 0x5B) /\ (b = 0x20 <-> c = 0x20) /\ (0 < c -> FstFileProofs.symbol_text (rfc3629 c)).
Proof.
  intros c (B & H & _). unfold rfc3629, FstFileProofs.symbol_text.
  destruct (Z.ltb_spec c 128); [|destruct (Z.ltb_spec c 2048); [|destruct (Z.ltb_spec c 65536)]]; eexists; eexists; (split; [reflexivity|]);
  (split; [split; intros; Z.div_mod_to_equations; lia|]); (split; [split; intros; Z.div_mod_to_equations; lia|]); (split; [split; intros; Z.div_mod_to_equations; lia|]);
  intros; repeat constructor; Z.div_mod_to_equations; lia.
Qed.

Lemma utf8_text_bytes : forall t, Forall encodable t -> ~ In 0 t -> FstFileProofs.symbol_text (utf8_text t).
Proof.
  induction t as [|c t IH]; intros E N; [constructor|]. inversion E; subst. unfold utf8_text. cbn [map concat].
  apply Forall_app. split.
  - destruct (byte_of_letter c) as (b & r & _ & _ & _ & _ & X); auto. apply X. destruct H1. assert (c <> 0) by (intros ->; apply N; left; auto). lia.
  - apply IH; auto. intros X. apply N. right. auto.
Qed.

Lemma proper_bytes : forall s, proper_symbol s -> FstFileProofs.symbol_text (text s).
Proof.
  intros [|op f v|c|t] P; cbn [text proper_symbol] in *.
  - constructor.
  - destruct P as ((_ & F) & _ & V). unfold FstFileProofs.symbol_text. cbn [app]. constructor; [lia|]. constructor; [destruct op; cbn; lia|]. constructor; [lia|]. apply Forall_app. split.
    + eapply Forall_impl; [|exact F]. cbn. lia.
    + destruct v as [x|]; cbn [app]; [|repeat constructor; lia]. destruct V as ((_ & X) & _). constructor; [lia|]. apply Forall_app. split; [|repeat constructor; lia].
      eapply Forall_impl; [|exact X]. cbn. lia.
  - destruct P as (E & N & _). destruct (byte_of_letter c) as (b & r & _ & _ & _ & _ & X); auto. apply X. destruct E. lia.
  - destruct P as (_ & E & N). constructor; [lia|]. apply utf8_text_bytes; auto.
Qed.

Lemma field_converted : forall s, proper_symbol s -> convertSymbolNames (symbol_field s) = text s.
Proof.
  assert (forall l, (forall r, l <> 0x40 :: r) -> convertSymbolNames l = l) as G.
  { intros l N. unfold convertSymbolNames.
    assert (forall r, zlist_eqb l (0x40 :: r) = false) as Q by (intros r; destruct (zlist_eqb l (0x40 :: r)) eqn:E; auto; apply zlist_eqb_eq in E; elim (N r); auto).
    change (wstr "@0@") with (0x40 :: wstr "0@"). change (wstr "@_SPACE_@") with (0x40 :: wstr "_SPACE_@").
    change (wstr "@_IDENTITY_SYMBOL_@") with (0x40 :: wstr "_IDENTITY_SYMBOL_@"). change (wstr "@_UNKNOWN_SYMBOL_@") with (0x40 :: wstr "_UNKNOWN_SYMBOL_@").
    rewrite !Q. reflexivity. }
  intros [|op f v|c|t] P; unfold symbol_field.
  - reflexivity.
  - cbn [text app]. unfold convertSymbolNames.
    assert (forall x r r', op_letter op <> x -> zlist_eqb (0x40 :: op_letter op :: r) (0x40 :: x :: r') = false) as Q.
    { intros x r r' N. destruct (zlist_eqb _ _) eqn:E; auto. apply zlist_eqb_eq in E. congruence. }
    change (wstr "@0@") with (0x40 :: 0x30 :: wstr "@"). change (wstr "@_SPACE_@") with (0x40 :: 0x5F :: wstr "SPACE_@").
    change (wstr "@_IDENTITY_SYMBOL_@") with (0x40 :: 0x5F :: wstr "IDENTITY_SYMBOL_@"). change (wstr "@_UNKNOWN_SYMBOL_@") with (0x40 :: 0x5F :: wstr "UNKNOWN_SYMBOL_@").
    rewrite !Q by (destruct op; discriminate). reflexivity.
  - destruct P as (E & _ & N1 & N2). destruct (Z.eq_dec c 0x20) as [->|NE]; [reflexivity|].
    assert (match c with 0x20 => wstr "@_SPACE_@" | _ => text (Letter c) end = rfc3629 c) as ->.
    { repeat (reflexivity || match goal with |- match ?x with _ => _ end = _ => destruct x end). congruence. }
    apply G. intros r R. destruct (byte_of_letter c E) as (b & r' & B & X & _). cbn [text] in R. rewrite B in R. injection R as -> _. tauto.
  - apply G. intros r R. discriminate.
Qed.

Lemma not_bracket : forall s, proper_symbol s -> zlist_eqb (text s) (wstr "[") = false.
Proof.
  intros s P. destruct (zlist_eqb (text s) (wstr "[")) eqn:E; auto. apply zlist_eqb_eq in E. change (wstr "[") with [0x5B] in E.
  destruct s as [|op f v|c|t]; cbn [text app] in E; try discriminate.
  - destruct P as (C & _ & _ & N). destruct (byte_of_letter c C) as (b & r & B & _ & X & _). rewrite B in E. injection E as -> _. tauto.
  - injection E as E. destruct P as (N & F & _). destruct t as [|c t]; [congruence|]. inversion F; subst.
    destruct (byte_of_letter c) as (b & r & B & _); auto. unfold utf8_text in E. cbn [map concat] in E. rewrite B in E. discriminate.
Qed.

(** ** The invariant *)

Definition source (i : item) : nat := match i with Final q => q | Arc q _ _ _ => q end.
Definition wsource (x : item * Z) : nat := source (fst x).
Notation wline := weighted_line.
Definition image (syms : list (list Z)) (x : item * Z) : atrans :=
  match fst x with
  | Final _ => mk_at 0xFFFFFFFF 0 0 (snd x)
  | Arc _ q' i o => mk_at (code_of syms (text i)) (code_of syms (text o)) q' (snd x)
  end.
Definition item_symbols (i : item) : list symbol := match i with Final _ => [] | Arc _ _ i o => [i; o] end.

Record was_read (P : list (item * Z)) (syms : list (list Z)) (states : list (list atrans)) : Prop := mk_was_read {
  wr_nodup : NoDup syms;
  wr_syms : forall s, In s syms <-> In s (map text (symbols_of (map fst P)));
  wr_sources : forall i, In i P -> (wsource i < length states)%nat;
  wr_states : forall k ts, nth_error states k = Some ts -> ts = map (image syms) (filter (fun i => Nat.eqb (wsource i) k) P);
  wr_total : length (concat states) = length P;
  wr_nonempty : Forall (fun ts => ts <> []) states
}.

Lemma was_read_start : was_read [] [[]] [].
Proof.
  constructor; cbn; auto; try tauto.
  - repeat constructor. intros [].
  - intros [|] ts E; discriminate.
Qed.

Lemma symbols_of_app : forall (P : list (item * Z)) i, symbols_of (map fst (P ++ [i])) = symbols_of (map fst P) ++ item_symbols (fst i).
Proof. intros. unfold symbols_of. rewrite map_app, flat_map_app. cbn [map flat_map]. rewrite app_nil_r. reflexivity. Qed.

(** Adding a symbol. *)
Lemma ensured : forall s syms, proper_symbol s -> NoDup syms -> exists more,
  ensureSymbolInMap (text s) syms = Some (syms ++ more) /\ NoDup (syms ++ more) /\ forall t, In t (syms ++ more) <-> In t syms \/ t = text s.
Proof.
  intros s syms P N. unfold ensureSymbolInMap. destruct (index_of syms (text s)) as [i|] eqn:E.
  - exists []. rewrite app_nil_r. conjs; auto. intros t. split; [auto|]. intros [ | -> ]; auto. eapply nth_error_In. apply index_of_some. eauto.
  - rewrite not_bracket by auto. apply index_of_none in E. exists [text s]. conjs; auto.
    + eapply Permutation_NoDup; [apply Permutation_cons_append|]. constructor; auto.
    + intros t. rewrite in_app_iff. cbn. intuition congruence.
Qed.

Lemma code_of_app : forall syms more s, In s syms -> code_of (syms ++ more) s = code_of syms s.
Proof. intros syms more s I. destruct (index_of_in _ _ I) as (i & E). unfold code_of. rewrite E, (index_of_app _ more _ _ E). reflexivity. Qed.

Lemma image_app : forall (P : list (item * Z)) syms more i, (forall s, In s syms <-> In s (map text (symbols_of (map fst P)))) -> In i P -> image (syms ++ more) i = image syms i.
Proof.
  intros P syms more [[q|q q' s o] z] W I; [reflexivity|]. unfold image. cbn [fst snd].
  assert (forall x, In x [s; o] -> In (text x) syms) as X.
  { intros x Ix. apply W. apply in_map. unfold symbols_of. right. apply in_flat_map. exists (Arc q q' s o). split; [|auto]. apply in_map_iff. exists (Arc q q' s o, z). auto. }
  rewrite !code_of_app by (apply X; cbn; auto). reflexivity.
Qed.

Lemma concat_upd : forall (l : list (list atrans)) k t, (k < length l)%nat -> length (concat (upd l k (nth k l [] ++ [t]))) = S (length (concat l)).
Proof.
  induction l as [|x l IH]; intros [|k] t L; cbn [length] in L; try lia; cbn [upd nth concat]; rewrite !app_length; [cbn [length]; lia|].
  rewrite IH by lia. lia.
Qed.

(** Adding a transition to a state. *)
Lemma pushed : forall P syms states i states1 more, was_read P syms states -> ensure_source (wsource i) states = Some states1 ->
  (forall s, In s (syms ++ more) <-> In s syms \/ In s (map text (item_symbols (fst i)))) -> NoDup (syms ++ more) ->
  was_read (P ++ [i]) (syms ++ more) (push_transition (wsource i) (image (syms ++ more) i) states1).
Proof.
  intros P syms states i states1 more W E M N. pose proof (wr_sources _ _ _ W) as SRC. pose proof (wr_states _ _ _ W) as ST.
  assert (length (concat states1) = length P /\ (wsource i < length states1)%nat /\ (length states <= length states1)%nat /\
    (forall k ts, nth_error states1 k = Some ts -> ts = map (image syms) (filter (fun i => Nat.eqb (wsource i) k) P)) /\
    (forall k ts, k <> wsource i -> nth_error states1 k = Some ts -> ts <> [])) as (T & L & L2 & ST1 & NE).
  { pose proof (wr_total _ _ _ W) as T. pose proof (wr_nonempty _ _ _ W) as NE. rewrite Forall_forall in NE. unfold ensure_source in E. destruct (Nat.ltb_spec (length states) (wsource i)); [discriminate|]. injection E as <-.
    destruct (Nat.eqb_spec (length states) (wsource i)) as [Q|Q].
    - rewrite concat_app, !app_length. cbn [concat app length]. conjs; try lia.
      + intros k ts X. destruct (Nat.lt_ge_cases k (length states)) as [A|A].
        * rewrite nth_error_app1 in X by auto. auto.
        * rewrite nth_error_app2 in X by auto. destruct (k - length states)%nat eqn:D; [|destruct n; discriminate]. cbn in X. injection X as <-.
          assert (filter (fun i => Nat.eqb (wsource i) k) P = []) as ->; [|reflexivity].
          clear - SRC D A. induction P as [|j P IH]; cbn [filter]; auto. rewrite IH by (intros; apply SRC; right; auto).
          destruct (Nat.eqb_spec (wsource j) k); auto. specialize (SRC j (or_introl eq_refl)). lia.
      + intros k ts K X. destruct (Nat.lt_ge_cases k (length states)) as [A|A].
        * rewrite nth_error_app1 in X by auto. apply NE. eapply nth_error_In; eauto.
        * rewrite nth_error_app2 in X by auto. destruct (k - length states)%nat eqn:D; [lia|destruct n; discriminate].
    - conjs; auto; try lia. intros k ts K X. apply NE. eapply nth_error_In; eauto. }
  unfold push_transition. constructor.
  - auto.
  - intros s. rewrite M, symbols_of_app, map_app, in_app_iff. rewrite (wr_syms _ _ _ W). tauto.
  - intros j J. rewrite upd_length. apply in_app_iff in J. destruct J as [J|[->|[]]]; auto. specialize (SRC j J). lia.
  - intros k ts X. rewrite filter_app, map_app. cbn [filter].
    assert (map (image (syms ++ more)) (filter (fun i => Nat.eqb (wsource i) k) P) = map (image syms) (filter (fun i => Nat.eqb (wsource i) k) P)) as ->.
    { apply map_ext_in. intros j J. apply filter_In in J. destruct J. eapply image_app; eauto. apply (wr_syms _ _ _ W). }
    destruct (Nat.eqb_spec (wsource i) k) as [Q|Q].
    + subst k. rewrite upd_nth_same in X by auto. injection X as <-.
      destruct (nth_error states1 (wsource i)) as [old|] eqn:O; [|apply nth_error_None in O; lia].
      rewrite (nth_error_nth _ _ _ O). rewrite (ST1 _ _ O). reflexivity.
    + rewrite upd_nth_other in X by auto. cbn [map]. rewrite app_nil_r. auto.
  - rewrite concat_upd by auto. rewrite T, app_length. cbn [length]. lia.
  - apply Forall_forall. intros ts I. apply In_nth_error in I. destruct I as (k & K). destruct (Nat.eq_dec k (wsource i)) as [->|Q].
    + rewrite upd_nth_same in K by auto. injection K as <-. intros X. apply app_eq_nil in X. destruct X. discriminate.
    + rewrite upd_nth_other in K by auto. eauto.
Qed.

Lemma read_line_spec : forall P syms states i, was_read P syms states -> Forall proper_symbol (item_symbols (fst i)) ->
  match ensure_source (wsource i) states with
  | None => read_line (line_of (fst i)) (snd i) syms states = None
  | Some _ => exists syms' states', read_line (line_of (fst i)) (snd i) syms states = Some (syms', states') /\ was_read (P ++ [i]) syms' states' /\
      length states' = (if Nat.eqb (length states) (wsource i) then S (length states) else length states)
  end.
Proof.
  intros P syms states i W PS. destruct (ensure_source (wsource i) states) as [states1|] eqn:E.
  - assert (forall t, length (push_transition (wsource i) t states1) = (if Nat.eqb (length states) (wsource i) then S (length states) else length states)) as LEN.
    { intros t. unfold push_transition. rewrite upd_length. unfold ensure_source in E. destruct (_ <? _)%nat; [discriminate|]. injection E as <-. destruct (Nat.eqb_spec (length states) (wsource i)); auto. rewrite app_length. cbn. lia. }
    destruct i as [[q|q q' s o] z]; unfold wsource in *; cbn [line_of read_line source fst snd] in *.
    + rewrite E. do 2 eexists. split; [reflexivity|]. split; [|apply LEN]. 
      rewrite <- (app_nil_r syms). apply (pushed P syms states (Final q, z) states1 []); auto.
      * intros t. rewrite app_nil_r. cbn. tauto.
      * rewrite app_nil_r. apply (wr_nodup _ _ _ W).
    + rewrite E. inversion PS as [|? ? P1 P2]; subst. inversion P2 as [|? ? P3 _]; subst. rewrite !field_converted by auto. cbv zeta.
      destruct (ensured s syms) as (m1 & -> & N1 & M1); auto. { apply (wr_nodup _ _ _ W). }
      destruct (ensured o (syms ++ m1)) as (m2 & -> & N2 & M2); auto. rewrite <- app_assoc in *.
      do 2 eexists. split; [reflexivity|]. split; [|apply LEN]. apply (pushed P syms states (Arc q q' s o, z) states1 (m1 ++ m2)); auto.
      intros t. rewrite M2, M1. cbn. intuition.
  - destruct i as [[q|q q' s o] z]; unfold wsource in *; cbn [line_of read_line source fst snd] in *; rewrite E; reflexivity.
Qed.

Lemma read_lines_ok : forall R P syms states syms' states', was_read P syms states -> Forall proper_symbol (flat_map item_symbols (map fst R)) ->
  read_lines (map wline R) syms states = Some (syms', states') -> was_read (P ++ R) syms' states'.
Proof.
  induction R as [|i R IH]; intros P syms states syms' states' W F E; cbn [map read_lines] in E; unfold weighted_line in E.
  - injection E as <- <-. rewrite app_nil_r. auto.
  - cbn [map flat_map] in F. apply Forall_app in F. destruct F as [F1 F2]. pose proof (read_line_spec P syms states i W F1) as X.
    destruct (ensure_source (wsource i) states); [|rewrite X in E; discriminate]. destruct X as (s1 & st1 & X & W1 & _). rewrite X in E.
    replace (P ++ i :: R) with ((P ++ [i]) ++ R) by (rewrite <- app_assoc; reflexivity). eauto.
Qed.

Lemma read_lines_accepts : forall R P syms states, was_read P syms states -> Forall proper_symbol (flat_map item_symbols (map fst R)) ->
  in_order (length states) (map fst R) -> exists syms' states', read_lines (map wline R) syms states = Some (syms', states').
Proof.
  induction R as [|i R IH]; intros P syms states W F O; cbn [map read_lines]; unfold weighted_line; [eauto|].
  cbn [map flat_map] in F. apply Forall_app in F. destruct F as [F1 F2]. pose proof (read_line_spec P syms states i W F1) as X.
  assert (exists st1, ensure_source (wsource i) states = Some st1) as (st1 & E).
  { unfold ensure_source. inversion O; subst; fold (source (fst i)) in *; fold (wsource i) in *; destruct (Nat.ltb_spec (length states) (wsource i)); eauto; lia. }
  rewrite E in X. destruct X as (s2 & st2 & X & W1 & L). rewrite X. apply IH with (P := P ++ [i]); auto. rewrite L.
  inversion O as [|? ? ? A B|? ? ? A B]; subst; fold (source (fst i)) in *; fold (wsource i) in *; destruct (Nat.eqb_spec (length states) (wsource i)); auto; lia.
Qed.
