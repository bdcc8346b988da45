(** * Compiling a transducer preserves its meaning. *)
From Coq Require Import Permutation Sorted.
From Verif Require Import Base BaseFacts Utf8Model Utf8Spec Utf8Proofs FstModel FstSpec FstFileModel FstFileProofs CompilerModel CompilerSpec CompilerSymbols CompilerReading CompilerLoading CompilerTable.

(** ** Texts determine symbols *)

Lemma text_inj : forall s t, proper_symbol s -> proper_symbol t -> text s = text t -> s = t.
Proof.
  intros s t P Q E.
  assert (characters s = characters t) as C by (pose proof (characters_ok s P) as X; pose proof (characters_ok t Q) as Y; rewrite E in X; congruence).
  destruct s as [|op f v|c|x], t as [|op' f' v'|c'|x']; try reflexivity; try discriminate E; cbn [characters] in C.
  - destruct (letter_head c' Q) as (b & r & B & _). rewrite B in E. discriminate.
  - clear C. destruct P as ((_ & _) & ND & V), Q as ((_ & _) & ND' & V'). cbn [text app] in E.
    assert (op = op') by (destruct op, op'; try reflexivity; discriminate E). subst op'. injection E as E.
    rewrite !app_assoc in E. apply app_inj_tail in E. destruct E as [E _].
    assert (split_at 0x2E (f ++ match v with Some x => 0x2E :: x | None => [] end) = split_at 0x2E (f' ++ match v' with Some x => 0x2E :: x | None => [] end)) as X by (rewrite E; auto).
    destruct v as [x|], v' as [x'|]; rewrite ?app_nil_r in *; rewrite ?split_at_in in X by auto; rewrite ?split_at_none in X by auto; try discriminate; congruence.
  - destruct (letter_head c' Q) as (b & r & B & N & _). rewrite B in E. injection E as <- _. discriminate.
  - destruct (letter_head c P) as (b & r & B & _). rewrite B in E. discriminate.
  - destruct (letter_head c P) as (b & r & B & N & _). rewrite B in E. injection E as -> _. discriminate.
  - congruence.
  - destruct (letter_head c P) as (b & r & B & _ & N). rewrite B in E. injection E as -> _. discriminate.
  - destruct (letter_head c' Q) as (b & r & B & _ & N). rewrite B in E. injection E as <- _. discriminate.
  - congruence.
Qed.

Lemma class_text : forall s, proper_symbol s -> class (text s) = match s with Epsilon => 0 | Flag _ _ _ => 1 | Letter _ => 2 | Tag _ => 3 end.
Proof.
  intros [|op f v|c|t] P; try reflexivity. destruct (letter_head c P) as (b & r & -> & A & B). cbn [class]. rewrite A, B. reflexivity.
Qed.

Lemma NoDup_parts : forall A (a b : list A), NoDup (a ++ b) -> NoDup a /\ NoDup b.
Proof.
  induction a as [|x a IH]; intros b N; cbn [app] in N; [split; [constructor|auto]|]. inversion N; subst. destruct (IH b); auto. split; auto.
  constructor; auto. intros X. apply H1. apply in_app_iff. auto.
Qed.

(** ** The symbols in the file *)

Lemma choose_symbols : forall (S : list symbol) l, (forall t, In t l -> In t (map text S)) -> exists l', map text l' = l /\ incl l' S.
Proof.
  intros S. induction l as [|t l IH]; intros H; [exists []; split; auto; intros x []|].
  destruct IH as (l' & <- & I); [intros; apply H; right; auto|]. assert (In t (map text S)) as X by (apply H; left; auto).
  apply in_map_iff in X. destruct X as (s & <- & X). exists (s :: l'). split; auto. intros y [<-|Y]; auto.
Qed.

Lemma sorted_symbols : forall A syms, fitting A -> NoDup syms -> (forall s, In s syms <-> In s (map text (symbols_of A))) ->
  Z.of_nat (length syms) < 65536 /\ exists F L G, map snd (sort_symbols (with_codes syms)) = map text (Epsilon :: F ++ L ++ G) /\
    Forall proper_symbol (F ++ L ++ G) /\ Forall is_flag F /\ Forall is_letter L /\ Forall is_tag G /\ L <> [] /\ NoDup L.
Proof.
  intros A syms (P & (c0 & C0) & SMALL & _) N W. rewrite Forall_forall in P. split.
  { destruct (choose_symbols (symbols_of A) syms) as (l & E & I); [intros; apply W; auto|]. rewrite <- E, map_length. apply SMALL; auto.
    apply NoDup_map_inv with (f := text). rewrite E. auto. }
  set (sorted := sort_symbols (with_codes syms)).
  pose proof (sort_perm (with_codes syms)) as PM. pose proof (sort_sorted (with_codes syms)) as SS. fold sorted in PM, SS.
  assert (NoDup (map snd sorted)) as ND by (eapply Permutation_NoDup; [apply Permutation_map; exact PM|rewrite with_codes_snd; auto]).
  assert (forall t, In t (map snd sorted) <-> In t (map text (symbols_of A))) as IN.
  { intros t. rewrite <- W. rewrite <- (with_codes_snd syms) at 1. split; apply Permutation_in; apply Permutation_map; auto. apply Permutation_sym. auto. }
  clearbody sorted. clear PM W N syms.
  destruct (sorted_split sorted 1 SS) as (a & r & -> & FA & FR).
  assert (class_sorted r) as SR by (clear - SS; induction a; cbn in SS; auto; inversion SS; auto).
  destruct (sorted_split r 2 SR) as (b & r2 & -> & FB & FR2).
  assert (class_sorted r2) as SR2 by (clear - SR; induction b; cbn in SR; auto; inversion SR; auto).
  destruct (sorted_split r2 3 SR2) as (c & d & -> & FC & FD).
  rewrite !map_app in *. set (a' := map snd a) in *. set (b' := map snd b) in *. set (c' := map snd c) in *. set (d' := map snd d) in *.
  assert (forall (x : list (Z * list Z)) (Q : Z -> Prop), Forall (fun y => Q (class (snd y))) x -> Forall (fun t => Q (class t)) (map snd x)) as MF.
  { intros x Q H. apply Forall_map. auto. }
  apply (MF a (fun k => k < 1)) in FA. apply (MF _ (fun k => 1 <= k)) in FR. apply (MF b (fun k => k < 2)) in FB. apply (MF _ (fun k => 2 <= k)) in FR2. apply (MF c (fun k => k < 3)) in FC. apply (MF d (fun k => 3 <= k)) in FD.
  rewrite !map_app in FR, FR2. fold a' in FA. fold b' in FB, FR. fold c' in FC, FR, FR2. fold d' in FD, FR, FR2.
  apply Forall_app in FR. destruct FR as [FB1 _]. apply Forall_app in FR2. destruct FR2 as [FC1 _].
  assert (a' = [[]]) as EA.
  { rewrite Forall_forall in FA. assert (In [] (a' ++ b' ++ c' ++ d')) as I0 by (apply IN; left; reflexivity).
    assert (forall t, In t a' -> t = []) as Z0.
    { intros t T. specialize (FA t T). assert (In t (map text (symbols_of A))) as T2 by (apply IN; apply in_app_iff; auto). apply in_map_iff in T2. destruct T2 as (s & <- & T2).
      rewrite class_text in FA by auto. destruct s; auto; lia. }
    assert (In [] a') as Ia.
    { apply in_app_iff in I0. destruct I0 as [I0|I0]; auto. exfalso. apply in_app_iff in I0. destruct I0 as [I0|I0].
      - rewrite Forall_forall in FB1. specialize (FB1 _ I0). cbn in FB1. lia.
      - apply in_app_iff in I0. destruct I0 as [I0|I0]; [rewrite Forall_forall in FC1; specialize (FC1 _ I0)|rewrite Forall_forall in FD; specialize (FD _ I0)]; cbn in *; lia. }
    destruct a' as [|t1 [|t2 a']]; [contradiction| |].
    - f_equal. apply Z0. left. auto.
    - exfalso. rewrite (Z0 t1), (Z0 t2) in ND by (cbn; auto). inversion ND as [|? ? X _]; subst. apply X. left. auto. }
  destruct (choose_symbols (symbols_of A) b') as (F & EF & IF). { intros t T. apply IN. rewrite !in_app_iff. auto. }
  destruct (choose_symbols (symbols_of A) c') as (L & EL & IL). { intros t T. apply IN. rewrite !in_app_iff. auto. }
  destruct (choose_symbols (symbols_of A) d') as (G & EG & IG). { intros t T. apply IN. rewrite !in_app_iff. auto. }
  exists F, L, G. rewrite EA, <- EF, <- EL, <- EG. rewrite <- EF in FB, FB1. rewrite <- EL in FC, FC1. rewrite <- EG in FD. rewrite Forall_map, Forall_forall in FB, FB1, FC, FC1, FD.
  conjs.
  - cbn [map app text]. rewrite !map_app. reflexivity.
  - apply Forall_forall. intros s I. apply P. rewrite !in_app_iff in I. destruct I as [I|[I|I]]; auto.
  - apply Forall_forall. intros s I. specialize (FB _ I). specialize (FB1 _ I). rewrite class_text in * by auto. destruct s; cbn; auto; lia.
  - apply Forall_forall. intros s I. specialize (FC _ I). specialize (FC1 _ I). rewrite class_text in * by auto. destruct s; cbn; auto; lia.
  - apply Forall_forall. intros s I. specialize (FD _ I). rewrite class_text in * by auto. destruct s; cbn; auto; lia.
  - intros ->. assert (In (text (Letter c0)) (a' ++ b' ++ c' ++ d')) as X by (apply IN; apply in_map; auto).
    pose proof (class_text (Letter c0) (P _ C0)) as K. rewrite <- EF, <- EL, <- EG, EA in X. cbn [map app] in X. destruct X as [X|X]; [rewrite <- X in K; discriminate|].
    apply in_app_iff in X. destruct X as [X|X]; apply in_map_iff in X; destruct X as (s & X1 & X2); rewrite <- X1 in K.
    + specialize (FB _ X2). cbn beta in FB. lia.
    + specialize (FD _ X2). cbn beta in FD. lia.
  - apply NoDup_map_inv with (f := text). rewrite EL. apply NoDup_parts in ND. destruct ND as [_ ND]. apply NoDup_parts in ND. destruct ND as [_ ND]. apply NoDup_parts in ND. apply ND.
Qed.

(** ** Symbols of the loaded transducer *)

Lemma letter_map_at : forall L i k s, nth_error L k = Some s -> NoDup L -> Forall is_letter L -> exists c, s = Letter c /\ find_symbol (letter_map L i) c = Some (i + Z.of_nat k).
Proof.
  induction L as [|s L IH]; intros i k t E N C; [destruct k; discriminate|]. inversion N; subst. inversion C as [|? ? C1 C2]; subst. destruct s as [| |c|]; try contradiction.
  destruct k as [|k]; cbn [nth_error] in E.
  - injection E as <-. exists c. split; auto. cbn [letter_map find_symbol]. rewrite Z.eqb_refl. f_equal. lia.
  - destruct (IH (i + 1) k t E) as (c' & -> & X); auto. exists c'. split; auto. cbn [letter_map find_symbol].
    destruct (Z.eqb_spec c c') as [->|]; [elim H1; eapply nth_error_In; eauto|]. rewrite X. f_equal. lia.
Qed.
Lemma letter_map_found : forall L i c z, Forall is_letter L -> find_symbol (letter_map L i) c = Some z -> exists k, nth_error L k = Some (Letter c) /\ z = i + Z.of_nat k.
Proof.
  induction L as [|s L IH]; intros i c z C E; [discriminate|]. inversion C as [|? ? C1 C2]; subst. destruct s as [| |c1|]; try contradiction.
  cbn [letter_map find_symbol] in E. destruct (Z.eqb_spec c1 c) as [->|].
  - injection E as <-. exists 0%nat. split; [reflexivity|lia].
  - destruct (IH _ _ _ C2 E) as (k & K1 & K2). exists (S k). split; auto. lia.
Qed.

(** What loading the symbols [D] gives. *)
Record symbols_loaded (D : list symbol) (fs vs : list (list Z)) (T : transducer) : Prop := mk_sl {
  sl_fn : 0 < firstNormalChar T < Z.of_nat (length D);
  sl_unknown : unknownSymbolOrdinal T = Z.of_nat (length D);
  sl_small : Z.of_nat (length D) < 65536;
  sl_zero : nth_error (symbolToString T) 0 = Some [];
  sl_features : flagDiacriticFeatureCount T = length fs;
  sl_values : grows [[]; wstr "@"] vs;
  sl_string : forall k s, nth_error D k = Some s -> nth_error (symbolToString T) k = Some (characters s);
  sl_kind : forall k s, nth_error D k = Some s ->
    match s with
    | Epsilon => k = 0%nat
    | Flag _ _ _ => 0 < Z.of_nat k < firstNormalChar T /\ exists o, nth_error (symbolToDiacritic T) k = Some o /\ flag_known fs vs s o
    | Letter c => firstNormalChar T <= Z.of_nat k /\ symbol_of T c (Z.of_nat k)
    | Tag _ => firstNormalChar T <= Z.of_nat k
    end;
  sl_letter : forall c z, symbol_of T c z -> exists k, z = Z.of_nat k /\ nth_error D k = Some (Letter c)
}.

Lemma loaded_symbols : forall F L G O fs vs cells, Forall is_flag F -> Forall is_letter L -> Forall is_tag G -> L <> [] -> NoDup L ->
  Z.of_nat (length (Epsilon :: F ++ L ++ G)) < 65536 -> Forall2 (flag_known fs vs) F O -> grows [[]; wstr "@"] vs ->
  symbols_loaded (Epsilon :: F ++ L ++ G) fs vs (mk_fst cells (letter_map L (1 + Z.of_nat (length F))) (map characters (Epsilon :: F ++ L ++ G))
        (mk_ofv Operation_P 0 0 :: O) (length fs) (1 + Z.of_nat (length F)) (Z.of_nat (length (Epsilon :: F ++ L ++ G)))).
Proof.
  intros F L G O fs vs cells CF CL CG NL ND SM K GR. constructor; cbn [firstNormalChar unknownSymbolOrdinal symbolToString flagDiacriticFeatureCount symbolToDiacritic]; auto.
  - destruct L; [congruence|]. cbn [length]. rewrite !app_length. cbn [length]. lia.
  - intros k s E. apply map_nth_error. auto.
  - intros k s E. destruct k as [|k]; [injection E as <-; reflexivity|]. cbn [nth_error] in E |- *.
    destruct (Nat.lt_ge_cases k (length F)) as [A|A].
    + rewrite nth_error_app1 in E by auto. assert (is_flag s) by (rewrite Forall_forall in CF; apply CF; eapply nth_error_In; eauto). destruct s; try contradiction.
      split; [lia|]. clear - K E. revert k E. induction K; intros [|k] E; try discriminate; cbn in *; [injection E as ->; eauto|eauto].
    + rewrite nth_error_app2 in E by auto. destruct (Nat.lt_ge_cases (k - length F) (length L)) as [B|B].
      * rewrite nth_error_app1 in E by auto. destruct (letter_map_at L (1 + Z.of_nat (length F)) _ _ E ND CL) as (c & -> & X). split; [lia|].
        unfold symbol_of. cbn [stringToSymbol]. rewrite X. f_equal. lia.
      * rewrite nth_error_app2 in E by auto. assert (is_tag s) by (rewrite Forall_forall in CG; apply CG; eapply nth_error_In; eauto). destruct s; try contradiction. lia.
  - intros c z E. unfold symbol_of in E. cbn [stringToSymbol] in E. destruct (letter_map_found _ _ _ _ CL E) as (k & K1 & K2).
    exists (S (length F + k)). split; [lia|]. cbn [nth_error]. rewrite nth_error_app2 by lia. replace (length F + k - length F)%nat with k by lia.
    rewrite nth_error_app1; auto. apply nth_error_Some. congruence.
Qed.

(** ** Flags *)

Definition flags_agree (fs vs : list (list Z)) (fl : list Z) (st : store) : Prop :=
  length fl = length fs /\ forall f fi, index_of fs f = Some fi -> exists vi, nth_error fl fi = Some (Z.of_nat vi) /\ index_of vs (st f) = Some vi.

Lemma flags_agree_set : forall fs vs fl st f fi x vi, flags_agree fs vs fl st -> index_of fs f = Some fi -> index_of vs x = Some vi ->
  flags_agree fs vs (upd fl fi (Z.of_nat vi)) (set st f x).
Proof.
  intros fs vs fl st f fi x vi (L & H) F X. split; [rewrite upd_length; auto|]. intros g gi Gi. unfold set. destruct (zlist_eqb g f) eqn:E.
  - apply zlist_eqb_eq in E. subst g. rewrite F in Gi. injection Gi as <-. exists vi. split; auto. apply upd_nth_same. rewrite L.
    apply index_of_some in F. apply nth_error_Some. congruence.
  - rewrite upd_nth_other; auto. intros ->. assert (f = g) by (eapply index_of_inj; eauto). subst. rewrite zlist_eqb_refl in E. discriminate.
Qed.

Lemma values_start : forall vs x i, grows [[]; wstr "@"] vs -> index_of vs x = Some i -> (i = 0%nat <-> x = []) /\ (i = 1%nat <-> x = wstr "@").
Proof.
  intros vs x i (m & ->) E. assert (index_of ([[]; wstr "@"] ++ m) [] = Some 0%nat) as A by reflexivity.
  assert (index_of ([[]; wstr "@"] ++ m) (wstr "@") = Some 1%nat) as B by reflexivity.
  split; split; intros; subst; try congruence; eapply index_of_inj; eauto.
Qed.

Lemma flag_forward : forall fs vs fl st st' op f v o, grows [[]; wstr "@"] vs -> proper_symbol (Flag op f v) -> flags_agree fs vs fl st -> flag_known fs vs (Flag op f v) o ->
  flag_rule op f v st st' -> exists fl', flag_step o fl fl' /\ flags_agree fs vs fl' st'.
Proof.
  intros fs vs fl st st' op f v o G (_ & _ & PV) AG (fi & vi & -> & FI & VI) R.
  assert (index_of vs [] = Some 0%nat) as Z0 by (destruct G as (m & ->); reflexivity).
  destruct (values_start vs _ _ G VI) as [V0 V1]. destruct AG as (L & AG). pose proof (AG f fi FI) as (ci & C1 & C2). destruct (values_start vs _ _ G C2) as [W0 W1].
  assert (vi <> 0%nat) as VN by (intros X; apply V0 in X; destruct v as [x|]; [destruct PV as ((PV & _) & _); cbn in X; congruence|discriminate]).
  assert (v <> None -> Z.of_nat vi <> 1) as VN1 by (intros X Y; assert (vi = 1)%nat as Q by lia; apply V1 in Q; destruct v as [x|]; [cbn in Q; tauto|congruence]).
  assert (v = None -> vi = 1%nat) as VA by (intros ->; apply V1; reflexivity).
  assert (flags_agree fs vs fl st) as AG' by (split; auto).
  destruct R as [f v st|f v st|f v st E|f v st E|f st E|f x st E|f st E|f x st E].
  - eexists. split; [constructor|]. eapply flags_agree_set; eauto.
  - eexists. split; [constructor|]. change 0 with (Z.of_nat 0). eapply flags_agree_set; eauto.
  - eexists. split; [apply flag_U_set|eapply flags_agree_set; eauto]. rewrite C1. apply W0 in E. subst ci. reflexivity.
  - exists fl. split; auto. apply flag_U_same; [lia|]. rewrite C1. rewrite E in C2. congruence.
  - exists fl. split; auto. rewrite VA by auto. apply flag_R_any with (x := Z.of_nat ci); auto. intros X. apply E. apply W0. lia.
  - exists fl. split; auto. apply flag_R_value; [apply VN1; discriminate|]. rewrite C1. rewrite E in C2. cbn [flag_value] in VI. congruence.
  - exists fl. split; auto. rewrite VA by auto. apply flag_D_any. rewrite C1. apply W0 in E. subst ci. reflexivity.
  - exists fl. split; auto. apply flag_D_value with (x := Z.of_nat ci); auto; [apply VN1; discriminate|]. intros X. apply E. assert (ci = vi) by lia. subst ci. cbn [flag_value] in VI.
    eapply index_of_inj; eauto.
Qed.

Lemma flag_backward : forall fs vs fl fl' st op f v o, grows [[]; wstr "@"] vs -> proper_symbol (Flag op f v) -> flags_agree fs vs fl st -> flag_known fs vs (Flag op f v) o ->
  flag_step o fl fl' -> exists st', flag_rule op f v st st' /\ flags_agree fs vs fl' st'.
Proof.
  intros fs vs fl fl' st op f v o G (_ & _ & PV) AG (fi & vi & -> & FI & VI) R.
  assert (index_of vs [] = Some 0%nat) as Z0 by (destruct G as (m & ->); reflexivity).
  destruct (values_start vs _ _ G VI) as [V0 V1]. destruct AG as (L & AG). pose proof (AG f fi FI) as (ci & C1 & C2). destruct (values_start vs _ _ G C2) as [W0 W1].
  assert (vi <> 0%nat) as VN by (intros X; apply V0 in X; destruct v as [x|]; [destruct PV as ((PV & _) & _); cbn in X; congruence|discriminate]).
  assert (Z.of_nat vi = 1 <-> v = None) as VA.
  { split; intros X; [assert (vi = 1)%nat as Q by lia; apply V1 in Q; destruct v as [x|]; [cbn in Q; tauto|auto]|]. subst v. assert (vi = 1%nat) by (apply V1; reflexivity). lia. }
  assert (flags_agree fs vs fl st) as AG' by (split; auto).
  inversion R; subst; clear R;
    try match goal with H : nth_error fl' fi = Some ?y |- _ => assert (y = Z.of_nat ci) by congruence end;
    try match goal with H : nth_error fl fi = Some ?y |- _ => assert (y = Z.of_nat ci) by congruence end.
  - eexists. split; [constructor|]. eapply flags_agree_set; eauto.
  - eexists. split; [constructor|]. change 0 with (Z.of_nat 0). eapply flags_agree_set; eauto.
  - eexists. split; [apply rule_U_set|eapply flags_agree_set; eauto]. apply W0. lia.
  - exists st. split; auto. apply rule_U_same. assert (ci = vi) by lia. subst ci. eapply index_of_inj; eauto.
  - exists st. split; auto. assert (v = None) as -> by (apply VA; lia). apply rule_R_any. intros X. apply W0 in X. lia.
  - exists st. split; auto. destruct v as [x|]; [|assert (Z.of_nat vi = 1) by (apply VA; auto); congruence]. apply rule_R. assert (ci = vi) by lia. subst ci. eapply index_of_inj; eauto.
  - exists st. split; auto. assert (v = None) as -> by (apply VA; lia). apply rule_D_any. apply W0. lia.
  - exists st. split; auto. destruct v as [x'|]; [|assert (Z.of_nat vi = 1) by (apply VA; auto); congruence]. apply rule_D. intros X. cbn [flag_value] in VI.
    assert (ci = vi) by congruence. congruence.
Qed.

(** ** The table *)

Definition item_cell (D : list symbol) (offsets : list nat) (i : item) (t : cell) : Prop :=
  match i with
  | Final _ => symIn t = FINAL
  | Arc _ q' s o => exists ks ko off, nth_error D ks = Some s /\ nth_error D ko = Some o /\ nth_error offsets q' = Some off /\
      symIn t = Z.of_nat ks /\ symOut t = Z.of_nat ko /\ targetState t = Z.of_nat off
  end.

Record table_loaded (A : list item) (D : list symbol) (offsets : list nat) (T : transducer) : Prop := mk_tl {
  tl_start : nth_error offsets 0 = Some 0%nat;
  tl_source : forall i, In i A -> exists off, nth_error offsets (source i) = Some off;
  tl_state : forall q off, nth_error offsets q = Some off -> good_state T off;
  tl_from : forall q off i t, nth_error offsets q = Some off -> has_transition T off i t -> exists it, In it A /\ source it = q /\ item_cell D offsets it t;
  tl_to : forall q off it, nth_error offsets q = Some off -> In it A -> source it = q -> exists i t, has_transition T off i t /\ item_cell D offsets it t
}.

Lemma renumbered : forall A syms states D x, fitting (map fst A) -> was_read A syms states -> Z.of_nat (length syms) < 65536 ->
  map snd (sort_symbols (with_codes syms)) = map text D -> Forall proper_symbol D -> In x A ->
  let a := renumber (sort_symbols (with_codes syms)) (image syms x) in
  match fst x with
  | Final _ => a = mk_at 0xFFFFFFFF 0 0 (snd x)
  | Arc _ q' s o => exists ks ko, nth_error D ks = Some s /\ nth_error D ko = Some o /\ a = mk_at (Z.of_nat ks) (Z.of_nat ko) q' (snd x)
  end.
Proof.
  intros A syms states D [i z] (P & _) W SM ED PD I. rewrite Forall_forall in P, PD. destruct i as [q|q q' s o]; [reflexivity|]. unfold image, renumber. cbn [fst snd a_in a_out a_state a_weight].
  assert (forall x, In x [s; o] -> In x (symbols_of (map fst A))) as IS.
  { intros x X. right. apply in_flat_map. exists (Arc q q' s o). split; [|auto]. apply in_map_iff. eexists. split; [|exact I]. reflexivity. }
  assert (forall x, In x [s; o] -> exists k, nth_error D k = Some x /\ new_code (sort_symbols (with_codes syms)) 0 (code_of syms (text x)) = Z.of_nat k) as G.
  { intros x X. destruct (new_code_ok syms (text x)) as (k & K1 & K2); auto. { apply (wr_nodup _ _ _ W). } { apply (wr_syms _ _ _ W). apply in_map. auto. }
    exists k. split; auto. apply index_of_some in K1. rewrite ED in K1. destruct (nth_error D k) as [y|] eqn:E; [|rewrite nth_error_map, E in K1; discriminate].
    rewrite nth_error_map, E in K1. cbn in K1. injection K1 as K1. f_equal. apply text_inj; auto. apply PD. eapply nth_error_In; eauto. }
  destruct (G s) as (ks & S1 & S2); [cbn; auto|]. destruct (G o) as (ko & O1 & O2); [cbn; auto|].
  assert (code_of syms (text s) =? 0xFFFFFFFF = false) as ->.
  { apply Z.eqb_neq. unfold code_of. destruct (index_of syms (text s)); [|lia]. pose proof (Z.mod_pos_bound (Z.of_nat n) 65536). lia. }
  rewrite S2, O2. eauto.
Qed.

(** A table whose cells are those of the states, in order. *)
Section LAYOUT.
Variables (A : list (item * Z)) (syms : list (list Z)) (states : list (list atrans)) (D : list symbol) (T : transducer) (cellss : list (list cell)).
Hypothesis FIT : fitting (map fst A).
Hypothesis W : was_read A syms states.
Hypothesis SM : Z.of_nat (length syms) < 65536.
Hypothesis ED : map snd (sort_symbols (with_codes syms)) = map text D.
Hypothesis PD : Forall proper_symbol D.
Let sorted := sort_symbols (with_codes syms).
Let states' := map (map (renumber sorted)) states.
Let offsets := state_offsets 0 states'.

Lemma symbols_count : length syms = length D.
Proof. rewrite <- (map_length text D), <- ED, map_length, <- (Permutation_length (sort_perm (with_codes syms))), with_codes_length. auto. Qed.
Lemma transitions_count : length (concat states') = length A.
Proof. rewrite <- (wr_total _ _ _ W). unfold states'. rewrite <- concat_map, map_length. auto. Qed.
Lemma items_count : 257 * Z.of_nat (length A) <= 256 * 2 ^ 24.
Proof. destruct FIT as (_ & _ & _ & X). rewrite map_length in X. exact X. Qed.
Lemma state_count : forall ts, In ts states' -> (length ts <= length A)%nat.
Proof. intros ts I. rewrite <- transitions_count. apply in_split in I. destruct I as (l1 & l2 & E). rewrite E, concat_app. cbn [concat]. rewrite !app_length. lia. Qed.
Lemma state_items : forall q ts a, nth_error states' q = Some ts -> In a ts -> exists x, In x A /\ wsource x = q /\ a = renumber sorted (image syms x).
Proof.
  intros q ts a Q2 I. unfold states' in Q2. rewrite nth_error_map in Q2. destruct (nth_error states q) as [old|] eqn:O; [|discriminate]. injection Q2 as <-.
  pose proof (wr_states _ _ _ W q old O) as ->. rewrite map_map in I. apply in_map_iff in I. destruct I as (it & <- & I). apply filter_In in I. destruct I as [I1 I2]. apply Nat.eqb_eq in I2. eauto.
Qed.
Lemma item_state : forall ts x, nth_error states' (wsource x) = Some ts -> In x A -> In (renumber sorted (image syms x)) ts.
Proof.
  intros ts x A1 I. unfold states' in A1. rewrite nth_error_map in A1. destruct (nth_error states (wsource x)) as [old|] eqn:O; [|discriminate]. injection A1 as <-.
  pose proof (wr_states _ _ _ W _ old O) as ->. rewrite map_map. apply in_map_iff. exists x. split; auto. apply filter_In. split; auto. apply Nat.eqb_refl.
Qed.
Lemma offsets_count : length offsets = length states.
Proof. unfold offsets, states'. rewrite state_offsets_length, map_length. auto. Qed.

Hypothesis LAY : Forall2 (state_layout offsets) states' cellss.
Hypothesis ET : transitions T = concat cellss.

Lemma placed : forall q off, nth_error offsets q = Some off -> exists pre ts cells post, nth_error states' q = Some ts /\ state_layout offsets ts cells /\
    transitions T = pre ++ cells ++ post /\ off = length pre /\ Z.of_nat (length (transitions T)) <= 2 ^ 24 /\ Z.of_nat (length ts) <= 2 ^ 32.
Proof.
  pose proof (table_size _ _ _ LAY) as TS. rewrite transitions_count in TS. pose proof items_count as SIZE.
  intros q off Q. destruct (state_place offsets states' cellss q off 0 LAY Q) as (pre & ts & cells & post & A1 & A2 & A3 & A4). exists pre, ts, cells, post. rewrite ET. conjs; auto.
  - lia.
  - pose proof (state_count ts (nth_error_In _ _ A1)). lia.
Qed.
Lemma offset_small : forall q off, nth_error offsets q = Some off -> Z.of_nat off < 2 ^ 24.
Proof.
  intros q off Q. destruct (placed q off Q) as (pre & ts & cells & post & A1 & A2 & A3 & A4 & A5 & A6). 
  destruct (layout_transitions T pre cells post offsets ts A3 A2 A6) as (_ & POS & _). rewrite A3, !app_length in A5. lia.
Qed.
Lemma cell_item : forall x more t, In x A -> to_cell offsets more (renumber sorted (image syms x)) = Some t -> item_cell D offsets (fst x) t.
Proof.
  intros [it z] more t I C. pose proof (renumbered A syms states D _ FIT W SM ED PD I) as R. cbv zeta in R. fold sorted in R. cbn [fst snd] in *. pose proof symbols_count as LD. destruct it as [q|q q' s o]; cbn [item_cell].
  - rewrite R in C. unfold to_cell in C. cbn [a_state a_in a_out] in C. destruct (nth_error offsets 0); [|discriminate]. apply some_inj in C. subst t. reflexivity.
  - destruct R as (ks & ko & K1 & K2 & R). rewrite R in C. unfold to_cell in C. cbn [a_state a_in a_out] in C. destruct (nth_error offsets q') as [off|] eqn:O; [|discriminate].
    apply some_inj in C. subst t. exists ks, ko, off. cbn [symIn symOut targetState]. pose proof (offset_small _ _ O).
    assert (ks < length D)%nat by (apply nth_error_Some; congruence). assert (ko < length D)%nat by (apply nth_error_Some; congruence).
    conjs; auto; apply Z.mod_small; lia.
Qed.

Lemma laid_out : table_loaded (map fst A) D offsets T.
Proof.
  constructor.
  - destruct FIT as (_ & (c & C) & _). assert (A <> []) as NE by (intros E; rewrite E in C; destruct C as [C|[]]; discriminate).
    destruct A as [|i A']; [congruence|]. pose proof (wr_sources _ _ _ W i (or_introl eq_refl)) as X. unfold offsets, states'. destruct states; [cbn in X; lia|reflexivity].
  - intros i I. apply in_map_iff in I. destruct I as (x & <- & I). pose proof (wr_sources _ _ _ W x I) as X. unfold wsource in X. destruct (nth_error offsets (source (fst x))) eqn:Q; eauto. apply nth_error_None in Q. rewrite offsets_count in Q. lia.
  - intros q off Q. destruct (placed q off Q) as (pre & ts & cells & post & A1 & A2 & A3 & -> & A5 & A6).
    destruct (layout_transitions T pre cells post offsets ts A3 A2 A6) as (EX & POS & _). do 2 eexists. split; [exact EX|].
    assert (length (transitions T) = length pre + length cells + length post)%nat as LT by (rewrite A3, !app_length; lia).
    split; [lia|]. split; [lia|]. pose proof (state_layout_length _ _ _ A2) as LL. unfold state_size in LL.
    destruct (Z.ltb_spec 255 (Z.of_nat (length ts))), (Nat.leb_spec (length ts) 255); lia.
  - intros q off i t Q H. destruct (placed q off Q) as (pre & ts & cells & post & A1 & A2 & A3 & -> & A5 & A6).
    destruct (layout_transitions T pre cells post offsets ts A3 A2 A6) as (_ & _ & FROM & _). destruct (FROM i t H) as (k & a & more & I & _ & _ & C).
    destruct (state_items q ts a A1) as (x & I1 & I2 & ->). { apply sort_in. eapply nth_error_In; eauto. } exists (fst x). conjs; auto; [apply in_map; auto|]. eapply cell_item; eauto.
  - intros q off it Q I S. destruct (placed q off Q) as (pre & ts & cells & post & A1 & A2 & A3 & -> & A5 & A6).
    destruct (layout_transitions T pre cells post offsets ts A3 A2 A6) as (_ & _ & _ & TO). apply in_map_iff in I. destruct I as (x & <- & I).
    assert (In (renumber sorted (image syms x)) ts) as J by (apply item_state; auto; unfold wsource; rewrite S; auto).
    apply sort_in in J. apply In_nth_error in J. destruct J as (k & J). destruct (TO k _ J) as (t & more & H & C).
    do 2 eexists. split; [exact H|]. eapply cell_item; eauto.
Qed.
End LAYOUT.

Lemma loaded_table : forall A syms states D bytes T, fitting (map fst A) -> was_read A syms states -> Z.of_nat (length syms) < 65536 ->
  map snd (sort_symbols (with_codes syms)) = map text D -> Forall proper_symbol D ->
  let states' := map (map (renumber (sort_symbols (with_codes syms)))) states in
  write_all (write_state false (state_offsets 0 states')) states' = Some bytes -> transitions T = bytes_cells bytes ->
  table_loaded (map fst A) D (state_offsets 0 states') T.
Proof.
  intros A syms states D bytes T FIT W SM ED PD states' E ET.
  destruct (write_states_cells (state_offsets 0 states') states' bytes) as (cellss & LAY & CELLS); auto.
  { apply Forall_forall. intros ts I. pose proof (state_count A syms states W ts I). pose proof (items_count A FIT). lia. }
  apply laid_out with (cellss := cellss); auto. congruence.
Qed.

(** ** Paths *)

Section PATHS.
Variables (A : list item) (D : list symbol) (fs vs : list (list Z)) (offsets : list nat) (T : transducer).
Hypothesis PROPER : Forall proper_symbol (symbols_of A).
Hypothesis SL : symbols_loaded D fs vs T.
Hypothesis TL : table_loaded A D offsets T.

Lemma item_proper : forall q q' s o, In (Arc q q' s o) A -> proper_symbol s /\ proper_symbol o.
Proof.
  intros q q' s o I. rewrite Forall_forall in PROPER. split; apply PROPER; right; apply in_flat_map; exists (Arc q q' s o); cbn; auto.
Qed.

Lemma written_ok : forall k o t w, nth_error D k = Some o -> symOut t = Z.of_nat k -> (writes T t w <-> w = written o).
Proof.
  intros k o t w K E. unfold writes. rewrite E. pose proof (sl_kind _ _ _ _ SL k o K) as KIND. pose proof (sl_string _ _ _ _ SL k o K) as STR. pose proof (sl_fn _ _ _ _ SL) as FN.
  rewrite Nat2Z.id, STR. destruct o as [|op f v|c|x]; cbn [written characters].
  - subst k. destruct (Z.leb_spec (firstNormalChar T) (Z.of_nat 0)); [lia|tauto].
  - destruct KIND as [KIND _]. destruct (Z.leb_spec (firstNormalChar T) (Z.of_nat k)); [lia|tauto].
  - destruct KIND as [KIND _]. destruct (Z.leb_spec (firstNormalChar T) (Z.of_nat k)); [|lia]. split; congruence.
  - destruct (Z.leb_spec (firstNormalChar T) (Z.of_nat k)); [|lia]. split; congruence.
Qed.

Lemma run_path : forall q st w out, run A q st w out -> forall fl off, flags_agree fs vs fl st -> nth_error offsets q = Some off -> exists p, path T off fl w p out [].
Proof.
  pose proof (sl_small _ _ _ _ SL) as SM.
  assert (forall k s, nth_error D k = Some s -> Z.of_nat k <> FINAL) as NF.
  { intros k s K. assert (k < length D)%nat by (apply nth_error_Some; congruence). unfold FINAL. lia. }
  intros q st w out R. induction R as [q st I|q q' c o st w out I R IH|q q' o st w out I R IH|q q' op f v o st st' w out I FR R IH]; intros fl off AG Q;
    destruct (tl_to _ _ _ _ TL q off _ Q I eq_refl) as (i & t & H & C).
  - exists [i]. eapply path_final; eauto.
  - destruct C as (ks & ko & off' & K1 & K2 & K3 & E1 & E2 & E3). destruct (IH fl off' AG K3) as (p & P). exists (i :: p).
    eapply path_read; eauto.
    + rewrite E1. eauto.
    + rewrite E1. apply (sl_kind _ _ _ _ SL _ _ K1).
    + eapply written_ok; eauto.
    + rewrite E3, Nat2Z.id. auto.
  - destruct C as (ks & ko & off' & K1 & K2 & K3 & E1 & E2 & E3). destruct (IH fl off' AG K3) as (p & P). exists (i :: p).
    eapply path_epsilon; eauto.
    + rewrite E1. pose proof (sl_kind _ _ _ _ SL _ _ K1) as X. cbn in X. subst ks. reflexivity.
    + eapply written_ok; eauto.
    + rewrite E3, Nat2Z.id. auto.
  - destruct C as (ks & ko & off' & K1 & K2 & K3 & E1 & E2 & E3). destruct (sl_kind _ _ _ _ SL _ _ K1) as (B & d & X & Y).
    destruct (item_proper _ _ _ _ I) as [PS _]. destruct (flag_forward fs vs fl st st' op f v d (sl_values _ _ _ _ SL) PS AG Y FR) as (fl' & FS & AG').
    destruct (IH fl' off' AG' K3) as (p & P). exists (i :: p).
    eapply path_flag; eauto.
    + rewrite E1. auto.
    + rewrite E1, Nat2Z.id. eauto.
    + eapply written_ok; eauto.
    + rewrite E3, Nat2Z.id. auto.
Qed.

Lemma path_run : forall off fl w p out rest, path T off fl w p out rest -> rest = [] -> forall q st, flags_agree fs vs fl st -> nth_error offsets q = Some off -> run A q st w out.
Proof.
  pose proof (sl_small _ _ _ _ SL) as SM. pose proof (sl_fn _ _ _ _ SL) as FN.
  assert (forall k s, nth_error D k = Some s -> Z.of_nat k <> FINAL) as NF.
  { intros k s K. assert (k < length D)%nat by (apply nth_error_Some; congruence). unfold FINAL. lia. }
  intros off fl w p out rest P.
  induction P as [off fl w i t H F|off fl c w i t p s out rest H F SY WR P IH|off fl w i t p s out rest H F WR P IH|off fl fl' w i t d p s out rest H B DI FS WR P IH];
    intros RE q st AG Q; destruct (tl_from _ _ _ _ TL q off i t Q H) as (it & I & <- & C); destruct it as [q0|q0 q' x o]; cbn [source item_cell] in *.
  - subst w. apply run_final. auto.
  - destruct C as (ks & ko & off' & K1 & K2 & K3 & E1 & E2 & E3). elim (NF _ _ K1). congruence.
  - contradiction.
  - destruct C as (ks & ko & off' & K1 & K2 & K3 & E1 & E2 & E3). rewrite E1 in SY. destruct (sl_letter _ _ _ _ SL _ _ SY) as (k & Ek & K4). apply Nat2Z.inj in Ek. subst k.
    assert (x = Letter c) by congruence. subst x. apply (written_ok _ _ _ _ K2 E2) in WR. subst s. eapply run_letter; eauto. apply IH; auto. rewrite E3, Nat2Z.id. auto.
  - unfold FINAL in C. lia.
  - destruct C as (ks & ko & off' & K1 & K2 & K3 & E1 & E2 & E3). assert (ks = 0%nat) by lia. subst ks.
    assert (x = Epsilon). { pose proof (sl_kind _ _ _ _ SL _ _ K1) as X. destruct x; auto; cbn in X; lia. }
    subst x. apply (written_ok _ _ _ _ K2 E2) in WR. subst s. eapply run_epsilon; eauto. apply IH; auto. rewrite E3, Nat2Z.id. auto.
  - rewrite C in B. unfold FINAL in B. lia.
  - destruct C as (ks & ko & off' & K1 & K2 & K3 & E1 & E2 & E3). rewrite E1 in B, DI. rewrite Nat2Z.id in DI. pose proof (sl_kind _ _ _ _ SL _ _ K1) as X.
    destruct x as [|op f v|c|y]; [lia| |lia|lia]. destruct X as (_ & d' & D1 & D2). assert (d' = d) by congruence. subst d'.
    destruct (item_proper _ _ _ _ I) as [PS _]. destruct (flag_backward fs vs fl fl' st op f v d (sl_values _ _ _ _ SL) PS AG D2 FS) as (st' & FR & AG').
    apply (written_ok _ _ _ _ K2 E2) in WR. subst s. eapply run_flag; eauto. apply IH; auto. rewrite E3, Nat2Z.id. auto.
Qed.

Lemma neutral_agrees : flags_agree fs vs (neutral T) (fun _ => []).
Proof.
  unfold neutral. rewrite (sl_features _ _ _ _ SL). split; [apply repeat_length|]. intros f fi F. exists 0%nat. split.
  - apply nth_error_repeat. apply index_of_some in F. apply nth_error_Some. congruence.
  - destruct (sl_values _ _ _ _ SL) as (m & ->). reflexivity.
Qed.

Lemma same_meaning : forall w out, (exists p, accepts T w p out) <-> accepted A w out.
Proof.
  intros w out. unfold accepts, accepted. split.
  - intros (p & P). eapply path_run; eauto; [apply neutral_agrees|apply (tl_start _ _ _ _ TL)].
  - intros R. eapply run_path; eauto; [apply neutral_agrees|apply (tl_start _ _ _ _ TL)].
Qed.

Lemma loaded_state : forall q off, nth_error offsets q = Some off -> good_state T off /\
  forall i t, has_transition T off i t -> good_transition T t /\ (symIn t <> FINAL -> exists q', nth_error offsets q' = Some (Z.to_nat (targetState t))).
Proof.
  pose proof (sl_small _ _ _ _ SL) as SM. pose proof (sl_fn _ _ _ _ SL) as FN. pose proof (sl_unknown _ _ _ _ SL) as UN.
  intros q off Q. split; [eapply tl_state; eauto|]. intros i t H. destruct (tl_from _ _ _ _ TL q off i t Q H) as (it & I & <- & C).
  destruct it as [q0|q0 q' s o]; cbn [item_cell] in C; [split; [left; auto|congruence]|].
  destruct C as (ks & ko & off' & K1 & K2 & K3 & E1 & E2 & E3). split.
  + right. assert (ks < length D)%nat by (apply nth_error_Some; congruence). rewrite E1, E2, E3, UN, !Nat2Z.id. conjs; try lia.
    * intros B. pose proof (sl_kind _ _ _ _ SL _ _ K1) as X. destruct s as [|op f v|c|y]; [lia| |lia|lia].
      destruct X as (_ & d & X & (fi & vi & -> & X1 & X2)). eexists. split; [exact X|]. cbn [ofv_feature ofv_value]. split; [|lia].
      rewrite (sl_features _ _ _ _ SL). apply index_of_some in X1. apply nth_error_Some. congruence.
    * intros _. eexists. apply (sl_string _ _ _ _ SL _ _ K2).
  + intros _. exists q'. rewrite E3, Nat2Z.id. auto.
Qed.

Lemma loaded_good : good_transducer T.
Proof.
  pose proof (sl_small _ _ _ _ SL) as SM. pose proof (sl_fn _ _ _ _ SL) as FN. pose proof (sl_unknown _ _ _ _ SL) as UN. unfold good_transducer. conjs; try (unfold FINAL; lia).
  - intros c z S. destruct (sl_letter _ _ _ _ SL _ _ S) as (k & -> & K). split; [apply (sl_kind _ _ _ _ SL _ _ K)|]. rewrite UN.
    assert (k < length D)%nat by (apply nth_error_Some; congruence). lia.
  - apply (sl_zero _ _ _ _ SL).
  - exists (fun off => exists q, nth_error offsets q = Some off). split; [exists 0%nat; apply (tl_start _ _ _ _ TL)|].
    intros off (q & Q). eapply loaded_state; eauto.
Qed.
End PATHS.

(** ** Everything together *)

Definition unweighted (A : list item) : list (item * Z) := map (fun i => (i, 0)) A.
Lemma unweighted_items : forall A, map fst (unweighted A) = A.
Proof. intros A. unfold unweighted. rewrite map_map. apply map_id. Qed.
Lemma unweighted_lines : forall A, map (fun line => (line, 0)) (map line_of A) = map wline (unweighted A).
Proof. intros A. unfold unweighted. rewrite !map_map. reflexivity. Qed.

Lemma compiled : forall A file, fitting A -> voikkovfstc false (map line_of A) = Some file ->
  exists T, load file = Ok (Loaded T) /\ good_transducer T /\ forall w out, (exists p, accepts T w p out) <-> accepted A w out.
Proof.
  intros A file FIT E. unfold voikkovfstc, main_vfstc in E. rewrite unweighted_lines in E. destruct (read_lines (map wline (unweighted A)) [[]] []) as [[syms states]|] eqn:R; [|discriminate].
  assert (Forall proper_symbol (symbols_of A)) as PR by apply FIT.
  apply (read_lines_ok (unweighted A) [] _ _ _ _ was_read_start) in R; [|rewrite unweighted_items; inversion PR; auto]. cbn [app] in R.
  pose proof (wr_syms _ _ _ R) as WS. rewrite unweighted_items in WS.
  destruct (sorted_symbols A syms FIT (wr_nodup _ _ _ R) WS) as (SM & F & L & G & ED & PD & CF & CL & CG & NL & ND).
  unfold compile in E. cbv iota zeta in E.
  match type of E with match ?x with _ => _ end = _ => destruct x as [bytes|] eqn:WA; [|discriminate] end. apply some_inj in E. subst file.
  assert (Z.of_nat (length (Epsilon :: F ++ L ++ G)) < 65536) as SM2.
  { rewrite <- (map_length text (Epsilon :: F ++ L ++ G)), <- ED, map_length, <- (Permutation_length (sort_perm (with_codes syms))), with_codes_length. auto. }
  destruct (load_whole F L G bytes PD CF CL CG NL ND SM2) as (O & fs & vs & K & GR & LOAD). rewrite ED. rewrite LOAD. eexists. split; [reflexivity|].
  assert (Forall proper_symbol (Epsilon :: F ++ L ++ G)) as PD' by (constructor; [exact I|auto]).
  match goal with |- good_transducer ?x /\ _ => set (T := x) end.
  pose proof (loaded_symbols F L G O fs vs (bytes_cells bytes) CF CL CG NL ND SM2 K GR) as SL. fold T in SL.
  pose proof (loaded_table (unweighted A) syms states (Epsilon :: F ++ L ++ G) bytes T) as TL. rewrite unweighted_items in TL. specialize (TL FIT R SM ED PD' WA eq_refl).
  split; [eapply loaded_good; eauto|]. intros. eapply same_meaning; eauto.
Qed.
