(** * The deprecated interface: theorems *)
From Verif Require Import Base BaseFacts SetupModel SetupSpec SetupProofs CompatModel CompatSpec.

(** ** The language that is asked for *)

Fixpoint hyphened (i : nat) (v : list Z) : list Z :=
  match v with [] => [] | c :: r => (if Nat.eqb (i mod 8) 0 then [0x2D] else []) ++ c :: hyphened (S i) r end.

Lemma firstn_upd : forall (buf : list Z) p c, (p < length buf)%nat -> firstn (S p) (upd buf p c) = firstn p buf ++ [c].
Proof.
  induction buf as [|x buf IH]; intros p c L; cbn [length] in L; [lia|]. destruct p as [|p]; auto. cbn [upd].
  change (firstn (S (S p)) (x :: upd buf p c)) with (x :: firstn (S p) (upd buf p c)). rewrite IH by lia. auto.
Qed.

Lemma wr_in : forall A (buf : list A) i c, (i < length buf)%nat -> wr buf i c = Ok (upd buf i c).
Proof. intros A buf i c L. apply wr_ok. auto. Qed.

Lemma convert_loop_ok : forall v buf pos i, (pos + 2 * length v <= length buf)%nat ->
  exists buf', convert_loop buf pos i v = Ok (buf', (pos + length (hyphened i v))%nat) /\ length buf' = length buf /\
    firstn (pos + length (hyphened i v)) buf' = firstn pos buf ++ hyphened i v /\ (length (hyphened i v) <= 2 * length v)%nat.
Proof.
  induction v as [|c v IH]; intros buf pos i L; cbn [convert_loop hyphened length].
  { exists buf. rewrite Nat.add_0_r, app_nil_r. auto. }
  cbn [length] in L. unfold wr. destruct (Nat.eqb (i mod 8) 0); cbn [bind].
  - rewrite (proj2 (Nat.ltb_lt pos (length buf))) by lia. cbn [bind]. rewrite upd_length, (proj2 (Nat.ltb_lt (S pos) (length buf))) by lia. cbn [bind].
    destruct (IH (upd (upd buf pos 0x2D) (S pos) c) (S (S pos)) (S i)) as (buf' & E & L' & F & B); [rewrite !upd_length; lia|].
    exists buf'. rewrite E. cbn [app length]. rewrite !upd_length in L'.
    replace (S (S pos) + length (hyphened (S i) v))%nat with (pos + S (S (length (hyphened (S i) v))))%nat in * by lia. split; auto. split; auto. split; [|lia].
    rewrite F. rewrite firstn_upd by (rewrite upd_length; lia). rewrite firstn_upd by lia. rewrite <- !app_assoc. auto.
  - rewrite (proj2 (Nat.ltb_lt pos (length buf))) by lia. cbn [bind].
    destruct (IH (upd buf pos c) (S pos) (S i)) as (buf' & E & L' & F & B); [rewrite !upd_length; lia|].
    exists buf'. rewrite E. cbn [app length]. rewrite !upd_length in L'.
    replace (S pos + length (hyphened (S i) v))%nat with (pos + S (length (hyphened (S i) v)))%nat in * by lia. split; auto. split; auto. split; [|lia].
    rewrite F. rewrite firstn_upd by lia. rewrite <- !app_assoc. auto.
Qed.

Lemma hyphened_group : forall x r k j, (1 <= j <= 8)%nat -> (length x = 8 - j)%nat -> hyphened (8 * k + j) (x ++ r) = x ++ hyphened (8 * (k + 1)) r.
Proof.
  induction x as [|c x IH]; intros r k j J L; cbn [length] in L.
  - cbn [app]. f_equal. lia.
  - cbn [app hyphened]. assert (E : ((8 * k + j) mod 8 = j)%nat). { rewrite Nat.add_comm, Nat.mul_comm, Nat.mod_add by lia. apply Nat.mod_small. lia. }
    rewrite E. destruct (Nat.eqb_spec j 0); [lia|]. cbn [app]. f_equal. replace (S (8 * k + j)) with (8 * k + S j)%nat by lia. apply IH; lia.
Qed.
Lemma hyphened_short : forall x k j, (1 <= j)%nat -> (length x + j <= 8)%nat -> hyphened (8 * k + j) x = x.
Proof.
  induction x as [|c x IH]; intros k j J L; cbn [length] in L; auto. cbn [hyphened]. assert (E : ((8 * k + j) mod 8 = j)%nat). { rewrite Nat.add_comm, Nat.mul_comm, Nat.mod_add by lia. apply Nat.mod_small. lia. }
  rewrite E. destruct (Nat.eqb_spec j 0); [lia|]. cbn [app]. f_equal. replace (S (8 * k + j)) with (8 * k + S j)%nat by lia. apply IH; lia.
Qed.
Lemma hyphened_grouped : forall n v k, (length v <= n)%nat -> grouped v (hyphened (8 * k) v).
Proof.
  induction n as [|n IH]; intros v k L; [destruct v; [constructor|cbn in L; lia]|]. destruct v as [|c v]; [constructor|]. cbn [length] in L.
  assert (E : ((8 * k) mod 8 = 0)%nat) by (rewrite Nat.mul_comm; apply Nat.mod_mul; lia).
  cbn [hyphened]. rewrite E. cbn [Nat.eqb app]. replace (S (8 * k)) with (8 * k + 1)%nat by lia. destruct (le_lt_dec (length v) 7) as [S7|S7].
  - rewrite hyphened_short by lia. apply gr_last; [discriminate|cbn; lia].
  - rewrite <- (firstn_skipn 7 v). rewrite hyphened_group; [|lia|rewrite firstn_length_le; lia].
    apply (gr_more (c :: firstn 7 v) (skipn 7 v) (hyphened (8 * (k + 1)) (skipn 7 v))).
    + cbn [length]. rewrite firstn_length_le; lia.
    + intros X. apply (f_equal (@length Z)) in X. rewrite skipn_length in X. cbn in X. lia.
    + apply IH. rewrite skipn_length. lia.
Qed.
Lemma hyphened_filter : forall v i, filter (fun c => negb (c =? 0x2D)) (hyphened i v) = filter (fun c => negb (c =? 0x2D)) v.
Proof.
  induction v as [|c v IH]; intros i; auto. cbn [hyphened]. rewrite filter_app. destruct (Nat.eqb (i mod 8) 0); cbn [filter app negb Z.eqb]; rewrite ?IH; auto.
Qed.
Lemma hyphened_nul : forall v i, ~ In 0 v -> ~ In 0 (hyphened i v).
Proof.
  induction v as [|c v IH]; intros i N; auto. cbn [hyphened]. intros I. apply in_app_or in I as [I|[I|I]].
  - destruct (Nat.eqb (i mod 8) 0); [destruct I as [I|[]]; discriminate|destruct I].
  - apply N. left; auto.
  - eapply IH; [|exact I]. intros X. apply N. right; auto.
Qed.

Lemma convert_ok : forall garbage v, ~ In 0 v -> (2 * length v + 5 <= length garbage)%nat ->
  exists buf, convertVariantToBCP47 garbage v = Ok buf /\ length buf = (2 * length v + 5)%nat /\ cstr buf = wstr "fi-x" ++ hyphened 0 v.
Proof.
  intros garbage v N L. unfold convertVariantToBCP47. set (b0 := firstn (2 * length v + 5) garbage).
  assert (L0 : length b0 = (2 * length v + 5)%nat) by (apply firstn_length_le; auto).
  destruct b0 as [|g0 [|g1 [|g2 [|g3 [|g4 rest]]]]]; cbn [length] in L0; try lia. do 5 (rewrite wr_in by (cbn [length]; lia); cbn [bind upd]).
  destruct (convert_loop_ok v (0x66 :: 0x69 :: 0x2D :: 0x78 :: 0 :: rest) 4 0) as (buf' & -> & L' & F & B); [cbn [length]; lia|]. cbn [bind].
  cbn [length] in L'. assert (P : (4 + length (hyphened 0 v) < length buf')%nat) by lia. rewrite wr_in by exact P.
  eexists. split; [reflexivity|]. split; [rewrite upd_length; lia|].
  set (p := (4 + length (hyphened 0 v))%nat) in *. change (firstn 4 (0x66 :: 0x69 :: 0x2D :: 0x78 :: 0 :: rest)) with (wstr "fi-x") in F.
  pose proof (firstn_upd buf' p 0 P) as X. rewrite F in X. rewrite <- (firstn_skipn (S p) (upd buf' p 0)), X.
  assert (Nn : ~ In 0 (wstr "fi-x" ++ hyphened 0 v)). { intros I. apply in_app_or in I as [I|I]; [vm_compute in I; intuition discriminate|]. exact (hyphened_nul v 0 N I). }
  clear - Nn. induction (wstr "fi-x" ++ hyphened 0 v) as [|c l IH]; cbn [app cstr]; auto.
  destruct (Z.eqb_spec c 0) as [->|_]; [elim Nn; left; auto|]. f_equal. apply IH. intros I. apply Nn. right; auto.
Qed.

(** ** Tables *)

Section Tables.
Context {H : Type}.

(** A reachable table: absent, or five slots of which the first is unused. *)
Definition fine (t : table H) : Prop := t = None \/ exists a b c d, t = Some [None; a; b; c; d].

Lemma instances_fine : forall a b c d h (x : H), instances (Some [None; a; b; c; d]) h x <->
  (h = 1 /\ a = Some x) \/ (h = 2 /\ b = Some x) \/ (h = 3 /\ c = Some x) \/ (h = 4 /\ d = Some x).
Proof.
  intros a b c d h x. unfold instances. split.
  - intros (l & E & P & N). injection E as <-. destruct (Z.to_nat h) as [|[|[|[|[|n]]]]] eqn:Eh; cbn in N; try (destruct n; discriminate N); try discriminate N; injection N as ->.
    + left. split; auto. lia.
    + right; left. split; auto. lia.
    + right; right; left. split; auto. lia.
    + right; right; right. split; auto. lia.
  - intros [(-> & ->)|[(-> & ->)|[(-> & ->)|(-> & ->)]]]; eexists; (split; [reflexivity|split; [lia|reflexivity]]).
Qed.
Lemma instances_none : forall h (x : H), ~ instances None h x.
Proof. intros h x (l & E & _). discriminate. Qed.

Lemma free_fine : forall a b c d : option H, free_slot H [None; a; b; c; d] 4 1 =
  Ok (match a with None => Some 1%nat | Some _ => match b with None => Some 2%nat | Some _ => match c with None => Some 3%nat | Some _ => match d with None => Some 4%nat | Some _ => None end end end end).
Proof. intros [?|] [?|] [?|] [?|]; reflexivity. Qed.

Lemma language_call : forall garbage v, ~ In 0 v -> (2 * length v + 5 <= length garbage)%nat -> exists language,
  (if zlist_eqb [] v || zlist_eqb (wstr "default") v || zlist_eqb (wstr "fi_FI") v then Ok (wstr "fi")
   else buf <- convertVariantToBCP47 garbage v ;; Ok (cstr buf)) = Ok language /\ language_for v language.
Proof.
  intros garbage v N L. destruct (zlist_eqb [] v) eqn:E1; [apply zlist_eqb_eq in E1; eexists; split; [reflexivity|left; auto]|].
  destruct (zlist_eqb (wstr "default") v) eqn:E2; [apply zlist_eqb_eq in E2; eexists; split; [reflexivity|left; auto]|].
  destruct (zlist_eqb (wstr "fi_FI") v) eqn:E3; [apply zlist_eqb_eq in E3; eexists; split; [reflexivity|left; auto]|].
  apply zlist_eqb_neq in E1, E2, E3. cbn [orb]. destruct (convert_ok garbage v N L) as (buf & -> & _ & C). cbn [bind]. eexists. split; [reflexivity|].
  right. split; auto. exists (hyphened 0 v). split; auto. apply (hyphened_grouped (length v) v 0). auto.
Qed.

Lemma init_fine : forall t outcome garbage langcode cache path, fine t -> arguments_ok garbage langcode ->
  exists t' r, voikko_init_with_path H outcome t garbage langcode cache path = Ok (t', r) /\ fine t' /\ init_spec t t' outcome langcode cache path r.
Proof.
  intros t outcome garbage langcode cache path Ft (En & Nn).
  assert (Go : forall a b c d, (forall h x, instances t h x <-> instances (Some [None; a; b; c; d]) h x) ->
     findFreeSlotForHandle H t = (slot <- free_slot H [None; a; b; c; d] 4 1 ;; Ok ([None; a; b; c; d], slot)) ->
     exists t' r, voikko_init_with_path H outcome t garbage langcode cache path = Ok (t', r) /\ fine t' /\ init_spec t t' outcome langcode cache path r).
  { intros a b c d Same Ff. unfold voikko_init_with_path. rewrite Ff, free_fine. cbn [bind].
    set (slot := match a with None => Some 1%nat | Some _ => match b with None => Some 2%nat | Some _ => match c with None => Some 3%nat | Some _ => match d with None => Some 4%nat | Some _ => None end end end end).
    assert (Full : slot = None <-> full t).
    { unfold slot, full. split.
      - intros E h Hh. assert (Hc : h = 1 \/ h = 2 \/ h = 3 \/ h = 4) by lia. destruct a as [xa|]; [|discriminate]. destruct b as [xb|]; [|discriminate]. destruct c as [xc|]; [|discriminate]. destruct d as [xd|]; [|discriminate].
        destruct Hc as [->|[->|[->| ->]]]; eexists; apply Same, instances_fine; [left|right; left|right; right; left|right; right; right]; split; reflexivity.
      - intros F. destruct (F 1) as (x1 & I1); [lia|]. destruct (F 2) as (x2 & I2); [lia|]. destruct (F 3) as (x3 & I3); [lia|]. destruct (F 4) as (x4 & I4); [lia|].
        apply Same, instances_fine in I1. apply Same, instances_fine in I2. apply Same, instances_fine in I3. apply Same, instances_fine in I4.
        assert (a = Some x1) by intuition lia. assert (b = Some x2) by intuition lia. assert (c = Some x3) by intuition lia. assert (d = Some x4) by intuition lia. subst. auto. }
    assert (Fi : forall a b c d, fine (Some [None; a; b; c; d])) by (intros; right; eauto).
    assert (Un : unchanged t (Some [None; a; b; c; d])) by (intros h x; symmetry; apply Same).
    destruct slot as [n|] eqn:Es.
    2:{ eexists. eexists. split; [reflexivity|]. split; auto. apply init_full; auto. apply Full. auto. }
    assert (NF : ~ full t) by (rewrite <- Full; discriminate).
    destruct langcode as [v|].
    2:{ eexists. eexists. split; [reflexivity|]. split; auto. apply init_null; auto. }
    cbn [enough] in En. destruct (language_call garbage v Nn En) as (language & -> & Lf). cbn [bind].
    assert (Nb : (1 <= n <= 4)%nat) by (unfold slot in Es; destruct a, b, c, d; first [discriminate Es | injection Es as <-; lia]).
    destruct outcome as [x|e].
    - unfold wr. cbn [length]. rewrite (proj2 (Nat.ltb_lt n 5)) by lia. cbn [bind]. eexists. eexists. split; [reflexivity|].
      split; [assert (Hn : n = 1%nat \/ n = 2%nat \/ n = 3%nat \/ n = 4%nat) by lia; destruct Hn as [->|[->|[->| ->]]]; apply Fi|].
      eapply init_success; eauto.
      + intros y I. apply Same, instances_fine in I. unfold slot in Es. destruct a, b, c, d; try discriminate Es; injection Es as <-; intuition (discriminate || lia).
      + intros k Hk. assert (Ex : exists y, instances (Some [None; a; b; c; d]) k y); [|destruct Ex as (y & Y); exists y; apply Same; auto].
        assert (Hc : k = 1 \/ k = 2 \/ k = 3) by lia. unfold slot in Es.
        destruct a as [xa|]; [|injection Es as <-; lia]. destruct Hc as [->|[->| ->]]; [exists xa; apply instances_fine; left; auto| |].
        * destruct b as [xb|]; [|injection Es as <-; lia]. exists xb. apply instances_fine. right; left. auto.
        * destruct b as [xb|]; [|injection Es as <-; lia]. destruct c as [xc|]; [|injection Es as <-; lia]. exists xc. apply instances_fine. right; right; left. auto.
      + intros h y. rewrite Same, instances_fine. unfold slot in Es. destruct a as [xa|]; [destruct b as [xb|]; [destruct c as [xc|]; [destruct d as [xd|]; [discriminate Es|]|]|]|]; injection Es as <-;
          cbn [upd Z.of_nat Pos.of_succ_nat Pos.succ]; rewrite instances_fine; intuition (subst; try discriminate; try lia; auto; congruence).
    - unfold wr. cbn [length]. rewrite (proj2 (Nat.ltb_lt n 5)) by lia. cbn [bind]. eexists. eexists. split; [reflexivity|].
      assert (Eq : upd [None; a; b; c; d] n None = [None; a; b; c; d]).
      { unfold slot in Es. destruct a as [xa|]; [destruct b as [xb|]; [destruct c as [xc|]; [destruct d as [xd|]; [discriminate Es|]|]|]|]; injection Es as <-; reflexivity. }
      rewrite Eq. split; auto. eapply init_failure; eauto. }
  destruct Ft as [->|(a & b & c & d & ->)].
  - apply (Go None None None None); auto. intros h x. rewrite instances_fine. split; [intros I; destruct (instances_none _ _ I)|intuition discriminate].
  - apply (Go a b c d); auto. tauto.
Qed.

Lemma term_fine : forall t h, fine t -> t <> None \/ ~ 1 <= h <= 4 -> exists t' v c, voikko_terminate H t h = Ok (t', v, c) /\ fine t' /\
  ((exists x, instances t h x /\ v = 1 /\ c = [CallTerminate H x] /\ forall k y, instances t' k y <-> instances t k y /\ k <> h) \/
   ((forall x, ~ instances t h x) /\ v = 0 /\ c = [] /\ unchanged t t')).
Proof.
  intros t h Ft Hn. unfold voikko_terminate, MAX_HANDLES. destruct ((1 <=? h) && (h <? Z.of_nat 5)) eqn:R.
  - destruct Ft as [->|(a & b & c & d & ->)]; [destruct Hn; [congruence|lia]|].
    assert (Hc : h = 1 \/ h = 2 \/ h = 3 \/ h = 4) by lia.
    assert (Free : forall a b c d, exists t', freeHandlesIfPossible H [None; a; b; c; d] = Ok t' /\ fine t' /\ unchanged (Some [None; a; b; c; d]) t').
    { intros a0 b0 c0 d0. unfold freeHandlesIfPossible. destruct a0 as [?|]; [|destruct b0 as [?|]; [|destruct c0 as [?|]; [|destruct d0 as [?|]]]]; cbn; eexists; (split; [reflexivity|]).
      1-4: split; [right; eauto|intros ? ?; tauto].
      split; [left; auto|]. intros k y. rewrite instances_fine. split; [intros I; destruct (instances_none _ _ I)|intuition discriminate]. }
    assert (Un : forall l : table H, unchanged l l) by (intros ? ? ?; tauto).
    destruct Hc as [->|[->|[->| ->]]].
    1: change (rd [None; a; b; c; d] (Z.to_nat 1)) with (Ok a). 2: change (rd [None; a; b; c; d] (Z.to_nat 2)) with (Ok b).
    3: change (rd [None; a; b; c; d] (Z.to_nat 3)) with (Ok c). 4: change (rd [None; a; b; c; d] (Z.to_nat 4)) with (Ok d).
    all: cbn [bind].
    1: destruct a as [x|]. 3: destruct b as [x|]. 5: destruct c as [x|]. 7: destruct d as [x|].
    all: try (eexists; eexists; eexists; split; [reflexivity|]; split; [right; eauto|]; right; split; [intros y I; apply instances_fine in I; intuition (discriminate || lia)|auto]; fail).
    all: rewrite wr_in by (cbn; lia); cbn [bind].
    1: change (upd [None; Some x; b; c; d] (Z.to_nat 1) None) with [None; None; b; c; d]. 2: change (upd [None; a; Some x; c; d] (Z.to_nat 2) None) with [None; a; None; c; d].
    3: change (upd [None; a; b; Some x; d] (Z.to_nat 3) None) with [None; a; b; None; d]. 4: change (upd [None; a; b; c; Some x] (Z.to_nat 4) None) with [None; a; b; c; None].
    1: destruct (Free None b c d) as (t' & -> & Ft' & U). 2: destruct (Free a None c d) as (t' & -> & Ft' & U). 3: destruct (Free a b None d) as (t' & -> & Ft' & U). 4: destruct (Free a b c None) as (t' & -> & Ft' & U).
    all: cbn [bind]; eexists; eexists; eexists; split; [reflexivity|]; split; [exact Ft'|]; left; exists x; split; [apply instances_fine; tauto|]; split; [reflexivity|]; split; [reflexivity|].
    all: intros k y; rewrite (U k y), !instances_fine; intuition (discriminate || lia || auto).
  - eexists. eexists. eexists. split; [reflexivity|]. split; auto. right. split; [|split; auto; split; auto; intros ? ?; tauto].
    intros x I. destruct Ft as [->|(a & b & c & d & ->)]; [destruct (instances_none _ _ I)|]. apply instances_fine in I. lia.
Qed.
End Tables.

(** Every operation of a client on a reachable table leads to a fine one. *)
Lemma step_fine : forall H (t t' : table H) o, fine t ->
  op_ok o -> step t o t' -> fine t'.
Proof.
  intros H t t' [outcome garbage langcode cache path|h] Ft A St; cbn in St.
  - destruct St as (r & E). destruct (init_fine t outcome garbage langcode cache path Ft A) as (u & r' & E' & Fu & _). congruence.
  - destruct St as (v & c & E). destruct t as [l|].
    + destruct (term_fine (Some l) h Ft) as (u & v' & c' & E' & Fu & _); [left; discriminate|]. congruence.
    + unfold voikko_terminate in E. destruct (_ && _); [discriminate|]. injection E as <- _ _. auto.
Qed.
Lemma reachable_fine : forall H (t : table H), reachable t -> fine t.
Proof. intros H t R. induction R as [|t o t' R IH A St]; [left; auto|]. eapply step_fine; eauto. Qed.

(** ** C33 *)

(** In every history, initialisation is well defined and does one of four things:
    it refuses a fifth instance, refuses the null language, gives the least free
    handle to the new instance, or reports the failure of the new interface; all
    other handles keep their instances. *)
Theorem C33_init : forall H (t : table H) outcome garbage langcode cache path, reachable t -> arguments_ok garbage langcode ->
  exists t' r, voikko_init_with_path H outcome t garbage langcode cache path = Ok (t', r) /\ reachable t' /\ init_spec t t' outcome langcode cache path r.
Proof.
  intros H t outcome garbage langcode cache path R A. destruct (init_fine t outcome garbage langcode cache path (reachable_fine _ _ R) A) as (t' & r & E & _ & Sp).
  exists t', r. split; auto. split; auto. eapply (reach_step t (Init outcome garbage langcode cache path)); eauto. exists r. auto.
Qed.
Print Assumptions C33_init.

(** The table of the examples: two instances, numbered 7 and 8. *)
Definition two : table Z := Some [None; Some 7; Some 8; None; None].
Example two_reachable : reachable two.
Proof.
  eapply (reach_step (Some [None; Some 7; None; None; None]) (Init (inl 8) (repeat 0 100) (Some (wstr "medicine")) 0 None)).
  - eapply (reach_step None (Init (inl 7) (repeat 0 100) (Some (wstr "")) 0 None)); [constructor| |eexists; vm_compute; reflexivity].
    split; [vm_compute; lia|]. intros [].
  - split; [vm_compute; lia|]. intros I. vm_compute in I. intuition discriminate.
  - eexists. vm_compute. reflexivity.
Qed.
Example C33_init_ex : exists t' r, voikko_init_with_path Z (inl 9) two (repeat 1 100) (Some (wstr "somethingelse")) 3 None = Ok (t', r)
  /\ r = mkInit Z None (Some 3%nat) [CallInit Z (wstr "fi-x-somethin-gelse") None; CallSetCacheSize Z 9 3].
Proof. eexists. eexists. split; vm_compute; reflexivity. Qed.

(** While some instance exists, terminating is well defined: a live handle is
    released, its instance and no other is terminated; anything else is refused
    without effect. *)
Theorem C33_terminate_partial : forall H (t : table H) h k0 x0, reachable t -> instances t k0 x0 ->
  exists t' v c, voikko_terminate H t h = Ok (t', v, c) /\ reachable t' /\
  ((exists x, instances t h x /\ v = 1 /\ c = [CallTerminate H x] /\ forall k y, instances t' k y <-> instances t k y /\ k <> h) \/
   ((forall x, ~ instances t h x) /\ v = 0 /\ c = [] /\ unchanged t t')).
Proof.
  intros H t h k0 x0 R I. assert (N : t <> None) by (intros ->; exact (instances_none _ _ I)).
  destruct (term_fine t h (reachable_fine _ _ R) (or_introl N)) as (t' & v & c & E & _ & Sp). exists t', v, c. split; auto. split; auto.
  eapply (reach_step t (Terminate h)); cbn; eauto.
Qed.
Print Assumptions C33_terminate_partial.
Example C33_terminate_ex : instances two 1 7 /\ voikko_terminate Z two 1 = Ok (Some [None; None; Some 8; None; None], 1, [CallTerminate Z 7])
  /\ voikko_terminate Z two 3 = Ok (two, 0, []).
Proof. split; [eexists; split; [reflexivity|split; [lia|reflexivity]]|]. split; vm_compute; reflexivity. Qed.

(** Without instances it is not: the null table is read before the first
    initialisation and after the last termination. *)
Theorem C33_terminate_refuted :
  (exists t : table Z, reachable t /\ t = None /\ voikko_terminate Z t 1 = UB) /\
  (exists t t' t'' : table Z, reachable t /\ (exists c, voikko_terminate Z t 1 = Ok (t', 1, c)) /\ voikko_terminate Z t' 1 = UB).
Proof.
  split; [exists None; split; [constructor|]; split; reflexivity|].
  exists (Some [None; Some 7; None; None; None]), None, None. split; [|split; [eexists; vm_compute; reflexivity|reflexivity]].
  eapply (reach_step None (Init (inl 7) (repeat 0 100) (Some (wstr "")) 0 None)); [constructor| |eexists; vm_compute; reflexivity].
  split; [vm_compute; lia|]. intros [].
Qed.
Print Assumptions C33_terminate_refuted.

(** Handles of instances are 1, 2, 3 or 4, each has one instance, and the other
    functions find that instance. *)
Theorem C33_handles : forall H (t : table H), reachable t ->
  (forall h x, instances t h x -> 1 <= h <= 4) /\
  (forall h x y, instances t h x -> instances t h y -> x = y) /\
  (forall h x, instances t h x -> instance_of H t h = Ok (Some x)).
Proof.
  intros H t R. apply reachable_fine in R. split; [|split].
  - intros h x I. destruct R as [->|(a & b & c & d & ->)]; [destruct (instances_none _ _ I)|]. apply instances_fine in I. lia.
  - intros h x y (l & -> & _ & A) (l' & E & _ & B). injection E as <-. congruence.
  - intros h x (l & -> & P & A). unfold instance_of. destruct (Z.leb_spec 0 h); [|lia]. apply rd_ok. auto.
Qed.
Print Assumptions C33_handles.
Example C33_handles_ex : instance_of Z two 2 = Ok (Some 8). Proof. vm_compute. reflexivity. Qed.

(** A handle that is not live gives the null pointer, or is outside the table. *)
Theorem C33_dead_handle_refuted : exists t : table Z, reachable t /\ instance_of Z t 3 = Ok None /\ instance_of Z t 5 = UB.
Proof. exists two. split; [exact two_reachable|]. split; vm_compute; reflexivity. Qed.
Print Assumptions C33_dead_handle_refuted.

(** The language that is asked for is the Finnish variant of the given name,
    whatever its length, and the buffer for it is large enough. *)
Theorem C33_language : forall garbage v, ~ In 0 v -> (2 * length v + 5 <= length garbage)%nat -> v <> [] ->
  exists buf y, convertVariantToBCP47 garbage v = Ok buf /\ cstr buf = wstr "fi-x" ++ y /\ grouped v y /\
   reads (cstr buf) (mkTag (wstr "fi") [] (lowercaseTagPart (filter (fun c => negb (c =? 0x2D)) v))).
Proof.
  intros garbage v N L V. destruct (convert_ok garbage v N L) as (buf & E & _ & C). exists buf, (hyphened 0 v). split; auto. split; auto.
  split; [apply (hyphened_grouped (length v) v 0); auto|]. rewrite C. destruct v as [|c v]; [congruence|].
  assert (X : hyphened 0 (c :: v) = 0x2D :: c :: hyphened 1 v) by reflexivity. pose proof (hyphened_filter (c :: v) 0) as F. rewrite X in F. cbn [filter Z.eqb negb] in F.
  rewrite X. change (wstr "fi-x" ++ 0x2D :: c :: hyphened 1 v) with (wstr "fi" ++ XP ++ c :: hyphened 1 v). unfold reads. rewrite read_private.
  - cbn [filter]. change (filter (fun c0 : Z => negb (c0 =? 45)) (c :: hyphened 1 v)) with (if negb (c =? 45) then c :: filter (fun c0 : Z => negb (c0 =? 45)) (hyphened 1 v) else filter (fun c0 : Z => negb (c0 =? 45)) (hyphened 1 v)).
    f_equal. f_equal. rewrite <- F. reflexivity.
  - rewrite <- (app_nil_r (wstr "fi")). apply clean_nodash; [|exact I]. intros I0. vm_compute in I0. intuition discriminate.
Qed.
Print Assumptions C33_language.
Example C33_language_ex : exists buf, convertVariantToBCP47 (repeat 0x41 50) (wstr "Something") = Ok buf /\ cstr buf = wstr "fi-x-Somethin-g"
  /\ reads (cstr buf) (mkTag (wstr "fi") [] (wstr "something")).
Proof. eexists. split; [vm_compute; reflexivity|]. split; vm_compute; reflexivity. Qed.

(** String options: only the encoding UTF-8. *)
Theorem C33_string_option : forall o v, voikko_set_string_option o v = 1 <-> o = 2 /\ v = Some (wstr "UTF-8").
Proof.
  intros o v. unfold voikko_set_string_option. destruct v as [s|]; [|split; [discriminate|intros (_ & X); discriminate]].
  destruct (Z.eqb_spec o 2) as [->|N]; cbn [negb]; [|split; [discriminate|intros (X & _); contradiction]].
  destruct (zlist_eqb s (wstr "UTF-8")) eqn:E; [apply zlist_eqb_eq in E; subst; tauto|]. apply zlist_eqb_neq in E. split; [discriminate|]. intros (_ & X). congruence.
Qed.
Print Assumptions C33_string_option.
