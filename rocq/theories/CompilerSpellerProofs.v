(** * Looking up words in tables where every step reads a letter. *)
From Coq Require Import Permutation Sorted.
From Verif Require Import Base BaseFacts FstModel FstFileModel FstSpec FstProofs FstPaths FstLookup WfstModel WfstSpec WfstProofs WfstPaths WfstLookup
  VfstModel VfstSpec VfstProofs Utf8Spec CompilerModel CompilerSpec CompilerSymbols CompilerReading CompilerLoading CompilerTable CompilerProofs CompilerWeights CompilerSpellerSpec CharModel CharProofs.

(** Every transition is final or reads a letter, no state has two transitions for
    one letter, and what a transition writes is short. *)
Record reads_letters (W : wtransducer) (st : nat -> Prop) (short : nat) : Prop := mk_rl {
  rl_start : st 0%nat;
  rl_next : forall q i c, st q -> has_wtransition W q i c -> w_symIn c <> 0xFFFFFFFF -> st (Z.to_nat (w_target c));
  rl_letter : forall q i c, st q -> has_wtransition W q i c -> w_symIn c <> 0xFFFFFFFF -> w_firstNormalChar W <= w_symIn c;
  rl_one : forall q i j a b, st q -> has_wtransition W q i a -> has_wtransition W q j b -> w_symIn a <> 0xFFFFFFFF -> w_symIn a = w_symIn b -> i = j;
  rl_short : forall q i c, st q -> has_wtransition W q i c -> w_symIn c <> 0xFFFFFFFF ->
    exists str, 0 <= outsym (forget W) i /\ nth_error (symbolToString (forget W)) (Z.to_nat (outsym (forget W) i)) = Some str /\ (length str <= short)%nat
}.

Section LETTERS.
Variable W : wtransducer.
Variable states : nat -> Prop.
Variable word : list Z.
Local Notation T := (forget W).
Hypothesis Wnormal : 0 < w_firstNormalChar W < FINAL.
Hypothesis Wsymbols : forall c s, find_symbol (w_stringToSymbol W) c = Some s -> w_firstNormalChar W <= s < Z.of_nat (length (w_symbolToString W)).
Hypothesis Wunknown : w_firstNormalChar W <= Z.of_nat (length (w_symbolToString W)).
Hypothesis Wepsilon : nth_error (w_symbolToString W) 0 = Some [].
Hypothesis Wstates : forall q, states q -> good_wstate W q /\
  forall i c, has_wtransition W q i c -> good_wtransition W c /\ (w_symIn c <> 0xFFFFFFFF -> states (Z.to_nat (w_target c))).
Variable st : nat -> Prop.
Variable short : nat.
Hypothesis RL : reads_letters W st short.
Variables len size : nat.

Local Notation in_state := (in_state T states word).
Local Notation act := (act T word false).

(** What a step on a letter does. *)
Lemma act_letter : forall q i c fl pos fl' pos', st q -> states q -> has_wtransition W q i c -> act fl pos (forget_weight c) = Some (Some (fl', pos')) ->
  w_symIn c <> 0xFFFFFFFF /\ pos' = S pos /\ (pos < length word)%nat /\ insym W word pos = w_symIn c.
Proof.
  intros q i c fl pos fl' pos' S1 S2 H A. destruct (Wstates q S2) as [_ G]. destruct (G i c H) as [(_ & SI & _) _].
  unfold FstProofs.act, forget_weight in A. cbn [symIn] in A. destruct (Z.eqb_spec (w_symIn c) 0xFFFFFFFF) as [E|E].
  - rewrite Z.eqb_refl in A. destruct (Nat.eqb pos (length word) || false); discriminate.
  - split; auto. destruct (Z.eqb_spec (w_symIn c) FINAL); [unfold FINAL in *; lia|]. pose proof (rl_letter _ _ _ RL _ _ _ S1 H E) as N. change (firstNormalChar T) with (w_firstNormalChar W) in A.
    replace (w_firstNormalChar W <=? w_symIn c) with true in A by lia. unfold insym. destruct (nth_error word pos) as [x|] eqn:X; [|discriminate].
    destruct (Z.eqb_spec (input_symbol T x) (w_symIn c)); [|discriminate]. injection A as _ <-. conjs; auto. apply nth_error_Some. congruence.
Qed.

(** After such a step nothing else can be done in that state. *)
Lemma spent : forall f i c fl pos, in_state f -> st (fr_state f) -> wtopscan W word f = Some (i, c, Some (fl, pos)) ->
  wtopscan W word (set_ct f (S i)) = None /\ in_state (set_ct f (S i)) /\ has_wtransition W (fr_state f) i c /\ w_symIn c <> 0xFFFFFFFF /\
  pos = S (fr_pos f) /\ (fr_pos f < length word)%nat.
Proof.
  intros f i c fl pos I S1 E. destruct (wtopscan_some W states word Wstates _ _ _ _ I E) as (A & B & C & D1 & D2).
  destruct (act_letter _ _ _ _ _ _ _ S1 (proj1 I) B C) as (N & -> & PW & IS). conjs; auto.
  destruct (wtopscan W word (set_ct f (S i))) as [[[j d] a]|] eqn:X; auto. exfalso.
  destruct (wtopscan_some W states word Wstates _ _ _ _ D1 X) as (A' & B' & C' & _). cbn [set_ct fr_ct fr_state fr_flags fr_pos] in *.
  destruct a as [[fl2 pos2]|].
  - destruct (act_letter _ _ _ _ _ _ _ S1 (proj1 I) B' C') as (N' & _ & _ & IS'). assert (i = j) by (eapply (rl_one _ _ _ RL); eauto; congruence). lia.
  - unfold FstProofs.act in C'. destruct (symIn (forget_weight d) =? FINAL).
    + replace (Nat.eqb (fr_pos f) (length word)) with false in C' by (symmetry; apply Nat.eqb_neq; lia). discriminate.
    + destruct (firstNormalChar T <=? symIn (forget_weight d)).
      * destruct (nth_error word (fr_pos f)); [|discriminate]. destruct (input_symbol T z =? symIn (forget_weight d)); discriminate.
      * destruct (symIn (forget_weight d) =? 0); [discriminate|]. destruct (nth_error (symbolToDiacritic T) _); [|discriminate]. destruct (nth_error (fr_flags f) _); [|discriminate].
        destruct (flag_operation _ _) as [[?|]|]; discriminate.
Qed.

Definition done (g : frame) : Prop :=
  wtopscan W word (set_ct g (S (fr_ct g))) = None /\
  exists str, 0 <= outsym T (fr_ct g) /\ nth_error (symbolToString T) (Z.to_nat (outsym T (fr_ct g))) = Some str /\ (length str <= short)%nat.

Lemma goes_up : forall r n f reached, Forall done r -> wtopscan W word f = None -> (length r < n)%nat -> exists fr m, wasearch n W word len size f r reached = (WEnd, fr, m).
Proof.
  induction r as [|g r IH]; intros n f reached F E L; (destruct n as [|n]; [lia|]); cbn [wasearch]; rewrite E.
  - eauto.
  - inversion F as [|? ? [D1 D2] F']; subst. apply IH; auto. cbn [length] in L. lia.
Qed.

Lemma outputs_fit : forall syms out, (forall s, In s syms -> exists str, 0 <= s /\ nth_error (symbolToString T) (Z.to_nat s) = Some str /\ (length str <= short)%nat) ->
  (length out + short * length syms + 1 < len)%nat -> exists out', write_output T syms len out = Ok (Some out').
Proof.
  induction syms as [|s syms IH]; intros out F L; cbn [write_output].
  - replace (length out <? len)%nat with true by (symmetry; apply Nat.ltb_lt; lia). eauto.
  - destruct (F s (or_introl eq_refl)) as (str & P & N & B). replace (s <? 0) with false by lia. unfold rd. rewrite N. cbn [bind]. cbn [length] in L.
    replace (len <=? length out + length str + 1)%nat with false by (symmetry; apply Nat.leb_gt; nia).
    apply IH; [intros x X; apply F; right; auto|]. rewrite app_length. nia.
Qed.

Lemma no_limit : forall k n f r reached, (k = length word - fr_pos f)%nat -> in_state f -> st (fr_state f) -> Forall done r -> length r = fr_pos f ->
  (2 * k + length r < n)%nat -> (length word + 2 < size)%nat -> (short * length word + 1 < len)%nat ->
  exists o f' r' m, wasearch n W word len size f r reached = (o, (f', r'), m) /\ ~ limit o /\
    ((exists out z, o = WFound out z) -> in_state f' /\ st (fr_state f') /\ Forall done r' /\ length r' = fr_pos f').
Proof.
  induction k as [|k IH]; intros n f r reached K I S1 F LR LN SZ LE; (destruct n as [|n]; [lia|]); cbn [wasearch];
    (destruct (wtopscan W word f) as [[[i c] [[fl pos]|]]|] eqn:E;
     [|destruct (outputs_fit (osyms T r) []) as (out & O);
        [unfold osyms; intros s X; apply (proj2 (in_rev _ _)) in X; apply in_map_iff in X; destruct X as (g & <- & X); rewrite Forall_forall in F; destruct (F g X) as [_ G]; exact G
        |unfold osyms; rewrite rev_length, map_length, LR; destruct I as (_ & _ & PL & _); cbn [length]; nia
        |rewrite O; do 4 eexists; split; [reflexivity|]; split; [unfold limit; intuition discriminate|]; intros _; cbn [set_ct fr_state fr_pos];
         destruct (wtopscan_some W states word Wstates _ _ _ _ I E) as (_ & _ & _ & D1 & _); auto]
     |destruct r as [|g r];
        [do 4 eexists; split; [reflexivity|]; split; [unfold limit; intuition discriminate|intros (? & ? & ?); discriminate]
        |inversion F as [|? ? [D1 D2] F']; subst; cbn [length] in *;
         destruct (goes_up r n (set_ct g (S (fr_ct g))) reached F' D1) as ([f2 r2] & m & ->); [lia|];
         do 4 eexists; split; [reflexivity|]; split; [unfold limit; intuition discriminate|intros (? & ? & ?); discriminate]]]).
  - exfalso. destruct (spent _ _ _ _ _ I S1 E) as (_ & _ & _ & _ & _ & X). lia.
  - destruct (spent _ _ _ _ _ I S1 E) as (X1 & X2 & X3 & X4 & -> & X6). replace (Nat.eqb (length r + 2) size) with false by (symmetry; apply Nat.eqb_neq; lia).
    apply IH; cbn [fr_pos fr_state]; try lia.
    + apply (wtopscan_next W states word Wsymbols Wstates _ _ _ _ _ I E).
    + apply (rl_next _ _ _ RL _ _ _ S1 X3 X4).
    + constructor; auto. split; [exact X1|]. cbn [set_ct fr_ct]. apply (rl_short _ _ _ RL _ _ _ S1 X3 X4).
    + cbn [length]. lia.
    + cbn [length]. lia.
Qed.
End LETTERS.

Lemma known_prefix_length : forall W word, (length (known_prefix W word) <= length word)%nat.
Proof. intros W word. induction word as [|c word IH]; cbn [known_prefix]; [auto|]. destruct (find_symbol (w_stringToSymbol W) c); cbn [length]; lia. Qed.

Lemma loops_enough : (511 < MAX_LOOP_COUNT)%nat.
Proof. apply Nat.ltb_lt. vm_compute. reflexivity. Qed.
Lemma buffer_enough : BUFFER_SIZE = 2000%nat.
Proof. apply Nat.eqb_eq. vm_compute. reflexivity. Qed.

Lemma first_search_ends : forall W st word loops size, good_weighted W -> reads_letters W st 7 -> (length word <= 255)%nat -> (511 < loops)%nat -> size = 2000%nat ->
  exists o f' r' m, wasearch loops W (known_prefix W word) size size (start (neutral (forget W))) [] 0 = (o, (f', r'), m) /\ ~ limit o.
Proof.
  intros W st word loops size (A1 & A2 & A3 & A4 & states & E0 & E1) RL L LE BE. pose proof (known_prefix_length W word) as KL.
  destruct (no_limit W states (known_prefix W word) A1 A2 E1 st 7 RL size size (length (known_prefix W word)) loops (start (neutral (forget W))) [] 0) as (o & f' & r' & m & X & Y & _).
  - cbn [start fr_pos]. lia.
  - apply wstart_in; auto.
  - apply (rl_start _ _ _ RL).
  - constructor.
  - reflexivity.
  - cbn [length]. lia.
  - lia.
  - lia.
  - eauto 7.
Qed.

Lemma never_gives_up : forall W st word, good_weighted W -> reads_letters W st 7 -> (length word <= 255)%nat -> ~ gives_up W word.
Proof.
  intros W st word G RL L (c & o & c' & n & P & N & LO).
  destruct (first_next W _ word G (wused_new W BUFFER_SIZE)) as (kn & c1 & o1 & c2 & m & fr & P1 & _ & _ & N1 & _ & FS); [pose proof buffer_word; unfold MAX_WORD in *; lia|].
  assert (c1 = c) by congruence. subst c1. assert (o1 = o) by congruence. subst o1.
  destruct (first_search_ends W st word MAX_LOOP_COUNT BUFFER_SIZE G RL L loops_enough buffer_enough) as (o2 & f2 & r2 & m2 & X & Y).
  assert (first_search W word = (o2, (f2, r2), m2)) as X' by exact X. clear X. apply Y. assert (o2 = o) by congruence. subst o2. exact LO.
Qed.

(** Nor while all the results are asked for. *)
Lemma lookup_goes_on : forall W (states st : nat -> Prop) word, 0 < w_firstNormalChar W < FINAL ->
  (forall c s, find_symbol (w_stringToSymbol W) c = Some s -> w_firstNormalChar W <= s < Z.of_nat (length (w_symbolToString W))) ->
  w_firstNormalChar W <= Z.of_nat (length (w_symbolToString W)) -> nth_error (w_symbolToString W) 0 = Some [] ->
  (forall q, states q -> good_wstate W q /\ forall i c, has_wtransition W q i c -> good_wtransition W c /\ (w_symIn c <> 0xFFFFFFFF -> states (Z.to_nat (w_target c)))) ->
  reads_letters W st 7 -> (length word <= 255)%nat -> forall len, len = 2000%nat ->
  forall c results e c', wlookup W len c results e c' -> forall f r, wc_size c = 2000%nat -> wrepresents W states word c f r ->
    in_state (forget W) states word f -> st (fr_state f) -> Forall (done W word 7) r -> length r = fr_pos f ->
    forall o, e = Some o -> ~ limit o.
Proof.
  intros W states st word A1 A2 A3 A4 E1 RL L len LEN c results e c' LK. pose proof loops_enough as LE.
  induction LK as [c|c out w n c1 results e c2 N LK IH|c e n c1 N NF]; intros f r SZ RP I S F LR o EO; [discriminate| |].
  - destruct (wnext_spec W states A1 A2 A3 A4 E1 word len c f r) as (o1 & f1 & r1 & n1 & c1' & X1 & X2 & X3 & X4 & X5); auto; [lia|].
    assert (o1 = WFound out w) by congruence. subst o1. assert (c1' = c1) by congruence. subst c1'.
    destruct (no_limit W states word A1 A2 E1 st 7 RL len (wc_size c) (length word - fr_pos f) MAX_LOOP_COUNT f r (fr_pos f)) as (o2 & f2 & r2 & m2 & Y1 & Y2 & Y3); auto; try lia.
    { destruct I as (_ & _ & PL & _). lia. }
    assert (o2 = WFound out w) by congruence. assert (f2 = f1) by congruence. assert (r2 = r1) by congruence. subst o2 f2 r2. destruct Y3 as (Z1 & Z2 & Z3 & Z4); eauto.
    eapply IH; eauto; [congruence|]. apply X5. discriminate.
  - apply some_inj in EO. subst e.
    destruct (wnext_spec W states A1 A2 A3 A4 E1 word len c f r) as (o1 & f1 & r1 & n1 & c1' & X1 & X2 & X3 & X4 & X5); auto; [lia|].
    assert (o1 = o) by congruence. subst o1.
    destruct (no_limit W states word A1 A2 E1 st 7 RL len (wc_size c) (length word - fr_pos f) MAX_LOOP_COUNT f r (fr_pos f)) as (o2 & f2 & r2 & m2 & Y1 & Y2 & Y3); auto; try lia.
    { destruct I as (_ & _ & PL & _). lia. }
    assert (o2 = o) by congruence. subst o2. exact Y2.
Qed.

Lemma never_stops_early : forall W st word, good_weighted W -> reads_letters W st 7 -> (length word <= 255)%nat -> ~ stops_early W word.
Proof.
  intros W st word (A1 & A2 & A3 & A4 & states & E0 & E1) RL L (c & results & o & c' & P & LK & LO). revert LO.
  set (low := voikko_set_case CT_ALL_LOWER word) in *. assert (length low <= 255)%nat as LL by (unfold low; rewrite set_case_length; auto).
  pose proof buffer_enough as BE. pose proof (known_prefix_length W low) as KL.
  destruct (wprepare_spec W states A2 E0 E1 (new_wconfiguration (w_featureCount W) BUFFER_SIZE) low) as (kn & c1 & P1 & P2 & P3 & P4).
  - apply (new_wsized W states); auto. apply buffer_two.
  - change (wc_size (new_wconfiguration (w_featureCount W) BUFFER_SIZE)) with BUFFER_SIZE. pose proof buffer_word. unfold MAX_WORD in *. lia.
  - assert (c1 = c) by congruence. subst c1.
    eapply (lookup_goes_on W states st (known_prefix W low) A1 A2 A3 A4 E1 RL ltac:(lia) BUFFER_SIZE BE c results (Some o) c' LK); [|exact P4| | | | |reflexivity].
    + rewrite P2. exact BE.
    + apply wstart_in; auto.
    + apply (rl_start _ _ _ RL).
    + constructor.
    + reflexivity.
Qed.

(** ** The table that is made of a list of words *)

Section COMPILED.
Variables (A : list (item * Z)) (D : list symbol) (fs vs : list (list Z)) (offsets : list nat) (W : wtransducer).
Hypothesis WL : word_list A.
Hypothesis SL : symbols_loaded D fs vs (forget W).
Hypothesis TL : wtable_loaded A D offsets W.
Hypothesis DISTINCT : forall k l s, nth_error D k = Some s -> nth_error D l = Some s -> k = l.
Definition placed_state (off : nat) : Prop := exists q, nth_error offsets q = Some off.

Lemma arc_cell : forall off i c, placed_state off -> has_wtransition W off i c -> w_symIn c <> 0xFFFFFFFF ->
  exists q q' x o z ks ko off', In (Arc q q' (Letter x) o, z) A /\ nth_error offsets q' = Some off' /\ nth_error D ks = Some (Letter x) /\ nth_error D ko = Some o /\
    w_symIn c = Z.of_nat ks /\ w_symOut c = Z.of_nat ko /\ w_target c = Z.of_nat off' /\ (length (written o) <= 7)%nat.
Proof.
  intros off i c (q & Q) H N. destruct (wtl_from _ _ _ _ TL q off i c Q H) as ([[q0|q0 q' s o] z] & I & S & _ & C); cbn [fst] in C; [contradiction|].
  destruct C as (ks & ko & off' & K1 & K2 & K3 & E1 & E2 & E3). destruct WL as [WL1 _]. destruct (WL1 _ _ _ _ _ I) as [(x & ->) SH]. exists q0, q', x, o, z, ks, ko, off'. conjs; auto.
Qed.

Lemma reads_compiled : reads_letters W placed_state 7.
Proof.
  pose proof (wtl_table _ _ _ _ TL) as TT. constructor.
  - exists 0%nat. apply (tl_start _ _ _ _ TT).
  - intros off i c P H N. destruct (arc_cell off i c P H N) as (q & q' & x & o & z & ks & ko & off' & I & K3 & K1 & K2 & E1 & E2 & E3 & SH). rewrite E3, Nat2Z.id. exists q'. auto.
  - intros off i c P H N. destruct (arc_cell off i c P H N) as (q & q' & x & o & z & ks & ko & off' & I & K3 & K1 & K2 & E1 & E2 & E3 & SH).
    pose proof (sl_kind _ _ _ _ SL _ _ K1) as [X _]. rewrite E1. exact X.
  - intros off i j a b (q & Q) H1 H2 N E. destruct (Nat.eq_dec i j) as [|NE]; auto. exfalso.
    destruct (wtl_apart _ _ _ _ TL q off i j a b Q H1 H2 NE) as (k & l & [it1 z1] & [it2 z2] & KL & X1 & X2 & S1 & S2 & [_ C1] & [_ C2]). unfold wsource in S1, S2. cbn [fst] in *.
    destruct it1 as [q0|q0 q' s o]; [contradiction|]. destruct it2 as [q0'|q0' q'' s' o']; [congruence|]. cbn [source] in *. subst q0 q0'.
    destruct C1 as (ks & ko & off' & K1 & K2 & K3 & E1 & E2 & E3). destruct C2 as (ks' & ko' & off'' & K1' & K2' & K3' & E1' & E2' & E3').
    assert (ks' = ks) by lia. subst ks'. assert (s' = s) by congruence. subst s'. destruct WL as [_ WL2]. apply KL. eapply WL2; eauto.
  - intros off i c P H N. destruct (arc_cell off i c P H N) as (q & q' & x & o & z & ks & ko & off' & I & K3 & K1 & K2 & E1 & E2 & E3 & SH).
    assert (nth_error (transitions (forget W)) i = Some (forget_weight c)) as X by (cbn [forget transitions]; rewrite nth_error_map, (proj1 H); reflexivity).
    unfold outsym. rewrite X. assert (symOut (forget_weight c) = Z.of_nat ko) as SO by exact E2. rewrite SO.
    pose proof (proj2 (written_ok D fs vs (forget W) SL ko o (forget_weight c) (written o) K2 SO) eq_refl) as WR. unfold writes in WR. rewrite SO in WR.
    destruct (firstNormalChar (forget W) <=? Z.of_nat ko).
    + exists (written o). conjs; auto. lia.
    + exists []. conjs; [lia| |cbn; lia]. apply (sl_zero _ _ _ _ SL).
Qed.

Lemma one_final_cell : one_final_each A -> forall off i j a b, placed_state off -> has_wtransition W off i a -> has_wtransition W off j b ->
  w_symIn a = 0xFFFFFFFF -> w_symIn b = 0xFFFFFFFF -> i = j.
Proof.
  intros OF off i j a b (q & Q) H1 H2 F1 F2. destruct (Nat.eq_dec i j) as [|NE]; auto. exfalso. pose proof (sl_small _ _ _ _ SL) as SM.
  destruct (wtl_apart _ _ _ _ TL q off i j a b Q H1 H2 NE) as (k & l & [it1 z1] & [it2 z2] & KL & X1 & X2 & S1 & S2 & [_ C1] & [_ C2]). unfold wsource in S1, S2. cbn [fst] in *.
  destruct it1 as [q0|q0 q' s o]. 2: { destruct C1 as (ks & ko & off' & K1 & K2 & K3 & E1 & E2 & E3). assert (ks < length D)%nat by (apply nth_error_Some; congruence). lia. }
  destruct it2 as [q0'|q0' q'' s' o']. 2: { destruct C2 as (ks & ko & off' & K1 & K2 & K3 & E1 & E2 & E3). assert (ks < length D)%nat by (apply nth_error_Some; congruence). lia. }
  cbn [source] in *. subst q0 q0'. apply KL. eapply OF; eauto.
Qed.

(** There is only one way to read a word. *)
Lemma one_path : one_final_each A -> forall off fl w p out rest, path (forget W) off fl w p out rest -> rest = [] -> placed_state off ->
  forall p' out', path (forget W) off fl w p' out' [] -> p' = p /\ out' = out.
Proof.
  intros OF. pose proof reads_compiled as RL. pose proof (sl_fn _ _ _ _ SL) as FN. pose proof (sl_small _ _ _ _ SL) as SM. cbn [forget firstNormalChar] in FN.
  assert (forall off i t, placed_state off -> has_transition (forget W) off i t -> exists c, has_wtransition W off i c /\ t = forget_weight c /\
    ((w_symIn c = 0xFFFFFFFF /\ symIn t = FINAL) \/ (w_symIn c <> 0xFFFFFFFF /\ symIn t = w_symIn c /\ w_firstNormalChar W <= symIn t < FINAL))) as CELL.
  { intros off i t P H. pose proof H as (last & big & _ & _ & _ & X). cbn [forget transitions] in X. rewrite nth_error_map in X. destruct (nth_error (wtransitions W) i) as [c|] eqn:E; [|discriminate].
    cbn in X. injection X as <-. exists c. assert (has_wtransition W off i c) as HW by (split; auto). conjs; auto. unfold forget_weight. cbn [symIn]. destruct (Z.eqb_spec (w_symIn c) 0xFFFFFFFF) as [F|F]; [auto|right].
    conjs; auto; [apply (rl_letter _ _ _ RL off i c); auto|]. destruct (arc_cell off i c P HW F) as (q & q' & x & o & z & ks & ko & off' & I & K3 & K1 & K2 & E1 & _).
    assert (ks < length D)%nat by (apply nth_error_Some; congruence). unfold FINAL. lia. }
  intros off fl w p out rest P. induction P as [off fl w i t H F|off fl c w i t p s out rest H F SY WR P IH|off fl w i t p s out rest H F WR P IH|off fl fl' w i t d p s out rest H B DI FS WR P IH];
    intros RE PL p' out' P'; destruct (CELL _ _ _ PL H) as (cl & HW & ET & CASES).
  - subst w. remember (@nil Z) as r eqn:R in P' at 2. inversion P' as [? ? ? j u H2 F2|? ? c2 w2 j u p2 s2 out2 ? H2 F2 SY2 WR2 P2|? ? ? j u p2 s2 out2 ? H2 F2 WR2 P2|? ? fl2 ? j u d2 p2 s2 out2 ? H2 B2 DI2 FS2 WR2 P2]; subst;
      destruct (CELL _ _ _ PL H2) as (cl2 & HW2 & -> & CASES2); try (exfalso; unfold FINAL in *; cbn [forget firstNormalChar] in *; lia).
    split; auto. f_equal. eapply one_final_cell; eauto; [destruct CASES2 as [[X _]|(_ & _ & X)]; [exact X|unfold FINAL in *; lia]|destruct CASES as [[X _]|(_ & _ & X)]; [exact X|unfold FINAL in *; lia]].
  - subst rest. inversion P' as [? ? ? j u H2 F2|? ? c2 w2 j u p2 s2 out2 ? H2 F2 SY2 WR2 P2|? ? ? j u p2 s2 out2 ? H2 F2 WR2 P2|? ? fl2 ? j u d2 p2 s2 out2 ? H2 B2 DI2 FS2 WR2 P2]; subst;
      destruct (CELL _ _ _ PL H2) as (cl2 & HW2 & -> & CASES2); try (exfalso; unfold FINAL in *; cbn [forget firstNormalChar] in *; lia).
    destruct CASES as [[_ X]|(N1 & X1 & _)]; [contradiction|]. destruct CASES2 as [[_ X]|(N2 & X2 & _)]; [contradiction|].
    assert (symIn (forget_weight cl) = symIn (forget_weight cl2)) as SI by (unfold symbol_of in *; congruence).
    assert (i = j) by (eapply (rl_one _ _ _ RL off); eauto; congruence). subst j. assert (cl2 = cl) by (destruct HW as [Y _], HW2 as [Y2 _]; congruence). subst cl2.
    destruct (IH eq_refl) with (p' := p2) (out' := out2) as [-> ->]; auto.
    { apply (rl_next _ _ _ RL off i cl); auto. }
    split; auto. f_equal. unfold writes in WR, WR2. destruct (firstNormalChar (forget W) <=? symOut (forget_weight cl)); congruence.
  - exfalso. unfold FINAL in *. lia.
  - exfalso. unfold FINAL in *. cbn [forget firstNormalChar] in B. lia.
Qed.
End COMPILED.
