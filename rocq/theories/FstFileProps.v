(** * Transducer files: property C40. *)
From Verif Require Import Base BaseFacts Utf8Model FstModel FstFileModel FstFileProofs.

(** Inputs of the compiler whose numbers fit in the file. *)
Definition fits (symbols : list (list Z)) (states : list (list atrans)) : Prop :=
  Z.of_nat (length symbols) < 2 ^ 16 /\ Forall (Forall (fun b => 0 < b < 256)) symbols /\
  Forall (fun ts => Z.of_nat (length ts) <= 2 ^ 32) states.

(** Loading the file compiled for machines of the other byte order gives the
    same transducer (or fails in the same way) as loading the one compiled for
    this machine, for every automaton. *)
Theorem C40_byte_order symbols states : fits symbols states ->
  (forall f, compile false false symbols states = Some f -> exists g, compile false true symbols states = Some g /\ load g = load f) /\
  (forall g, compile false true symbols states = Some g -> exists f, compile false false symbols states = Some f /\ load g = load f).
Proof.
  intros (Hn & Ht & Hs).
  assert (H : match compile false true symbols states, compile false false symbols states with
              | Some g, Some f => load_tables false g = load_tables false f | None, None => True | _, _ => False end).
  { apply compile_swapped; [exact Hn|exact Ht|]. cbv zeta. apply write_all_rereads; [reflexivity|].
    intros ts Hin. apply write_state_rereads. rewrite Forall_forall in Hs. exact (Hs ts Hin). }
  destruct (compile false true symbols states) as [g|], (compile false false symbols states) as [f|]; try contradiction.
  - assert (E : load g = load f) by (unfold load; rewrite H; reflexivity).
    split; intros x Hx; injection Hx as <-; eexists; split; [reflexivity|exact E|reflexivity|exact E].
  - split; intros x Hx; discriminate.
Qed.

(** The numbers in such a file have their most significant byte first. *)
Definition be16 (x : Z) : list Z := [x / 2 ^ 8; x mod 2 ^ 8].
Definition be24 (x : Z) : list Z := [x / 2 ^ 16; x / 2 ^ 8 mod 2 ^ 8; x mod 2 ^ 8].
Definition be32 (x : Z) : list Z := [x / 2 ^ 24; x / 2 ^ 16 mod 2 ^ 8; x / 2 ^ 8 mod 2 ^ 8; x mod 2 ^ 8].

Theorem C40_big_endian :
  (forall i o t m, 0 <= i < 2 ^ 16 -> 0 <= o < 2 ^ 16 -> 0 <= t < 2 ^ 24 -> 0 <= m < 2 ^ 8 ->
     write_cell true (mk_cell i o t m) = be16 i ++ be16 o ++ be24 t ++ [m]) /\
  (forall n, 0 <= n < 2 ^ 32 -> write_overflow true n = be32 n ++ [0; 0; 0; 0]) /\
  (forall weighted symbols, Z.of_nat (length symbols) < 2 ^ 16 ->
     exists padding, write_head weighted true symbols =
       be32 0x00013A6E ++ be32 0x000351FA ++ [if weighted then 1 else 0] ++ repeat 0 7 ++ be16 (Z.of_nat (length symbols)) ++
       flat_map (fun s => s ++ [0]) symbols ++ repeat 0 padding /\
       (padding < if weighted then 16 else 8)%nat /\
       (length (write_head weighted true symbols) mod (if weighted then 16 else 8) = 0)%nat).
Proof.
  split; [|split].
  - intros i o t m Hi Ho Ht Hm. unfold write_cell, cell_bytes. cbn [symIn symOut targetState moreTransitions].
    rewrite !swap16_le, swap24_mod by lia. unfold be16, be24. change (2 ^ 8) with 256. change (2 ^ 16) with 65536 in *. change (2 ^ 24) with 16777216 in *.
    set (s := t / 65536 mod 256 + 256 * (t / 256 mod 256) + 65536 * (t mod 256)).
    replace (s mod 16777216 + 16777216 * (m mod 256)) with (of_le32 (t / 65536 mod 256) (t / 256 mod 256) (t mod 256) m).
    2:{ unfold s, of_le32. pose proof (byte_mod t) as T0. pose proof (byte_mod (t / 256)) as T1. pose proof (byte_mod (t / 65536)) as T2. unfold byte in *.
        rewrite (Z.mod_small m) by lia. rewrite (Z.mod_small (_ + _)) by lia. lia. }
    rewrite le32_of by (try apply byte_mod; unfold byte; lia).
    replace (i / 256 mod 256) with (i / 256) by (Z.div_mod_to_equations; lia).
    replace (o / 256 mod 256) with (o / 256) by (Z.div_mod_to_equations; lia).
    replace (t / 65536 mod 256) with (t / 65536) by (Z.div_mod_to_equations; lia). reflexivity.
  - intros n Hn. unfold write_overflow. rewrite swap32_le by exact Hn. unfold be32. change (2 ^ 24) with 16777216. change (2 ^ 32) with 4294967296 in Hn.
    replace (n / 16777216 mod 256) with (n / 16777216) by (Z.div_mod_to_equations; lia). reflexivity.
  - intros weighted symbols Hn. rewrite write_head_eq by exact Hn. change (2 ^ 16) with 65536 in Hn.
    set (size := if weighted then 16%nat else 8%nat). set (p := (18 + length (head_body symbols))%nat).
    assert (Hs : (0 < size)%nat) by (unfold size; destruct weighted; lia).
    pose proof (Nat.mod_upper_bound p size ltac:(lia)) as Hb. pose proof (Nat.div_mod p size ltac:(lia)) as Hd.
    assert (Hp : exists n, head_padding weighted symbols = repeat 0 n /\ (n < size)%nat /\ ((p + n) mod size = 0)%nat).
    { unfold head_padding. fold size. fold p. destruct (Nat.ltb_spec 0 (p mod size)).
      - exists (size - p mod size)%nat. split; [reflexivity|]. split; [lia|].
        replace (p + (size - p mod size))%nat with ((p / size + 1) * size)%nat by lia. apply Nat.mod_mul. lia.
      - exists 0%nat. split; [reflexivity|]. split; [lia|]. rewrite Nat.add_0_r. lia. }
    destruct Hp as (n & E & Hn8 & Hm). exists n. rewrite E.
    rewrite swap16_le by lia. split; [|split; [exact Hn8|]].
    + unfold head_start, be16. change (2 ^ 8) with 256.
      replace (Z.of_nat (length symbols) / 256 mod 256) with (Z.of_nat (length symbols) / 256) by (Z.div_mod_to_equations; lia).
      destruct weighted; reflexivity.
    + rewrite !app_length, repeat_length. cbn [length]. rewrite head_start_length.
      replace (16 + (2 + (length (head_body symbols) + n)))%nat with (p + n)%nat by (unfold p; lia). exact Hm.
Qed.

(** The weights of a weighted transducer are corrupted when the byte order is
    that of another machine: the functions that swap them keep the sign bits.
    A weight of 128 becomes -128. *)
Theorem C40_weighted_refuted : exists symbols states f g Tf Tg,
  fits symbols states /\ compile true false symbols states = Some f /\ compile true true symbols states = Some g /\
  load_weighted f = Ok (Loaded Tf) /\ load_weighted g = Ok (Loaded Tg) /\
  map w_weight (wtransitions Tf) = [128; 0] /\ map w_weight (wtransitions Tg) = [-128; 0].
Proof.
  exists [[]; wstr "a"], [[mk_at 1 1 1 128]; [mk_at 0xFFFFFFFF 0 0 0]]. do 4 eexists.
  split. { unfold fits. split; [cbn; lia|]. split; repeat constructor; cbn; lia. }
  split; [vm_compute; reflexivity|]. split; [vm_compute; reflexivity|].
  split; [vm_compute; reflexivity|]. split; [vm_compute; reflexivity|]. split; vm_compute; reflexivity.
Qed.

(** Missing: weights that are negative or whose low byte is 128 or more, which
    do not survive, see above.  Everything else in the file does, whatever the
    automaton. *)
Theorem C40_weighted_partial symbols states : fits symbols states ->
  Forall (Forall (fun t => 0 <= a_in t < 2 ^ 32 /\ 0 <= a_out t < 2 ^ 32 /\ 0 <= a_weight t < 32768 /\ a_weight t mod 256 < 128)) states ->
  Forall (fun o => Z.of_nat o < 2 ^ 32) (state_offsets 0 states) ->
  (forall f, compile true false symbols states = Some f -> exists g, compile true true symbols states = Some g /\ load_weighted g = load_weighted f) /\
  (forall g, compile true true symbols states = Some g -> exists f, compile true false symbols states = Some f /\ load_weighted g = load_weighted f).
Proof.
  intros (Hn & Ht & Hs) Hf Ho.
  assert (H : match compile true true symbols states, compile true false symbols states with
              | Some g, Some f => load_tables true g = load_tables true f | None, None => True | _, _ => False end).
  { apply compile_swapped; [exact Hn|exact Ht|]. cbv zeta. apply write_all_rereads; [reflexivity|].
    intros ts Hin. rewrite Forall_forall in Hs, Hf. apply write_wstate_rereads; [exact (Hs ts Hin)|exact (Hf ts Hin)|exact Ho]. }
  destruct (compile true true symbols states) as [g|], (compile true false symbols states) as [f|]; try contradiction.
  - assert (E : load_weighted g = load_weighted f) by (unfold load_weighted; rewrite H; reflexivity).
    split; intros x Hx; injection Hx as <-; eexists; split; [reflexivity|exact E|reflexivity|exact E].
  - split; intros x Hx; discriminate.
Qed.

(** ** A file

    Two flags, three letters (one of two bytes) and a tag, and a state with 300
    transitions. *)
Definition sample_symbols : list (list Z) :=
  [[]; wstr "@P.X.ON@"; wstr "@R.X@"; wstr "a"; wstr "b"; [0xC3; 0xA4]; wstr "[Ln]"].
Definition sample_states : list (list atrans) :=
  [ [mk_at 5 5 0 0; mk_at 3 6 1 3; mk_at 1 0 2 0];
    mk_at 0xFFFFFFFF 0 0 7 :: repeat (mk_at 4 4 1 260) 300;
    [mk_at 0 4 1 0; mk_at 2 0 1 12] ].

Example C40_sample_fits : fits sample_symbols sample_states /\
  Forall (Forall (fun t => 0 <= a_in t < 2 ^ 32 /\ 0 <= a_out t < 2 ^ 32 /\ 0 <= a_weight t < 32768 /\ a_weight t mod 256 < 128)) sample_states /\
  Forall (fun o => Z.of_nat o < 2 ^ 32) (state_offsets 0 sample_states).
Proof.
  assert (R : forall (P : atrans -> Prop) t n, P t -> Forall P (repeat t n)).
  { intros P t n H. induction n; cbn [repeat]; constructor; auto. }
  split; [|split].
  - unfold fits. split; [cbn; lia|]. split.
    + repeat constructor; cbn; lia.
    + unfold sample_states. repeat (apply Forall_cons || apply Forall_nil); [cbn; lia| |cbn; lia].
      cbn [length]. rewrite repeat_length. lia.
  - unfold sample_states. apply Forall_cons; [repeat constructor; cbn; lia|]. apply Forall_cons; [|repeat constructor; cbn; lia].
    constructor; [cbn; lia|]. apply R. cbn; lia.
  - replace (state_offsets 0 sample_states) with [0%nat; 3%nat; 305%nat] by (vm_compute; reflexivity).
    repeat (apply Forall_cons; [cbn; lia|]). apply Forall_nil.
Qed.

Example C40_sample : exists f g T,
  compile false false sample_symbols sample_states = Some f /\ compile false true sample_symbols sample_states = Some g /\
  f <> g /\ load f = Ok (Loaded T) /\ load g = Ok (Loaded T) /\ length (transitions T) = 307%nat /\
  nth_error (transitions T) 0 = Some (mk_cell 1 0 305 2) /\ nth_error (transitions T) 4 = Some (mk_cell 300 0 0 0) /\
  stringToSymbol T = [(97, 3); (98, 4); (228, 5)] /\ firstNormalChar T = 3 /\
  symbolToDiacritic T = [mk_ofv Operation_P 0 0; mk_ofv Operation_P 0 2; mk_ofv Operation_R 0 1].
Proof.
  do 3 eexists. split; [vm_compute; reflexivity|]. split; [vm_compute; reflexivity|].
  split; [intros E; apply (f_equal (firstn 1)) in E; vm_compute in E; discriminate|]. split; [vm_compute; reflexivity|]. split; [vm_compute; reflexivity|].
  repeat (split; [vm_compute; reflexivity|]). vm_compute. reflexivity.
Qed.

Example C40_weighted_sample : exists f g T,
  compile true false sample_symbols sample_states = Some f /\ compile true true sample_symbols sample_states = Some g /\
  f <> g /\ load_weighted f = Ok (Loaded T) /\ load_weighted g = Ok (Loaded T) /\ length (wtransitions T) = 307%nat /\
  nth_error (wtransitions T) 5 = Some (mk_wcell 4 4 3 260 0 0).
Proof.
  do 3 eexists. split; [vm_compute; reflexivity|]. split; [vm_compute; reflexivity|].
  split; [intros E; apply (f_equal (firstn 1)) in E; vm_compute in E; discriminate|]. split; [vm_compute; reflexivity|]. split; [vm_compute; reflexivity|].
  split; vm_compute; reflexivity.
Qed.

Print Assumptions C40_byte_order.
Print Assumptions C40_big_endian.
Print Assumptions C40_weighted_refuted.
Print Assumptions C40_weighted_partial.
