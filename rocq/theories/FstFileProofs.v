(** * Proofs about transducer files: byte order. *)
From Verif Require Import Base BaseFacts Utf8Model FstModel FstFileModel.

(** ** Numbers *)

Lemma lor_add k a b : 0 <= k -> 0 <= a < 2 ^ k -> Z.lor a (b * 2 ^ k) = a + b * 2 ^ k.
Proof.
  intros Hk Ha. rewrite <- Z.shiftl_mul_pow2 by lia.
  assert (Hz : Z.land a (Z.shiftl b k) = 0).
  { apply Z.bits_inj'. intros n Hn. rewrite Z.land_spec, Z.bits_0. destruct (Z.lt_ge_cases n k).
    - rewrite Z.shiftl_spec_low by lia. apply andb_false_r.
    - replace a with (a mod 2 ^ k) by (apply Z.mod_small; lia). rewrite Z.mod_pow2_bits_high by lia. reflexivity. }
  rewrite Z.add_nocarry_lxor by exact Hz. symmetry. apply Z.lxor_lor. exact Hz.
Qed.

Lemma land_mask k y : 0 <= k -> Z.land y (255 * 2 ^ k) = (y / 2 ^ k) mod 256 * 2 ^ k.
Proof.
  intros Hk. change 256 with (2 ^ 8). rewrite <- Z.land_ones by lia. rewrite <- (Z.shiftr_div_pow2 y k) by lia.
  rewrite <- !Z.shiftl_mul_pow2 by lia. change 255 with (Z.ones 8). apply Z.bits_inj'. intros n Hn.
  rewrite Z.land_spec. destruct (Z.lt_ge_cases n k).
  - rewrite !Z.shiftl_spec_low by lia. apply andb_false_r.
  - rewrite !Z.shiftl_spec by lia. rewrite Z.land_spec, Z.shiftr_spec by lia. do 2 f_equal. lia.
Qed.

Definition byte (b : Z) : Prop := 0 <= b < 256.

Lemma swap16_bytes b0 b1 : byte b0 -> byte b1 -> swap16 (of_le16 b0 b1) = of_le16 b1 b0.
Proof.
  unfold byte, swap16, of_le16. intros H0 H1. rewrite Z.shiftr_div_pow2, Z.shiftl_mul_pow2 by lia.
  change (2 ^ 8) with 256. replace ((b0 + 256 * b1) / 256) with b1 by (Z.div_mod_to_equations; lia).
  change 256 with (2 ^ 8) at 2. rewrite lor_add by lia. change (2 ^ 8) with 256. Z.div_mod_to_equations; lia.
Qed.

Lemma swap24_bytes b0 b1 b2 : byte b0 -> byte b1 -> byte b2 -> swap24 (b0 + 256 * b1 + 65536 * b2) = b2 + 256 * b1 + 65536 * b0.
Proof.
  unfold byte, swap24. intros H0 H1 H2. rewrite Z.shiftr_div_pow2, Z.shiftl_mul_pow2 by lia.
  change 0x00FF0000 with (255 * 2 ^ 16). change 0x0000FF00 with (255 * 2 ^ 8). change 0x000000FF with (255 * 2 ^ 0).
  rewrite !land_mask by lia. set (x := b0 + 256 * b1 + 65536 * b2).
  replace ((x * 2 ^ 16 / 2 ^ 16) mod 256) with b0 by (rewrite Z.div_mul by lia; subst x; Z.div_mod_to_equations; lia).
  replace ((x / 2 ^ 8) mod 256) with b1 by (subst x; change (2 ^ 8) with 256; Z.div_mod_to_equations; lia).
  replace ((x / 2 ^ 16 / 2 ^ 0) mod 256) with b2 by (subst x; change (2 ^ 16) with 65536; change (2 ^ 0) with 1; Z.div_mod_to_equations; lia).
  clear x. rewrite Z.mul_1_r. rewrite Z.lor_comm.
  rewrite (Z.lor_comm (b0 * 2 ^ 16)). rewrite Z.lor_assoc. rewrite (lor_add 8) by lia.
  rewrite (lor_add 16) by (change (2 ^ 8) with 256; change (2 ^ 16) with 65536; lia).
  change (2 ^ 8) with 256; change (2 ^ 16) with 65536. lia.
Qed.

Lemma swap32_bytes b0 b1 b2 b3 : byte b0 -> byte b1 -> byte b2 -> byte b3 ->
  swap32 (of_le32 b0 b1 b2 b3) = of_le32 b3 b2 b1 b0.
Proof.
  unfold byte, swap32, of_le32. intros H0 H1 H2 H3. rewrite !Z.shiftr_div_pow2, !Z.shiftl_mul_pow2 by lia.
  change 0x00FF0000 with (255 * 2 ^ 16). change 0x0000FF00 with (255 * 2 ^ 8).
  rewrite !land_mask by lia. set (x := b0 + 256 * b1 + 65536 * b2 + 16777216 * b3).
  replace (x / 2 ^ 24) with b3 by (subst x; change (2 ^ 24) with 16777216; Z.div_mod_to_equations; lia).
  replace ((x * 2 ^ 8 / 2 ^ 16) mod 256) with b1 by (subst x; change (2 ^ 16) with 65536; change (2 ^ 8) with 256; Z.div_mod_to_equations; lia).
  replace ((x / 2 ^ 8 / 2 ^ 8) mod 256) with b2 by (subst x; change (2 ^ 8) with 256; Z.div_mod_to_equations; lia).
  rewrite <- (Z.lor_assoc b3). rewrite (Z.lor_comm (b1 * 2 ^ 16)). rewrite Z.lor_assoc.
  rewrite (lor_add 8) by lia.
  rewrite (lor_add 16) by (change (2 ^ 8) with 256; change (2 ^ 16) with 65536; lia).
  rewrite (lor_add 24) by (change (2 ^ 8) with 256; change (2 ^ 16) with 65536; change (2 ^ 24) with 16777216; lia).
  subst x. change (2 ^ 8) with 256; change (2 ^ 16) with 65536; change (2 ^ 24) with 16777216; change (2 ^ 32) with 4294967296.
  Z.div_mod_to_equations; lia.
Qed.

Lemma byte_mod x : byte (x mod 256).
Proof. unfold byte. pose proof (Z.mod_pos_bound x 256). lia. Qed.

Lemma of_le16_bytes x : of_le16 (x mod 256) (x / 256 mod 256) = x mod 65536.
Proof. unfold of_le16. Z.div_mod_to_equations; lia. Qed.

Lemma le16_of b0 b1 : byte b0 -> byte b1 -> le16 (of_le16 b0 b1) = [b0; b1].
Proof. unfold byte, le16, of_le16. intros H0 H1. f_equal; [|f_equal]; Z.div_mod_to_equations; lia. Qed.

Lemma le32_of b0 b1 b2 b3 : byte b0 -> byte b1 -> byte b2 -> byte b3 -> le32 (of_le32 b0 b1 b2 b3) = [b0; b1; b2; b3].
Proof. unfold byte, le32, of_le32. intros H0 H1 H2 H3. f_equal; [|f_equal; [|f_equal; [|f_equal]]]; Z.div_mod_to_equations; lia. Qed.

Lemma of_le32_bytes x : of_le32 (x mod 256) (x / 256 mod 256) (x / 65536 mod 256) (x / 16777216 mod 256) = x mod 2 ^ 32.
Proof. unfold of_le32. change (2 ^ 32) with 4294967296. Z.div_mod_to_equations; lia. Qed.

Lemma swap16_le x : 0 <= x < 65536 -> le16 (swap16 x) = [x / 256 mod 256; x mod 256].
Proof.
  intros H. replace x with (of_le16 (x mod 256) (x / 256 mod 256)) at 1 by (rewrite of_le16_bytes; apply Z.mod_small; lia).
  rewrite swap16_bytes, le16_of by apply byte_mod. reflexivity.
Qed.

Lemma swap32_le x : 0 <= x < 2 ^ 32 -> le32 (swap32 x) = [x / 16777216 mod 256; x / 65536 mod 256; x / 256 mod 256; x mod 256].
Proof.
  intros H. replace x with (of_le32 (x mod 256) (x / 256 mod 256) (x / 65536 mod 256) (x / 16777216 mod 256)) at 1
    by (rewrite of_le32_bytes; apply Z.mod_small; lia).
  rewrite swap32_bytes, le32_of by apply byte_mod. reflexivity.
Qed.

Lemma swap24_mod x : 0 <= x < 16777216 -> swap24 x = x / 65536 mod 256 + 256 * (x / 256 mod 256) + 65536 * (x mod 256).
Proof.
  intros H. replace x with (x mod 256 + 256 * (x / 256 mod 256) + 65536 * (x / 65536 mod 256)) at 1 by (Z.div_mod_to_equations; lia).
  apply swap24_bytes; apply byte_mod.
Qed.

(** ** Cells *)

Definition cell_ok (c : cell) : Prop :=
  0 <= symIn c < 65536 /\ 0 <= symOut c < 65536 /\ 0 <= targetState c < 16777216 /\ byte (moreTransitions c).

Lemma swapped_cell c rest : cell_ok c ->
  swap_cells false (write_cell true c ++ rest) = r <- swap_cells (moreTransitions c =? 255) rest ;; Ok (cell_bytes c ++ r).
Proof.
  destruct c as [i o t m]. unfold cell_ok. cbn [symIn symOut targetState moreTransitions]. intros (Hi & Ho & Ht & Hm).
  unfold write_cell, cell_bytes. cbn [symIn symOut targetState moreTransitions].
  rewrite !swap16_le by lia. set (s := swap24 t).
  assert (Hs : s = t / 65536 mod 256 + 256 * (t / 256 mod 256) + 65536 * (t mod 256)) by (apply swap24_mod; lia).
  pose proof (byte_mod t) as T0. pose proof (byte_mod (t / 256)) as T1. pose proof (byte_mod (t / 65536)) as T2. unfold byte in *.
  assert (Hs24 : 0 <= s < 16777216) by lia.
  rewrite (Z.mod_small s 16777216), (Z.mod_small m 256) by lia.
  replace (s + 16777216 * m) with (of_le32 (t / 65536 mod 256) (t / 256 mod 256) (t mod 256) m) by (unfold of_le32; lia).
  rewrite le32_of by (unfold byte; lia). cbn [app swap_cells].
  unfold bytes_cell. cbn [symIn symOut targetState moreTransitions].
  set (info := of_le32 _ _ _ _).
  assert (Hinfo : info = s + 16777216 * m) by (unfold info, of_le32; lia).
  replace (info / 16777216) with m by (Z.div_mod_to_equations; lia).
  replace (info mod 16777216) with s by (Z.div_mod_to_equations; lia).
  rewrite !swap16_bytes by apply byte_mod. rewrite !of_le16_bytes. rewrite !(Z.mod_small _ 65536) by lia.
  replace (swap24 s) with t.
  2:{ rewrite Hs. rewrite swap24_bytes by (unfold byte; lia). Z.div_mod_to_equations; lia. }
  unfold cell_bytes. cbn [symIn symOut targetState moreTransitions]. rewrite (Z.mod_small m 256) by lia.
  destruct (swap_cells (m =? 255) rest); cbn [bind]; reflexivity.
Qed.

Lemma swapped_overflow n rest : 0 <= n < 2 ^ 32 ->
  swap_cells true (write_overflow true n ++ rest) = r <- swap_cells false rest ;; Ok (write_overflow false n ++ r).
Proof.
  intros H. unfold write_overflow. rewrite swap32_le by exact H. cbn [app swap_cells].
  rewrite swap32_bytes by apply byte_mod. rewrite of_le32_bytes, Z.mod_small by exact H.
  destruct (swap_cells false rest); cbn [bind]; reflexivity.
Qed.

Definition wcell_ok (c : wcell) : Prop :=
  0 <= w_symIn c < 2 ^ 32 /\ 0 <= w_symOut c < 2 ^ 32 /\ 0 <= w_target c < 2 ^ 32 /\ byte (w_more c) /\ w_reserved c = 0.

(** What a weight becomes after it was written and read with the byte order
    swapped. *)
Definition reread_weight (x : Z) : Z := swap16s (to_int16 (swap16s x)).

Definition set_weight (c : wcell) : wcell :=
  mk_wcell (w_symIn c) (w_symOut c) (w_target c) (reread_weight (w_weight c)) (w_more c) (w_reserved c).

Lemma to_int16_range x : -32768 <= to_int16 x < 32768.
Proof.
  unfold to_int16. pose proof (Z.mod_pos_bound x 65536 ltac:(lia)). destruct (Z.ltb_spec (x mod 65536) 32768); lia.
Qed.

Lemma to_int16_mod x : to_int16 (x mod 65536) = to_int16 x.
Proof. unfold to_int16. rewrite Z.mod_mod by lia. reflexivity. Qed.

Lemma swapped_wcell c rest : wcell_ok c ->
  swap_wcells false (write_wcell true c ++ rest) = r <- swap_wcells (w_more c =? 255) rest ;; Ok (wcell_bytes (set_weight c) ++ r).
Proof.
  destruct c as [i o t w m re]. unfold wcell_ok. cbn [w_symIn w_symOut w_target w_weight w_more w_reserved]. intros (Hi & Ho & Ht & Hm & ->).
  unfold write_wcell, wcell_bytes. cbn [w_symIn w_symOut w_target w_weight w_more w_reserved].
  rewrite !swap32_le by lia. unfold le16. cbn [app swap_wcells].
  unfold bytes_wcell. cbn [w_symIn w_symOut w_target w_weight w_more w_reserved].
  rewrite !swap32_bytes by apply byte_mod. rewrite !of_le32_bytes. rewrite !(Z.mod_small _ (2 ^ 32)) by lia.
  rewrite of_le16_bytes, to_int16_mod. unfold byte in Hm. rewrite (Z.mod_small m 256) by lia.
  unfold set_weight, wcell_bytes. cbn [w_symIn w_symOut w_target w_weight w_more w_reserved]. fold (reread_weight w).
  rewrite (Z.mod_small m 256) by lia.
  destruct (swap_wcells (m =? 255) rest); cbn [bind]; reflexivity.
Qed.

Lemma swapped_woverflow n rest : 0 <= n < 2 ^ 32 ->
  swap_wcells true (write_woverflow true n ++ rest) = r <- swap_wcells false rest ;; Ok (write_woverflow false n ++ r).
Proof.
  intros H. unfold write_woverflow. rewrite swap32_le by exact H. cbn [app swap_wcells].
  rewrite swap32_bytes by apply byte_mod. rewrite of_le32_bytes, Z.mod_small by exact H.
  destruct (swap_wcells false rest); cbn [bind]; reflexivity.
Qed.

(** ** States *)

(** Reading [a] with the byte order swapped gives [b]. *)
Definition rereads (S : list Z -> res (list Z)) (a b : option (list Z)) : Prop :=
  match a, b with
  | Some a, Some b => forall rest, S (a ++ rest) = (r <- S rest ;; Ok (b ++ r))
  | None, None => True
  | _, _ => False
  end.

Lemma bind_app (x : res (list Z)) a b :
  (r <- (r <- x ;; Ok (b ++ r)) ;; Ok (a ++ r)) = (r <- x ;; Ok ((a ++ b) ++ r)).
Proof. destruct x; cbn [bind]; rewrite <- ?app_assoc; reflexivity. Qed.

Lemma write_all_rereads {A} S (f g : A -> option (list Z)) l : S [] = Ok [] ->
  (forall x, In x l -> rereads S (f x) (g x)) -> rereads S (write_all f l) (write_all g l).
Proof.
  intros HS. induction l as [|x l IH]; intros H.
  - cbn. intros rest. destruct (S rest); reflexivity.
  - specialize (IH (fun y Hy => H y (or_intror Hy))). specialize (H x (or_introl eq_refl)). cbn [write_all].
    unfold rereads in *. destruct (f x) as [a|], (g x) as [b|]; try contradiction.
    + destruct (write_all f l) as [c|], (write_all g l) as [d|]; try contradiction; try exact I.
      intros rest. rewrite <- app_assoc, H, IH. apply bind_app.
    + exact I.
Qed.

Lemma insert_in t u l : In u (insert_transition t l) <-> u = t \/ In u l.
Proof.
  induction l as [|v r IH]; cbn [insert_transition In].
  - intuition.
  - destruct (file_before v t); cbn [In]; [rewrite IH|]; intuition.
Qed.

Lemma sort_in u l : In u (sort_transitions l) <-> In u l.
Proof.
  induction l as [|t r IH]; cbn [sort_transitions In]; [reflexivity|]. rewrite insert_in, IH. intuition.
Qed.

Lemma insert_length t l : length (insert_transition t l) = S (length l).
Proof. induction l as [|v r IH]; cbn [insert_transition length]; [reflexivity|]. destruct (file_before v t); cbn [length]; lia. Qed.

Lemma sort_length l : length (sort_transitions l) = length l.
Proof. induction l as [|t r IH]; cbn [sort_transitions length]; [reflexivity|]. rewrite insert_length, IH. reflexivity. Qed.

Lemma to_cell_ok offsets more t c : byte more -> to_cell offsets more t = Some c -> cell_ok c /\ moreTransitions c = more.
Proof.
  unfold to_cell. intros Hm H. destruct (nth_error offsets (a_state t)); [|discriminate]. injection H as <-.
  unfold cell_ok. cbn [symIn symOut targetState moreTransitions].
  pose proof (Z.mod_pos_bound (a_in t) 65536 ltac:(lia)). pose proof (Z.mod_pos_bound (a_out t) 65536 ltac:(lia)).
  pose proof (Z.mod_pos_bound (Z.of_nat n) 16777216 ltac:(lia)). auto.
Qed.

Lemma write_state_rereads offsets ts : Z.of_nat (length ts) <= 2 ^ 32 ->
  rereads (swap_cells false) (write_state true offsets ts) (write_state false offsets ts).
Proof.
  intros Hlen. unfold write_state. destruct (sort_transitions ts) as [|t rest] eqn:Es; [exact I|].
  assert (Hl : length ts = S (length rest)) by (rewrite <- sort_length, Es; reflexivity).
  set (n := Z.of_nat (length ts)) in *.
  set (more := if 255 <? n then 255 else n - 1).
  assert (Hm : byte more) by (unfold byte, more; destruct (Z.ltb_spec 255 n); lia).
  assert (Hr : rereads (swap_cells false) (write_all (fun t => option_map (write_cell true) (to_cell offsets 0 t)) rest)
                 (write_all (fun t => option_map (write_cell false) (to_cell offsets 0 t)) rest)).
  { apply write_all_rereads; [reflexivity|]. intros x _. destruct (to_cell offsets 0 x) as [c|] eqn:Ec; cbn [option_map]; [|exact I].
    destruct (to_cell_ok offsets 0 x c ltac:(unfold byte; lia) Ec) as [Hc Hcm]. intros r. rewrite swapped_cell by exact Hc.
    rewrite Hcm. reflexivity. }
  destruct (to_cell offsets more t) as [c|] eqn:Ec; [|exact I].
  destruct (to_cell_ok offsets more t c Hm Ec) as [Hc Hcm].
  unfold rereads in Hr.
  destruct (write_all (fun t => option_map (write_cell true) (to_cell offsets 0 t)) rest) as [a|],
           (write_all (fun t => option_map (write_cell false) (to_cell offsets 0 t)) rest) as [b|]; try contradiction; try exact I.
  unfold rereads. intros r. rewrite <- app_assoc. rewrite swapped_cell by exact Hc. rewrite Hcm.
  unfold more. destruct (Z.ltb_spec 255 n) as [Hn|Hn].
  - change (255 =? 255) with true. rewrite <- app_assoc, swapped_overflow by lia. rewrite Hr, !bind_app. reflexivity.
  - replace (n - 1 =? 255) with false by (symmetry; apply Z.eqb_neq; lia). cbn [app]. rewrite Hr, bind_app. reflexivity.
Qed.

(** Numbers that fit in a weighted cell, with a weight that survives. *)
Definition trans_fits (t : atrans) : Prop :=
  0 <= a_in t < 2 ^ 32 /\ 0 <= a_out t < 2 ^ 32 /\ 0 <= a_weight t < 32768 /\ a_weight t mod 256 < 128.

Lemma to_int16_small x : -32768 <= x < 32768 -> to_int16 x = x.
Proof.
  intros H. unfold to_int16. destruct (Z.ltb_spec (x mod 65536) 32768); Z.div_mod_to_equations; lia.
Qed.

Lemma reread_same x : 0 <= x < 32768 -> x mod 256 < 128 -> reread_weight x = x.
Proof.
  intros H Hl. unfold reread_weight. pose proof (to_int16_range (Z.lor (Z.shiftr x 8) (Z.shiftl x 8))) as Hr. fold (swap16s x) in Hr.
  rewrite (to_int16_small (swap16s x)) by exact Hr. clear Hr.
  pose proof (swap16_bytes (x mod 256) (x / 256 mod 256) (byte_mod _) (byte_mod _)) as E.
  rewrite of_le16_bytes, (Z.mod_small x 65536) in E by lia. unfold swap16 in E. unfold swap16s at 2.
  rewrite <- to_int16_mod, E. set (y := of_le16 (x / 256 mod 256) (x mod 256)).
  assert (Hy : 0 <= y < 32768) by (unfold y, of_le16; Z.div_mod_to_equations; lia).
  rewrite (to_int16_small y) by lia. unfold swap16s. rewrite <- to_int16_mod.
  pose proof (swap16_bytes (x / 256 mod 256) (x mod 256) (byte_mod _) (byte_mod _)) as E2. fold y in E2. unfold swap16 in E2.
  rewrite E2. rewrite of_le16_bytes, (Z.mod_small x 65536) by lia. apply to_int16_small. lia.
Qed.

Lemma to_wcell_ok offsets more t c : byte more -> trans_fits t -> Forall (fun o => Z.of_nat o < 2 ^ 32) offsets ->
  to_wcell offsets more t = Some c -> wcell_ok c /\ w_more c = more /\ set_weight c = c.
Proof.
  unfold to_wcell. intros Hm (Hi & Ho & Hw & Hb) Hf H. destruct (nth_error offsets (a_state t)) as [n|] eqn:E; [|discriminate]. injection H as <-.
  apply nth_error_In in E. rewrite Forall_forall in Hf. specialize (Hf n E).
  unfold wcell_ok, set_weight. cbn [w_symIn w_symOut w_target w_weight w_more w_reserved].
  rewrite reread_same by assumption. split; [|split; reflexivity]. repeat (split; [solve [auto; lia]|]). reflexivity.
Qed.

Lemma write_wstate_rereads offsets ts : Z.of_nat (length ts) <= 2 ^ 32 -> Forall trans_fits ts ->
  Forall (fun o => Z.of_nat o < 2 ^ 32) offsets ->
  rereads (swap_wcells false) (write_wstate true offsets ts) (write_wstate false offsets ts).
Proof.
  intros Hlen Hfit Hoff. unfold write_wstate. destruct (sort_transitions ts) as [|t rest] eqn:Es; [exact I|].
  assert (Hl : length ts = S (length rest)) by (rewrite <- sort_length, Es; reflexivity).
  assert (Hin : forall u, In u (t :: rest) -> trans_fits u).
  { intros u Hu. rewrite <- Es in Hu. apply (proj1 (sort_in u ts)) in Hu. rewrite Forall_forall in Hfit. exact (Hfit u Hu). }
  set (n := Z.of_nat (length ts)) in *.
  set (more := if 255 <? n then 255 else n - 1).
  assert (Hm : byte more) by (unfold byte, more; destruct (Z.ltb_spec 255 n); lia).
  assert (Hr : rereads (swap_wcells false) (write_all (fun t => option_map (write_wcell true) (to_wcell offsets 0 t)) rest)
                 (write_all (fun t => option_map (write_wcell false) (to_wcell offsets 0 t)) rest)).
  { apply write_all_rereads; [reflexivity|]. intros x Hx. destruct (to_wcell offsets 0 x) as [c|] eqn:Ec; cbn [option_map]; [|exact I].
    destruct (to_wcell_ok offsets 0 x c ltac:(unfold byte; lia) (Hin x (or_intror Hx)) Hoff Ec) as (Hc & Hcm & Hw). intros r. rewrite swapped_wcell by exact Hc.
    rewrite Hcm, Hw. reflexivity. }
  destruct (to_wcell offsets more t) as [c|] eqn:Ec; [|exact I].
  destruct (to_wcell_ok offsets more t c Hm (Hin t (or_introl eq_refl)) Hoff Ec) as (Hc & Hcm & Hw).
  unfold rereads in Hr.
  destruct (write_all (fun t => option_map (write_wcell true) (to_wcell offsets 0 t)) rest) as [a|],
           (write_all (fun t => option_map (write_wcell false) (to_wcell offsets 0 t)) rest) as [b|]; try contradiction; try exact I.
  unfold rereads. intros r. rewrite <- app_assoc. rewrite swapped_wcell by exact Hc. rewrite Hcm, Hw.
  unfold more. destruct (Z.ltb_spec 255 n) as [Hn|Hn].
  - change (255 =? 255) with true. rewrite <- app_assoc, swapped_woverflow by lia. rewrite Hr, !bind_app. reflexivity.
  - replace (n - 1 =? 255) with false by (symmetry; apply Z.eqb_neq; lia). cbn [app]. rewrite Hr, bind_app. reflexivity.
Qed.

(** ** Files *)

(** Text of symbols: bytes other than NUL. *)
Definition symbol_text (s : list Z) : Prop := Forall (fun b => 0 < b < 256) s.

Lemma take_string_text s rest : symbol_text s -> take_string (s ++ 0 :: rest) = Ok (s, rest).
Proof.
  induction s as [|b s IH]; intros H; cbn [app take_string].
  - reflexivity.
  - inversion H; subst. destruct (Z.eqb_spec b 0); [lia|]. rewrite IH by assumption. reflexivity.
Qed.

Lemma copy_symbols_text symbols rest : Forall symbol_text symbols ->
  copy_symbols (length symbols) (flat_map (fun s => s ++ [0]) symbols ++ rest) = Ok (flat_map (fun s => s ++ [0]) symbols, rest).
Proof.
  induction symbols as [|s r IH]; intros H; cbn [length copy_symbols flat_map].
  - reflexivity.
  - inversion H; subst. rewrite <- !app_assoc. cbn [app]. rewrite take_string_text by assumption. cbn [bind].
    rewrite IH by assumption. cbn [bind]. reflexivity.
Qed.

Definition head_body (symbols : list (list Z)) : list Z := flat_map (fun s => s ++ [0]) symbols.

Definition head_padding (weighted : bool) (symbols : list (list Z)) : list Z :=
  let size := if weighted then 16%nat else 8%nat in
  let partial := ((18 + length (head_body symbols)) mod size)%nat in
  if (0 <? partial)%nat then repeat 0 (size - partial) else [].

(** Both byte orders of the header. *)
Definition head_start (weighted doSwap : bool) : list Z :=
  le32 (if doSwap then swap32 0x00013A6E else 0x00013A6E) ++ le32 (if doSwap then swap32 0x000351FA else 0x000351FA) ++
    [if weighted then 1 else 0] ++ repeat 0 7.

Lemma write_head_eq weighted doSwap symbols : Z.of_nat (length symbols) < 65536 ->
  write_head weighted doSwap symbols = head_start weighted doSwap ++
    le16 (if doSwap then swap16 (Z.of_nat (length symbols)) else Z.of_nat (length symbols)) ++ head_body symbols ++ head_padding weighted symbols.
Proof.
  intros H. unfold write_head, head_start, head_padding. rewrite Z.mod_small by lia. fold (head_body symbols).
  rewrite <- !app_assoc. do 5 f_equal.
Qed.

Lemma head_start_length weighted doSwap : length (head_start weighted doSwap) = 16%nat.
Proof. reflexivity. Qed.

Lemma skip_head weighted doSwap rest : skipn 16 (head_start weighted doSwap ++ rest) = rest.
Proof. rewrite skipn_app. rewrite head_start_length. rewrite skipn_all2 by (rewrite head_start_length; lia). reflexivity. Qed.

Lemma byte_swap_file (weighted : bool) symbols a b :
  Z.of_nat (length symbols) < 65536 -> Forall symbol_text symbols ->
  (if weighted then swap_wcells else swap_cells) false a = Ok b ->
  byteSwapTransducer weighted (write_head weighted true symbols ++ a) =
    Ok (repeat (-1) 16 ++ skipn 16 (write_head weighted false symbols ++ b)).
Proof.
  intros Hn Ht Hsw. unfold byteSwapTransducer. rewrite !write_head_eq by exact Hn. rewrite <- !app_assoc, !skip_head.
  rewrite swap16_le by lia. cbn [app].
  rewrite swap16_bytes by apply byte_mod. rewrite of_le16_bytes, Z.mod_small, Nat2Z.id by lia.
  unfold head_body at 1. rewrite copy_symbols_text by exact Ht. fold (head_body symbols). cbn [bind].
  set (size := if weighted then 16%nat else 8%nat). assert (Hs0 : (0 < size)%nat) by (unfold size; destruct weighted; lia).
  set (p := (18 + length (head_body symbols))%nat).
  assert (Hpad : (if (size - p mod size <? size)%nat then (size - p mod size)%nat else 0%nat) = length (head_padding weighted symbols)).
  { unfold head_padding. fold size. fold p. pose proof (Nat.mod_upper_bound p size ltac:(lia)).
    destruct (Nat.ltb_spec 0 (p mod size)); destruct (Nat.ltb_spec (size - p mod size) size); try lia.
    - rewrite repeat_length. reflexivity.
    - reflexivity. }
  rewrite Hpad. rewrite app_length. destruct (Nat.ltb_spec (length (head_padding weighted symbols) + length a) (length (head_padding weighted symbols))); [lia|].
  rewrite skipn_app, skipn_all, Nat.sub_diag. cbn [skipn app]. rewrite Hsw. cbn [bind].
  assert (Hz : repeat 0 (length (head_padding weighted symbols)) = head_padding weighted symbols).
  { unfold head_padding. destruct (Nat.ltb_spec 0 ((18 + length (head_body symbols)) mod (if weighted then 16%nat else 8%nat))); [rewrite repeat_length|]; reflexivity. }
  rewrite Hz. reflexivity.
Qed.

Lemma load_tables_swapped (weighted : bool) symbols a b :
  Z.of_nat (length symbols) < 65536 -> Forall symbol_text symbols ->
  (if weighted then swap_wcells else swap_cells) false a = Ok b ->
  load_tables weighted (write_head weighted true symbols ++ a) = load_tables weighted (write_head weighted false symbols ++ b).
Proof.
  intros Hn Ht Hsw. pose proof (byte_swap_file weighted symbols a b Hn Ht Hsw) as Hb.
  assert (Hl : length (write_head weighted false symbols ++ b) = length (repeat (-1) 16 ++ skipn 16 (write_head weighted false symbols ++ b))).
  { rewrite (app_length (repeat _ _)), repeat_length, skipn_length.
    rewrite write_head_eq by exact Hn. rewrite <- !app_assoc, (app_length (head_start _ _)), head_start_length. lia. }
  unfold load_tables. 
  assert (C1 : checkNeedForByteSwapping (write_head weighted true symbols ++ a) = Ok (Some true)).
  { rewrite write_head_eq by exact Hn. unfold checkNeedForByteSwapping. rewrite <- app_assoc. destruct weighted; reflexivity. }
  assert (C2 : checkNeedForByteSwapping (write_head weighted false symbols ++ b) = Ok (Some false)).
  { rewrite write_head_eq by exact Hn. unfold checkNeedForByteSwapping. rewrite <- app_assoc. destruct weighted; reflexivity. }
  rewrite C1, C2. cbn [bind].
  assert (K1 : rd (write_head weighted true symbols ++ a) 8 = Ok (if weighted then 1 else 0)).
  { rewrite write_head_eq by exact Hn. destruct weighted; reflexivity. }
  assert (K2 : rd (write_head weighted false symbols ++ b) 8 = Ok (if weighted then 1 else 0)).
  { rewrite write_head_eq by exact Hn. destruct weighted; reflexivity. }
  rewrite K1, K2. cbn [bind]. replace (xorb weighted ((if weighted then 1 else 0) =? 1)) with false by (destruct weighted; reflexivity).
  rewrite Hb. cbn [bind]. rewrite <- Hl.
  rewrite skipn_app, skipn_all2 by (rewrite repeat_length; lia). rewrite repeat_length, Nat.sub_diag. cbn [skipn app]. reflexivity.
Qed.

Lemma compile_swapped (weighted : bool) symbols states :
  Z.of_nat (length symbols) < 65536 -> Forall symbol_text symbols ->
  (let offsets := state_offsets 0 states in
   rereads ((if weighted then swap_wcells else swap_cells) false)
     (write_all (if weighted then write_wstate true offsets else write_state true offsets) states)
     (write_all (if weighted then write_wstate false offsets else write_state false offsets) states)) ->
  match compile weighted true symbols states, compile weighted false symbols states with
  | Some g, Some f => load_tables weighted g = load_tables weighted f
  | None, None => True
  | _, _ => False
  end.
Proof.
  intros Hn Ht. unfold compile. set (offsets := state_offsets 0 states). cbv zeta. intros Hr. unfold rereads in Hr.
  destruct (write_all (if weighted then write_wstate true offsets else write_state true offsets) states) as [a|],
    (write_all (if weighted then write_wstate false offsets else write_state false offsets) states) as [b|]; try contradiction; [|exact I].
  apply load_tables_swapped; [exact Hn|exact Ht|]. specialize (Hr []). rewrite !app_nil_r in Hr. rewrite Hr.
  destruct weighted; cbn; rewrite app_nil_r; reflexivity.
Qed.
