(** Lemmas about UTF-8 conversion. *)
From Verif Require Import Base BaseFacts Utf8Model Utf8Spec.

Ltac Zify.zify_post_hook ::= Z.div_mod_to_equations.
Local Arguments Z.land : simpl never.
Local Arguments Z.lor : simpl never.
Local Arguments Z.shiftl : simpl never.
Local Arguments Z.shiftr : simpl never.

(** ** Byte-level facts, checked exhaustively *)
Ltac byte_check P n := intros; apply (zrange_forallb P n); [vm_compute; reflexivity | lia].

Lemma is_trail_spec : forall b, byte b -> is_trail b = in_range 128 191 b.
Proof.
  intros b H. unfold byte in H. apply eqb_prop.
  apply (zrange_forallb (fun b => Bool.eqb (is_trail b) (in_range 128 191 b)) 256); [vm_compute; reflexivity|lia].
Qed.

Lemma sequence_length_spec : forall b, byte b -> sequence_length b =
  if b <? 128 then 1 else if in_range 192 223 b then 2 else if in_range 224 239 b then 3
  else if in_range 240 247 b then 4 else 0.
Proof.
  intros b H. unfold byte in H. apply Z.eqb_eq.
  apply (zrange_forallb (fun b => sequence_length b =?
    (if b <? 128 then 1 else if in_range 192 223 b then 2 else if in_range 224 239 b then 3
  else if in_range 240 247 b then 4 else 0)) 256); [vm_compute; reflexivity|lia].
Qed.

Lemma trail_bits : forall b, 128 <= b <= 191 ->
  Z.land b 0x3f = b - 128 /\ Z.land (Z.shiftl b 6) 0xfff = (b - 128) * 64 /\ Z.land (Z.shiftl b 12) 0x3ffff = (b - 128) * 4096.
Proof.
  intros b H.
  assert (forallb (fun b => (Z.land (128 + b) 0x3f =? b) && (Z.land (Z.shiftl (128 + b) 6) 0xfff =? b * 64)
     && (Z.land (Z.shiftl (128 + b) 12) 0x3ffff =? b * 4096)) (zrange 64) = true) as E by (vm_compute; reflexivity).
  pose proof (zrange_forallb _ _ E (b - 128) ltac:(lia)) as Q. cbv beta in Q.
  replace (128 + (b - 128)) with b in Q by lia. lia.
Qed.

Lemma lead2_bits : forall b, 192 <= b <= 223 -> Z.land (Z.shiftl b 6) 0x7ff = (b - 192) * 64.
Proof.
  intros b H.
  assert (forallb (fun b => Z.land (Z.shiftl (192 + b) 6) 0x7ff =? b * 64) (zrange 32) = true) as E by (vm_compute; reflexivity).
  pose proof (zrange_forallb _ _ E (b - 192) ltac:(lia)) as Q. cbv beta in Q.
  replace (192 + (b - 192)) with b in Q by lia. lia.
Qed.

Lemma lead3_bits : forall b, 224 <= b <= 239 -> Z.land (Z.shiftl b 12) 0xffff = (b - 224) * 4096.
Proof.
  intros b H.
  assert (forallb (fun b => Z.land (Z.shiftl (224 + b) 12) 0xffff =? b * 4096) (zrange 16) = true) as E by (vm_compute; reflexivity).
  pose proof (zrange_forallb _ _ E (b - 224) ltac:(lia)) as Q. cbv beta in Q.
  replace (224 + (b - 224)) with b in Q by lia. lia.
Qed.

Lemma lead4_bits : forall b, 240 <= b <= 247 -> Z.land (Z.shiftl b 18) 0x1fffff = (b - 240) * 262144.
Proof.
  intros b H.
  assert (forallb (fun b => Z.land (Z.shiftl (240 + b) 18) 0x1fffff =? b * 262144) (zrange 8) = true) as E by (vm_compute; reflexivity).
  pose proof (zrange_forallb _ _ E (b - 240) ltac:(lia)) as Q. cbv beta in Q.
  replace (240 + (b - 240)) with b in Q by lia. lia.
Qed.

Lemma lor_checked : forall x,
  (0 <= x < 32 -> Z.lor x 0xc0 = 192 + x) /\ (0 <= x < 64 -> Z.lor x 0x80 = 128 + x) /\
  (0 <= x < 16 -> Z.lor x 0xe0 = 224 + x) /\ (0 <= x < 8 -> Z.lor x 0xf0 = 240 + x).
Proof.
  intros x. repeat split; intros H; apply Z.eqb_eq.
  - apply (zrange_forallb (fun x => Z.lor x 0xc0 =? 192 + x) 32); [vm_compute; reflexivity|lia].
  - apply (zrange_forallb (fun x => Z.lor x 0x80 =? 128 + x) 64); [vm_compute; reflexivity|lia].
  - apply (zrange_forallb (fun x => Z.lor x 0xe0 =? 224 + x) 16); [vm_compute; reflexivity|lia].
  - apply (zrange_forallb (fun x => Z.lor x 0xf0 =? 240 + x) 8); [vm_compute; reflexivity|lia].
Qed.

Lemma shiftr_div : forall c n, 0 <= n -> Z.shiftr c n = c / 2 ^ n.
Proof. intros. apply Z.shiftr_div_pow2; auto. Qed.

Lemma land_3f : forall c, Z.land c 0x3f = c mod 64.
Proof. intros. change 0x3f with (Z.ones 6). rewrite Z.land_ones by lia. reflexivity. Qed.

Lemma valid_encodable : forall c, 0 <= c -> (is_code_point_valid c = true <-> encodable c).
Proof. intros c H. unfold is_code_point_valid, encodable, in_range. lia. Qed.

Lemma append_spec : forall c, encodable c -> append c = Some (rfc3629 c).
Proof.
  intros c E. pose proof E as E'. unfold encodable in E'.
  unfold append. assert (c mod 2 ^ 32 = c) as -> by (apply Z.mod_small; lia).
  rewrite (proj2 (valid_encodable c ltac:(lia)) E). cbn [negb]. f_equal. unfold rfc3629.
  rewrite !land_3f, !shiftr_div by lia.
  change (2 ^ 6) with 64. change (2 ^ 12) with 4096. change (2 ^ 18) with 262144.
  clear E.
  destruct (Z.ltb_spec c 128); auto.
  destruct (Z.ltb_spec c 2048).
  { destruct (lor_checked (c / 64)) as (A & _). destruct (lor_checked (c mod 64)) as (_ & B & _).
    rewrite A, B by lia. auto. }
  destruct (Z.ltb_spec c 65536).
  { destruct (lor_checked (c / 4096)) as (_ & _ & A & _). destruct (lor_checked (c mod 64)) as (_ & B & _).
    destruct (lor_checked ((c / 64) mod 64)) as (_ & C & _).
    rewrite A, B, C by lia. auto. }
  destruct (lor_checked (c / 262144)) as (_ & _ & _ & A). destruct (lor_checked (c mod 64)) as (_ & B & _).
  destruct (lor_checked ((c / 64) mod 64)) as (_ & C & _). destruct (lor_checked ((c / 4096) mod 64)) as (_ & D & _).
  rewrite A, B, C, D by lia. auto.
Qed.

Lemma append_none : forall c, - 2 ^ 31 <= c < 2 ^ 31 -> ~ encodable c -> append c = None.
Proof.
  intros c R E. unfold append.
  destruct (is_code_point_valid (c mod 2 ^ 32)) eqn:V; auto. exfalso.
  assert (0 <= c mod 2 ^ 32) as P by (apply Z.mod_pos_bound; lia).
  apply valid_encodable in V; auto.
  destruct (Z_lt_dec c 0).
  - assert (c mod 2 ^ 32 = c + 2 ^ 32) as Q by (symmetry; apply Z.mod_unique with (-1); lia).
    unfold encodable in V. lia.
  - rewrite Z.mod_small in V by lia. auto.
Qed.

Lemma rfc3629_bytes : forall c, encodable c -> Forall byte (rfc3629 c).
Proof.
  intros c (H & _). unfold rfc3629, byte.
  destruct (Z.ltb_spec c 128); [repeat constructor; lia|].
  destruct (Z.ltb_spec c 2048); [repeat constructor; lia|].
  destruct (Z.ltb_spec c 65536); repeat constructor; lia.
Qed.

Lemma rfc3629_len : forall c, (1 <= length (rfc3629 c) <= 4)%nat.
Proof.
  intros c. unfold rfc3629. destruct (c <? 128), (c <? 2048), (c <? 65536); simpl; lia.
Qed.

(** Decoding a lead-class case. *)
Lemma next_checked_rfc : forall c r, encodable c -> next_checked (rfc3629 c ++ r) = Ok (Some (c, r)).
Proof.
  intros c r E. pose proof E as (H & S & F & G).
  pose proof (rfc3629_bytes c E) as B. pose proof (proj2 (valid_encodable c ltac:(lia)) E) as V.
  unfold rfc3629 in *.
  destruct (Z.ltb_spec c 128).
  { cbn [app]. unfold next_checked. inversion B; subst.
    rewrite sequence_length_spec by auto. destruct (Z.ltb_spec c 128); [|lia]. cbn [Z.eqb Pos.eqb get_sequence_1 tl].
    rewrite V. unfold is_overlong_sequence. destruct (Z.ltb_spec c 0x80); [|lia]. auto. }
  destruct (Z.ltb_spec c 2048).
  { cbn [app]. unfold next_checked. inversion B as [|? ? B0 B1]; subst. inversion B1 as [|? ? B2 B3]; subst.
    rewrite sequence_length_spec by auto.
    replace (192 + c / 64 <? 128) with false by lia.
    replace (in_range 192 223 (192 + c / 64)) with true by (unfold in_range; lia).
    cbn [Z.eqb Pos.eqb get_sequence_2]. rewrite is_trail_spec by auto.
    replace (in_range 128 191 (128 + c mod 64)) with true by (unfold in_range; lia).
    rewrite lead2_bits by lia. destruct (trail_bits (128 + c mod 64)) as (-> & _); [lia|].
    replace ((192 + c / 64 - 192) * 64 + (128 + c mod 64 - 128)) with c by lia.
    rewrite V. unfold is_overlong_sequence. replace (c <? 0x80) with false by lia. replace (c <? 0x800) with true by lia. auto. }
  destruct (Z.ltb_spec c 65536).
  { cbn [app]. unfold next_checked. inversion B as [|? ? B0 B1]; subst. inversion B1 as [|? ? B2 B3]; subst. inversion B3 as [|? ? B4 B5]; subst.
    rewrite sequence_length_spec by auto.
    replace (224 + c / 4096 <? 128) with false by lia.
    replace (in_range 192 223 (224 + c / 4096)) with false by (unfold in_range; lia).
    replace (in_range 224 239 (224 + c / 4096)) with true by (unfold in_range; lia).
    cbn [Z.eqb Pos.eqb get_sequence_3]. rewrite !is_trail_spec by auto.
    replace (in_range 128 191 (128 + c mod 64)) with true by (unfold in_range; lia).
    replace (in_range 128 191 (128 + (c / 64) mod 64)) with true by (unfold in_range; lia).
    rewrite lead3_bits by lia. destruct (trail_bits (128 + c mod 64)) as (-> & _); [lia|].
    destruct (trail_bits (128 + (c / 64) mod 64)) as (_ & -> & _); [lia|].
    replace ((224 + c / 4096 - 224) * 4096 + (128 + (c / 64) mod 64 - 128) * 64 + (128 + c mod 64 - 128)) with c by lia.
    rewrite V. unfold is_overlong_sequence. replace (c <? 0x80) with false by lia. replace (c <? 0x800) with false by lia.
    replace (c <? 0x10000) with true by lia. auto. }
  cbn [app]. unfold next_checked. inversion B as [|? ? B0 B1]; subst. inversion B1 as [|? ? B2 B3]; subst. inversion B3 as [|? ? B4 B5]; subst. inversion B5 as [|? ? B6 B7]; subst.
  rewrite sequence_length_spec by auto.
  replace (240 + c / 262144 <? 128) with false by lia.
  replace (in_range 192 223 (240 + c / 262144)) with false by (unfold in_range; lia).
  replace (in_range 224 239 (240 + c / 262144)) with false by (unfold in_range; lia).
  replace (in_range 240 247 (240 + c / 262144)) with true by (unfold in_range; lia).
  cbn [Z.eqb Pos.eqb get_sequence_4]. rewrite !is_trail_spec by auto.
  replace (in_range 128 191 (128 + c mod 64)) with true by (unfold in_range; lia).
  replace (in_range 128 191 (128 + (c / 64) mod 64)) with true by (unfold in_range; lia).
  replace (in_range 128 191 (128 + (c / 4096) mod 64)) with true by (unfold in_range; lia).
  rewrite lead4_bits by lia. destruct (trail_bits (128 + c mod 64)) as (-> & _); [lia|].
  destruct (trail_bits (128 + (c / 64) mod 64)) as (_ & -> & _); [lia|].
  destruct (trail_bits (128 + (c / 4096) mod 64)) as (_ & _ & ->); [lia|].
  replace ((240 + c / 262144 - 240) * 262144 + (128 + (c / 4096) mod 64 - 128) * 4096 + (128 + (c / 64) mod 64 - 128) * 64 + (128 + c mod 64 - 128)) with c by lia.
  rewrite V. unfold is_overlong_sequence. replace (c <? 0x80) with false by lia. replace (c <? 0x800) with false by lia.
  replace (c <? 0x10000) with false by lia. auto.
Qed.

Ltac inv_forall := repeat match goal with H : Forall _ (_ :: _) |- _ => inversion H; subst; clear H end.

Lemma next_checked_sound : forall it c r, Forall byte it -> next_checked it = Ok (Some (c, r)) ->
  encodable c /\ it = rfc3629 c ++ r.
Proof.
  intros it c r B H. destruct it as [|b0 it]; [discriminate|]. unfold next_checked in H.
  injection H as H. inversion B as [|? ? B0 B1]; subst.
  rewrite sequence_length_spec in H by auto.
  destruct (Z.ltb_spec b0 128).
  { cbn [Z.eqb Pos.eqb get_sequence_1] in H. destruct (is_code_point_valid b0) eqn:V; [|discriminate].
    apply valid_encodable in V; [|unfold byte in *; lia].
    unfold is_overlong_sequence in H. replace (b0 <? 0x80) with true in H by lia.
    cbn in H. injection H as <- <-. split; auto. unfold rfc3629. replace (b0 <? 128) with true by lia. auto. }
  destruct (in_range 192 223 b0) eqn:L2.
  { cbn [Z.eqb Pos.eqb get_sequence_2] in H. destruct it as [|b1 it]; [discriminate|]. inv_forall.
    rewrite is_trail_spec in H by auto. destruct (in_range 128 191 b1) eqn:T1; [|discriminate].
    apply in_range_spec in L2, T1. rewrite lead2_bits in H by lia. destruct (trail_bits b1 T1) as (E1 & _). rewrite E1 in H.
    set (cp := (b0 - 192) * 64 + (b1 - 128)) in *.
    destruct (is_code_point_valid cp) eqn:V; [|discriminate].
    apply valid_encodable in V; [|lia].
    unfold is_overlong_sequence in H.
    destruct (Z.ltb_spec cp 0x80); [discriminate|].
    destruct (Z.ltb_spec cp 0x800); [|lia].
    cbn in H. injection H as <- <-. split; auto. unfold rfc3629.
    replace (cp <? 128) with false by lia. replace (cp <? 2048) with true by lia.
    cbn [app]. f_equal; [lia|]. f_equal. lia. }
  destruct (in_range 224 239 b0) eqn:L3.
  { cbn [Z.eqb Pos.eqb get_sequence_3] in H. destruct it as [|b1 it]; [discriminate|]. inv_forall.
    rewrite is_trail_spec in H by auto. destruct (in_range 128 191 b1) eqn:T1; [|discriminate].
    destruct it as [|b2 it]; [discriminate|]. inv_forall.
    rewrite is_trail_spec in H by auto. destruct (in_range 128 191 b2) eqn:T2; [|discriminate].
    apply in_range_spec in L3, T1, T2. rewrite lead3_bits in H by lia.
    destruct (trail_bits b1 T1) as (_ & E1 & _). destruct (trail_bits b2 T2) as (E2 & _). rewrite E1, E2 in H.
    set (cp := (b0 - 224) * 4096 + (b1 - 128) * 64 + (b2 - 128)) in *.
    destruct (is_code_point_valid cp) eqn:V; [|discriminate].
    apply valid_encodable in V; [|lia].
    unfold is_overlong_sequence in H.
    destruct (Z.ltb_spec cp 0x80); [discriminate|].
    destruct (Z.ltb_spec cp 0x800); [discriminate|].
    destruct (Z.ltb_spec cp 0x10000); [|lia].
    cbn in H. injection H as <- <-. split; auto. unfold rfc3629.
    replace (cp <? 128) with false by lia. replace (cp <? 2048) with false by lia. replace (cp <? 65536) with true by lia.
    cbn [app]. f_equal; [lia|]. f_equal; [lia|]. f_equal. lia. }
  destruct (in_range 240 247 b0) eqn:L4; [|discriminate].
  cbn [Z.eqb Pos.eqb get_sequence_4] in H. destruct it as [|b1 it]; [discriminate|]. inv_forall.
  rewrite is_trail_spec in H by auto. destruct (in_range 128 191 b1) eqn:T1; [|discriminate].
  destruct it as [|b2 it]; [discriminate|]. inv_forall.
  rewrite is_trail_spec in H by auto. destruct (in_range 128 191 b2) eqn:T2; [|discriminate].
  destruct it as [|b3 it]; [discriminate|]. inv_forall.
  rewrite is_trail_spec in H by auto. destruct (in_range 128 191 b3) eqn:T3; [|discriminate].
  apply in_range_spec in L4, T1, T2, T3. rewrite lead4_bits in H by lia.
  destruct (trail_bits b1 T1) as (_ & _ & E1). destruct (trail_bits b2 T2) as (_ & E2 & _). destruct (trail_bits b3 T3) as (E3 & _).
  rewrite E1, E2, E3 in H.
  set (cp := (b0 - 240) * 262144 + (b1 - 128) * 4096 + (b2 - 128) * 64 + (b3 - 128)) in *.
  destruct (is_code_point_valid cp) eqn:V; [|discriminate].
  apply valid_encodable in V; [|lia].
  unfold is_overlong_sequence in H.
  destruct (Z.ltb_spec cp 0x80); [discriminate|].
  destruct (Z.ltb_spec cp 0x800); [discriminate|].
  destruct (Z.ltb_spec cp 0x10000); [discriminate|].
  cbn in H. injection H as <- <-. split; auto. unfold rfc3629.
  replace (cp <? 128) with false by lia. replace (cp <? 2048) with false by lia. replace (cp <? 65536) with false by lia.
  cbn [app]. f_equal; [lia|]. f_equal; [lia|]. f_equal; [lia|]. f_equal. lia.
Qed.

Lemma next_checked_total : forall it, it <> [] -> exists o, next_checked it = Ok o.
Proof. intros [|b it] H; [congruence|]. unfold next_checked. eauto. Qed.

(** The unchecked decoder agrees with the checked one where that succeeds. *)
Lemma next_unchecked_agree : forall it c r, next_checked it = Ok (Some (c, r)) -> next_unchecked it = Ok (c, r).
Proof.
  intros it c r H. destruct it as [|b0 it]; [discriminate|]. unfold next_checked in H. injection H as H.
  unfold next_unchecked.
  destruct (Z.eqb_spec (sequence_length b0) 1) as [e|_].
  { rewrite e in *. cbn in H. cbn [Z.eqb Pos.eqb].
    destruct (is_code_point_valid b0), (negb (is_overlong_sequence b0 1)); congruence. }
  destruct (Z.eqb_spec (sequence_length b0) 2) as [e|_].
  { rewrite e in *. unfold get_sequence_2 in H. destruct it as [|b1 it]; [discriminate|].
    destruct (is_trail b1); [|discriminate].
    do 2 (match type of H with (if ?b then _ else None) = Some _ => destruct b; [|discriminate H] end). injection H as <- <-. auto. }
  destruct (Z.eqb_spec (sequence_length b0) 3) as [e|_].
  { rewrite e in *. unfold get_sequence_3 in H. destruct it as [|b1 it]; [discriminate|].
    destruct (is_trail b1); [|discriminate]. destruct it as [|b2 it]; [discriminate|]. destruct (is_trail b2); [|discriminate].
    do 2 (match type of H with (if ?b then _ else None) = Some _ => destruct b; [|discriminate H] end). injection H as <- <-. auto. }
  destruct (Z.eqb_spec (sequence_length b0) 4) as [e|_]; [|discriminate].
  rewrite e in *. unfold get_sequence_4 in H. destruct it as [|b1 it]; [discriminate|].
  destruct (is_trail b1); [|discriminate]. destruct it as [|b2 it]; [discriminate|]. destruct (is_trail b2); [|discriminate].
  destruct it as [|b3 it]; [discriminate|]. destruct (is_trail b3); [|discriminate].
  do 2 (match type of H with (if ?b then _ else None) = Some _ => destruct b; [|discriminate H] end). injection H as <- <-. auto.
Qed.

(** ** Strings *)
Lemma utf8_text_cons : forall c w, utf8_text (c :: w) = rfc3629 c ++ utf8_text w.
Proof. reflexivity. Qed.

Lemma utf8_text_app : forall a b, utf8_text (a ++ b) = utf8_text a ++ utf8_text b.
Proof. intros; unfold utf8_text; rewrite map_app, concat_app; auto. Qed.

Lemma utf8_text_len : forall w, (length w <= length (utf8_text w) <= 4 * length w)%nat.
Proof.
  induction w; [simpl; lia|]. rewrite utf8_text_cons, app_length. pose proof (rfc3629_len a). cbn [length]. lia.
Qed.

Lemma utf8_text_bytes : forall w, Forall encodable w -> Forall byte (utf8_text w).
Proof.
  induction w; intros H; [constructor|]. inversion H; subst. rewrite utf8_text_cons.
  apply Forall_app. split; auto. apply rfc3629_bytes; auto.
Qed.

Lemma distance_loop_encoded : forall w fuel d, Forall encodable w -> (length (utf8_text w) <= fuel)%nat ->
  distance_loop fuel (utf8_text w) d = Ok (Some (d + length w)%nat).
Proof.
  induction w; intros fuel d E F.
  - destruct fuel; simpl; f_equal; f_equal; lia.
  - inversion E; subst. rewrite utf8_text_cons in *. rewrite app_length in F. pose proof (rfc3629_len a).
    destruct fuel; [lia|].
    assert (exists x y, rfc3629 a ++ utf8_text w = x :: y) as (x & y & Q).
    { destruct (rfc3629 a); simpl in *; [lia|eauto]. }
    cbn [distance_loop]. rewrite Q. rewrite <- Q. rewrite next_checked_rfc by auto. cbn [bind].
    rewrite IHw by (auto; lia). f_equal. f_equal. cbn [length]. lia.
Qed.

Lemma distance_loop_sound : forall fuel it d n, Forall byte it -> distance_loop fuel it d = Ok (Some n) ->
  exists w, encodes it w /\ (n = d + length w)%nat.
Proof.
  induction fuel; intros it d n B H; destruct it as [|b it]; cbn [distance_loop] in H.
  - injection H as <-. exists []. split; [split; [constructor|reflexivity]|simpl; lia].
  - discriminate.
  - injection H as <-. exists []. split; [split; [constructor|reflexivity]|simpl; lia].
  - apply bind_ok in H. destruct H as (o & H1 & H2). destruct o as [[c it']|]; [|discriminate].
    apply next_checked_sound in H1; auto. destruct H1 as [E Q].
    assert (Forall byte it') as B' by (rewrite Q in B; apply Forall_app in B; tauto).
    apply IHfuel in H2; auto. destruct H2 as (w & (Ew & ->) & ->).
    exists (c :: w). split; [split; [constructor; auto | rewrite utf8_text_cons; auto]|]. cbn [length]. lia.
Qed.

Lemma next_checked_shrinks : forall it c it', next_checked it = Ok (Some (c, it')) -> (length it' < length it)%nat.
Proof.
  intros it c r H. apply next_unchecked_agree in H.
  destruct it as [|b0 it]; [discriminate|]. unfold next_unchecked in H.
  destruct (sequence_length b0 =? 2).
  { destruct it; [discriminate|]. injection H as _ <-. simpl; lia. }
  destruct (sequence_length b0 =? 3).
  { destruct it as [|? [|? ?]]; try discriminate. injection H as _ <-. simpl; lia. }
  destruct (sequence_length b0 =? 4).
  { destruct it as [|? [|? [|? ?]]]; try discriminate. injection H as _ <-. simpl; lia. }
  injection H as _ <-. simpl; lia.
Qed.

Lemma distance_loop_total : forall fuel it d, (length it <= fuel)%nat -> exists o, distance_loop fuel it d = Ok o.
Proof.
  induction fuel; intros it d H; destruct it as [|b it]; cbn [distance_loop]; eauto.
  - simpl in H; lia.
  - destruct (next_checked_total (b :: it) ltac:(discriminate)) as [o E]. rewrite E. cbn [bind].
    destruct o as [[c it']|]; eauto. apply IHfuel. apply next_checked_shrinks in E. cbn [length] in *. lia.
Qed.

Lemma doUcs4_encoded : forall w r, Forall encodable w -> doUcs4FromUtf8 (utf8_text w ++ r) (length w) = Ok w.
Proof.
  induction w; intros r H; [reflexivity|]. inversion H; subst. rewrite utf8_text_cons, <- app_assoc.
  cbn [length doUcs4FromUtf8]. rewrite (next_unchecked_agree _ a (utf8_text w ++ r)) by (apply next_checked_rfc; auto).
  cbn [bind]. rewrite IHw; auto.
Qed.

Lemma ucs4FromUtf8_encoded : forall w, Forall encodable w -> ucs4FromUtf8 (utf8_text w) = Ok (Some w).
Proof.
  intros w H. unfold ucs4FromUtf8, distance. rewrite distance_loop_encoded by auto. cbn [bind].
  rewrite Nat.add_0_l. rewrite <- (app_nil_r (utf8_text w)). rewrite doUcs4_encoded; auto.
Qed.

Lemma ucs4FromUtf8_total : forall bytes, Forall byte bytes -> 
  (exists w, ucs4FromUtf8 bytes = Ok (Some w) /\ encodes bytes w) \/
  (ucs4FromUtf8 bytes = Ok None /\ forall w, ~ encodes bytes w).
Proof.
  intros bytes B. unfold ucs4FromUtf8, distance.
  destruct (distance_loop_total (length bytes) bytes 0 ltac:(lia)) as [[n|] E]; rewrite E; cbn [bind].
  - left. apply distance_loop_sound in E; auto. destruct E as (w & (Ew & ->) & ->). rewrite Nat.add_0_l.
    exists w. rewrite <- (app_nil_r (utf8_text w)) at 1. rewrite doUcs4_encoded by auto. split; [auto|split; auto].
  - right. split; auto. intros w (Ew & ->). rewrite distance_loop_encoded in E by auto. discriminate.
Qed.

Lemma encodes_unique : forall bytes w w', encodes bytes w -> encodes bytes w' -> w = w'.
Proof.
  intros bytes w w' (E & ->) (E' & Q).
  pose proof (ucs4FromUtf8_encoded w E) as A. rewrite Q in A. rewrite ucs4FromUtf8_encoded in A by auto. congruence.
Qed.

Lemma append_all_encoded : forall w, Forall encodable w -> append_all w = Some (utf8_text w) /\ append_prefix w = utf8_text w.
Proof.
  induction w; intros H; [split; reflexivity|]. inversion H; subst. destruct IHw as [A B]; auto.
  cbn [append_all append_prefix]. rewrite append_spec by auto. rewrite A, B. split; auto.
Qed.

Lemma append_len : forall c b, append c = Some b -> (length b <= 4)%nat.
Proof.
  intros c b. unfold append. destruct (negb _); [discriminate|].
  destruct (c mod 2 ^ 32 <? 0x80), (c mod 2 ^ 32 <? 0x800), (c mod 2 ^ 32 <? 0x10000); intros H; injection H as <-; simpl; lia.
Qed.

Lemma append_prefix_len : forall w, (length (append_prefix w) <= 4 * length w)%nat.
Proof.
  induction w; cbn [append_prefix]; [simpl; lia|]. destruct (append a) eqn:A; [|simpl; lia].
  apply append_len in A. rewrite app_length. cbn [length]. lia.
Qed.

Lemma utf8FromUcs4_ok : forall w, utf8FromUcs4 w = Ok (append_all w).
Proof.
  intros w. unfold utf8FromUcs4. pose proof (append_prefix_len w).
  destruct (Nat.leb_spec (length (append_prefix w) + 1) (length w * 6 + 1)); auto; lia.
Qed.

Lemma append_all_none : forall w, Forall (fun c => - 2 ^ 31 <= c < 2 ^ 31) w -> ~ Forall encodable w -> append_all w = None.
Proof.
  induction w; intros R H; [elim H; constructor|]. inversion R; subst. cbn [append_all].
  assert (encodable a \/ ~ encodable a) as [E|E] by (unfold encodable; lia).
  - rewrite append_spec by auto. rewrite IHw; auto.
  - rewrite append_none; auto.
Qed.

(** ** The bounded conversion *)
Lemma next_unchecked_ok : forall it, (4 <= length it)%nat -> exists c it', next_unchecked it = Ok (c, it') /\
  (length it - 4 <= length it' <= length it)%nat.
Proof.
  intros it H. destruct it as [|b0 [|b1 [|b2 [|b3 it]]]]; simpl in H; try lia.
  unfold next_unchecked.
  destruct (sequence_length b0 =? 2); [do 2 eexists; split; [reflexivity|simpl; lia]|].
  destruct (sequence_length b0 =? 3); [do 2 eexists; split; [reflexivity|simpl; lia]|].
  destruct (sequence_length b0 =? 4); do 2 eexists; (split; [reflexivity|simpl; lia]).
Qed.

Lemma doUcs4_ok : forall n it, (4 * n <= length it)%nat -> exists w, doUcs4FromUtf8 it n = Ok w /\ length w = n.
Proof.
  induction n; intros it H; cbn [doUcs4FromUtf8]; [exists []; auto|].
  destruct (next_unchecked_ok it ltac:(lia)) as (c & it' & E & L). rewrite E. cbn [bind].
  destruct (IHn it' ltac:(lia)) as (w & E' & L'). rewrite E'. cbn [bind]. exists (c :: w). simpl; auto.
Qed.

Lemma ucs4FromUtf8_max_encoded : forall w m, Forall encodable w -> ucs4FromUtf8_max (utf8_text w) m = Ok (Some (firstn m w)).
Proof.
  intros w m H. unfold ucs4FromUtf8_max.
  assert (forall k, (k <= length w)%nat -> doUcs4FromUtf8 (utf8_text w) k = Ok (firstn k w)) as D.
  { intros k L. rewrite <- (firstn_skipn k w) at 1. rewrite utf8_text_app.
    assert (k = length (firstn k w)) as K by (rewrite firstn_length; lia). rewrite K at 3.
    apply doUcs4_encoded. apply Forall_forall. intros x Hx. rewrite Forall_forall in H. apply H.
    rewrite <- (firstn_skipn k w). apply in_or_app; auto. }
  destruct (Nat.ltb_spec (m * 6 + 1) (length (utf8_text w))) as [L|L].
  - pose proof (utf8_text_len w). rewrite D by lia. auto.
  - unfold distance. rewrite distance_loop_encoded by auto. cbn [bind]. rewrite Nat.add_0_l.
    rewrite D by lia. cbn [bind]. destruct (Nat.min_spec (length w) m) as [[? ->]|[? ->]]; auto.
    rewrite !firstn_all2 by lia. auto.
Qed.

Lemma distance_loop_bound : forall fuel it d n, Forall byte it -> distance_loop fuel it d = Ok (Some n) -> (n <= d + length it)%nat.
Proof.
  intros fuel it d n B H. apply distance_loop_sound in H; auto. destruct H as (w & (_ & ->) & ->).
  pose proof (utf8_text_len w). lia.
Qed.

Lemma ucs4FromUtf8_max_safe : forall bytes m, Forall byte bytes -> exists o, ucs4FromUtf8_max bytes m = Ok o.
Proof.
  intros bytes m B. unfold ucs4FromUtf8_max.
  destruct (Nat.ltb_spec (m * 6 + 1) (length bytes)) as [L|L].
  - destruct (doUcs4_ok m bytes ltac:(lia)) as (w & -> & _). cbn [bind]. eauto.
  - unfold distance. destruct (distance_loop_total (length bytes) bytes 0 ltac:(lia)) as [[n|] E]; rewrite E; cbn [bind]; eauto.
    apply distance_loop_sound in E; auto. destruct E as (w & (Ew & ->) & ->).
    pose proof (ucs4FromUtf8_max_encoded w (Nat.min (length w) m) Ew) as Q.
    rewrite Nat.add_0_l.
    assert (forall k, (k <= length w)%nat -> doUcs4FromUtf8 (utf8_text w) k = Ok (firstn k w)) as D.
    { intros k Lk. rewrite <- (firstn_skipn k w) at 1. rewrite utf8_text_app.
      assert (k = length (firstn k w)) as K by (rewrite firstn_length; lia). rewrite K at 3.
      apply doUcs4_encoded. apply Forall_forall. intros x Hx. rewrite Forall_forall in Ew. apply Ew.
      rewrite <- (firstn_skipn k w). apply in_or_app; auto. }
    rewrite D by lia. cbn [bind]. eauto.
Qed.
