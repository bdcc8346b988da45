(** Lemmas about the spell checker cache. *)
From Verif Require Import Base BaseFacts SpellerBase CacheModel.

Definition okch (c : Z) : Prop := 1 <= c <= 0x10FFFF.

Definition slice (b : list Z) (o n : nat) : list Z := firstn n (skipn o b).

Lemma slice_len : forall b o n, (o + n <= length b)%nat -> length (slice b o n) = n.
Proof. intros. unfold slice. rewrite firstn_length, skipn_length. lia. Qed.

Lemma slice_ext : forall b b' o n, (forall i, (o <= i < o + n)%nat -> nth_error b i = nth_error b' i) ->
  slice b o n = slice b' o n.
Proof.
  intros b b' o n H. apply nth_error_ext. intros i. unfold slice.
  destruct (Nat.lt_ge_cases i n).
  - rewrite !nth_error_firstn_lt, !nth_error_skipn by lia. apply H. lia.
  - rewrite (proj2 (nth_error_None (firstn n (skipn o b)) i)), (proj2 (nth_error_None (firstn n (skipn o b')) i)); auto;
    rewrite firstn_length; lia.
Qed.

Lemma slice_cons : forall b o n x, nth_error b o = Some x -> slice b o (S n) = x :: slice b (S o) n.
Proof. intros. unfold slice. rewrite (skipn_cons_nth _ _ _ _ H). reflexivity. Qed.

Lemma wcsncmp_eq_slice : forall w b o, ~ In 0 w -> 0 <= o -> (Z.to_nat o + length w <= length b)%nat ->
  wcsncmp_eq b o w = Ok (zlist_eqb (slice b (Z.to_nat o) (length w)) w).
Proof.
  induction w as [|c r IH]; intros b o N H0 L; [reflexivity|].
  cbn [wcsncmp_eq length] in *. unfold rdz. rewrite (proj2 (Z.leb_le 0 o)) by lia.
  destruct (rd_lt _ b (Z.to_nat o)) as (x & Hx & Hn); [lia|]. rewrite Hx. cbn [bind].
  rewrite (slice_cons _ _ _ _ Hn). cbn [zlist_eqb].
  destruct (x =? c) eqn:E; [|reflexivity].
  destruct (x =? 0) eqn:Z0. { exfalso. apply N. left. lia. }
  rewrite IH; [|intros C; apply N; right; auto|lia|lia].
  replace (Z.to_nat (o + 1)) with (S (Z.to_nat o)) by lia. reflexivity.
Qed.

Lemma wcsncpy_spec : forall w b o, ~ In 0 w -> 0 <= o -> (Z.to_nat o + length w <= length b)%nat ->
  exists b', wcsncpy b o w = Ok b' /\ length b' = length b /\
  slice b' (Z.to_nat o) (length w) = w /\
  (forall i, (i < Z.to_nat o \/ Z.to_nat o + length w <= i)%nat -> nth_error b' i = nth_error b i).
Proof.
  induction w as [|c r IH]; intros b o N H0 L.
  - exists b. repeat split; auto.
  - cbn [wcsncpy length] in *. replace (c =? 0) with false by (symmetry; apply Z.eqb_neq; intros ->; apply N; left; auto).
    unfold wrz. rewrite (proj2 (Z.leb_le 0 o)) by lia. unfold wr. rewrite (proj2 (Nat.ltb_lt _ _)) by lia. cbn [bind].
    destruct (IH (upd b (Z.to_nat o) c) (o + 1)) as (b' & E & Ln & Sl & Fr).
    { intros C; apply N; right; auto. } { lia. } { rewrite upd_length. lia. }
    exists b'. split; [auto|]. rewrite upd_length in Ln. split; [auto|].
    replace (Z.to_nat (o + 1)) with (S (Z.to_nat o)) in * by lia.
    split.
    + rewrite (slice_cons _ _ _ c); [rewrite Sl; auto|]. rewrite Fr by lia. apply upd_nth_same. lia.
    + intros i Hi. rewrite Fr by lia. apply upd_nth_other. lia.
Qed.

(** ** Hash values and offsets *)
Fixpoint hashp (order : Z) (w : list Z) (h : Z) : Z :=
  match w with [] => h | c :: r => hashp order r ((h * 37 + c) mod 2 ^ order) end.

Lemma hashp_range : forall order w h, 0 <= order -> 0 <= h < 2 ^ order -> 0 <= hashp order w h < 2 ^ order.
Proof.
  induction w; intros; cbn [hashp]; auto. apply IHw; auto. apply Z.mod_pos_bound. lia.
Qed.

Lemma ck_ok : forall x, - 2 ^ 31 <= x <= 2 ^ 31 - 1 -> ck x = Ok x.
Proof. intros. unfold ck. rewrite (proj2 (in_range_spec _ _ _)); auto. Qed.

Lemma shl_ok : forall a n, 0 <= n < 32 -> 0 <= a * 2 ^ n <= 2 ^ 31 - 1 -> shl a n = Ok (a * 2 ^ n).
Proof.
  intros. unfold shl. rewrite (proj2 (Z.leb_le 0 n)), (proj2 (Z.ltb_lt n 32)) by lia. cbn [andb]. apply ck_ok. lia.
Qed.

Lemma pow_bound : forall n m, 0 <= n <= m -> 1 <= 2 ^ n <= 2 ^ m.
Proof. intros. split. { pose proof (Z.pow_pos_nonneg 2 n). lia. } apply Z.pow_le_mono_r; lia. Qed.

Lemma hash_ok : forall order w h, 0 <= order <= 25 -> Forall okch w -> 0 <= h < 2 ^ order ->
  hash_loop w order h = Ok (hashp order w h).
Proof.
  induction w as [|c r IH]; intros h O F H; [reflexivity|]. cbn [hash_loop hashp]. inversion F as [|? ? Hc Hr]; subst. unfold okch in Hc.
  pose proof (pow_bound order 25 O) as P. change (2 ^ 25) with 33554432 in P.
  rewrite (ck_ok (h * 37)) by lia. cbn [bind]. rewrite ck_ok by lia. cbn [bind].
  rewrite shl_ok by lia. cbn [bind]. rewrite Z.mul_1_l.
  rewrite Z.rem_mod_nonneg by lia. apply IH; auto. apply Z.mod_pos_bound. lia.
Qed.

Definition ord (n : nat) : Z := nth n HASH_ORDERS 0.
Definition co (n : nat) : Z := nth n CACHE_OFFSETS 0.
Definition mo (n : nat) : Z := nth n META_OFFSETS 0.
Definition hv (s : Z) (w : list Z) : Z := hashp (ord (length w) + s) w 0.
Definition woff (s : Z) (w : list Z) : Z := co (length w) * 2 ^ s + hv s w * Z.of_nat (length w).
Definition roff (s : Z) (w : list Z) : Z := mo (length w) * 2 ^ s + hv s w.

Definition sized (n : nat) : Prop := (1 <= n <= 10)%nat.

Ltac ten n H := assert (n = 1 \/ n = 2 \/ n = 3 \/ n = 4 \/ n = 5 \/ n = 6 \/ n = 7 \/ n = 8 \/ n = 9 \/ n = 10)%nat as H by (unfold sized in *; lia).
Ltac ten_cases H := destruct H as [H|[H|[H|[H|[H|[H|[H|[H|[H|H]]]]]]]]].

(** The regions of the tables used by different word lengths. *)
Lemma region : forall n s, sized n -> 0 <= s ->
  2 ^ (ord n + s) = 2 ^ ord n * 2 ^ s /\
  co n + 2 ^ ord n * Z.of_nat n <= (if Nat.eqb n 10 then 6544 else co (S n)) /\
  mo n + 2 ^ ord n <= (if Nat.eqb n 10 then 1008 else mo (S n)) /\ 0 <= co n /\ 0 <= mo n /\ 0 <= ord n <= 7 /\
  co n <= 5264 /\ mo n <= 880.
Proof.
  intros n s H Hs. ten n T. ten_cases T; subst n; (split; [apply Z.pow_add_r; cbn; lia|]); vm_compute; repeat split; congruence.
Qed.

Lemma co_mono : forall n m, sized n -> sized m -> (n < m)%nat -> co n + 2 ^ ord n * Z.of_nat n <= co m /\ mo n + 2 ^ ord n <= mo m.
Proof.
  intros n m H H' L. ten n T. ten m T'. ten_cases T; subst n; ten_cases T'; subst m; try lia; vm_compute; split; congruence.
Qed.

Lemma region_fit : forall n s, sized n -> 0 <= s ->
  co n + 2 ^ ord n * Z.of_nat n <= 6544 /\ mo n + 2 ^ ord n <= 1008.
Proof.
  intros n s H Hs. ten n T. ten_cases T; subst n; vm_compute; split; congruence.
Qed.

Lemma hv_range : forall s w, sized (length w) -> 0 <= s -> 0 <= hv s w < 2 ^ ord (length w) * 2 ^ s.
Proof.
  intros. destruct (region (length w) s) as (E & _ & _ & _ & _ & O & _); auto. rewrite <- E.
  apply hashp_range; [lia|]. pose proof (pow_bound (ord (length w) + s) (ord (length w) + s)). lia.
Qed.

Lemma woff_range : forall s w, sized (length w) -> 0 <= s ->
  0 <= co (length w) * 2 ^ s <= woff s w /\
  woff s w + Z.of_nat (length w) <= (co (length w) + 2 ^ ord (length w) * Z.of_nat (length w)) * 2 ^ s.
Proof.
  intros s w H Hs. destruct (region (length w) s) as (E & _ & _ & C & _ & _ & _); auto.
  pose proof (hv_range s w H Hs) as V. pose proof (pow_bound s s). unfold woff.
  set (P := 2 ^ s) in *. set (Q := 2 ^ ord (length w)) in *. set (n := Z.of_nat (length w)) in *.
  assert (0 < n) by (unfold n; unfold sized in H; lia).
  assert (hv s w * n <= (Q * P - 1) * n) by (apply Z.mul_le_mono_nonneg_r; lia).
  split; [split; [apply Z.mul_nonneg_nonneg; lia|assert (0 <= hv s w * n) by (apply Z.mul_nonneg_nonneg; lia); lia]|].
  replace ((co (length w) + Q * n) * P) with (co (length w) * P + ((Q * P - 1) * n + n)) by ring. lia.
Qed.

Lemma roff_range : forall s w, sized (length w) -> 0 <= s ->
  0 <= mo (length w) * 2 ^ s <= roff s w /\ roff s w < (mo (length w) + 2 ^ ord (length w)) * 2 ^ s.
Proof.
  intros s w H Hs. destruct (region (length w) s) as (E & _ & _ & _ & C & _ & _); auto.
  pose proof (hv_range s w H Hs) as V. pose proof (pow_bound s s). unfold roff.
  rewrite Z.mul_add_distr_r. split; [split; [apply Z.mul_nonneg_nonneg; lia|lia]|lia].
Qed.

(** Different slots do not overlap. *)
Lemma slots_disjoint : forall s u v, 0 <= s -> sized (length u) -> sized (length v) ->
  (length u <> length v \/ hv s u <> hv s v) ->
  roff s u <> roff s v /\
  (woff s u + Z.of_nat (length u) <= woff s v \/ woff s v + Z.of_nat (length v) <= woff s u).
Proof.
  assert (forall s u v, 0 <= s -> sized (length u) -> sized (length v) -> (length u < length v)%nat ->
    roff s u < roff s v /\ woff s u + Z.of_nat (length u) <= woff s v) as A.
  { intros s u v Hs Hu Hv L. destruct (co_mono _ _ Hu Hv L) as (C & M).
    destruct (woff_range s u Hu Hs) as (_ & W). destruct (woff_range s v Hv Hs) as ((_ & W') & _).
    destruct (roff_range s u Hu Hs) as (_ & R). destruct (roff_range s v Hv Hs) as ((_ & R') & _).
    pose proof (pow_bound s s) as P.
    assert ((co (length u) + 2 ^ ord (length u) * Z.of_nat (length u)) * 2 ^ s <= co (length v) * 2 ^ s) by (apply Z.mul_le_mono_nonneg_r; lia).
    assert ((mo (length u) + 2 ^ ord (length u)) * 2 ^ s <= mo (length v) * 2 ^ s) by (apply Z.mul_le_mono_nonneg_r; lia).
    lia. }
  intros s u v Hs Hu Hv D.
  destruct (Nat.lt_trichotomy (length u) (length v)) as [L|[E|L]].
  - destruct (A s u v) as (R & W); auto. split; lia.
  - destruct D as [D|D]; [lia|]. unfold roff, woff. rewrite <- E. split; [lia|].
    assert (0 < Z.of_nat (length u)) by (unfold sized in Hu; lia).
    destruct (Z.lt_total (hv s u) (hv s v)) as [G|[G|G]]; [left|lia|right].
    + assert ((hv s u + 1) * Z.of_nat (length u) <= hv s v * Z.of_nat (length u)) by (apply Z.mul_le_mono_nonneg_r; lia). lia.
    + assert ((hv s v + 1) * Z.of_nat (length u) <= hv s u * Z.of_nat (length u)) by (apply Z.mul_le_mono_nonneg_r; lia). lia.
  - destruct (A s v u) as (R & W); auto. split; lia.
Qed.

Definition cache_wf (c : spell_cache) : Prop :=
  0 <= sizeParam c <= 18 /\
  Z.of_nat (length (words c)) = 6544 * 2 ^ sizeParam c /\
  Z.of_nat (length (spellResults c)) = 1008 * 2 ^ sizeParam c.

Lemma new_cache_ok : forall s, 0 <= s <= 18 -> exists c, new_cache s = Ok c /\ cache_wf c /\ sizeParam c = s /\
  words c = repeat 0 (Z.to_nat (6544 * 2 ^ s)).
Proof.
  intros s H. unfold new_cache. pose proof (pow_bound s 18 H) as P. change (2 ^ 18) with 262144 in P.
  rewrite shl_ok by lia. cbn [bind]. eexists. split; [reflexivity|]. unfold cache_wf.
  cbn [sizeParam words spellResults]. rewrite !repeat_length. repeat split; lia.
Qed.

Lemma rd_nth : forall (l : list Z) n d, (n < length l)%nat -> rd l n = Ok (nth n l d).
Proof.
  intros. unfold rd. rewrite (nth_error_nth' l d) by auto. reflexivity.
Qed.

Lemma nul_free : forall w, Forall okch w -> ~ In 0 w.
Proof. intros w F C. rewrite Forall_forall in F. specialize (F 0 C). unfold okch in F. lia. Qed.

Section Fixed.
  Variable c : spell_cache.
  Hypothesis WF : cache_wf c.
  Let s := sizeParam c.

  Lemma offsets_ok : forall w, Forall okch w -> sized (length w) ->
    hash_code c w = Ok (hv s w) /\ cache_offset c w (hv s w) = Ok (woff s w) /\ result_offset c w (hv s w) = Ok (roff s w) /\
    0 <= woff s w /\ (Z.to_nat (woff s w) + length w <= length (words c))%nat /\
    0 <= roff s w /\ (Z.to_nat (roff s w) < length (spellResults c))%nat.
  Proof.
    intros w F L. destruct WF as (S1 & S2 & S3). fold s in S1, S2, S3.
    destruct (region (length w) s) as (E & _ & _ & C & M & O & C' & M'); [auto|lia|].
    destruct (region_fit (length w) s) as (B1 & B2); [auto|lia|].
    pose proof (woff_range s w L ltac:(lia)) as (W1 & W2). pose proof (roff_range s w L ltac:(lia)) as (R1 & R2).
    pose proof (hv_range s w L ltac:(lia)) as V.
    pose proof (pow_bound s 18 S1) as P. change (2 ^ 18) with 262144 in P.
    pose proof (pow_bound (ord (length w)) 7 O) as Q. change (2 ^ 7) with 128 in Q.
    assert (2 ^ ord (length w) * 2 ^ s <= 128 * 262144) as PQ by (apply Z.mul_le_mono_nonneg; lia).
    assert ((co (length w) + 2 ^ ord (length w) * Z.of_nat (length w)) * 2 ^ s <= 6544 * 2 ^ s) by (apply Z.mul_le_mono_nonneg_r; lia).
    assert ((mo (length w) + 2 ^ ord (length w)) * 2 ^ s <= 1008 * 2 ^ s) by (apply Z.mul_le_mono_nonneg_r; lia).
    assert (co (length w) * 2 ^ s <= 6544 * 262144) by (apply Z.mul_le_mono_nonneg; lia).
    assert (mo (length w) * 2 ^ s <= 1008 * 262144) by (apply Z.mul_le_mono_nonneg; lia).
    assert (hv s w * Z.of_nat (length w) <= (128 * 262144) * 10) by (apply Z.mul_le_mono_nonneg; unfold sized in L; lia).
    assert (0 <= hv s w * Z.of_nat (length w)) by (apply Z.mul_nonneg_nonneg; lia).
    assert (length w < 11)%nat by (unfold sized in L; lia).
    split; [|split; [|split]].
    - unfold hash_code. rewrite (rd_nth _ _ 0) by auto. cbn [bind]. fold (ord (length w)). fold s.
      rewrite ck_ok by lia. cbn [bind]. unfold voikko_hash. apply hash_ok; auto; [lia|].
      pose proof (pow_bound (ord (length w) + s) (ord (length w) + s)). lia.
    - unfold cache_offset. rewrite (rd_nth _ _ 0) by auto. cbn [bind]. fold (co (length w)). fold s.
      rewrite shl_ok by lia. cbn [bind]. rewrite ck_ok by lia. cbn [bind]. apply ck_ok. unfold woff in *. lia.
    - unfold result_offset. rewrite (rd_nth _ _ 0) by auto. cbn [bind]. fold (mo (length w)). fold s.
      rewrite shl_ok by lia. cbn [bind]. apply ck_ok. unfold roff in *. lia.
    - clear - S2 S3 W1 W2 R1 R2 H H0. lia.
  Qed.

  Definition in_slot (w : list Z) : Prop := slice (words c) (Z.to_nat (woff s w)) (length w) = w.

  Lemma isInCache_ok : forall w, Forall okch w -> sized (length w) ->
    exists b, isInCache c w = Ok b /\ (b = true <-> in_slot w).
  Proof.
    intros w F L. destruct (offsets_ok w F L) as (A & B & _ & D & E & _). unfold isInCache.
    rewrite (proj2 (Nat.ltb_ge 10 (length w))) by (unfold sized in L; lia). rewrite A. cbn [bind]. rewrite B. cbn [bind].
    rewrite wcsncmp_eq_slice; auto using nul_free. eexists. split; [reflexivity|]. rewrite zlist_eqb_eq. reflexivity.
  Qed.

  Lemma getSpellResult_ok : forall w, Forall okch w -> sized (length w) ->
    exists r, nth_error (spellResults c) (Z.to_nat (roff s w)) = Some r /\
    getSpellResult c w = Ok (if r =? 0x69 then SPELL_CAP_FIRST else SPELL_OK).
  Proof.
    intros w F L. destruct (offsets_ok w F L) as (A & _ & B & _ & _ & D & E). unfold getSpellResult.
    rewrite A. cbn [bind]. rewrite B. cbn [bind]. unfold rdz. rewrite (proj2 (Z.leb_le 0 _)) by auto.
    destruct (rd_lt _ _ _ E) as (r & R1 & R2). rewrite R1. exists r. auto.
  Qed.

  Lemma setSpellResult_ok : forall w r, Forall okch w -> sized (length w) -> r = SPELL_OK \/ r = SPELL_CAP_FIRST ->
    exists c', setSpellResult c w r = Ok c' /\ cache_wf c' /\ sizeParam c' = s /\
    slice (words c') (Z.to_nat (woff s w)) (length w) = w /\
    nth_error (spellResults c') (Z.to_nat (roff s w)) = Some (match r with SPELL_OK => 0x70 | _ => 0x69 end) /\
    (forall u, sized (length u) -> (length u <> length w \/ hv s u <> hv s w) ->
       slice (words c') (Z.to_nat (woff s u)) (length u) = slice (words c) (Z.to_nat (woff s u)) (length u) /\
       nth_error (spellResults c') (Z.to_nat (roff s u)) = nth_error (spellResults c) (Z.to_nat (roff s u))).
  Proof.
    intros w r F L R. destruct (offsets_ok w F L) as (A & B & C & W0 & W1 & R0 & R1). unfold setSpellResult.
    rewrite (proj2 (Nat.ltb_ge 10 (length w))) by (unfold sized in L; lia). cbn [orb].
    replace (match r with SPELL_OK | SPELL_CAP_FIRST => false | _ => true end) with false by (destruct R; subst; auto).
    rewrite A. cbn [bind]. rewrite B. cbn [bind]. rewrite C. cbn [bind].
    destruct (wcsncpy_spec w (words c) (woff s w)) as (b & E & Ln & Sl & Fr); auto using nul_free.
    rewrite E. cbn [bind]. unfold wrz. rewrite (proj2 (Z.leb_le 0 _)) by auto. unfold wr. rewrite (proj2 (Nat.ltb_lt _ _)) by auto.
    cbn [bind]. eexists. split; [reflexivity|]. cbn [sizeParam words spellResults].
    destruct WF as (S1 & S2 & S3).
    split. { unfold cache_wf. cbn [sizeParam words spellResults]. rewrite upd_length, Ln. auto. }
    split; [reflexivity|]. split; [auto|]. split; [apply upd_nth_same; auto|].
    intros u U D. destruct (slots_disjoint s u w) as (X & Y); auto; [unfold s; lia|].
    destruct (roff_range s u U) as (R2 & _); [unfold s; lia|].
    destruct (woff_range s u U) as (W2 & _); [unfold s; lia|].
    split.
    - apply slice_ext. intros i Hi. apply Fr. clear - Y Hi W0 W2. lia.
    - apply upd_nth_other. clear - X R0 R2. lia.
  Qed.

  Lemma setSpellResult_skip : forall w r, ((10 < length w)%nat \/ r = SPELL_FAILED \/ r = SPELL_CAP_ERROR) -> setSpellResult c w r = Ok c.
  Proof.
    intros w r H. unfold setSpellResult. destruct (10 <? length w)%nat eqn:E; auto.
    apply Nat.ltb_ge in E. destruct r; auto; exfalso; destruct H as [H|[H|H]]; lia || discriminate.
  Qed.
End Fixed.

(** ** The invariant: every occupied slot holds the judgement of its word *)
Definition consistent (f : speller) (c : spell_cache) : Prop :=
  cache_wf c /\
  forall w, Forall okch w -> sized (length w) -> in_slot c w ->
    (f w = SPELL_OK \/ f w = SPELL_CAP_FIRST) /\
    nth_error (spellResults c) (Z.to_nat (roff (sizeParam c) w)) = Some (match f w with SPELL_OK => 0x70 | _ => 0x69 end).

Lemma slice_repeat0 : forall n o w, okch (hd 0 w) -> slice (repeat 0 n) o (length w) <> w.
Proof.
  intros n o w H C. destruct w as [|x r]; [unfold okch in H; cbn in H; lia|].
  cbn [hd] in H. assert (In x (repeat 0 n)) as I.
  { assert (In x (slice (repeat 0 n) o (length (x :: r)))) as I by (rewrite C; left; auto).
    unfold slice in I. assert (forall k (l : list Z), In x (firstn k l) -> In x l) as A.
    { intros k l HI. rewrite <- (firstn_skipn k l). apply in_or_app. auto. }
    apply A in I. assert (forall k (l : list Z), In x (skipn k l) -> In x l) as B.
    { intros k l HI. rewrite <- (firstn_skipn k l). apply in_or_app. auto. }
    apply B in I. auto. }
  apply repeat_spec in I. unfold okch in H. lia.
Qed.

Lemma consistent_new : forall f s c, 0 <= s <= 18 -> new_cache s = Ok c -> consistent f c.
Proof.
  intros f s c H E. destruct (new_cache_ok s H) as (c' & E' & WF & S1 & W). rewrite E in E'. injection E' as <-.
  split; auto. intros w F L I. exfalso. unfold in_slot in I. rewrite W in I. revert I. apply slice_repeat0.
  destruct w; [unfold sized in L; cbn in L; lia|]. inversion F; auto.
Qed.

Lemma consistent_hit : forall f c w, consistent f c -> Forall okch w -> (1 <= length w)%nat ->
  (exists b, isInCache c w = Ok b /\ (b = true -> getSpellResult c w = Ok (f w))).
Proof.
  intros f c w (WF & I) F L. destruct (Nat.le_gt_cases (length w) 10).
  - assert (sized (length w)) as SZ by (unfold sized; lia).
    destruct (isInCache_ok c WF w F SZ) as (b & E & B). exists b. split; auto. intros ->.
    destruct (I w F SZ (proj1 B eq_refl)) as (R & N).
    destruct (getSpellResult_ok c WF w F SZ) as (r & N' & G). rewrite G. rewrite N in N'. injection N' as <-.
    destruct R as [->| ->]; reflexivity.
  - exists false. split; [|discriminate]. unfold isInCache. rewrite (proj2 (Nat.ltb_lt _ _)) by auto. reflexivity.
Qed.

Lemma consistent_set : forall f c w, consistent f c -> Forall okch w -> (1 <= length w)%nat ->
  exists c', setSpellResult c w (f w) = Ok c' /\ consistent f c' /\ sizeParam c' = sizeParam c.
Proof.
  intros f c w (WF & I) F L.
  destruct (Nat.le_gt_cases (length w) 10) as [L10|L10].
  2:{ exists c. split; [apply setSpellResult_skip; auto|]. split; [split; auto|auto]. }
  assert (sized (length w)) as SZ by (unfold sized; lia).
  assert ((f w = SPELL_FAILED \/ f w = SPELL_CAP_ERROR) \/ (f w = SPELL_OK \/ f w = SPELL_CAP_FIRST)) as [N|Y] by (destruct (f w); auto).
  { exists c. split; [apply setSpellResult_skip; auto|]. split; [split; auto|auto]. }
  destruct (setSpellResult_ok c WF w (f w) F SZ Y) as (c' & E & WF' & S1 & Sl & R & Fr).
  exists c'. split; auto. split; auto. split; auto.
  intros u Fu Lu Iu. unfold in_slot in Iu. rewrite S1 in *.
  destruct (Nat.eq_dec (length u) (length w)) as [EL|NL], (Z.eq_dec (hv (sizeParam c) u) (hv (sizeParam c) w)) as [EH|NH].
  - assert (woff (sizeParam c) u = woff (sizeParam c) w) as EW by (unfold woff; rewrite EL, EH; auto).
    assert (roff (sizeParam c) u = roff (sizeParam c) w) as ER by (unfold roff; rewrite EL, EH; auto).
    rewrite EW, EL, Sl in Iu. subst u. split; auto.
  - destruct (Fr u Lu) as (A & B); auto. rewrite A in Iu. rewrite B. apply I; auto.
  - destruct (Fr u Lu) as (A & B); auto. rewrite A in Iu. rewrite B. apply I; auto.
  - destruct (Fr u Lu) as (A & B); auto. rewrite A in Iu. rewrite B. apply I; auto.
Qed.
