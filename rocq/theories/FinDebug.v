(** * Describing the parts of a compound stays inside the buffers *)
From Verif Require Import Base BaseFacts CharModel AnalysisModel FinModel FinSpec FinStructure FinTotal.
From Coq Require Import Lia.

Lemma wr_all_ok : forall l buf pos, (pos + length l <= length buf)%nat -> exists buf', wr_all buf pos l = Ok buf' /\ length buf' = length buf.
Proof.
  induction l as [|c l IH]; intros buf pos H; cbn [wr_all length] in *; [eauto|]. unfold wr. replace (pos <? length buf)%nat with true by lia. cbn [bind].
  destruct (IH (upd buf pos c) (S pos)) as (buf' & -> & A); [rewrite upd_length; lia|]. rewrite upd_length in A. eauto.
Qed.

(** What the parentheses around [xp] and [xs] may still cost. *)
Definition xp_cost (s : debug_state) : nat :=
  match length (xp s) with
  | O => if inXs s then 0%nat else if inXp s then 2%nat else if inXj s then 4%nat else 0%nat
  | n => (2 * n + 2)%nat
  end.
Definition xs_cost (s : debug_state) : nat :=
  match length (xs s) with
  | O => if inXs s then 3%nat else 0%nat
  | n => (2 * n + 3)%nat
  end.

(** [M] is twice the number of characters read so far. *)
Definition debug_inv (n M : nat) (s : debug_state) : Prop :=
  length (wordIds s) = (2 * n + 1)%nat /\ length (wordBases s) = (2 * n + 1)%nat /\
  (basepos s + xp_cost s <= M)%nat /\ (idpos s + length (xp s) + xs_cost s <= M)%nat /\
  (inXs s = false -> inXp s = false -> inXj s = true -> length (xp s) <> 1%nat) /\
  (baseposLast s <= basepos s)%nat /\ (idposLast s <= idpos s)%nat /\ (0 < baseposLast s -> 0 < idposLast s)%nat /\ (inContent s = true -> 0 < idpos s)%nat.

Ltac dfields := unfold set_x, set_content, set_last, set_buffers in *;
  cbn [wordIds wordBases idpos basepos xs xp idposLast baseposLast inXs inXp inXj inXOther inContent inTag anyXs] in *.

Ltac ar := repeat match goal with H : ?P -> ?Q |- _ => clear H | H : @eq bool _ _ |- _ => clear H | H : @eq (list Z) _ _ |- _ => clear H | H : @eq (res _) _ _ |- _ => clear H end; lia.

Lemma debug_later : forall n M M' s, (M <= M')%nat -> debug_inv n M s -> debug_inv n M' s.
Proof. intros n M M' s H (A & B & C & D & E & F & G & I & J). unfold debug_inv. repeat split; auto; lia. Qed.

Lemma put_id_ok : forall s l, (idpos s + length l <= length (wordIds s))%nat -> exists b, put_id s l = Ok (mk_ds b (wordBases s) (idpos s + length l) (basepos s) (xs s) (xp s) (idposLast s) (baseposLast s) (inXs s) (inXp s) (inXj s)
        (inXOther s) (inContent s) (inTag s) (anyXs s)) /\ length b = length (wordIds s).
Proof. intros s l H. unfold put_id. destruct (wr_all_ok l (wordIds s) (idpos s) H) as (b & -> & E). exists b. auto. Qed.
Lemma put_base_ok : forall s l, (basepos s + length l <= length (wordBases s))%nat -> exists b, put_base s l = Ok (mk_ds (wordIds s) b (idpos s) (basepos s + length l) (xs s) (xp s) (idposLast s) (baseposLast s) (inXs s) (inXp s) (inXj s)
        (inXOther s) (inContent s) (inTag s) (anyXs s)) /\ length b = length (wordBases s).
Proof. intros s l H. unfold put_base. destruct (wr_all_ok l (wordBases s) (basepos s) H) as (b & -> & E). exists b. auto. Qed.

Lemma bracket_length : forall p l q, length (wstr p ++ l ++ wstr q) = (length (wstr p) + length l + length (wstr q))%nat.
Proof. intros. rewrite !app_length. lia. Qed.

(** [xs] and [xp] are written out and emptied. *)
Lemma debugContentEnd_ok : forall n M s, (M <= 2 * n)%nat -> debug_inv n M s ->
  exists s', debugContentEnd s = Ok s' /\ debug_inv n (M + 2) s' /\ (basepos s' <= M)%nat /\ (idpos s' <= M)%nat /\ xs s' = [] /\ xp s' = [] /\
    (idpos s <= idpos s')%nat /\ inContent s' = inContent s /\ inXs s' = inXs s /\ inXp s' = inXp s /\ inXj s' = inXj s.
Proof.
  intros n M s HM (A & B & C & D & E & F & G & I & J). unfold debugContentEnd.
  assert (H1 : exists s1, (if Nat.eqb (length (xs s)) 0 then Ok s else s <- put_id s (wstr "(w" ++ xs s ++ wstr ")") ;; Ok (set_buffers s [] (xp s))) = Ok s1 /\
    length (wordIds s1) = (2 * n + 1)%nat /\ wordBases s1 = wordBases s /\ basepos s1 = basepos s /\ xp s1 = xp s /\ xs s1 = [] /\ (idpos s <= idpos s1)%nat /\
    (idpos s1 + length (xp s1) + (if inXs s then 3 else 0) <= M + 2)%nat /\ (idpos s1 + length (xp s1) <= M)%nat /\ idposLast s1 = idposLast s /\ baseposLast s1 = baseposLast s /\
    inXs s1 = inXs s /\ inXp s1 = inXp s /\ inXj s1 = inXj s /\ inContent s1 = inContent s).
  { unfold xs_cost in D. destruct (length (xs s)) as [|k] eqn:Q; cbn [Nat.eqb].
    - exists s. split; [reflexivity|]. assert (xs s = []) by now apply length_zero_iff_nil. repeat split; auto; destruct (inXs s); ar.
    - pose proof (bracket_length "(w" (xs s) ")") as BL. change (length (wstr "(w")) with 2%nat in BL. change (length (wstr ")")) with 1%nat in BL.
      destruct (put_id_ok s (wstr "(w" ++ xs s ++ wstr ")")) as (b & -> & Eb); [ar|]. cbn [bind]. eexists. split; [reflexivity|]. dfields. rewrite BL.
      repeat split; auto; try ar. destruct (inXs s); ar. }
  destruct H1 as (s1 & -> & A1 & B1 & C1 & D1 & E1 & F1 & G1 & G1' & I1 & J1 & K1 & L1 & N1 & O1). cbn [bind].
  unfold xp_cost in C. rewrite D1. destruct (length (xp s)) as [|k] eqn:Q; cbn [Nat.eqb].
  - exists s1. split; [reflexivity|]. assert (xp s = []) by now apply length_zero_iff_nil. unfold debug_inv, xp_cost, xs_cost. rewrite D1, E1, Q, B1, C1, K1, L1, N1, I1, J1, O1. rewrite D1, Q in G1, G1'.
    cbn [length]. repeat split; auto; first [ar|destruct (inXs s); ar|intros X; specialize (J X); ar].
  - pose proof (bracket_length "(" (xp s) ")") as BL. change (length (wstr "(")) with 1%nat in BL. change (length (wstr ")")) with 1%nat in BL. rewrite Q in BL.
    destruct (put_base_ok s1 (wstr "(" ++ xp s ++ wstr ")")) as (b & Eb & Lb); [rewrite BL, B1, C1, B; ar|]. rewrite Eb. cbn [bind]. eexists. split; [reflexivity|]. rewrite D1, Q in G1, G1'.
    unfold debug_inv, xp_cost, xs_cost. dfields. rewrite E1, BL, C1, K1, L1, N1, I1, J1, O1. cbn [length].
    repeat split; auto; try congruence; try ar.
    + destruct (inXs s) eqn:X1; [ar|]. destruct (inXp s) eqn:X2; [ar|]. destruct (inXj s) eqn:X3; [|ar]. specialize (E eq_refl eq_refl eq_refl). ar.
    + intros X. specialize (J X). ar.
Qed.

Lemma debug_x_ok : forall n M c s, (M + 6 <= 2 * n)%nat -> debug_inv n M s ->
  exists k s', debug_x c s = Ok (k, s') /\ (k = 2 \/ k = 3)%nat /\ debug_inv n (M + 6) s'.
Proof.
  intros n M c s HM I. unfold debug_x. destruct (c =? ch "s").
  { eexists _, _. split; [reflexivity|]. split; [auto|]. destruct I as (A & B & C & D & E & F & G & I & J). unfold debug_inv, xp_cost, xs_cost in *. dfields. cbn [length].
    repeat split; auto; try ar; try discriminate. destruct (length (xp s)); ar. }
  destruct (c =? ch "p").
  { eexists _, _. split; [reflexivity|]. split; [auto|]. destruct I as (A & B & C & D & E & F & G & I & J). unfold debug_inv, xp_cost, xs_cost in *. dfields. cbn [length].
    repeat split; auto; try ar. destruct (inXs s); ar. }
  destruct (c =? ch "j").
  { assert (H : exists s1, (if inContent s then s <- debugContentEnd s ;; Ok (set_last s) else Ok s) = Ok s1 /\ length (wordIds s1) = (2 * n + 1)%nat /\ length (wordBases s1) = (2 * n + 1)%nat /\
       (basepos s1 <= M)%nat /\ (idpos s1 + xs_cost s1 <= M + 2)%nat /\ (baseposLast s1 <= basepos s1)%nat /\ (idposLast s1 <= idpos s1)%nat /\ (0 < baseposLast s1 -> 0 < idposLast s1)%nat /\ (inContent s1 = true -> 0 < idpos s1)%nat).
    { destruct (inContent s) eqn:X.
      - destruct (debugContentEnd_ok n M s) as (s1 & -> & I1 & P1 & P2 & P3 & P4 & P5 & P6 & P7); [ar|exact I|]. cbn [bind]. eexists. split; [reflexivity|].
        destruct I as (_ & _ & _ & _ & _ & _ & _ & _ & J). specialize (J X). destruct I1 as (A & B & C & D & E & F & G & I & J1). unfold xs_cost in *. dfields. repeat split; auto; ar.
      - eexists. split; [reflexivity|]. destruct I as (A & B & C & D & E & F & G & I & J). repeat split; auto; ar. }
    destruct H as (s1 & -> & A & B & C & D & F & G & I1 & J). cbn [bind]. eexists _, _. split; [reflexivity|]. split; [auto|].
    unfold debug_inv, xp_cost, xs_cost in *. dfields. cbn [length]. repeat split; auto; try ar. destruct (inXs s1); [ar|]. destruct (inXp s1); ar. }
  destruct I as (A & B & C & D & E & F & G & I & J). destruct (c =? ch "]").
  { eexists _, _. split; [reflexivity|]. split; [auto|]. unfold debug_inv, xp_cost, xs_cost in *. dfields. repeat split; auto; try ar; try discriminate.
    - destruct (length (xp s)); ar.
    - destruct (length (xs s)); ar. }
  eexists _, _. split; [reflexivity|]. split; [auto|]. unfold debug_inv, xp_cost, xs_cost in *. dfields. repeat split; auto; ar.
Qed.

Lemma debug_char_ok : forall n M c s, (M + 2 <= 2 * n)%nat -> debug_inv n M s -> exists s', debug_char n c s = Ok s' /\ debug_inv n (M + 2) s'.
Proof.
  intros n M c s HM IV. unfold debug_char. destruct (inTag s || inXOther s); [exists s; split; [reflexivity|]; apply (debug_later n M); [ar|exact IV]|].
  destruct IV as (A & B & C & D & E & F & G & I & J).
  destruct (inXs s) eqn:X1.
  { unfold push. unfold xs_cost in D. rewrite X1 in D. replace (length (xs s) <? n)%nat with true by (destruct (length (xs s)); ar). cbn [bind]. eexists. split; [reflexivity|].
    unfold debug_inv, xp_cost, xs_cost in *. dfields. rewrite X1 in *. rewrite app_length. cbn [length]. replace (length (xs s) + 1)%nat with (S (length (xs s))) by ar.
    repeat split; auto; try ar. destruct (length (xs s)); ar. }
  destruct (inXp s) eqn:X2.
  { unfold push. unfold xp_cost in C. rewrite X1, X2 in C. replace (length (xp s) <? n)%nat with true by (destruct (length (xp s)); ar). cbn [bind]. eexists. split; [reflexivity|].
    unfold debug_inv, xp_cost, xs_cost in *. dfields. rewrite X1, X2 in *. rewrite app_length. cbn [length]. replace (length (xp s) + 1)%nat with (S (length (xp s))) by ar.
    repeat split; auto; try ar; try discriminate. destruct (length (xp s)); ar. }
  destruct (inXj s) eqn:X3.
  { unfold push. unfold xp_cost in C. rewrite X1, X2, X3 in C. specialize (E eq_refl eq_refl eq_refl).
    assert (H : exists x, (if Nat.eqb (length (xp s)) 0 then if (length (xp s) <? n)%nat then Ok (xp s ++ [ch "+"]) else UB else Ok (xp s)) = Ok x /\ (0 < length x)%nat /\
      (length x < n)%nat /\ (length x <= S (length (xp s)))%nat /\ (basepos s + 2 * length x + 2 <= M)%nat).
    { destruct (length (xp s)) as [|k] eqn:Q; cbn [Nat.eqb].
      - replace (0 <? n)%nat with true by ar. eexists. split; [reflexivity|]. rewrite app_length, Q. cbn [length]. ar.
      - eexists. split; [reflexivity|]. ar. }
    destruct H as (x & -> & H1 & H2 & H3 & H4). cbn [bind]. replace (length x <? n)%nat with true by ar. cbn [bind]. eexists. split; [reflexivity|].
    unfold debug_inv, xp_cost, xs_cost in *. dfields. rewrite X1, X2, X3 in *. rewrite app_length. cbn [length]. replace (length x + 1)%nat with (S (length x)) by ar.
    repeat split; auto; ar. }
  assert (H : exists s1, (if inContent s then Ok s else s <- put_id s (wstr "+") ;; s <- put_base s (wstr "+") ;; Ok (set_content (set_last s) true (inTag s))) = Ok s1 /\
    debug_inv n (M + 1) s1 /\ inContent s1 = true).
  { destruct (inContent s) eqn:X.
    - exists s. split; [reflexivity|]. split; [|exact X]. unfold debug_inv. rewrite X1, X2, X3, X. repeat split; auto; ar.
    - destruct (put_id_ok s (wstr "+")) as (b & -> & Lb); [change (length (wstr "+")) with 1%nat; ar|]. cbn [bind].
      match goal with |- context [put_base ?s1 (wstr "+")] => destruct (put_base_ok s1 (wstr "+")) as (b' & -> & Lb') end; [dfields; change (length (wstr "+")) with 1%nat; ar|]. cbn [bind].
      eexists. split; [reflexivity|]. split; [|reflexivity]. unfold debug_inv, xp_cost, xs_cost in *. dfields. change (length (wstr "+")) with 1%nat. rewrite X1, X2, X3 in *. repeat split; auto; ar. }
  destruct H as (s1 & -> & I1 & CT). cbn [bind]. destruct I1 as (A1 & B1 & C1 & D1 & E1 & F1 & G1 & I1 & J1). specialize (J1 CT).
  destruct (put_id_ok s1 [c]) as (b & -> & Lb); [cbn [length]; ar|]. cbn [bind].
  match goal with |- context [put_base ?s1 [c]] => destruct (put_base_ok s1 [c]) as (b' & -> & Lb') end; [dfields; cbn [length]; ar|].
  eexists. split; [reflexivity|]. unfold debug_inv, xp_cost, xs_cost in *. dfields. cbn [length]. repeat split; auto; ar.
Qed.

Lemma debug_loop_ok : forall f o i s, (length o <= f + i)%nat -> debug_inv (length o) (2 * Nat.min i (length o)) s ->
  exists s', debug_loop f (o ++ [0]) (length o) i s = Ok s' /\ debug_inv (length o) (2 * length o) s'.
Proof.
  induction f as [|f IH]; intros o i s F I; cbn [debug_loop].
  - replace (i <? length o)%nat with false by lia. exists s. split; [reflexivity|]. eapply debug_later; [|exact I]. lia.
  - destruct (i <? length o)%nat eqn:Q; [|exists s; split; [reflexivity|]; eapply debug_later; [|exact I]; lia].
    destruct (rd_out o i) as [c C]; [lia|]. rewrite C. cbn [bind].
    destruct (starts_ok o i "[L") as [tL TL]; [lia|nonul|]. rewrite TL. destruct (starts_ok o i "-[B") as [hB HB]; [lia|nonul|]. rewrite HB. cbn [bind].
    assert (I0 : forall x t, debug_inv (length o) (2 * i) s -> (x = true -> inContent s = true) -> debug_inv (length o) (2 * i) (set_content s x t)).
    { intros x t (A & B & C0 & D & E & F0 & G & I0 & J) X. unfold debug_inv, xp_cost, xs_cost in *. dfields. repeat split; auto. }
    replace (2 * Nat.min i (length o))%nat with (2 * i)%nat in I by lia.
    apply Nat.ltb_lt in Q.
    destruct (tL || hB) eqn:T.
    + destruct (debugContentEnd_ok (length o) (2 * i) (set_content s false true)) as (s1 & -> & I1 & P1 & P2 & P3 & P4 & P5 & P6 & P7 & P8 & P9); [ar|apply I0; [exact I|discriminate]|]. cbn [bind].
      destruct (c =? ch "-") eqn:CM.
      * assert (L3 : (i + 3 <= length o)%nat).
        { apply Z.eqb_eq in CM. subst c. destruct hB; [apply starts_length in HB; [exact HB|nonul|ar]|]. destruct tL; [|discriminate].
          exfalso. unfold starts in TL. clear - TL C. destruct (skipn i (o ++ [0])) as [|x l] eqn:E; [discriminate|].
          assert (x = ch "-") as ->; [|discriminate]. unfold rd in C. destruct (nth_error (o ++ [0]) i) eqn:N; [|discriminate]. injection C as ->.
          rewrite <- (firstn_skipn i (o ++ [0])), E in N. rewrite nth_error_app2 in N; [|rewrite firstn_length; ar].
          replace (i - length (firstn i (o ++ [0%Z])))%nat with 0%nat in N by (rewrite firstn_length; assert (length (skipn i (o ++ [0%Z])) = S (length l)) as H by (now rewrite E); rewrite skipn_length in H; ar). now injection N. }
        destruct I1 as (A1 & B1 & C1 & D1 & E1 & F1 & G1 & J1 & K1).
        destruct (put_id_ok s1 (wstr "+-")) as (b & -> & Lb); [change (length (wstr "+-")) with 2%nat; ar|]. cbn [bind].
        match goal with |- context [put_base ?s1 (wstr "+-")] => destruct (put_base_ok s1 (wstr "+-")) as (b' & -> & Lb') end; [dfields; change (length (wstr "+-")) with 2%nat; ar|]. cbn [bind].
        apply IH; [ar|]. replace (2 * Nat.min (S (S i)) (length o))%nat with (2 * i + 4)%nat by ar. unfold debug_inv, xp_cost, xs_cost in *. dfields. change (length (wstr "+-")) with 2%nat. clear I0. repeat split; auto; ar.
      * apply IH; [ar|]. replace (2 * Nat.min (S i) (length o))%nat with (2 * i + 2)%nat by ar. exact I1.
    + destruct ((c =? ch "[") && (i + 2 <? length o)%nat) eqn:T2.
      * apply andb_true_iff in T2. destruct T2 as [_ T2]. apply Nat.ltb_lt in T2. destruct (rd_out o (i + 1)) as [c1 ->]; [ar|]. destruct (rd_out o (i + 2)) as [c2 ->]; [ar|]. cbn [bind]. destruct (c1 =? ch "X").
        -- destruct (debug_x_ok (length o) (2 * i) c2 s) as (k & s' & -> & K & I'); [ar|exact I|]. cbn [bind]. apply IH; [ar|]. eapply debug_later; [|exact I']. ar.
        -- apply IH; [ar|]. eapply debug_later; [|apply I0; [exact I|auto]]. ar.
      * destruct (c =? ch "]"); [apply IH; [ar|]; eapply debug_later; [|apply I0; [exact I|auto]]; ar|].
        destruct (debug_char_ok (length o) (2 * i) c s) as (s' & -> & I'); [ar|exact I|]. cbn [bind]. apply IH; [ar|]. eapply debug_later; [|exact I']. ar.
Qed.

Lemma filter_length : forall (f : Z -> bool) l, (length (filter f l) <= length l)%nat.
Proof. induction l as [|c l IH]; cbn [filter length]; [lia|]. destruct (f c); cbn [length]; lia. Qed.

Lemma debug_xp_end_ok : forall n s, debug_inv n (2 * n) s ->
  exists s', debug_xp_end s = Ok s' /\ length (wordIds s') = (2 * n + 1)%nat /\ length (wordBases s') = (2 * n + 1)%nat /\ (basepos s' <= 2 * n)%nat /\ (idpos s' + xs_cost s' <= 2 * n)%nat.
Proof.
  intros n s (A & B & C & D & E & F & G & I & J). unfold debug_xp_end. destruct (xp s) as [|x0 l] eqn:X; [exists s; repeat split; auto; ar|].
  unfold xp_cost in C. rewrite X in C. cbn [length] in C, D. dfields.
  assert (H : exists plus, (if (0 <? baseposLast s)%nat && (x0 =? ch "+") then c <- rd (wordBases s) (baseposLast s - 1) ;; Ok (if c =? ch "+" then 1%nat else 0%nat) else Ok 0%nat) = Ok plus /\
     (plus <= 1)%nat /\ (0 < plus -> 0 < baseposLast s)%nat).
  { destruct ((0 <? baseposLast s)%nat && (x0 =? ch "+")) eqn:Q; [|exists 0%nat; repeat split; lia]. apply andb_true_iff in Q. destruct Q as [Q _].
    unfold rd. destruct (nth_error (wordBases s) (baseposLast s - 1)) as [c|] eqn:N; [|apply nth_error_None in N; lia]. cbn [bind]. eexists. split; [reflexivity|]. destruct (c =? ch "+"); lia. }
  destruct H as (plus & -> & P1 & P2). cbn [bind]. unfold step_back. dfields.
  replace ((baseposLast s <? plus)%nat || (idposLast s <? plus)%nat) with false by (symmetry; apply orb_false_iff; split; lia). cbn [bind]. dfields.
  pose proof (filter_length (fun c => negb (c =? ch "=")) (x0 :: l)) as FL. cbn [length] in FL. set (text := filter (fun c => negb (c =? ch "=")) (x0 :: l)) in *.
  match goal with |- context [put_base ?s1 text] => destruct (put_base_ok s1 text) as (b & -> & Lb) end; [dfields; lia|]. cbn [bind].
  match goal with |- context [put_id ?s1 text] => destruct (put_id_ok s1 text) as (b' & -> & Lb') end; [dfields; lia|]. cbn [bind]. dfields.
  pose proof (bracket_length "(" (x0 :: l) ")") as BL. change (length (wstr "(")) with 1%nat in BL. change (length (wstr ")")) with 1%nat in BL. cbn [length] in BL.
  match goal with |- context [put_base ?s1 ?t] => destruct (put_base_ok s1 t) as (b2 & -> & Lb2) end; [dfields; rewrite BL; lia|].
  eexists. split; [reflexivity|]. unfold xs_cost in *. dfields. rewrite BL. repeat split; ar.
Qed.

(** Every output is described without leaving the buffers. *)
Lemma parseDebugAttributes_ok : forall a o, exists ids bases, parseDebugAttributes a o = Ok (add (match ids with Some v => add a WORDIDS v | None => a end) WORDBASES bases).
Proof.
  intros a o. unfold parseDebugAttributes.
  destruct (debug_loop_ok (length o) o 0 (mk_ds (repeat 0 (2 * length o + 1)) (repeat 0 (2 * length o + 1)) 0 0 [] [] 0 0 false false false false false false false)) as (s & -> & I); [lia| |].
  { unfold debug_inv, xp_cost, xs_cost. dfields. rewrite repeat_length. cbn [length]. repeat split; try lia; discriminate. }
  cbn [bind]. destruct (debug_xp_end_ok (length o) s I) as (s1 & -> & A & B & C & D). cbn [bind].
  assert (H : exists s2, (if Nat.eqb (length (xs s1)) 0 then Ok s1 else put_id s1 (wstr "(w" ++ xs s1 ++ wstr ")")) = Ok s2 /\ length (wordIds s2) = (2 * length o + 1)%nat /\
    length (wordBases s2) = (2 * length o + 1)%nat /\ (basepos s2 <= 2 * length o)%nat /\ (idpos s2 <= 2 * length o)%nat).
  { unfold xs_cost in D. destruct (length (xs s1)) as [|k] eqn:Q; cbn [Nat.eqb]; [exists s1; repeat split; auto; ar|].
    pose proof (bracket_length "(w" (xs s1) ")") as BL. change (length (wstr "(w")) with 2%nat in BL. change (length (wstr ")")) with 1%nat in BL.
    destruct (put_id_ok s1 (wstr "(w" ++ xs s1 ++ wstr ")")) as (b & -> & Lb); [lia|]. eexists. split; [reflexivity|]. dfields. repeat split; auto; ar. }
  destruct H as (s2 & -> & A2 & B2 & C2 & D2). cbn [bind]. unfold wr. replace (idpos s2 <? length (wordIds s2))%nat with true by lia. replace (basepos s2 <? length (wordBases s2))%nat with true by lia. cbn [bind].
  destruct (anyXs s2); [eexists (Some _), _|exists None; eexists]; reflexivity.
Qed.
