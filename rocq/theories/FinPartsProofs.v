(** * The parts of a word with their base forms: proofs *)
From Verif Require Import Base BaseFacts CharModel AnalysisModel SetupModel SetupProofs FinModel FinSpec FinStructure FinTotal FinDebug FinPartsSpec.
From Coq Require Import Lia.

(** ** The buffers hold what was written *)

Definition abs (s : debug_state) : debug_state :=
  mk_ds (firstn (idpos s) (wordIds s)) (firstn (basepos s) (wordBases s)) (idpos s) (basepos s) (xs s) (xp s) (idposLast s) (baseposLast s) (inXs s) (inXp s) (inXj s)
    (inXOther s) (inContent s) (inTag s) (anyXs s).
Definition wp (s : debug_state) : Prop :=
  (idpos s <= length (wordIds s))%nat /\ (basepos s <= length (wordBases s))%nat /\ (idposLast s <= idpos s)%nat /\ (baseposLast s <= basepos s)%nat.

Lemma wr_all_content : forall l buf pos b, wr_all buf pos l = Ok b -> (pos <= length buf)%nat ->
  firstn (pos + length l) b = firstn pos buf ++ l /\ length b = length buf /\ (pos + length l <= length buf)%nat.
Proof.
  induction l as [|c l IH]; intros buf pos b H L; cbn [wr_all length] in *.
  - injection H as <-. rewrite Nat.add_0_r, app_nil_r. auto.
  - unfold wr in H. destruct (pos <? length buf)%nat eqn:Q; [|discriminate]. apply Nat.ltb_lt in Q. cbn [bind] in H.
    apply IH in H; [|rewrite upd_length; lia]. rewrite upd_length in H. destruct H as (H1 & H2 & H3). replace (pos + S (length l))%nat with (S pos + length l)%nat by lia.
    split; [|split; [exact H2|lia]]. rewrite H1. replace (firstn (S pos) (upd buf pos c)) with (firstn pos buf ++ [c]); [rewrite <- app_assoc; reflexivity|].
    clear - Q. revert pos Q. induction buf as [|x buf IH]; intros pos Q; [cbn [length] in Q; lia|]. destruct pos as [|pos]; [reflexivity|]. cbn [length] in Q.
    change (upd (x :: buf) (S pos) c) with (x :: upd buf pos c). cbn [firstn app]. f_equal. apply IH. lia.
Qed.

Definition pput_id (s : debug_state) (l : list Z) : debug_state :=
  mk_ds (wordIds s ++ l) (wordBases s) (idpos s + length l) (basepos s) (xs s) (xp s) (idposLast s) (baseposLast s) (inXs s) (inXp s) (inXj s)
        (inXOther s) (inContent s) (inTag s) (anyXs s).
Definition pput_base (s : debug_state) (l : list Z) : debug_state :=
  mk_ds (wordIds s) (wordBases s ++ l) (idpos s) (basepos s + length l) (xs s) (xp s) (idposLast s) (baseposLast s) (inXs s) (inXp s) (inXj s)
        (inXOther s) (inContent s) (inTag s) (anyXs s).
Lemma put_id_abs : forall s l s', put_id s l = Ok s' -> wp s -> wp s' /\ abs s' = pput_id (abs s) l.
Proof.
  intros s l s' H (A & B & C & D). unfold put_id in H. destruct (wr_all (wordIds s) (idpos s) l) as [b| |] eqn:E; try discriminate. cbn [bind] in H. injection H as <-.
  destruct (wr_all_content _ _ _ _ E A) as (H1 & H2 & H3). unfold wp, abs, pput_id. dfields. rewrite H1, H2. repeat split; try reflexivity; lia.
Qed.
Lemma put_base_abs : forall s l s', put_base s l = Ok s' -> wp s -> wp s' /\ abs s' = pput_base (abs s) l.
Proof.
  intros s l s' H (A & B & C & D). unfold put_base in H. destruct (wr_all (wordBases s) (basepos s) l) as [b| |] eqn:E; try discriminate. cbn [bind] in H. injection H as <-.
  destruct (wr_all_content _ _ _ _ E B) as (H1 & H2 & H3). unfold wp, abs, pput_base. dfields. rewrite H1, H2. repeat split; try reflexivity; lia.
Qed.
Definition wp2 (s : debug_state) : Prop := (idpos s <= length (wordIds s))%nat /\ (basepos s <= length (wordBases s))%nat.
Lemma put_id_abs2 : forall s l s', put_id s l = Ok s' -> wp2 s -> wp2 s' /\ abs s' = pput_id (abs s) l.
Proof.
  intros s l s' H (A & B). unfold put_id in H. destruct (wr_all (wordIds s) (idpos s) l) as [b| |] eqn:E; try discriminate. cbn [bind] in H. injection H as <-.
  destruct (wr_all_content _ _ _ _ E A) as (H1 & H2 & H3). unfold wp2, abs, pput_id. dfields. rewrite H1, H2. repeat split; try reflexivity; lia.
Qed.
Lemma put_base_abs2 : forall s l s', put_base s l = Ok s' -> wp2 s -> wp2 s' /\ abs s' = pput_base (abs s) l.
Proof.
  intros s l s' H (A & B). unfold put_base in H. destruct (wr_all (wordBases s) (basepos s) l) as [b| |] eqn:E; try discriminate. cbn [bind] in H. injection H as <-.
  destruct (wr_all_content _ _ _ _ E B) as (H1 & H2 & H3). unfold wp2, abs, pput_base. dfields. rewrite H1, H2. repeat split; try reflexivity; lia.
Qed.
Lemma wp_x : forall s a b c d e, wp s -> wp (set_x s a b c d e). Proof. intros. exact H. Qed.
Lemma wp_content : forall s a b, wp s -> wp (set_content s a b). Proof. intros. exact H. Qed.
Lemma wp_buffers : forall s a b, wp s -> wp (set_buffers s a b). Proof. intros. exact H. Qed.
Lemma wp_last : forall s, wp s -> wp (set_last s). Proof. intros s (A & B & C & D). unfold wp. dfields. repeat split; auto. Qed.

(** The same without buffers. *)
Definition pend (s : debug_state) : debug_state :=
  set_buffers (pput_base (pput_id s (numbered (xs s))) (in_parentheses (xp s))) [] [].
Lemma pput_id_nil : forall s, pput_id s [] = s. Proof. intros []. unfold pput_id. dfields. rewrite app_nil_r, Nat.add_0_r. reflexivity. Qed.
Lemma pput_base_nil : forall s, pput_base s [] = s. Proof. intros []. unfold pput_base. dfields. rewrite app_nil_r, Nat.add_0_r. reflexivity. Qed.
Lemma end_abs : forall s s', debugContentEnd s = Ok s' -> wp s -> wp s' /\ abs s' = pend (abs s).
Proof.
  intros s s' H W. unfold debugContentEnd in H.
  assert (G : exists s1, (if Nat.eqb (length (xs s)) 0 then Ok s else s <- put_id s (wstr "(w" ++ xs s ++ wstr ")") ;; Ok (set_buffers s [] (xp s))) = Ok s1 /\ wp s1 /\
     abs s1 = set_buffers (pput_id (abs s) (numbered (xs s))) [] (xp s)).
  { destruct (xs s) as [|x l] eqn:X; cbn [length Nat.eqb numbered] in *.
    - exists s. split; [reflexivity|]. split; [exact W|]. rewrite pput_id_nil. unfold abs. dfields. rewrite X. reflexivity.
    - destruct (put_id s (wstr "(w" ++ (x :: l) ++ wstr ")")) as [s1| |] eqn:E; cbn [bind] in *; try discriminate. destruct (put_id_abs _ _ _ E W) as (W1 & A1).
      eexists. split; [reflexivity|]. split; [apply wp_buffers, W1|]. change (abs (set_buffers s1 [] (xp s1))) with (set_buffers (abs s1) [] (xp (abs s1))). rewrite A1. reflexivity. }
  destruct G as (s1 & E1 & W1 & A1). rewrite E1 in H. cbn [bind] in H. assert (P1 : xp s1 = xp s) by (change (xp s1) with (xp (abs s1)); rewrite A1; reflexivity).
  assert (X1 : xs s1 = []) by (change (xs s1) with (xs (abs s1)); rewrite A1; reflexivity).
  unfold pend. change (xs (abs s)) with (xs s). change (xp (abs s)) with (xp s). rewrite P1 in H. destruct (xp s) as [|x l] eqn:X; cbn [length Nat.eqb in_parentheses] in *.
  - injection H as <-. split; [exact W1|]. rewrite A1, pput_base_nil. reflexivity.
  - destruct (put_base s1 (wstr "(" ++ (x :: l) ++ wstr ")")) as [s2| |] eqn:E; cbn [bind] in *; try discriminate. destruct (put_base_abs _ _ _ E W1) as (W2 & A2). injection H as <-.
    split; [apply wp_buffers, W2|]. change (abs (set_buffers s2 (xs s2) [])) with (set_buffers (abs s2) (xs (abs s2)) []). rewrite A2, A1. reflexivity.
Qed.

Definition px (c2 : Z) (s : debug_state) : nat * debug_state :=
  if c2 =? ch "s" then (3%nat, set_x (set_buffers s [] (xp s)) true (inXp s) (inXj s) (inXOther s) true)
  else if c2 =? ch "p" then (3%nat, set_x (set_buffers s (xs s) []) (inXs s) true (inXj s) (inXOther s) (anyXs s))
  else if c2 =? ch "j" then
    let s := if inContent s then set_last (pend s) else s in
    (3%nat, set_x (set_buffers s (xs s) []) (inXs s) (inXp s) true (inXOther s) (anyXs s))
  else if c2 =? ch "]" then (2%nat, set_x s false false false false (anyXs s))
  else (3%nat, set_x s (inXs s) (inXp s) (inXj s) true (anyXs s)).
Lemma x_abs : forall c s k s', debug_x c s = Ok (k, s') -> wp s -> wp s' /\ px c (abs s) = (k, abs s').
Proof.
  intros c s k s' H W. unfold debug_x in H. unfold px. destruct (c =? ch "s"); [injection H as <- <-; split; [exact W|reflexivity]|].
  destruct (c =? ch "p"); [injection H as <- <-; split; [exact W|reflexivity]|]. destruct (c =? ch "j").
  - change (inContent (abs s)) with (inContent s). destruct (inContent s).
    + destruct (debugContentEnd s) as [s1| |] eqn:E; try discriminate. cbn [bind] in H. injection H as <- <-. destruct (end_abs _ _ E W) as (W1 & A1).
      split; [apply wp_x, wp_buffers, wp_last, W1|]. rewrite <- A1. reflexivity.
    + cbn [bind] in H. injection H as <- <-. split; [exact W|reflexivity].
  - destruct (c =? ch "]"); injection H as <- <-; (split; [exact W|reflexivity]).
Qed.

Definition pchar (c : Z) (s : debug_state) : debug_state :=
  if inTag s || inXOther s then s
  else if inXs s then set_buffers s (xs s ++ [c]) (xp s)
  else if inXp s then set_buffers s (xs s) (xp s ++ [c])
  else if inXj s then set_buffers s (xs s) ((if Nat.eqb (length (xp s)) 0 then wstr "+" else xp s) ++ [c])
  else
    let s := if inContent s then s else set_content (set_last (pput_base (pput_id s (wstr "+")) (wstr "+"))) true (inTag s) in
    pput_base (pput_id s [c]) [c].
Lemma char_abs : forall n c s s', debug_char n c s = Ok s' -> wp s -> wp s' /\ abs s' = pchar c (abs s).
Proof.
  intros n c s s' H W. unfold debug_char in H. unfold pchar. change (inTag (abs s)) with (inTag s). change (inXOther (abs s)) with (inXOther s). change (inXs (abs s)) with (inXs s).
  change (inXp (abs s)) with (inXp s). change (inXj (abs s)) with (inXj s). change (inContent (abs s)) with (inContent s).
  destruct (inTag s || inXOther s); [injection H as <-; auto|]. unfold push in H. destruct (inXs s).
  { destruct (length (xs s) <? n)%nat; [|discriminate]. cbn [bind] in H. injection H as <-. split; [exact W|reflexivity]. }
  destruct (inXp s).
  { destruct (length (xp s) <? n)%nat; [|discriminate]. cbn [bind] in H. injection H as <-. split; [exact W|reflexivity]. }
  destruct (inXj s).
  { destruct (xp s) as [|y l] eqn:X; cbn [length Nat.eqb] in H.
    - destruct (0 <? n)%nat; [|discriminate]. cbn [bind app length] in H. destruct (1 <? n)%nat; [|discriminate]. cbn [bind] in H. injection H as <-. split; [exact W|]. unfold abs. dfields. rewrite X. reflexivity.
    - cbn [bind] in H. destruct (length (y :: l) <? n)%nat; [|discriminate]. cbn [bind] in H. injection H as <-. split; [exact W|]. unfold abs. dfields. rewrite X. reflexivity. }
  assert (G : exists s1, (if inContent s then Ok s else s <- put_id s (wstr "+") ;; s <- put_base s (wstr "+") ;; Ok (set_content (set_last s) true (inTag s))) = Ok s1 /\ wp s1 /\
    abs s1 = (if inContent s then abs s else set_content (set_last (pput_base (pput_id (abs s) (wstr "+")) (wstr "+"))) true (inTag s))).
  { destruct (inContent s); [eauto|]. destruct (put_id s (wstr "+")) as [s1| |] eqn:E1; try discriminate. cbn [bind] in *. destruct (put_id_abs _ _ _ E1 W) as (W1 & A1).
    destruct (put_base s1 (wstr "+")) as [s2| |] eqn:E2; try discriminate. cbn [bind] in *. destruct (put_base_abs _ _ _ E2 W1) as (W2 & A2).
    eexists. split; [reflexivity|]. split; [apply wp_content, wp_last, W2|]. change (abs (set_content (set_last s2) true (inTag s2))) with (set_content (set_last (abs s2)) true (inTag (abs s2))). rewrite A2, A1. reflexivity. }
  destruct G as (s1 & E1 & W1 & A1). rewrite E1 in H. cbn [bind] in H. destruct (put_id s1 [c]) as [s2| |] eqn:E2; try discriminate. cbn [bind] in H.
  destruct (put_id_abs _ _ _ E2 W1) as (W2 & A2). destruct (put_base_abs _ _ _ H W2) as (W3 & A3). split; [exact W3|]. rewrite A3, A2, A1. reflexivity.
Qed.

Fixpoint ploop (f : nat) (r : list Z) (s : debug_state) : debug_state :=
  match f, r with
  | S f, c :: r1 =>
      if starts_with (wstr "[L") r then ploop f r1 (pend (set_content s false true))
      else if starts_with (wstr "-[B") r then ploop f (tl r1) (pput_base (pput_id (pend (set_content s false true)) (wstr "+-")) (wstr "+-"))
      else match r1 with
           | c1 :: c2 :: _ =>
               if c =? ch "[" then
                 if c1 =? ch "X" then let '(k, s) := px c2 s in ploop f (skipn k r1) s
                 else ploop f r1 (set_content s (inContent s) true)
               else if c =? ch "]" then ploop f r1 (set_content s (inContent s) false)
               else ploop f r1 (pchar c s)
           | _ => if c =? ch "]" then ploop f r1 (set_content s (inContent s) false) else ploop f r1 (pchar c s)
           end
  | _, _ => s
  end.

Lemma prefix_starts : forall p t, ~ In 0 p -> prefix_eq p (t ++ [0]) = Ok (starts_with p t).
Proof.
  induction p as [|c p IH]; intros t N; [reflexivity|]. cbn [prefix_eq starts_with]. destruct t as [|d t]; cbn [app].
  - destruct (c =? 0) eqn:E; [|reflexivity]. exfalso. apply N. left. lia.
  - destruct (c =? d); [|reflexivity]. cbn [andb]. apply IH. intros H. apply N. now right.
Qed.
Lemma starts_starts : forall o i s, (i <= length o)%nat -> ~ In 0 (wstr s) -> starts (o ++ [0]) i s = Ok (starts_with (wstr s) (skipn i o)).
Proof. intros o i s H N. unfold starts. rewrite skipn_app. replace (i - length o)%nat with 0%nat by lia. cbn [skipn]. now apply prefix_starts. Qed.
Lemma rd_skipn : forall o i c r, skipn i o = c :: r -> rd (o ++ [0]) i = Ok c.
Proof.
  intros o i c r H. unfold rd. replace (nth_error (o ++ [0]) i) with (Some c); [reflexivity|]. symmetry. revert i H.
  induction o as [|x o IH]; intros [|i] H; cbn [skipn] in H; try discriminate; [injection H as -> _; reflexivity|]. cbn [nth_error app]. apply IH, H.
Qed.
Lemma skipn_S : forall (o : list Z) i c r, skipn i o = c :: r -> skipn (S i) o = r.
Proof. induction o as [|x o IH]; intros [|i] c r H; cbn [skipn] in H; try discriminate; [injection H as _ ->; reflexivity|]. cbn [skipn]. apply IH in H. exact H. Qed.
Lemma skipn_more : forall (o : list Z) k i, skipn k (skipn i o) = skipn (i + k) o.
Proof.
  induction o as [|x o IH]; intros k [|i]; cbn [skipn plus]; try reflexivity; [destruct k; reflexivity|]. apply IH.
Qed.

Lemma loop_abs : forall f o i s s', debug_loop f (o ++ [0]) (length o) i s = Ok s' -> wp s -> (length o <= f + i)%nat -> wp s' /\ abs s' = ploop f (skipn i o) (abs s).
Proof.
  induction f as [|f IH]; intros o i s s' H W F.
  { cbn [debug_loop] in H. replace (i <? length o)%nat with false in H by lia. injection H as <-. auto. }
  cbn [debug_loop] in H. destruct (i <? length o)%nat eqn:Q.
  2:{ injection H as <-. split; [exact W|]. replace (skipn i o) with (@nil Z); [reflexivity|]. symmetry. apply skipn_all2. lia. }
  destruct (skipn i o) as [|c r1] eqn:K. { apply (f_equal (@length Z)) in K. rewrite skipn_length in K. cbn [length] in K. lia. }
  rewrite (rd_skipn _ _ _ _ K) in H. cbn [bind] in H. rewrite !starts_starts in H by (try lia; nonul). cbn [bind] in H. rewrite K in H.
  assert (K1 := skipn_S _ _ _ _ K). cbn [ploop].
  destruct (starts_with (wstr "[L") (c :: r1)) eqn:TL.
  - assert (C : c = ch "["). { apply starts_with_spec in TL. destruct TL as (b & E). injection E as -> _. reflexivity. } subst c. cbn [orb] in H.
    destruct (debugContentEnd (set_content s false true)) as [s1| |] eqn:E; try discriminate. cbn [bind] in H. change (ch "[" =? ch "-") with false in H. cbv iota in H.
    destruct (end_abs _ _ E (wp_content _ _ _ W)) as (W1 & A1). apply IH in H; [|exact W1|lia]. rewrite K1, A1 in H. exact H.
  - cbn [orb] in H. destruct (starts_with (wstr "-[B") (c :: r1)) eqn:HB.
    + apply starts_with_spec in HB. destruct HB as (b & E0). injection E0 as -> ->. destruct (debugContentEnd (set_content s false true)) as [s1| |] eqn:E; try discriminate. cbn [bind] in H.
      rewrite Z.eqb_refl in H. destruct (end_abs _ _ E (wp_content _ _ _ W)) as (W1 & A1).
      destruct (put_id s1 (wstr "+-")) as [s2| |] eqn:E2; try discriminate. cbn [bind] in H. destruct (put_id_abs _ _ _ E2 W1) as (W2 & A2).
      destruct (put_base s2 (wstr "+-")) as [s3| |] eqn:E3; try discriminate. cbn [bind] in H. destruct (put_base_abs _ _ _ E3 W2) as (W3 & A3).
      apply IH in H; [|exact W3|lia]. rewrite (skipn_S _ _ _ _ K1), A3, A2, A1 in H. exact H.
    + assert (CL : (i + 2 <? length o)%nat = match r1 with _ :: _ :: _ => true | _ => false end).
      { apply (f_equal (@length Z)) in K. rewrite skipn_length in K. cbn [length] in K. destruct r1 as [|x [|y r1]]; cbn [length] in K; lia. }
      assert (T : (if c =? ch "]" then debug_loop f (o ++ [0]) (length o) (S i) (set_content s (inContent s) false)
                   else s <- debug_char (length o) c s ;; debug_loop f (o ++ [0]) (length o) (S i) s) = Ok s' ->
        wp s' /\ abs s' = (if c =? ch "]" then ploop f r1 (set_content (abs s) (inContent (abs s)) false) else ploop f r1 (pchar c (abs s)))).
      { intros X. destruct (c =? ch "]").
        - apply IH in X; [|exact W|lia]. rewrite K1 in X. exact X.
        - destruct (debug_char (length o) c s) as [s1| |] eqn:E; try discriminate. cbn [bind] in X. destruct (char_abs _ _ _ _ E W) as (W1 & A1).
          apply IH in X; [|exact W1|lia]. rewrite K1, A1 in X. exact X. }
      rewrite CL in H. destruct r1 as [|c1 [|c2 r2]]; [rewrite andb_false_r in H; apply T, H|rewrite andb_false_r in H; apply T, H|]. rewrite andb_true_r in H.
      destruct (c =? ch "["); [|apply T, H]. rewrite !Nat.add_1_r in H. rewrite (rd_skipn _ _ _ _ K1) in H. cbn [bind] in H.
      replace (i + 2)%nat with (S (S i)) in H by lia. rewrite (rd_skipn _ _ _ _ (skipn_S _ _ _ _ K1)) in H. cbn [bind] in H. destruct (c1 =? ch "X").
      * destruct (debug_x c2 s) as [[k s1]| |] eqn:E; try discriminate. cbn [bind] in H. destruct (x_abs _ _ _ _ E W) as (W1 & A1). rewrite A1.
        apply IH in H; [|exact W1|lia]. rewrite <- K1, skipn_more. exact H.
      * apply IH in H; [|exact W|lia]. rewrite K1 in H. exact H.
Qed.

Lemma px_2 : forall c s, (2 <= fst (px c s))%nat.
Proof. intros c s. unfold px. destruct (c =? ch "s"), (c =? ch "p"), (c =? ch "j"), (c =? ch "]"); cbn [fst]; lia. Qed.
Lemma ploop_fuel : forall f f' r s, (length r <= f)%nat -> (length r <= f')%nat -> ploop f r s = ploop f' r s.
Proof.
  induction f as [|f IH]; intros f' r s A B; destruct r as [|c r1]; try (destruct f'; reflexivity); cbn [length] in A, B; try lia. destruct f' as [|f']; [lia|]. cbn [ploop].
  assert (T : (length (tl r1) <= length r1)%nat) by (destruct r1; cbn [tl length]; lia).
  rewrite !(IH f' r1), !(IH f' (tl r1)) by lia.
  destruct (starts_with (wstr "[L") (c :: r1)); [reflexivity|]. destruct (starts_with (wstr "-[B") (c :: r1)); [reflexivity|].
  destruct r1 as [|c1 [|c2 r2]]; [reflexivity|reflexivity|].
  destruct (c =? ch "["); [|reflexivity]. destruct (c1 =? ch "X"); [|reflexivity].
  destruct (px c2 s) as [k s1]. apply IH; rewrite skipn_length; lia.
Qed.

Definition pl (r : list Z) (s : debug_state) : debug_state := ploop (length r) r s.
Lemma pl_fuel : forall f r s, (length r <= f)%nat -> ploop f r s = pl r s. Proof. intros. apply ploop_fuel; auto. Qed.

(** ** Single steps *)

Lemma pl_char : forall c R s, c <> ch "[" -> c <> ch "]" -> starts_with (wstr "-[B") (c :: R) = false -> pl (c :: R) s = pl R (pchar c s).
Proof.
  intros c R s N1 N2 B. unfold pl at 1. cbn [length ploop]. replace (starts_with (wstr "[L") (c :: R)) with false.
  2:{ symmetry. change (wstr "[L") with [ch "["; ch "L"]. cbn [starts_with]. replace (ch "[" =? c) with false by lia. reflexivity. }
  rewrite B. apply Z.eqb_neq in N1, N2. rewrite N1, N2. destruct R as [|c1 [|c2 R]]; apply pl_fuel; reflexivity.
Qed.
Lemma pl_close : forall R s, pl (ch "]" :: R) s = pl R (set_content s (inContent s) false).
Proof.
  intros R s. unfold pl at 1. cbn [length ploop]. change (starts_with (wstr "[L") (ch "]" :: R)) with false. change (starts_with (wstr "-[B") (ch "]" :: R)) with false.
  change (ch "]" =? ch "[") with false. change (ch "]" =? ch "]") with true. cbv iota. destruct R as [|c1 [|c2 R]]; apply pl_fuel; reflexivity.
Qed.
Lemma pl_open : forall c1 c2 R s, c1 <> ch "X" -> c1 <> ch "L" -> pl (ch "[" :: c1 :: c2 :: R) s = pl (c1 :: c2 :: R) (set_content s (inContent s) true).
Proof.
  intros c1 c2 R s X L. unfold pl at 1. change (length (ch "[" :: c1 :: c2 :: R)) with (S (length (c1 :: c2 :: R))). cbn [ploop].
  replace (starts_with (wstr "[L") (ch "[" :: c1 :: c2 :: R)) with false.
  2:{ symmetry. change (wstr "[L") with [ch "["; ch "L"]. cbn [starts_with]. replace (ch "L" =? c1) with false by lia. rewrite andb_false_r. reflexivity. }
  change (starts_with (wstr "-[B") (ch "[" :: c1 :: c2 :: R)) with false. rewrite Z.eqb_refl. apply Z.eqb_neq in X. rewrite X. apply pl_fuel. reflexivity.
Qed.
Lemma pl_x : forall c2 R s, pl (ch "[" :: ch "X" :: c2 :: R) s = pl (skipn (fst (px c2 s)) (ch "X" :: c2 :: R)) (snd (px c2 s)).
Proof.
  intros c2 R s. unfold pl at 1. change (length (ch "[" :: ch "X" :: c2 :: R)) with (S (length (ch "X" :: c2 :: R))). cbn [ploop].
  change (starts_with (wstr "[L") (ch "[" :: ch "X" :: c2 :: R)) with false. change (starts_with (wstr "-[B") (ch "[" :: ch "X" :: c2 :: R)) with false. rewrite !Z.eqb_refl. cbv iota.
  destruct (px c2 s) as [k s1]. cbn [fst snd]. apply pl_fuel. rewrite skipn_length. lia.
Qed.
Lemma pl_class : forall R s, pl (ch "[" :: ch "L" :: R) s = pl (ch "L" :: R) (pend (set_content s false true)).
Proof.
  intros R s. unfold pl at 1. change (length (ch "[" :: ch "L" :: R)) with (S (length (ch "L" :: R))). cbn [ploop].
  change (starts_with (wstr "[L") (ch "[" :: ch "L" :: R)) with true. apply pl_fuel. reflexivity.
Qed.
Lemma pl_hyphen : forall R s, pl (ch "-" :: ch "[" :: ch "B" :: R) s = pl (ch "B" :: R) (pput_base (pput_id (pend (set_content s false true)) (wstr "+-")) (wstr "+-")).
Proof.
  intros R s. unfold pl at 1. change (length (ch "-" :: ch "[" :: ch "B" :: R)) with (S (S (length (ch "B" :: R)))).
  assert (F : (length (ch "B" :: R) <= S (length (ch "B" :: R)))%nat) by lia. revert F. generalize (S (length (ch "B" :: R))). intros f F. cbn [ploop].
  change (starts_with (wstr "[L") (ch "-" :: ch "[" :: ch "B" :: R)) with false. change (starts_with (wstr "-[B") (ch "-" :: ch "[" :: ch "B" :: R)) with true. cbn [tl]. apply pl_fuel, F.
Qed.

(** Characters in brackets and in remarks. *)
Lemma pl_body : forall t R s, ~ In (ch "[") t -> ~ In (ch "]") t -> (exists R', R = ch "]" :: R') \/ (exists R', R = ch "[" :: ch "X" :: R') ->
  pl (t ++ R) s = pl R (fold_left (fun s c => pchar c s) t s).
Proof.
  induction t as [|c t IH]; intros R s N1 N2 E; [reflexivity|]. cbn [app fold_left].
  rewrite pl_char; [apply IH; [intros H; apply N1; now right|intros H; apply N2; now right|exact E]|intros ->; apply N1; now left|intros ->; apply N2; now left|].
  change (wstr "-[B") with [ch "-"; ch "["; ch "B"]. cbn [starts_with]. destruct (ch "-" =? c); [|reflexivity]. cbn [andb].
  destruct t as [|d t]; cbn [app].
  - destruct E as [(R' & ->)|(R' & ->)]; reflexivity.
  - destruct (ch "[" =? d) eqn:D; [|reflexivity]. exfalso. apply N1. right. left. lia.
Qed.
Lemma fold_none : forall t s, inTag s || inXOther s = true -> fold_left (fun s c => pchar c s) t s = s.
Proof. induction t as [|c t IH]; intros s H; [reflexivity|]. cbn [fold_left]. unfold pchar at 2. rewrite H. apply IH, H. Qed.
Lemma fold_s : forall t s, inTag s || inXOther s = false -> inXs s = true -> fold_left (fun s c => pchar c s) t s = set_buffers s (xs s ++ t) (xp s).
Proof.
  induction t as [|c t IH]; intros s H X; [destruct s; dfields; rewrite app_nil_r; reflexivity|]. cbn [fold_left]. unfold pchar at 2. rewrite H, X. rewrite IH by assumption. dfields.
  rewrite <- app_assoc. reflexivity.
Qed.
Lemma fold_p : forall t s, inTag s || inXOther s = false -> inXs s = false -> inXp s = true -> fold_left (fun s c => pchar c s) t s = set_buffers s (xs s) (xp s ++ t).
Proof.
  induction t as [|c t IH]; intros s H X P; [destruct s; dfields; rewrite app_nil_r; reflexivity|]. cbn [fold_left]. unfold pchar at 2. rewrite H, X, P. rewrite IH by assumption. dfields.
  rewrite <- app_assoc. reflexivity.
Qed.
Lemma fold_j : forall t s, inTag s || inXOther s = false -> inXs s = false -> inXp s = false -> inXj s = true -> t <> [] ->
  fold_left (fun s c => pchar c s) t s = set_buffers s (xs s) ((if Nat.eqb (length (xp s)) 0 then wstr "+" else xp s) ++ t).
Proof.
  induction t as [|c t IH]; intros s H X P J N; [contradiction|]. cbn [fold_left]. unfold pchar at 2. rewrite H, X, P, J. destruct t as [|d t]; [reflexivity|].
  rewrite IH by (try assumption; discriminate). dfields. f_equal. replace (Nat.eqb (length _) 0) with false; [|rewrite app_length; symmetry; apply Nat.eqb_neq; cbn [length]; lia].
  rewrite <- app_assoc. reflexivity.
Qed.

(** ** Items *)

Definition clean (s : debug_state) : Prop := inXs s = false /\ inXp s = false /\ inXj s = false /\ inXOther s = false /\ inTag s = false.
Definition istep (s : debug_state) (x : item) : debug_state :=
  match x with
  | Letter c => pchar c s
  | Hyphen => pchar (ch "-") s
  | Colon => pchar (ch ":") s
  | Remark k t => if k =? ch "s" then set_x (set_buffers s t (xp s)) false false false false true
                  else if k =? ch "p" then set_buffers s (xs s) t
                  else if k =? ch "j" then set_buffers s (xs s) (wstr "+" ++ t) else s
  | _ => s
  end.
Definition plain_item (x : item) : Prop :=
  match x with Class _ => False | Remark k t => ~ In (ch "]") t /\ (k = ch "j" -> t <> []) | _ => True end.

Lemma run_remark : forall k t R s, clean s -> good_item (Remark k t) -> ~ In (ch "]") t -> 
  pl (render_item (Remark k t) ++ R) s = pl R (set_x (fold_left (fun s c => pchar c s) t (snd (px k s))) false false false false (anyXs (fold_left (fun s c => pchar c s) t (snd (px k s))))).
Proof.
  intros k t R s C (G1 & G2 & G3) N. cbn [render_item]. change (wstr "[X") with [ch "["; ch "X"]. change (wstr "[X]") with [ch "["; ch "X"; ch "]"]. change (wstr "]") with [ch "]"].
  repeat (rewrite <- app_assoc || cbn [app]). rewrite pl_x.
  assert (F : fst (px k s) = 3%nat). { unfold px. destruct (k =? ch "s"), (k =? ch "p"), (k =? ch "j"); try reflexivity. destruct (k =? ch "]") eqn:E; [|reflexivity]. exfalso. apply G1. right. right. right. left. change (ch "]" = k). lia. }
  rewrite F. cbn [skipn]. rewrite pl_body; [|assumption|assumption|right; eauto]. rewrite pl_x. unfold px at 1 3. change (ch "]" =? ch "s") with false. change (ch "]" =? ch "p") with false. change (ch "]" =? ch "j") with false.
  change (ch "]" =? ch "]") with true. reflexivity.
Qed.

Lemma pchar_clean : forall c s, clean s -> clean (pchar c s).
Proof. intros c s (A & B & C & D & E). unfold pchar. rewrite A, B, C, D, E. cbn [orb]. destruct (inContent s); (split; [exact A|split; [exact B|split; [exact C|split; [exact D|first [exact E|reflexivity]]]]]). Qed.
Lemma istep_clean : forall x s, clean s -> clean (istep s x).
Proof.
  intros x s H. destruct x; cbn [istep]; try exact H; try apply pchar_clean, H. destruct (k =? ch "s"); [destruct H as (A & B & C & D & E); split; [reflexivity|split; [reflexivity|split; [reflexivity|split; [reflexivity|exact E]]]]|]. destruct (k =? ch "p"); [exact H|]. destruct (k =? ch "j"); exact H.
Qed.

Lemma run_tag : forall t R s, clean s -> good_item (Tag t) -> pl (render_item (Tag t) ++ R) s = pl R s.
Proof.
  intros t R s (A & B & C & D & E) (G1 & G2 & G3 & G4 & G5 & G6 & _). cbn [render_item]. change (wstr "[") with [ch "["]. change (wstr "]") with [ch "]"]. repeat (rewrite <- app_assoc || cbn [app]).
  destruct t as [|c1 [|c2 t]]; cbn [length] in G4; try lia. cbn [hd] in G5, G6. cbn [app]. rewrite pl_open by assumption.
  change (c1 :: c2 :: t ++ ch "]" :: R) with ((c1 :: c2 :: t) ++ ch "]" :: R). rewrite pl_body; [|assumption|assumption|left; eauto].
  rewrite fold_none by (dfields; reflexivity). rewrite pl_close. destruct s. dfields. subst. reflexivity.
Qed.

Lemma run_item : forall x R s, clean s -> good_item x -> plain_item x -> (x = Hyphen -> starts_with (wstr "[B") R = false) -> (forall t, x = Remark (ch "j") t -> inContent s = false) ->
  pl (render_item x ++ R) s = pl R (istep s x).
Proof.
  intros x R s CL G P H J. destruct x; cbn [istep].
  - cbn [render_item app]. cbn [good_item] in G. apply pl_char.
    + intros ->. apply G. right. left. reflexivity.
    + intros ->. apply G. right. right. left. reflexivity.
    + change (wstr "-[B") with (ch "-" :: wstr "[B"). cbn [starts_with]. destruct (ch "-" =? c) eqn:E; [|reflexivity]. exfalso. apply G. right. right. right. left. change (ch "-" = c). lia.
  - change (render_item Hyphen ++ R) with (ch "-" :: R). apply pl_char; [discriminate|discriminate|]. change (wstr "-[B") with (ch "-" :: wstr "[B"). cbn [starts_with]. rewrite Z.eqb_refl, (H eq_refl). reflexivity.
  - change (render_item Colon ++ R) with (ch ":" :: R). apply pl_char; [discriminate|discriminate|reflexivity].
  - destruct CL as (A & B & C & D & E). cbn [render_item]. change (wstr "[B") with [ch "["; ch "B"]. change (wstr "]") with [ch "]"]. repeat (rewrite <- app_assoc || cbn [app]). rewrite pl_open by discriminate.
    change (ch "B" :: k :: ch "]" :: R) with ([ch "B"; k] ++ ch "]" :: R). rewrite pl_body; [| | |left; eauto].
    + rewrite fold_none by (dfields; reflexivity). rewrite pl_close. destruct s. dfields. subst. reflexivity.
    + intros [X|[X|[]]]; [discriminate|]. apply G. right. right. left. symmetry. exact X.
    + intros [X|[X|[]]]; [discriminate|]. apply G. right. right. right. left. symmetry. exact X.
  - destruct P.
  - destruct G as (G & _). assert (L : forall c, ~ In c (wstr "ijpq-=") -> ~ In c p) by (intros c N I; apply N, G, I).
    cbn [render_item]. change (wstr "[Xr]") with [ch "["; ch "X"; ch "r"; ch "]"]. change (wstr "[X]") with [ch "["; ch "X"; ch "]"]. repeat (rewrite <- app_assoc || cbn [app]). rewrite pl_x.
    change (fst (px (ch "r") s)) with 3%nat. change (snd (px (ch "r") s)) with (set_x s (inXs s) (inXp s) (inXj s) true (anyXs s)). cbn [skipn].
    rewrite pl_body; [|apply L; vm_compute; intuition discriminate|apply L; vm_compute; intuition discriminate|right; eauto]. rewrite fold_none by (dfields; rewrite orb_true_r; reflexivity).
    rewrite pl_x. match goal with |- context [px ?c ?s] => change (fst (px c s)) with 2%nat; change (snd (px c s)) with (set_x s false false false false (anyXs s)) end. cbn [skipn].
    destruct CL as (A & B & C & D & E). destruct s. dfields. subst. reflexivity.
  - destruct P as (P1 & P2). rewrite run_remark by assumption. destruct CL as (A & B & C & D & E). unfold px.
    destruct (k =? ch "s"); [cbn [snd]; rewrite fold_s by (dfields; rewrite ?D, ?E; reflexivity); destruct s; dfields; subst; reflexivity|].
    destruct (k =? ch "p"); [cbn [snd]; rewrite fold_p by (dfields; rewrite ?A, ?D, ?E; reflexivity); destruct s; dfields; subst; reflexivity|].
    destruct (k =? ch "j") eqn:KJ.
    { apply Z.eqb_eq in KJ. subst k. rewrite (J t eq_refl). cbn [snd]. rewrite fold_j; [|dfields; rewrite ?D, ?E; reflexivity|exact A|exact B|reflexivity|exact (P2 eq_refl)].
      clear - A B C D E. destruct s; dfields; subst; reflexivity. }
    replace (k =? ch "]") with false. 2:{ symmetry. apply Z.eqb_neq. intros ->. apply (proj1 G). right. right. right. left. reflexivity. }
    cbn [snd]. rewrite fold_none by (dfields; rewrite orb_true_r; reflexivity). destruct s; dfields; subst; reflexivity.
  - apply run_tag; assumption.
Qed.

Lemma istep_content : forall x s, surface_item x = [] -> inContent (istep s x) = inContent s.
Proof. intros x s E. destruct x; cbn [istep surface_item] in *; try discriminate; try reflexivity. destruct (k =? ch "s"), (k =? ch "p"), (k =? ch "j"); reflexivity. Qed.
Definition ends_first (o : bool) (p : list item) : Prop := forall a t b, p = a ++ Remark (ch "j") t :: b -> o = false /\ surface a = [].
Lemma run_part : forall p R s, clean s -> Forall good_item p -> Forall plain_item p -> (forall a b, p = a ++ Hyphen :: b -> starts_with (wstr "[B") (render b ++ R) = false) ->
  ends_first (inContent s) p -> pl (render p ++ R) s = pl R (fold_left istep p s).
Proof.
  induction p as [|x p IH]; intros R s C G P H J; [reflexivity|]. inversion G as [|? ? G1 G2]; subst. inversion P as [|? ? P1 P2]; subst.
  change (render (x :: p)) with (render_item x ++ render p). rewrite <- app_assoc.
  rewrite run_item; [|assumption|assumption|assumption|intros ->; apply (H [] p); reflexivity|intros t ->; apply (J [] t p); reflexivity].
  cbn [fold_left]. apply IH; [apply istep_clean; assumption|assumption|assumption| |].
  - intros a b ->. apply (H (x :: a) b). reflexivity.
  - intros a t b ->. destruct (J (x :: a) t b eq_refl) as (J1 & J2). change (surface (x :: a)) with (surface_item x ++ surface a) in J2. apply app_eq_nil in J2. destruct J2 as (J2 & J3).
    rewrite istep_content by exact J2. auto.
Qed.
Lemma plain_inner : forall open p R, plain_part open p -> Forall good_item p -> starts_with (wstr "[B") R = false ->
  Forall plain_item p /\ (forall a b, p = a ++ Hyphen :: b -> starts_with (wstr "[B") (render b ++ R) = false) /\ ends_first open p.
Proof.
  intros open p R (P1 & P2 & P3 & P5 & P6) G HR. split.
  - apply Forall_forall. intros x I. destruct x; cbn [plain_item]; auto; [apply (P1 _ I)|]. split; [apply (P5 _ _ I)|]. intros ->. apply in_split in I. destruct I as (a & b & ->). apply (P2 a t b eq_refl).
  - split; [|intros a t b E; destruct (P2 a t b E) as (X & Y & _); auto]. intros a b ->. destruct b as [|x b]; [exact HR|]. change (render (x :: b)) with (render_item x ++ render b). rewrite <- app_assoc.
    assert (GX : good_item x). { rewrite Forall_forall in G. apply G. apply in_or_app. right. right. left. reflexivity. }
    change (wstr "[B") with [ch "["; ch "B"]. destruct x; cbn [render_item].
    + cbn [app starts_with]. destruct (ch "[" =? c) eqn:E; [|reflexivity]. exfalso. apply GX. right. left. change (ch "[" = c). lia.
    + reflexivity.
    + reflexivity.
    + exfalso. apply (P3 a (Boundary k) b eq_refl). exact Logic.I.
    + reflexivity.
    + reflexivity.
    + reflexivity.
    + change (wstr "[") with [ch "["]. cbn [app starts_with]. rewrite Z.eqb_refl. destruct GX as (_ & _ & _ & L & _). destruct t as [|c t]; cbn [length] in L; [lia|]. cbn [app andb].
      specialize (P3 a _ b eq_refl). cbn [starts_part hd] in P3. replace (ch "B" =? c) with false by lia. reflexivity.
Qed.

(** ** The ends of parts *)

Lemma class_name_chars : forall k, In k class_names -> ~ In (ch "[") (wstr k) /\ ~ In (ch "]") (wstr k).
Proof.
  intros k I. assert (F : forallb (fun k => forallb (fun c => negb (c =? ch "[") && negb (c =? ch "]")) (wstr k)) class_names = true) by (vm_compute; reflexivity).
  rewrite forallb_forall in F. specialize (F k I). rewrite forallb_forall in F. split; intros X; specialize (F _ X); vm_compute in F; discriminate.
Qed.
Lemma run_class : forall k R s, clean s -> good_item (Class k) -> pl (render_item (Class k) ++ R) s = pl R (pend (set_content s false false)).
Proof.
  intros k R s (A & B & C & D & E) G. destruct (class_name_chars k G) as (N1 & N2). cbn [render_item]. change (wstr "[L") with [ch "["; ch "L"]. change (wstr "]") with [ch "]"]. repeat (rewrite <- app_assoc || cbn [app]).
  rewrite pl_class. change (ch "L" :: wstr k ++ ch "]" :: R) with ((ch "L" :: wstr k) ++ ch "]" :: R).
  rewrite pl_body; [|intros [X|X]; [discriminate|exact (N1 X)]|intros [X|X]; [discriminate|exact (N2 X)]|left; eauto]. rewrite fold_none by reflexivity. rewrite pl_close. reflexivity.
Qed.
Lemma run_hyphen : forall x R s, clean s -> good_item x -> starts_part x ->
  pl (render_item Hyphen ++ render_item x ++ R) s = pl R (pput_base (pput_id (pend (set_content s false false)) (wstr "+-")) (wstr "+-")).
Proof.
  intros x R s (A & B & C & D & E) G SP.
  assert (F : exists t, render_item x = wstr "[" ++ (ch "B" :: t) ++ wstr "]" /\ ~ In (ch "[") (ch "B" :: t) /\ ~ In (ch "]") (ch "B" :: t)).
  { destruct x; try (exfalso; exact SP).
    - exists [k]. split; [reflexivity|]. split; (intros [X|[X|[]]]; [discriminate|]); apply G; right; right; [left|right; left]; symmetry; exact X.
    - destruct G as (_ & G2 & G3 & G4 & _). destruct t as [|c t]; [cbn [length] in G4; lia|]. cbn [starts_part hd] in SP. subst c. exists t. split; [reflexivity|]. auto. }
  destruct F as (t & -> & N1 & N2). cbn [render_item]. change (wstr "-") with [ch "-"]. change (wstr "[") with [ch "["]. change (wstr "]") with [ch "]"]. repeat (rewrite <- app_assoc || cbn [app]).
  rewrite pl_hyphen. change (ch "B" :: t ++ ch "]" :: R) with ((ch "B" :: t) ++ ch "]" :: R). rewrite pl_body; [|exact N1|exact N2|left; eauto].
  rewrite fold_none by reflexivity. rewrite pl_close. reflexivity.
Qed.
Lemma run_ending : forall t R s, clean s -> good_item (Remark (ch "j") t) -> ~ In (ch "]") t -> t <> [] -> inContent s = true ->
  pl (render_item (Remark (ch "j") t) ++ R) s = pl R (set_buffers (set_last (pend s)) [] (wstr "+" ++ t)).
Proof.
  intros t R s CL G N1 N2 IC. rewrite run_remark by assumption. destruct CL as (A & B & C & D & E).
  replace (snd (px (ch "j") s)) with (set_x (set_buffers (set_last (pend s)) [] []) (inXs s) (inXp s) true (inXOther s) (anyXs s)).
  2:{ unfold px. change (ch "j" =? ch "s") with false. change (ch "j" =? ch "p") with false. change (ch "j" =? ch "j") with true. cbv iota. rewrite IC. reflexivity. }
  rewrite fold_j; [|cbn; rewrite D, E; reflexivity|exact A|exact B|reflexivity|exact N2]. clear - A B C D E. apply f_equal. destruct s as [f1 f2 f3 f4 f5 f6 f7 f8 f9 f10 f11 f12 f13 f14 f15].
  cbn [wordIds wordBases idpos basepos xs xp idposLast baseposLast inXs inXp inXj inXOther inContent inTag anyXs] in A, B, C, D, E. rewrite A, B, C, D, E. reflexivity.
Qed.

(** ** What a part writes *)

Definition tight (s : debug_state) : Prop := idpos s = length (wordIds s) /\ basepos s = length (wordBases s).
Definition nonempty (x : list Z) : bool := match x with [] => false | _ => true end.
Definition is_number (x : item) : bool := match x with Remark k _ => k =? ch "s" | _ => false end.
(** The effect of items with the word [x]. *)
Definition effect (x : list Z) (n b : list Z) (any : bool) (s s' : debug_state) : Prop :=
  clean s' /\ tight s' /\ wordIds s' = wordIds s ++ part_text (inContent s) x /\ wordBases s' = wordBases s ++ part_text (inContent s) x /\
  xs s' = n /\ xp s' = b /\ inContent s' = inContent s || nonempty x /\ anyXs s' = anyXs s || any /\
  (if inContent s || negb (nonempty x) then idposLast s' = idposLast s /\ baseposLast s' = baseposLast s
   else idposLast s' = S (length (wordIds s)) /\ baseposLast s' = S (length (wordBases s))).

Lemma pchar_effect : forall c s, clean s -> tight s -> effect [c] (xs s) (xp s) false s (pchar c s).
Proof.
  intros c s CL (T1 & T2). assert (CL' := pchar_clean c s CL). destruct CL as (A & B & C & D & E). unfold effect. split; [exact CL'|]. clear CL'. unfold pchar. rewrite A, B, C, D, E. cbn [orb].
  unfold tight. destruct s as [f1 f2 f3 f4 f5 f6 f7 f8 f9 f10 f11 f12 f13 f14 f15]. cbn [wordIds wordBases idpos basepos inContent] in *.
  destruct f13; cbv [pput_base pput_id set_x set_content set_last set_buffers wordIds wordBases idpos basepos xs xp idposLast baseposLast inXs inXp inXj inXOther inContent inTag anyXs]; cbn [orb negb nonempty part_text].
  - repeat split; rewrite ?app_length, ?orb_false_r; cbn [length]; try lia; reflexivity.
  - change (wstr "+") with [ch "+"]. cbn [length]. repeat split; rewrite ?app_length, ?orb_false_r, <- ?app_assoc; cbn [length]; try lia; reflexivity.
Qed.
Lemma istep_effect : forall x s, clean s -> tight s -> plain_item x ->
  effect (surface_item x) (source (ch "s") (xs s) [x]) (base_of (xp s) [x]) (is_number x) s (istep s x).
Proof.
  intros x s CL T P.
  assert (N : forall s', clean s' -> tight s' -> wordIds s' = wordIds s -> wordBases s' = wordBases s -> inContent s' = inContent s -> idposLast s' = idposLast s -> baseposLast s' = baseposLast s ->
    forall any, anyXs s' = anyXs s || any -> effect [] (xs s') (xp s') any s s').
  { intros s' C' T' W1 W2 I L1 L2 any Y. unfold effect. cbn [nonempty negb]. rewrite orb_true_r, orb_false_r. replace (part_text (inContent s) []) with (@nil Z) by (destruct (inContent s); reflexivity).
    rewrite !app_nil_r. repeat split; try assumption; try apply C'; try apply T'. }
  destruct x; cbn [istep surface_item is_number source base_of].
  - apply pchar_effect; assumption.
  - apply pchar_effect; assumption.
  - apply pchar_effect; assumption.
  - apply N; try assumption; try reflexivity. rewrite orb_false_r. reflexivity.
  - destruct P.
  - apply N; try assumption; try reflexivity. rewrite orb_false_r. reflexivity.
  - destruct (k =? ch "s") eqn:KS.
    + replace (k =? ch "p") with false. 2:{ symmetry. apply Z.eqb_eq in KS. subst k. reflexivity. } replace (k =? ch "j") with false. 2:{ symmetry. apply Z.eqb_eq in KS. subst k. reflexivity. }
      apply (N (set_x (set_buffers s t (xp s)) false false false false true)); try reflexivity; try assumption.
      * destruct CL as (A & B & C & D & E). split; [reflexivity|split; [reflexivity|split; [reflexivity|split; [reflexivity|exact E]]]].
      * dfields. rewrite orb_true_r. reflexivity.
    + destruct (k =? ch "p").
      * apply (N (set_buffers s (xs s) t)); try reflexivity; try assumption. dfields. rewrite orb_false_r. reflexivity.
      * destruct (k =? ch "j").
        -- apply (N (set_buffers s (xs s) (wstr "+" ++ t))); try reflexivity; try assumption. dfields. rewrite orb_false_r. reflexivity.
        -- apply N; try assumption; try reflexivity. rewrite orb_false_r. reflexivity.
  - apply N; try assumption; try reflexivity. rewrite orb_false_r. reflexivity.
Qed.
Lemma part_text_app : forall o x y, part_text o (x ++ y) = part_text o x ++ part_text (o || nonempty x) y.
Proof. intros [|] x y; cbn [part_text orb]; [reflexivity|]. destruct x as [|c x]; cbn [app nonempty]; [reflexivity|]. rewrite <- !app_assoc. reflexivity. Qed.
Lemma source_cons : forall k x t p, source k t (x :: p) = source k (source k t [x]) p. Proof. intros k x t r. destruct x; reflexivity. Qed.
Lemma base_cons : forall x t p, base_of t (x :: p) = base_of (base_of t [x]) p. Proof. intros x t r. destruct x; reflexivity. Qed.
Lemma part_effect : forall p s, clean s -> tight s -> Forall plain_item p ->
  effect (surface p) (source (ch "s") (xs s) p) (base_of (xp s) p) (existsb is_number p) s (fold_left istep p s).
Proof.
  induction p as [|x p IH]; intros s CL T P.
  { cbn [fold_left source base_of existsb]. change (surface []) with (@nil Z). unfold effect. cbn [nonempty negb]. rewrite orb_true_r, !orb_false_r.
    replace (part_text (inContent s) []) with (@nil Z) by (destruct (inContent s); reflexivity). rewrite !app_nil_r. repeat split; try reflexivity; try apply CL; apply T. }
  inversion P as [|? ? P1 P2]; subst. assert (S1 := istep_effect x s CL T P1). cbn [fold_left]. set (s1 := istep s x) in *. clearbody s1.
  destruct S1 as (C1 & T1 & I1 & B1 & X1 & Y1 & IC1 & A1 & L1). destruct (IH s1 C1 T1 P2) as (C2 & T2 & I2 & B2 & X2 & Y2 & IC2 & A2 & L2).
  change (surface (x :: p)) with (surface_item x ++ surface p). unfold effect. rewrite part_text_app. cbn [existsb]. rewrite (source_cons (ch "s") x (xs s) p), (base_cons x (xp s) p).
  rewrite X1 in X2. rewrite Y1 in Y2. rewrite I2, B2, I1, B1, IC1, <- !app_assoc. split; [exact C2|]. split; [exact T2|]. split; [reflexivity|]. split; [reflexivity|]. split; [exact X2|]. split; [exact Y2|].
  split; [rewrite IC2, IC1; destruct (inContent s), (surface_item x), (surface p); reflexivity|]. split; [rewrite A2, A1, orb_assoc; reflexivity|].
  rewrite IC1 in L2. destruct (inContent s); cbn [orb] in *.
  - destruct L1 as (L1 & L1'), L2 as (L2 & L2'). split; congruence.
  - destruct (surface_item x) as [|c l]; cbn [nonempty negb app orb] in *.
    + destruct L1 as (L1 & L1'). change (part_text false []) with (@nil Z) in I1, B1. rewrite app_nil_r in I1, B1. destruct (surface p); cbn [nonempty negb] in *; destruct L2 as (L2 & L2'); split; congruence.
    + destruct L1 as (L1 & L1'), L2 as (L2 & L2'). split; congruence.
Qed.

(** ** Whole outputs *)

(** The text behind which the base form is written: without the plus sign if the base
    form has one. *)
Definition drops (b B0 : list Z) : bool := (hd 0 b =? ch "+") && (last B0 0 =? ch "+").
Definition final (s : debug_state) : list Z * list Z :=
  match xp s with
  | [] => (wordIds s ++ numbered (xs s), wordBases s)
  | b => let I0 := firstn (idposLast s) (wordIds s) in let B0 := firstn (baseposLast s) (wordBases s) in
      ((if drops b B0 then removelast I0 else I0) ++ symbols b ++ numbered (xs s), (if drops b B0 then removelast B0 else B0) ++ symbols b ++ wstr "(" ++ b ++ wstr ")")
  end.
Definition ready (open : bool) (b0 : list Z) (s : debug_state) : Prop :=
  clean s /\ tight s /\ inContent s = open /\ xs s = [] /\ xp s = b0 /\
  (if open then idposLast s = idpos s /\ baseposLast s = basepos s /\ last (wordBases s) 0 <> ch "+" else b0 = []).

Lemma last_app : forall (x y : list Z), y <> [] -> last (x ++ y) 0 = last y 0.
Proof. intros x y N. induction x as [|c x IH]; [reflexivity|]. cbn [app]. destruct (x ++ y) eqn:E; [apply app_eq_nil in E; destruct E; contradiction|]. cbn [last]. exact IH. Qed.
Lemma firstn_S : forall (x : list Z) c y, firstn (S (length x)) (x ++ c :: y) = x ++ [c].
Proof. induction x as [|d x IH]; intros c y; [reflexivity|]. cbn [length app]. cbn [firstn]. f_equal. apply IH. Qed.
Lemma last_in : forall (x : list Z), x <> [] -> In (last x 0) x.
Proof. induction x as [|c x IH]; intros N; [contradiction|]. destruct x as [|d x]; [left; reflexivity|]. right. apply IH. discriminate. Qed.
Lemma existsb_mid : forall a x b, existsb is_number (a ++ x :: b) = existsb is_number a || (is_number x || existsb is_number b).
Proof. intros. rewrite existsb_app. reflexivity. Qed.
Lemma render_mid : forall a x b, render (a ++ x :: b) = render a ++ render_item x ++ render b.
Proof. intros. unfold render. rewrite map_app, concat_app. reflexivity. Qed.

Definition pend_h (s : debug_state) : debug_state := pput_base (pput_id (pend (set_content s false false)) (wstr "+-")) (wstr "+-").
Lemma pend_tight : forall s, tight s -> tight (pend s).
Proof.
  intros s (A & B). split.
  - change ((idpos s + length (numbered (xs s)))%nat = length (wordIds s ++ numbered (xs s))). rewrite app_length. lia.
  - change ((basepos s + length (in_parentheses (xp s)))%nat = length (wordBases s ++ in_parentheses (xp s))). rewrite app_length. lia.
Qed.
Lemma put_tight : forall s x, tight s -> tight (pput_base (pput_id s x) x).
Proof.
  intros s x (A & B). split.
  - change ((idpos s + length x)%nat = length (wordIds s ++ x)). rewrite app_length. lia.
  - change ((basepos s + length x)%nat = length (wordBases s ++ x)). rewrite app_length. lia.
Qed.
Lemma pend_ids : forall s x, wordIds (pend (set_content s x false)) = wordIds s ++ numbered (xs s). Proof. reflexivity. Qed.
Lemma pend_bases : forall s x, wordBases (pend (set_content s x false)) = wordBases s ++ in_parentheses (xp s). Proof. reflexivity. Qed.
Lemma pend_h_ids : forall s, wordIds (pend_h s) = wordIds s ++ numbered (xs s) ++ wstr "+-".
Proof. intros s. rewrite app_assoc. reflexivity. Qed.
Lemma pend_h_bases : forall s, wordBases (pend_h s) = wordBases s ++ in_parentheses (xp s) ++ wstr "+-".
Proof. intros s. rewrite app_assoc. reflexivity. Qed.
Definition pend_j (s : debug_state) (t : list Z) : debug_state := set_buffers (set_last (pend s)) [] (wstr "+" ++ t).
Lemma pend_j_ids : forall s t, wordIds (pend_j s t) = wordIds s ++ numbered (xs s). Proof. reflexivity. Qed.
Lemma pend_j_bases : forall s t, wordBases (pend_j s t) = wordBases s ++ in_parentheses (xp s). Proof. reflexivity. Qed.

Lemma run_described : forall open b0 l B I, described open b0 l B I -> Forall good_item l -> forall s, ready open b0 s ->
  let s' := pl (render l) s in
  final s' = (wordIds s ++ I, wordBases s ++ B) /\ anyXs s' = anyXs s || existsb is_number l.
Proof.
  intros open b0 l B I D. induction D as [open b0 p P Q|open b0 p k r B I P D IH|open b0 p x r B I P SX D IH|open b0 p t r B I P Q N1 N2 D IH]; intros G s (CL & T & IC & XS & XP & O).
  - destruct (plain_inner open p [] P G eq_refl) as (F1 & F2 & F3). rewrite <- IC in F3. rewrite <- (app_nil_r (render p)), run_part by assumption. assert (E := part_effect p s CL T F1). set (s1 := fold_left istep p s) in *. clearbody s1.
    change (pl [] s1) with s1. destruct E as (C1 & T1 & I1 & B1 & X1 & Y1 & IC1 & A1 & L1). rewrite IC in *. rewrite XS in X1. rewrite XP in Y1. cbv zeta. split; [|exact A1].
    unfold final, last_bases, last_ids, last_text. rewrite X1, Y1. destruct (base_of b0 p) as [|c b] eqn:SB.
    + rewrite I1, B1, <- app_assoc. cbn [in_parentheses]. rewrite app_nil_r. reflexivity.
    + destruct Q as [Q|Q]; [discriminate|]. unfold drops. cbn [in_parentheses]. destruct open; cbn [orb] in L1.
      * destruct L1 as (L1 & L1'), O as (O1 & O2 & O3), T as (T1' & T2'). rewrite L1, L1', O1, O2, T1', T2', I1, B1. cbn [part_text].
        rewrite !firstn_app, !firstn_all, !Nat.sub_diag. cbn [firstn]. rewrite !app_nil_r. apply Z.eqb_neq in O3. rewrite O3, andb_false_r. destruct (hd 0 (c :: b) =? ch "+"); reflexivity.
      * destruct Q as [(Q1 & Q2)|Q]; [|discriminate]. destruct (surface p) as [|d x] eqn:SP; [contradiction|]. cbn [nonempty negb] in L1. destruct L1 as (L1 & L1').
        rewrite L1, L1', I1, B1. cbn [part_text]. destruct (symbols (c :: b)) as [|e y] eqn:SY; [contradiction|]. change (wstr "+") with [ch "+"]. cbn [app].
        rewrite !firstn_S. rewrite last_app by discriminate. change (last [ch "+"] 0 =? ch "+") with true. rewrite andb_true_r, !removelast_last.
        destruct (hd 0 (c :: b) =? ch "+"); rewrite <- ?app_assoc; reflexivity.
  - rewrite render_mid. apply Forall_app in G. destruct G as (G1 & G2). inversion G2 as [|? ? G3 G4]; subst.
    destruct (plain_inner _ p (render_item (Class k) ++ render r) P G1 eq_refl) as (F1 & F2 & F3). rewrite run_part by assumption. assert (E := part_effect p s CL T F1).
    set (s1 := fold_left istep p s) in *. clearbody s1. destruct E as (C1 & T1 & I1 & B1 & X1 & Y1 & IC1 & A1 & L1). rewrite run_class by assumption.
    destruct (IH G4 (pend (set_content s1 false false))) as (H1 & H3).
    + split; [destruct C1 as (CA & CB & CC & CD & CE); repeat split; assumption|]. split; [|repeat split]. apply pend_tight. exact T1.
    + cbv zeta. split.
      * rewrite H1. unfold part_bases, part_ids. rewrite pend_ids, pend_bases, I1, B1, X1, Y1, XS, <- !app_assoc. reflexivity.
      * rewrite H3, existsb_mid. change (anyXs (pend (set_content s1 false false))) with (anyXs s1). rewrite A1, <- orb_assoc. reflexivity.
  - rewrite render_mid. change (render (x :: r)) with (render_item x ++ render r). apply Forall_app in G. destruct G as (G1 & G2). inversion G2 as [|? ? G3 G4]; subst. inversion G4 as [|? ? G5 G6]; subst.
    destruct (plain_inner _ p (render_item Hyphen ++ render_item x ++ render r) P G1 eq_refl) as (F1 & F2 & F3). rewrite run_part by assumption. assert (E := part_effect p s CL T F1).
    set (s1 := fold_left istep p s) in *. clearbody s1. destruct E as (C1 & T1 & I1 & B1 & X1 & Y1 & IC1 & A1 & L1). rewrite run_hyphen by assumption. fold (pend_h s1).
    destruct (IH G6 (pend_h s1)) as (H1 & H3).
    + split; [destruct C1 as (CA & CB & CC & CD & CE); repeat split; assumption|]. split; [|repeat split]. apply put_tight, pend_tight. exact T1.
    + cbv zeta. split.
      * rewrite H1. unfold part_bases, part_ids. rewrite pend_h_ids, pend_h_bases, I1, B1, X1, Y1, XS, <- !app_assoc. reflexivity.
      * rewrite H3, existsb_mid. match goal with |- anyXs ?x || _ = _ => change (anyXs x) with (anyXs s1) end. rewrite A1, <- orb_assoc. destruct x; try (exfalso; exact SX); reflexivity.
  - rewrite render_mid. apply Forall_app in G. destruct G as (G1 & G2). inversion G2 as [|? ? G3 G4]; subst.
    destruct (plain_inner _ p (render_item (Remark (ch "j") t) ++ render r) P G1 eq_refl) as (F1 & F2 & F3). rewrite run_part by assumption. assert (E := part_effect p s CL T F1).
    set (s1 := fold_left istep p s) in *. clearbody s1. destruct E as (C1 & T1 & I1 & B1 & X1 & Y1 & IC1 & A1 & L1).
    assert (IC2 : inContent s1 = true). { rewrite IC1. destruct Q as [Q|Q]; [rewrite Q; reflexivity|]. destruct (surface p); [contradiction|apply orb_true_r]. }
    rewrite run_ending by assumption. fold (pend_j s1 t).
    destruct (IH G4 (pend_j s1 t)) as (H1 & H3).
    + split; [destruct C1 as (CA & CB & CC & CD & CE); repeat split; assumption|]. split; [|split; [exact IC2|split; [reflexivity|split; [reflexivity|split; [reflexivity|split; [reflexivity|]]]]]].
      * apply (pend_tight s1 T1).
      * rewrite pend_j_bases, B1. destruct (xp s1) as [|c b] eqn:XP1; cbn [in_parentheses].
        -- rewrite app_nil_r. destruct P as (_ & _ & _ & _ & P6). destruct (surface p) as [|c x] eqn:SP.
           ++ destruct Q as [Q|Q]; [|contradiction]. rewrite Q in *. cbn [part_text]. rewrite app_nil_r. apply O.
           ++ destruct (inContent s); cbn [part_text].
              ** rewrite last_app by discriminate. intros X. apply P6. rewrite <- X. apply last_in. discriminate.
              ** rewrite app_assoc, last_app by discriminate. intros X. apply P6. rewrite <- X. apply last_in. discriminate.
        -- rewrite !app_assoc. rewrite last_app by discriminate. discriminate.
    + cbv zeta. split.
      * rewrite H1. unfold part_bases, part_ids. rewrite pend_j_ids, pend_j_bases, I1, B1, X1, Y1, XS, <- !app_assoc. reflexivity.
      * rewrite H3, existsb_mid. match goal with |- anyXs ?x || _ = _ => change (anyXs x) with (anyXs s1) end. rewrite A1, <- orb_assoc. reflexivity.
Qed.

(** ** The values *)

Lemma xp_end_abs : forall s s1, debug_xp_end s = Ok s1 -> wp s -> wp2 s1 /\ xs s1 = xs s /\ anyXs s1 = anyXs s /\ (wordIds (abs s1) ++ numbered (xs s1), wordBases (abs s1)) = final (abs s).
Proof.
  intros s s1 H W. unfold debug_xp_end in H. unfold final. change (xp (abs s)) with (xp s).
  change (baseposLast (abs s)) with (baseposLast s) in *. change (idposLast (abs s)) with (idposLast s). change (wordBases (abs s)) with (firstn (basepos s) (wordBases s)) in *.
  change (wordIds (abs s)) with (firstn (idpos s) (wordIds s)). change (xs (abs s)) with (xs s). destruct W as (W1 & W2 & W3 & W4).
  destruct (xp s) as [|x0 b] eqn:XP; [injection H as <-; split; [split; assumption|]; auto|]. rewrite !firstn_firstn, !Nat.min_l by assumption.
  set (s0 := mk_ds (wordIds s) (wordBases s) (idposLast s) (baseposLast s) (xs s) (x0 :: b) (idposLast s) (baseposLast s) (inXs s) (inXp s) (inXj s) (inXOther s) (inContent s) (inTag s) (anyXs s)) in *.
  set (n := if drops (x0 :: b) (firstn (baseposLast s) (wordBases s)) then 1%nat else 0%nat).
  assert (PL : (if (0 <? basepos s0)%nat && (x0 =? ch "+") then c <- rd (wordBases s0) (basepos s0 - 1) ;; Ok (if c =? ch "+" then 1%nat else 0%nat) else Ok 0%nat) = Ok n).
  { unfold n, drops. cbn [hd]. change (basepos s0) with (baseposLast s) in *. change (wordBases s0) with (wordBases s). destruct (0 <? baseposLast s)%nat eqn:Q.
    2:{ replace (baseposLast s) with 0%nat by lia. cbn [firstn]. change (last [] 0 =? ch "+") with false. rewrite andb_false_r. reflexivity. }
    destruct (x0 =? ch "+"); [|reflexivity]. cbn [andb]. apply Nat.ltb_lt in Q. unfold rd. destruct (nth_error (wordBases s) (baseposLast s - 1)) as [c|] eqn:E.
    2:{ apply nth_error_None in E. lia. }
    cbn [bind]. destruct (baseposLast s) as [|m] eqn:EN; [lia|]. cbn [Nat.sub] in E. rewrite Nat.sub_0_r in E.
    apply nth_error_split in E. destruct E as (l1 & l2 & -> & <-). rewrite firstn_S, last_app by discriminate. reflexivity. }
  rewrite PL in H. cbn [bind] in H. unfold step_back in H. change (basepos s0) with (baseposLast s) in H. change (idpos s0) with (idposLast s) in H.
  destruct ((baseposLast s <? n)%nat || (idposLast s <? n)%nat) eqn:Q; [discriminate|]. cbn [bind] in H. apply orb_false_iff in Q. destruct Q as (Q1 & Q2). apply Nat.ltb_ge in Q1, Q2.
  set (s2 := mk_ds (wordIds s0) (wordBases s0) (idposLast s - n) (baseposLast s - n) (xs s0) (xp s0) (idposLast s0) (baseposLast s0) (inXs s0) (inXp s0) (inXj s0) (inXOther s0) (inContent s0) (inTag s0) (anyXs s0)) in *.
  change (filter (fun c => negb (c =? ch "=")) (xp s2)) with (symbols (x0 :: b)) in H. cbv zeta in H.
  assert (W0 : wp2 s2) by (unfold wp2; change (idpos s2) with (idposLast s - n)%nat; change (basepos s2) with (baseposLast s - n)%nat; change (wordIds s2) with (wordIds s); change (wordBases s2) with (wordBases s); lia).
  destruct (put_base s2 (symbols (x0 :: b))) as [s3| |] eqn:E2; try discriminate. cbn [bind] in H. destruct (put_base_abs2 _ _ _ E2 W0) as (W5 & A2).
  destruct (put_id s3 (symbols (x0 :: b))) as [s4| |] eqn:E3; try discriminate. cbn [bind] in H. destruct (put_id_abs2 _ _ _ E3 W5) as (W6 & A3).
  destruct (put_base_abs2 _ _ _ H W6) as (W7 & A4). rewrite A3, A2 in A4. change (xp s4) with (xp (abs s4)) in A4. rewrite A3, A2 in A4. split; [exact W7|].
  change (xs s1) with (xs (abs s1)). change (anyXs s1) with (anyXs (abs s1)). rewrite A4. split; [reflexivity|]. split; [reflexivity|].
  assert (FN : forall (l : list Z) k, (k <= length l)%nat -> (n <= k)%nat -> firstn (k - n) l = if drops (x0 :: b) (firstn (baseposLast s) (wordBases s)) then removelast (firstn k l) else firstn k l).
  { intros l k L1 L2. unfold n in *. destruct (drops (x0 :: b) (firstn (baseposLast s) (wordBases s))); [|rewrite Nat.sub_0_r; reflexivity]. destruct k as [|k]; [lia|]. rewrite removelast_firstn by lia. f_equal. lia. }
  cbv zeta. rewrite <- !FN by lia.
  apply f_equal2; [transitivity ((firstn (idposLast s - n) (wordIds s) ++ symbols (x0 :: b)) ++ numbered (xs s))|transitivity ((firstn (baseposLast s - n) (wordBases s) ++ symbols (x0 :: b)) ++ wstr "(" ++ (x0 :: b) ++ wstr ")")];
    solve [reflexivity|rewrite <- app_assoc; reflexivity].
Qed.

Lemma cstr_at : forall buf n, ~ In 0 (firstn n buf) -> (n < length buf)%nat -> cstr (upd buf n 0) = firstn n buf.
Proof.
  induction buf as [|c buf IH]; intros n N L; [cbn [length] in L; lia|]. destruct n as [|n]; [reflexivity|]. change (upd (c :: buf) (S n) 0) with (c :: upd buf n 0). cbn [firstn cstr] in *.
  replace (c =? 0) with false by (symmetry; apply Z.eqb_neq; intros ->; apply N; now left). f_equal. apply IH; [intros H; apply N; now right|cbn [length] in L; lia].
Qed.

(** No character is NUL. *)
Definition free (l : list Z) : Prop := ~ In 0 l.
Lemma free_app : forall a b, free a -> free b -> free (a ++ b). Proof. intros a b A B H. apply in_app_or in H. destruct H; auto. Qed.
Lemma free_surface : forall p, Forall good_item p -> free (surface p).
Proof.
  induction p as [|x p IH]; intros G; [intros []|]. inversion G as [|? ? G1 G2]; subst. change (surface (x :: p)) with (surface_item x ++ surface p). apply free_app; [|auto].
  destruct x; cbn [surface_item]; try (intros []; fail); try nonul. intros [->|[]]. apply G1. left. reflexivity.
Qed.
Lemma free_source : forall k p t, Forall good_item p -> free t -> free (source k t p).
Proof.
  intros k p. induction p as [|x p IH]; intros t G F; [exact F|]. inversion G as [|? ? G1 G2]; subst. destruct x; cbn [source]; auto. apply IH; [exact G2|]. destruct (k0 =? k); [apply G1|exact F].
Qed.
Lemma free_base : forall p t, Forall good_item p -> free t -> free (base_of t p).
Proof.
  intros p. induction p as [|x p IH]; intros t G F; [exact F|]. inversion G as [|? ? G1 G2]; subst. destruct x; cbn [base_of]; auto. apply IH; [exact G2|].
  destruct (k =? ch "p"); [apply G1|]. destruct (k =? ch "j"); [apply free_app; [nonul|apply G1]|exact F].
Qed.
Lemma free_part_text : forall o x, free x -> free (part_text o x).
Proof. intros [|] x F; cbn [part_text]; [exact F|]. destruct x; [exact F|]. apply free_app; [nonul|exact F]. Qed.
Lemma free_parentheses : forall x, free x -> free (in_parentheses x).
Proof. intros [|c x] F; cbn [in_parentheses]; [exact F|]. apply free_app; [nonul|]. apply free_app; [exact F|nonul]. Qed.
Lemma free_numbered : forall x, free x -> free (numbered x).
Proof. intros [|c x] F; cbn [numbered]; [exact F|]. apply free_app; [nonul|]. apply free_app; [exact F|nonul]. Qed.
Lemma free_symbols : forall x, free x -> free (symbols x).
Proof. intros x F H. apply F. unfold symbols in H. apply filter_In in H. apply H. Qed.
Lemma free_described : forall open b0 l B I, described open b0 l B I -> Forall good_item l -> free b0 -> free B /\ free I.
Proof.
  assert (N : free []) by (intros []).
  assert (PP : forall open b0 p, Forall good_item p -> free b0 -> free (part_bases open b0 p) /\ free (part_ids open p)).
  { intros open b0 p G F. split; (apply free_app; [apply free_part_text, free_surface, G|]); [apply free_parentheses, free_base; assumption|apply free_numbered, free_source; [assumption|exact N]]. }
  intros open b0 l B I D. induction D as [open b0 p P Q|open b0 p k r B I P D IH|open b0 p x r B I P SX D IH|open b0 p t r B I P Q N1 N2 D IH]; intros G F.
  - assert (LT : free (last_text open b0 p)).
    { unfold last_text. assert (FS := free_base p b0 G F). destruct (base_of b0 p) as [|c b]; [apply free_part_text, free_surface, G|].
      destruct (hd 0 (c :: b) =? ch "+"); [|apply free_part_text]; apply free_symbols, FS. }
    split; (apply free_app; [exact LT|]); [apply free_parentheses, free_base; assumption|apply free_numbered, free_source; [assumption|exact N]].
  - apply Forall_app in G. destruct G as (G1 & G2). inversion G2 as [|? ? G3 G4]; subst. destruct (PP open b0 p G1 F), (IH G4 N). split; apply free_app; assumption.
  - apply Forall_app in G. destruct G as (G1 & G2). inversion G2 as [|? ? G3 G4]; subst. inversion G4 as [|? ? G5 G6]; subst. destruct (PP open b0 p G1 F), (IH G6 N).
    split; (apply free_app; [assumption|]; apply free_app; [nonul|assumption]).
  - apply Forall_app in G. destruct G as (G1 & G2). inversion G2 as [|? ? G3 G4]; subst. destruct (PP open b0 p G1 F), IH; [exact G4|apply free_app; [nonul|apply G3]|]. split; apply free_app; assumption.
Qed.

Lemma debug_described : forall a l B I a', Forall good_item l -> described false [] l B I -> parseDebugAttributes a (render l) = Ok a' ->
  a' = add (if existsb is_number l then add a WORDIDS I else a) WORDBASES B.
Proof.
  intros a l B I a' G D E. unfold parseDebugAttributes in E.
  set (s0 := mk_ds (repeat 0 (2 * length (render l) + 1)) (repeat 0 (2 * length (render l) + 1)) 0 0 [] [] 0 0 false false false false false false false) in *.
  assert (W0 : wp s0) by (unfold wp, s0; dfields; lia).
  apply bind_ok in E. destruct E as (s & E1 & E). destruct (loop_abs _ _ _ _ _ E1 W0 ltac:(lia)) as (W & A). cbn [skipn] in A. fold (pl (render l) (abs s0)) in A.
  assert (R0 : ready false [] (abs s0)) by (repeat split).
  destruct (run_described false [] l B I D G (abs s0) R0) as (F & AX). rewrite <- A in F, AX. change (wordIds (abs s0)) with (@nil Z) in F. change (wordBases (abs s0)) with (@nil Z) in F. cbn [app] in F.
  change (anyXs (abs s)) with (anyXs s) in AX. change (anyXs (abs s0)) with false in AX. cbn [orb] in AX.
  apply bind_ok in E. destruct E as (s1 & E2 & E). destruct (xp_end_abs _ _ E2 W) as (W1 & X1 & Y1 & Z1). rewrite F in Z1. injection Z1 as Z1 Z2.
  destruct (free_described _ _ _ _ _ D G ltac:(intros [])) as (FB & FI).
  apply bind_ok in E. destruct E as (s2 & E3 & E).
  assert (S2 : wp2 s2 /\ wordIds (abs s2) = I /\ wordBases (abs s2) = B /\ anyXs s2 = anyXs s1).
  { destruct (xs s1) as [|c n] eqn:XS; cbn [length Nat.eqb] in E3.
    - injection E3 as <-. cbn [numbered] in Z1. rewrite app_nil_r in Z1. auto.
    - destruct (put_id_abs2 _ _ _ E3 W1) as (W2 & A2). split; [exact W2|]. change (anyXs s2) with (anyXs (abs s2)). rewrite A2. split; [exact Z1|]. split; [exact Z2|reflexivity]. }
  destruct S2 as (W2 & I2 & B2 & Y2). change (wordIds (abs s2)) with (firstn (idpos s2) (wordIds s2)) in I2. change (wordBases (abs s2)) with (firstn (basepos s2) (wordBases s2)) in B2.
  apply bind_ok in E. destruct E as (i & E4 & E). apply bind_ok in E. destruct E as (b & E5 & E). unfold wr in E4, E5.
  destruct (idpos s2 <? length (wordIds s2))%nat eqn:Q4; [|discriminate]. destruct (basepos s2 <? length (wordBases s2))%nat eqn:Q5; [|discriminate]. injection E4 as <-. injection E5 as <-.
  apply Nat.ltb_lt in Q4, Q5. rewrite !cstr_at, I2, B2, Y2, Y1, AX in E by (rewrite ?I2, ?B2; assumption). injection E as <-. reflexivity.
Qed.
