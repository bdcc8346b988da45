(** * Suggestion generators: which candidates they try, in which order *)
From Verif Require Import Base BaseFacts CharModel SpellerBase CacheModel AnalysisModel AnalyzerBase HyphModel
  AdapterModel SuggestModel.

Section Try.
Variable an : analyzer.

Fixpoint try_all (l : list (list Z)) (s : status) : res status :=
  match l with
  | [] => Ok s
  | w :: r => s <- suggestForBuffer an s w ;; try_all r s
  end.

Definition keeps (s s' : status) : Prop :=
  sword s' = sword s /\ maxCost s' = maxCost s /\ maxSuggestions s' = maxSuggestions s.

Lemma keeps_refl : forall s, keeps s s.
Proof. intros; repeat split. Qed.
Lemma keeps_trans : forall a b c, keeps a b -> keeps b c -> keeps a c.
Proof. unfold keeps; intros a b c (A1 & A2 & A3) (B1 & B2 & B3); repeat split; congruence. Qed.

Lemma add_keeps : forall s w p s', addSuggestion s w p = Ok s' -> keeps s s'.
Proof.
  intros s w p s' H. unfold addSuggestion in H. destruct (_ <? _)%nat.
  - apply bind_ok in H as (q & _ & H). injection H as <-. repeat split.
  - injection H as <-. apply keeps_refl.
Qed.

Lemma suggest_keeps : forall s w s', suggestForBuffer an s w = Ok s' -> keeps s s'.
Proof.
  intros s w s' H. unfold suggestForBuffer in H. destruct (shouldAbort s).
  - injection H as <-. apply keeps_refl.
  - apply bind_ok in H as ((r & p) & _ & H). destruct r.
    + injection H as <-. repeat split.
    + apply add_keeps in H. exact H.
    + destruct w; [discriminate|]. apply add_keeps in H. exact H.
    + destruct (an false w) as [|a l]; [injection H as <-; repeat split|].
      destruct (a STRUCTURE); [|discriminate].
      apply bind_ok in H as (v & _ & H). apply add_keeps in H. exact H.
Qed.

Lemma try_keeps : forall l s s', try_all l s = Ok s' -> keeps s s'.
Proof.
  induction l; simpl; intros s s' H; [injection H as <-; apply keeps_refl|].
  apply bind_ok in H as (s1 & H1 & H2). eapply keeps_trans; [eapply suggest_keeps; eauto|eauto].
Qed.

Lemma suggest_abort : forall s w, shouldAbort s = true -> suggestForBuffer an s w = Ok s.
Proof. intros s w H. unfold suggestForBuffer. rewrite H. auto. Qed.

Lemma try_abort : forall l s, shouldAbort s = true -> try_all l s = Ok s.
Proof. induction l; simpl; intros; auto. rewrite suggest_abort by auto. simpl. auto. Qed.

Lemma try_app : forall l1 l2 s, try_all (l1 ++ l2) s = bind (try_all l1 s) (try_all l2).
Proof.
  induction l1; simpl; intros; auto. destruct (suggestForBuffer an s a); simpl; auto.
Qed.

Lemma try_single : forall w s, try_all [w] s = suggestForBuffer an s w.
Proof. intros; simpl. destruct (suggestForBuffer an s w); auto. Qed.

(** ** Simulation of loops that carry a buffer *)

Definition sim (w : list Z) (L : nat) (P : list Z -> Prop) (r : res (status * list Z)) (t : res status) : Prop :=
  match t with
  | Ok s' => exists b', r = Ok (s', b') /\ sword s' = w /\ length b' = L /\ (shouldAbort s' = true \/ P b')
  | UB => r = UB
  | Fuel => r = Fuel
  end.

Lemma sim_weaken : forall w L (P Q : list Z -> Prop) r t, (forall b, length b = L -> P b -> Q b) -> sim w L P r t -> sim w L Q r t.
Proof.
  unfold sim; intros w L P Q r t H S1. destruct t; auto.
  destruct S1 as (b' & -> & A & B & C). exists b'. repeat split; auto. destruct C; auto.
Qed.

Lemma sim_ok : forall w L (P : list Z -> Prop) s b, sword s = w -> length b = L -> (shouldAbort s = true \/ P b) ->
  sim w L P (Ok (s, b)) (Ok s).
Proof. unfold sim; intros. exists b. auto. Qed.

Lemma sim_bind : forall w L (P Q : list Z -> Prop) r t k l,
  sim w L P r t ->
  (forall s b, sword s = w -> length b = L -> (shouldAbort s = true \/ P b) -> sim w L Q (k (s, b)) (try_all l s)) ->
  sim w L Q (bind r k) (bind t (try_all l)).
Proof.
  intros w L P Q r t k l H1 H2. unfold sim in H1. destruct t as [s| |]; cbn [bind].
  - destruct H1 as (b & -> & A & B & C). cbn [bind]. apply H2; auto.
  - rewrite H1. reflexivity.
  - rewrite H1. reflexivity.
Qed.

(** The final status only. *)
Lemma sim_fst : forall w L P r t, sim w L P r t -> (x <- r ;; Ok (fst x)) = t.
Proof.
  unfold sim; intros w L P r t H. destruct t; [|rewrite H; auto|rewrite H; auto].
  destruct H as (b' & -> & _). reflexivity.
Qed.

Lemma sim_loop : forall w L (P : nat -> list Z -> Prop) (cs : nat -> list (list Z)) body n i,
  (forall j s b, (i <= j < i + n)%nat -> sword s = w -> length b = L -> P j b -> shouldAbort s = false ->
     sim w L (P (S j)) (body j (s, b)) (try_all (cs j) s)) ->
  forall s b, sword s = w -> length b = L -> (shouldAbort s = true \/ P i b) ->
  sim w L (P (i + n)%nat) (search_loop n i body (s, b)) (try_all (flat_map cs (seq i n)) s).
Proof.
  intros w L P cs body. induction n; intros i H s b A B C; cbn [search_loop seq flat_map].
  - cbn [try_all]. apply sim_ok; auto. rewrite Nat.add_0_r. auto.
  - cbn [fst]. destruct (shouldAbort s) eqn:E.
    + rewrite try_abort by auto. apply sim_ok; auto.
    + destruct C as [C|C]; [congruence|]. rewrite try_app.
      eapply sim_bind; [apply H; auto; lia|].
      intros s' b' A' B' C'. replace (i + S n)%nat with (S i + n)%nat by lia.
      apply IHn; auto. intros j s2 b2 R. apply H. lia.
Qed.

(** Trying one candidate that is in a buffer. *)
Lemma sim_suggest : forall w L (P : list Z -> Prop) s b v,
  sword s = w -> length b = L -> P b ->
  sim w L P (s' <- suggestForBuffer an s v ;; Ok (s', b)) (try_all [v] s).
Proof.
  intros w L P s b v A B C. rewrite try_single. unfold sim.
  destruct (suggestForBuffer an s v) eqn:E; auto.
  exists b. apply suggest_keeps in E as (K & _). cbn [bind]. repeat split; auto. congruence.
Qed.

(** ** Copying *)

Lemma wr_lt : forall A (b : list A) i c, (i < length b)%nat -> wr b i c = Ok (upd b i c).
Proof. intros. apply wr_ok. auto. Qed.

Lemma upd_split : forall A (b : list A) i c, (i < length b)%nat -> upd b i c = firstn i b ++ c :: skipn (S i) b.
Proof.
  induction b; intros i c H; simpl in *; [lia|]. destruct i; simpl; auto. f_equal. apply IHb. lia.
Qed.

Lemma firstn_upd : forall A (b : list A) i c, (i < length b)%nat -> firstn (S i) (upd b i c) = firstn i b ++ [c].
Proof. induction b; intros i c H; simpl in *; [lia|]. destruct i; simpl; auto. f_equal. apply IHb. lia. Qed.

Lemma skipn_upd : forall A (b : list A) i k c, (i < k)%nat -> skipn k (upd b i c) = skipn k b.
Proof. induction b; intros i k c H; simpl; auto. destruct k; [lia|]. destruct i; simpl; auto. apply IHb. lia. Qed.

Lemma copy_zeros : forall n dst at_, (at_ + n <= length dst)%nat ->
  copy dst at_ [0] n = Ok (firstn at_ dst ++ repeat 0 n ++ skipn (at_ + n) dst).
Proof.
  induction n; intros dst at_ H; cbn [copy].
  - rewrite Nat.add_0_r. cbn [repeat app]. rewrite firstn_skipn. auto.
  - rewrite wr_lt by lia. cbn [bind Z.eqb]. rewrite IHn by (rewrite upd_length; lia).
    rewrite firstn_upd by lia. rewrite skipn_upd by lia. rewrite <- app_assoc. cbn [repeat app].
    do 4 f_equal. f_equal. lia.
Qed.

Lemma copy_ok : forall u dst at_ n, ~ In 0 u -> (at_ + n <= length dst)%nat ->
  copy dst at_ (u ++ [0]) n = Ok (firstn at_ dst ++ firstn n (u ++ repeat 0 n) ++ skipn (at_ + n) dst).
Proof.
  induction u; intros dst at_ n Hn H; cbn [app].
  - rewrite copy_zeros by auto. rewrite (firstn_all2 (repeat 0 n)) by (rewrite repeat_length; auto). auto.
  - destruct n; cbn [copy].
    + rewrite Nat.add_0_r. cbn [firstn app]. rewrite firstn_skipn. auto.
    + rewrite wr_lt by lia. cbn [bind]. destruct (Z.eqb_spec a 0); [subst; exfalso; apply Hn; left; auto|].
      rewrite IHu; [|intros X; apply Hn; right; auto|rewrite upd_length; lia].
      rewrite firstn_upd by lia. rewrite skipn_upd by lia. rewrite <- app_assoc. cbn [firstn app].
      replace (S at_ + n)%nat with (at_ + S n)%nat by lia. do 4 f_equal.
      replace (repeat 0 (S n)) with (repeat 0 n ++ [0]).
      2:{ change [0] with (repeat 0 1). rewrite <- repeat_app. f_equal. lia. }
      rewrite app_assoc. rewrite (firstn_app n (u ++ repeat 0 n)).
      replace (n - length (u ++ repeat 0%Z n))%nat with O by (rewrite app_length, repeat_length; lia).
      cbn [firstn]. rewrite app_nil_r. auto.
Qed.

Lemma copy_short : forall u dst at_ n, ~ In 0 u -> (at_ + n <= length dst)%nat -> (n <= length u)%nat ->
  copy dst at_ (u ++ [0]) n = Ok (firstn at_ dst ++ firstn n u ++ skipn (at_ + n) dst).
Proof.
  intros. rewrite copy_ok by auto. rewrite firstn_app. replace (n - length u)%nat with O by lia.
  cbn [firstn]. rewrite app_nil_r. auto.
Qed.

Lemma copy_full : forall u dst at_, ~ In 0 u -> (at_ + length u + 1 <= length dst)%nat ->
  copy dst at_ (u ++ [0]) (length u + 1) = Ok (firstn at_ dst ++ u ++ 0 :: skipn (at_ + length u + 1) dst).
Proof.
  intros. rewrite copy_ok by (auto; lia). rewrite firstn_app. rewrite (firstn_all2 u) by lia.
  replace (length u + 1 - length u)%nat with 1%nat by lia. rewrite Nat.add_1_r. cbn [repeat firstn].
  rewrite <- !app_assoc. do 3 f_equal. cbn [app]. f_equal. f_equal. lia.
Qed.

Lemma not_in_skipn : forall A (x : A) n l, ~ In x l -> ~ In x (skipn n l).
Proof. induction n; destruct l; simpl; auto. Qed.

Lemma skipn_last : forall (u : list Z) n, (n <= length u)%nat -> skipn n (u ++ [0]) = skipn n u ++ [0].
Proof. intros. rewrite skipn_app. replace (n - length u)%nat with O by lia. auto. Qed.

(** ** Reading the word *)

Lemma rd_word : forall (w : list Z) i c, nth_error w i = Some c -> rd (w ++ [0]) i = Ok c.
Proof. intros. apply rd_ok. rewrite nth_error_app1; auto. eapply nth_error_lt; eauto. Qed.

Lemma word_at : forall (w : list Z) i, (i < length w)%nat -> exists c, nth_error w i = Some c.
Proof. intros. destruct (nth_error w i) eqn:E; eauto. apply nth_error_None in E. lia. Qed.

(** The buffer that most generators start with. *)
Lemma start_buffer : forall w, ~ In 0 w ->
  (b <- copy (fresh (length w + 1)) 0 (w ++ [0]) (length w) ;; wr b (length w) 0) = Ok (w ++ [0]).
Proof.
  intros w H. rewrite copy_short by (unfold fresh; rewrite ?repeat_length; auto; lia). cbn [bind firstn app].
  rewrite firstn_all. cbn [plus]. unfold fresh. rewrite wr_lt by (rewrite app_length, skipn_length, repeat_length; lia).
  f_equal. rewrite upd_split by (rewrite app_length, skipn_length, repeat_length; lia).
  rewrite firstn_app, Nat.sub_diag, firstn_all. cbn [firstn]. rewrite app_nil_r. f_equal. f_equal.
  apply skipn_all2. rewrite app_length, skipn_length, repeat_length. lia.
Qed.

Lemma start_bind : forall w B (k : list Z -> res B), ~ In 0 w ->
  (b <- copy (fresh (length w + 1)) 0 (w ++ [0]) (length w) ;; b <- wr b (length w) 0 ;; k b) = k (w ++ [0]).
Proof.
  intros w B k H. pose proof (start_buffer w H) as E.
  destruct (copy (fresh (length w + 1)) 0 (w ++ [0]) (length w)); cbn [bind] in *; try discriminate.
  rewrite E. reflexivity.
Qed.

(** ** Case change and soft hyphens *)

Definition cand_soft_hyphens (w : list Z) : list (list Z) :=
  if mem 0xAD w then [filter (fun c => negb (c =? 0xAD)) w] else [].

Lemma gen_case_change_try : forall s, gen_case_change an s = try_all [sword s] s.
Proof. intros. rewrite try_single. auto. Qed.

Lemma filter_shorter : forall A (f : A -> bool) l, (length (filter f l) <= length l)%nat.
Proof. induction l; simpl; auto. destruct (f a); simpl; lia. Qed.

Lemma filter_shy_shorter : forall w, In 0xAD w -> (length (filter (fun c => negb (c =? 0xAD)%Z) w) < length w)%nat.
Proof.
  induction w as [|a w IH]; simpl; [tauto|]. intros [->|H].
  - cbn. pose proof (filter_shorter Z (fun c => negb (c =? 0xAD)) w). lia.
  - specialize (IH H). destruct (negb (a =? 0xAD)); simpl; lia.
Qed.

Lemma gen_soft_hyphens_try : forall s, gen_soft_hyphens an s = try_all (cand_soft_hyphens (sword s)) s.
Proof.
  intros s. unfold gen_soft_hyphens, cand_soft_hyphens. destruct (mem 0xAD (sword s)) eqn:E; auto.
  apply mem_In, filter_shy_shorter in E. unfold wlen. destruct (Nat.ltb_spec (length (filter (fun c => negb (c =? 0xAD)) (sword s))) (length (sword s))); [|lia].
  rewrite try_single. auto.
Qed.

(** ** Replacement *)

Definition cand_replace_at (w : list Z) (f t : Z) (p : nat) : list (list Z) :=
  match nth_error w p with
  | Some c => if c =? f then [upd w p t] else []
  | None => []
  end.
Definition cand_replace (w : list Z) (f t : Z) : list (list Z) := flat_map (cand_replace_at w f t) (seq 0 (length w)).
Definition cand_pair (w : list Z) (x : Z * Z) : list (list Z) :=
  let '(f, t) := x in
  cand_replace w f t ++ (if upper f =? f then [] else cand_replace w (upper f) (upper t)).
Definition cand_replacement (pairs : list (Z * Z)) (w : list Z) : list (list Z) := flat_map (cand_pair w) pairs.

Lemma upd_app1 : forall A (u v : list A) i c, (i < length u)%nat -> upd (u ++ v) i c = upd u i c ++ v.
Proof. induction u; simpl; intros; [lia|]. destruct i; simpl; auto. f_equal. apply IHu. lia. Qed.

Lemma firstn_len_app : forall A (u v : list A) n, length u = n -> firstn n (u ++ v) = u.
Proof. intros. subst. rewrite firstn_app, Nat.sub_diag, firstn_all. cbn [firstn]. apply app_nil_r. Qed.

Lemma replace_each_sim : forall w f t n p s b,
  (p + n = length w)%nat -> sword s = w -> length b = S (length w) -> (shouldAbort s = true \/ b = w ++ [0]) ->
  shouldAbort s = true \/
  sim w (S (length w)) (fun b => b = w ++ [0]) (replace_each an f t n p (s, b))
    (try_all (flat_map (cand_replace_at w f t) (seq p n)) s).
Proof.
  intros w f t. induction n; intros p s b Hn A B C; cbn [replace_each seq flat_map].
  - right. apply sim_ok; auto.
  - destruct (shouldAbort s) eqn:E; [auto|]. right. destruct C as [C|C]; [congruence|]. subst b.
    destruct (word_at w p ltac:(lia)) as (c & Hc). rewrite (rd_word _ _ _ Hc). cbn [bind].
    unfold cand_replace_at at 1. rewrite Hc. rewrite try_app.
    assert (N : forall s', sword s' = w -> shouldAbort s' = false -> sim w (S (length w)) (fun b => b = w ++ [0])
       (replace_each an f t n (S p) (s', w ++ [0])) (try_all (flat_map (cand_replace_at w f t) (seq (S p) n)) s')).
    { intros s' A' E'. destruct (IHn (S p) s' (w ++ [0])) as [X|X]; auto; [lia|congruence]. }
    destruct (Z.eqb_spec c f) as [->|].
    + rewrite wr_lt by lia. cbn [bind]. rewrite upd_app1 by lia. unfold wlen. rewrite A.
      rewrite firstn_len_app by apply upd_length. rewrite try_single.
      destruct (suggestForBuffer an s (upd w p t)) as [s'| |] eqn:E2; cbn [bind]; [|reflexivity|reflexivity].
      pose proof (suggest_keeps _ _ _ E2) as (K & _). destruct (shouldAbort s') eqn:E3.
      * rewrite try_abort by auto. apply sim_ok; auto; [congruence|]. rewrite app_length, upd_length. simpl. lia.
      * rewrite wr_lt by (rewrite app_length, upd_length; lia). cbn [bind].
        rewrite upd_app1 by (rewrite upd_length; lia). rewrite upd_upd, upd_same_id by auto.
        apply N; auto; congruence.
    + cbn [try_all bind]. apply N; auto.
Qed.

Lemma replacement_loop_try : forall w pairs s b, sword s = w -> length b = S (length w) -> b = w ++ [0] ->
  shouldAbort s = true \/ replacement_loop an pairs (s, b) = try_all (cand_replacement pairs w) s.
Proof.
  intros w. induction pairs as [|[f t] r IH]; intros s b A B C; [right; reflexivity|].
  destruct (shouldAbort s) eqn:E; [auto|]. right. subst b. cbn [replacement_loop fst].
  unfold cand_replacement. cbn [flat_map]. unfold cand_pair at 1. rewrite <- app_assoc, try_app.
  unfold wlen at 1. rewrite A.
  destruct (replace_each_sim w f t (length w) 0 s (w ++ [0])) as [X|X]; auto; [congruence|].
  fold (cand_replace w f t) in X. unfold sim in X.
  destruct (try_all (cand_replace w f t) s) as [s1| |]; [|rewrite X; auto|rewrite X; auto].
  destruct X as (b1 & -> & A1 & B1 & C1). cbn [bind fst].
  destruct (shouldAbort s1) eqn:E1; [rewrite try_abort; auto|]. destruct C1 as [C1|C1]; [congruence|]. subst b1.
  destruct (upper f =? f).
  - cbn [app]. destruct (IH s1 (w ++ [0])); auto; congruence.
  - rewrite try_app. unfold wlen. rewrite A1.
    destruct (replace_each_sim w (upper f) (upper t) (length w) 0 s1 (w ++ [0])) as [X|X]; auto; [congruence|].
    fold (cand_replace w (upper f) (upper t)) in X. unfold sim in X.
    destruct (try_all (cand_replace w (upper f) (upper t)) s1) as [s2| |]; [|rewrite X; auto|rewrite X; auto].
    destruct X as (b2 & -> & A2 & B2 & C2). cbn [bind fst].
    destruct (shouldAbort s2) eqn:E2; [rewrite try_abort; auto|]. destruct C2 as [C2|C2]; [congruence|]. subst b2.
    destruct (IH s2 (w ++ [0])); auto; congruence.
Qed.

Lemma gen_replacement_try : forall pairs s, ~ In 0 (sword s) -> shouldAbort s = false ->
  gen_replacement an pairs s = try_all (cand_replacement pairs (sword s)) s.
Proof.
  intros pairs s H E. unfold gen_replacement, wlen, zword. rewrite (start_bind (sword s)) by auto.
  destruct (replacement_loop_try (sword s) pairs s (sword s ++ [0])) as [X|X]; auto; [|congruence].
  rewrite app_length. simpl. lia.
Qed.

(** ** Deletion *)

Definition cand_delete_at (w : list Z) (i : nat) : list (list Z) :=
  match i, nth_error w i, nth_error w (i - 1) with
  | O, _, _ => [firstn i w ++ skipn (i + 1) w]
  | _, Some c, Some d => if negb (lower c =? lower d) then [firstn i w ++ skipn (i + 1) w] else []
  | _, _, _ => []
  end.
Definition cand_deletion (w : list Z) : list (list Z) := flat_map (cand_delete_at w) (seq 0 (length w)).

Lemma deletion_step_sim : forall w j s b, ~ In 0 w -> (j < length w)%nat -> sword s = w -> length b = length w ->
  sim w (length w) (fun _ => True) (deletion_step an j (s, b)) (try_all (cand_delete_at w j) s).
Proof.
  intros w j s b H Hj A B. unfold deletion_step.
  assert (D : forall (differs : bool), 
    sim w (length w) (fun _ => True)
      (if differs then b <- copy b 0 (zword s) j ;; b <- copy b j (skipn (j + 1) (zword s)) (wlen s - j) ;;
         s' <- suggestForBuffer an s (firstn (wlen s - 1) b) ;; Ok (s', b) else Ok (s, b))
      (try_all (if differs then [firstn j w ++ skipn (j + 1) w] else []) s)).
  { intros [|]; [|apply sim_ok; auto]. unfold zword, wlen. rewrite A.
    rewrite copy_short by (auto; lia). cbn [bind firstn app plus].
    rewrite skipn_last by lia.
    replace (length w - j)%nat with (length (skipn (j + 1) w) + 1)%nat by (rewrite skipn_length; lia).
    assert (L1 : length (firstn j w ++ skipn j b) = length w) by (rewrite app_length, firstn_length_le, skipn_length by lia; lia).
    rewrite copy_full; [|apply not_in_skipn; auto|rewrite L1, skipn_length; lia]. cbn [bind].
    rewrite (firstn_len_app _ (firstn j w)) by (rewrite firstn_length_le; lia).
    rewrite (skipn_all2 (firstn j w ++ skipn j b)) by (rewrite L1, skipn_length; lia).
    rewrite app_assoc.
    rewrite firstn_len_app.
    2:{ rewrite app_length, firstn_length_le, skipn_length by lia. lia. }
    apply sim_suggest; auto. rewrite !app_length, firstn_length_le, skipn_length by lia. simpl. lia. }
  unfold cand_delete_at. destruct j as [|j]; [apply (D true)|].
  cbn [Nat.eqb]. unfold zword at 1 2. rewrite A.
  destruct (word_at w (S j) Hj) as (c & Hc). destruct (word_at w (S j - 1) ltac:(lia)) as (d & Hd).
  rewrite (rd_word _ _ _ Hc), (rd_word _ _ _ Hd). cbn [bind]. rewrite Hc, Hd. apply D.
Qed.

Lemma gen_deletion_try : forall s, ~ In 0 (sword s) -> gen_deletion an s = try_all (cand_deletion (sword s)) s.
Proof.
  intros s H. unfold gen_deletion, cand_deletion, wlen.
  eapply sim_fst. apply (sim_loop (sword s) (length (sword s)) (fun _ _ => True)); auto.
  - intros. apply deletion_step_sim; auto. lia.
  - apply repeat_length.
Qed.

(** ** Hyphens and double letters *)

Lemma gap_buffer : forall (w b : list Z), length b = (length w + 2)%nat ->
  upd (firstn 1 b ++ w ++ skipn (1 + length w) b) (length w + 1) 0 = firstn 1 b ++ w ++ [0].
Proof.
  intros w b H. destruct b as [|x b]; [simpl in H; lia|]. cbn [firstn app plus skipn].
  rewrite Nat.add_1_r. cbn [upd]. f_equal.
  rewrite upd_split by (rewrite app_length, skipn_length; simpl in H; lia).
  rewrite firstn_len_app by auto. f_equal. f_equal.
  apply skipn_all2. rewrite app_length, skipn_length. simpl in H. lia.
Qed.

Definition hyphens_near (w : list Z) (j : nat) : bool := existsb (fun c => c =? 0x2D) (firstn 4 (skipn (j - 2) w)).
Definition cand_hyphen_at (w : list Z) (j : nat) : list (list Z) :=
  if hyphens_near w j then [] else [firstn j w ++ 0x2D :: skipn j w].
Fixpoint cand_double (n j : nat) (w : list Z) : list (list Z) :=
  match n, nth_error w j with
  | S n', Some c =>
      if match nth_error w (j + 1) with Some d => c =? d | None => false end then cand_double n' (j + 2) w
      else (if (c =? 0x2D) || (c =? 0x27) then [] else [firstn (j + 1) w ++ skipn j w]) ++ cand_double n' (j + 1) w
  | _, _ => []
  end.
Definition cand_special (w : list Z) : list (list Z) :=
  flat_map (cand_hyphen_at w) (seq 2 (length w - 3)) ++ cand_double (length w) 0 w.

Lemma skipn_tail : forall A (b : list A) j x l, skipn j b = x :: l -> skipn (S j) b = l.
Proof.
  intros A b j x l H. replace (S j) with (j + 1)%nat by lia. rewrite <- skipn_skipn, H. reflexivity.
Qed.

Lemma skipn_nth : forall A (b : list A) j x l, skipn j b = x :: l -> nth_error b j = Some x.
Proof. intros A b j x l H. rewrite <- (Nat.add_0_r j), <- nth_error_skipn, H. reflexivity. Qed.

Lemma hyphen_step_sim : forall w j s b, ~ In 0 w -> (2 <= j)%nat -> (j + 2 <= length w)%nat -> sword s = w ->
  length b = (length w + 2)%nat -> skipn j b = skipn (j - 1) w ++ [0] ->
  sim w (length w + 2) (fun b => skipn (S j) b = skipn (S j - 1) w ++ [0]) (hyphen_step an j (s, b)) (try_all (cand_hyphen_at w j) s).
Proof.
  intros w j s b H Hj Hj2 A B C. unfold hyphen_step. unfold zword, wlen. rewrite A.
  destruct (word_at w (j - 2) ltac:(lia)) as (c1 & H1). destruct (word_at w (j - 1) ltac:(lia)) as (c2 & H2).
  destruct (word_at w j ltac:(lia)) as (c3 & H3). destruct (word_at w (j + 1) ltac:(lia)) as (c4 & H4).
  rewrite (rd_word _ _ _ H1), (rd_word _ _ _ H2), (rd_word _ _ _ H3), (rd_word _ _ _ H4). cbn [bind].
  assert (T : skipn (S j) b = skipn j w ++ [0]).
  { rewrite (skipn_cons_nth _ w (j - 1) _ H2) in C. cbn [app] in C. apply skipn_tail in C.
    replace (S (j - 1)) with j in C by lia. auto. }
  unfold cand_hyphen_at, hyphens_near.
  replace (firstn 4 (skipn (j - 2) w)) with [c1; c2; c3; c4].
  2:{ rewrite (skipn_cons_nth _ w (j - 2) _ H1). replace (S (j - 2)) with (j - 1)%nat by lia.
      rewrite (skipn_cons_nth _ w (j - 1) _ H2). replace (S (j - 1)) with j by lia.
      rewrite (skipn_cons_nth _ w j _ H3). replace (S j) with (j + 1)%nat by lia.
      rewrite (skipn_cons_nth _ w (j + 1) _ H4). reflexivity. }
  cbn [existsb]. rewrite orb_false_r, !orb_assoc.
  destruct ((c1 =? 0x2D) || (c2 =? 0x2D) || (c3 =? 0x2D) || (c4 =? 0x2D)).
  - apply sim_ok; auto. right. rewrite T. do 2 f_equal. lia.
  - rewrite copy_short by (auto; lia). cbn [bind firstn app plus].
    assert (L1 : length (firstn j w ++ skipn j b) = (length w + 2)%nat) by (rewrite app_length, firstn_length_le, skipn_length by lia; lia).
    rewrite wr_lt by lia. cbn [bind]. rewrite upd_split by lia.
    rewrite (firstn_len_app _ (firstn j w)) by (rewrite firstn_length_le; lia).
    rewrite skipn_app, (skipn_all2 (firstn j w)) by (rewrite firstn_length_le; lia). cbn [app].
    rewrite firstn_length_le by lia. replace (S j - j)%nat with 1%nat by lia. rewrite skipn_skipn.
    replace (j + 1)%nat with (S j) by lia. rewrite T.
    replace (firstn j w ++ 0x2D :: skipn j w ++ [0]) with ((firstn j w ++ 0x2D :: skipn j w) ++ [0]) by (rewrite <- app_assoc; auto).
    rewrite firstn_len_app.
    2:{ rewrite app_length, firstn_length_le by lia. simpl. rewrite skipn_length. lia. }
    apply sim_suggest; auto.
    + rewrite !app_length, firstn_length_le by lia. simpl. rewrite skipn_length. lia.
    + rewrite <- app_assoc. rewrite skipn_app, (skipn_all2 (firstn j w)) by (rewrite firstn_length_le; lia).
      cbn [app]. rewrite firstn_length_le by lia. replace (S j - j)%nat with 1%nat by lia. cbn [skipn].
      do 2 f_equal. lia.
Qed.

Lemma duplicate_loop_sim : forall w n j s b, (length w <= j + n)%nat -> sword s = w -> length b = (length w + 2)%nat ->
  (shouldAbort s = true \/ (j <= length w)%nat /\ firstn j b = firstn j w /\ skipn (S j) b = skipn j w ++ [0]) ->
  sim w (length w + 2) (fun _ => True) (duplicate_loop an n j (s, b)) (try_all (cand_double n j w) s).
Proof.
  intros w. induction n; intros j s b Hn A B C.
  - cbn [duplicate_loop cand_double]. unfold wlen. rewrite A.
    destruct (Nat.ltb_spec j (length w)); [lia|]. cbn [andb]. apply sim_ok; auto.
  - cbn [duplicate_loop cand_double]. unfold wlen. rewrite A.
    destruct (shouldAbort s) eqn:E.
    { rewrite try_abort by auto. rewrite andb_false_r. apply sim_ok; auto. }
    destruct C as [C|(C0 & C1 & C2)]; [congruence|]. rewrite andb_true_r.
    destruct (Nat.ltb_spec j (length w)).
    2:{ replace (nth_error w j) with (@None Z) by (symmetry; apply nth_error_None; lia). apply sim_ok; auto. }
    destruct (word_at w j H) as (c & Hc). unfold zword. rewrite A, (rd_word _ _ _ Hc), Hc. cbn [bind].
    rewrite wr_lt by lia. cbn [bind].
    assert (F1 : firstn (S j) (upd b j c) = firstn (S j) w).
    { rewrite firstn_upd by lia. rewrite C1. symmetry. apply firstn_S_nth. auto. }
    assert (F2 : skipn (S j) (upd b j c) = skipn j w ++ [0]) by (rewrite skipn_upd by lia; auto).
    assert (F3 : skipn (S (S j)) (upd b j c) = skipn (S j) w ++ [0]).
    { rewrite (skipn_cons_nth _ w j _ Hc) in F2. cbn [app] in F2. apply skipn_tail in F2. auto. }
    assert (Same : (if (j <? length w - 1)%nat then d <- rd (w ++ [0]) (j + 1) ;; Ok (c =? d) else Ok false)
        = Ok match nth_error w (j + 1) with Some d => c =? d | None => false end).
    { destruct (Nat.ltb_spec j (length w - 1)).
      - destruct (word_at w (j + 1) ltac:(lia)) as (d & Hd). rewrite (rd_word _ _ _ Hd), Hd. reflexivity.
      - replace (nth_error w (j + 1)) with (@None Z) by (symmetry; apply nth_error_None; lia). auto. }
    rewrite Same. cbn [bind]. clear Same.
    destruct (nth_error w (j + 1)) as [d|] eqn:Hd; [destruct (Z.eqb_spec c d) as [<-|]|].
    + apply IHn; auto; [lia|rewrite upd_length; auto|]. right. repeat split.
      * apply nth_error_lt in Hd. lia.
      * replace (j + 2)%nat with (S (S j)) by lia. replace (j + 1)%nat with (S j) in Hd by lia.
        rewrite (firstn_S_nth _ w (S j) c) by auto. rewrite <- F1. apply firstn_S_nth.
        rewrite (skipn_cons_nth _ w j _ Hc) in F2. cbn [app] in F2. apply skipn_nth in F2. auto.
      * replace (j + 1)%nat with (S j) in Hd by lia. replace (j + 2)%nat with (S (S j)) by lia.
        rewrite (skipn_cons_nth _ w (S j) _ Hd) in F3. cbn [app] in F3. apply skipn_tail in F3. auto.
    + destruct ((c =? 0x2D) || (c =? 0x27)) eqn:Ec.
      * cbn [app]. apply IHn; auto; [lia|rewrite upd_length; auto|]. right. rewrite Nat.add_1_r. repeat split; auto; lia.
      * rewrite try_app. 
        replace (firstn (length w + 1) (upd b j c)) with (firstn (j + 1) w ++ skipn j w).
        2:{ rewrite <- (firstn_skipn (S j) (upd b j c)), F1, F2, app_assoc, Nat.add_1_r. rewrite firstn_len_app; auto.
            rewrite app_length, firstn_length_le, skipn_length by lia. lia. }
        rewrite try_single. destruct (suggestForBuffer an s (firstn (j + 1) w ++ skipn j w)) eqn:E2; cbn [bind]; [|reflexivity|reflexivity].
        apply suggest_keeps in E2 as (K & _). apply IHn; [lia|congruence|rewrite upd_length; auto|]. right. rewrite Nat.add_1_r. repeat split; auto; lia.
    + destruct ((c =? 0x2D) || (c =? 0x27)) eqn:Ec.
      * cbn [app]. apply IHn; auto; [lia|rewrite upd_length; auto|]. right. rewrite Nat.add_1_r. repeat split; auto; lia.
      * rewrite try_app. 
        replace (firstn (length w + 1) (upd b j c)) with (firstn (j + 1) w ++ skipn j w).
        2:{ rewrite <- (firstn_skipn (S j) (upd b j c)), F1, F2, app_assoc, Nat.add_1_r. rewrite firstn_len_app; auto.
            rewrite app_length, firstn_length_le, skipn_length by lia. lia. }
        rewrite try_single. destruct (suggestForBuffer an s (firstn (j + 1) w ++ skipn j w)) eqn:E2; cbn [bind]; [|reflexivity|reflexivity].
        apply suggest_keeps in E2 as (K & _). apply IHn; [lia|congruence|rewrite upd_length; auto|]. right. rewrite Nat.add_1_r. repeat split; auto; lia.
Qed.

Lemma gen_insert_special_try : forall s, ~ In 0 (sword s) -> (2 <= wlen s)%nat ->
  gen_insert_special an s = try_all (cand_special (sword s)) s.
Proof.
  intros s H Hl. unfold gen_insert_special, wlen, zword in *. set (w := sword s) in *.
  rewrite copy_short by (unfold fresh; rewrite ?repeat_length; auto; lia). cbn [bind]. rewrite firstn_all.
  assert (L1 : length (firstn 1 (fresh (length w + 2)) ++ w ++ skipn (1 + length w) (fresh (length w + 2))) = (length w + 2)%nat).
  { unfold fresh. rewrite !app_length, firstn_length_le, skipn_length, repeat_length by (rewrite repeat_length; lia). lia. }
  rewrite wr_lt by lia. cbn [bind].
  destruct (Nat.ltb_spec (length w) 2); [lia|].
  set (b0 := upd _ _ _). assert (L0 : length b0 = (length w + 2)%nat) by (unfold b0; rewrite upd_length; auto).
  assert (I0 : skipn 2 b0 = skipn (2 - 1) w ++ [0]).
  { unfold b0. rewrite gap_buffer by (unfold fresh; rewrite repeat_length; auto).
    rewrite Nat.add_comm. cbn [plus fresh repeat firstn app skipn]. destruct w; [simpl in Hl; lia|]. reflexivity. }
  pose proof (sim_loop w (length w + 2) (fun j b => skipn j b = skipn (j - 1) w ++ [0]) (cand_hyphen_at w)
    (hyphen_step an) (length w - 3) 2) as X.
  specialize (X ltac:(intros; apply hyphen_step_sim; auto; lia) s b0 eq_refl L0 (or_intror I0)).
  unfold cand_special. rewrite try_app. unfold sim in X.
  destruct (try_all (flat_map (cand_hyphen_at w) (seq 2 (length w - 3))) s) as [s1| |]; [|rewrite X; auto|rewrite X; auto].
  destruct X as (b1 & -> & A1 & B1 & C1). cbn [bind].
  rewrite A1. rewrite copy_full by (auto; lia). cbn [bind]. cbn [plus].
  rewrite (skipn_all2 b1) by lia.
  eapply sim_fst. apply duplicate_loop_sim; auto.
  - rewrite !app_length, firstn_length_le by lia. simpl. lia.
  - right. split; [lia|]. split; auto. destruct b1; simpl in *; [lia|]. auto.
Qed.

(** ** Insertion *)

Definition cand_insert_at (w : list Z) (ins : Z) (j : nat) : list (list Z) :=
  match nth_error w j with
  | Some c =>
      if ins =? lower c then []
      else if match j with O => false | S j' => match nth_error w j' with Some d => ins =? lower d | None => false end end then []
      else [firstn j w ++ ins :: skipn j w]
  | None => []
  end.
Definition cand_insert (w : list Z) (ins : Z) : list (list Z) :=
  flat_map (cand_insert_at w ins) (seq 0 (length w)) ++ (if ins =? last w 0 then [] else [w ++ [ins]]).
Definition cand_insertion (chars : list Z) (w : list Z) : list (list Z) := flat_map (cand_insert w) chars.

Lemma insertion_step_sim : forall w ins j s b, (j < length w)%nat -> sword s = w -> length b = (length w + 2)%nat ->
  firstn (j - 1) b = firstn (j - 1) w /\ skipn (S j) b = skipn j w ++ [0] ->
  sim w (length w + 2) (fun b => firstn (S j - 1) b = firstn (S j - 1) w /\ skipn (S (S j)) b = skipn (S j) w ++ [0])
    (insertion_step an ins j (s, b)) (try_all (cand_insert_at w ins j) s).
Proof.
  intros w ins j s b Hj A B (C1 & C2). unfold insertion_step, zword, wlen. rewrite A.
  assert (X : exists b1, (if Nat.eqb j 0 then Ok b else c <- rd (w ++ [0]) (j - 1) ;; wr b (j - 1) c) = Ok b1 /\
     length b1 = (length w + 2)%nat /\ firstn j b1 = firstn j w /\ skipn (S j) b1 = skipn j w ++ [0]).
  { destruct j as [|j]; cbn [Nat.eqb]; [exists b; auto|].
    destruct (word_at w (S j - 1) ltac:(lia)) as (d & Hd). rewrite (rd_word _ _ _ Hd). cbn [bind].
    rewrite wr_lt by lia. eexists. split; [reflexivity|]. rewrite upd_length. split; [auto|].
    replace (S j - 1)%nat with j in * by lia. rewrite skipn_upd by lia. split; [|auto].
    rewrite firstn_upd by lia. rewrite C1. symmetry. apply firstn_S_nth. auto. }
  destruct X as (b1 & -> & B1 & D1 & D2). cbn [bind].
  destruct (word_at w j Hj) as (c & Hc). rewrite (rd_word _ _ _ Hc). cbn [bind].
  unfold cand_insert_at. rewrite Hc.
  assert (T : skipn (S (S j)) b1 = skipn (S j) w ++ [0]).
  { rewrite (skipn_cons_nth _ w j _ Hc) in D2. cbn [app] in D2. apply skipn_tail in D2. auto. }
  replace (S j - 1)%nat with j by lia.
  destruct (ins =? lower c).
  { apply sim_ok; auto. }
  assert (Dup : (if Nat.eqb j 0 then Ok false else d <- rd (w ++ [0]) (j - 1) ;; Ok (ins =? lower d)) =
    Ok match j with O => false | S j' => match nth_error w j' with Some d => ins =? lower d | None => false end end).
  { destruct j as [|j]; cbn [Nat.eqb]; auto. replace (S j - 1)%nat with j by lia.
    destruct (word_at w j ltac:(lia)) as (d & Hd). rewrite (rd_word _ _ _ Hd), Hd. reflexivity. }
  rewrite Dup. cbn [bind]. destruct (match j with O => false | S j' => _ end).
  { apply sim_ok; auto. }
  rewrite wr_lt by lia. cbn [bind].
  assert (U : upd b1 j ins = firstn j w ++ ins :: skipn j w ++ [0]).
  { rewrite upd_split by lia. rewrite D1, D2. auto. }
  rewrite U. replace (firstn j w ++ ins :: skipn j w ++ [0]) with ((firstn j w ++ ins :: skipn j w) ++ [0]) by (rewrite <- app_assoc; auto).
  rewrite firstn_len_app.
  2:{ rewrite app_length, firstn_length_le by lia. simpl. rewrite skipn_length. lia. }
  apply sim_suggest; auto.
  - rewrite !app_length, firstn_length_le by lia. simpl. rewrite skipn_length. lia.
  - rewrite <- app_assoc. cbn [app]. rewrite <- U. split.
    + rewrite upd_split by lia. rewrite (firstn_len_app _ (firstn j b1)) by (rewrite firstn_length_le; lia). auto.
    + rewrite skipn_upd by lia. auto.
Qed.

Lemma last_nth : forall (w : list Z), w <> [] -> nth_error w (length w - 1) = Some (last w 0).
Proof.
  intros w H. destruct (exists_last H) as (u & c & ->). rewrite last_last, app_length. simpl.
  rewrite nth_error_app2 by lia. replace (length u + 1 - 1 - length u)%nat with O by lia. auto.
Qed.

Lemma insertion_loop_try : forall w chars s b, ~ In 0 w -> w <> [] -> sword s = w -> length b = (length w + 2)%nat ->
  insertion_loop an chars (s, b) = try_all (cand_insertion chars w) s.
Proof.
  intros w. induction chars as [|ins r IH]; intros s b H Hw A B; [reflexivity|].
  assert (Hl : (0 < length w)%nat) by (destruct w; [congruence|simpl; lia]).
  cbn [insertion_loop]. unfold cand_insertion. cbn [flat_map]. fold (cand_insertion r w).
  unfold zword. rewrite A. destruct (word_at w 0 Hl) as (c0 & H0). rewrite (rd_word _ _ _ H0). cbn [bind].
  rewrite wr_lt by lia. cbn [bind]. unfold wlen. rewrite A.
  rewrite copy_short by (rewrite ?upd_length; auto; lia). cbn [bind]. rewrite firstn_all.
  set (b1 := firstn 1 _ ++ _). assert (L1 : length b1 = (length w + 2)%nat).
  { unfold b1. rewrite !app_length, firstn_length_le, skipn_length, upd_length by (rewrite upd_length; lia). lia. }
  rewrite wr_lt by lia. cbn [bind].
  assert (I : skipn 1 (upd b1 (length w + 1) 0) = w ++ [0]).
  { unfold b1. rewrite gap_buffer by (rewrite upd_length; auto). destruct b; [simpl in B; lia|]. reflexivity. }
  pose proof (sim_loop w (length w + 2) (fun j b => firstn (j - 1) b = firstn (j - 1) w /\ skipn (S j) b = skipn j w ++ [0])
    (cand_insert_at w ins) (insertion_step an ins) (length w) 0) as X.
  specialize (X ltac:(intros; apply insertion_step_sim; auto; lia) s (upd b1 (length w + 1) 0) A
    ltac:(rewrite upd_length; auto) (or_intror (conj eq_refl I))).
  unfold cand_insert. rewrite <- app_assoc, try_app. unfold sim in X.
  destruct (try_all (flat_map (cand_insert_at w ins) (seq 0 (length w))) s) as [s1| |]; [|rewrite X; auto|rewrite X; auto].
  destruct X as (b2 & -> & A2 & B2 & C2). cbn [bind].
  destruct (shouldAbort s1) eqn:E1; [rewrite try_abort; auto|]. destruct C2 as [C2|C2]; [congruence|].
  cbn [plus] in C2. rewrite A2. destruct C2 as (C2 & C3).
  assert (R : rd_back (w ++ [0]) (length w) 1 = Ok (last w 0)).
  { unfold rd_back. destruct (Nat.ltb_spec (length w) 1); [lia|]. apply rd_word, last_nth; auto. }
  rewrite R. cbn [bind]. destruct (ins =? last w 0).
  { cbn [app]. apply IH; auto. }
  rewrite wr_lt by lia. cbn [bind]. rewrite wr_lt by (rewrite upd_length; lia). cbn [bind].
  assert (U : upd (upd b2 (length w - 1) (last w 0)) (length w) ins = (w ++ [ins]) ++ [0]).
  { rewrite upd_split by (rewrite upd_length; lia). rewrite skipn_upd by lia. rewrite C3, skipn_all. cbn [app].
    replace (firstn (length w) (upd b2 (length w - 1) (last w 0))) with w; [rewrite <- app_assoc; auto|].
    assert (G : firstn (S (length w - 1)) (upd b2 (length w - 1) (last w 0)) = w).
    { rewrite firstn_upd by lia. rewrite C2. rewrite <- firstn_S_nth with (x := last w 0) by (apply last_nth; auto).
      apply firstn_all2. lia. }
    replace (S (length w - 1)) with (length w) in G by lia. auto. }
  rewrite U. rewrite firstn_len_app by (rewrite app_length; simpl; lia). rewrite try_app, try_single.
  destruct (suggestForBuffer an s1 (w ++ [ins])) eqn:E2; cbn [bind]; [|reflexivity|reflexivity].
  apply suggest_keeps in E2 as (K & _). apply IH; auto; [congruence|]. rewrite !app_length. simpl. lia.
Qed.

Lemma gen_insertion_try : forall chars s, ~ In 0 (sword s) -> sword s <> [] ->
  gen_insertion an chars s = try_all (cand_insertion chars (sword s)) s.
Proof.
  intros. unfold gen_insertion, wlen. apply insertion_loop_try; auto. apply repeat_length.
Qed.

End Try.
