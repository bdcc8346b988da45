(** * Suggestion generators, continued *)
From Verif Require Import Base BaseFacts CharModel SpellerBase CacheModel AnalysisModel AnalyzerBase HyphModel
  AdapterModel SuggestModel SuggestProofs.

Section Try.
Variable an : analyzer.
Local Notation try_all := (try_all an).

(** ** Replacing two letters *)

Definition double_upd (w : list Z) (i : nat) (t : Z) : list Z := upd (upd w i t) (i + 1) t.
Definition cand_two_at (lw : list Z) (c : Z) (i : nat) (pairs : list (Z * Z)) : list (list Z) :=
  map (fun p => double_upd lw i (snd p)) (filter (fun p => fst p =? c) pairs).
Fixpoint cand_two (n i : nat) (pairs : list (Z * Z)) (lw : list Z) : list (list Z) :=
  match n, nth_error lw i, nth_error lw (i + 1) with
  | S n', Some c, Some d =>
      if c =? d then cand_two_at lw c i pairs ++ cand_two n' (i + 2) pairs lw else cand_two n' (i + 1) pairs lw
  | _, _, _ => []
  end.
Definition cand_replace_two (pairs : list (Z * Z)) (w : list Z) : list (list Z) :=
  cand_two (length w) 0 pairs (map lower w).

Lemma upd_comm : forall A (b : list A) i j x y, i <> j -> upd (upd b i x) j y = upd (upd b j y) i x.
Proof.
  induction b; intros i j x y H; destruct i, j; simpl; auto; try congruence. f_equal. apply IHb. congruence.
Qed.

Lemma double_double : forall lw i x t, double_upd (double_upd lw i x) i t = double_upd lw i t.
Proof.
  intros. unfold double_upd. rewrite (upd_comm _ _ (i + 1) i) by lia. rewrite upd_upd. rewrite upd_upd. auto.
Qed.

Lemma double_same : forall lw i c, nth_error lw i = Some c -> nth_error lw (i + 1) = Some c -> double_upd lw i c = lw.
Proof. intros. unfold double_upd. rewrite (upd_same_id _ lw i) by auto. apply upd_same_id. auto. Qed.

Lemma double_length : forall lw i c, length (double_upd lw i c) = length lw.
Proof. intros. unfold double_upd. rewrite !upd_length. auto. Qed.

Lemma double_app : forall lw i c l, (i + 1 < length lw)%nat -> double_upd (lw ++ l) i c = double_upd lw i c ++ l.
Proof. intros. unfold double_upd. rewrite upd_app1 by lia. rewrite upd_app1 by (rewrite upd_length; lia). auto. Qed.

Lemma double_wr : forall b i c B (k : list Z -> res B), (i + 1 < length b)%nat ->
  (b <- wr b i c ;; b <- wr b (i + 1) c ;; k b) = k (double_upd b i c).
Proof.
  intros. rewrite wr_lt by lia. cbn [bind]. rewrite wr_lt by (rewrite upd_length; lia). reflexivity.
Qed.

Lemma replace_two_pairs_sim : forall w lw c i pairs s b, length lw = length w -> (i + 1 < length w)%nat ->
  sword s = w -> (exists x, b = double_upd lw i x ++ [0]) ->
  sim w (S (length w)) (fun b => exists x, b = double_upd lw i x ++ [0])
    (replace_two_pairs an c i pairs (s, b)) (try_all (cand_two_at lw c i pairs) s).
Proof.
  intros w lw c i. induction pairs as [|[f t] r IH]; intros s b Hl Hi A (x & ->).
  - cbn. exists (double_upd lw i x ++ [0]). repeat split; eauto. rewrite app_length, double_length. simpl. lia.
  - cbn [replace_two_pairs]. unfold cand_two_at. cbn [filter fst]. destruct (f =? c) eqn:E; cbn [negb].
    2:{ apply IH; eauto. }
    cbn [map snd]. fold (cand_two_at lw c i r).
    rewrite double_wr by (rewrite app_length, double_length; lia). rewrite double_app by (rewrite double_length; lia).
    rewrite double_double. unfold wlen. rewrite A. rewrite firstn_len_app by (rewrite double_length; auto).
    cbn [SuggestProofs.try_all]. destruct (suggestForBuffer an s (double_upd lw i t)) as [s'| |] eqn:E2; cbn [bind]; [|reflexivity|reflexivity].
    pose proof (suggest_keeps _ _ _ _ E2) as (K & _). destruct (shouldAbort s') eqn:E3.
    + rewrite try_abort by auto. apply sim_ok; eauto; [congruence|]. rewrite app_length, double_length. simpl. lia.
    + apply IH; eauto. congruence.
Qed.

Lemma replace_two_loop_try : forall w pairs n i s, (length w <= i + n)%nat -> sword s = w ->
  replace_two_loop an n i pairs (s, map lower w ++ [0]) = try_all (cand_two n i pairs (map lower w)) s \/ shouldAbort s = true.
Proof.
  intros w pairs. induction n; intros i s Hn A; cbn [replace_two_loop cand_two]; unfold wlen; rewrite A.
  - destruct (Nat.ltb_spec i (length w - 1)); [lia|]. auto.
  - destruct (shouldAbort s) eqn:E0; auto. left.
    destruct (Nat.ltb_spec i (length w - 1)).
    2:{ destruct (nth_error (map lower w) i) eqn:E1; auto.
        destruct (nth_error (map lower w) (i + 1)) eqn:E2; auto.
        apply nth_error_lt in E2. rewrite map_length in E2. lia. }
    destruct (word_at (map lower w) i) as (c & Hc); [rewrite map_length; lia|].
    destruct (word_at (map lower w) (i + 1)) as (d & Hd); [rewrite map_length; lia|].
    rewrite (rd_word _ _ _ Hc), (rd_word _ _ _ Hd), Hc, Hd. cbn [bind].
    destruct (Z.eqb_spec c d) as [<-|]; cbn [negb].
    2:{ destruct (IHn (i + 1)%nat s) as [X|X]; auto; [lia|congruence]. }
    rewrite try_app. 
    pose proof (replace_two_pairs_sim w (map lower w) c i pairs s (map lower w ++ [0])) as X.
    rewrite map_length in X. specialize (X eq_refl ltac:(lia) A).
    assert (X1 : exists x, map lower w ++ [0] = double_upd (map lower w) i x ++ [0]) by (exists c; rewrite double_same; auto).
    specialize (X X1). clear X1. unfold sim in X. destruct (try_all (cand_two_at (map lower w) c i pairs) s) as [s1| |]; [|rewrite X; auto|rewrite X; auto].
    destruct X as (b1 & -> & A1 & B1 & C1). cbn [bind]. rewrite double_wr by lia.
    destruct (shouldAbort s1) eqn:E1; [rewrite try_abort; auto|].
    destruct C1 as [C1|(x & ->)]; [congruence|]. rewrite double_app by (rewrite double_length, map_length; lia).
    rewrite double_double, double_same by auto.
    destruct (IHn (i + 2)%nat s1) as [X|X]; auto; [lia|congruence].
Qed.

Lemma gen_replace_two_try : forall pairs s, sword s <> [] -> shouldAbort s = false ->
  gen_replace_two an pairs s = try_all (cand_replace_two pairs (sword s)) s.
Proof.
  intros pairs s H E. unfold gen_replace_two, wlen. destruct (Nat.eqb_spec (length (sword s)) 0) as [X|_].
  { destruct (sword s); simpl in *; congruence. }
  destruct (replace_two_loop_try (sword s) pairs (length (sword s)) 0 s) as [X|X]; auto; congruence.
Qed.

(** ** Swapping *)

Definition exchange (w : list Z) (i j : nat) : list Z :=
  match nth_error w i, nth_error w j with
  | Some ci, Some cj => upd (upd w i cj) j ci
  | _, _ => w
  end.
Definition cand_swap_at (w : list Z) (i j : nat) : list (list Z) :=
  match nth_error w i, nth_error w j with
  | Some ci, Some cj => if (lower ci =? lower cj) || vowel_swap ci cj then [] else [exchange w i j]
  | _, _ => []
  end.
Fixpoint cand_swap_inner (d i n j : nat) (w : list Z) : list (list Z) :=
  match n with
  | O => []
  | S n' => if (d <? j - i)%nat then [] else cand_swap_at w i j ++ cand_swap_inner d i n' (S j) w
  end.
Definition max_distance (w : list Z) : nat := if (length w <=? 8)%nat then 10%nat else (50 / length w)%nat.
Definition cand_swap (w : list Z) : list (list Z) :=
  if Nat.eqb (max_distance w) 0 then []
  else flat_map (fun i => cand_swap_inner (max_distance w) i (length w - (i + 1)) (i + 1) w) (seq 0 (length w)).

Lemma swap_inner_sim : forall w d i n j s, (i < j)%nat -> (j + n = length w)%nat -> sword s = w ->
  sim w (S (length w)) (fun b => b = w ++ [0]) (swap_inner an d i n j (s, w ++ [0])) (try_all (cand_swap_inner d i n j w) s).
Proof.
  intros w d i. induction n; intros j s Hij Hn A; cbn [swap_inner cand_swap_inner].
  - apply sim_ok; auto. rewrite app_length; simpl; lia.
  - destruct (shouldAbort s) eqn:E.
    { rewrite try_abort by auto. apply sim_ok; auto. rewrite app_length; simpl; lia. }
    destruct (d <? j - i)%nat.
    { apply sim_ok; auto. rewrite app_length; simpl; lia. }
    destruct (word_at w i ltac:(lia)) as (ci & Hi). destruct (word_at w j ltac:(lia)) as (cj & Hj).
    rewrite (rd_word _ _ _ Hi), (rd_word _ _ _ Hj). cbn [bind]. unfold cand_swap_at. rewrite Hi, Hj.
    destruct (lower ci =? lower cj); cbn [orb app]; [apply IHn; auto; lia|].
    destruct (vowel_swap ci cj); cbn [app]; [apply IHn; auto; lia|].
    unfold zword. rewrite A, (rd_word _ _ _ Hi), (rd_word _ _ _ Hj). cbn [bind].
    rewrite wr_lt by (rewrite app_length; simpl; lia). cbn [bind].
    rewrite wr_lt by (rewrite upd_length, app_length; simpl; lia). cbn [bind].
    rewrite !upd_app1 by (rewrite ?upd_length; lia). unfold wlen. rewrite A.
    rewrite firstn_len_app by (rewrite !upd_length; auto).
    unfold exchange. rewrite Hi, Hj. cbn [SuggestProofs.try_all].
    destruct (suggestForBuffer an s (upd (upd w i cj) j ci)) as [s'| |] eqn:E2; cbn [bind]; [|reflexivity|reflexivity].
    pose proof (suggest_keeps _ _ _ _ E2) as (K & _).
    rewrite wr_lt by (rewrite app_length, !upd_length; simpl; lia). cbn [bind].
    rewrite wr_lt by (rewrite upd_length, app_length, !upd_length; simpl; lia). cbn [bind].
    rewrite !upd_app1 by (rewrite ?upd_length; lia).
    rewrite (upd_comm _ _ j i) by lia. rewrite upd_upd, upd_upd, (upd_same_id _ w i) by auto. rewrite upd_same_id by auto.
    apply IHn; auto; [lia|congruence].
Qed.

Lemma gen_swap_try : forall s, ~ In 0 (sword s) -> gen_swap an s = try_all (cand_swap (sword s)) s.
Proof.
  intros s H. unfold gen_swap, cand_swap, wlen, zword. fold (max_distance (sword s)).
  destruct (Nat.eqb (max_distance (sword s)) 0); auto.
  rewrite (start_bind (sword s)) by auto. eapply sim_fst.
  apply (sim_loop an (sword s) (S (length (sword s))) (fun _ b => b = sword s ++ [0])); auto.
  - intros j s1 b R A B -> E. unfold swap_step, wlen. cbn [fst]. rewrite A. apply swap_inner_sim; auto; lia.
  - rewrite app_length; simpl; lia.
Qed.

(** ** Deleting two letters *)

Definition repeated_pair (w : list Z) (i : nat) : bool :=
  match nth_error w i, nth_error w (i + 1), nth_error w (i + 2), nth_error w (i + 3) with
  | Some a, Some b, Some c, Some d => (a =? c) && (b =? d)
  | _, _, _, _ => false
  end.
Definition delete_pair (w : list Z) (i : nat) : list Z := firstn i w ++ skipn (i + 2) w.
Fixpoint cand_del2 (n i : nat) (w : list Z) (attempts : list (list Z)) : list (list Z) :=
  match n with
  | O => []
  | S n' =>
      if repeated_pair w i then
        if existsb (zlist_eqb (delete_pair w i)) attempts then cand_del2 n' (S i) w attempts
        else delete_pair w i :: cand_del2 n' (S i) w (delete_pair w i :: attempts)
      else cand_del2 n' (S i) w attempts
  end.
Definition cand_delete_two (w : list Z) : list (list Z) :=
  if (length w <? 6)%nat then [] else cand_del2 (length w - 3) 0 w [].

Lemma delete_two_loop_try : forall w n i s b attempts, ~ In 0 w -> (i + n + 3 = length w)%nat -> sword s = w ->
  length b = (length w - 2)%nat ->
  delete_two_loop an n i (s, (b, attempts)) = try_all (cand_del2 n i w attempts) s.
Proof.
  intros w. induction n; intros i s b attempts H Hn A B; cbn [delete_two_loop cand_del2]; auto.
  cbn [fst]. destruct (shouldAbort s) eqn:E; [rewrite try_abort; auto|].
  unfold delete_two_step, zword, wlen. rewrite A.
  destruct (word_at w i ltac:(lia)) as (c0 & H0). destruct (word_at w (i + 1) ltac:(lia)) as (c1 & H1).
  destruct (word_at w (i + 2) ltac:(lia)) as (c2 & H2). destruct (word_at w (i + 3) ltac:(lia)) as (c3 & H3).
  rewrite (rd_word _ _ _ H0), (rd_word _ _ _ H1), (rd_word _ _ _ H2), (rd_word _ _ _ H3). cbn [bind].
  unfold repeated_pair. rewrite H0, H1, H2, H3. destruct ((c0 =? c2) && (c1 =? c3)) eqn:Er.
  2:{ cbn [bind]. apply IHn; auto; lia. }
  rewrite copy_short by (auto; lia). cbn [bind firstn app plus].
  assert (L1 : length (firstn i w ++ skipn i b) = (length w - 2)%nat) by (rewrite app_length, firstn_length_le, skipn_length by lia; lia).
  rewrite skipn_last by lia. rewrite copy_short; [|apply not_in_skipn; auto|lia|rewrite skipn_length; lia].
  cbn [bind]. rewrite (firstn_len_app _ (firstn i w)) by (rewrite firstn_length_le; lia).
  rewrite (firstn_all2 (skipn (i + 2) w)) by (rewrite skipn_length; lia).
  rewrite (skipn_all2 (firstn i w ++ skipn i b)) by lia. rewrite app_nil_r. fold (delete_pair w i).
  assert (L2 : length (delete_pair w i) = (length w - 2)%nat).
  { unfold delete_pair. rewrite app_length, firstn_length_le, skipn_length by lia. lia. }
  destruct (existsb (zlist_eqb (delete_pair w i)) attempts).
  { cbn [bind]. apply IHn; auto; lia. }
  rewrite (firstn_all2 (delete_pair w i)) by lia. cbn [SuggestProofs.try_all].
  destruct (suggestForBuffer an s (delete_pair w i)) as [s'| |] eqn:E2; cbn [bind]; [|reflexivity|reflexivity].
  pose proof (suggest_keeps _ _ _ _ E2) as (K & _). apply IHn; auto; [lia|congruence].
Qed.

Lemma gen_delete_two_try : forall s, ~ In 0 (sword s) -> gen_delete_two an s = try_all (cand_delete_two (sword s)) s.
Proof.
  intros s H. unfold gen_delete_two, cand_delete_two, wlen. destruct (Nat.ltb_spec (length (sword s)) 6); auto.
  apply delete_two_loop_try; auto; [lia|]. apply repeat_length.
Qed.

(** ** Several replacements *)

Fixpoint cand_multi (pairs : list (Z * Z)) (r start : nat) (u : list Z) : list (list Z) :=
  match r with
  | O => []
  | S r' =>
      flat_map (fun x => flat_map (fun p =>
          match nth_error u p with
          | Some c => if c =? fst x then match r' with O => [upd u p (snd x)] | _ => cand_multi pairs r' p (upd u p (snd x)) end else []
          | None => []
          end) (seq start (length u - start))) pairs
  end.

Lemma multi_each_sim : forall w u act (cs : nat -> list Z -> list (list Z)) f t, length u = length w ->
  (forall p s u', sword s = w -> length u' = length w -> shouldAbort s = false -> (p < length w)%nat ->
     sim w (S (length w)) (fun b => b = u' ++ [0]) (act p (s, u' ++ [0])) (try_all (cs p u') s)) ->
  forall n p s, (p + n = length w)%nat -> sword s = w -> shouldAbort s = false ->
  exists x stop, 
  match try_all (flat_map (fun p => match nth_error u p with
       | Some c => if c =? f then cs p (upd u p t) else [] | None => [] end) (seq p n)) s with
  | Ok s' => multi_each act f t n p (s, u ++ [0]) = Ok (s', x, stop) /\ sword s' = w /\ length x = S (length w) /\
       (shouldAbort s' = true /\ stop = true \/ shouldAbort s' = false /\ stop = false /\ x = u ++ [0])
  | UB => multi_each act f t n p (s, u ++ [0]) = UB
  | Fuel => multi_each act f t n p (s, u ++ [0]) = Fuel
  end.
Proof.
  intros w u act cs f t Hl H. induction n; intros p s Hn A E; cbn [multi_each seq flat_map].
  - exists (u ++ [0]), false. cbn. repeat split; auto. rewrite app_length; simpl; lia.
  - destruct (word_at u p ltac:(lia)) as (c & Hc). rewrite (rd_word _ _ _ Hc), Hc. cbn [bind].
    destruct (Z.eqb_spec c f) as [->|]; [|cbn [app]; apply IHn; auto; lia].
    rewrite try_app. rewrite wr_lt by (rewrite app_length; simpl; lia). cbn [bind]. rewrite upd_app1 by lia.
    specialize (H p s (upd u p t) A ltac:(rewrite upd_length; auto) E ltac:(lia)) as X. unfold sim in X.
    destruct (try_all (cs p (upd u p t)) s) as [s1| |]; cbn [bind].
    2,3: exists [], false; rewrite X; reflexivity.
    destruct X as (b1 & -> & A1 & B1 & C1). cbn [bind].
    destruct (shouldAbort s1) eqn:E1.
    { rewrite try_abort by auto. exists b1, true. repeat split; auto. }
    destruct C1 as [C1|C1]; [congruence|]. subst b1.
    rewrite wr_lt by (rewrite app_length, upd_length; simpl; lia). cbn [bind].
    rewrite upd_app1 by (rewrite upd_length; lia). rewrite upd_upd, upd_same_id by auto.
    apply IHn; auto. lia.
Qed.

Lemma multi_pairs_sim : forall w u act (cs : nat -> list Z -> list (list Z)) start, length u = length w -> (start <= length w)%nat ->
  (forall p s u', sword s = w -> length u' = length w -> shouldAbort s = false -> (p < length w)%nat ->
     sim w (S (length w)) (fun b => b = u' ++ [0]) (act p (s, u' ++ [0])) (try_all (cs p u') s)) ->
  forall pairs s, sword s = w -> shouldAbort s = false ->
  sim w (S (length w)) (fun b => b = u ++ [0]) (multi_pairs act start pairs (s, u ++ [0]))
   (try_all (flat_map (fun x => flat_map (fun p => match nth_error u p with
       | Some c => if c =? fst x then cs p (upd u p (snd x)) else [] | None => [] end) (seq start (length u - start))) pairs) s).
Proof.
  intros w u act cs start Hl Hs H. induction pairs as [|[f t] r IH]; intros s A E; cbn [multi_pairs flat_map fst snd].
  - apply sim_ok; auto. rewrite app_length; simpl; lia.
  - rewrite try_app. unfold wlen. rewrite A.
    destruct (multi_each_sim w u act cs f t Hl H (length w - start) start s ltac:(lia) A E) as (x & stop & X).
    rewrite <- Hl in X. rewrite <- Hl. match goal with |- context [bind (SuggestProofs.try_all an ?l s) _] => set (L := l) in * end.
    destruct (try_all L s) as [s1| |]; cbn [bind]; [|rewrite X; reflexivity|rewrite X; reflexivity].
    destruct X as (-> & A1 & B1 & [(E1 & ->)|(E1 & -> & ->)]); cbn [bind].
    + rewrite try_abort by auto. apply sim_ok; auto.
    + specialize (IH s1 A1 E1). rewrite <- Hl in IH. exact IH.
Qed.

Lemma multi_generate_sim : forall w pairs r start u s, length u = length w -> (start <= length w)%nat -> sword s = w -> shouldAbort s = false ->
  sim w (S (length w)) (fun b => b = u ++ [0]) (multi_generate an pairs r start (s, u ++ [0])) (try_all (cand_multi pairs r start u) s).
Proof.
  intros w pairs. induction r; intros start u s Hl Hs A E; cbn [multi_generate cand_multi].
  - apply sim_ok; auto. rewrite app_length; simpl; lia.
  - destruct r as [|r].
    + apply (multi_pairs_sim w u _ (fun p u' => [u'])); auto.
      intros p s1 u' A1 L1 E1 Hp. cbn [fst snd]. unfold wlen. rewrite A1. rewrite firstn_len_app by auto.
      apply sim_suggest; auto. rewrite app_length; simpl; lia.
    + apply (multi_pairs_sim w u _ (fun p u' => cand_multi pairs (S r) p u')); auto.
      intros p s1 u' A1 L1 E1 Hp. apply IHr; auto. lia.
Qed.

Lemma gen_multi_try : forall pairs n s, ~ In 0 (sword s) -> shouldAbort s = false ->
  gen_multi_replacement an pairs n s = try_all (cand_multi pairs n 0 (sword s)) s.
Proof.
  intros pairs n s H E. unfold gen_multi_replacement, wlen, zword. rewrite (start_bind (sword s)) by auto.
  eapply sim_fst. apply multi_generate_sim; auto. lia.
Qed.

(** ** Vowels *)

Fixpoint vowel_count (w : list Z) : nat :=
  match w with [] => O | c :: r => if vowel c then S (vowel_count r) else vowel_count r end.
Definition swapped (c : Z) : Z := swap_vowel BACK_VOWELS FRONT_VOWELS c.
Fixpoint apply_pattern (pat : Z) (w : list Z) : list Z :=
  match w with
  | [] => []
  | c :: r => if vowel c then (if Z.odd pat then swapped c else c) :: apply_pattern (Z.div2 pat) r
              else c :: apply_pattern pat r
  end.
Definition cand_vowel (w : list Z) : list (list Z) :=
  if Nat.eqb (vowel_count w) 0 || (7 <? vowel_count w)%nat then []
  else map (fun k => apply_pattern (Z.of_nat k) w) (seq 1 (2 ^ vowel_count w - 1)).

Lemma ck_fits : forall x, -2147483648 <= x <= 2147483647 -> ck x = Ok x.
Proof.
  intros x H. unfold ck. change (- 2 ^ 31) with (-2147483648). change (2 ^ 31 - 1) with 2147483647.
  replace (in_range _ _ x) with true; auto. symmetry. apply in_range_spec. auto.
Qed.

Definition mask_of (k : nat) : Z := if (k <=? 31)%nat then 2 ^ Z.of_nat k - 1 else -1.

Lemma mask_step_ok : forall k, (k <= 31)%nat -> mask_step (mask_of k) = Ok (mask_of (S k)).
Proof.
  intros k H. unfold mask_of, mask_step. destruct (Nat.leb_spec k 31); [|lia].
  assert (P : 1 <= 2 ^ Z.of_nat k) by (pose proof (Z.pow_pos_nonneg 2 (Z.of_nat k)); lia).
  destruct (Z.ltb_spec (2 ^ Z.of_nat k - 1) 0); [lia|]. cbn [bind].
  rewrite Nat2Z.inj_succ, Z.pow_succ_r by lia.
  destruct (Nat.leb_spec (S k) 31).
  - assert (P2 : 2 ^ Z.of_nat k <= 2 ^ 30) by (apply Z.pow_le_mono_r; lia).
    change (2 ^ 30) with 1073741824 in P2. change (2 ^ 31) with 2147483648.
    destruct (Z.leb_spec (2 * (2 ^ Z.of_nat k - 1)) (2147483648 - 1)); [|lia].
    rewrite ck_fits by lia. f_equal. lia.
  - replace k with 31%nat by lia. vm_compute. reflexivity.
Qed.

Lemma count_vowels_ok : forall w k, (k + vowel_count w <= 32)%nat ->
  count_vowels w (mask_of k) k = Ok (mask_of (k + vowel_count w), (k + vowel_count w)%nat).
Proof.
  induction w; intros k H; cbn [count_vowels vowel_count] in *.
  - rewrite Nat.add_0_r. auto.
  - destruct (vowel a); [|apply IHw; auto].
    rewrite mask_step_ok by lia. cbn [bind]. rewrite IHw by lia. rewrite <- Nat.add_succ_comm. auto.
Qed.

Lemma next_vowel_ok : forall pre dn c post fuel, Forall (fun x => vowel x = false /\ x <> 0) pre -> vowel c = true ->
  (length pre < fuel)%nat ->
  next_vowel (dn ++ pre ++ c :: post) (length dn) fuel = Ok (length dn + length pre)%nat.
Proof.
  induction pre as [|x pre IH]; intros dn c post fuel H Hc Hf; (destruct fuel; [exfalso; simpl in Hf; lia|]); cbn [next_vowel].
  - unfold rd. rewrite nth_error_app2, Nat.sub_diag by auto. cbn [app nth_error bind].
    unfold vowel in Hc. unfold wcschr. rewrite <- orb_assoc.
    destruct (mem c BACK_VOWELS), (mem c FRONT_VOWELS); rewrite ?orb_true_r; try discriminate; rewrite Nat.add_0_r; auto.
  - inversion_clear H as [|? ? [H1 H2] H3].
    unfold rd. rewrite nth_error_app2, Nat.sub_diag by auto. cbn [app nth_error bind].
    unfold vowel in H1. apply orb_false_elim in H1 as [H1 H1']. unfold wcschr. rewrite H1, H1'.
    destruct (Z.eqb_spec x 0); [contradiction|]. cbn [orb].
    specialize (IH (dn ++ [x]) c post fuel H3 Hc ltac:(simpl in Hf; lia)).
    rewrite app_length in IH. cbn [length] in IH. rewrite <- app_assoc in IH. cbn [app] in IH.
    rewrite Nat.add_1_r in IH. rewrite IH. cbn [length]. f_equal. lia.
Qed.

Lemma first_vowel : forall w n, vowel_count w = S n ->
  exists pre c post, w = pre ++ c :: post /\ Forall (fun x => vowel x = false) pre /\ vowel c = true /\ vowel_count post = n.
Proof.
  induction w; cbn [vowel_count]; intros n H; [discriminate|]. destruct (vowel a) eqn:E.
  - exists [], a, w. repeat split; auto.
  - destruct (IHw n H) as (pre & c & post & -> & H1 & H2 & H3). exists (a :: pre), c, post. repeat split; auto.
Qed.

Lemma apply_pre : forall pre pat w, Forall (fun x => vowel x = false) pre -> apply_pattern pat (pre ++ w) = pre ++ apply_pattern pat w.
Proof.
  induction pre; intros pat w H; cbn [app apply_pattern]; auto. inversion_clear H. rewrite H0, IHpre; auto.
Qed.

Lemma apply_none : forall w pat, vowel_count w = O -> apply_pattern pat w = w.
Proof.
  induction w; intros pat H; cbn [apply_pattern vowel_count] in *; auto. destruct (vowel a); [discriminate|]. f_equal. auto.
Qed.

Lemma apply_length : forall w pat, length (apply_pattern pat w) = length w.
Proof. induction w; intros; cbn [apply_pattern]; auto. destruct (vowel a); simpl; auto. Qed.

Lemma vowel_pattern_ok : forall pat n w dn j, ~ In 0 w -> vowel_count w = n ->
  vowel_pattern pat n j (length dn) (dn ++ w ++ [0]) = Ok (dn ++ apply_pattern (Z.shiftr pat (Z.of_nat j)) w ++ [0]).
Proof.
  intros pat. induction n; intros w dn j H Hn; cbn [vowel_pattern].
  - rewrite apply_none by auto. auto.
  - destruct (first_vowel w n Hn) as (pre & c & post & -> & H1 & H2 & H3).
    rewrite <- app_assoc. cbn [app].
    rewrite next_vowel_ok; auto.
    2:{ rewrite Forall_forall in *. intros x X. split; auto. intros ->. apply H, in_or_app. auto. }
    2:{ rewrite !app_length. lia. }
    cbn [bind]. unfold rd. rewrite app_assoc. rewrite nth_error_app2 by (rewrite app_length; lia).
    rewrite app_length, Nat.sub_diag. cbn [nth_error bind].
    assert (R : forall d, vowel_pattern pat n (S j) (S (length dn + length pre)) ((dn ++ pre) ++ d :: post ++ [0])
        = Ok ((dn ++ pre) ++ d :: apply_pattern (Z.div2 (Z.shiftr pat (Z.of_nat j))) post ++ [0])).
    { intros d. specialize (IHn post ((dn ++ pre) ++ [d]) (S j)).
      rewrite !app_length in IHn. cbn [length] in IHn. rewrite Nat.add_1_r in IHn.
      rewrite <- !app_assoc in IHn. cbn [app] in IHn. rewrite <- app_assoc. rewrite IHn; auto.
      2:{ intros X. apply H, in_or_app. right. right. auto. }
      rewrite <- !app_assoc. replace (Z.shiftr pat (Z.of_nat (S j))) with (Z.div2 (Z.shiftr pat (Z.of_nat j))); [reflexivity|].
      rewrite Z.div2_spec, Z.shiftr_shiftr by lia. f_equal. lia. }
    assert (Odd : Z.odd (Z.shiftr pat (Z.of_nat j)) = Z.testbit pat (Z.of_nat j)).
    { rewrite <- Z.bit0_odd. rewrite Z.shiftr_spec by lia. auto. }
    rewrite apply_pre by auto. cbn [apply_pattern]. rewrite H2, Odd.
    destruct (Z.testbit pat (Z.of_nat j)).
    + rewrite wr_lt by (rewrite !app_length; simpl; lia). cbn [bind].
      rewrite upd_split by (rewrite !app_length; simpl; lia).
      rewrite firstn_len_app by (rewrite app_length; auto).
      rewrite skipn_app, (skipn_all2 (dn ++ pre)) by (rewrite app_length; lia).
      rewrite app_length. replace (S (length dn + length pre) - (length dn + length pre))%nat with 1%nat by lia. cbn [skipn app].
      rewrite R. rewrite <- !app_assoc. auto.
    + cbn [bind]. rewrite R. rewrite <- !app_assoc. auto.
Qed.

Lemma pattern_word : forall pat w, ~ In 0 w ->
  (buffer <- copy (fresh (length w + 1)) 0 (w ++ [0]) (length w + 1) ;; vowel_pattern pat (vowel_count w) 0 0 buffer)
  = Ok (apply_pattern pat w ++ [0]).
Proof.
  intros pat w H. rewrite copy_full by (unfold fresh; rewrite ?repeat_length; auto). cbn [bind firstn app].
  rewrite skipn_all2 by (unfold fresh; rewrite repeat_length; lia).
  pose proof (vowel_pattern_ok pat (vowel_count w) w [] 0 H eq_refl) as X. cbn [length app] in X.
  change (w ++ 0 :: []) with (w ++ [0]). rewrite X. rewrite Z.shiftr_0_r. auto.
Qed.

Lemma vowel_loop_try : forall w n m k s, vowel_count w = n -> (n <= 31)%nat -> ~ In 0 w -> sword s = w -> shouldAbort s = false ->
  (1 <= k)%nat -> (k + m = 2 ^ n)%nat -> forall fuel, (m <= fuel)%nat ->
  vowel_loop an fuel (mask_of n) (Z.of_nat k) n s = try_all (map (fun k => apply_pattern (Z.of_nat k) w) (seq k m)) s.
Proof.
  intros w n. induction m; intros k s Hn Hn2 H A E Hk Hm fuel Hf.
  - assert (M : Z.land (Z.of_nat k) (mask_of n) = 0).
    { unfold mask_of. destruct (Nat.leb_spec n 31); [|lia]. 
      replace (2 ^ Z.of_nat n - 1) with (Z.ones (Z.of_nat n)) by (rewrite Z.ones_equiv; lia).
      rewrite Z.land_ones by lia. replace (Z.of_nat k) with (2 ^ Z.of_nat n); [apply Z_mod_same_full|].
      rewrite Nat.add_0_r in Hm. subst k. rewrite Nat2Z.inj_pow. auto. }
    destruct fuel; cbn [vowel_loop]; rewrite M; reflexivity.
  - destruct fuel; [lia|]. cbn [vowel_loop].
    assert (M : Z.land (Z.of_nat k) (mask_of n) = Z.of_nat k).
    { unfold mask_of. destruct (Nat.leb_spec n 31); [|lia].
      replace (2 ^ Z.of_nat n - 1) with (Z.ones (Z.of_nat n)) by (rewrite Z.ones_equiv; lia).
      rewrite Z.land_ones by lia. apply Z.mod_small. split; [lia|].
      replace (2 ^ Z.of_nat n) with (Z.of_nat (2 ^ n)) by (rewrite Nat2Z.inj_pow; auto). lia. }
    rewrite M. destruct (Z.eqb_spec (Z.of_nat k) 0); [lia|]. cbn [negb].
    unfold wlen, zword. rewrite A. pose proof (pattern_word (Z.of_nat k) w H) as X. rewrite Hn in X.
    destruct (copy (fresh (length w + 1)) 0 (w ++ [0]) (length w + 1)); cbn [bind] in *; try discriminate.
    rewrite X. cbn [bind]. rewrite E. rewrite firstn_len_app by apply apply_length.
    cbn [seq map SuggestProofs.try_all].
    destruct (suggestForBuffer an s (apply_pattern (Z.of_nat k) w)) as [s'| |] eqn:E2; cbn [bind]; [|reflexivity|reflexivity].
    pose proof (suggest_keeps _ _ _ _ E2) as (K & _).
    replace (Z.of_nat k + 1) with (Z.of_nat (S k)) by lia.
    destruct (shouldAbort s') eqn:E3; [|apply IHm; auto; try lia; congruence].
    rewrite try_abort by auto.
    clear -E3 Hf Hm Hn Hn2 H K A. assert (K' : sword s' = w) by congruence.
    destruct fuel; cbn [vowel_loop].
    + destruct m; [|lia]. assert (M : Z.land (Z.of_nat (S k)) (mask_of n) = 0).
      { unfold mask_of. destruct (Nat.leb_spec n 31); [|lia].
        replace (2 ^ Z.of_nat n - 1) with (Z.ones (Z.of_nat n)) by (rewrite Z.ones_equiv; lia).
        rewrite Z.land_ones by lia. replace (Z.of_nat (S k)) with (2 ^ Z.of_nat n); [apply Z_mod_same_full|].
        replace (S k) with (2 ^ n)%nat by lia. rewrite Nat2Z.inj_pow. auto. }
      rewrite M. reflexivity.
    + destruct (negb _); auto. unfold wlen, zword. rewrite K'.
      pose proof (pattern_word (Z.of_nat (S k)) w H) as X. rewrite Hn in X.
      destruct (copy (fresh (length w + 1)) 0 (w ++ [0]) (length w + 1)); cbn [bind] in *; try discriminate.
      rewrite X. cbn [bind]. rewrite E3. auto.
Qed.

Lemma gen_vowel_try : forall s, ~ In 0 (sword s) -> (vowel_count (sword s) <= 32)%nat -> shouldAbort s = false ->
  gen_vowel_change an s = try_all (cand_vowel (sword s)) s.
Proof.
  intros s H Hv E. unfold gen_vowel_change, cand_vowel.
  pose proof (count_vowels_ok (sword s) 0 Hv) as C. change (mask_of 0) with 0 in C. rewrite C. cbn [bind plus].
  destruct (Nat.eqb_spec (vowel_count (sword s)) 0); cbn [orb]; auto.
  destruct (Nat.ltb_spec 7 (vowel_count (sword s))); auto.
  assert (P : (2 ^ vowel_count (sword s) <= 128)%nat) by (change 128%nat with (2 ^ 7)%nat; apply Nat.pow_le_mono_r; lia).
  assert (P2 : (1 <= 2 ^ vowel_count (sword s))%nat) by (pose proof (Nat.pow_nonzero 2 (vowel_count (sword s))); lia).
  apply (vowel_loop_try (sword s) _ _ 1); auto; lia.
Qed.

End Try.
