(** * The candidates of the generators are the edits of [SuggestSpec] *)
From Verif Require Import Base BaseFacts CharModel CharProofs SpellerBase CacheModel AnalysisModel AnalyzerBase HyphModel
  AdapterModel SuggestModel SuggestSpec SuggestProofs SuggestProofs2.

(** ** Positions *)

Lemma firstn_mid : forall A (a l : list A), firstn (length a) (a ++ l) = a.
Proof. intros. apply firstn_len_app. auto. Qed.
Lemma skipn_mid : forall A (a l : list A), skipn (length a) (a ++ l) = l.
Proof. intros. rewrite skipn_app, skipn_all, Nat.sub_diag. auto. Qed.
Lemma skipn_mid_plus : forall A (a l : list A) k, skipn (length a + k) (a ++ l) = skipn k l.
Proof. intros. rewrite <- skipn_skipn, skipn_mid. auto. Qed.
Lemma nth_mid : forall A (a : list A) c b, nth_error (a ++ c :: b) (length a) = Some c.
Proof. intros. rewrite nth_error_app2, Nat.sub_diag by auto. auto. Qed.
Lemma nth_mid_plus : forall A (a l : list A) k, nth_error (a ++ l) (length a + k) = nth_error l k.
Proof. intros. rewrite nth_error_app2 by lia. f_equal. lia. Qed.
Lemma upd_mid : forall A (a : list A) c b t, upd (a ++ c :: b) (length a) t = a ++ t :: b.
Proof.
  intros. rewrite upd_split by (rewrite app_length; simpl; lia). rewrite firstn_mid.
  replace (S (length a)) with (length a + 1)%nat by lia. rewrite skipn_mid_plus. auto.
Qed.
Lemma upd_mid_plus : forall A (a l : list A) k t, upd (a ++ l) (length a + k) t = a ++ upd l k t.
Proof. induction a; intros; simpl; auto. f_equal. auto. Qed.
Lemma split_at : forall A (w : list A) i c, nth_error w i = Some c -> exists a b, w = a ++ c :: b /\ length a = i.
Proof. intros. apply nth_error_split. auto. Qed.
Lemma snoc_inj : forall A (a b : list A) x y, a ++ [x] = b ++ [y] -> a = b /\ x = y.
Proof. intros. apply app_inj_tail. auto. Qed.

(** ** Replacement *)

Lemma in_cand_replace : forall w f t v, In v (cand_replace w f t) <-> exists a b, w = a ++ f :: b /\ v = a ++ t :: b.
Proof.
  intros w f t v. unfold cand_replace. rewrite in_flat_map. split.
  - intros (i & Hi & H). unfold cand_replace_at in H. destruct (nth_error w i) as [c|] eqn:E; [|destruct H].
    destruct (Z.eqb_spec c f) as [->|]; [|destruct H]. destruct H as [<-|[]].
    destruct (split_at _ _ _ _ E) as (a & b & -> & <-). exists a, b. rewrite upd_mid. auto.
  - intros (a & b & -> & ->). exists (length a). split.
    + apply in_seq. rewrite app_length. simpl. lia.
    + unfold cand_replace_at. rewrite nth_mid, Z.eqb_refl, upd_mid. left. auto.
Qed.

Lemma in_cand_replacement : forall pairs w v, In v (cand_replacement pairs w) <-> replaced pairs w v.
Proof.
  intros pairs w v. unfold cand_replacement, replaced, table_pair. rewrite in_flat_map. split.
  - intros ((f & t) & Hp & H). unfold cand_pair in H. apply in_app_or in H as [H|H].
    + apply in_cand_replace in H as (a & b & H1 & H2). exists a, b, f, t. auto.
    + destruct (Z.eqb_spec (upper f) f); [destruct H|]. apply in_cand_replace in H as (a & b & H1 & H2).
      exists a, b, (upper f), (upper t). split; auto. right. exists f, t. auto.
  - intros (a & b & f & t & [H|(f0 & t0 & H & N & -> & ->)] & H1 & H2).
    + exists (f, t). split; auto. unfold cand_pair. apply in_or_app. left. apply in_cand_replace. eauto.
    + exists (f0, t0). split; auto. unfold cand_pair. apply in_or_app. right.
      destruct (Z.eqb_spec (upper f0) f0); [congruence|]. apply in_cand_replace. eauto.
Qed.

(** ** Deletion *)

Lemma in_cand_deletion : forall w v, In v (cand_deletion w) <-> deleted w v.
Proof.
  intros w v. unfold cand_deletion, deleted. rewrite in_flat_map. split.
  - intros (i & Hi & H). apply in_seq in Hi.
    destruct (word_at w i ltac:(lia)) as (c & Hc). destruct (split_at _ _ _ _ Hc) as (a & b & -> & <-).
    exists a, c, b. unfold cand_delete_at in H. rewrite firstn_mid, skipn_mid_plus in H. cbn [skipn] in H.
    destruct a as [|x a] using rev_ind.
    + cbn [length app] in H. destruct H as [<-|[]]. repeat split; auto. intros a' d E. destruct a'; discriminate.
    + rewrite app_length in H. cbn [length] in H. rewrite Nat.add_1_r in H.
      replace (S (length a)) with (length (a ++ [x])) in H by (rewrite app_length; simpl; lia).
      rewrite nth_mid in H. replace (length (a ++ [x]) - 1)%nat with (length a) in H by (rewrite app_length; simpl; lia).
      rewrite <- app_assoc in H. cbn [app] in H. rewrite nth_mid in H.
      destruct (Z.eqb_spec (lower c) (lower x)); cbn [negb] in H; [destruct H|]. destruct H as [<-|[]].
      repeat split; auto. intros a' d E. apply snoc_inj in E as (_ & <-). congruence.
  - intros (a & c & b & -> & -> & H). exists (length a). split; [apply in_seq; rewrite app_length; simpl; lia|].
    unfold cand_delete_at. rewrite firstn_mid, skipn_mid_plus. cbn [skipn].
    destruct a as [|x a] using rev_ind; [left; auto|].
    rewrite app_length. cbn [length]. rewrite Nat.add_1_r.
    replace (S (length a)) with (length (a ++ [x])) by (rewrite app_length; simpl; lia).
    rewrite nth_mid. replace (length (a ++ [x]) - 1)%nat with (length a) by (rewrite app_length; simpl; lia).
    rewrite <- (app_assoc a [x] (c :: b)). cbn [app]. rewrite nth_mid.
    destruct (Z.eqb_spec (lower c) (lower x)); cbn [negb]; [|left; rewrite <- app_assoc; auto].
    exfalso. eapply H; eauto.
Qed.

(** ** Hyphens *)

Lemma window : forall (w : list Z) j, (2 <= j)%nat -> (j + 2 <= length w)%nat ->
  exists a x y z u b, w = a ++ [x; y] ++ [z; u] ++ b /\ length a = (j - 2)%nat.
Proof.
  intros w j H1 H2. destruct (word_at w (j - 2) ltac:(lia)) as (x & Hx).
  destruct (split_at _ _ _ _ Hx) as (a & b & -> & L). exists a, x.
  rewrite app_length in H2. cbn [length] in H2.
  destruct b as [|y [|z [|u b]]]; cbn [length] in H2; try lia. exists y, z, u, b. auto.
Qed.

Lemma in_cand_hyphens : forall w v,
  In v (flat_map (cand_hyphen_at w) (seq 2 (length w - 3))) <-> hyphen_added w v.
Proof.
  intros w v. rewrite in_flat_map. unfold hyphen_added, cand_hyphen_at, hyphens_near. split.
  - intros (j & Hj & H). apply in_seq in Hj.
    destruct (window w j ltac:(lia) ltac:(lia)) as (a & x & y & z & u & b & -> & L).
    exists a, x, y, z, u, b. rewrite <- L, skipn_mid in H. cbn [app firstn existsb] in H.
    destruct ((x =? 45) || ((y =? 45) || ((z =? 45) || ((u =? 45) || false)))) eqn:E; [destruct H|].
    destruct H as [<-|[]]. repeat rewrite orb_false_iff in E. rewrite !Z.eqb_neq in E.
    repeat split.
    + replace j with (length a + 2)%nat by lia. rewrite skipn_mid_plus. cbn [skipn].
      replace (length a + 2)%nat with (length (a ++ [x; y])) by (rewrite app_length; auto).
      change (a ++ x :: y :: z :: u :: b) with (a ++ [x; y] ++ [z; u] ++ b). rewrite (app_assoc a [x; y]), firstn_mid.
      rewrite <- app_assoc. auto.
    + cbn. intuition congruence.
  - intros (a & x & y & z & u & b & -> & -> & H). exists (length a + 2)%nat. split.
    + apply in_seq. rewrite !app_length. simpl. lia.
    + replace (length a + 2 - 2)%nat with (length a) by lia. rewrite skipn_mid. cbn [app firstn existsb].
      replace ((x =? 45) || ((y =? 45) || ((z =? 45) || ((u =? 45) || false)))) with false.
      2:{ symmetry. repeat rewrite orb_false_iff. rewrite !Z.eqb_neq. cbn in H. intuition. }
      left. rewrite skipn_mid_plus. cbn [skipn].
      replace (length a + 2)%nat with (length (a ++ [x; y])) by (rewrite app_length; auto).
      change (a ++ x :: y :: z :: u :: b) with (a ++ [x; y] ++ [z; u] ++ b). rewrite (app_assoc a [x; y]), firstn_mid.
      rewrite <- app_assoc. auto.
Qed.

(** ** Runs of equal letters *)

Lemma run_nth : forall w a c k b i, run_at w a c k b -> (length a <= i < length a + k)%nat -> nth_error w i = Some c.
Proof.
  intros w a c k b i (-> & _) Hi. replace i with (length a + (i - length a))%nat by lia. rewrite nth_mid_plus.
  rewrite nth_error_app1 by (rewrite repeat_length; lia). apply nth_error_repeat. lia.
Qed.

Lemma run_before : forall w a c k b i, run_at w a c k b -> S i = length a -> nth_error w i <> Some c.
Proof.
  intros w a c k b i (-> & _ & H & _) Hi E. destruct a as [|d a] using rev_ind; [discriminate|].
  rewrite app_length in Hi. cbn [length] in Hi. replace i with (length a) in E by lia.
  rewrite <- app_assoc in E. cbn [app] in E. rewrite nth_mid in E. eapply H; eauto. congruence.
Qed.

Lemma run_after : forall w a c k b, run_at w a c k b -> nth_error w (length a + k) <> Some c.
Proof.
  intros w a c k b (-> & _ & _ & H) E. rewrite nth_mid_plus in E.
  replace k with (length (repeat c k)) in E at 2 by apply repeat_length. rewrite <- (Nat.add_0_r (length (repeat c k))), nth_mid_plus in E.
  destruct b; [discriminate|]. cbn in E. eapply H; eauto. congruence.
Qed.

Lemma run_length : forall w a c k b, run_at w a c k b -> length w = (length a + k + length b)%nat.
Proof. intros w a c k b (-> & _). rewrite !app_length, repeat_length. lia. Qed.

Lemma run_same : forall w a c k b a' c' k' b', run_at w a c k b -> run_at w a' c' k' b' -> length a = length a' ->
  a = a' /\ c = c' /\ k = k' /\ b = b'.
Proof.
  intros w a c k b a' c' k' b' R R' L.
  pose proof (run_nth _ _ _ _ _ (length a) R ltac:(destruct R as (_ & ? & _); lia)) as N1.
  pose proof (run_nth _ _ _ _ _ (length a) R' ltac:(destruct R' as (_ & ? & _); lia)) as N2.
  assert (c = c') by congruence. subst c'.
  assert (k = k').
  { destruct (Nat.lt_trichotomy k k') as [H|[H|H]]; auto; exfalso.
    - apply (run_after _ _ _ _ _ R). apply (run_nth _ _ _ _ _ _ R'). lia.
    - apply (run_after _ _ _ _ _ R'). apply (run_nth _ _ _ _ _ _ R). lia. }
  subst k'. destruct R as (-> & _), R' as (E & _).
  assert (a = a'). { pose proof (f_equal (firstn (length a)) E) as F. rewrite firstn_mid, L, firstn_mid in F. auto. }
  subst a'. apply app_inv_head, app_inv_head in E. auto.
Qed.

Lemma run_next : forall w a c k b a' c' k' b', run_at w a c k b -> run_at w a' c' k' b' -> (length a < length a')%nat ->
  (length a + k <= length a')%nat.
Proof.
  intros w a c k b a' c' k' b' R R' L. destruct (Nat.le_gt_cases (length a + k) (length a')); auto. exfalso.
  pose proof (run_nth _ _ _ _ _ (length a') R ltac:(lia)) as N1.
  pose proof (run_nth _ _ _ _ _ (length a') R' ltac:(destruct R' as (_ & ? & _); lia)) as N2.
  assert (c = c') by congruence. subst c'.
  apply (run_before _ _ _ _ _ (length a' - 1) R'); [lia|]. apply (run_nth _ _ _ _ _ _ R). lia.
Qed.

(** A word from a boundary of runs on is empty or begins with a run. *)
Definition boundary (a l : list Z) : Prop := forall a' d x l', a = a' ++ [d] -> l = x :: l' -> d <> x.

Lemma take_run : forall c (l : list Z), exists k b, l = repeat c k ++ b /\ forall d b', b = d :: b' -> d <> c.
Proof.
  induction l as [|x l (k & b & -> & H)].
  - exists O, []. split; auto. discriminate.
  - destruct (Z.eq_dec x c) as [->|N].
    + exists (S k), b. auto.
    + exists O, (x :: repeat c k ++ b). split; auto. intros d b' E. congruence.
Qed.

Lemma next_run : forall a l, boundary a l -> l <> [] ->
  exists c k b, l = repeat c k ++ b /\ run_at (a ++ l) a c k b /\ boundary (a ++ repeat c k) b.
Proof.
  intros a l B N. destruct l as [|c l]; [congruence|]. destruct (take_run c l) as (k & b & -> & H).
  exists c, (S k), b. split; auto. split.
  - split; auto. split; [lia|]. split; auto. intros a' d ->. eapply B; eauto.
  - intros a' d x l' E ->. replace (S k) with (k + 1)%nat in E by lia. rewrite repeat_app, app_assoc in E. cbn [repeat] in E.
    apply snoc_inj in E as (_ & <-). intros ->. eapply H; eauto.
Qed.

Lemma cand_double_fuel : forall w n n' j, (length w <= j + n)%nat -> (length w <= j + n')%nat ->
  cand_double n j w = cand_double n' j w.
Proof.
  intros w. induction n; intros n' j H H'.
  - assert (nth_error w j = None) by (apply nth_error_None; lia).
    destruct n'; cbn [cand_double]; rewrite ?H0; auto.
  - destruct n'; cbn [cand_double].
    + replace (nth_error w j) with (@None Z) by (symmetry; apply nth_error_None; lia). auto.
    + destruct (nth_error w j); auto. rewrite (IHn n' (j + 2)%nat), (IHn n' (j + 1)%nat) by lia. auto.
Qed.

Lemma cand_double_S : forall n j w, cand_double (S n) j w =
  match nth_error w j with
  | Some c =>
      if match nth_error w (j + 1) with Some d => c =? d | None => false end then cand_double n (j + 2) w
      else (if (c =? 0x2D) || (c =? 0x27) then [] else [firstn (j + 1) w ++ skipn j w]) ++ cand_double n (j + 1) w
  | None => []
  end.
Proof. reflexivity. Qed.

Definition dbl_ok (c : Z) : bool := negb ((c =? 0x2D) || (c =? 0x27)).

Lemma cand_double_run : forall c b, (forall d b', b = d :: b' -> d <> c) -> forall k a n,
  (length (a ++ repeat c k ++ b) <= length a + n)%nat ->
  cand_double n (length a) (a ++ repeat c k ++ b) =
  (if Nat.odd k && dbl_ok c then [a ++ repeat c (S k) ++ b] else []) ++ cand_double n (length a + k) (a ++ repeat c k ++ b).
Proof.
  intros c b Hb k. induction k as [k IH] using (well_founded_induction lt_wf). intros a n Hn.
  destruct k as [|[|k]].
  - cbn [Nat.odd Nat.even negb andb app]. rewrite Nat.add_0_r. auto.
  - destruct n; [rewrite !app_length in Hn; simpl in Hn; lia|].
    cbn [repeat app]. rewrite (cand_double_S n (length a)). rewrite nth_mid, nth_mid_plus. cbn [nth_error].
    replace (match b with [] => None | d :: _ => Some d end) with (hd_error b) by (destruct b; auto).
    assert (F : match hd_error b with Some d => c =? d | None => false end = false).
    { destruct b as [|d b]; cbn; auto. apply Z.eqb_neq. intros ->. eapply Hb; eauto. }
    change (nth_error b 0) with (hd_error b). rewrite F.
    rewrite (cand_double_fuel (a ++ c :: b) n (S n)) by (rewrite app_length in *; simpl in *; lia).
    f_equal. unfold dbl_ok. cbn [Nat.odd Nat.even negb andb]. destruct ((c =? 0x2D) || (c =? 0x27)); cbn [negb]; auto.
    rewrite skipn_mid. replace (length a + 1)%nat with (length (a ++ [c])) by (rewrite app_length; auto).
    replace (a ++ c :: b) with ((a ++ [c]) ++ b) by (rewrite <- app_assoc; auto). rewrite firstn_mid.
    rewrite <- app_assoc. auto.
  - destruct n; [rewrite !app_length in Hn; simpl in Hn; lia|].
    rewrite (cand_double_S n (length a)). cbn [repeat app]. rewrite nth_mid, nth_mid_plus. cbn [nth_error]. rewrite Z.eqb_refl.
    specialize (IH k ltac:(lia) (a ++ [c; c]) (S n)).
    rewrite <- !app_assoc in IH. cbn [app] in IH. rewrite (app_length a [c; c]) in IH. cbn [length] in IH.
    rewrite (cand_double_fuel _ n (S n)).
    2,3: rewrite !app_length in *; cbn [length] in *; rewrite ?app_length, ?repeat_length in *; lia.
    rewrite IH.
    2:{ rewrite !app_length in *; cbn [length] in *; rewrite ?app_length, ?repeat_length in *; cbn [repeat length] in *; rewrite ?repeat_length in *; lia. }
    cbn [Nat.odd Nat.even negb]. f_equal. f_equal. lia.
Qed.

Lemma in_cand_double_from : forall m l a n v, (length l <= m)%nat -> boundary a l -> (length (a ++ l) <= length a + n)%nat ->
  (In v (cand_double n (length a) (a ++ l)) <->
   exists a' c k b, run_at (a ++ l) a' c k b /\ (length a <= length a')%nat /\ Nat.Odd k /\ c <> 0x2D /\ c <> 0x27 /\
     v = a' ++ repeat c (S k) ++ b).
Proof.
  induction m; intros l a n v Hm B Hn.
  - destruct l; [|simpl in Hm; lia]. rewrite app_nil_r in *. split.
    + intros H. exfalso. destruct n; cbn [cand_double] in H; [destruct H|].
      replace (nth_error a (length a)) with (@None Z) in H by (symmetry; apply nth_error_None; auto). destruct H.
    + intros (a' & c & k & b & R & L & _). exfalso. pose proof (run_length _ _ _ _ _ R). destruct R as (_ & ? & _). lia.
  - destruct l as [|x l0] eqn:El.
    { apply IHm; auto. simpl. lia. }
    rewrite <- El in *. assert (N : l <> []) by congruence. clear x l0 El.
    destruct (next_run a l B N) as (c & k & b & -> & R & B').
    assert (K : (1 <= k)%nat) by (destruct R as (_ & ? & _); auto).
    rewrite cand_double_run; [|destruct R as (_ & _ & _ & ?); auto|auto].
    specialize (IHm b (a ++ repeat c k) n v).
    rewrite <- app_assoc, (app_length a (repeat c k)), repeat_length in IHm.
    rewrite in_app_iff. rewrite IHm; auto.
    2:{ rewrite app_length, repeat_length in Hm. lia. }
    2:{ rewrite !app_length, repeat_length in *. lia. }
    split.
    + intros [H|(a' & c' & k' & b' & R' & L & H)].
      * destruct (Nat.odd k) eqn:Ok; [|destruct H]. unfold dbl_ok in H. cbn [andb] in H.
        destruct (Z.eqb_spec c 0x2D); [destruct H|]. destruct (Z.eqb_spec c 0x27); [destruct H|]. destruct H as [<-|[]].
        exists a, c, k, b. split; auto. split; auto. split; [apply Nat.odd_spec; auto|]. auto.
      * exists a', c', k', b'. split; auto. split; [lia|auto].
    + intros (a' & c' & k' & b' & R' & L & O & H1 & H2 & ->).
      destruct (Nat.eq_dec (length a) (length a')) as [E|E].
      * destruct (run_same _ _ _ _ _ _ _ _ _ R R' E) as (<- & <- & <- & <-). left.
        apply Nat.odd_spec in O. rewrite O. unfold dbl_ok.
        destruct (Z.eqb_spec c 0x2D); [contradiction|]. destruct (Z.eqb_spec c 0x27); [contradiction|]. left. auto.
      * right. exists a', c', k', b'. split; auto. split; auto. eapply run_next; eauto. lia.
Qed.

Lemma in_cand_double : forall w v, In v (cand_double (length w) 0 w) <-> doubled w v.
Proof.
  intros w v. pose proof (in_cand_double_from (length w) w [] (length w) v) as H. cbn [length app] in H.
  rewrite H; auto; [|intros a' d x l' E; destruct a'; discriminate]. unfold doubled. split.
  - intros (a & c & k & b & R & _ & O & H1 & H2 & E). exists a, c, k, b. auto.
  - intros (a & c & k & b & R & O & H1 & H2 & E). exists a, c, k, b. repeat split; auto; try (destruct R as (? & ? & ? & ?); auto; fail). lia.
Qed.

Lemma in_cand_special : forall w v, In v (cand_special w) <-> hyphen_added w v \/ doubled w v.
Proof. intros. unfold cand_special. rewrite in_app_iff, in_cand_hyphens, in_cand_double. tauto. Qed.

(** ** Insertion *)

Lemma in_cand_insertion : forall chars w v, w <> [] -> In v (cand_insertion chars w) <-> inserted_letter chars w v.
Proof.
  intros chars w v Hw. unfold cand_insertion, inserted_letter. rewrite in_flat_map. split.
  - intros (c & Hc & H). unfold cand_insert in H. apply in_app_or in H as [H|H].
    + apply in_flat_map in H as (j & Hj & H). unfold cand_insert_at in H.
      destruct (nth_error w j) as [d|] eqn:E; [|destruct H]. destruct (split_at _ _ _ _ E) as (a & b & -> & <-).
      destruct (Z.eqb_spec c (lower d)); [destruct H|]. rewrite firstn_mid, skipn_mid in H.
      exists a, c, (d :: b). destruct a as [|x a] using rev_ind.
      * cbn [length] in H. destruct H as [<-|[]]. repeat split; auto. intros a' x X. destruct a'; discriminate.
      * clear IHa. rewrite app_length in H. cbn [length] in H. rewrite Nat.add_1_r in H.
        rewrite <- (app_assoc a [x] (d :: b)) in H. cbn [app] in H. rewrite nth_mid in H.
        destruct (Z.eqb_spec c (lower x)); [destruct H|]. destruct H as [<-|[]]. repeat split; auto.
        intros a' y X. apply snoc_inj in X as (_ & <-). auto.
    + destruct (Z.eqb_spec c (last w 0)); [destruct H|]. destruct H as [<-|[]].
      exists w, c, []. rewrite app_nil_r. repeat split; auto. intros a' x ->. rewrite last_last in n. auto.
  - intros (a & c & b & Hc & -> & -> & H). exists c. split; auto. unfold cand_insert. apply in_or_app.
    destruct b as [|d b].
    + right. rewrite app_nil_r in *. destruct (exists_last Hw) as (a' & x & ->). rewrite last_last.
      destruct (Z.eqb_spec c x); [|left; auto]. exfalso. eapply H; eauto.
    + left. destruct H as (H1 & H2). apply in_flat_map. exists (length a).
      split; [apply in_seq; rewrite app_length; simpl; lia|]. unfold cand_insert_at. rewrite nth_mid.
      destruct (Z.eqb_spec c (lower d)); [contradiction|]. rewrite firstn_mid, skipn_mid.
      destruct a as [|x a] using rev_ind; [left; auto|]. clear IHa.
      rewrite app_length. cbn [length]. rewrite Nat.add_1_r. rewrite <- (app_assoc a [x] (d :: b)). cbn [app]. rewrite nth_mid.
      destruct (Z.eqb_spec c (lower x)); [exfalso; eapply H2; eauto|]. left. auto.
Qed.

(** ** Replacing double letters *)

Lemma cand_two_S : forall n i pairs lw, cand_two (S n) i pairs lw =
  match nth_error lw i, nth_error lw (i + 1) with
  | Some c, Some d =>
      if c =? d then cand_two_at lw c i pairs ++ cand_two n (i + 2) pairs lw else cand_two n (i + 1) pairs lw
  | _, _ => []
  end.
Proof. reflexivity. Qed.

Lemma cand_two_fuel : forall pairs w n n' j, (length w <= j + n)%nat -> (length w <= j + n')%nat ->
  cand_two n j pairs w = cand_two n' j pairs w.
Proof.
  intros pairs w. induction n; intros n' j H H'.
  - assert (nth_error w j = None) by (apply nth_error_None; lia).
    destruct n'; cbn [cand_two]; rewrite ?H0; auto.
  - destruct n'; cbn [cand_two].
    + replace (nth_error w j) with (@None Z) by (symmetry; apply nth_error_None; lia). auto.
    + destruct (nth_error w j); auto. destruct (nth_error w (j + 1)); auto. rewrite (IHn n' (j + 2)%nat), (IHn n' (j + 1)%nat) by lia. auto.
Qed.

Lemma in_cand_two_at : forall lw c i pairs v, In v (cand_two_at lw c i pairs) <-> exists g, In (c, g) pairs /\ v = double_upd lw i g.
Proof.
  intros. unfold cand_two_at. rewrite in_map_iff. split.
  - intros ((f & g) & <- & H). apply filter_In in H as (H & E). cbn in E. apply Z.eqb_eq in E. subst. eauto.
  - intros (g & H & ->). exists (c, g). split; auto. apply filter_In. split; auto. cbn. apply Z.eqb_refl.
Qed.

Lemma cand_two_end : forall pairs w n j, (length w <= j + 1)%nat -> cand_two n j pairs w = [].
Proof.
  intros pairs w n j H. destruct n; auto. rewrite cand_two_S. destruct (nth_error w j); auto.
  replace (nth_error w (j + 1)) with (@None Z) by (symmetry; apply nth_error_None; lia). auto.
Qed.

Lemma in_cand_two_run : forall pairs c b v, (forall d b', b = d :: b' -> d <> c) -> forall k a n,
  (length (a ++ repeat c k ++ b) <= length a + n)%nat ->
  (In v (cand_two n (length a) pairs (a ++ repeat c k ++ b)) <->
   (exists m g, (2 * m + 2 <= k)%nat /\ In (c, g) pairs /\ v = double_upd (a ++ repeat c k ++ b) (length a + 2 * m) g) \/
   In v (cand_two n (length a + k) pairs (a ++ repeat c k ++ b))).
Proof.
  intros pairs c b v Hb k. induction k as [k IH] using (well_founded_induction lt_wf). intros a n Hn.
  destruct k as [|[|k]].
  - rewrite Nat.add_0_r. split; auto. intros [(m & g & H & _)|H]; auto. lia.
  - destruct n; [rewrite !app_length in Hn; simpl in Hn; lia|].
    cbn [repeat app]. rewrite (cand_two_S n (length a)), nth_mid, nth_mid_plus. cbn [nth_error].
    change (nth_error b 0) with (hd_error b).
    destruct b as [|d b]; cbn [hd_error].
    + rewrite cand_two_end by (rewrite app_length; simpl; lia). split; [intros []|]. intros [(m & g & H & _)|[]]. lia.
    + destruct (Z.eqb_spec c d) as [->|]; [exfalso; eapply Hb; eauto|].
      rewrite (cand_two_fuel pairs _ n (S n)) by (rewrite app_length in *; simpl in *; lia).
      split; auto. intros [(m & g & H & _)|H]; auto. lia.
  - destruct n; [rewrite !app_length in Hn; simpl in Hn; lia|].
    assert (E0 : a ++ repeat c (S (S k)) ++ b = (a ++ [c; c]) ++ repeat c k ++ b) by (rewrite <- app_assoc; auto).
    rewrite (cand_two_S n (length a)). cbn [repeat app]. rewrite nth_mid, nth_mid_plus. cbn [nth_error]. rewrite Z.eqb_refl.
    specialize (IH k ltac:(lia) (a ++ [c; c]) (S n)). rewrite <- E0 in IH. cbn [repeat app] in IH.
    rewrite (app_length a [c; c]) in IH. cbn [length] in IH.
    rewrite in_app_iff, in_cand_two_at.
    rewrite (cand_two_fuel _ _ n (S n)).
    2,3: rewrite !app_length in *; cbn [length] in *; rewrite ?app_length, ?repeat_length in *; lia.
    rewrite IH.
    2:{ rewrite !app_length in *; cbn [length] in *; rewrite ?app_length, ?repeat_length in *; cbn [repeat length] in *; rewrite ?repeat_length in *; lia. }
    replace (length a + 2 + k)%nat with (length a + S (S k))%nat by lia.
    split.
    + intros [(g & H1 & H2)|[(m & g & H1 & H2 & H3)|H]]; auto; left.
      * exists O, g. rewrite Nat.add_0_r. repeat split; auto. lia.
      * exists (S m), g. repeat split; auto; [lia|]. rewrite H3. f_equal. lia.
    + intros [(m & g & H1 & H2 & H3)|H]; auto. destruct m as [|m].
      * left. exists g. rewrite Nat.add_0_r in H3. auto.
      * right. left. exists m, g. repeat split; auto; [lia|]. rewrite H3. f_equal. lia.
Qed.

Lemma double_in_run : forall (a : list Z) c k b m g, (2 * m + 2 <= k)%nat ->
  double_upd (a ++ repeat c k ++ b) (length a + 2 * m) g = a ++ repeat c (2 * m) ++ [g; g] ++ repeat c (k - 2 * m - 2) ++ b.
Proof.
  intros a c k b m g H.
  replace (repeat c k) with (repeat c (2 * m) ++ [c; c] ++ repeat c (k - 2 * m - 2)).
  2:{ change [c; c] with (repeat c 2). rewrite <- !repeat_app. f_equal. lia. }
  rewrite <- !app_assoc. rewrite !(app_assoc a (repeat c (2 * m))).
  replace (length a + 2 * m)%nat with (length (a ++ repeat c (2 * m))) by (rewrite app_length, repeat_length; auto).
  cbn [app]. unfold double_upd. rewrite upd_mid, upd_mid_plus. reflexivity.
Qed.

Lemma in_cand_two_from : forall pairs m l a n v, (length l <= m)%nat -> boundary a l -> (length (a ++ l) <= length a + n)%nat ->
  (In v (cand_two n (length a) pairs (a ++ l)) <->
   exists a' c k q b g, run_at (a ++ l) a' c k b /\ (length a <= length a')%nat /\ (2 * q + 2 <= k)%nat /\ In (c, g) pairs /\
     v = a' ++ repeat c (2 * q) ++ [g; g] ++ repeat c (k - 2 * q - 2) ++ b).
Proof.
  intros pairs. induction m; intros l a n v Hm B Hn.
  - destruct l; [|simpl in Hm; lia]. rewrite app_nil_r in *. split.
    + intros H. exfalso. rewrite cand_two_end in H by lia. destruct H.
    + intros (a' & c & k & q & b & g & R & L & _). exfalso. pose proof (run_length _ _ _ _ _ R). destruct R as (_ & ? & _). lia.
  - destruct l as [|x l0] eqn:El.
    { apply IHm; auto. simpl. lia. }
    rewrite <- El in *. assert (N : l <> []) by congruence. clear x l0 El.
    destruct (next_run a l B N) as (c & k & b & -> & R & B').
    assert (K : (1 <= k)%nat) by (destruct R as (_ & ? & _); auto).
    rewrite in_cand_two_run; [|destruct R as (_ & _ & _ & ?); auto|auto].
    specialize (IHm b (a ++ repeat c k) n v).
    rewrite <- app_assoc, (app_length a (repeat c k)), repeat_length in IHm.
    rewrite IHm; auto.
    2:{ rewrite app_length, repeat_length in Hm. lia. }
    2:{ rewrite !app_length, repeat_length in *. lia. }
    split.
    + intros [(q & g & H1 & H2 & H3)|(a' & c' & k' & q & b' & g & R' & L & H)].
      * exists a, c, k, q, b, g. rewrite double_in_run in H3 by auto. auto 10.
      * exists a', c', k', q, b', g. split; auto. split; [lia|auto].
    + intros (a' & c' & k' & q & b' & g & R' & L & H1 & H2 & ->).
      destruct (Nat.eq_dec (length a) (length a')) as [E|E].
      * destruct (run_same _ _ _ _ _ _ _ _ _ R R' E) as (<- & <- & <- & <-). left.
        exists q, g. rewrite double_in_run by auto. auto.
      * right. exists a', c', k', q, b', g. split; auto. split; auto. eapply run_next; eauto. lia.
Qed.

Lemma in_cand_replace_two : forall pairs w v, In v (cand_replace_two pairs w) <-> double_replaced pairs w v.
Proof.
  intros pairs w v. unfold cand_replace_two, double_replaced.
  pose proof (in_cand_two_from pairs (length (map lower w)) (map lower w) [] (length w) v) as H. cbn [length app] in H.
  rewrite H; auto; [|intros a' d x l' E; destruct a'; discriminate|rewrite map_length; lia]. split.
  - intros (a & c & k & q & b & g & R & _ & H1 & H2 & E). exists a, c, k, q, b, g. auto.
  - intros (a & c & k & q & b & g & R & H1 & H2 & E). exists a, c, k, q, b, g. split; auto. split; [lia|auto].
Qed.

(** ** Swapping *)

Lemma swap_distance_spec : forall w d, swap_distance w d <-> d = max_distance w.
Proof.
  intros w d. unfold swap_distance, max_distance. destruct (Nat.leb_spec (length w) 8).
  - split; [intros [H1|H1]; lia|auto].
  - assert (D := Nat.div_mod 50 (length w) ltac:(lia)). assert (M := Nat.mod_upper_bound 50 (length w) ltac:(lia)).
    set (q := (50 / length w)%nat) in *. set (r := (50 mod length w)%nat) in *. split.
    + intros [H1|(_ & H1 & H2)]; [lia|]. clearbody q r. nia.
    + intros ->. right. split; [lia|]. clearbody q r. nia.
Qed.

Lemma counterpart_lower : forall x y, vowel_swap x y = true <-> counterpart (lower x) (lower y).
Proof.
  intros x y. unfold vowel_swap, counterpart. cbn [existsb fst snd].
  repeat rewrite orb_true_iff. repeat rewrite andb_true_iff. rewrite !Z.eqb_eq.
  destruct (case_laws x) as (LX & _). destruct (case_laws y) as (LY & _).
  split.
  - intros [[(-> & ->)|(-> & ->)]|[[(-> & ->)|(-> & ->)]|[[(-> & ->)|(-> & ->)]|H]]]; try discriminate;
      ((left; constructor) || (right; constructor)).
  - intros [H|H]; inversion H as [P Q|P Q|P Q|P Q|P Q|P Q]; rewrite <- ?P, <- ?Q in LX; try (vm_compute in LX; discriminate LX); auto 10.
Qed.

Lemma in_swap_inner : forall d i w v n j, (i < j)%nat ->
  (In v (cand_swap_inner d i n j w) <-> exists j', (j <= j' < j + n)%nat /\ (j' - i <= d)%nat /\ In v (cand_swap_at w i j')).
Proof.
  intros d i w v. induction n; intros j Hj; cbn [cand_swap_inner].
  - split; [intros []|]. intros (j' & H & _). lia.
  - destruct (Nat.ltb_spec d (j - i)).
    + split; [intros []|]. intros (j' & H1 & H2 & _). lia.
    + rewrite in_app_iff, IHn by lia. split.
      * intros [H1|(j' & H1 & H2 & H3)]; [exists j|exists j']; repeat split; auto; lia.
      * intros (j' & H1 & H2 & H3). destruct (Nat.eq_dec j j') as [<-|]; auto. right. exists j'. repeat split; auto; lia.
Qed.

Lemma exchange_mid : forall a x m y b, exchange (a ++ x :: m ++ y :: b) (length a) (length a + S (length m)) = a ++ y :: m ++ x :: b.
Proof.
  intros. unfold exchange. rewrite nth_mid, nth_mid_plus. cbn [nth_error]. rewrite nth_mid.
  rewrite upd_mid, upd_mid_plus. cbn [upd]. rewrite upd_mid. auto.
Qed.

Lemma in_cand_swap : forall w v, In v (cand_swap w) <-> exchanged w v.
Proof.
  intros w v. unfold exchanged, cand_swap.
  assert (G : In v (flat_map (fun i => cand_swap_inner (max_distance w) i (length w - (i + 1)) (i + 1) w) (seq 0 (length w))) <->
    exists a x m y b, w = a ++ x :: m ++ y :: b /\ v = a ++ y :: m ++ x :: b /\ (length m + 1 <= max_distance w)%nat /\
      lower x <> lower y /\ ~ counterpart (lower x) (lower y)).
  { rewrite in_flat_map. split.
    - intros (i & Hi & H). apply in_seq in Hi. apply in_swap_inner in H as (j & Hj & Hd & H); [|lia].
      unfold cand_swap_at in H. destruct (nth_error w i) as [x|] eqn:Ex; [|destruct H].
      destruct (nth_error w j) as [y|] eqn:Ey; [|destruct H].
      destruct (split_at _ _ _ _ Ex) as (a & l & -> & <-).
      replace j with (length a + S (j - length a - 1))%nat in Ey by lia. rewrite nth_mid_plus in Ey. cbn [nth_error] in Ey.
      destruct (split_at _ _ _ _ Ey) as (m & b & -> & Hm).
      exists a, x, m, y, b. replace j with (length a + S (length m))%nat in H by lia. rewrite exchange_mid in H.
      destruct (Z.eqb_spec (lower x) (lower y)); [destruct H|]. cbn [orb] in H.
      destruct (vowel_swap x y) eqn:V; [destruct H|]. destruct H as [<-|[]]. repeat split; auto; [lia|].
      rewrite <- counterpart_lower. congruence.
    - intros (a & x & m & y & b & E & -> & H1 & H2 & H3). exists (length a). subst w. split.
      + apply in_seq. rewrite app_length. simpl. lia.
      + apply in_swap_inner; [lia|]. exists (length a + S (length m))%nat. split; [|split; [lia|]].
        { rewrite app_length. simpl. rewrite app_length. simpl. lia. }
        unfold cand_swap_at. rewrite exchange_mid, nth_mid, nth_mid_plus. cbn [nth_error]. rewrite nth_mid.
        destruct (Z.eqb_spec (lower x) (lower y)); [contradiction|]. cbn [orb].
        destruct (vowel_swap x y) eqn:V; [exfalso; apply H3, counterpart_lower; auto|]. left. auto. }
  destruct (Nat.eqb_spec (max_distance w) 0) as [E0|E0].
  - split; [intros []|]. intros (a & x & m & y & b & d & _ & _ & D & Hd & _). apply swap_distance_spec in D. lia.
  - rewrite G. split.
    + intros (a & x & m & y & b & H1 & H2 & H3 & H4 & H5). exists a, x, m, y, b, (max_distance w). rewrite swap_distance_spec. auto 10.
    + intros (a & x & m & y & b & d & H1 & H2 & D & H3 & H4 & H5). apply swap_distance_spec in D. subst d.
      exists a, x, m, y, b. auto 10.
Qed.

(** ** Pairs *)

Lemma repeated_pair_spec : forall w i, repeated_pair w i = true <-> exists a x y b, w = a ++ [x; y; x; y] ++ b /\ length a = i.
Proof.
  intros w i. unfold repeated_pair. split.
  - destruct (nth_error w i) as [x|] eqn:E; [|discriminate]. destruct (split_at _ _ _ _ E) as (a & l & -> & <-).
    rewrite !nth_mid_plus. cbn [nth_error].
    destruct l as [|y [|z [|u l]]]; cbn [nth_error]; try discriminate.
    intros H. apply andb_true_iff in H as (H1 & H2). apply Z.eqb_eq in H1, H2. subst. exists a, z, u, l. auto.
  - intros (a & x & y & b & -> & <-). cbn [app]. rewrite nth_mid, !nth_mid_plus. cbn [nth_error]. rewrite !Z.eqb_refl. auto.
Qed.

Lemma delete_pair_mid : forall a x y b, delete_pair (a ++ [x; y; x; y] ++ b) (length a) = a ++ [x; y] ++ b.
Proof. intros. unfold delete_pair. rewrite firstn_mid, skipn_mid_plus. auto. Qed.

Lemma del2_sound : forall w v n i att, In v (cand_del2 n i w att) -> exists j, repeated_pair w j = true /\ v = delete_pair w j.
Proof.
  intros w v. induction n; intros i att H; cbn [cand_del2] in H; [destruct H|].
  destruct (repeated_pair w i) eqn:R; [|eauto]. destruct (existsb _ att); [eauto|]. destruct H as [<-|H]; eauto.
Qed.

Lemma del2_complete : forall w n i att j, (i <= j < i + n)%nat -> repeated_pair w j = true ->
  In (delete_pair w j) att \/ In (delete_pair w j) (cand_del2 n i w att).
Proof.
  intros w. induction n; intros i att j Hj R; [lia|]. cbn [cand_del2].
  destruct (Nat.eq_dec i j) as [<-|N].
  - rewrite R. destruct (existsb (zlist_eqb (delete_pair w i)) att) eqn:E; [|right; left; auto].
    left. apply existsb_exists in E as (x & H & E). apply zlist_eqb_eq in E. subst. auto.
  - destruct (repeated_pair w i); [|apply IHn; auto; lia].
    destruct (existsb (zlist_eqb (delete_pair w i)) att); [apply IHn; auto; lia|].
    destruct (IHn (S i) (delete_pair w i :: att) j ltac:(lia) R) as [[H|H]|H]; auto.
    + right. left. auto.
    + right. right. auto.
Qed.

Lemma in_cand_delete_two : forall w v, In v (cand_delete_two w) <-> pair_deleted w v.
Proof.
  intros w v. unfold cand_delete_two, pair_deleted. destruct (Nat.ltb_spec (length w) 6).
  - split; [intros []|]. intros (H1 & _). lia.
  - split.
    + intros H1. split; auto. apply del2_sound in H1 as (j & R & ->). apply repeated_pair_spec in R as (a & x & y & b & -> & <-).
      exists a, x, y, b. rewrite delete_pair_mid. auto.
    + intros (_ & a & x & y & b & E & ->). subst w. rewrite <- delete_pair_mid.
      destruct (del2_complete (a ++ [x; y; x; y] ++ b) (length (a ++ [x; y; x; y] ++ b) - 3) 0 [] (length a)) as [[]|]; auto.
      * rewrite !app_length. simpl. lia.
      * apply repeated_pair_spec. exists a, x, y, b. auto.
Qed.

(** ** Two replacements *)

Lemma in_cand_multi1 : forall pairs start u v, In v (cand_multi pairs 1 start u) <->
  exists a b f g, In (f, g) pairs /\ u = a ++ f :: b /\ (start <= length a)%nat /\ v = a ++ g :: b.
Proof.
  intros pairs start u v. cbn [cand_multi]. rewrite in_flat_map. split.
  - intros ((f & g) & Hp & H). apply in_flat_map in H as (p & Hp2 & H). apply in_seq in Hp2. cbn [fst snd] in H.
    destruct (nth_error u p) as [c|] eqn:E; [|destruct H]. destruct (Z.eqb_spec c f) as [->|]; [|destruct H].
    destruct H as [<-|[]]. destruct (split_at _ _ _ _ E) as (a & b & -> & <-). exists a, b, f, g.
    rewrite upd_mid. repeat split; auto. lia.
  - intros (a & b & f & g & Hp & -> & Hs & ->). exists (f, g). split; auto. apply in_flat_map. exists (length a). split.
    + apply in_seq. rewrite app_length. simpl. lia.
    + cbn [fst snd]. rewrite nth_mid, Z.eqb_refl, upd_mid. left. auto.
Qed.

Lemma in_cand_multi2 : forall pairs w v, In v (cand_multi pairs 2 0 w) <-> twice_replaced pairs w v.
Proof.
  intros pairs w v. change (cand_multi pairs 2 0 w) with
    (flat_map (fun x => flat_map (fun p => match nth_error w p with
       | Some c => if c =? fst x then cand_multi pairs 1 p (upd w p (snd x)) else []
       | None => [] end) (seq 0 (length w - 0))) pairs).
  unfold twice_replaced. rewrite in_flat_map. split.
  - intros ((f & g) & Hp & H). apply in_flat_map in H as (p & Hp2 & H). cbn [fst snd] in H.
    destruct (nth_error w p) as [c|] eqn:E; [|destruct H]. destruct (Z.eqb_spec c f) as [->|]; [|destruct H].
    destruct (split_at _ _ _ _ E) as (a & b & -> & <-). rewrite upd_mid in H.
    apply in_cand_multi1 in H as (a2 & b2 & f2 & g2 & H1 & H2 & H3 & H4). exists a, b, f, g, a2, b2, f2, g2. auto 10.
  - intros (a & b & f & g & a2 & b2 & f2 & g2 & H1 & H2 & -> & H3 & H4 & ->). exists (f, g). split; auto.
    apply in_flat_map. exists (length a). split; [apply in_seq; rewrite app_length; simpl; lia|].
    cbn [fst snd]. rewrite nth_mid, Z.eqb_refl, upd_mid. apply in_cand_multi1. exists a2, b2, f2, g2. auto.
Qed.

(** ** Vowels *)

Lemma vowel_spec : forall c, vowel c = true -> In c [0x61; 0x6F; 0x75; 0x41; 0x4F; 0x55; 0xE4; 0xF6; 0x79; 0xC4; 0xD6; 0x59].
Proof.
  intros c H. unfold vowel in H. apply orb_true_iff in H as [H|H]; apply mem_In in H;
    vm_compute in H; vm_compute; tauto.
Qed.

Lemma swapped_spec : forall c d, vowel c = true -> (counterpart c d <-> d = swapped c).
Proof.
  intros c d H. apply vowel_spec in H. cbn [In] in H.
  repeat (destruct H as [<-|H]; [vm_compute swapped; split; [intros [X|X]; inversion X; reflexivity|intros ->; (left; constructor) || (right; constructor)]|]).
  destruct H.
Qed.

Lemma counterpart_vowel : forall c d, counterpart c d -> vowel c = true.
Proof. intros c d [H|H]; inversion H; reflexivity. Qed.

Lemma swapped_differs : forall c, vowel c = true -> swapped c <> c.
Proof.
  intros c H. apply vowel_spec in H. cbn [In] in H. repeat (destruct H as [<-|H]; [vm_compute; discriminate|]). destruct H.
Qed.

Lemma vowels_in_spec : forall w n, vowels_in w n <-> n = vowel_count w.
Proof.
  induction w; intros n; cbn [vowel_count].
  - split; [intros H; inversion H; auto|intros ->; constructor].
  - split.
    + intros H. inversion H as [|c d w' m C V|c w' m C V]; subst.
      * rewrite (counterpart_vowel _ _ C). f_equal. apply IHw. auto.
      * destruct (vowel a) eqn:E; [|apply IHw; auto]. exfalso. apply (C (swapped a)). apply swapped_spec; auto.
    + intros ->. destruct (vowel a) eqn:E.
      * apply vi_yes with (d := swapped a); [apply swapped_spec; auto|apply IHw; auto].
      * apply vi_no; [|apply IHw; auto]. intros d C. apply counterpart_vowel in C. congruence.
Qed.

Lemma apply_changes : forall w pat, Forall2 (fun c d => d = c \/ counterpart c d) w (apply_pattern pat w).
Proof.
  induction w; intros pat; cbn [apply_pattern]; [constructor|]. destruct (vowel a) eqn:E; constructor; auto.
  destruct (Z.odd pat); auto. right. apply swapped_spec; auto.
Qed.

Lemma odd_div2 : forall x, x = 2 * Z.div2 x + Z.b2z (Z.odd x).
Proof. intros x. pose proof (Z.div2_odd x). auto. Qed.

Lemma apply_same : forall w pat, 0 <= pat < 2 ^ Z.of_nat (vowel_count w) -> apply_pattern pat w = w -> pat = 0.
Proof.
  induction w; intros pat H E; cbn [apply_pattern vowel_count] in *.
  - change (2 ^ Z.of_nat 0) with 1 in H. lia.
  - destruct (vowel a) eqn:V.
    + rewrite Nat2Z.inj_succ, Z.pow_succ_r in H by lia. injection E as E1 E2. pose proof (odd_div2 pat) as O.
      destruct (Z.odd pat); [exfalso; apply (swapped_differs a); auto|]. cbn [Z.b2z] in O.
      rewrite (IHw (Z.div2 pat)) in O; auto. lia.
    + injection E as E. apply IHw; auto.
Qed.

Lemma apply_all : forall w v, Forall2 (fun c d => d = c \/ counterpart c d) w v ->
  exists pat, 0 <= pat < 2 ^ Z.of_nat (vowel_count w) /\ apply_pattern pat w = v.
Proof.
  intros w v H. induction H as [|c d w v C F (pat & Hp & E)]; cbn [vowel_count apply_pattern].
  - exists 0. split; auto. change (2 ^ Z.of_nat 0) with 1. lia.
  - destruct (vowel c) eqn:V.
    + rewrite Nat2Z.inj_succ, Z.pow_succ_r by lia. destruct C as [->|C].
      * exists (2 * pat). split; [lia|]. rewrite Z.odd_mul. cbn [Z.odd andb]. f_equal.
        rewrite Z.div2_div, Z.mul_comm, Z.div_mul by lia. auto.
      * exists (2 * pat + 1). split; [lia|]. rewrite Z.add_comm, Z.odd_add_mul_2. cbn [Z.odd].
        apply swapped_spec in C; auto. subst. f_equal. f_equal.
        rewrite Z.div2_div. rewrite Z.add_comm. rewrite Z.mul_comm, Z.div_add_l by lia. change (1 / 2) with 0. lia.
    + destruct C as [->|C]; [|apply counterpart_vowel in C; congruence]. exists pat. split; auto. f_equal. auto.
Qed.

Lemma in_cand_vowel : forall w v, In v (cand_vowel w) <-> vowels_changed w v.
Proof.
  intros w v. unfold cand_vowel, vowels_changed.
  assert (N : (exists n, vowels_in w n /\ (1 <= n <= 7)%nat) <-> (1 <= vowel_count w <= 7)%nat).
  { split; [intros (n & H & Hn); apply vowels_in_spec in H; subst; auto|].
    intros H. exists (vowel_count w). split; auto. apply vowels_in_spec. auto. }
  rewrite N. clear N.
  destruct (Nat.eqb_spec (vowel_count w) 0); cbn [orb]; [split; [intros []|lia]|].
  destruct (Nat.ltb_spec 7 (vowel_count w)); [split; [intros []|lia]|].
  rewrite in_map_iff. split.
  - intros (k & <- & Hk). apply in_seq in Hk. split; [lia|]. split; [|apply apply_changes].
    intros E. apply apply_same in E; [lia|]. split; [lia|].
    replace (2 ^ Z.of_nat (vowel_count w)) with (Z.of_nat (2 ^ vowel_count w)) by (rewrite Nat2Z.inj_pow; auto). lia.
  - intros (_ & Hv & F). destruct (apply_all _ _ F) as (pat & Hp & E).
    replace (2 ^ Z.of_nat (vowel_count w)) with (Z.of_nat (2 ^ vowel_count w)) in Hp by (rewrite Nat2Z.inj_pow; auto).
    exists (Z.to_nat pat). rewrite Z2Nat.id by lia. split; auto. apply in_seq.
    destruct (Z.eq_dec pat 0) as [->|]; [|lia]. exfalso. apply Hv. rewrite <- E. clear.
    induction w; cbn [apply_pattern]; auto. destruct (vowel a); cbn [Z.odd Z.div2]; f_equal; auto.
Qed.

(** ** From candidates to lookups *)

Lemma add_lookups : forall s w p s', addSuggestion s w p = Ok s' -> lookups s' = lookups s.
Proof.
  intros s w p s' H. unfold addSuggestion in H. destruct (_ <? _)%nat.
  - apply bind_ok in H as (q & _ & H). injection H as <-. auto.
  - injection H as <-. auto.
Qed.

Lemma suggest_lookups : forall an s w s', suggestForBuffer an s w = Ok s' -> shouldAbort s = false ->
  lookups s' = lookups s ++ [w] \/ lookups s' = lookups s ++ [w; w].
Proof.
  intros an s w s' H E. unfold suggestForBuffer in H. rewrite E in H.
  apply bind_ok in H as ((r & p) & _ & H). destruct r.
  - injection H as <-. auto.
  - apply add_lookups in H. auto.
  - destruct w; [discriminate|]. apply add_lookups in H. auto.
  - destruct (an false w) as [|a l].
    + injection H as <-. right. cbn. rewrite <- app_assoc. auto.
    + destruct (a STRUCTURE); [|discriminate].
      apply bind_ok in H as (v & _ & H). apply add_lookups in H. right. rewrite H. cbn. rewrite <- app_assoc. auto.
Qed.

Lemma try_lookups : forall an l s s', try_all an l s = Ok s' ->
  exists l', lookups s' = lookups s ++ l' /\ incl l' l /\ (shouldAbort s' = false -> incl l l').
Proof.
  intros an. induction l as [|w l IH]; intros s s' H; cbn [try_all] in H.
  - injection H as <-. exists []. rewrite app_nil_r. split; auto. split; intros; apply incl_refl.
  - destruct (shouldAbort s) eqn:E.
    + rewrite suggest_abort in H by auto. cbn [bind] in H. rewrite try_abort in H by auto. injection H as <-.
      exists []. rewrite app_nil_r. split; auto. split; [apply incl_nil_l|congruence].
    + apply bind_ok in H as (s1 & H1 & H2). destruct (IH _ _ H2) as (l' & L & I1 & I2).
      destruct (suggest_lookups _ _ _ _ H1 E) as [L1|L1]; rewrite L1 in L; rewrite L.
      * exists (w :: l'). rewrite <- app_assoc. split; auto. split.
        { intros x [<-|X]; [left; auto|right; apply I1; auto]. }
        { intros A x [<-|X]; [left; auto|right; apply I2; auto]. }
      * exists (w :: w :: l'). rewrite <- app_assoc. split; auto. split.
        { intros x [<-|[<-|X]]; [left; auto|left; auto|right; apply I1; auto]. }
        { intros A x [<-|X]; [left; auto|right; right; apply I2; auto]. }
Qed.

Lemma tries_cand : forall an g cand (E : list Z -> list Z -> Prop) (ok : list Z -> Prop),
  (forall s, ok (sword s) -> shouldAbort s = false -> g s = try_all an (cand (sword s)) s) ->
  (forall w v, ok w -> (In v (cand w) <-> E w v)) -> tries g E ok.
Proof.
  intros an g cand E ok G C s s' O A H. rewrite G in H by auto. destruct (try_lookups _ _ _ _ H) as (l & L & I1 & I2).
  exists l. split; auto. split.
  - apply Forall_forall. intros x X. apply C; auto.
  - intros A' v Hv. apply I2; auto. apply C; auto.
Qed.
