(** Lemmas about the vocabulary of [Base]. *)
From Verif Require Import Base.

Lemma bind_ok : forall A B (m : res A) (k : A -> res B) b,
  bind m k = Ok b -> exists a, m = Ok a /\ k a = Ok b.
Proof. intros A B [a| |] k b H; simpl in H; try discriminate; eauto. Qed.

Lemma rd_ok : forall A (buf : list A) i c, rd buf i = Ok c <-> nth_error buf i = Some c.
Proof. intros; unfold rd; destruct (nth_error buf i); split; congruence. Qed.

Lemma rd_lt : forall A (buf : list A) i, (i < length buf)%nat -> exists c, rd buf i = Ok c /\ nth_error buf i = Some c.
Proof.
  intros A buf i H. apply nth_error_Some in H. unfold rd.
  destruct (nth_error buf i); [eauto | congruence].
Qed.

Lemma rd_not_fuel : forall A (buf : list A) i, rd buf i <> Fuel.
Proof. intros; unfold rd; destruct (nth_error buf i); discriminate. Qed.

Lemma upd_length : forall A (buf : list A) i c, length (upd buf i c) = length buf.
Proof. induction buf; destruct i; simpl; auto. Qed.

Lemma upd_nth_same : forall A (buf : list A) i c, (i < length buf)%nat -> nth_error (upd buf i c) i = Some c.
Proof. induction buf; destruct i; simpl; intros; auto; try lia. apply IHbuf; lia. Qed.

Lemma upd_nth_other : forall A (buf : list A) i j c, i <> j -> nth_error (upd buf i c) j = nth_error buf j.
Proof. induction buf; destruct i, j; simpl; intros; auto; try congruence. Qed.

Lemma upd_same_id : forall A (buf : list A) i c, nth_error buf i = Some c -> upd buf i c = buf.
Proof. induction buf; destruct i; simpl; intros; auto; try congruence. f_equal; auto. Qed.

Lemma upd_upd : forall A (buf : list A) i c d, upd (upd buf i c) i d = upd buf i d.
Proof. induction buf; destruct i; simpl; intros; auto. f_equal; auto. Qed.

Lemma wr_ok : forall A (buf : list A) i c b, wr buf i c = Ok b <-> (i < length buf)%nat /\ b = upd buf i c.
Proof.
  intros; unfold wr. destruct (Nat.ltb_spec i (length buf)); split; intros; try discriminate.
  - split; congruence.
  - destruct H0; congruence.
  - lia.
Qed.

Lemma mem_In : forall c l, mem c l = true <-> In c l.
Proof.
  induction l; simpl.
  - split; [discriminate | tauto].
  - rewrite orb_true_iff, Z.eqb_eq, IHl. intuition.
Qed.

Lemma mem_false : forall c l, mem c l = false <-> ~ In c l.
Proof. intros. rewrite <- mem_In. destruct (mem c l); intuition congruence. Qed.

Lemma in_range_spec : forall lo hi c, in_range lo hi c = true <-> lo <= c <= hi.
Proof. intros; unfold in_range; rewrite andb_true_iff, !Z.leb_le; tauto. Qed.

Lemma zlist_eqb_eq : forall a b, zlist_eqb a b = true <-> a = b.
Proof.
  induction a; destruct b; simpl; split; try congruence; auto.
  - rewrite andb_true_iff, Z.eqb_eq, IHa. intros [-> ->]; auto.
  - intros H; inversion H; subst. rewrite andb_true_iff, Z.eqb_eq, IHa. auto.
Qed.

Lemma zlist_eqb_refl : forall a, zlist_eqb a a = true.
Proof. intros; apply zlist_eqb_eq; auto. Qed.

Lemma in_zrange : forall n x, 0 <= x < Z.of_nat n -> In x (zrange n).
Proof.
  intros. unfold zrange. apply in_map_iff. exists (Z.to_nat x). split; [lia|].
  apply in_seq. lia.
Qed.

Lemma zrange_forallb : forall (P : Z -> bool) n,
  forallb P (zrange n) = true -> forall x, 0 <= x < Z.of_nat n -> P x = true.
Proof. intros P n H x Hx. rewrite forallb_forall in H. apply H, in_zrange, Hx. Qed.

Lemma prefix_eq_ok : forall s text, (length s <= length text)%nat -> exists b, prefix_eq s text = Ok b.
Proof.
  induction s; intros; simpl; eauto. destruct text; simpl in *; [lia|].
  destruct (a =? z); eauto. apply IHs; lia.
Qed.

Lemma prefix_eq_true : forall s text, prefix_eq s text = Ok true -> firstn (length s) text = s.
Proof.
  induction s; intros; simpl in *; auto. destruct text; [discriminate|].
  destruct (Z.eqb_spec a z); [|discriminate]. subst. f_equal; auto.
Qed.

Lemma firstn_eq_prefix_eq : forall s text, firstn (length s) text = s -> prefix_eq s text = Ok true.
Proof.
  induction s; intros; simpl in *; auto. destruct text; [discriminate|].
  injection H as -> H2. rewrite Z.eqb_refl. apply IHs. auto.
Qed.

Lemma nth_error_skipn : forall A (l : list A) n i, nth_error (skipn n l) i = nth_error l (n + i).
Proof. induction l; destruct n; intros; simpl; auto. destruct i; auto. Qed.

Lemma skipn_cons_nth : forall A (l : list A) n x, nth_error l n = Some x -> skipn n l = x :: skipn (S n) l.
Proof. induction l; destruct n; simpl; intros; try discriminate; [congruence|]. apply IHl; auto. Qed.

Lemma firstn_S_nth : forall A (l : list A) n x, nth_error l n = Some x -> firstn (S n) l = firstn n l ++ [x].
Proof.
  induction l; destruct n; simpl; intros; try discriminate; [congruence|].
  f_equal. apply IHl; auto.
Qed.

Lemma nth_error_firstn_lt : forall A (l : list A) n i, (i < n)%nat -> nth_error (firstn n l) i = nth_error l i.
Proof. induction l; destruct n, i; simpl; intros; auto; try lia. apply IHl; lia. Qed.

Lemma nth_error_ext : forall A (l1 l2 : list A), (forall i, nth_error l1 i = nth_error l2 i) -> l1 = l2.
Proof.
  induction l1; destruct l2; intros; auto.
  - specialize (H O); discriminate.
  - specialize (H O); discriminate.
  - f_equal. { specialize (H O); simpl in H; congruence. }
    apply IHl1. intros i. apply (H (S i)).
Qed.

Lemma nth_error_lt : forall A (l : list A) i x, nth_error l i = Some x -> (i < length l)%nat.
Proof. intros. apply nth_error_Some. congruence. Qed.

Lemma cstr_no_nul : forall l, ~ In 0 l -> cstr l = l.
Proof.
  induction l; simpl; auto. intros. destruct (Z.eqb_spec a 0); [subst; tauto|].
  f_equal; apply IHl; tauto.
Qed.

Lemma cstr_nul_free : forall l, ~ In 0 (cstr l).
Proof.
  induction l; simpl; [tauto|]. destruct (Z.eqb_spec a 0); simpl; [tauto|]. intros [?|?]; auto.
Qed.

Lemma cstr_length : forall l, (length (cstr l) <= length l)%nat.
Proof. induction l; simpl; auto. destruct (a =? 0); simpl; lia. Qed.

Lemma wcslen_ok : forall l, In 0 l -> wcslen l = Ok (length (cstr l)).
Proof.
  induction l; simpl; [tauto|]. intros. destruct (Z.eqb_spec a 0); simpl; auto.
  rewrite IHl; auto. destruct H; congruence.
Qed.

Lemma skipn_skipn : forall A n m (l : list A), skipn n (skipn m l) = skipn (m + n) l.
Proof. induction m; intros; simpl; auto. destruct l; simpl; auto. apply skipn_nil. Qed.
