(** * Lemmas about the symbols of compiled transducers. *)
From Coq Require Import Permutation Sorted.
From Verif Require Import Base BaseFacts Utf8Model Utf8Spec Utf8Proofs FstModel FstFileModel FstFileProofs CompilerModel CompilerSpec.

(** ** Positions in lists of texts *)

Lemma index_of_some : forall l s i, index_of l s = Some i -> nth_error l i = Some s.
Proof.
  induction l as [|x l IH]; intros s i E; [discriminate|]. cbn [index_of] in E. destruct (zlist_eqb x s) eqn:Q.
  - injection E as <-. apply zlist_eqb_eq in Q. subst. reflexivity.
  - destruct (index_of l s) eqn:I; [|discriminate]. injection E as <-. cbn. apply IH. auto.
Qed.

Lemma index_of_none : forall l s, index_of l s = None <-> ~ In s l.
Proof.
  induction l as [|x l IH]; intros s; cbn [index_of In]; [tauto|]. destruct (zlist_eqb x s) eqn:Q.
  - apply zlist_eqb_eq in Q. split; [discriminate|]. intros N. elim N. auto.
  - assert (x <> s) by (intros ->; rewrite zlist_eqb_refl in Q; discriminate). destruct (index_of l s) eqn:I; cbn.
    + split; [discriminate|]. intros N. assert (~ In s l) as X by tauto. apply IH in X. congruence.
    + apply IH in I. tauto.
Qed.

Lemma index_of_in : forall l s, In s l -> exists i, index_of l s = Some i.
Proof. intros l s I. destruct (index_of l s) eqn:E; [eauto|]. apply index_of_none in E. contradiction. Qed.

Lemma index_of_nth : forall l s i, NoDup l -> nth_error l i = Some s -> index_of l s = Some i.
Proof.
  intros l s i N E. destruct (index_of_in l s (nth_error_In _ _ E)) as (j & J). rewrite J. f_equal.
  apply index_of_some in J. eapply NoDup_nth_error; eauto.
  - apply nth_error_Some. congruence.
  - congruence.
Qed.

Lemma index_of_app : forall l m s i, index_of l s = Some i -> index_of (l ++ m) s = Some i.
Proof.
  induction l as [|x l IH]; intros m s i E; [discriminate|]. cbn [index_of app] in *. destruct (zlist_eqb x s); auto.
  destruct (index_of l s) eqn:I; [|discriminate]. rewrite (IH m s _ I). auto.
Qed.

Lemma index_of_app_new : forall l m s, ~ In s l -> index_of (l ++ s :: m) s = Some (length l).
Proof.
  induction l as [|x l IH]; intros m s N; cbn [index_of app length].
  - rewrite zlist_eqb_refl. auto.
  - assert (zlist_eqb x s = false) as -> by (destruct (zlist_eqb x s) eqn:Q; auto; apply zlist_eqb_eq in Q; elim N; left; auto).
    rewrite IH by (intros X; apply N; right; auto). auto.
Qed.

Lemma index_of_inj : forall l s t i, index_of l s = Some i -> index_of l t = Some i -> s = t.
Proof. intros l s t i A B. apply index_of_some in A. apply index_of_some in B. congruence. Qed.

(** ** Sorting the symbols *)

Definition class (s : list Z) : Z :=
  match s with [] => 0 | c :: _ => if c =? 0x40 then 1 else if c =? 0x5B then 3 else 2 end.

Lemma before_class : forall a b, (symbol_before a b = true -> class a <= class b) /\ (symbol_before a b = false -> class b <= class a).
Proof.
  intros a b. unfold symbol_before. destruct (zlist_eqb a b) eqn:Q.
  - apply zlist_eqb_eq in Q. subst. split; intros; lia.
  - destruct a as [|x a], b as [|y b]; cbn [class]; try (split; intros; try discriminate; lia).
    + split; intros; [destruct (y =? 64); [lia|destruct (y =? 91); lia]|discriminate].
    + split; intros; [discriminate|destruct (x =? 64); [lia|destruct (x =? 91); lia]].
    + destruct (Z.eqb_spec x 0x40), (Z.eqb_spec y 0x40), (Z.eqb_spec x 0x5B), (Z.eqb_spec y 0x5B); cbn [andb orb negb]; split; intros; try discriminate; lia.
Qed.

Lemma insert_perm : forall s l, Permutation (s :: l) (insert_symbol s l).
Proof.
  induction l as [|u l IH]; cbn [insert_symbol]; [auto|]. destruct (symbol_before (snd u) (snd s)); [|auto].
  rewrite perm_swap. constructor. auto.
Qed.
Lemma sort_perm : forall l, Permutation l (sort_symbols l).
Proof. induction l as [|s l IH]; cbn [sort_symbols]; [auto|]. rewrite IH at 1. apply insert_perm. Qed.

Definition class_sorted (l : list (Z * list Z)) : Prop := StronglySorted (fun a b => class (snd a) <= class (snd b)) l.

Lemma insert_sorted : forall s l, class_sorted l -> class_sorted (insert_symbol s l).
Proof.
  intros s l S. induction S as [|u l S IH F]; cbn [insert_symbol]; [repeat constructor|].
  destruct (before_class (snd u) (snd s)) as [B1 B2]. destruct (symbol_before (snd u) (snd s)).
  - constructor; auto. eapply Permutation_Forall; [apply insert_perm|]. constructor; auto.
  - constructor; [constructor; auto|]. specialize (B2 eq_refl). constructor; auto. eapply Forall_impl; [|exact F]. cbn. intros. lia.
Qed.
Lemma sort_sorted : forall l, class_sorted (sort_symbols l).
Proof. induction l as [|s l IH]; cbn [sort_symbols]; [constructor|apply insert_sorted; auto]. Qed.

(** A list sorted by class consists of its parts. *)
Lemma sorted_split : forall (l : list (Z * list Z)) k, class_sorted l ->
  exists a b, l = a ++ b /\ Forall (fun x => class (snd x) < k) a /\ Forall (fun x => k <= class (snd x)) b.
Proof.
  intros l k S. induction S as [|u l S (a & b & -> & FA & FB) F].
  - exists [], []. auto.
  - destruct (Z.lt_ge_cases (class (snd u)) k) as [L|L].
    + exists (u :: a), b. auto.
    + exists [], (u :: a ++ b). split; auto. split; auto. constructor; auto. eapply Forall_impl; [|exact F]. cbn. intros. lia.
Qed.

(** ** New codes *)

Lemma with_codes_nth : forall l i c s, nth_error (with_codes l) i = Some (c, s) -> nth_error l i = Some s /\ c = Z.of_nat i mod 65536.
Proof.
  intros l i c s. unfold with_codes. intros E.
  assert (forall (l : list (list Z)) b i, nth_error (combine (map (fun i => Z.of_nat i mod 65536) (seq b (length l))) l) i =
     option_map (fun s => (Z.of_nat (b + i) mod 65536, s)) (nth_error l i)) as G.
  { clear. induction l as [|x l IH]; intros b i; cbn [length seq map combine].
    - destruct i; reflexivity.
    - destruct i as [|i]; cbn [nth_error]; [rewrite Nat.add_0_r; reflexivity|]. rewrite IH. replace (S b + i)%nat with (b + S i)%nat by lia. reflexivity. }
  rewrite G in E. destruct (nth_error l i); [|discriminate]. cbn in E. injection E as <- <-. auto.
Qed.

Lemma with_codes_snd : forall l, map snd (with_codes l) = l.
Proof.
  intros l. unfold with_codes. generalize 0%nat. induction l as [|x l IH]; intros b; cbn [length seq map combine snd]; [auto|]. f_equal. apply IH.
Qed.

Lemma with_codes_length : forall l, length (with_codes l) = length l.
Proof. intros l. rewrite <- (with_codes_snd l) at 2. rewrite map_length. auto. Qed.

(** The new code of a symbol is its position in the sorted list. *)
Lemma new_code_ok : forall l s, NoDup l -> Z.of_nat (length l) < 65536 -> In s l ->
  exists k, index_of (map snd (sort_symbols (with_codes l))) s = Some k /\
    new_code (sort_symbols (with_codes l)) 0 (code_of l s) = Z.of_nat k.
Proof.
  intros l s N L I. set (sorted := sort_symbols (with_codes l)).
  assert (Permutation (with_codes l) sorted) as P by apply sort_perm.
  assert (NoDup (map snd sorted)) as ND by (eapply Permutation_NoDup; [apply Permutation_map; exact P|rewrite with_codes_snd; auto]).
  assert (length sorted = length l) as LS by (rewrite <- (Permutation_length P); apply with_codes_length).
  destruct (index_of_in l s I) as (i & Ei). unfold code_of. rewrite Ei.
  assert (forall c t, In (c, t) sorted -> c = Z.of_nat i mod 65536 -> t = s) as U.
  { intros c t X C. apply (Permutation_in _ (Permutation_sym P)) in X. apply In_nth_error in X. destruct X as (j & X). apply with_codes_nth in X. destruct X as (X & Y).
    apply index_of_some in Ei. assert (i < length l)%nat by (apply nth_error_Some; congruence). assert (j < length l)%nat by (apply nth_error_Some; congruence).
    rewrite Z.mod_small in C, Y by lia. assert (i = j) by lia. subst j. congruence. }
  assert (In (Z.of_nat i mod 65536, s) sorted) as IS.
  { eapply Permutation_in; [exact P|]. apply index_of_some in Ei. 
    assert (nth_error (with_codes l) i <> None) as X by (apply nth_error_Some; rewrite with_codes_length; apply nth_error_Some; congruence).
    destruct (nth_error (with_codes l) i) as [[c t]|] eqn:Y; [|congruence]. pose proof Y as Y'. apply with_codes_nth in Y. destruct Y as (Y1 & ->).
    replace t with s in * by congruence. eapply nth_error_In; eauto. }
  clear Ei P I N. revert U IS ND LS. generalize (Z.of_nat i mod 65536) as c. intros c. clearbody sorted.
  assert (forall (m : list (Z * list Z)) b, 0 <= b -> b + Z.of_nat (length m) < 65536 -> (forall c' t, In (c', t) m -> c' = c -> t = s) -> In (c, s) m -> NoDup (map snd m) ->
    exists k, index_of (map snd m) s = Some k /\ new_code m b c = b + Z.of_nat k) as G.
  { clear. induction m as [|[c' t] m IH]; intros b B LB U I N; [destruct I|]. cbn [map snd index_of new_code]. inversion N as [|? ? N1 N2]; subst.
    destruct (Z.eqb_spec c' c) as [->|NE].
    - replace t with s in * by (symmetry; eapply U; [left; eauto|auto]). rewrite zlist_eqb_refl. exists 0%nat. split; auto. rewrite Z.mod_small; [lia|]. cbn [length] in LB. lia.
    - destruct I as [I|I]; [congruence|]. destruct (zlist_eqb t s) eqn:Q.
      { apply zlist_eqb_eq in Q. subst t. elim N1. apply in_map_iff. exists (c, s). auto. }
      cbn [length] in LB. destruct (IH (b + 1)) as (k & K1 & K2); auto; try lia.
      { intros c2 t2 X. apply (U c2 t2). right. auto. }
      exists (S k). rewrite K1. split; auto. rewrite K2. lia. }
  intros U IS ND LS. destruct (G sorted 0) as (k & K1 & K2); auto; try lia. exists k. auto.
Qed.
