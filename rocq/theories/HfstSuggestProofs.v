(** Lemmas about the HFST suggestions. *)
From Coq Require Import Sorting.Sorted Sorting.Permutation.
From Verif Require Import Base BaseFacts CharModel CharSpec CharProofs SpellerBase CacheModel HandleModel SpellModel SpellSpec SpellProofs SpellProps
  Utf8Model Utf8Spec Utf8Proofs SuggestModel SuggestSpec SuggestOut HfstModel HfstSpec HfstProofs.

Fixpoint pick (cap : bool) (seen : list (list Z)) (l : list (list Z * Z)) : list (list Z * Z) :=
  match l with
  | [] => []
  | x :: r => if cap && existsb (zlist_eqb (with_capital (fst x))) seen then pick cap seen r else x :: pick cap (with_capital (fst x) :: seen) r
  end.

Lemma seen_spec : forall u seen, existsb (zlist_eqb u) seen = true <-> In u seen.
Proof.
  intros u seen. rewrite existsb_exists. split.
  - intros (x & I & E). apply zlist_eqb_eq in E. now subst.
  - intros I. exists u. split; [exact I|]. now apply zlist_eqb_eq.
Qed.

Definition texts_ok (l : list (list Z * Z)) : Prop := Forall (fun x => Forall encodable (fst x) /\ ~ In 0 (fst x) /\ 0 <= snd x <= 100000000) l.

Lemma nul_free_cstr : forall w, ~ In 0 w -> cstr w = w.
Proof. induction w as [|x w IH]; intros N; cbn in *; [reflexivity|]. destruct (Z.eqb_spec x 0); [subst; tauto|]. f_equal. apply IH. tauto. Qed.

Lemma loop_ok : forall cap l seen s, texts_ok l -> (maxSuggestions s <= 15)%nat -> maxCost s = maxSuggestions s -> currentCost s = length (found s) ->
  (length (found s) <= maxSuggestions s)%nat ->
  exists s', hfst_loop cap (map (fun x => (utf8_text (fst x), snd x)) l) seen s = Ok s' /\
  found s' = found s ++ ranked (Z.of_nat (length (found s))) (firstn (maxSuggestions s - length (found s)) (pick cap seen l)).
Proof.
  intros cap l. induction l as [|[u w] l IH]; intros seen s T M MC CC L; cbn [map hfst_loop pick fst snd].
  - exists s. split; [reflexivity|]. rewrite firstn_nil. cbn. now rewrite app_nil_r.
  - inversion T as [|? ? (T1 & T2 & T3) T4]; subst. cbn [fst snd] in *.
    assert (AB : shouldAbort s = Nat.eqb (length (found s)) (maxSuggestions s)).
    { unfold shouldAbort. destruct (Nat.eqb_spec (length (found s)) (maxSuggestions s)) as [E|E]; [reflexivity|].
      destruct (Nat.ltb_spec (currentCost s) (maxCost s)); [reflexivity|lia]. }
    rewrite AB. destruct (Nat.eqb_spec (length (found s)) (maxSuggestions s)) as [E|E].
    + exists s. split; [reflexivity|]. replace (maxSuggestions s - length (found s))%nat with 0%nat by lia. cbn. now rewrite app_nil_r.
    + rewrite (ucs4FromUtf8_encoded u T1). cbn [bind]. rewrite (nul_free_cstr u T2). change (upper_first u) with (with_capital u).
      destruct (cap && existsb (zlist_eqb (with_capital u)) seen) eqn:P; [apply IH; auto|].
      unfold ck at 1. assert (in_range (- 2 ^ 31) (2 ^ 31 - 1) (w + Z.of_nat (length (found s)) + 1) = true) as R1 by (apply in_range_spec; lia).
      rewrite R1. cbn [bind]. unfold addSuggestion. destruct (Nat.ltb_spec (length (found s)) (maxSuggestions s)) as [LT|]; [|lia].
      unfold ck. assert (in_range (- 2 ^ 31) (2 ^ 31 - 1) ((w + Z.of_nat (length (found s)) + 1) * (Z.of_nat (length (found s)) + 5)) = true) as R2.
      { apply in_range_spec. assert (0 <= Z.of_nat (length (found s)) < 15) by lia. generalize dependent (Z.of_nat (length (found s))). intros i _ H. nia. }
      rewrite R2. cbn [bind].
      set (s2 := charge _). destruct (IH (with_capital u :: seen) s2) as (s' & H1 & H2); [exact T4|exact M|exact MC| | |].
      * unfold s2. cbn. rewrite app_length. cbn. lia.
      * unfold s2. cbn. rewrite app_length. cbn. lia.
      * exists s'. split; [exact H1|]. rewrite H2. unfold s2. cbn [charge found maxSuggestions]. rewrite app_length. cbn [length].
        replace (maxSuggestions s - length (found s))%nat with (S (maxSuggestions s - (length (found s) + 1))) by lia.
        cbn [firstn ranked]. rewrite <- app_assoc. cbn [app]. replace (Z.of_nat (length (found s) + 1)) with (Z.of_nat (length (found s)) + 1) by lia. reflexivity.
Qed.

Lemma pick_all : forall l seen, pick false seen l = l.
Proof. induction l as [|x l IH]; intros seen; cbn; [reflexivity|]. now rewrite IH. Qed.

Lemma pick_subs : forall cap l seen, subsequence (pick cap seen l) l.
Proof.
  intros cap. induction l as [|x l IH]; intros seen; cbn [pick]; [constructor|].
  destruct (cap && existsb (zlist_eqb (with_capital (fst x))) seen); constructor; apply IH.
Qed.

Lemma pick_in : forall l seen x, In x (pick true seen l) ->
  exists a b, l = a ++ x :: b /\ (forall y, In y a -> with_capital (fst y) <> with_capital (fst x)) /\ ~ In (with_capital (fst x)) seen.
Proof.
  induction l as [|y l IH]; intros seen x I; cbn [pick] in I; [destruct I|]. cbn [andb] in I.
  destruct (existsb (zlist_eqb (with_capital (fst y))) seen) eqn:E.
  - apply seen_spec in E. destruct (IH seen x I) as (a & b & -> & A & N). exists (y :: a), b. split; [reflexivity|]. split; [|exact N].
    intros z [<-|Z]; [intros Q; rewrite Q in E; contradiction|auto].
  - destruct I as [<-|I].
    + exists [], l. split; [reflexivity|]. split; [intros z []|]. intros Q. apply seen_spec in Q. congruence.
    + destruct (IH _ x I) as (a & b & -> & A & N). exists (y :: a), b. split; [reflexivity|]. split; [|intros Q; apply N; now right].
      intros z [<-|Z]; [intros Q; apply N; now left|auto].
Qed.

Lemma pick_first : forall a x b seen, (forall y, In y a -> with_capital (fst y) <> with_capital (fst x)) -> ~ In (with_capital (fst x)) seen ->
  In x (pick true seen (a ++ x :: b)).
Proof.
  induction a as [|y a IH]; intros x b seen A N; cbn [app pick andb].
  - destruct (existsb (zlist_eqb (with_capital (fst x))) seen) eqn:E; [apply seen_spec in E; contradiction|]. now left.
  - destruct (existsb (zlist_eqb (with_capital (fst y))) seen); [apply IH; auto; intros z Z; apply A; now right|].
    right. apply IH; [intros z Z; apply A; now right|]. intros [Q|Q]; [|contradiction]. apply (A y); [now left|exact Q].
Qed.

Lemma pick_nodup : forall l seen, NoDup (map (fun x => with_capital (fst x)) (pick true seen l)) /\
  forall x, In x (pick true seen l) -> ~ In (with_capital (fst x)) seen.
Proof.
  induction l as [|y l IH]; intros seen; cbn [pick andb]; [split; [constructor|intros x []]|].
  destruct (existsb (zlist_eqb (with_capital (fst y))) seen) eqn:E; [apply IH|].
  destruct (IH (with_capital (fst y) :: seen)) as [N1 N2]. split.
  - cbn [map]. constructor; [|exact N1]. intros I. apply in_map_iff in I. destruct I as (x & Q & I). apply (N2 x I). left. now rewrite Q.
  - intros x [<-|I]; [intros Q; apply seen_spec in Q; congruence|]. intros Q. apply (N2 x I). now right.
Qed.

Lemma pick_counted : forall word l, counted word l (pick (ct_eqb (voikko_casetype word) CT_FIRST_UPPER) [] l).
Proof.
  intros word l. split.
  - intros C. apply shape_capitalised in C. rewrite C. cbn [ct_eqb]. split; [split; [apply pick_subs|]|split].
    + intros x I. destruct (pick_in _ _ _ I) as (a & b & E & A & _). eauto.
    + intros a x b -> A. apply pick_first; auto.
    + apply pick_nodup.
  - intros N. destruct (ct_eqb (voikko_casetype word) CT_FIRST_UPPER) eqn:E; [|apply pick_all]. apply ct_eqb_spec, shape_capitalised in E. contradiction.
Qed.

Lemma generate_ok : forall suggest word max l, proposes suggest word l -> Forall encodable word -> (max <= 15)%nat ->
  exists s, hfst_generate suggest (new_status word max) = Ok s /\
  found s = ranked 0 (firstn max (pick (ct_eqb (voikko_casetype word) CT_FIRST_UPPER) [] l)).
Proof.
  intros suggest word max l (P1 & P2 & _) E M. unfold hfst_generate. cbn [sword setMaxCost new_status maxSuggestions].
  rewrite utf8FromUcs4_ok. destruct (append_all_encoded word E) as [-> _]. cbn [bind]. rewrite P1.
  destruct (loop_ok (ct_eqb (voikko_casetype word) CT_FIRST_UPPER) l [] (mkStatus word max max [] 0 [])) as (s & H1 & H2); cbn; auto; [lia|].
  exists s. split; [exact H1|]. rewrite H2. cbn [found length app maxSuggestions Z.of_nat]. rewrite Nat.sub_0_r. reflexivity.
Qed.

(** ** Order *)
Lemma subs_sorted : forall (R : list Z * Z -> list Z * Z -> Prop) a b, subsequence a b -> StronglySorted R b -> StronglySorted R a.
Proof.
  intros R a b H. induction H as [|x a b H IH|x a b H IH]; intros S; [constructor| |]; inversion S as [|? ? S1 S2]; subst.
  - constructor; [auto|]. apply Forall_forall. intros y I. rewrite Forall_forall in S2. apply S2. clear - H I. induction H; cbn in *; tauto.
  - auto.
Qed.

Lemma subs_in : forall (A : Type) (a b : list A) x, subsequence a b -> In x a -> In x b.
Proof. intros A a b x H I. induction H; cbn in *; tauto. Qed.

Lemma firstn_subs : forall (A : Type) (l : list A) k, subsequence (firstn k l) l.
Proof.
  induction l as [|x l IH]; intros [|k]; cbn; try constructor; auto. clear. induction l; constructor; auto.
Qed.

Lemma ranked_texts : forall l i, map fst (ranked i l) = map fst l.
Proof. induction l as [|[u w] l IH]; intros i; cbn; [reflexivity|]. now rewrite IH. Qed.

Lemma ranked_in : forall l i x, In x (ranked i l) -> exists y k, In y l /\ fst x = fst y /\ i <= k /\ snd x = (snd y + k + 1) * (k + 5).
Proof.
  induction l as [|[u w] l IH]; intros i x I; cbn in I; [destruct I|]. destruct I as [<-|I].
  - exists (u, w), i. cbn. repeat split; auto; lia.
  - destruct (IH _ _ I) as (y & k & A & B & C & D). exists y, k. cbn. repeat split; auto; lia.
Qed.

Lemma ranked_sorted : forall l i, 0 <= i -> StronglySorted (fun x y => snd x <= snd y) l -> Forall (fun x => 0 <= snd x) l ->
  StronglySorted (fun x y => snd x < snd y) (ranked i l).
Proof.
  induction l as [|[u w] l IH]; intros i P S F; cbn [ranked]; [constructor|]. inversion S as [|? ? S1 S2]; subst. inversion F; subst. cbn [snd] in *.
  constructor; [apply IH; auto; lia|]. apply Forall_forall. intros x I. destruct (ranked_in _ _ _ I) as (y & k & A & _ & C & ->).
  rewrite Forall_forall in S2. specialize (S2 y A). cbn [snd] in *. nia.
Qed.

Lemma strict_unique : forall l l' : list (list Z * Z), StronglySorted (fun x y => snd x < snd y) l -> Permutation l l' ->
  StronglySorted by_rank l' -> l' = l.
Proof.
  induction l as [|x l IH]; intros l' S P S'; [now apply Permutation_nil in P|]. destruct l' as [|y l']; [apply Permutation_sym, Permutation_nil in P; discriminate|].
  inversion S as [|? ? S1 S2]; subst. inversion S' as [|? ? S1' S2']; subst. rewrite Forall_forall in S2, S2'. unfold by_rank in *.
  assert (y = x) as ->.
  { assert (In y (x :: l)) as I by (eapply Permutation_in; [apply Permutation_sym, P|now left]). destruct I as [I|I]; [auto|].
    assert (In x (y :: l')) as I' by (eapply Permutation_in; [apply P|now left]). destruct I' as [I'|I']; [auto|].
    specialize (S2 y I). specialize (S2' x I'). cbn in *. lia. }
  f_equal. apply IH; auto. eapply Permutation_cons_inv, P.
Qed.
