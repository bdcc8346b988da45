(** * Suggestions with an HFST dictionary: C74. *)
From Coq Require Import Sorting.Sorted Sorting.Permutation.
From Verif Require Import Base BaseFacts CharModel CharSpec CharProofs SpellerBase CacheModel HandleModel SpellModel SpellSpec SpellProofs SpellProps
  Utf8Model Utf8Spec Utf8Proofs SuggestModel SuggestSpec SuggestOut SuggestProps HfstModel HfstSpec HfstProofs HfstSuggestProofs.

(** The generator ends, reads no null pointer and finds the first fifteen
    corrections that count. *)
Theorem C74_found : forall suggest word l, proposes suggest word l -> Forall encodable word ->
  exists s l', hfst_generate suggest (new_status word 15) = Ok s /\ counted word l l' /\ found s = ranked 0 (firstn 15 l').
Proof.
  intros suggest word l P E. destruct (generate_ok suggest word 15 l P E ltac:(lia)) as (s & H1 & H2).
  exists s. eexists. split; [exact H1|]. split; [apply pick_counted|exact H2].
Qed.
Print Assumptions C74_found.

Lemma forall2_texts : forall (R : list Z * Z -> list Z -> Prop), (forall x x' y, fst x = fst x' -> R x y -> R x' y) ->
  forall a a' b, map fst a = map fst a' -> Forall2 R a b -> Forall2 R a' b.
Proof.
  intros R RE a a' b E F. revert a' E. induction F as [|x y a b X F IH]; intros [|x' a'] E; try discriminate; [constructor|].
  cbn [map] in E. injection E as E1 E2. constructor; eauto.
Qed.

(** What the user is shown: the best five corrections in the order of their
    weights, each returned as every suggestion is (C19, C23). *)
Theorem C74_shown : forall suggest h word n dot core l, Forall encodable word -> ~ In 0 word -> (2 <= length word <= 255)%nat -> voikko_normalise word = Ok n ->
  (length n <= length word + 1)%nat -> (ignore_dot h = true -> length n <> 2%nat) -> searched h n dot core -> proposes suggest core l ->
  (dot = true -> forall x, In x l -> fst x <> []) ->
  exists l', counted core l l' /\
  (l' = [] -> voikkoSuggestUcs4 (hfst_generate suggest) h word = Ok None) /\
  (l' <> [] -> exists out, voikkoSuggestUcs4 (hfst_generate suggest) h word = Ok (Some out) /\ length out = Nat.min 5 (length l') /\
     Forall2 (returned h core dot) (firstn 5 l') out).
Proof.
  intros suggest h word n dot core l E NZ L NW LN ND SE P NE.
  assert (EC : Forall encodable core).
  { pose proof (norm_encodable word n NW E) as EN. destruct dot; cbn in SE; destruct SE as [SE1 SE2]; [|subst; exact EN].
    rewrite SE2 in EN. apply Forall_app in EN. apply EN. }
  destruct (generate_ok suggest core 15 l P EC ltac:(lia)) as (s & H1 & H2).
  set (l' := pick (ct_eqb (voikko_casetype core) CT_FIRST_UPPER) [] l) in *. exists l'. split; [apply pick_counted|].
  assert (SB : subsequence l' l) by apply pick_subs. destruct P as (_ & P2 & P3).
  assert (SS : StronglySorted (fun x y => snd x < snd y) (found s)).
  { rewrite H2. apply ranked_sorted; [lia| |].
    - eapply subs_sorted; [apply firstn_subs|]. eapply subs_sorted; [exact SB|exact P3].
    - apply Forall_forall. intros x I. apply (subs_in _ _ _ _ (firstn_subs _ _ _)) in I. apply (subs_in _ _ _ _ SB) in I.
      rewrite Forall_forall in P2. apply P2 in I. lia. }
  assert (TX : map fst (found s) = map fst (firstn 15 l')) by (rewrite H2; apply ranked_texts).
  destruct (C19_best_five (hfst_generate suggest) h word n dot core s (encodable_code_point word E NZ) L NW LN ND SE H1) as [B1 B2].
  { intros D x I. apply (in_map fst) in I. rewrite TX in I. apply in_map_iff in I. destruct I as (y & <- & I). apply NE; auto.
    apply (subs_in _ _ _ _ (firstn_subs _ _ _)) in I. apply (subs_in _ _ _ _ SB) in I. exact I. }
  split.
  - intros Q. apply B1. rewrite H2, Q. reflexivity.
  - intros Q. destruct B2 as (out & rk & V & S & LO & F).
    { rewrite H2. destruct l' as [|[u w] r]; [congruence|]. discriminate. }
    exists out. split; [exact V|]. assert (LF : length (found s) = length (firstn 15 l')) by (rewrite <- (map_length fst), TX, map_length; reflexivity).
    split; [rewrite LO, LF, firstn_length; lia|].
    destruct S as (S1 & S2 & _). rewrite (strict_unique _ _ SS S1 S2) in F.
    eapply forall2_texts; [| |exact F].
    + intros x x' y X R. unfold returned in *. rewrite <- X. exact R.
    + rewrite <- !firstn_map, TX, <- firstn_map, firstn_firstn. reflexivity.
Qed.
Print Assumptions C74_shown.

(** Characters that are not typographic variants of others. *)
Definition plain_text (w : list Z) : Prop := Forall (fun c => forall x, ~ unit_of [c] [x]) w.

Lemma upper_plain : forall c, (forall x, ~ unit_of [c] [x]) -> forall x, ~ unit_of [upper c] [x].
Proof.
  intros c H x U. destruct (Z.eq_dec (upper c) c) as [E|E]; [rewrite E in U; exact (H x U)|].
  destruct (Z_lt_dec c 0) as [N|N]; [rewrite upper_id_out in E by lia; congruence|]. destruct (Z_lt_dec c 0x600) as [M|M]; [|rewrite upper_id_out in E by lia; congruence].
  assert (in_range 0 0x1FFF (upper c) = true) as R.
  { apply (zrange_forallb (fun c => in_range 0 0x1FFF (upper c)) 0x600); [vm_compute; reflexivity|]. change (Z.of_nat 0x600) with 0x600. lia. }
  apply in_range_spec in R. inversion U; subst; lia.
Qed.

Lemma respelt_unique : forall a b y, (forall x, ~ unit_of [a] [x]) -> (forall x, ~ unit_of [b] [x]) -> respelt a y -> respelt b y -> a = b.
Proof.
  intros a b y A B [-> |X] [Y|Y]; [exact Y|elim (A _ Y)|subst; elim (B _ X)|].
  inversion X; subst; inversion Y; subst; congruence.
Qed.

Lemma same_text_unique : forall a b y, plain_text a -> plain_text b -> same_text a y -> same_text b y -> a = b.
Proof.
  intros a b y A B F. revert b A B. induction F as [|x z a y X F IH]; intros b A B G; inversion G as [|x' ? b' ? X' G']; subst; [reflexivity|].
  inversion A; subst. inversion B; subst. f_equal; [eapply respelt_unique; eauto|apply IH; auto].
Qed.

Lemma upper_idem : forall c, upper (upper c) = upper c.
Proof. apply case_laws. Qed.

Lemma capital_idem : forall w, with_capital (with_capital w) = with_capital w.
Proof. intros [|c r]; cbn; [reflexivity|]. now rewrite upper_idem. Qed.

(** For a word that begins with a capital letter, and is not in capitals, no
    suggestion is shown twice. *)
Theorem C74_no_repeats : forall suggest h word n l out, Forall encodable word -> ~ In 0 word -> (2 <= length word <= 255)%nat -> voikko_normalise word = Ok n ->
  (length n <= length word + 1)%nat -> (ignore_dot h = true -> length n <> 2%nat) -> searched h n false n -> proposes suggest n l ->
  capitalised n -> Forall (fun x => plain_text (fst x)) l ->
  voikkoSuggestUcs4 (hfst_generate suggest) h word = Ok (Some out) -> NoDup out.
Proof.
  intros suggest h word n l out E NZ L NW LN ND SE P C PT V.
  destruct (C74_shown suggest h word n false n l E NZ L NW LN ND SE P ltac:(discriminate)) as (l' & CN & B1 & B2).
  destruct l' as [|x0 r0]; [rewrite B1 in V by reflexivity; discriminate|]. destruct B2 as (out' & V' & _ & F); [discriminate|].
  assert (out' = out) as -> by congruence. destruct CN as [CN _]. destruct (CN C) as ((SB & _) & _ & NDp). clear CN V V' B1.
  set (l' := x0 :: r0) in *.
  assert (N5 : NoDup (map (fun x => with_capital (fst x)) (firstn 5 l'))).
  { rewrite <- firstn_map. clear - NDp. revert NDp. generalize (map (fun x => with_capital (fst x)) l'). intros q N. rewrite <- (firstn_skipn 5 q) in N. revert N. generalize (firstn 5 q). 
    intros a. generalize (skipn 5 q). intros b. induction a as [|y a IH]; intros N; [constructor|]. cbn in N. inversion N; subst. constructor; [|auto].
    intros I. apply H1. apply in_or_app. now left. }
  assert (P5 : Forall (fun x => plain_text (fst x)) (firstn 5 l')).
  { apply Forall_forall. intros x I. apply (subs_in _ _ _ _ (firstn_subs _ _ _)) in I. apply (subs_in _ _ _ _ SB) in I. rewrite Forall_forall in PT. auto. }
  (* what each becomes *)
  assert (K : forall x y, plain_text (fst x) -> returned h n false x y -> exists z, same_text z y /\ plain_text z /\ (z = fst x \/ z = with_capital (fst x))).
  { intros x y PX (d & z & D & CF & ST). cbn in D. subst d. exists z. split; [exact ST|].
    destruct CF as (_ & C2 & C3). destruct C as (CS & c & r & -> & CC & NR).
    assert (SC : starts_capital (c :: r)) by (exists c, r; auto).
    assert (NA : ~ SuggestSpec.all_capitals (c :: r)) by (intros (_ & Q); exact (CS Q)).
    destruct (ct_eqb (voikko_casetype (fst x)) CT_ALL_LOWER) eqn:SM.
    - apply casetype_small in SM. destruct (C2 SC CS SM) as (c' & r' & E1 & ->). split; [|right; rewrite E1; reflexivity].
      rewrite E1 in PX. inversion PX; subst. constructor; [apply upper_plain; auto|auto].
    - assert (z = fst x) as ->; [|auto]. apply C3; [exact NA|]. intros (_ & _ & Q). apply casetype_small in Q. congruence. }
  clear - N5 P5 F K. revert N5 P5 F. generalize (firstn 5 l'). intros q. revert out. induction q as [|x q IH]; intros out N5 P5 F; inversion F as [|? y ? out' R F']; subst; [constructor|].
  cbn [map] in N5. inversion N5 as [|? ? N1 N2]; subst. inversion P5 as [|? ? P1 P2]; subst. constructor; [|apply IH; auto].
  intros I. destruct (K x y P1 R) as (z & Z1 & Z2 & Z3).
  assert (exists x', In x' q /\ returned h n false x' y) as (x' & I' & R').
  { clear - F' I. induction F' as [|a b q o AB F IH]; [destruct I|]. destruct I as [<-|I]; [exists a; split; [now left|exact AB]|].
    destruct (IH I) as (x' & A & B). exists x'. split; [now right|exact B]. }
  rewrite Forall_forall in P2. destruct (K x' y (P2 x' I') R') as (z' & Z1' & Z2' & Z3').
  assert (z = z') by (eapply same_text_unique; eauto). subst z'. apply N1. apply in_map_iff. exists x'. split; [|exact I'].
  destruct Z3 as [Z3|Z3], Z3' as [Z3'|Z3']; try congruence.
  - rewrite <- Z3, Z3'. now rewrite capital_idem.
  - rewrite <- Z3', Z3. now rewrite capital_idem.
Qed.
Print Assumptions C74_no_repeats.

(** ** Examples *)
Definition offers (w : list Z) (l : list (list Z * Z)) : list Z -> list correction :=
  fun b => if zlist_eqb b (utf8_text w) then map (fun x => (utf8_text (fst x), snd x)) l else [].

Definition some_offers : list (list Z * Z) := [(wstr "talo", 10000); (wstr "Talo", 10500); (wstr "Tallo", 12000); (wstr "taso", 15000)].

Lemma some_proposed : forall w, proposes (offers w some_offers) w some_offers.
Proof.
  intros w. unfold proposes, offers. rewrite (proj2 (zlist_eqb_eq _ _) eq_refl). split; [reflexivity|]. split.
  - repeat constructor; cbn; unfold encodable; lia.
  - repeat constructor; cbn; lia.
Qed.

Example C74_ex : exists h, voikkoInit = Ok h /\ capitalised (wstr "Tlao") /\ searched h (wstr "Tlao") false (wstr "Tlao") /\
  voikkoSuggestUcs4 (hfst_generate (offers (wstr "Tlao") some_offers)) h (wstr "Tlao") = Ok (Some [wstr "Talo"; wstr "Tallo"; wstr "Taso"]) /\
  voikkoSuggestUcs4 (hfst_generate (offers (wstr "tlao") some_offers)) h (wstr "tlao") = Ok (Some [wstr "talo"; wstr "Talo"; wstr "Tallo"; wstr "taso"]).
Proof.
  eexists. split; [reflexivity|]. split; [apply shape_capitalised; reflexivity|]. split; [split; [reflexivity|discriminate]|]. split; vm_compute; reflexivity.
Qed.

(** For a word in capitals it is false: the same suggestion is shown twice. *)
Theorem C74_no_repeats_refuted : exists suggest h word l out, Forall encodable word /\ ~ In 0 word /\ (2 <= length word <= 255)%nat /\
  voikko_normalise word = Ok word /\ searched h word false word /\ proposes suggest word l /\ NoDup (map fst l) /\ voikkoInit = Ok h /\
  voikkoSuggestUcs4 (hfst_generate suggest) h word = Ok (Some out) /\ ~ NoDup out.
Proof.
  destruct voikkoInit as [h| |] eqn:I; [|vm_compute in I; discriminate|vm_compute in I; discriminate].
  exists (offers (wstr "TLAO") some_offers), h, (wstr "TLAO"), some_offers, [wstr "TALO"; wstr "TALO"; wstr "TALLO"; wstr "TASO"].
  split; [repeat constructor; cbn; lia|]. split; [cbn; lia|]. split; [cbn; lia|]. split; [reflexivity|].
  vm_compute in I. injection I as <-. split; [split; [reflexivity|discriminate]|]. split; [apply some_proposed|].
  split; [repeat constructor; cbn; intuition discriminate|]. split; [reflexivity|]. split; [vm_compute; reflexivity|].
  intros N. inversion N as [|? ? N1 _]; subst. apply N1. now left.
Qed.
Print Assumptions C74_no_repeats_refuted.
