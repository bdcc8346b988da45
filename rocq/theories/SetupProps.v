(** * Language tags and selection of dictionaries: theorems *)
From Verif Require Import Base BaseFacts SetupModel SetupSpec SetupProofs SetupTable.
From Coq Require Import Permutation Sorted.

(** ** C34: language tags *)

(** Every byte string is read as a tag; printing the tag and reading it again
    gives the same tag, so printing gives a normal form. *)
Theorem C34_normal_form : forall s, exists t, reads s t /\ reads (toBcp47 t) t.
Proof. intros s. destruct (read_shape s) as (t & R & Sh). exists t. split; auto. eapply print_shape; eauto. Qed.
Print Assumptions C34_normal_form.
Example C34_normal_form_ex : reads (wstr "FI_fi-Latn-x-My-Variant") (mkTag (wstr "fi") (wstr "Latn") (wstr "myvariant"))
  /\ toBcp47 (mkTag (wstr "fi") (wstr "Latn") (wstr "myvariant")) = wstr "fi-Latn-x-myvariant".
Proof. split; vm_compute; reflexivity. Qed.

(** Two strings are read as equal tags exactly if the tags print equal. *)
Theorem C34_print_injective : forall s s' t t', reads s t -> reads s' t' -> (t = t' <-> toBcp47 t = toBcp47 t').
Proof.
  intros s s' t t' R R'. split; [congruence|]. intros E. destruct (C34_normal_form s) as (u & Ru & Pu). destruct (C34_normal_form s') as (u' & Ru' & Pu').
  rewrite (reads_fun _ _ _ R Ru), (reads_fun _ _ _ R' Ru') in *. rewrite E in Pu. eapply reads_fun; eauto.
Qed.
Print Assumptions C34_print_injective.
Example C34_print_injective_ex : exists t t', reads (wstr "sv-x-a-b") t /\ reads (wstr "SV_fi-x-AB") t' /\ t = t'.
Proof. eexists. eexists. repeat split; vm_compute; reflexivity. Qed.

(** The parts of a tag that was read. *)
Theorem C34_parts : forall s t, reads s t -> normal_tag t.
Proof. intros s t R. destruct (read_shape s) as (u & Ru & Sh). rewrite (reads_fun _ _ _ R Ru). eapply shape_normal; eauto. Qed.
Print Assumptions C34_parts.
Example C34_parts_ex : exists t, reads (wstr "En_US-Latn-x-ab-cd") t /\ normal_tag t /\ script t = wstr "Latn".
Proof. eexists. split; [vm_compute; reflexivity|]. split; [apply (C34_parts (wstr "En_US-Latn-x-ab-cd")); vm_compute; reflexivity|vm_compute; reflexivity]. Qed.

(** Case is irrelevant in the language and in the private part, a country after
    '_' is irrelevant, and so are the hyphens in the private part. *)
Theorem C34_equivalent : forall l l' g g' b b',
  ~ In 0x2D l -> ~ In 0x5F l -> ~ In 0x2D l' -> ~ In 0x5F l' -> Forall2 same_letter l l' ->
  (g = [] \/ exists c, g = 0x5F :: c /\ ~ In 0x2D c) -> (g' = [] \/ exists c, g' = 0x5F :: c /\ ~ In 0x2D c) ->
  Forall2 same_letter (filter (fun c => negb (c =? 0x2D)) b) (filter (fun c => negb (c =? 0x2D)) b') ->
  exists t, reads (l ++ g) (mkTag t [] []) /\ reads (l' ++ g') (mkTag t [] []) /\
   exists p, reads (l ++ g ++ wstr "-x-" ++ b) (mkTag t [] p) /\ reads (l' ++ g' ++ wstr "-x-" ++ b') (mkTag t [] p).
Proof.
  intros l l' g g' b b' D1 U1 D2 U2 L G G' B. exists (lowercaseTagPart l).
  assert (One : forall l0 g0 b0, ~ In 0x2D l0 -> ~ In 0x5F l0 -> (g0 = [] \/ exists c, g0 = 0x5F :: c /\ ~ In 0x2D c) ->
    reads (l0 ++ g0) (mkTag (lowercaseTagPart l0) [] []) /\
    reads (l0 ++ g0 ++ wstr "-x-" ++ b0) (mkTag (lowercaseTagPart l0) [] (lowercaseTagPart (filter (fun c => negb (c =? 0x2D)) b0)))).
  { intros l0 g0 b0 D U H. assert (Nd : ~ In 0x2D (l0 ++ g0)).
    { intros I. apply in_app_or in I as [I|I]; auto. destruct H as [->|(c & -> & N)]; [destruct I|]. destruct I as [I|I]; [discriminate|auto]. }
    assert (Bu : before_underscore (l0 ++ g0) = l0).
    { destruct H as [->|(c & -> & N)]; [rewrite app_nil_r; apply before_id; auto|]. unfold before_underscore.
      assert (E : find_char 0x5F (l0 ++ 0x5F :: c) = Some (length l0)) by (apply find_char_some; eauto). rewrite E, firstn_app, Nat.sub_diag, firstn_all. cbn [firstn]. apply app_nil_r. }
    unfold reads. split.
    - rewrite read_plain by (rewrite <- (app_nil_r (l0 ++ g0)); apply absent_nodash; cbn; auto). rewrite set_both_plain, set_language_parts, Bu by auto. reflexivity.
    - rewrite app_assoc. change (wstr "-x-") with XP. rewrite read_private by (rewrite <- (app_nil_r (l0 ++ g0)); apply clean_nodash; cbn; auto).
      rewrite set_both_plain, set_language_parts, Bu by auto. reflexivity. }
  destruct (One l g b D1 U1 G) as (A1 & A2). destruct (One l' g' b' D2 U2 G') as (B1 & B2). rewrite <- (lower_same l l' L) in *.
  split; auto. split; auto. eexists. split; [exact A2|]. rewrite (lower_same _ _ B). auto.
Qed.
Print Assumptions C34_equivalent.
Example C34_equivalent_ex : exists t, reads (wstr "fi") t /\ reads (wstr "Fi_FI") t.
Proof. eexists. split; vm_compute; reflexivity. Qed.
Example C34_equivalent_ex2 : exists t, reads (wstr "fi-x-aBc") t /\ reads (wstr "FI_fi-x-A-bc-") t /\ privateUse t = wstr "abc".
Proof. eexists. repeat split; vm_compute; reflexivity. Qed.

(** The case of the script is not normalised: tags that BCP 47 regards as equal
    differ and do not match. *)
Theorem C34_script_case_refuted : exists t t', reads (wstr "fi-Latn") t /\ reads (wstr "fi-LATN") t' /\ t <> t' /\ ~ satisfies t t'.
Proof.
  exists (mkTag (wstr "fi") (wstr "Latn") []), (mkTag (wstr "fi") (wstr "LATN") []).
  split; [vm_compute; reflexivity|]. split; [vm_compute; reflexivity|]. split; [intros H; vm_compute in H; discriminate|]. intros (_ & H & _). vm_compute in H. discriminate.
Qed.
Print Assumptions C34_script_case_refuted.

(** Reading over an existing tag keeps parts of the old one. *)
Theorem C34_reuse_refuted : exists t s u, setBcp47 t s = Ok u /\ ~ reads s u.
Proof.
  exists (mkTag (wstr "fi") (wstr "Latn") (wstr "medicine")), (wstr "sv"), (mkTag (wstr "sv") (wstr "Latn") (wstr "medicine")).
  split; [vm_compute; reflexivity|]. intros H. vm_compute in H. discriminate.
Qed.
Print Assumptions C34_reuse_refuted.

(** The order of tags is the lexicographic one on language, script and private
    part, and a strict total order. *)
Theorem C34_order :
  (forall a b, tag_lt a b = true <-> tag_precedes a b) /\
  (forall a, tag_lt a a = false) /\
  (forall a b c, tag_lt a b = true -> tag_lt b c = true -> tag_lt a c = true) /\
  (forall a b, tag_lt a b = true \/ a = b \/ tag_lt b a = true).
Proof.
  assert (Sp : forall a b, tag_lt a b = true <-> tag_precedes a b).
  { intros a b. unfold tag_lt, tag_precedes. destruct (zlist_eqb (language a) (language b)) eqn:L; cbn [negb].
    - apply zlist_eqb_eq in L. destruct (zlist_eqb (script a) (script b)) eqn:Sc; cbn [negb].
      + apply zlist_eqb_eq in Sc. rewrite str_lt_spec. split; auto. rewrite L, Sc. intros [H|(_ & [H|(_ & H)])]; auto; destruct (precedes_irrefl _ H).
      + apply zlist_eqb_neq in Sc. rewrite str_lt_spec. split; auto. rewrite L. intros [H|(_ & [H|(X & _)])]; auto; [destruct (precedes_irrefl _ H)|contradiction].
    - apply zlist_eqb_neq in L. rewrite str_lt_spec. split; auto. intros [H|(X & _)]; auto. contradiction. }
  split; [exact Sp|]. split; [|split].
  - intros a. destruct (tag_lt a a) eqn:E; auto. apply Sp in E as [H|(_ & [H|(_ & H)])]; destruct (precedes_irrefl _ H).
  - intros a b c. rewrite !Sp. unfold tag_precedes. intros [H|(E & [H|(E' & H)])] [K|(F & [K|(F' & K)])];
      rewrite <- ?F, ?E; auto; try (left; eapply precedes_trans; eauto; fail); try (left; congruence).
    + right. split; [congruence|]. left. eapply precedes_trans; eauto.
    + right. split; [congruence|]. left. congruence.
    + right. split; [congruence|]. left. congruence.
    + right. split; [congruence|]. right. split; [congruence|]. eapply precedes_trans; eauto.
  - intros [la sa pa] [lb sb pb]. rewrite !Sp. unfold tag_precedes. cbn [language script privateUse].
    destruct (precedes_total la lb) as [H|[->|H]]; auto 10. destruct (precedes_total sa sb) as [H|[->|H]]; auto 10.
    destruct (precedes_total pa pb) as [H|[->|H]]; auto 12.
Qed.
Print Assumptions C34_order.

(** ** C35: the dictionaries that are found *)

(** The list holds exactly one dictionary for each name found in the search path,
    and that is the first one found; the default of a language is the name of the
    first one found that declares to be it. *)
Theorem C35_listing : forall directory file defaults path, exists ds l,
  discovered directory file (search_path defaults path) ds /\ findAllAvailable directory file defaults path = Ok l /\ listing ds l.
Proof. intros. destruct (available directory file defaults path) as (ds & m & l & A & B & _ & _ & _ & C). eauto. Qed.
Print Assumptions C35_listing.

(** The file system of the examples: two locations. *)
Definition ex_dir (p : list Z) : list (list Z) :=
  if zlist_eqb p (wstr "/u/5") then [wstr "readme"; wstr "mor-a"; wstr "mor-"; wstr "mor-b"]
  else if zlist_eqb p (wstr "/s/5") then [wstr "mor-std"; wstr "mor-b"; wstr "mor-old"] else [].
Definition ex_file (p : list Z) : list (list Z) :=
  if zlist_eqb p (wstr "/u/5/mor-a/index.txt") then [VERSION_KEY; wstr "Language: fi-x-medicine"; wstr "Description: a"]
  else if zlist_eqb p (wstr "/u/5/mor-b/index.txt") then [VERSION_KEY; wstr "Language: se"; wstr "Morphology-Backend: mine"]
  else if zlist_eqb p (wstr "/s/5/mor-std/index.txt") then [VERSION_KEY; wstr "Language: fi-x-standard"]
  else if zlist_eqb p (wstr "/s/5/mor-b/index.txt") then [VERSION_KEY; wstr "Language: SE"; wstr "Morphology-Backend: theirs"]
  else if zlist_eqb p (wstr "/s/5/mor-old/index.txt") then [wstr "Voikko-Dictionary-Format: 2"; wstr "Language: sv"]
  else [].
Example C35_listing_ex : exists ds l, discovered ex_dir ex_file (search_path [wstr "/s"] (wstr "/u")) ds /\ length ds = 5%nat
  /\ findAllAvailable ex_dir ex_file [wstr "/s"] (wstr "/u") = Ok l
  /\ map (fun d => toBcp47 (dtag d)) l = [wstr "fi-x-standard"; wstr "fi-x-medicine"; wstr "se"]
  /\ map morBackend l = [wstr "finnishVfst"; wstr "finnishVfst"; wstr "mine"].
Proof.
  eexists. eexists. split; [unfold discovered; repeat (constructor; [vm_compute; reflexivity|]); constructor|].
  split; [vm_compute; reflexivity|]. split; [vm_compute; reflexivity|]. split; vm_compute; reflexivity.
Qed.

(** Order of the list: first those offered first, in decreasing order of names,
    then the others in increasing order. *)
Theorem C35_order : forall directory file defaults path l,
  findAllAvailable directory file defaults path = Ok l ->
  (forall d, In d l -> Z.of_nat (length (toBcp47 (dtag d))) < 2 ^ 64) ->
  exists a b, l = rev a ++ b /\ by_name a /\ by_name b /\ Forall (offered_first l) a /\ Forall (fun d => ~ offered_first l d) b.
Proof.
  intros directory file defaults path l E B. destruct (available directory file defaults path) as (ds & m & l' & _ & E' & SU & El & G & _).
  rewrite E in E'. injection E' as <-. pose proof (list_perm m) as P. rewrite <- El in P. pose proof (su_table _ _ SU) as T.
  exists (map snd (filter (front m) m)), (map snd (filter (fun x => negb (front m x)) m)). rewrite El at 1. rewrite list_split. cbn [app].
  split; auto. split; [apply sorted_filter; auto|]. split; [apply sorted_filter; auto|].
  assert (Bk : forall x, In x m -> Z.of_nat (length (fst x)) < 2 ^ 64).
  { intros (k, d) I. destruct T as (_ & F). eapply Forall_forall in F; [|exact I]. cbn in F. destruct F as (_ & <-). apply B. rewrite P. apply in_map_iff. exists (toBcp47 (dtag d), d); auto. }
  split; apply Forall_forall; intros d I; apply in_map_iff in I as (x & <- & I); apply filter_In in I as (I & H).
  - apply (front_offered ds m l x SU P I (Bk x I)); auto.
  - intros O. apply (front_offered ds m l x SU P I (Bk x I)) in O. rewrite O in H. discriminate.
Qed.
Print Assumptions C35_order.
Example C35_order_ex : exists l d1 d2 d3, findAllAvailable ex_dir ex_file [wstr "/s"] (wstr "/u") = Ok l /\ l = [d1; d2; d3] /\ offered_first l d1 /\ ~ offered_first l d2.
Proof.
  eexists. eexists. eexists. eexists. split; [vm_compute; reflexivity|]. split; [reflexivity|]. split.
  - right. split; [left; vm_compute; reflexivity|]. intros (e & [<-|[<-|[<-|[]]]] & D & _); discriminate D.
  - intros [D|([D|D] & _)]; discriminate D.
Qed.

(** ** Loading *)

(** The tag that is searched for: the variable VOIKKO_DICTIONARY replaces the
    private part if none, or "default", is asked for. *)
Definition searched (env : option (list Z)) (t u : tag) : Prop :=
  match env with
  | Some e => if zlist_eqb (privateUse t) [] || zlist_eqb (privateUse t) (wstr "default") then setPrivateUse t e = Ok u else u = t
  | None => u = t
  end.

Lemma load_step : forall directory file env defaults lang path t, reads lang t -> exists u l,
  searched env t u /\ good_tag u /\ findAllAvailable directory file defaults path = Ok l /\
  load directory file env defaults lang path = Ok (List.find (fun d => isMatchingLanguage u (dtag d)) l).
Proof.
  intros directory file env defaults lang path t R. destruct (available directory file defaults path) as (ds & m & l & _ & E & _).
  unfold load, reads in *. rewrite R. cbn [bind]. rewrite E. cbn [bind].
  assert (G : good_tag t) by (destruct (good_read empty_tag lang good_empty) as (t' & R' & G); congruence).
  assert (C : Nat.eqb (length (privateUse t)) 0 || zlist_eqb (privateUse t) (wstr "default") || zlist_eqb (privateUse t) (wstr "fi_FI")
    = zlist_eqb (privateUse t) [] || zlist_eqb (privateUse t) (wstr "default")).
  { assert (F : zlist_eqb (privateUse t) (wstr "fi_FI") = false).
    { apply zlist_eqb_neq. intros X. destruct (C34_parts lang t R) as (_ & _ & (_ & F)). rewrite X in F. rewrite Forall_forall in F. apply (F 70); [vm_compute; tauto|unfold ascii_capital; lia]. }
    rewrite F, orb_false_r. destruct (privateUse t); auto. }
  rewrite C. unfold searched. destruct env as [e|].
  - destruct (zlist_eqb (privateUse t) [] || zlist_eqb (privateUse t) (wstr "default")).
    + destruct (good_private t e G) as (u & Eu & Gu & _). exists u, l. rewrite Eu. auto.
    + exists t, l. auto.
  - exists t, l. destruct (zlist_eqb (privateUse t) [] || zlist_eqb (privateUse t) (wstr "default")); auto.
Qed.

Lemma find_first : forall (f : dictionary -> bool) (P : dictionary -> Prop) l, (forall d, f d = true <-> P d) ->
  match List.find f l with Some d => first_with P l d | None => Forall (fun d => ~ P d) l end.
Proof.
  intros f P l H. induction l as [|d l IH]; cbn [List.find]; [constructor|]. destruct (f d) eqn:E.
  - split; [apply H; auto|]. exists [], l. auto.
  - assert (N : ~ P d) by (rewrite <- H; congruence). destruct (List.find f l) as [e|]; [|constructor; auto].
    destruct IH as (Q & a & b & -> & F). split; auto. exists (d :: a), b. auto.
Qed.

(** Loading gives the first listed dictionary that satisfies the request, and
    fails exactly if no valid dictionary in the search path does. *)
Theorem C35_load : forall directory file env defaults lang path t, reads lang t -> exists u ds l r,
  searched env t u /\ discovered directory file (search_path defaults path) ds /\ findAllAvailable directory file defaults path = Ok l /\
  load directory file env defaults lang path = Ok r /\
  (forall d, r = Some d <-> first_with (fun d => satisfies u (dtag d)) l d) /\
  (r = None <-> forall d, In d ds -> valid d -> ~ satisfies u (dtag d)).
Proof.
  intros directory file env defaults lang path t R. destruct (load_step directory file env defaults lang path t R) as (u & l & Su & G & E & L).
  destruct (C35_listing directory file defaults path) as (ds & l' & D & E' & LS). rewrite E in E'. injection E' as <-.
  exists u, ds, l. eexists. split; auto. split; auto. split; auto. split; [exact L|].
  pose proof (find_first (fun d => isMatchingLanguage u (dtag d)) (fun d => satisfies u (dtag d)) l (fun d => matching_spec u (dtag d))) as F.
  destruct (List.find (fun d => isMatchingLanguage u (dtag d)) l) as [d|].
  - split.
    + intros e. split; [congruence|]. intros H. f_equal. eapply first_fun; eauto.
    + split; [discriminate|]. intros N. exfalso. destruct F as (H & a & b & -> & _). destruct (ls_first _ _ LS d) as (e & (Ne & a' & b' & -> & _) & SB); [apply in_or_app; right; left; auto|].
      apply (N e); [apply in_or_app; right; left; auto|apply Ne|]. apply (f_equal dtag) in SB. cbn in SB. rewrite <- SB. auto.
  - split.
    + intros e. split; [discriminate|]. intros (H & a & b & -> & _). apply Forall_app in F as (_ & F). inversion F; subst. contradiction.
    + split; auto. intros _ d I V H. destruct (ls_all _ _ LS d I V) as (e & Ie & Te). eapply Forall_forall in F; [|exact Ie]. apply F. rewrite Te. auto.
Qed.
Print Assumptions C35_load.
Example C35_load_ex : exists d, load ex_dir ex_file None [wstr "/s"] (wstr "SE_no") (wstr "/u") = Ok (Some d) /\ dpath d = wstr "/u/5/mor-b"
  /\ load ex_dir ex_file None [wstr "/s"] (wstr "sv") (wstr "/u") = Ok None.
Proof. eexists. split; [vm_compute; reflexivity|]. split; vm_compute; reflexivity. Qed.
Example C35_load_ex2 : exists d e, load ex_dir ex_file None [wstr "/s"] (wstr "fi") (wstr "/u") = Ok (Some d) /\ dtag d = mkTag (wstr "fi") [] (wstr "standard")
  /\ load ex_dir ex_file (Some (wstr "medicine")) [wstr "/s"] (wstr "fi") (wstr "/u") = Ok (Some e) /\ dtag e = mkTag (wstr "fi") [] (wstr "medicine").
Proof. eexists. eexists. split; [vm_compute; reflexivity|]. split; [vm_compute; reflexivity|]. split; vm_compute; reflexivity. Qed.

Lemma first_part : forall (P : dictionary -> Prop) a b d x, first_with P (a ++ b) d -> In x a -> P x -> In d a.
Proof.
  intros P a b d x (H & a' & b' & E & F) I Px. revert a' E F. induction a as [|y a IH]; intros a' E F; [destruct I|].
  destruct a' as [|z a']; cbn [app] in E; injection E as E1 E2; [left; auto|]. subst z. inversion F; subst. right. destruct I as [->|I]; [contradiction|]. eapply IH; eauto.
Qed.

(** A variant that is asked for by name: the first dictionary found with exactly
    that tag. *)
Theorem C35_variant : forall directory file env defaults lang path t ds,
  reads lang t -> discovered directory file (search_path defaults path) ds ->
  privateUse t <> [] -> privateUse t <> wstr "default" -> privateUse t <> wstr "standard" ->
  exists r, load directory file env defaults lang path = Ok r /\
   match r with
   | Some d => exists e, first_with (fun e => valid e /\ dtag e = t) ds e /\ same_but_default d e
   | None => Forall (fun e => ~ (valid e /\ dtag e = t)) ds
   end.
Proof.
  intros directory file env defaults lang path t ds R D N1 N2 N3. destruct (C35_load directory file env defaults lang path t R) as (u & ds' & l & r & Su & D' & E & L & F & N).
  rewrite (discovered_fun _ _ _ _ _ D' D) in *. assert (Eu : u = t).
  { unfold searched in Su. destruct env; auto. apply zlist_eqb_neq in N1, N2. rewrite N1, N2 in Su. auto. }
  subst u. exists r. split; auto. assert (Sat : forall d, satisfies t (dtag d) <-> dtag d = t).
  { intros d. unfold satisfies. split.
    - intros (A & B & [X|[X|(X & _)]]); try contradiction. destruct (dtag d), t; cbn in *. congruence.
    - intros ->. auto. }
  destruct r as [d|].
  - pose proof (proj1 (F d) eq_refl) as (H & a & b & El & _). apply Sat in H. destruct (C35_listing directory file defaults path) as (ds2 & l' & D2 & E' & LS).
    rewrite E in E'. injection E' as <-. rewrite (discovered_fun _ _ _ _ _ D2 D) in *.
    destruct (ls_first _ _ LS d) as (e & (Ne & a' & b' & Ed & Fa) & SB); [rewrite El; apply in_or_app; right; left; auto|].
    exists e. split; auto. pose proof (f_equal dtag SB) as T. cbn in T. split; [split; [apply Ne|congruence]|]. exists a', b'. split; auto.
    eapply Forall_impl; [|exact Fa]. cbn. intros x Hx (Vx & Tx). apply Hx. split; auto. congruence.
  - apply Forall_forall. intros e I (V & T). apply (proj1 N eq_refl e I V). apply Sat. auto.
Qed.
Print Assumptions C35_variant.
Example C35_variant_ex : exists d, load ex_dir ex_file (Some (wstr "x")) [wstr "/s"] (wstr "fi-x-Medicine") (wstr "/u") = Ok (Some d) /\ dpath d = wstr "/u/5/mor-a".
Proof. eexists. split; vm_compute; reflexivity. Qed.

(** Without a variant: the default of the language, if one is declared. *)
Theorem C35_default : forall directory file defaults lang path t ds x,
  reads lang t -> privateUse t = [] -> discovered directory file (search_path defaults path) ds ->
  first_with (declares_default (language t)) ds x -> script (dtag x) = script t ->
  (forall e, In e ds -> Z.of_nat (length (toBcp47 (dtag e))) < 2 ^ 64) ->
  exists d, load directory file None defaults lang path = Ok (Some d) /\ dtag d = dtag x /\
    exists e, first_with (fun e => valid e /\ dtag e = dtag x) ds e /\ same_but_default d e.
Proof.
  intros directory file defaults lang path t ds x R P0 D X Sx Bd. destruct (C35_load directory file None defaults lang path t R) as (u & ds' & l & r & Su & D' & E & L & F & N).
  rewrite (discovered_fun _ _ _ _ _ D' D) in *. cbn in Su. subst u. destruct (C35_listing directory file defaults path) as (ds2 & l' & D2 & E' & LS).
  rewrite E in E'. injection E' as <-. rewrite (discovered_fun _ _ _ _ _ D2 D) in *.
  assert (Ix : In x ds) by (destruct X as (_ & a & b & -> & _); apply in_or_app; right; left; auto).
  destruct X as ((Vx & Lx & Px) & RX). destruct (ls_all _ _ LS x Ix Vx) as (d0 & I0 & T0).
  assert (Sat0 : satisfies t (dtag d0)) by (rewrite T0; unfold satisfies; rewrite Lx, Sx, P0; auto).
  destruct r as [d|].
  2:{ exfalso. apply (proj1 N eq_refl x Ix Vx). rewrite <- T0. auto. }
  exists d. split; auto. pose proof (proj1 (F d) eq_refl) as FW.
  assert (Bl : forall e, In e l -> Z.of_nat (length (toBcp47 (dtag e))) < 2 ^ 64).
  { intros e I. destruct (ls_first _ _ LS e I) as (e' & (Ne & a & b & Ed & _) & SB). apply (f_equal dtag) in SB. cbn in SB. rewrite SB. apply Bd. rewrite Ed. apply in_or_app; right; left; auto. }
  destruct (C35_order directory file defaults path l E Bl) as (a & b & El & _ & _ & Fa & Fb).
  assert (X' : first_with (declares_default (language t)) ds x) by (split; auto; repeat split; auto).
  assert (D0 : isDefault d0 = true). { apply (ls_default _ _ LS d0 I0). rewrite T0, Lx. exists x. auto. }
  assert (Ia : In d0 (rev a)).
  { rewrite El in I0. apply in_app_or in I0 as [I0|I0]; auto. exfalso. eapply Forall_forall in Fb; [|exact I0]. apply Fb. left. auto. }
  pose proof FW as FW2. rewrite El in FW2. pose proof (first_part _ _ _ _ _ FW2 Ia Sat0) as Id. apply in_rev in Id. eapply Forall_forall in Fa; [|exact Id].
  destruct FW as (Sd & _). assert (Ld : language (dtag d) = language t) by (symmetry; apply Sd).
  assert (Il : In d l) by (rewrite El; apply in_or_app; left; apply in_rev; rewrite rev_involutive; auto).
  assert (Dd : isDefault d = true).
  { destruct Fa as [Fa|(_ & Fa)]; auto. exfalso. apply Fa. exists d0. split; auto. split; auto. rewrite T0, Lx. auto. }
  apply (ls_default _ _ LS d Il) in Dd as (x' & Hx' & Tx'). rewrite Ld in Hx'. rewrite (first_fun _ _ _ _ Hx' X') in Tx'. split; auto.
  destruct (ls_first _ _ LS d Il) as (e & (Ne & a' & b' & Ed & Fa') & SB).
  exists e. split; auto. pose proof (f_equal dtag SB) as T. cbn in T. split; [split; [apply Ne|congruence]|]. exists a', b'. split; auto.
  eapply Forall_impl; [|exact Fa']. cbn. intros y Hy (Vy & Ty). apply Hy. split; auto. congruence.
Qed.
Print Assumptions C35_default.

(** Without a variant and a default: the dictionary named standard, if no
    dictionary of the language and script has a name of ten characters. *)
Theorem C35_standard_partial : forall directory file defaults lang path t ds x,
  reads lang t -> privateUse t = [] -> discovered directory file (search_path defaults path) ds ->
  (forall e, In e ds -> ~ declares_default (language t) e) ->
  (forall e, In e ds -> Z.of_nat (length (toBcp47 (dtag e))) < 2 ^ 64) ->
  (forall e, In e ds -> valid e -> satisfies t (dtag e) -> length (toBcp47 (dtag e)) <> 10%nat) ->
  In x ds -> valid x -> dtag x = mkTag (language t) (script t) (wstr "standard") ->
  exists d, load directory file None defaults lang path = Ok (Some d) /\ dtag d = dtag x.
Proof.
  intros directory file defaults lang path t ds x R P0 D ND Bd N10 Ix Vx Tx. destruct (C35_load directory file None defaults lang path t R) as (u & ds' & l & r & Su & D' & E & L & F & N).
  rewrite (discovered_fun _ _ _ _ _ D' D) in *. cbn in Su. subst u. destruct (C35_listing directory file defaults path) as (ds2 & l' & D2 & E' & LS).
  rewrite E in E'. injection E' as <-. rewrite (discovered_fun _ _ _ _ _ D2 D) in *.
  destruct (ls_all _ _ LS x Ix Vx) as (d0 & I0 & T0).
  assert (Sat0 : satisfies t (dtag d0)) by (rewrite T0, Tx; unfold satisfies; cbn; rewrite P0; auto).
  destruct r as [d|].
  2:{ exfalso. apply (proj1 N eq_refl x Ix Vx). rewrite <- T0. auto. }
  exists d. split; auto. pose proof (proj1 (F d) eq_refl) as FW.
  assert (Src : forall e, In e l -> exists e', In e' ds /\ valid e' /\ dtag e = dtag e').
  { intros e I. destruct (ls_first _ _ LS e I) as (e' & (Ne & a & b & Ed & _) & SB). apply (f_equal dtag) in SB. cbn in SB. exists e'. split; [rewrite Ed; apply in_or_app; right; left; auto|].
    split; auto. apply Ne. }
  assert (Bl : forall e, In e l -> Z.of_nat (length (toBcp47 (dtag e))) < 2 ^ 64).
  { intros e I. destruct (Src e I) as (e' & Ie & _ & ->). auto. }
  assert (NoD : forall e, In e l -> language (dtag e) = language t -> isDefault e = false).
  { intros e I Le. destruct (isDefault e) eqn:De; auto. apply (ls_default _ _ LS e I) in De as (y & (Hy & a & b & Ed & _) & _). rewrite Le in Hy. exfalso. apply (ND y); auto. rewrite Ed. apply in_or_app; right; left; auto. }
  destruct (C35_order directory file defaults path l E Bl) as (a & b & El & _ & _ & Fa & Fb).
  assert (L0 : language (dtag d0) = language t) by (rewrite T0, Tx; auto).
  assert (Ia : In d0 (rev a)).
  { rewrite El in I0. apply in_app_or in I0 as [I0|I0]; auto. exfalso. eapply Forall_forall in Fb; [|exact I0]. apply Fb. right.
    split; [left; rewrite T0, Tx; auto|]. intros (e & Ie & De & Le). rewrite (NoD e Ie) in De by congruence. discriminate. }
  pose proof FW as FW2. rewrite El in FW2. pose proof (first_part _ _ _ _ _ FW2 Ia Sat0) as Id. apply in_rev in Id. eapply Forall_forall in Fa; [|exact Id].
  assert (Il : In d l) by (rewrite El; apply in_or_app; left; apply in_rev; rewrite rev_involutive; auto).
  destruct FW as (Sd & _). destruct Fa as [Fa|([Fa|Fa] & _)].
  - rewrite (NoD d Il) in Fa by (symmetry; apply Sd). discriminate.
  - destruct Sd as (S1 & S2 & _). rewrite Tx. destruct (dtag d); cbn in *. congruence.
  - destruct (Src d Il) as (e' & Ie & Ve & Te). rewrite Te in *. destruct (N10 e' Ie Ve Sd Fa).
Qed.
Print Assumptions C35_standard_partial.

Definition def_dir (p : list Z) : list (list Z) := if zlist_eqb p (wstr "/s/5") then [wstr "mor-s"; wstr "mor-d"; wstr "mor-z"] else [].
Definition def_file (p : list Z) : list (list Z) :=
  if zlist_eqb p (wstr "/s/5/mor-s/index.txt") then [VERSION_KEY; wstr "Language: fi-x-standard"]
  else if zlist_eqb p (wstr "/s/5/mor-d/index.txt") then [VERSION_KEY; wstr "Language: fi-x-default"] else [].
Example C35_default_ex : exists ds x, reads (wstr "fi") (mkTag (wstr "fi") [] []) /\ discovered def_dir def_file (search_path [wstr "/s"] []) ds /\
  first_with (declares_default (wstr "fi")) ds x /\ script (dtag x) = [] /\ exists d, load def_dir def_file None [wstr "/s"] (wstr "fi") [] = Ok (Some d) /\ dpath d = wstr "/s/5/mor-d".
Proof.
  eexists. eexists. split; [vm_compute; reflexivity|]. split; [unfold discovered; repeat (constructor; [vm_compute; reflexivity|]); constructor|]. split.
  - split.
    2:{ eexists [_], _. split; [reflexivity|]. constructor; [|constructor]. intros (_ & _ & H). vm_compute in H. discriminate. }
    split; [intros H; vm_compute in H; discriminate|split; vm_compute; reflexivity].
  - split; [vm_compute; reflexivity|]. eexists. split; vm_compute; reflexivity.
Qed.
Example C35_standard_ex : exists ds x, discovered ex_dir ex_file (search_path [wstr "/s"] (wstr "/u")) ds /\ In x ds /\ valid x /\ dtag x = mkTag (wstr "fi") [] (wstr "standard")
  /\ (forall e, In e ds -> ~ declares_default (wstr "fi") e) /\ (forall e, In e ds -> length (toBcp47 (dtag e)) <> 10%nat).
Proof.
  eexists. eexists. split; [unfold discovered; repeat (constructor; [vm_compute; reflexivity|]); constructor|]. split; [right; right; left; reflexivity|].
  split; [intros H; vm_compute in H; discriminate|]. split; [vm_compute; reflexivity|]. split.
  - intros e I (_ & _ & H). repeat (destruct I as [<-|I]; [vm_compute in H; discriminate|]). destruct I.
  - intros e I H. repeat (destruct I as [<-|I]; [vm_compute in H; discriminate|]). destruct I.
Qed.

(** With a name of ten characters, the standard dictionary is not preferred. *)
Definition ten_dir (p : list Z) : list (list Z) := if zlist_eqb p (wstr "/s/5") then [wstr "mor-s"; wstr "mor-k"] else [].
Definition ten_file (p : list Z) : list (list Z) :=
  if zlist_eqb p (wstr "/s/5/mor-s/index.txt") then [VERSION_KEY; wstr "Language: fi-x-standard"]
  else if zlist_eqb p (wstr "/s/5/mor-k/index.txt") then [VERSION_KEY; wstr "Language: fi-x-sukij"] else [].
Theorem C35_standard_refuted : exists directory file defaults lang t ds x d,
  reads lang t /\ privateUse t = [] /\ discovered directory file (search_path defaults []) ds /\
  (forall e, In e ds -> ~ declares_default (language t) e) /\
  In x ds /\ valid x /\ dtag x = mkTag (language t) (script t) (wstr "standard") /\
  load directory file None defaults lang [] = Ok (Some d) /\ dtag d <> dtag x.
Proof.
  exists ten_dir, ten_file, [wstr "/s"], (wstr "fi"), (mkTag (wstr "fi") [] []). eexists. eexists. eexists.
  split; [vm_compute; reflexivity|]. split; [reflexivity|]. split; [unfold discovered; repeat (constructor; [vm_compute; reflexivity|]); constructor|]. split.
  - intros e I (_ & _ & H). repeat (destruct I as [<-|I]; [vm_compute in H; discriminate|]). destruct I.
  - split; [left; reflexivity|]. split; [intros H; vm_compute in H; discriminate|]. split; [vm_compute; reflexivity|]. split; [vm_compute; reflexivity|].
    intros H; vm_compute in H; discriminate.
Qed.
Print Assumptions C35_standard_refuted.

(** ** The index file *)

Lemma index_tag : forall lines d, (forall x, In x lines -> starts_with (wstr "Language: ") x = false) -> good_tag (dtag d) -> exists d', read_index d lines = Ok d' /\ dtag d' = dtag d.
Proof.
  induction lines as [|line r IH]; intros d N G; cbn [read_index]; [eauto|].
  rewrite (N line (or_introl eq_refl)). assert (N' : forall x, In x r -> starts_with (wstr "Language: ") x = false) by (intros x I; apply N; right; auto).
  destruct (starts_with (wstr "Description: ") line); [cbn [bind]; apply IH; auto|].
  destruct (starts_with (wstr "Morphology-Backend: ") line); [cbn [bind]; apply (IH (mkDict (dtag d) _ _ _ _ _ _ _)); auto|].
  destruct (starts_with (wstr "Speller-Backend: ") line); [cbn [bind]; apply (IH (mkDict (dtag d) _ _ _ _ _ _ _)); auto|].
  destruct (starts_with (wstr "Suggestion-Backend: ") line); [cbn [bind]; apply (IH (mkDict (dtag d) _ _ _ _ _ _ _)); auto|].
  destruct (starts_with (wstr "Hyphenator-Backend: ") line); [cbn [bind]; apply (IH (mkDict (dtag d) _ _ _ _ _ _ _)); auto|].
  destruct (starts_with (wstr "Grammar-Backend: ") line); [cbn [bind]; apply (IH (mkDict (dtag d) _ _ _ _ _ _ _)); auto|].
  cbn [bind]. apply IH; auto.
Qed.
Lemma read_index_app : forall a b d, read_index d (a ++ b) = (d' <- read_index d a ;; read_index d' b).
Proof.
  induction a as [|line r IH]; intros b d; cbn [app read_index bind]; auto.
  match goal with |- context [bind ?m _] => destruct m; cbn [bind]; auto end.
Qed.

(** Any index file is read without failure.  Only a file with the right first
    line gives a usable dictionary; its language is the one of the only
    "Language: " line, or Finnish if there is none. *)
Theorem C35_index : forall path lines, exists d, dictionaryFromPath path lines = Ok d /\ isDefault d = false /\
  (hd [] lines <> VERSION_KEY -> ~ valid d) /\
  (forall r, lines = VERSION_KEY :: r -> dpath d = path /\
     ((forall x, In x r -> starts_with (wstr "Language: ") x = false) -> dtag d = mkTag (wstr "fi") [] []) /\
     (forall a b v, r = a ++ (wstr "Language: " ++ v) :: b -> (forall x, In x (a ++ b) -> starts_with (wstr "Language: ") x = false) -> reads v (dtag d))).
Proof.
  intros path lines. destruct (from_path_good path lines) as (d & E & G & Df & V). exists d. split; auto. split; auto. split.
  { intros N H. destruct (V H) as (_ & r & ->). apply N. reflexivity. }
  intros r ->. unfold dictionaryFromPath in E. rewrite (proj2 (zlist_eqb_eq VERSION_KEY VERSION_KEY) eq_refl) in E. cbn [negb] in E.
  match type of E with read_index ?d0 r = _ => set (d00 := d0) in * end. assert (G0 : good_tag (dtag d00)) by exact good_fi. split.
  { destruct (index_good r d00 G0) as (d' & E' & _ & _ & P). rewrite E in E'. injection E' as <-. exact P. }
  split.
  - intros N. destruct (index_tag r d00 N G0) as (d' & E' & T). rewrite E in E'. injection E' as <-. rewrite T. vm_compute. reflexivity.
  - intros a b v -> N. rewrite read_index_app in E. assert (Na : forall x, In x a -> starts_with (wstr "Language: ") x = false) by (intros; apply N, in_or_app; auto).
    destruct (index_tag a d00 Na G0) as (d1 & E1 & T1). rewrite E1 in E. cbn [bind] in E. cbn [read_index] in E.
    assert (Sw : starts_with (wstr "Language: ") (wstr "Language: " ++ v) = true) by (apply starts_with_spec; eauto). rewrite Sw in E.
    change (skipn 10 (wstr "Language: " ++ v)) with v in E. rewrite T1 in E.
    destruct (good_read (dtag d00) v G0) as (t & R & Gt). rewrite R in E. cbn [bind] in E.
    assert (Rt : reads v t).
    { unfold reads. rewrite <- R. change (dtag d00) with (mkTag (wstr "fi") [] []). clear. destruct (read_cases v) as [A|(p & q & -> & C)].
      - rewrite !read_plain by auto. reflexivity.
      - rewrite !read_private by auto. reflexivity. }
    match type of E with read_index ?dd b = _ => destruct (index_tag b dd) as (d2 & E2 & T2) end; [intros; apply N, in_or_app; auto|exact Gt|].
    rewrite E in E2. injection E2 as <-. rewrite T2. exact Rt.
Qed.
Print Assumptions C35_index.
Example C35_index_ex : exists d, dictionaryFromPath (wstr "/p") [VERSION_KEY; wstr "Description: d"; wstr "Language: sv_SE-x-a"; wstr "Speller-Backend: b"] = Ok d
  /\ toBcp47 (dtag d) = wstr "sv-x-a" /\ spellBackend d = wstr "b" /\ morBackend d = wstr "finnishVfst".
Proof. eexists. split; [vm_compute; reflexivity|]. split; [vm_compute; reflexivity|]. split; vm_compute; reflexivity. Qed.

(** ** Listing of languages *)

Lemma set_insert_in : forall k s x, In x (set_insert k s) <-> x = k \/ In x s.
Proof.
  intros k s x. induction s as [|y s IH]; cbn [set_insert]; [cbn; intuition congruence|]. destruct (zlist_eqb y k) eqn:E.
  - apply zlist_eqb_eq in E. subst y. cbn. intuition congruence.
  - destruct (str_lt k y); cbn [In]; [intuition congruence|]. rewrite IH. intuition congruence.
Qed.
Lemma set_insert_sorted : forall k s, StronglySorted precedes s -> StronglySorted precedes (set_insert k s).
Proof.
  intros k s H. induction H as [|y s H IH F]; cbn [set_insert]; [repeat constructor|]. destruct (zlist_eqb y k) eqn:E; [constructor; auto|]. apply zlist_eqb_neq in E.
  destruct (str_lt k y) eqn:L.
  - apply str_lt_spec in L. constructor; [constructor; auto|]. constructor; auto. eapply Forall_impl; [|exact F]. cbn. intros; eapply precedes_trans; eauto.
  - constructor; auto. apply Forall_forall. intros x I. apply set_insert_in in I as [->|I]; [|eapply Forall_forall in F; eauto].
    destruct (precedes_total k y) as [P|[P|P]]; auto; [apply str_lt_spec in P|]; congruence.
Qed.

(** Each supported language is listed once, in increasing order. *)
Theorem C35_languages : forall dicts, StronglySorted precedes (supported_languages dicts) /\ NoDup (supported_languages dicts) /\
  forall k, In k (supported_languages dicts) <-> exists d, In d dicts /\
    k = (match script (dtag d) with [] => language (dtag d) | s => language (dtag d) ++ 0x2D :: s end).
Proof.
  intros dicts. unfold supported_languages.
  assert (Gen : forall ds s, StronglySorted precedes s -> StronglySorted precedes (fold_left (fun s d => set_insert (short_language (dtag d)) s) ds s) /\
    forall k, In k (fold_left (fun s d => set_insert (short_language (dtag d)) s) ds s) <-> In k s \/ exists d, In d ds /\ k = short_language (dtag d)).
  { induction ds as [|d ds IH]; intros s SS; cbn [fold_left]; [split; auto; intros k; split; auto; intros [H|(d & [] & _)]; auto|].
    destruct (IH _ (set_insert_sorted (short_language (dtag d)) s SS)) as (A & B). split; auto. intros k. rewrite B, set_insert_in. split.
    - intros [[->|H]|(e & I & ->)]; auto; right; [exists d|exists e]; split; auto; [left|right]; auto.
    - intros [H|(e & [<-|I] & ->)]; auto. right. eauto. }
  destruct (Gen dicts [] (SSorted_nil _)) as (A & B). split; auto. split; [apply sorted_nodup; auto|].
  intros k. rewrite B. split.
  - intros [[]|(d & I & ->)]. exists d. auto.
  - intros (d & I & ->). right. exists d. auto.
Qed.
Print Assumptions C35_languages.
Example C35_languages_ex : exists l, findAllAvailable ex_dir ex_file [wstr "/s"] (wstr "/u") = Ok l /\ supported_languages l = [wstr "fi"; wstr "se"].
Proof. eexists. split; vm_compute; reflexivity. Qed.

(** ** The search path *)

Lemma split_app : forall x r cur, ~ In 0x3A x -> split_path (x ++ 0x3A :: r) cur = (cur ++ x) :: split_path r [].
Proof.
  induction x as [|c x IH]; intros r cur N; cbn [app split_path].
  - rewrite app_nil_r. auto.
  - destruct (Z.eqb_spec c 0x3A) as [->|_]; [elim N; left; auto|]. rewrite IH by (intros I; apply N; right; auto). rewrite <- app_assoc. auto.
Qed.
Lemma split_last : forall x cur, ~ In 0x3A x -> cur ++ x <> [] -> split_path x cur = [cur ++ x].
Proof.
  induction x as [|c x IH]; intros cur N E; cbn [split_path].
  - rewrite app_nil_r in *. destruct cur; [congruence|auto].
  - destruct (Z.eqb_spec c 0x3A) as [->|_]; [elim N; left; auto|]. rewrite IH; [rewrite <- app_assoc; auto|intros I; apply N; right; auto|]. destruct cur; discriminate.
Qed.

(** The components of the variable VOIKKO_DICTIONARY_PATH, in order. *)
Theorem C35_path : forall l, Forall (fun x => ~ In 0x3A x) l -> last l [0] <> [] -> splitPath (join_path l) = l.
Proof.
  unfold splitPath. induction l as [|x l IH]; intros F E; auto. inversion F; subst. destruct l as [|y l].
  - cbn [join_path]. cbn [last] in E. rewrite split_last; auto.
  - change (join_path (x :: y :: l)) with (x ++ 0x3A :: join_path (y :: l)). rewrite split_app by auto. cbn [app]. f_equal. apply IH; auto.
Qed.
Print Assumptions C35_path.
Example C35_path_ex : splitPath (wstr "/a:/b/c:/d") = [wstr "/a"; wstr "/b/c"; wstr "/d"]. Proof. vm_compute. reflexivity. Qed.

(** The order of the locations: the variable, the home directory, the system
    directory, the directories given when the library was built. *)
Theorem C35_locations : forall l home k, Forall (fun x => ~ In 0x3A x) l -> last l [0] <> [] -> Forall (fun x => ~ In 0x3A x) k -> last k [0] <> [] ->
  getDefaultLocations (Some (join_path l)) (Some home) (Some (join_path k)) = l ++ [home ++ wstr "/.voikko"; wstr "/etc/voikko"] ++ k /\
  getDefaultLocations None None (Some (join_path k)) = wstr "/etc/voikko" :: k.
Proof. intros l home k F1 E1 F2 E2. unfold getDefaultLocations. rewrite !C35_path by auto. auto. Qed.
Print Assumptions C35_locations.
