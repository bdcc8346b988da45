(** * Dictionaries of both formats: proofs *)
From Verif Require Import Base SetupModel SetupSpec SetupProofs SetupTable SetupProps ZhfstLoaderModel ZhfstLoaderSpec.

Lemma find_sub_some : forall p s k, find_sub p s = Some k -> exists a b, s = a ++ p ++ b /\ length a = k.
Proof.
  intros p. induction s as [|c s IH]; intros k E.
  - cbn [find_sub] in E. destruct (starts_with p []) eqn:T; [|discriminate]. injection E as <-. apply starts_with_spec in T as (b & T). exists [], b. auto.
  - cbn [find_sub] in E. destruct (starts_with p (c :: s)) eqn:T.
    + injection E as <-. apply starts_with_spec in T as (b & T). exists [], b. auto.
    + destruct (find_sub p s) as [j|]; [|discriminate]. cbn [option_map] in E. injection E as <-. destruct (IH j eq_refl) as (a & b & -> & <-). exists (c :: a), b. auto.
Qed.
Lemma find_sub_none : forall p s a b, find_sub p s = None -> s <> a ++ p ++ b.
Proof.
  intros p. induction s as [|c s IH]; intros a b E H.
  - cbn [find_sub] in E. destruct (starts_with p []) eqn:T; [discriminate|]. destruct a; [|discriminate]. cbn [app] in H.
    assert (starts_with p [] = true) by (apply starts_with_spec; eauto). congruence.
  - cbn [find_sub] in E. destruct (starts_with p (c :: s)) eqn:T; [discriminate|]. destruct (find_sub p s) eqn:F; [discriminate|]. destruct a as [|x a].
    + cbn [app] in H. assert (starts_with p (c :: s) = true) by (apply starts_with_spec; eauto). congruence.
    + cbn [app] in H. injection H as -> H. exact (IH a b eq_refl H).
Qed.

Lemma test_exact : forall n, Z.of_nat (length n) < 2 ^ 64 ->
  zhfst_test n = true <-> (exists a, n = a ++ wstr ".zhfst" /\ find_sub (wstr ".zhfst") n = Some (length a)) \/ (length n = 5%nat /\ find_sub (wstr ".zhfst") n = None).
Proof.
  intros n B. unfold zhfst_test. rewrite Z.eqb_eq. destruct (find_sub (wstr ".zhfst") n) as [k|] eqn:F.
  - destruct (find_sub_some _ _ _ F) as (a & b & E & <-). cbn [size_of].
    assert (L : length n = (length a + 6 + length b)%nat) by (rewrite E, !app_length; change (length (wstr ".zhfst")) with 6%nat; lia).
    rewrite Z.mod_small by lia. split.
    + intros H. left. exists a. assert (length b = 0%nat) by lia. destruct b; [|discriminate]. rewrite app_nil_r in E. auto.
    + intros [(a' & E' & K)|(_ & K)]; [|discriminate]. injection K as K. rewrite E', app_length. change (length (wstr ".zhfst")) with 6%nat. lia.
  - cbn [size_of]. change ((NPOS + 6) mod 2 ^ 64) with 5. split.
    + intros H. right. split; auto. lia.
    + intros [(a' & _ & K)|(K & _)]; [discriminate|]. rewrite K. reflexivity.
Qed.

Lemma test_plain : forall n, plain_name n -> zhfst_test n = true <-> zhfst_name n.
Proof.
  intros n (N5 & B & P). rewrite (test_exact n B). unfold zhfst_name. split.
  - intros [(a & E & _)|(K & _)]; [eauto|contradiction].
  - intros (a & E). left. destruct (find_sub (wstr ".zhfst") n) as [k|] eqn:F.
    + destruct (find_sub_some _ _ _ F) as (a' & b & E' & <-). rewrite (P _ _ E') in E'. rewrite app_nil_r in E'. eauto.
    + exfalso. apply (find_sub_none (wstr ".zhfst") n a [] F). rewrite app_nil_r. exact E.
Qed.

Section Found.
Variable directory : list Z -> list (list Z).
Variable file : list Z -> list (list Z).
Variable contents : list Z -> archive.

Lemma archives_fold : forall mainPath names m,
  (forall n, In n names -> plain_name n /\ contents (mainPath ++ wstr "/" ++ n) <> Throws) ->
  exists ds, archives contents mainPath names ds /\ v3_entries contents mainPath names m = Ok (Some (fold_left addDictionary ds m)).
Proof.
  intros mainPath. induction names as [|n r IH]; intros m U; [exists []; split; [constructor|reflexivity]|].
  assert (U' : forall x, In x r -> plain_name x /\ contents (mainPath ++ wstr "/" ++ x) <> Throws) by (intros x I; apply U; right; exact I).
  destruct (U n (or_introl eq_refl)) as (Pn & Tn). pose proof (test_plain n Pn) as T. cbn [v3_entries]. destruct (zhfst_test n).
  - apply proj1 in T. specialize (T eq_refl). destruct (contents (mainPath ++ wstr "/" ++ n)) as [| |bcp] eqn:C; [|congruence|].
    + destruct (IH m U') as (ds & A & E). exists ds. split; [apply ar_broken; auto|exact E].
    + destruct (good_read empty_tag bcp good_empty) as (t & R & _). rewrite R. cbn [bind].
      destruct (IH (addDictionary m (zhfst_dictionary (mainPath ++ wstr "/" ++ n) t)) U') as (ds & A & E).
      eexists. split; [eapply ar_good; eauto|]. exact E.
  - destruct (IH m U') as (ds & A & E). exists ds. split; [apply ar_other; auto; intros H; apply T in H; discriminate|exact E].
Qed.

Lemma archives_good : forall mainPath names ds, archives contents mainPath names ds -> Forall (fun d => good_tag (dtag d) /\ isDefault d = false) ds.
Proof.
  intros mainPath names ds H. induction H as [| | |n r ds bcp t Z C R A IH]; auto.
  constructor; auto. split; [|reflexivity]. cbn [dtag zhfst_dictionary]. destruct (good_read empty_tag bcp good_empty) as (t' & R' & G). unfold reads in R. congruence.
Qed.

Lemma present_fold : forall ls m, Forall (usual directory contents) ls ->
  exists ds, present directory file contents ls ds /\ all_locations directory file contents ls m = Ok (Some (fold_left addDictionary ds m)).
Proof.
  induction ls as [|l ls IH]; intros m U; [exists []; split; [constructor|reflexivity]|]. inversion U as [|? ? Ul Ur]; subst.
  destruct (locations_fold directory file [l] m) as (a & D & E). cbn [from_locations] in E.
  assert (E' : findDictionaries directory file l m = Ok (fold_left addDictionary a m)) by (destruct (findDictionaries directory file l m); cbn [bind] in E; congruence).
  destruct (archives_fold (l ++ wstr "/3") (directory (l ++ wstr "/3")) (fold_left addDictionary a m) Ul) as (b & A & B).
  destruct (IH (fold_left addDictionary b (fold_left addDictionary a m)) Ur) as (ds & P & F).
  exists (a ++ b ++ ds). split; [constructor; auto|]. cbn [all_locations]. unfold all_versions. rewrite E'. cbn [bind]. unfold v3_find. rewrite B. cbn [bind]. rewrite F, !fold_left_app. reflexivity.
Qed.

Lemma present_good : forall ls ds, present directory file contents ls ds -> Forall (fun d => good_tag (dtag d) /\ isDefault d = false) ds.
Proof.
  intros ls ds H. induction H as [|l ls a b ds D A P IH]; [constructor|]. apply Forall_app. split; [eapply discovered_good; eauto|]. apply Forall_app. split; auto. eapply archives_good; eauto.
Qed.

Lemma all_available : forall defaults path, Forall (usual directory contents) (search_path defaults path) -> exists ds m l,
  present directory file contents (search_path defaults path) ds /\ find_all directory file contents defaults path = Ok (Some l) /\
  summary ds m /\ l = list_variants m m [] /\ Forall (fun d => good_tag (dtag d)) ds /\ listing ds l.
Proof.
  intros defaults path U. destruct (present_fold (search_path defaults path) [] U) as (ds & D & E).
  pose proof (present_good _ _ D) as F. exists ds, (fold_left addDictionary ds []), (list_variants (fold_left addDictionary ds []) (fold_left addDictionary ds []) []).
  assert (G : Forall (fun d => good_tag (dtag d)) ds) by (eapply Forall_impl; [|exact F]; intros ? (X & _); exact X).
  split; [exact D|]. split; [|split; [apply summary_fold; auto|split; [reflexivity|split; [exact G|]]]].
  - unfold find_all. fold (search_path defaults path). rewrite E. reflexivity.
  - eapply summary_listing; [apply summary_fold; auto|apply list_perm|auto].
Qed.

Lemma load_all_step : forall env defaults lang path t l, reads lang t -> find_all directory file contents defaults path = Ok (Some l) -> exists u,
  searched env t u /\
  load_all directory file contents env defaults lang path = Ok (match List.find (fun d => isMatchingLanguage u (dtag d)) l with Some d => Found d | None => NotFound end).
Proof.
  intros env defaults lang path t l R E. unfold load_all, reads in *. rewrite R. cbn [bind]. rewrite E. cbn [bind].
  assert (G : good_tag t) by (destruct (good_read empty_tag lang good_empty) as (t' & R' & G); congruence).
  assert (C : Nat.eqb (length (privateUse t)) 0 || zlist_eqb (privateUse t) (wstr "default") || zlist_eqb (privateUse t) (wstr "fi_FI")
    = zlist_eqb (privateUse t) [] || zlist_eqb (privateUse t) (wstr "default")).
  { assert (F : zlist_eqb (privateUse t) (wstr "fi_FI") = false).
    { apply zlist_eqb_neq. intros X. destruct (C34_parts lang t R) as (_ & _ & (_ & F)). rewrite X in F. rewrite Forall_forall in F. apply (F 70); [vm_compute; tauto|unfold ascii_capital; lia]. }
    rewrite F, orb_false_r. destruct (privateUse t); auto. }
  rewrite C. unfold searched. destruct env as [e|].
  - destruct (zlist_eqb (privateUse t) [] || zlist_eqb (privateUse t) (wstr "default")).
    + destruct (good_private t e G) as (u & Eu & Gu & _). exists u. rewrite Eu. auto.
    + exists t. auto.
  - exists t. destruct (zlist_eqb (privateUse t) [] || zlist_eqb (privateUse t) (wstr "default")); auto.
Qed.
End Found.
