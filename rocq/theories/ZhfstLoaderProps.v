(** * C76: dictionaries in archives of HFST are found beside those of version 5 *)
From Verif Require Import Base SetupModel SetupSpec SetupProofs SetupTable SetupProps ZhfstLoaderModel ZhfstLoaderSpec ZhfstLoaderProofs.

(** The file system of the examples: two locations with dictionaries of both
    formats. *)
Definition two_dir (p : list Z) : list (list Z) :=
  if zlist_eqb p (wstr "/u/5") then [wstr "mor-a"]
  else if zlist_eqb p (wstr "/u/3") then [wstr "."; wstr ".."; wstr "fi.zhfst"; wstr "notes.txt"; wstr "bad.zhfst"; wstr "se.zhfst"]
  else if zlist_eqb p (wstr "/s/5") then [wstr "mor-se"] else [].
Definition two_file (p : list Z) : list (list Z) :=
  if zlist_eqb p (wstr "/u/5/mor-a/index.txt") then [wstr "Voikko-Dictionary-Format: 5"; wstr "Language: fi"]
  else if zlist_eqb p (wstr "/s/5/mor-se/index.txt") then [wstr "Voikko-Dictionary-Format: 5"; wstr "Language: se"]
  else [].
Definition two_archive (p : list Z) : archive :=
  if zlist_eqb p (wstr "/u/3/fi.zhfst") then Locale (wstr "fi")
  else if zlist_eqb p (wstr "/u/3/se.zhfst") then Locale (wstr "se") else Unreadable.

Lemma plain_check : forall n, length n <> 5%nat -> Z.of_nat (length n) < 2 ^ 64 ->
  (forall k, (k + 6 < length n)%nat -> starts_with (wstr ".zhfst") (skipn k n) = false) -> plain_name n.
Proof.
  intros n A B C. split; [exact A|]. split; [exact B|]. intros a b E. destruct b as [|x b]; auto. exfalso.
  assert (T : starts_with (wstr ".zhfst") (skipn (length a) n) = true).
  { apply starts_with_spec. exists (x :: b). rewrite E, skipn_app, skipn_all, Nat.sub_diag. reflexivity. }
  rewrite C in T; [discriminate|]. rewrite E, !app_length. change (length (wstr ".zhfst")) with 6%nat. cbn [length]. lia.
Qed.
Lemma two_usual : Forall (usual two_dir two_archive) (search_path [wstr "/s"] (wstr "/u")).
Proof.
  change (Forall (usual two_dir two_archive) [wstr "/u"; wstr "/s"]).
  apply Forall_cons; [|apply Forall_cons; [|apply Forall_nil]]; intros n I; vm_compute in I;
    repeat (destruct I as [<-|I]; [split; [apply plain_check; [vm_compute; discriminate|reflexivity|];
      intros k Hk; cbn [length] in Hk; do 4 (destruct k as [|k]; [first [reflexivity|lia]|]); lia|vm_compute; discriminate]|]); destruct I.
Qed.

(** The dictionaries listed are those that are present: each name once, the first
    of that name, where version 5 comes before the archives in a location and
    earlier locations before later ones.  What is missing: names with ".zhfst"
    twice or with five characters, and archives that make the library throw
    another exception ([C76_double_refuted], [C76_five_refuted],
    [C76_exception_refuted]). *)
Theorem C76_listing_partial : forall directory file contents defaults path,
  Forall (usual directory contents) (search_path defaults path) -> exists ds l,
  present directory file contents (search_path defaults path) ds /\ find_all directory file contents defaults path = Ok (Some l) /\ listing ds l.
Proof. intros. destruct (all_available directory file contents defaults path) as (ds & m & l & A & B & _ & _ & _ & C); eauto 10. Qed.
Print Assumptions C76_listing_partial.
Example C76_listing_ex : Forall (usual two_dir two_archive) (search_path [wstr "/s"] (wstr "/u")) /\
  exists d e, find_all two_dir two_file two_archive [wstr "/s"] (wstr "/u") = Ok (Some [d; e]) /\
  dpath d = wstr "/u/5/mor-a" /\ dpath e = wstr "/u/3/se.zhfst".
Proof. split; [exact two_usual|]. eexists. eexists. split; [vm_compute; reflexivity|]. split; vm_compute; reflexivity. Qed.

(** Loading gives the first listed dictionary that satisfies the request, and
    reports failure exactly if no dictionary present does. *)
Theorem C76_load_partial : forall directory file contents env defaults lang path t,
  Forall (usual directory contents) (search_path defaults path) -> reads lang t -> exists u ds l r,
  searched env t u /\ present directory file contents (search_path defaults path) ds /\ find_all directory file contents defaults path = Ok (Some l) /\
  load_all directory file contents env defaults lang path = Ok r /\ r <> Escapes /\
  (forall d, r = Found d <-> first_with (fun d => satisfies u (dtag d)) l d) /\
  (r = NotFound <-> forall d, In d ds -> valid d -> ~ satisfies u (dtag d)).
Proof.
  intros directory file contents env defaults lang path t U R. destruct (C76_listing_partial directory file contents defaults path U) as (ds & l & D & E & LS).
  destruct (load_all_step directory file contents env defaults lang path t l R E) as (u & Su & L).
  exists u, ds, l. eexists. split; auto. split; auto. split; auto. split; [exact L|].
  pose proof (find_first (fun d => isMatchingLanguage u (dtag d)) (fun d => satisfies u (dtag d)) l (fun d => matching_spec u (dtag d))) as F.
  destruct (List.find (fun d => isMatchingLanguage u (dtag d)) l) as [d|].
  - split; [discriminate|]. split.
    + intros e. split; [congruence|]. intros H. f_equal. eapply first_fun; eauto.
    + split; [discriminate|]. intros N. exfalso. destruct F as (H & a & b & -> & _). destruct (ls_first _ _ LS d) as (e & (Ne & a' & b' & -> & _) & SB); [apply in_or_app; right; left; auto|].
      apply (N e); [apply in_or_app; right; left; auto|apply Ne|]. apply (f_equal dtag) in SB. cbn in SB. rewrite <- SB. auto.
  - split; [discriminate|]. split.
    + intros e. split; [discriminate|]. intros (H & a & b & -> & _). apply Forall_app in F as (_ & F). inversion F; subst. contradiction.
    + split; auto. intros _ d I V H. destruct (ls_all _ _ LS d I V) as (e & Ie & Te). eapply Forall_forall in F; [|exact Ie]. apply F. rewrite Te. auto.
Qed.
Print Assumptions C76_load_partial.
Example C76_load_ex : exists d e, load_all two_dir two_file two_archive None [wstr "/s"] (wstr "fi") (wstr "/u") = Ok (Found d) /\ morBackend d = wstr "finnishVfst" /\
  load_all two_dir two_file two_archive None [wstr "/s"] (wstr "se") (wstr "/u") = Ok (Found e) /\ spellBackend e = wstr "hfst" /\
  load_all two_dir two_file two_archive None [wstr "/s"] (wstr "sv") (wstr "/u") = Ok NotFound.
Proof. eexists. eexists. do 4 (split; [vm_compute; reflexivity|]). vm_compute; reflexivity. Qed.

(** Where there are no archives, nothing changes. *)
Theorem C76_without_archives : forall directory file contents defaults path,
  (forall l n, In l (search_path defaults path) -> In n (directory (l ++ wstr "/3")) -> plain_name n /\ ~ zhfst_name n) ->
  exists l, findAllAvailable directory file defaults path = Ok l /\ find_all directory file contents defaults path = Ok (Some l).
Proof.
  intros directory file contents defaults path N.
  assert (V3 : forall mainPath names m, (forall n, In n names -> plain_name n /\ ~ zhfst_name n) -> v3_entries contents mainPath names m = Ok (Some m)).
  { intros mainPath. induction names as [|n r IH]; intros m H; [reflexivity|]. cbn [v3_entries]. destruct (H n (or_introl eq_refl)) as (P & Z). destruct (zhfst_test n) eqn:T.
    - apply (test_plain n P) in T. contradiction.
    - apply IH. intros x I. apply H. right. exact I. }
  assert (L : forall ls m, (forall l n, In l ls -> In n (directory (l ++ wstr "/3")) -> plain_name n /\ ~ zhfst_name n) ->
     exists k, from_locations directory file ls m = Ok k /\ all_locations directory file contents ls m = Ok (Some k)).
  { induction ls as [|l ls IH]; intros m H; [exists m; split; reflexivity|].
    destruct (locations_fold directory file [l] m) as (a & _ & E). cbn [from_locations] in E.
    assert (E' : findDictionaries directory file l m = Ok (fold_left addDictionary a m)) by (destruct (findDictionaries directory file l m); cbn [bind] in E; congruence).
    destruct (IH (fold_left addDictionary a m)) as (k & A & B); [intros l0 n I; apply H; right; exact I|].
    exists k. cbn [from_locations all_locations]. unfold all_versions, v3_find. rewrite E'. cbn [bind]. split; [exact A|].
    rewrite V3 by (intros n I; apply (H l n); [left; reflexivity|exact I]). cbn [bind]. exact B. }
  destruct (L (search_path defaults path) [] N) as (k & A & B). exists (list_variants k k []). unfold findAllAvailable, find_all. fold (search_path defaults path). rewrite A, B. split; reflexivity.
Qed.
Print Assumptions C76_without_archives.
Example C76_without_archives_ex : exists d, find_all ex_dir ex_file two_archive [wstr "/s"] [] = Ok (Some d) /\ d <> [].
Proof. eexists. split; [vm_compute; reflexivity|]. discriminate. Qed.

(** An archive whose name has ".zhfst" twice is not found. *)
Theorem C76_double_refuted : exists contents mainPath n t, zhfst_name n /\ contents (mainPath ++ wstr "/" ++ n) = Locale t /\
  v3_entries contents mainPath [n] [] = Ok (Some []).
Proof.
  exists (fun _ => Locale (wstr "se")), (wstr "/u/3"), (wstr "se.zhfst.zhfst"), (wstr "se").
  split; [exists (wstr "se.zhfst"); reflexivity|]. split; [reflexivity|]. vm_compute. reflexivity.
Qed.
Print Assumptions C76_double_refuted.

(** A readable archive with any name of five characters is taken as a dictionary. *)
Theorem C76_five_refuted : exists contents mainPath n m, ~ zhfst_name n /\ v3_entries contents mainPath [n] [] = Ok (Some m) /\ m <> [].
Proof.
  exists (fun _ => Locale (wstr "se")), (wstr "/u/3"), (wstr "a.zip"). eexists. split.
  - intros (a & E). apply (f_equal (@length Z)) in E. rewrite app_length in E. change (length (wstr "a.zip")) with 5%nat in E. change (length (wstr ".zhfst")) with 6%nat in E. lia.
  - split; [vm_compute; reflexivity|discriminate].
Qed.
Print Assumptions C76_five_refuted.

(** One damaged archive for which the library throws another exception than the
    expected one keeps a dictionary in an earlier location from being loaded: the
    exception leaves the library. *)
Theorem C76_exception_refuted : exists directory file contents defaults path d ds,
  discovered directory file [path] ds /\ In d ds /\ valid d /\ dtag d = mkTag (wstr "fi") [] [] /\
  load_all directory file contents None defaults (wstr "fi") path = Ok Escapes.
Proof.
  exists (fun p => if zlist_eqb p (wstr "/u/5") then [wstr "mor-a"] else if zlist_eqb p (wstr "/s/3") then [wstr "x.zhfst"] else []), two_file, (fun _ => Throws), [wstr "/s"], (wstr "/u").
  eexists. eexists. split; [unfold discovered; repeat (constructor; [vm_compute; reflexivity|]); constructor|]. split; [left; reflexivity|].
  split; [vm_compute; discriminate|]. split; [reflexivity|]. vm_compute. reflexivity.
Qed.
Print Assumptions C76_exception_refuted.
