(** * The dictionaries found and listed: proofs *)
From Verif Require Import Base BaseFacts SetupModel SetupSpec SetupProofs.
From Coq Require Import Permutation Sorted.

(** Tags that reading can produce, also when a tag is read over another. *)
Definition good_tag (t : tag) : Prop :=
  ~ In 0x2D (language t) /\ (script t = [] \/ (length (script t) = 4%nat /\ starts_with (wstr "x-") (script t) = false)) /\ ~ In 0x2D (privateUse t).

Lemma good_both : forall t body, good_tag t -> (absent body \/ clean body) -> good_tag (setLanguageAndScript t body).
Proof.
  intros t body (G1 & G2 & G3) C. destruct (dash_cases body) as [N|(l & r & -> & N)].
  - rewrite set_both_plain, set_language_parts by auto. repeat apply conj; cbn; auto. apply (language_normal _ N).
  - rewrite set_both_dash, set_language_parts by auto. unfold setScript. cbn [language script privateUse].
    pose proof (proj1 (language_normal _ N)) as NL. destruct (Nat.eqb_spec (length r) 4) as [L|L]; repeat apply conj; cbn [language script privateUse]; auto.
    right. split; auto. destruct (starts_with (wstr "x-") r) eqn:E; auto. exfalso. apply starts_with_spec in E as (b & ->).
    assert (X : starts_with XP (0x2D :: wstr "x-" ++ b) = true) by (apply starts_with_spec; exists b; reflexivity).
    destruct C as [C|C]; [apply absent_suffix in C|apply clean_suffix in C]; destruct C as (C & _).
    + congruence.
    + rewrite starts_with_app in C by (cbn; lia). congruence.
Qed.
Lemma good_read : forall t s, good_tag t -> exists t', setBcp47 t s = Ok t' /\ good_tag t'.
Proof.
  intros t s G. destruct (read_cases s) as [A|(a & b & -> & C)].
  - exists (setLanguageAndScript t s). rewrite read_plain by auto. split; auto. apply good_both; auto.
  - eexists. rewrite read_private by auto. split; [reflexivity|]. destruct (good_both t a G (or_intror C)) as (G1 & G2 & G3).
    repeat apply conj; cbn [language script privateUse]; auto. apply private_normal.
Qed.
Lemma good_private : forall t e, good_tag t -> exists t', setPrivateUse t e = Ok t' /\ good_tag t' /\ language t' = language t /\ script t' = script t.
Proof.
  intros t e (G1 & G2 & G3). eexists. rewrite set_private_ok. split; [reflexivity|]. cbn [language script]. split; auto.
  repeat apply conj; cbn [language script privateUse]; auto. apply private_normal.
Qed.

Lemma split_dash : forall a b u v, ~ In 0x2D a -> ~ In 0x2D b -> a ++ 0x2D :: u = b ++ 0x2D :: v -> a = b /\ u = v.
Proof.
  induction a as [|x a IH]; intros [|y b] u v A B E; cbn [app] in E.
  - injection E as ->. auto.
  - injection E as <- _. elim B. left; auto.
  - injection E as -> _. elim A. left; auto.
  - injection E as -> E. destruct (IH b u v) as (-> & ->); auto; intros X; [apply A|apply B]; right; auto.
Qed.
Lemma no_dash_app : forall a b u, ~ In 0x2D a -> a <> b ++ 0x2D :: u.
Proof. intros a b u N ->. apply N, in_or_app. right; left; auto. Qed.

(** The rest of a name after the language. *)
Definition tail_of (t : tag) : list Z :=
  (match script t with [] => [] | s => wstr "-" ++ s end) ++ (match privateUse t with [] => [] | p => wstr "-x-" ++ p end).
Lemma name_tail : forall t, toBcp47 t = language t ++ tail_of t. Proof. reflexivity. Qed.
Lemma tail_cases : forall t, tail_of t = [] \/ exists u, tail_of t = 0x2D :: u.
Proof. intros t. unfold tail_of. destruct (script t); [destruct (privateUse t); [left; auto|right]|right]; eexists; reflexivity. Qed.

Lemma name_language : forall a b, ~ In 0x2D (language a) -> ~ In 0x2D (language b) -> toBcp47 a = toBcp47 b -> language a = language b /\ tail_of a = tail_of b.
Proof.
  intros a b A B E. rewrite !name_tail in E. destruct (tail_cases a) as [Ea|(u & Ea)], (tail_cases b) as [Eb|(v & Eb)]; rewrite Ea, Eb in *; rewrite ?app_nil_r in E.
  - auto.
  - exfalso. eapply no_dash_app; [exact A|exact E].
  - exfalso. symmetry in E. eapply no_dash_app; [exact B|exact E].
  - apply split_dash in E as (E1 & E2); auto. split; congruence.
Qed.

Lemma name_inj : forall a b, good_tag a -> good_tag b -> toBcp47 a = toBcp47 b -> a = b.
Proof.
  intros [la sa pa] [lb sb pb] (A1 & A2 & A3) (B1 & B2 & B3) E. apply name_language in E as (El & E); auto. cbn [language script privateUse] in *. subst lb.
  unfold tail_of in E. cbn [language script privateUse] in E.
  assert (Priv : forall p q, ~ In 0x2D p -> ~ In 0x2D q ->
     match p with [] => [] | z :: l => wstr "-x-" ++ z :: l end = match q with [] => [] | z :: l => wstr "-x-" ++ z :: l end -> p = q).
  { intros [|x p] [|y q] _ _ X; try discriminate X; auto. apply app_inv_head in X. auto. }
  assert (NoX : forall s q, length s = 4%nat -> starts_with (wstr "x-") s = false ->
     forall r, (wstr "-" ++ s) ++ r <> [] /\ (wstr "-" ++ s) ++ r <> wstr "-x-" ++ q).
  { intros s q L N r. split; [discriminate|]. intros X. change ((wstr "-" ++ s) ++ r) with (0x2D :: s ++ r) in X.
    change (wstr "-x-" ++ q) with (0x2D :: wstr "x-" ++ q) in X. injection X as X. rewrite <- (starts_with_app (wstr "x-") s r) in N by (cbn [length wstr map]; cbn; lia).
    assert (Y : starts_with (wstr "x-") (s ++ r) = true) by (apply starts_with_spec; exists q; exact X). congruence. }
  assert (R : sa = sb /\ pa = pb); [|destruct R; congruence].
  destruct A2 as [->|(La & Xa)], B2 as [->|(Lb & Xb)].
  - split; auto.
  - exfalso. destruct sb as [|y sb]; [discriminate|]. destruct pa as [|x pa].
    + discriminate E.
    + cbn [app] in E. symmetry in E. exact (proj2 (NoX (y :: sb) (x :: pa) Lb Xb _) E).
  - exfalso. destruct sa as [|x sa]; [discriminate|]. destruct pb as [|y pb].
    + discriminate E.
    + exact (proj2 (NoX (x :: sa) (y :: pb) La Xa _) E).
  - destruct sa as [|x sa]; [discriminate|]. destruct sb as [|y sb]; [discriminate|].
    assert (Q : x :: sa = y :: sb /\ match pa with [] => [] | z :: l => wstr "-x-" ++ z :: l end = match pb with [] => [] | z :: l => wstr "-x-" ++ z :: l end).
    { rewrite <- !app_assoc in E. apply app_inv_head in E. clear - La Lb E.
      destruct sa as [|a1 [|a2 [|a3 [|]]]]; try discriminate La. destruct sb as [|b1 [|b2 [|b3 [|]]]]; try discriminate Lb. cbn [app] in E. injection E as -> -> -> -> E. auto. }
    destruct Q as (Q1 & Q2). split; auto.
Qed.

(** The test for standard names. *)
Lemma rfind_last : forall p s k, rfind_sub p s = Some k -> starts_with p (skipn k s) = true /\ (k <= length s)%nat /\ forall j, (k < j <= length s)%nat -> starts_with p (skipn j s) = false.
Proof.
  intros p. induction s as [|c s IH]; intros k H; cbn [rfind_sub] in H.
  - destruct (starts_with p []) eqn:E; [|discriminate]. injection H as <-. split; auto. split; auto. cbn [length]. lia.
  - destruct (rfind_sub p s) as [j|] eqn:R.
    + injection H as <-. destruct (IH j eq_refl) as (A & B & C). split; auto. cbn [length]. split; [lia|]. intros [|i] Hi; [lia|]. cbn [skipn]. apply C. lia.
    + destruct (starts_with p (c :: s)) eqn:E; [|discriminate]. injection H as <-. split; auto. split; [lia|]. intros [|i] Hi; [lia|]. cbn [length] in Hi.
      cbn [skipn]. clear - R Hi. revert i Hi. induction s as [|d s IH]; intros i Hi; cbn [rfind_sub] in R.
      * cbn [length] in Hi. replace i with 0%nat by lia. cbn [skipn]. destruct (starts_with p []); congruence.
      * destruct (rfind_sub p s) eqn:Q; [discriminate|]. destruct (starts_with p (d :: s)) eqn:E; [discriminate|]. destruct i as [|i]; auto. cbn [skipn]. apply IH; auto. cbn [length] in Hi. lia.
Qed.
Lemma rfind_none : forall p s, rfind_sub p s = None -> forall j, (j <= length s)%nat -> starts_with p (skipn j s) = false.
Proof.
  intros p. induction s as [|d s IH]; intros R i Hi; cbn [rfind_sub] in R.
  - cbn [length] in Hi. replace i with 0%nat by lia. cbn [skipn]. destruct (starts_with p []); congruence.
  - destruct (rfind_sub p s) eqn:Q; [discriminate|]. destruct (starts_with p (d :: s)) eqn:E; [discriminate|]. destruct i as [|i]; auto. cbn [skipn]. apply IH; auto. cbn [length] in Hi. lia.
Qed.

Definition STD : list Z := wstr "-x-standard".
Lemma standard_key_spec : forall k, Z.of_nat (length k) < 2 ^ 64 -> standard_key k = true <-> (length k = 10%nat \/ exists u, k = u ++ STD).
Proof.
  intros k B. unfold standard_key. change (wstr "-x-standard") with STD. rewrite Z.eqb_eq. unfold size_of, NPOS.
  destruct (rfind_sub STD k) as [j|] eqn:R.
  - apply rfind_last in R as (A & Lj & C). apply starts_with_spec in A as (b & A). assert (Lk : length k = (j + 11 + length b)%nat).
    { rewrite <- (firstn_skipn j k), app_length, A, app_length, firstn_length_le by auto. change (length STD) with 11%nat. lia. }
    rewrite Z.mod_small by lia. split.
    + intros E. right. exists (firstn j k). rewrite <- (firstn_skipn j k) at 1. rewrite A. destruct b; [rewrite app_nil_r; auto|]. cbn [length] in Lk. lia.
    + intros [E|(u & ->)]; [lia|]. rewrite app_length in *. change (length STD) with 11%nat in *. destruct (Nat.lt_trichotomy j (length u)) as [L|[L|L]]; [|lia|lia].
      exfalso. specialize (C (length u)). rewrite skipn_app, skipn_all, Nat.sub_diag in C. cbn [skipn app] in C.
      assert (X : starts_with STD STD = true) by reflexivity. rewrite C in X by lia. discriminate.
  - pose proof (rfind_none _ _ R) as N. split.
    + intros E. left. destruct (Z_lt_le_dec (Z.of_nat (length k)) 11) as [L|L].
      * replace (Z.of_nat (length k) - 11) with ((Z.of_nat (length k) - 11 + 2 ^ 64) + (-1) * 2 ^ 64) in E by ring. rewrite Z.mod_add, Z.mod_small in E by lia. lia.
      * rewrite Z.mod_small in E by lia. lia.
    + intros [E|(u & ->)]; [rewrite E; reflexivity|]. specialize (N (length u)). rewrite skipn_app, skipn_all, Nat.sub_diag in N. cbn [skipn app] in N.
      assert (X : starts_with STD STD = true) by reflexivity. rewrite N in X by (rewrite app_length; lia). discriminate.
Qed.

Lemma eq_tail : forall (a b c d : list Z), a ++ b = c ++ d -> length b = length d -> a = c /\ b = d.
Proof.
  intros a b c d E L. assert (La : length a = length c) by (apply (f_equal (@length Z)) in E; rewrite !app_length in E; lia).
  revert c La E. induction a as [|x a IH]; intros [|y c] La E; cbn [length app] in *; try discriminate; auto.
  injection E as -> E. injection La as La. destruct (IH c La E) as (-> & ->). auto.
Qed.

Lemma standard_name : forall t, good_tag t -> (exists u, toBcp47 t = u ++ STD) <-> privateUse t = wstr "standard".
Proof.
  intros [l s p] (G1 & G2 & G3). unfold toBcp47. cbn [language script privateUse] in *. split.
  - intros (u & E). destruct p as [|x p].
    + exfalso. rewrite app_nil_r in E. destruct G2 as [->|(L & X)].
      * rewrite app_nil_r in E. change STD with (0x2D :: wstr "x-standard") in E. exact (no_dash_app _ _ _ G1 E).
      * destruct s as [|y s]; [discriminate|]. change (u ++ STD) with (u ++ (wstr "-x-sta" ++ wstr "ndard")) in E. rewrite (app_assoc u) in E.
        apply eq_tail in E as (_ & E); [discriminate E|]. cbn [length app wstr] in *. change (length (wstr "-" ++ y :: s)) with (S (length (y :: s))). cbn [length]. rewrite L. reflexivity.
    + rewrite app_assoc in E. apply (f_equal (@rev Z)) in E. change STD with (wstr "-x-" ++ wstr "standard") in E. rewrite !app_assoc, !rev_app_distr in E.
      change (rev (wstr "-x-")) with (0x2D :: [0x78; 0x2D]) in E. cbn [app] in E. apply split_dash in E as (E & _).
      * apply (f_equal (@rev Z)) in E. rewrite !rev_involutive in E. exact E.
      * intros I. apply G3. apply in_rev. exact I.
      * intros I. vm_compute in I. intuition discriminate.
  - intros ->. eexists. rewrite app_assoc. reflexivity.
Qed.

(** ** Reading the index *)

Lemma index_good : forall lines d, good_tag (dtag d) -> exists d', read_index d lines = Ok d' /\ good_tag (dtag d') /\ isDefault d' = isDefault d /\ dpath d' = dpath d.
Proof.
  induction lines as [|line r IH]; intros d G; cbn [read_index]; [eauto|].
  destruct (starts_with (wstr "Language: ") line).
  { destruct (good_read (dtag d) (skipn 10 line) G) as (t & -> & G'). cbn [bind]. apply (IH (mkDict t _ _ _ _ _ _ _)). auto. }
  destruct (starts_with (wstr "Description: ") line); [cbn [bind]; apply IH; auto|].
  destruct (starts_with (wstr "Morphology-Backend: ") line); [cbn [bind]; apply (IH (mkDict (dtag d) _ _ _ _ _ _ _)); auto|].
  destruct (starts_with (wstr "Speller-Backend: ") line); [cbn [bind]; apply (IH (mkDict (dtag d) _ _ _ _ _ _ _)); auto|].
  destruct (starts_with (wstr "Suggestion-Backend: ") line); [cbn [bind]; apply (IH (mkDict (dtag d) _ _ _ _ _ _ _)); auto|].
  destruct (starts_with (wstr "Hyphenator-Backend: ") line); [cbn [bind]; apply (IH (mkDict (dtag d) _ _ _ _ _ _ _)); auto|].
  destruct (starts_with (wstr "Grammar-Backend: ") line); [cbn [bind]; apply (IH (mkDict (dtag d) _ _ _ _ _ _ _)); auto|].
  cbn [bind]. apply IH; auto.
Qed.
Lemma good_empty : good_tag empty_tag. Proof. repeat apply conj; cbn; auto. Qed.
Lemma good_fi : good_tag (setLanguage empty_tag (wstr "fi")).
Proof. repeat apply conj; cbn; auto. intros I. vm_compute in I. intuition discriminate. Qed.

Lemma from_path_good : forall path lines, exists d, dictionaryFromPath path lines = Ok d /\ good_tag (dtag d) /\ isDefault d = false /\
  (valid d -> dpath d = path /\ exists r, lines = VERSION_KEY :: r).
Proof.
  intros path lines. unfold dictionaryFromPath. destruct lines as [|first r].
  { exists no_dictionary. split; auto. split; [exact good_empty|]. split; auto. intros V. elim V. reflexivity. }
  destruct (zlist_eqb first VERSION_KEY) eqn:E; cbn [negb].
  - apply zlist_eqb_eq in E. subst first.
    match goal with |- context [read_index ?d0 r] => destruct (index_good r d0 good_fi) as (d & -> & G & D & P) end.
    exists d. split; auto. split; auto. split; auto. intros _. split; eauto.
  - exists no_dictionary. split; auto. split; [exact good_empty|]. split; auto. intros V. elim V. reflexivity.
Qed.

(** ** Discovery *)

Section Found.
Variable directory : list Z -> list (list Z).
Variable file : list Z -> list (list Z).

Lemma entries_fold : forall mainPath names m,
  exists ds, Forall2 (fun dir d => dictionaryFromPath dir (file (dir ++ wstr "/index.txt")) = Ok d)
     (map (fun n => mainPath ++ wstr "/" ++ n) (filter (fun n => starts_with (wstr "mor-") n && negb (Nat.eqb (length (skipn 4 n)) 0)) names)) ds /\
   v5_entries file mainPath names m = Ok (fold_left addDictionary ds m).
Proof.
  intros mainPath. induction names as [|n names IH]; intros m; [exists []; split; [constructor|auto]|].
  cbn [v5_entries filter]. destruct (starts_with (wstr "mor-") n); cbn [negb andb]; [|apply IH].
  destruct (Nat.eqb (length (skipn 4 n)) 0); cbn [negb]; [apply IH|].
  destruct (from_path_good (mainPath ++ wstr "/" ++ n) (file ((mainPath ++ wstr "/" ++ n) ++ wstr "/index.txt"))) as (d & E & _).
  rewrite E. cbn [bind]. destruct (IH (addDictionary m d)) as (ds & F & ->). exists (d :: ds). split; auto. cbn [map]. constructor; auto.
Qed.
Lemma locations_fold : forall locs m, exists ds, discovered directory file locs ds /\ from_locations directory file locs m = Ok (fold_left addDictionary ds m).
Proof.
  unfold discovered. induction locs as [|l locs IH]; intros m; [exists []; split; [constructor|auto]|].
  cbn [from_locations dictionary_dirs flat_map]. unfold findDictionaries. destruct (entries_fold (l ++ wstr "/5") (directory (l ++ wstr "/5")) m) as (ds & F & ->). cbn [bind].
  destruct (IH (fold_left addDictionary ds m)) as (ds' & F' & ->). exists (ds ++ ds'). split; [apply Forall2_app; auto|]. rewrite fold_left_app. auto.
Qed.
Lemma discovered_fun : forall locs ds ds', discovered directory file locs ds -> discovered directory file locs ds' -> ds = ds'.
Proof.
  unfold discovered. intros locs ds ds' H. revert ds'. induction H as [|x d xs ds H F IH]; intros ds' K; inversion K; subst; auto.
  f_equal; [congruence|auto].
Qed.
Lemma discovered_good : forall locs ds, discovered directory file locs ds -> Forall (fun d => good_tag (dtag d) /\ isDefault d = false) ds.
Proof.
  unfold discovered. intros locs ds H. induction H as [|x d xs ds H F IH]; constructor; auto.
  destruct (from_path_good x (file (x ++ wstr "/index.txt"))) as (d' & E & G & D & _). rewrite H in E. injection E as <-. auto.
Qed.
End Found.

(** ** The fold *)

(** What the table contains after [ds]. *)
Record summary (ds : list dictionary) (m : variants) : Prop := {
  su_table : table m;
  su_good : Forall (fun x => good_tag (dtag (snd x))) m;
  su_first : forall k d, map_find k m = Some d -> exists e, first_with (named k) ds e /\ same_but_default d e;
  su_all : forall e, In e ds -> valid e -> map_find (toBcp47 (dtag e)) m <> None;
  su_default : forall k d, map_find k m = Some d ->
     (isDefault d = true <-> exists x, first_with (declares_default (language (dtag d))) ds x /\ dtag x = dtag d)
}.

Lemma first_app : forall (P : dictionary -> Prop) ds e x, first_with P ds e -> first_with P (ds ++ [x]) e.
Proof. intros P ds e x (H & a & b & -> & F). split; auto. exists a, (b ++ [x]). rewrite <- app_assoc. auto. Qed.
Lemma first_new : forall (P : dictionary -> Prop) ds x, Forall (fun e => ~ P e) ds -> P x -> first_with P (ds ++ [x]) x.
Proof. intros P ds x F H. split; auto. exists ds, []. auto. Qed.
Lemma first_inv : forall (P : dictionary -> Prop) ds x e, first_with P (ds ++ [x]) e -> first_with P ds e \/ (e = x /\ Forall (fun y => ~ P y) ds /\ P x).
Proof.
  intros P ds x e (H & a & b & E & F). destruct b as [|z b] using rev_ind.
  - apply app_inj_tail in E as (-> & ->). auto.
  - left. rewrite app_comm_cons, app_assoc in E. apply app_inj_tail in E as (-> & _). split; auto. exists a, b. auto.
Qed.
Lemma first_fun : forall (P : dictionary -> Prop) ds d e, first_with P ds d -> first_with P ds e -> d = e.
Proof.
  intros P ds d e (H & a & b & -> & F) (H' & a' & b' & E & F'). revert a' E F'. induction a as [|x a IH]; intros [|y a'] E F'; cbn [app] in E; injection E as E1 E2; auto.
  - subst y. inversion F'; subst. contradiction.
  - subst x. inversion F; subst. contradiction.
  - inversion F; inversion F'; subst. eapply IH; eauto.
Qed.
Lemma first_dec : forall (P : dictionary -> Prop) (dec : forall d, {P d} + {~ P d}) ds, (exists e, first_with P ds e) \/ Forall (fun y => ~ P y) ds.
Proof.
  intros P dec. induction ds as [|d ds IH]; [right; constructor|]. destruct (dec d) as [H|H].
  - left. exists d. split; auto. exists [], ds. auto.
  - destruct IH as [(e & He & a & b & -> & F)|F]; [left|right; constructor; auto]. exists e. split; auto. exists (d :: a), b. auto.
Qed.
Lemma zlist_dec : forall a b : list Z, {a = b} + {a <> b}. Proof. apply list_eq_dec, Z.eq_dec. Qed.
Lemma declares_dec : forall l d, {declares_default l d} + {~ declares_default l d}.
Proof.
  intros l d. unfold declares_default, valid. destruct (zlist_dec (language (dtag d)) []); [right; tauto|].
  destruct (zlist_dec (language (dtag d)) l); [|right; tauto]. destruct (zlist_dec (privateUse (dtag d)) (wstr "default")); [left|right]; tauto.
Qed.

Lemma summary_nil : summary [] [].
Proof. constructor; [split; constructor|constructor| | |]; cbn; intros; try discriminate. contradiction. Qed.

Lemma table_find : forall m k d, table m -> map_find k m = Some d -> valid d /\ toBcp47 (dtag d) = k /\ In (k, d) m.
Proof.
  intros m k d (SS & F) M. apply map_find_in in M; auto. eapply Forall_forall in F; [|exact M]. cbn in F. tauto.
Qed.

Lemma has_default_spec : forall ds m l, summary ds m -> Forall (fun d => good_tag (dtag d)) ds ->
  hasDefaultForLanguage m l = true <-> exists x, first_with (declares_default l) ds x.
Proof.
  intros ds m l SU G. unfold hasDefaultForLanguage. rewrite existsb_exists. split.
  - intros ((k, d) & I & H). cbn [snd] in H. apply andb_true_iff in H as (L & D). apply zlist_eqb_eq in L. subst l.
    apply map_find_in in I; [|apply SU]. apply (su_default _ _ SU k d I) in D as (x & X & _). eauto.
  - intros (x & X). destruct (map_find (toBcp47 (dtag x)) m) as [d|] eqn:M.
    + pose proof (table_find _ _ _ (su_table _ _ SU) M) as (V & K & I). exists (toBcp47 (dtag x), d). split; auto. cbn [snd].
      assert (T : dtag d = dtag x).
      { apply name_inj; auto.
        - pose proof (su_good _ _ SU) as F. eapply Forall_forall in F; [|exact I]. auto.
        - destruct X as (_ & a & b & -> & _). eapply Forall_forall in G; [exact G|]. apply in_or_app. right; left; auto. }
      rewrite T. destruct X as (HX & RX). pose proof HX as (V' & L & P). rewrite L, (proj2 (zlist_eqb_eq l l) eq_refl). cbn [andb].
      apply (su_default _ _ SU _ _ M). rewrite T, L. exists x. split; auto. split; auto.
    + exfalso. destruct X as ((V & _) & a & b & -> & _). refine (su_all _ _ SU x _ V M). apply in_or_app. right; left; auto.
Qed.

Lemma summary_step : forall ds m d, summary ds m -> Forall (fun d => good_tag (dtag d) /\ isDefault d = false) ds -> good_tag (dtag d) -> isDefault d = false ->
  summary (ds ++ [d]) (addDictionary m d).
Proof.
  intros ds m d SU G Gd Dd. assert (G' : Forall (fun d => good_tag (dtag d)) ds) by (eapply Forall_impl; [|exact G]; intros ? (X & _); exact X).
  pose proof (has_default_spec ds m (language (dtag d)) SU G') as HD.
  assert (TB : table (addDictionary m d)) by (apply table_add, SU).
  unfold addDictionary in *. set (c := zlist_eqb (privateUse (dtag d)) (wstr "default") && negb (hasDefaultForLanguage m (language (dtag d)))) in *.
  assert (Hc : valid d -> c = true <-> first_with (declares_default (language (dtag d))) (ds ++ [d]) d /\ Forall (fun e => ~ declares_default (language (dtag d)) e) ds).
  { intros V. unfold c. rewrite andb_true_iff, zlist_eqb_eq, negb_true_iff. split.
    - intros (P & H). assert (F : Forall (fun e => ~ declares_default (language (dtag d)) e) ds).
      { destruct (first_dec _ (declares_dec (language (dtag d))) ds) as [X|X]; auto. apply HD in X. congruence. }
      split; auto. apply first_new; auto. repeat split; auto.
    - intros ((P & _) & F). split; [apply P|]. destruct (hasDefaultForLanguage m (language (dtag d))); auto. destruct (proj1 HD eq_refl) as (x & X & a & b & -> & _).
      exfalso. apply Forall_app in F as (_ & F). inversion F; subst. contradiction. }
  assert (Dtag : dtag (if c then setDefault d true else d) = dtag d) by (destruct c; auto). rewrite Dtag in *.
  assert (Iv : isValid (if c then setDefault d true else d) = isValid d) by (destruct c; auto). rewrite Iv in *.
  assert (Isd : isDefault (if c then setDefault d true else d) = c) by (destruct c; auto). rewrite Isd in *.
  (* old defaults stay *)
  assert (Old : forall k e, map_find k m = Some e -> (isDefault e = true <-> exists x, first_with (declares_default (language (dtag e))) ds x /\ dtag x = dtag e)) by apply SU.
  destruct (isValid d) eqn:V.
  2:{ assert (NV : ~ valid d) by (rewrite <- isValid_spec; congruence). constructor; auto.
      - apply SU.
      - intros k e M. destruct (su_first _ _ SU k e M) as (x & X & Y). exists x. split; auto. apply first_app; auto.
      - intros e I Ve. apply in_app_or in I as [I|[<-|[]]]; [apply SU; auto|contradiction].
      - intros k e M. rewrite (Old k e M). split; intros (x & X & Y); exists x; split; auto; [apply first_app; auto|].
        apply first_inv in X as [X|(-> & _ & X)]; auto. destruct NV. apply X. }
  apply isValid_spec in V. specialize (Hc V).
  destruct (map_find (toBcp47 (dtag d)) m) as [e|] eqn:M.
  - (* the name exists *)
    pose proof (table_find _ _ _ (su_table _ _ SU) M) as (Ve & Ke & Ie).
    assert (Ge : good_tag (dtag e)). { pose proof (su_good _ _ SU) as F. eapply Forall_forall in F; [|exact Ie]. auto. }
    assert (Te : dtag e = dtag d) by (apply name_inj; auto).
    assert (All : forall m', (forall k, map_find k m <> None -> map_find k m' <> None) -> forall e0, In e0 (ds ++ [d]) -> valid e0 -> map_find (toBcp47 (dtag e0)) m' <> None).
    { intros m' H e0 I V0. apply H. apply in_app_or in I as [I|[<-|[]]]; [apply SU; auto|congruence]. }
    destruct c eqn:Ec.
    + (* would be a first declaration with an old name: the old one declares it too *)
      exfalso. destruct (proj1 Hc eq_refl) as (((_ & _ & P) & _) & F). destruct (su_first _ _ SU _ _ M) as (x & (N & a & b & -> & _) & SB).
      apply Forall_app in F as (_ & F). inversion F as [|? ? F1 F2]; subst. apply F1. assert (Tx : dtag x = dtag d). { rewrite <- Te. unfold same_but_default in SB. apply (f_equal dtag) in SB. auto. }
      repeat split; [apply N| |]; congruence.
    + constructor; auto.
      * apply SU.
      * intros k e0 M0. destruct (su_first _ _ SU k e0 M0) as (x & X & Y). exists x. split; auto. apply first_app; auto.
      * intros k e0 M0. rewrite (Old k e0 M0). split; intros (x & X & Y); exists x; split; auto; [apply first_app; auto|].
        apply first_inv in X as [X|(-> & F & X)]; auto. exfalso. assert (L : language (dtag e0) = language (dtag d)) by (symmetry; apply X). rewrite L in *.
        assert (false = true); [|discriminate]. apply Hc. split; auto. apply first_new; auto.
  - (* a new name *)
    assert (Nx : Forall (fun e => ~ named (toBcp47 (dtag d)) e) ds).
    { apply Forall_forall. intros e I (Ve & Ke). refine (su_all _ _ SU e I Ve _). congruence. }
    set (d1 := if c then setDefault d true else d) in *.
    assert (Find : forall k, map_find k (map_set (toBcp47 (dtag d)) d1 m) = if zlist_eqb (toBcp47 (dtag d)) k then Some d1 else map_find k m) by (intros; apply map_set_find).
    constructor; auto.
    + apply Forall_forall. intros (k, e) I. apply map_find_in in I; [|apply TB]. rewrite Find in I. destruct (zlist_eqb (toBcp47 (dtag d)) k).
      * injection I as <-. cbn [snd]. rewrite Dtag. auto.
      * apply map_find_in in I; [|apply SU]. pose proof (su_good _ _ SU) as F. eapply Forall_forall in F; [|exact I]. auto.
    + intros k e M0. rewrite Find in M0. destruct (zlist_eqb (toBcp47 (dtag d)) k) eqn:Ek.
      * apply zlist_eqb_eq in Ek. subst k. injection M0 as <-. exists d. split; [apply first_new; auto; split; auto|]. unfold same_but_default, d1. destruct c; auto.
      * destruct (su_first _ _ SU k e M0) as (x & X & Y). exists x. split; auto. apply first_app; auto.
    + intros e I Ve. rewrite Find. destruct (zlist_eqb (toBcp47 (dtag d)) (toBcp47 (dtag e))) eqn:Ek; [discriminate|]. apply in_app_or in I as [I|[<-|[]]]; [apply SU; auto|].
      apply zlist_eqb_neq in Ek. congruence.
    + intros k e M0. rewrite Find in M0. destruct (zlist_eqb (toBcp47 (dtag d)) k) eqn:Ek.
      * injection M0 as <-. rewrite Dtag, Isd. rewrite Hc. split.
        -- intros (X & _). eauto.
        -- intros (x & X & Tx). apply first_inv in X as [X|(-> & F & X)].
           ++ exfalso. destruct X as (HX & a & b & -> & _). apply Forall_app in Nx as (_ & Nx). inversion Nx as [|? ? N1 N2]; subst. apply N1. split; [apply HX|congruence].
           ++ split; auto. apply first_new; auto.
      * rewrite (Old k e M0). split; intros (x & X & Y); exists x; split; auto; [apply first_app; auto|].
        apply first_inv in X as [X|(-> & F & X)]; auto. exfalso. apply zlist_eqb_neq in Ek. apply Ek. rewrite Y. apply (table_find _ _ _ (su_table _ _ SU) M0).
Qed.

Lemma summary_fold : forall ds, Forall (fun d => good_tag (dtag d) /\ isDefault d = false) ds -> summary ds (fold_left addDictionary ds []).
Proof.
  intros ds. induction ds as [|d ds IH] using rev_ind; intros F; [exact summary_nil|]. apply Forall_app in F as (F & Fd). inversion Fd as [|? ? (G & D) _]; subst.
  rewrite fold_left_app. cbn [fold_left]. apply summary_step; auto.
Qed.

(** ** The list *)

Definition front (m : variants) (x : list Z * dictionary) : bool :=
  isDefault (snd x) || (standard_key (fst x) && negb (hasDefaultForLanguage m (language (dtag (snd x))))).
Lemma list_split : forall m rest dicts,
  list_variants m rest dicts = rev (map snd (filter (front m) rest)) ++ dicts ++ map snd (filter (fun x => negb (front m x)) rest).
Proof.
  intros m. induction rest as [|(k, d) r IH]; intros dicts; cbn [list_variants filter map rev]; [rewrite app_nil_r; auto|].
  assert (Fr : front m (k, d) = isDefault d || (standard_key k && negb (hasDefaultForLanguage m (language (dtag d))))) by reflexivity.
  rewrite IH. destruct (isDefault d); cbn [orb] in Fr; [|destruct (standard_key k && _)]; rewrite Fr; cbn [negb map rev snd]; rewrite <- app_assoc; auto.
Qed.
Lemma filter_parts : forall (A : Type) (f : A -> bool) l, Permutation l (filter f l ++ filter (fun x => negb (f x)) l).
Proof.
  intros A f. induction l as [|x l IH]; auto. cbn [filter]. destruct (f x); cbn [negb app]; auto. eapply Permutation_trans; [|apply Permutation_middle]. auto.
Qed.
Lemma list_perm : forall m, Permutation (list_variants m m []) (map snd m).
Proof.
  intros m. rewrite list_split. cbn [app]. rewrite <- (Permutation_rev _), <- map_app. apply Permutation_map. symmetry. apply filter_parts.
Qed.

Lemma table_names : forall m, table m -> map (fun d => toBcp47 (dtag d)) (map snd m) = keys m.
Proof. intros m (_ & F). rewrite map_map. unfold keys. apply map_ext_Forall. eapply Forall_impl; [|exact F]. cbn. tauto. Qed.
Lemma sorted_nodup : forall l : list (list Z), StronglySorted precedes l -> NoDup l.
Proof.
  intros l H. induction H as [|x l H IH F]; constructor; auto. intros I. eapply Forall_forall in F; eauto. exact (precedes_irrefl _ F).
Qed.
Lemma in_table : forall m d, table m -> In d (map snd m) <-> map_find (toBcp47 (dtag d)) m = Some d.
Proof.
  intros m d T. rewrite in_map_iff. split.
  - intros ((k, d') & E & I). cbn in E. subst d'. apply map_find_in; [apply T|]. destruct T as (_ & F). eapply Forall_forall in F; [|exact I]. cbn in F. destruct F as (_ & <-). auto.
  - intros H. apply map_find_in in H; [|apply T]. eexists; split; [|exact H]. auto.
Qed.

Lemma summary_listing : forall ds m l, summary ds m -> Permutation l (map snd m) -> Forall (fun d => good_tag (dtag d)) ds -> listing ds l.
Proof.
  intros ds m l SU P G. pose proof (su_table _ _ SU) as T. constructor.
  - eapply Permutation_NoDup; [apply Permutation_map, Permutation_sym, P|]. rewrite table_names by auto. apply sorted_nodup, T.
  - intros d I. rewrite P in I. apply in_table in I; auto. exact (su_first _ _ SU _ _ I).
  - intros e I V. destruct (map_find (toBcp47 (dtag e)) m) as [d|] eqn:M; [|destruct (su_all _ _ SU e I V M)]. exists d.
    pose proof (table_find _ _ _ T M) as (Vd & K & Id). split; [rewrite P; apply in_map_iff; exists (toBcp47 (dtag e), d); auto|].
    apply name_inj; auto; [pose proof (su_good _ _ SU) as F; eapply Forall_forall in F; [|exact Id]; auto|]. eapply Forall_forall in G; eauto.
  - intros d I. rewrite P in I. apply in_table in I; auto. exact (su_default _ _ SU _ _ I).
Qed.

Lemma has_default_listed : forall m l lang, Permutation l (map snd m) ->
  hasDefaultForLanguage m lang = true <-> exists e, In e l /\ isDefault e = true /\ language (dtag e) = lang.
Proof.
  intros m l lang P. unfold hasDefaultForLanguage. rewrite existsb_exists. split.
  - intros ((k, d) & I & H). cbn [snd] in H. apply andb_true_iff in H as (L & D). apply zlist_eqb_eq in L. exists d. rewrite P. split; auto. apply in_map_iff. exists (k, d). auto.
  - intros (e & I & D & L). rewrite P in I. apply in_map_iff in I as ((k, d) & E & I). cbn in E. subst d. exists (k, e). split; auto. cbn [snd]. rewrite D, L.
    rewrite (proj2 (zlist_eqb_eq lang lang) eq_refl). auto.
Qed.


Lemma front_offered : forall ds m l x, summary ds m -> Permutation l (map snd m) -> In x m -> Z.of_nat (length (fst x)) < 2 ^ 64 ->
  front m x = true <-> offered_first l (snd x).
Proof.
  intros ds m l (k, d) SU P I B. unfold front, offered_first. cbn [fst snd] in *. pose proof (has_default_listed m l (language (dtag d)) P) as H.
  pose proof (su_table _ _ SU) as (_ & F). eapply Forall_forall in F; [|exact I]. cbn in F. destruct F as (_ & K).
  pose proof (su_good _ _ SU) as G. eapply Forall_forall in G; [|exact I]. cbn [snd] in G.
  rewrite orb_true_iff, andb_true_iff, negb_true_iff, standard_key_spec by auto. rewrite <- (standard_name _ G), K, <- H. destruct (hasDefaultForLanguage m (language (dtag d))); intuition congruence.
Qed.

Lemma sorted_filter : forall (f : list Z * dictionary -> bool) m, table m -> by_name (map snd (filter f m)).
Proof.
  intros f m (SS & F). unfold by_name. induction m as [|(k, d) m IH]; cbn [filter]; [constructor|]. inversion SS as [|? ? SS' Fk]; inversion F as [|? ? (V & K) F']; subst. cbn [fst snd] in *.
  destruct (f (k, d)); auto. cbn [map snd]. constructor; auto. rewrite K. apply Forall_forall. intros x I. apply in_map_iff in I as (d' & <- & I). apply in_map_iff in I as ((k', e) & E & I). cbn in E. subst e.
  apply filter_In in I as (I & _). eapply Forall_forall in F'; [|exact I]. cbn in F'. destruct F' as (_ & ->). eapply Forall_forall in Fk; [exact Fk|]. apply (in_map fst) in I. exact I.
Qed.

(** Everything about the list of dictionaries. *)
Lemma available : forall directory file defaults path, exists ds m l,
  discovered directory file (search_path defaults path) ds /\ findAllAvailable directory file defaults path = Ok l /\
  summary ds m /\ l = list_variants m m [] /\ Forall (fun d => good_tag (dtag d)) ds /\ listing ds l.
Proof.
  intros directory file defaults path. destruct (locations_fold directory file (search_path defaults path) []) as (ds & D & E).
  pose proof (discovered_good _ _ _ _ D) as F. exists ds, (fold_left addDictionary ds []), (list_variants (fold_left addDictionary ds []) (fold_left addDictionary ds []) []).
  assert (G : Forall (fun d => good_tag (dtag d)) ds) by (eapply Forall_impl; [|exact F]; intros ? (X & _); exact X).
  split; [exact D|]. split; [|split; [apply summary_fold; auto|split; [reflexivity|split; [exact G|]]]].
  - unfold findAllAvailable. fold (search_path defaults path). rewrite E. reflexivity.
  - eapply summary_listing; [apply summary_fold; auto|apply list_perm|auto].
Qed.

Lemma matching_spec : forall r a, isMatchingLanguage r a = true <-> satisfies r a.
Proof.
  intros r a. unfold isMatchingLanguage, satisfies. destruct (zlist_eqb (language r) (language a)) eqn:L; cbn [negb].
  2:{ apply zlist_eqb_neq in L. split; [discriminate|]. tauto. }
  apply zlist_eqb_eq in L. destruct (zlist_eqb (script r) (script a)) eqn:Sc; cbn [negb].
  2:{ apply zlist_eqb_neq in Sc. split; [discriminate|]. tauto. }
  apply zlist_eqb_eq in Sc. assert (N : forall s : list Z, Nat.eqb (length s) 0 = true <-> s = []) by (intros [|? ?]; cbn; split; congruence).
  destruct (zlist_eqb (privateUse r) (wstr "standard")) eqn:St; [apply zlist_eqb_eq in St|apply zlist_eqb_neq in St]; cbn [andb].
  - destruct (Nat.eqb (length (privateUse a)) 0) eqn:Ea; [apply N in Ea; tauto|].
    assert (Na : privateUse a <> []) by (intros X; apply N in X; congruence). rewrite St in *. change (Nat.eqb (length (wstr "standard")) 0) with false. cbn [negb andb].
    assert (Ns : wstr "standard" <> []) by discriminate.
    destruct (zlist_eqb (wstr "standard") (privateUse a)) eqn:E; [apply zlist_eqb_eq in E|apply zlist_eqb_neq in E]; cbn [negb]; intuition congruence.
  - destruct (Nat.eqb (length (privateUse r)) 0) eqn:Er; cbn [negb andb]; [apply N in Er; tauto|]. assert (Nr : privateUse r <> []) by (intros X; apply N in X; congruence).
    destruct (zlist_eqb (privateUse r) (privateUse a)) eqn:E; [apply zlist_eqb_eq in E|apply zlist_eqb_neq in E]; cbn [negb]; intuition congruence.
Qed.
