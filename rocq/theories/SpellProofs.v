(** Lemmas about the spelling entry points. *)
From Verif Require Import Base BaseFacts CharModel CharSpec CharProofs SpellerBase CacheModel CacheProofs
  HandleModel SpellModel SpellSpec Utf8Model.

(** ** Character ranges *)
Lemma lower_code_point : forall c, code_point c -> code_point (lower c).
Proof.
  intros c H. destruct (Z_lt_dec c 0x600).
  - unfold code_point in *.
    assert (in_range 1 0x10FFFF (lower c) || (c =? 0) = true) as E.
    { apply (zrange_forallb (fun c => in_range 1 0x10FFFF (lower c) || (c =? 0)) 0x600); [vm_compute; reflexivity|].
      change (Z.of_nat 0x600) with 0x600. lia. }
    apply orb_true_iff in E. destruct E as [E|E]; [|lia]. apply in_range_spec in E. lia.
  - rewrite lower_id_out; auto. lia.
Qed.

Lemma lower_word : forall w, unicode_word w -> unicode_word (map lower w).
Proof. unfold unicode_word. induction 1; constructor; auto using lower_code_point. Qed.

Lemma norm1_word : forall c, code_point c -> unicode_word (norm1 c).
Proof.
  intros c H. destruct (norm1_cases c) as [(l & U & ->) | (_ & ->)]; [|repeat constructor; apply H].
  inversion U; subst; repeat constructor; cbn; lia.
Qed.

Lemma find2_word : forall a b x, find2 CONV_2TO1 a b = Some x -> code_point x.
Proof.
  intros a b x H. apply find2_some in H.
  assert (forallb (fun r => in_range 1 0x10FFFF (snd r)) CONV_2TO1 = true) as A by (vm_compute; reflexivity).
  rewrite forallb_forall in A. specialize (A _ H). cbn [snd] in A. apply in_range_spec in A. exact A.
Qed.

Lemma norm_word : forall w, unicode_word w -> unicode_word (norm_loop w).
Proof.
  unfold unicode_word. induction w using list_ind2; intros F.
  - constructor.
  - cbn [norm_loop]. rewrite app_nil_r. inversion F; subst. apply norm1_word; auto.
  - rewrite norm_loop_cons2. inversion F as [|? ? Ha F']; subst. inversion F' as [|? ? Hb F'']; subst.
    destruct (find2 CONV_2TO1 a b) eqn:E.
    + constructor; eauto using find2_word.
    + apply Forall_app. split; auto. apply norm1_word; auto.
Qed.

(** ** Missing hyphens *)
Definition ends_hyph (v : list Z) : bool := match rev v with c :: _ => c =? 0x2D | [] => false end.
Definition starts_hyph (v : list Z) : bool := match v with c :: _ => c =? 0x2D | [] => false end.

Lemma starts_hyph_spec : forall v, starts_hyph v = true <-> starts_with_hyphen v.
Proof.
  destruct v as [|c r]; cbn; split; intros H; try discriminate.
  - destruct H as (r & H); discriminate.
  - exists r. f_equal. lia.
  - destruct H as (r' & H). injection H as -> _. reflexivity.
Qed.

Lemma ends_hyph_spec : forall v, ends_hyph v = true <-> ends_with_hyphen v.
Proof.
  intros v. unfold ends_hyph. destruct (rev v) as [|c r] eqn:E.
  - split; [discriminate|]. intros (r & ->). rewrite rev_app_distr in E. discriminate.
  - apply (f_equal (@rev Z)) in E. rewrite rev_involutive in E. cbn in E. subst v. split.
    + intros H. exists (rev r). repeat f_equal. lia.
    + intros (r' & H). apply app_inj_tail in H. destruct H as (_ & ->). reflexivity.
Qed.

Lemma last_char_rev : forall v c r, rev v = c :: r -> last_char v = Ok c.
Proof.
  intros v c r E. unfold last_char, rd. apply (f_equal (@rev Z)) in E. rewrite rev_involutive in E. cbn in E. subst v.
  rewrite app_length. cbn [length]. rewrite nth_error_app2 by lia. replace (length (rev r) + 1 - 1 - length (rev r))%nat with O by lia. reflexivity.
Qed.

Definition add_hyphens (v : list Z) : list Z :=
  if starts_hyph v then v ++ [0x2D] else [0x2D] ++ v ++ (if ends_hyph v then [] else [0x2D]).

(** The judgement as a function. *)
Definition hw (f : speller) (m : bool) (v : list Z) : spellresult :=
  if negb (spell_failed (f v)) then f v
  else if m && (2 <=? length v)%nat && negb (starts_hyph v && ends_hyph v) then f (add_hyphens v)
  else SPELL_FAILED.

Lemma spell_failed_spec : forall r, spell_failed r = true <-> r = SPELL_FAILED.
Proof. destruct r; cbn; split; congruence. Qed.

Lemma hyphenAwareSpell_ok : forall sp h v,
  hyphenAwareSpell sp h v = Ok (hw (sp (accept_extra_hyphens h)) (accept_missing_hyphens h) v).
Proof.
  intros sp h v. unfold hyphenAwareSpell, hw. set (f := sp (accept_extra_hyphens h)).
  destruct (spell_failed (f v)) eqn:SF; cbn [negb orb]; [|reflexivity].
  destruct (accept_missing_hyphens h); cbn [negb andb].
  2:{ apply spell_failed_spec in SF. rewrite SF. reflexivity. }
  destruct (Nat.ltb_spec (length v) 2).
  { rewrite (proj2 (Nat.leb_gt 2 (length v))) by lia. reflexivity. }
  rewrite (proj2 (Nat.leb_le 2 (length v))) by lia. cbn [andb].
  destruct v as [|c r]; [cbn in *; lia|]. cbn [rd nth_error bind]. unfold rd. cbn [nth_error bind].
  unfold add_hyphens, ends_hyph, starts_hyph. destruct (rev (c :: r)) as [|d t] eqn:E.
  { apply (f_equal (@rev Z)) in E. rewrite rev_involutive in E. discriminate. }
  rewrite (last_char_rev _ _ _ E). cbn [bind]. destruct (c =? 0x2D), (d =? 0x2D); reflexivity.
Qed.

Lemma hyphenated_fun : forall v v', hyphenated v v' -> v' = add_hyphens v /\ starts_hyph v && ends_hyph v = false.
Proof.
  intros v v' H. unfold add_hyphens.
  pose proof (starts_hyph_spec v) as A. pose proof (ends_hyph_spec v) as B.
  inversion H; subst; destruct (starts_hyph v), (ends_hyph v); cbn [app andb]; rewrite ?app_nil_r; intuition congruence.
Qed.

Lemma hyphenated_add : forall v, starts_hyph v && ends_hyph v = false -> hyphenated v (add_hyphens v).
Proof.
  intros v H. unfold add_hyphens. pose proof (starts_hyph_spec v) as A. pose proof (ends_hyph_spec v) as B.
  destruct (starts_hyph v) eqn:S1, (ends_hyph v) eqn:E1; cbn in H; try discriminate.
  - apply hyph_end; intuition congruence.
  - rewrite app_nil_r. apply hyph_start; intuition congruence.
  - apply hyph_both; intuition congruence.
Qed.

Lemma verdict_hw : forall f m v r, verdict f m v r <-> (hw f m v = r /\ r <> SPELL_FAILED).
Proof.
  intros f m v r. unfold hw. split.
  - intros H. inversion H as [v0 K | v0 v' K M L Hy K']; subst.
    + destruct (spell_failed (f v)) eqn:E; [apply spell_failed_spec in E; congruence|]. cbn. auto.
    + rewrite (proj2 (spell_failed_spec _) K). cbn [negb andb]. rewrite (proj2 (Nat.leb_le _ _)) by auto.
      destruct (hyphenated_fun _ _ Hy) as (-> & B). rewrite B. cbn. auto.
  - intros (H & N). destruct (spell_failed (f v)) eqn:E; cbn [negb] in H.
    + apply spell_failed_spec in E. destruct m; cbn [andb] in H; [|congruence].
      destruct (Nat.leb_spec 2 (length v)); cbn [andb] in H; [|congruence].
      destruct (starts_hyph v && ends_hyph v) eqn:B; cbn [negb] in H; [congruence|]. subst r.
      eapply verdict_hyphens; eauto using hyphenated_add.
    + subst r. apply verdict_known; auto.
Qed.

(** ** Shapes *)
Lemma shape_small : forall n, voikko_casetype n = CT_ALL_LOWER <-> all_small n.
Proof.
  intros n. pose proof (casetype_cases n) as C. unfold all_small. split; intros H.
  - rewrite H in C. tauto.
  - destruct (voikko_casetype n) eqn:E; auto; exfalso; destruct H as (A & B).
    + apply A. unfold no_small, no_cased in *. eapply Forall_impl; [|exact C]. cbn; tauto.
    + destruct C as (_ & c & r & -> & D & _). inversion B; tauto.
    + destruct C as (_ & c & r & -> & D). apply D. inversion B; auto.
    + tauto.
Qed.

Lemma shape_capitals : forall n, voikko_casetype n = CT_ALL_UPPER <-> all_capitals n.
Proof.
  intros n. pose proof (casetype_cases n) as C. unfold all_capitals. split; intros H.
  - rewrite H in C. tauto.
  - destruct (voikko_casetype n) eqn:E; auto; exfalso; destruct H as (A & B); tauto.
Qed.

Lemma shape_capitalised : forall n, voikko_casetype n = CT_FIRST_UPPER <-> capitalised n.
Proof.
  intros n. pose proof (casetype_cases n) as C. unfold capitalised. split; intros H.
  - rewrite H in C. tauto.
  - destruct (voikko_casetype n) eqn:E; auto; exfalso; destruct H as (A & c & r & -> & D & F).
    + inversion C; tauto.
    + destruct C as (_ & C). inversion C; tauto.
    + destruct C as (_ & c' & r' & X & Y). injection X as -> ->. tauto.
    + tauto.
Qed.

(** ** The cached judgement *)
Definition dict (sp : env) (h : handle) : speller := hw (sp (accept_extra_hyphens h)) (accept_missing_hyphens h).

Definition cache_ok (f : speller) (o : option spell_cache) : Prop :=
  match o with None => True | Some c => consistent f c end.

(** Same options, possibly another cache content. *)
Definition same_but_cache (f : speller) (h h' : handle) : Prop :=
  h' = with_spellerCache h (spellerCache h') /\ cache_ok f (spellerCache h') /\
  (spellerCache h' = None <-> spellerCache h = None).

Lemma with_cache_id : forall h, h = with_spellerCache h (spellerCache h).
Proof. destruct h; reflexivity. Qed.

Lemma same_refl : forall f h, cache_ok f (spellerCache h) -> same_but_cache f h h.
Proof. intros. split; [apply with_cache_id|]. tauto. Qed.

Lemma same_trans : forall f a b c, same_but_cache f a b -> same_but_cache f b c -> same_but_cache f a c.
Proof.
  intros f a b c (A1 & A2 & A3) (B1 & B2 & B3). split; [|split; tauto].
  rewrite B1, A1. reflexivity.
Qed.

Lemma same_dict : forall f sp h h', same_but_cache f h h' -> dict sp h' = dict sp h.
Proof. intros f sp h h' (E & _). rewrite E. reflexivity. Qed.

Lemma cached_ok : forall sp h v, cache_ok (dict sp h) (spellerCache h) -> unicode_word v -> (1 <= length v)%nat ->
  exists h', voikko_cached_spell sp h v = Ok (dict sp h v, h') /\ same_but_cache (dict sp h) h h'.
Proof.
  intros sp h v C F L. unfold voikko_cached_spell. destruct (spellerCache h) as [c|] eqn:E.
  - cbn [cache_ok] in C. destruct (consistent_hit _ c v C F L) as (b & I & G). rewrite I. cbn [bind].
    destruct b.
    + rewrite (G eq_refl). cbn [bind]. exists h. split; auto. apply same_refl. rewrite E. auto.
    + rewrite hyphenAwareSpell_ok. cbn [bind]. fold (dict sp h v).
      destruct (consistent_set (dict sp h) c v C F L) as (c' & S1 & K & _).
      unfold dict in S1 at 1. unfold dict at 1. rewrite S1. cbn [bind].
      eexists. split; [reflexivity|]. split; [reflexivity|]. cbn [with_spellerCache spellerCache]. split; auto. rewrite E. split; discriminate.
  - rewrite hyphenAwareSpell_ok. cbn [bind]. exists h. split; [reflexivity|]. apply same_refl. rewrite E. exact I.
Qed.

(** ** The dot *)
Lemma form_cases : forall d n v, n <> [] -> form d n v <->
  (v = n \/ (d = true /\ (exists c, last_char n = Ok c /\ c = 0x2E) /\ v = firstn (length n - 1) n)).
Proof.
  intros d n v N. split.
  - intros H. inversion H; subst; auto. right. split; auto. split.
    + exists 0x2E. split; auto. eapply last_char_rev. rewrite rev_app_distr. reflexivity.
    + rewrite app_length. cbn [length]. replace (length v + 1 - 1)%nat with (length v + 0)%nat by lia.
      rewrite firstn_app_2. cbn [firstn]. rewrite app_nil_r. reflexivity.
  - intros [->|(-> & (c & L & ->) & ->)]; [constructor|].
    unfold last_char in L. apply rd_ok in L.
    pose proof (firstn_S_nth _ _ _ _ L) as E. replace (S (length n - 1)) with (length n) in E by (destruct n; cbn in *; [congruence|lia]).
    rewrite firstn_all in E. rewrite E at 1. constructor. auto.
Qed.

Lemma last_char_map : forall w, w <> [] -> exists c, last_char w = Ok c /\ last_char (map lower w) = Ok (lower c).
Proof.
  intros w N. unfold last_char. rewrite map_length. destruct (rd_lt _ w (length w - 1)) as (c & A & B).
  { destruct w; cbn in *; [congruence|lia]. }
  exists c. split; auto. apply rd_ok. rewrite nth_error_map, B. reflexivity.
Qed.

Lemma lower_dot : forall c, lower c = 0x2E <-> c = 0x2E.
Proof.
  intros c. split; [|intros ->; reflexivity]. intros H.
  destruct (Z_lt_dec c 0x600); [destruct (Z_lt_dec c 0)|].
  - rewrite lower_id_out in H; lia.
  - assert (negb (lower c =? 0x2E) || (c =? 0x2E) = true) as E.
    { apply (zrange_forallb (fun c => negb (lower c =? 0x2E) || (c =? 0x2E)) 0x600); [vm_compute; reflexivity|].
      change (Z.of_nat 0x600) with 0x600. lia. }
    rewrite H in E. cbn in E. lia.
  - rewrite lower_id_out in H; lia.
Qed.

Lemma firstn_small_first : forall k n, (1 <= k)%nat \/ n = [] -> firstn k (small_first n) = small_first (firstn k n).
Proof. intros [|k] [|c r] [H| H]; cbn; auto; lia || discriminate. Qed.

Lemma small_first_eq : forall n, lower_first n = small_first n.
Proof. reflexivity. Qed.

Lemma isDigit_spec : forall c, isDigit c = true <-> a_digit c.
Proof. intros. unfold isDigit, a_digit, in_range. lia. Qed.

Lemma existsb_digit : forall n, existsb isDigit n = true <-> Exists a_digit n.
Proof.
  intros. rewrite existsb_exists, Exists_exists. split; intros (x & A & B); exists x; split; auto; apply isDigit_spec; auto.
Qed.

Definition judgement_of_shape (h : handle) (ct : casetype) (f : speller) (n v : list Z) : bool :=
  match ct with
  | CT_ALL_LOWER => match f (map lower v) with SPELL_OK => true | _ => false end
  | CT_FIRST_UPPER => match f (map lower v) with SPELL_OK => accept_first_uppercase h | SPELL_CAP_FIRST => true | _ => false end
  | CT_ALL_UPPER => negb (spell_failed (f (map lower v)))
  | _ => match f (small_first v) with SPELL_OK => true
         | SPELL_CAP_FIRST => accept_first_uppercase h && match n with c :: _ => isUpper c | [] => false end | _ => false end
  end.

Definition eff_case (h : handle) (n : list Z) : casetype :=
  if is_all_upper (voikko_casetype n) && negb (accept_all_uppercase h) then CT_COMPLEX else voikko_casetype n.

Lemma justified_fun : forall sp h n v, justified sp h n v <-> judgement_of_shape h (eff_case h n) (dict sp h) n v = true.
Proof.
  intros sp h n v. pose proof (shape_small n) as A. pose proof (shape_capitals n) as B. pose proof (shape_capitalised n) as C.
  split.
  - intros H. unfold dict, eff_case.
    destruct H as [H1 H2|H1 H0 H2|H1 H2|r H1 H0 H2|H1 H1' H1'' H2|c r H1 H1' H1'' H0 H0' H0'' H2]; apply verdict_hw in H2; destruct H2 as (H2 & H3).
    + apply A in H1. rewrite H1. cbn. rewrite H2. auto.
    + apply C in H1. rewrite H1. cbn. rewrite H2. auto.
    + apply C in H1. rewrite H1. cbn. rewrite H2. auto.
    + apply B in H1. rewrite H1, H0. cbn. rewrite H2. destruct r; auto.
    + destruct (voikko_casetype n) eqn:E; cbn; try rewrite H2; auto; try tauto.
      rewrite (H1'' (proj1 B eq_refl)). cbn. rewrite H2. auto.
    + assert (isUpper c = true) as U by (apply isUpper_spec; auto).
      destruct (voikko_casetype n) eqn:E; cbn; try rewrite H2, H0, H0'', U; auto; try tauto.
      rewrite (H1'' (proj1 B eq_refl)). cbn. rewrite H2, H0, H0'', U. auto.
  - intros H. unfold dict, eff_case in H.
    destruct (voikko_casetype n) eqn:E; cbn [is_all_upper andb] in H.
    + cbn [judgement_of_shape] in H. destruct (hw _ _ _) eqn:R in H; try discriminate.
      * apply just_exact; try tauto; try congruence. { intros X; apply A in X; discriminate. } { intros X; apply C in X; discriminate. } { intros X; apply B in X; discriminate. }
        apply verdict_hw. split; auto; discriminate.
      * apply andb_true_iff in H. destruct H as (H & H'). destruct n as [|c r]; [discriminate|].
        eapply just_exact_proper; eauto. { intros X; apply A in X; discriminate. } { intros X; apply C in X; discriminate. } { intros X; apply B in X; discriminate. }
        { apply isUpper_spec; auto. } apply verdict_hw. split; auto; discriminate.
    + cbn [judgement_of_shape] in H. destruct (hw _ _ _) eqn:R in H; try discriminate.
      apply just_small; [tauto|]. apply verdict_hw. split; auto; discriminate.
    + cbn [judgement_of_shape] in H. destruct (hw _ _ _) eqn:R in H; try discriminate.
      * apply just_capitalised_common; [tauto|auto|]. apply verdict_hw. split; auto; discriminate.
      * apply just_capitalised_proper; [tauto|]. apply verdict_hw. split; auto; discriminate.
    + cbn [judgement_of_shape] in H. destruct (hw _ _ _) eqn:R in H; try discriminate.
      * apply just_exact; try tauto; try congruence. { intros X; apply A in X; discriminate. } { intros X; apply C in X; discriminate. } { intros X; apply B in X; discriminate. }
        apply verdict_hw. split; auto; discriminate.
      * apply andb_true_iff in H. destruct H as (H & H'). destruct n as [|c r]; [discriminate|].
        eapply just_exact_proper; eauto. { intros X; apply A in X; discriminate. } { intros X; apply C in X; discriminate. } { intros X; apply B in X; discriminate. }
        { apply isUpper_spec; auto. } apply verdict_hw. split; auto; discriminate.
    + destruct (accept_all_uppercase h) eqn:U; cbn [negb] in H.
      * cbn [judgement_of_shape] in H. eapply just_capitals; [tauto|auto|]. apply verdict_hw. split; [reflexivity|].
        intros X. rewrite X in H. discriminate.
      * cbn [judgement_of_shape] in H. destruct (hw _ _ _) eqn:R in H; try discriminate.
        -- apply just_exact; try tauto; try congruence. { intros X; apply A in X; discriminate. } { intros X; apply C in X; discriminate. }
           apply verdict_hw. split; auto; discriminate.
        -- apply andb_true_iff in H. destruct H as (H & H'). destruct n as [|c r]; [discriminate|].
           eapply just_exact_proper; eauto. { intros X; apply A in X; discriminate. } { intros X; apply C in X; discriminate. }
           { apply isUpper_spec; auto. } apply verdict_hw. split; auto; discriminate.
Qed.

Lemma exempt_fun : forall h n, exists b,
  (if ignore_uppercase h && is_all_upper (voikko_casetype n) then Ok true
   else if ignore_nonwords h then voikko_is_nonword n else Ok false) = Ok b /\
  (exempt h n <-> (ignore_numbers h && existsb isDigit n = true \/ b = true)).
Proof.
  intros h n. pose proof (shape_capitals n) as B. destruct (is_nonword_spec n) as (r & NR & NS).
  pose proof (existsb_digit n) as D.
  assert (is_all_upper (voikko_casetype n) = true <-> all_capitals n) as U.
  { rewrite <- B. destruct (voikko_casetype n); cbn; split; congruence. }
  assert (exempt h n <-> (ignore_numbers h && existsb isDigit n = true \/ (ignore_uppercase h = true /\ all_capitals n) \/ (ignore_nonwords h = true /\ nonword n))) as X.
  { rewrite andb_true_iff, D. split.
    - intros [| |]; auto.
    - intros [(P & Q)|[(P & Q)|(P & Q)]]; [apply exempt_number|apply exempt_capitals|apply exempt_nonword]; auto. }
  destruct (ignore_uppercase h && is_all_upper (voikko_casetype n)) eqn:E.
  { exists true. split; auto. apply andb_true_iff in E. tauto. }
  apply andb_false_iff in E. unfold nonword in X.
  destruct (ignore_nonwords h).
  - exists r. split; auto. rewrite X, NS. destruct E as [E|E]; rewrite E in *; intuition discriminate.
  - exists false. split; auto. rewrite X. destruct E as [E|E]; rewrite E in *; intuition discriminate.
Qed.

Lemma accepted_fun : forall sp h w n, w <> [] -> (length w <= 255)%nat -> voikko_normalise w = Ok n ->
  (accepted sp h w <-> exempt h n \/ exists v, form (ignore_dot h) n v /\ justified sp h n v).
Proof.
  intros sp h w n N L E. split.
  - intros H. inversion H as [|w' n' _ _ E' X|w' n' v _ _ E' X Y]; subst; [congruence| |]; rewrite E in E'; injection E' as <-; eauto.
  - intros [H|(v & F & J)]; [eapply accepted_exempt|eapply accepted_found]; eauto.
Qed.

Definition code (b : bool) : Z := if b then VOIKKO_SPELL_OK else VOIKKO_SPELL_FAILED.

Lemma code_ok : forall b, (code b = VOIKKO_SPELL_OK <-> b = true) /\ (code b = VOIKKO_SPELL_OK \/ code b = VOIKKO_SPELL_FAILED).
Proof. intros []; cbn; split; auto; split; auto; discriminate. Qed.

Lemma spell_exact : forall sp h w, unicode_word w -> cache_ok (dict sp h) (spellerCache h) ->
  exists r h', voikkoSpellUcs4 sp h w = Ok (r, h') /\ (r = VOIKKO_SPELL_OK \/ r = VOIKKO_SPELL_FAILED) /\
  (r = VOIKKO_SPELL_OK <-> accepted sp h w) /\ same_but_cache (dict sp h) h h'.
Proof.
  intros sp h w UW CO. unfold voikkoSpellUcs4.
  destruct (Nat.eqb_spec (length w) 0) as [Z0|N0].
  { destruct w; [|discriminate]. exists VOIKKO_SPELL_OK, h. split; [auto|]. split; [auto|]. split; [split; auto; intros _; constructor|apply same_refl; auto]. }
  assert (w <> []) as WN by (destruct w; cbn in *; [lia|discriminate]).
  destruct (Nat.ltb_spec MAX_WORD_CHARS (length w)) as [L|L].
  { exists VOIKKO_SPELL_FAILED, h. split; [auto|]. split; [auto|]. split; [|apply same_refl; auto]. split; [discriminate|].
    intros H. unfold MAX_WORD_CHARS in L. inversion H; subst; cbn in *; lia. }
  rewrite normalise_ok. cbn [bind].
  pose proof (accepted_fun sp h w _ WN L (normalise_ok w)) as AF. set (n := norm_loop w) in *.
  assert (n <> []) as NN by (apply norm_loop_nonempty; auto).
  assert (unicode_word n) as UN by (apply norm_word; auto).
  destruct (exempt_fun h n) as (b & EB & EX). cbv zeta.
  destruct (ignore_numbers h && existsb isDigit n) eqn:DG.
  { exists VOIKKO_SPELL_OK, h. split; [auto|]. split; [auto|]. split; [split; auto; intros _; apply AF; tauto|apply same_refl; auto]. }
  rewrite EB. cbn [bind]. destruct b.
  { exists VOIKKO_SPELL_OK, h. split; [auto|]. split; [auto|]. split; [split; auto; intros _; apply AF; tauto|apply same_refl; auto]. }
  assert (~ exempt h n) as NX by (intros X; apply EX in X; intuition discriminate).
  clear EX EB.
  fold (eff_case h n).
  destruct (last_char_map n NN) as (lc & L1 & L2).
  set (dot := ignore_dot h && (lc =? 0x2E)).
  assert ((if ignore_dot h then (c <- last_char (map lower n) ;; Ok (c =? 0x2E)) else Ok false) = Ok dot) as DOT.
  { unfold dot. destruct (ignore_dot h); auto. rewrite L2. cbn [bind andb]. f_equal.
    pose proof (lower_dot lc). destruct (lower lc =? 0x2E) eqn:A, (lc =? 0x2E) eqn:B; auto; lia. }
  rewrite DOT. cbn [bind].
  set (v := if dot then firstn (length n - 1) n else n).
  assert (forall J : list Z -> bool, (exists u, form (ignore_dot h) n u /\ J u = true) <-> (J n = true \/ J v = true)) as FM.
  { intros J. unfold v, dot. split.
    - intros (u & F & K). apply form_cases in F; auto. destruct F as [->|(D & (c & C1 & C2) & ->)]; auto.
      rewrite L1 in C1. injection C1 as <-. subst lc. rewrite D. cbn. auto.
    - intros [K|K]; [exists n; split; auto; constructor|]. destruct (ignore_dot h && (lc =? 46)) eqn:D; [|exists n; split; auto; constructor].
      apply andb_true_iff in D. eexists. split; [|exact K]. apply form_cases; auto. right. split; [tauto|]. split; auto. exists lc. split; auto. lia. }
  specialize (FM (judgement_of_shape h (eff_case h n) (dict sp h) n)).
  assert (accepted sp h w <-> judgement_of_shape h (eff_case h n) (dict sp h) n n = true \/
                             judgement_of_shape h (eff_case h n) (dict sp h) n v = true) as AC.
  { rewrite AF. split.
    - intros [X|(u & F & J)]; [tauto|]. apply FM. exists u. split; auto. apply justified_fun; auto.
    - intros X. apply FM in X. destruct X as (u & F & J). right. exists u. split; auto. apply justified_fun; auto. }
  clear AF FM.
  assert ((eff_case h n = CT_COMPLEX \/ eff_case h n = CT_NO_LETTERS) \/
          (eff_case h n = CT_ALL_LOWER \/ eff_case h n = CT_FIRST_UPPER \/ eff_case h n = CT_ALL_UPPER)) as [EC|EC]
    by (destruct (eff_case h n); auto).
  - set (first := hd 0 n). assert (rd n 0 = Ok first) as R0 by (unfold first; destruct n; [congruence|reflexivity]).
    set (K := fun u => exact_ok h first (dict sp h (small_first u))).
    assert (forall u, judgement_of_shape h (eff_case h n) (dict sp h) n u = K u) as JK.
    { intros u. unfold K, exact_ok, first. destruct n as [|c r] eqn:EN; [congruence|]. rewrite <- EN in *. destruct EC as [-> | ->]; cbn [judgement_of_shape];
      rewrite EN; reflexivity. }
    rewrite !JK in AC.
    assert (
      exists r h', (sres <- hyphenAwareSpell sp h (lower_first n) ;;
       if ((if exact_ok h first sres then VOIKKO_SPELL_OK else VOIKKO_SPELL_FAILED) =? VOIKKO_SPELL_FAILED) && dot
       then sres2 <- hyphenAwareSpell sp h (firstn (if dot then (length n - 1)%nat else length n) (lower_first n)) ;;
            Ok (if exact_ok h first sres2 then VOIKKO_SPELL_OK else if exact_ok h first sres then VOIKKO_SPELL_OK else VOIKKO_SPELL_FAILED, h)
       else Ok (if exact_ok h first sres then VOIKKO_SPELL_OK else VOIKKO_SPELL_FAILED, h)) = Ok (r, h') /\
      (r = VOIKKO_SPELL_OK \/ r = VOIKKO_SPELL_FAILED) /\
      (r = VOIKKO_SPELL_OK <-> accepted sp h w) /\ same_but_cache (dict sp h) h h') as G.
    { rewrite hyphenAwareSpell_ok. cbn [bind]. rewrite small_first_eq. fold (dict sp h). fold (K n).
      exists (code (K n || K v)), h. split; [|split; [apply code_ok|split; [rewrite (proj1 (code_ok _)), AC, orb_true_iff; reflexivity|apply same_refl; auto]]].
      destruct (K n) eqn:Kn; [reflexivity|]. cbn [orb Z.eqb VOIKKO_SPELL_FAILED andb].
      unfold v. destruct dot eqn:D.
      - rewrite hyphenAwareSpell_ok. cbn [bind]. fold (dict sp h).
        assert (firstn (length n - 1) (small_first n) = small_first (firstn (length n - 1) n)) as SF.
        { destruct n as [|c [|c' r]]; reflexivity. }
        rewrite SF. fold (K (firstn (length n - 1) n)). destruct (K (firstn (length n - 1) n)); reflexivity.
      - rewrite Kn. reflexivity. }
    rewrite R0. cbn [bind]. destruct EC as [EC|EC]; rewrite EC; exact G.
  - (* letters with a regular shape: the lower-case word is not empty even without its dot *)
    assert ((1 <= length v)%nat) as LV.
    { unfold v. destruct dot eqn:D; [|destruct n; cbn; [congruence|lia]].
      rewrite firstn_length. destruct n as [|c [|c' r]]; [congruence| |cbn; lia]. exfalso.
      unfold dot in D. apply andb_true_iff in D. destruct D as (_ & D). cbn in L1. injection L1 as <-.
      assert (c = 46) as -> by lia. revert EC. unfold eff_case. vm_compute. intuition discriminate. }
    assert ((1 <= length n)%nat) as LN by (destruct n; cbn; [congruence|lia]).
    assert (unicode_word v) as UV.
    { unfold v. destruct dot; auto. unfold unicode_word in *. rewrite Forall_forall in UN |- *. intros x Hx. apply UN.
      rewrite <- (firstn_skipn (length n - 1) n). apply in_or_app; auto. }
    assert (firstn (if dot then (length n - 1)%nat else length n) (map lower n) = map lower v) as FV.
    { unfold v. destruct dot; [apply firstn_map|]. rewrite <- (map_length lower n). apply firstn_all. }
    assert (forall u, judge h (eff_case h n) (dict sp h (map lower u)) = code (judgement_of_shape h (eff_case h n) (dict sp h) n u)) as JG.
    { intros u. destruct EC as [-> |[-> | ->]]; cbn; destruct (dict sp h (map lower u)); try destruct (accept_first_uppercase h); reflexivity. }
    destruct (cached_ok sp h (map lower v)) as (h1 & E1 & SB1); auto using lower_word. { rewrite map_length; auto. }
    assert (exists r h', ('(sres, h1) <- voikko_cached_spell sp h (firstn (if dot then (length n - 1)%nat else length n) (map lower n)) ;;
       if judge h (eff_case h n) sres =? VOIKKO_SPELL_OK then Ok (VOIKKO_SPELL_OK, h1)
       else if dot then ('(sres2, h2) <- voikko_cached_spell sp h1 (map lower n) ;; Ok (judge h (eff_case h n) sres2, h2))
       else Ok (judge h (eff_case h n) sres, h1)) = Ok (r, h') /\
      (r = VOIKKO_SPELL_OK \/ r = VOIKKO_SPELL_FAILED) /\
      (r = VOIKKO_SPELL_OK <-> accepted sp h w) /\ same_but_cache (dict sp h) h h') as G.
    { rewrite FV, E1. cbn [bind]. rewrite JG. set (J := judgement_of_shape h (eff_case h n) (dict sp h) n) in *.
      destruct (J v) eqn:Jv.
      - exists VOIKKO_SPELL_OK, h1. cbn [code Z.eqb VOIKKO_SPELL_OK]. split; [reflexivity|]. split; auto. split; [|auto]. rewrite AC. tauto.
      - cbn [code Z.eqb VOIKKO_SPELL_OK VOIKKO_SPELL_FAILED]. destruct dot eqn:D.
        + destruct (cached_ok sp h1 (map lower n)) as (h2 & E2 & SB2); auto using lower_word.
          { rewrite (same_dict _ sp _ _ SB1). apply SB1. } { rewrite map_length; auto. }
          rewrite (same_dict _ sp _ _ SB1) in *. rewrite E2. cbn [bind]. rewrite JG. fold J.
          exists (code (J n)), h2. split; [reflexivity|]. split; [apply code_ok|]. split; [|eapply same_trans; eauto].
          rewrite (proj1 (code_ok _)), AC. intuition discriminate.
        + exists VOIKKO_SPELL_FAILED, h1. split; [reflexivity|]. split; auto. split; [|auto]. rewrite AC. unfold v in Jv. rewrite Jv. intuition discriminate. }
    destruct EC as [EC|[EC|EC]]; rewrite EC in G |- *; exact G.
Qed.
