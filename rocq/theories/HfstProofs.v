(** Lemmas about the HFST speller. *)
From Verif Require Import Base BaseFacts CharModel CharSpec CharProofs SpellerBase CacheModel CacheProofs HandleModel SpellModel SpellSpec SpellProofs SpellProps
  Utf8Model Utf8Spec Utf8Proofs SuggestModel SuggestSpec SuggestOut HfstModel HfstSpec.

(** ** Texts that have a UTF-8 form *)
Lemma encodable_small : forall c, 0 <= c < 0xD800 -> encodable c.
Proof. intros c H. unfold encodable. lia. Qed.

Lemma case_encodable : forall c, encodable c -> encodable (lower c) /\ encodable (upper c).
Proof.
  intros c H. destruct (Z_lt_dec c 0x600).
  - assert (in_range 0 0xD7FF (lower c) && in_range 0 0xD7FF (upper c) = true) as E.
    { apply (zrange_forallb (fun c => in_range 0 0xD7FF (lower c) && in_range 0 0xD7FF (upper c)) 0x600); [vm_compute; reflexivity|].
      change (Z.of_nat 0x600) with 0x600. unfold encodable in H. lia. }
    apply andb_true_iff in E. destruct E as [E1 E2]. apply in_range_spec in E1. apply in_range_spec in E2.
    split; apply encodable_small; lia.
  - rewrite lower_id_out, upper_id_out by lia. auto.
Qed.

Lemma lower_encodable : forall w, Forall encodable w -> Forall encodable (map lower w).
Proof. induction 1; constructor; auto. now apply case_encodable. Qed.
Lemma upper_encodable : forall w, Forall encodable w -> Forall encodable (map upper w).
Proof. induction 1; constructor; auto. now apply case_encodable. Qed.

Lemma norm1_encodable : forall c, encodable c -> Forall encodable (norm1 c).
Proof.
  intros c H. destruct (norm1_cases c) as [(l & U & ->) | (_ & ->)]; [|repeat constructor; apply H].
  inversion U; subst; repeat constructor; cbn; lia.
Qed.

Lemma find2_encodable : forall a b x, find2 CONV_2TO1 a b = Some x -> encodable x.
Proof.
  intros a b x H. apply find2_some in H.
  assert (forallb (fun r => in_range 0 0xD7FF (snd r)) CONV_2TO1 = true) as A by (vm_compute; reflexivity).
  rewrite forallb_forall in A. specialize (A _ H). cbn [snd] in A. apply in_range_spec in A. apply encodable_small. lia.
Qed.

Lemma norm_encodable : forall w n, voikko_normalise w = Ok n -> Forall encodable w -> Forall encodable n.
Proof.
  intros w n E. rewrite normalise_ok in E. assert (n = norm_loop w) as -> by congruence. clear E.
  induction w using list_ind2; intros F.
  - constructor.
  - cbn [norm_loop]. rewrite app_nil_r. inversion F; subst. apply norm1_encodable; auto.
  - rewrite norm_loop_cons2. inversion F as [|? ? Ha F']; subst. inversion F' as [|? ? Hb F'']; subst.
    destruct (find2 CONV_2TO1 a b) eqn:E.
    + constructor; eauto using find2_encodable.
    + apply Forall_app. split; auto. apply norm1_encodable; auto.
Qed.

(** ** The speller as a function *)
Definition hknows (d : acceptor) (w : list Z) : bool := d (utf8_text w).

Definition hfst_fun (d : acceptor) (aau : bool) (w : list Z) : spellresult :=
  if hknows d w then SPELL_OK
  else match w with
  | [] => SPELL_FAILED
  | c :: r =>
      if isLower c then
        if hknows d (upper c :: r) then SPELL_CAP_FIRST
        else if aau && ct_eqb (voikko_casetype (upper c :: r)) CT_FIRST_UPPER && hknows d (upper c :: map upper r) then SPELL_CAP_ERROR
        else SPELL_FAILED
      else SPELL_FAILED
  end.

Lemma doSpell_ok : forall d w, Forall encodable w -> doSpell d w = Ok (if hknows d w then SPELL_OK else SPELL_FAILED).
Proof.
  intros d w H. unfold doSpell, hknows. rewrite utf8FromUcs4_ok. destruct (append_all_encoded w H) as [-> _]. reflexivity.
Qed.

Lemma hfst_spell_ok : forall d aau w, Forall encodable w -> hfst_spell d aau w = Ok (hfst_fun d aau w).
Proof.
  intros d aau w H. unfold hfst_spell, hfst_fun. rewrite (doSpell_ok d w H). cbn [bind].
  destruct (hknows d w); [reflexivity|]. destruct w as [|c r]; [reflexivity|]. destruct (isLower c); [|reflexivity].
  inversion H as [|? ? H1 H2]; subst. destruct (case_encodable c H1) as [_ U].
  rewrite (doSpell_ok d (upper c :: r)) by (constructor; auto). cbn [bind].
  destruct (hknows d (upper c :: r)); [reflexivity|].
  destruct (aau && ct_eqb (voikko_casetype (upper c :: r)) CT_FIRST_UPPER); [|reflexivity].
  rewrite (doSpell_ok d (upper c :: map upper r)) by (constructor; auto using upper_encodable). cbn [bind andb].
  destruct (hknows d (upper c :: map upper r)); reflexivity.
Qed.

Lemma ct_eqb_spec : forall a b, ct_eqb a b = true <-> a = b.
Proof. intros [] []; cbn; split; congruence. Qed.

Lemma hknows_spec : forall d w, hknows d w = true <-> knows d w.
Proof. reflexivity. Qed.
Lemma hknows_not : forall d w, hknows d w = false <-> ~ knows d w.
Proof. intros d w. unfold hknows, knows. destruct (d (utf8_text w)); split; congruence. Qed.

Lemma verdict_fun : forall d aau w r, hfst_verdict d aau w r <-> (hfst_fun d aau w = r /\ r <> SPELL_FAILED).
Proof.
  intros d aau w r. unfold hfst_fun. split.
  - intros H. inversion H as [v K|c q K1 S K2|c q K1 S K2 A C K3]; subst.
    + apply hknows_spec in K. rewrite K. split; [reflexivity|discriminate].
    + apply hknows_not in K1. apply hknows_spec in K2. apply isLower_spec in S. rewrite K1, S, K2. split; [reflexivity|discriminate].
    + apply hknows_not in K1. apply hknows_not in K2. apply isLower_spec in S. apply shape_capitalised in C. cbn [map] in K3. apply hknows_spec in K3.
      rewrite K1, S, K2, C, K3. split; [reflexivity|discriminate].
  - intros [E N]. destruct (hknows d w) eqn:K; [subst r; constructor; exact K|]. destruct w as [|c q]; [congruence|].
    destruct (isLower c) eqn:L; [|congruence]. apply hknows_not in K. apply isLower_spec in L.
    destruct (hknows d (upper c :: q)) eqn:K2; [subst r; apply hv_initial; auto|]. apply hknows_not in K2.
    destruct aau; [|cbn in E; congruence]. cbn [andb] in E.
    destruct (ct_eqb (voikko_casetype (upper c :: q)) CT_FIRST_UPPER) eqn:C; [|cbn in E; congruence]. cbn [andb] in E.
    destruct (hknows d (upper c :: map upper q)) eqn:K3; [|congruence]. subst r. apply ct_eqb_spec, shape_capitalised in C. apply hv_capitals; auto.
Qed.

(** ** Only words with a UTF-8 form are looked up *)
Lemma firstn_all_of : forall (P : Z -> Prop) k l, Forall P l -> Forall P (firstn k l).
Proof. intros P k l H. rewrite <- (firstn_skipn k l) in H. apply Forall_app in H. apply H. Qed.

Section Extension.
  Variables f g : speller.
  Hypothesis same : forall v, Forall encodable v -> f v = g v.

  Lemma hyphen_ext : forall h v, Forall encodable v -> hyphenAwareSpell (fun _ => f) h v = hyphenAwareSpell (fun _ => g) h v.
  Proof.
    intros h v H. unfold hyphenAwareSpell. rewrite (same v H). destruct (negb (spell_failed (g v)) || negb (accept_missing_hyphens h)); [reflexivity|].
    destruct (length v <? 2)%nat; [reflexivity|]. destruct (rd v 0) as [c0| |]; [cbn [bind]|reflexivity|reflexivity].
    destruct (last_char v) as [cl| |]; [cbn [bind]|reflexivity|reflexivity]. destruct ((c0 =? 0x2D) && (cl =? 0x2D)); [reflexivity|].
    f_equal. apply same. assert (encodable 0x2D) as E by (apply encodable_small; lia).
    destruct (c0 =? 0x2D); [apply Forall_app; split; auto|]. apply Forall_app. split; [auto|]. apply Forall_app. split; [auto|].
    destruct (cl =? 0x2D); constructor; auto.
  Qed.

  Lemma cached_ext : forall h v, Forall encodable v -> voikko_cached_spell (fun _ => f) h v = voikko_cached_spell (fun _ => g) h v.
  Proof. intros h v H. unfold voikko_cached_spell. rewrite (hyphen_ext h v H). reflexivity. Qed.

  Lemma bind_ext : forall (A B : Type) (e : res A) (k k' : A -> res B), (forall a, k a = k' a) -> bind e k = bind e k'.
  Proof. intros A B [a| |] k k' H; cbn; auto. Qed.

  Lemma spell_ext : forall h w, Forall encodable w -> voikkoSpellUcs4 (fun _ => f) h w = voikkoSpellUcs4 (fun _ => g) h w.
  Proof.
    intros h w H. unfold voikkoSpellUcs4. destruct (Nat.eqb (length w) 0); [reflexivity|]. destruct (MAX_WORD_CHARS <? length w)%nat; [reflexivity|].
    destruct (voikko_normalise w) as [n| |] eqn:N; [cbn [bind]|reflexivity|reflexivity]. pose proof (norm_encodable w n N H) as HN.
    assert (forall k, Forall encodable (firstn k (map lower n))) as HL by (intros k; apply firstn_all_of, lower_encodable, HN).
    assert (Forall encodable (map lower n)) as HM by (apply lower_encodable, HN).
    assert (Forall encodable (lower_first n)) as HF by (destruct HN as [|x l X HN]; [constructor|constructor; auto; apply case_encodable; auto]).
    destruct (ignore_numbers h && existsb isDigit n); [reflexivity|]. apply bind_ext. intros [|]; [reflexivity|]. apply bind_ext. intros dot.
    assert (forall h v, Forall encodable v -> voikko_cached_spell (fun _ => f) h v = voikko_cached_spell (fun _ => g) h v) as CE by apply cached_ext.
    destruct (if is_all_upper (voikko_casetype n) && negb (accept_all_uppercase h) then CT_COMPLEX else voikko_casetype n);
      try (apply bind_ext; intros first; rewrite (hyphen_ext h _ HF); apply bind_ext; intros sres;
           destruct ((if exact_ok h first sres then VOIKKO_SPELL_OK else VOIKKO_SPELL_FAILED) =? VOIKKO_SPELL_FAILED); [|reflexivity];
           destruct dot; [|reflexivity]; cbn [andb]; rewrite hyphen_ext by (apply firstn_all_of, HF); reflexivity);
      rewrite (CE h _ (HL _)); apply bind_ext; intros [sres h1]; match goal with |- context [if ?b then _ else _] => destruct b end; try reflexivity;
      destruct dot; try reflexivity; rewrite (CE h1 _ HM); reflexivity.
  Qed.
End Extension.

(** ** The cache *)
Lemma option_kept : forall d a b w, hfst_fun d a w = SPELL_OK \/ hfst_fun d a w = SPELL_CAP_FIRST -> hfst_fun d b w = hfst_fun d a w.
Proof.
  intros d a b w. unfold hfst_fun. destruct (hknows d w); [reflexivity|]. destruct w as [|c r]; [reflexivity|]. destruct (isLower c); [|reflexivity].
  destruct (hknows d (upper c :: r)); [reflexivity|].
  destruct (a && ct_eqb (voikko_casetype (upper c :: r)) CT_FIRST_UPPER && hknows d (upper c :: map upper r)); intros [H|H]; discriminate.
Qed.

Lemma answers_fun : forall d h f, answers_as d h f -> forall v, Forall encodable v -> f v = hfst_fun d (accept_all_uppercase h) v.
Proof. intros d h f A v E. pose proof (A v E) as X. rewrite hfst_spell_ok in X by exact E. congruence. Qed.

Definition hfst_dict (d : acceptor) (h : handle) : speller := dict (fun _ => hfst_fun d (accept_all_uppercase h)) h.

Lemma aau_kept : forall h o b, o <> 7 -> accept_all_uppercase (snd (voikkoSetBooleanOption h o b)) = accept_all_uppercase h.
Proof.
  intros h o b N. unfold voikkoSetBooleanOption.
  repeat match goal with
  | |- context [match ?x with _ => _ end] => is_var x; destruct x; try reflexivity; try congruence
  | |- context [if ?x then _ else _] => destruct x; try reflexivity
  | |- context [let '(_, _) := ?x in _] => destruct x; try reflexivity
  end.
Qed.

Lemma used_ok : forall d h, hfst_used d h -> cache_ok (hfst_dict d h) (spellerCache h).
Proof.
  intros d h R. induction R as [h E|h o b R IH A B|h o v r h' R IH L E|h f w r h' R IH F U Z E].
  - destruct init_ok as (h' & E' & C). rewrite E in E'. injection E' as <-. apply C.
  - rewrite bool_keeps_cache. destruct (spellerCache h) as [c|] eqn:SC; [|exact I].
    assert (dict (fun _ => hfst_fun d (accept_all_uppercase h)) (snd (voikkoSetBooleanOption h o b)) = hfst_dict d h) as D.
    { assert (forall e, dict (fun _ => hfst_fun d (accept_all_uppercase h)) (with_extra_hyphens h e) = hfst_dict d h) as X by reflexivity.
      destruct (Z.eq_dec o 11) as [-> |N11]; [apply X|]. apply bool_keeps_dict; [congruence|].
      intros O. destruct (A O); auto; discriminate. }
    destruct (Z.eq_dec o 7) as [-> |N7]; [|unfold hfst_dict; rewrite (aau_kept h o b N7); rewrite D; exact IH].
    destruct (B eq_refl) as [-> |[M|]]; [| |discriminate].
    + change (hfst_dict d (with_all_uppercase h (accept_all_uppercase h))) with (hfst_dict d h). exact IH.
    + change (snd (voikkoSetBooleanOption h 7 b)) with (with_all_uppercase h b).
      cbn [cache_ok] in *. destruct IH as [W IH]. split; [exact W|]. intros w H1 H2 H3. destruct (IH w H1 H2 H3) as [I1 I2].
      assert (forall a w, hw (hfst_fun d a) false w = hfst_fun d a w) as HW by (intros a x; unfold hw; destruct (hfst_fun d a x); reflexivity).
      assert (hfst_dict d (with_all_uppercase h b) w = hfst_dict d h w) as ->; [|auto].
      unfold hfst_dict, dict in *. cbn [accept_missing_hyphens with_all_uppercase accept_all_uppercase]. rewrite M, !HW in *. apply option_kept; auto.
  - destruct (int_keeps (fun _ => hfst_fun d (accept_all_uppercase h)) h o v r h' L E IH) as (D & C).
    assert (accept_all_uppercase h' = accept_all_uppercase h) as X.
    { unfold voikkoSetIntegerOption in E.
      repeat match type of E with
      | context [match ?x with _ => _ end] => destruct x; try discriminate; try (injection E as <- <-; reflexivity)
      | context [bind ?x _] => destruct x; cbn [bind] in E; try discriminate; try (injection E as <- <-; reflexivity)
      end. }
    unfold hfst_dict. rewrite X, D. exact C.
  - rewrite (spell_ext f (hfst_fun d (accept_all_uppercase h)) (answers_fun d h f F) h w U) in E.
    destruct (spell_exact (fun _ => hfst_fun d (accept_all_uppercase h)) h w (encodable_code_point w U Z) IH) as (r' & h2 & E' & _ & _ & SB).
    rewrite E in E'. injection E' as <- <-. destruct SB as (SB1 & SB2 & _). unfold hfst_dict at 1. rewrite SB1. exact SB2.
Qed.

(** ** Capital letters *)
Lemma upper_of_not_small : forall c, ~ small c -> upper c = c.
Proof. intros c N. destruct (Z.eq_dec (upper c) c) as [E|E]; [exact E|]. exfalso. apply N, isLower_spec. unfold isLower. destruct (Z.eqb_spec c (upper c)); [congruence|reflexivity]. Qed.

Lemma capital_not_small : forall c, capital c -> ~ small c.
Proof. intros c C S. apply isLower_spec in S. eapply upper_lower_excl; [apply isUpper_spec; left; exact C|exact S]. Qed.

Lemma capital_small : forall c, capital c -> c <> SCHWA -> small (lower c) /\ upper (lower c) = c.
Proof.
  intros c C N. split; [apply isLower_spec, isLower_lower; [apply isUpper_spec; auto|exact N]|].
  destruct (case_laws c) as (_ & _ & _ & ->). apply upper_of_not_small, capital_not_small, C.
Qed.

Lemma schwa_not_capital : ~ capital SCHWA.
Proof. intros [l H]. apply case_pair_lower in H. destruct H as [H1 H2]. apply H1. rewrite <- H2. reflexivity. Qed.

Lemma capital_of : forall c, ~ small c -> small (lower c) -> capital c.
Proof.
  intros c N H. exists (lower c). apply case_pair_lower. split; [|reflexivity]. intros E. rewrite <- E in H. auto.
Qed.

Lemma upper_capitals : forall w, no_small w -> map upper w = w.
Proof. induction 1; cbn; [reflexivity|]. rewrite upper_of_not_small by auto. now f_equal. Qed.

Lemma upper_of_lower : forall w, map upper (map lower w) = map upper w.
Proof. intros w. rewrite map_map. apply map_ext. intros c. apply case_laws. Qed.

Lemma lower_still : forall r, no_small r -> ~ In SCHWA r -> no_small (map lower r) -> map lower r = r.
Proof.
  induction r as [|x r IH]; intros N S L; [reflexivity|]. cbn in *. inversion N; subst. inversion L; subst. f_equal.
  - destruct (Z.eq_dec (lower x) x) as [E|E]; [exact E|]. exfalso.
    assert (capital x) as C by (exists (lower x); apply case_pair_lower; split; [congruence|reflexivity]).
    apply capital_small in C; [|intros ->; apply S; auto]. tauto.
  - apply IH; auto.
Qed.

Lemma lower_no_capital : forall r, ~ In SCHWA r -> no_capital (map lower r).
Proof.
  induction r as [|x r IH]; intros S; [constructor|]. cbn in *. constructor; [|apply IH; auto].
  assert (x <> SCHWA) as N by (intros ->; apply S; auto). pose proof (isUpper_lower x N) as U.
  split; intros C; assert (isUpper (lower x) = true) by (apply isUpper_spec; auto); congruence.
Qed.

Lemma no_capital_no_schwa : forall r, no_capital (map lower r) -> ~ In SCHWA r.
Proof.
  intros r H I. apply (in_map lower) in I. change (lower SCHWA) with SCHWA in I. unfold no_capital in H. rewrite Forall_forall in H. apply H in I. tauto.
Qed.

(** ** Words with and without the full stop *)
Lemma form_shape : forall b n v, form b n v -> (no_capital n -> no_capital v) /\ (no_small n -> no_small v) /\
  (forall c r, v = c :: r -> exists q, n = c :: q /\ (no_capital q -> no_capital r)).
Proof.
  intros b n v F. inversion F; subst.
  - repeat split; auto. intros c r ->. eauto.
  - split; [intros H; apply Forall_app in H; apply H|]. split; [intros H; apply Forall_app in H; apply H|].
    intros c r ->. exists (r ++ [0x2E]). split; [reflexivity|]. intros H. apply Forall_app in H. apply H.
Qed.

Lemma fun_ok : forall d a v, hfst_fun d a v = SPELL_OK <-> knows d v.
Proof.
  intros d a v. split.
  - intros H. assert (hfst_verdict d a v SPELL_OK) as X by (apply verdict_fun; split; [exact H|discriminate]). inversion X; auto.
  - intros H. apply (verdict_fun d a v SPELL_OK). now constructor.
Qed.

Lemma fun_first : forall d a v, hfst_fun d a v = SPELL_CAP_FIRST <-> exists c r, v = c :: r /\ ~ knows d v /\ small c /\ knows d (upper c :: r).
Proof.
  intros d a v. split.
  - intros H. assert (hfst_verdict d a v SPELL_CAP_FIRST) as X by (apply verdict_fun; split; [exact H|discriminate]). inversion X; subst. eauto 7.
  - intros (c & r & -> & A & B & C). apply (verdict_fun d a (c :: r) SPELL_CAP_FIRST). now constructor.
Qed.

Lemma plain_verdict : forall f v r, verdict f false v r <-> (f v = r /\ r <> SPELL_FAILED).
Proof. intros f v r. rewrite verdict_hw. unfold hw. destruct (f v); cbn; tauto. Qed.

Lemma dictionary_found : forall d h b n v, form b n v -> in_dictionary d h n v ->
  justified (fun _ => hfst_fun d (accept_all_uppercase h)) h n v.
Proof.
  intros d h b n v F. destruct (form_shape b n v F) as (FC & FS & FH).
    set (f := hfst_fun d (accept_all_uppercase h)).
    assert (forall r, f (map lower v) = r -> r <> SPELL_FAILED -> verdict f (accept_missing_hyphens h) (map lower v) r) as VL
      by (intros r E N; subst r; apply verdict_known; exact N).
    assert (forall r, f (small_first v) = r -> r <> SPELL_FAILED -> verdict f (accept_missing_hyphens h) (small_first v) r) as VF
      by (intros r E N; subst r; apply verdict_known; exact N).
    intros J. destruct J as [S K|S A K|c r S E C K1 K2|S A K|c r S A E C K|c r S A E C NS K|S1 S2 S3 K|c r S1 S2 S3 E C A K].
    + apply just_small; auto. apply VL; [|discriminate]. apply fun_ok. rewrite small_lower by (apply FC, S). exact K.
    + apply just_capitalised_common; auto. apply VL; [|discriminate]. apply fun_ok. exact K.
    + apply just_capitalised_proper; auto. apply VL; [|discriminate]. apply fun_first. subst v.
      destruct (FH c r eq_refl) as (q & -> & NC). pose proof S as (_ & c' & r' & E & CC & NR). injection E as <- <-. specialize (NC NR).
      assert (c <> SCHWA) as NS by (intros ->; exact (schwa_not_capital C)). destruct (capital_small c C NS) as [SM U].
      exists (lower c), (map lower r). split; [reflexivity|]. split; [exact K1|]. split; [exact SM|]. rewrite U, (small_lower r NC). exact K2.
    + apply (just_capitals _ _ _ _ SPELL_OK); auto. apply VL; [|discriminate]. apply fun_ok. exact K.
    + subst v. assert (c <> SCHWA) as NS by (intros ->; exact (schwa_not_capital C)). destruct (capital_small c C NS) as [SM U].
      apply (just_capitals _ _ _ _ (f (map lower (c :: r)))); auto. apply VL; [reflexivity|]. unfold f. intros W.
      assert (~ knows d (map lower (c :: r))) as NK by (intros X; apply (fun_ok d (accept_all_uppercase h)) in X; congruence).
      assert (hfst_fun d (accept_all_uppercase h) (map lower (c :: r)) = SPELL_CAP_FIRST) as X; [|congruence].
      apply fun_first. exists (lower c), (map lower r). rewrite U. auto.
    + subst v. assert (c <> SCHWA) as NSc by (intros ->; exact (schwa_not_capital C)). destruct (capital_small c C NSc) as [SM U].
      apply (just_capitals _ _ _ _ (f (map lower (c :: r)))); auto. apply VL; [reflexivity|]. unfold f. intros W.
      assert (~ knows d (map lower (c :: r))) as NK by (intros X; apply (fun_ok d (accept_all_uppercase h)) in X; congruence).
      assert (~ knows d (c :: map lower r)) as NK2.
      { intros X. assert (hfst_fun d (accept_all_uppercase h) (map lower (c :: r)) = SPELL_CAP_FIRST) as Y; [|congruence].
        apply fun_first. exists (lower c), (map lower r). rewrite U. auto. }
      assert (NV : no_small (c :: r)) by (apply FS, S). assert (NR : no_small r) by (inversion NV; auto).
      assert (hfst_fun d (accept_all_uppercase h) (map lower (c :: r)) = SPELL_CAP_ERROR) as X; [|congruence].
      apply (verdict_fun d (accept_all_uppercase h) (map lower (c :: r)) SPELL_CAP_ERROR). cbn [map]. apply hv_capitals; auto.
      * rewrite U. exact NK2.
      * rewrite U. split.
        -- intros X. inversion X as [|? ? _ X']; subst. apply NK2. rewrite (lower_still r NR NS X'). exact K.
        -- exists c, (map lower r). auto using lower_no_capital.
      * change (lower c :: map lower r) with (map lower (c :: r)). rewrite upper_of_lower, upper_capitals by exact NV. exact K.
    + apply just_exact; auto. apply VF; [|discriminate]. apply fun_ok. exact K.
    + subst v. assert (c <> SCHWA) as NSc by (intros ->; exact (schwa_not_capital C)). destruct (capital_small c C NSc) as [SM U].
      destruct (FH c r eq_refl) as (q & En & NC).
      destruct (hknows d (small_first (c :: r))) eqn:K1.
      * apply just_exact; auto. apply VF; [|discriminate]. apply fun_ok. exact K1.
      * apply hknows_not in K1. apply (just_exact_proper _ _ _ _ c q); auto. apply VF; [|discriminate]. apply fun_first.
        exists (lower c), r. rewrite U. auto.
Qed.

Lemma dictionary_justified : forall d h b n v, accept_missing_hyphens h = false -> form b n v ->
  (justified (fun _ => hfst_fun d (accept_all_uppercase h)) h n v <-> in_dictionary d h n v).
Proof.
  intros d h b n v M F. destruct (form_shape b n v F) as (FC & FS & FH). split.
  - intros J. destruct J as [S V|S A V|S V|r0 S A V|S1 S2 S3 V|c0 r0 S1 S2 S3 E C A V]; rewrite M in V; apply plain_verdict in V; destruct V as [V NF].
    + apply fun_ok in V. rewrite small_lower in V by (apply FC, S). apply in_small; auto.
    + apply fun_ok in V. apply in_common; auto.
    + apply fun_first in V. destruct V as (x & q & E & K & SM & K2). destruct v as [|c r]; [discriminate|]. cbn [map] in E. injection E as <- <-.
      destruct (FH c r eq_refl) as (q & -> & NC). pose proof S as (_ & c' & r' & E & CC & NR). injection E as <- <-. specialize (NC NR).
      assert (capital c) as C by (destruct CC as [C| ->]; [exact C|apply isLower_spec in SM; vm_compute in SM; discriminate]).
      assert (c <> SCHWA) as NS by (intros ->; exact (schwa_not_capital C)). destruct (capital_small c C NS) as [_ U]. rewrite U, (small_lower r NC) in K2.
      apply (in_proper d h (c :: q) (c :: r) c r); auto.
    + assert (no_small v) as NV by (apply FS, S).
      destruct (hfst_fun d (accept_all_uppercase h) (map lower v)) eqn:W; [congruence| | |].
      * apply fun_ok in W. apply in_capitals_common; auto.
      * apply fun_first in W. destruct W as (x & q & E & K & SM & K2). destruct v as [|c r]; [discriminate|]. cbn [map] in E. injection E as <- <-.
        inversion NV; subst. assert (capital c) as C by (apply capital_of; auto). assert (c <> SCHWA) as NS by (intros ->; exact (schwa_not_capital C)).
        destruct (capital_small c C NS) as [_ U]. rewrite U in K2. apply (in_capitals_proper d h n (c :: r) c r); auto.
      * assert (hfst_verdict d (accept_all_uppercase h) (map lower v) SPELL_CAP_ERROR) as X by (apply verdict_fun; split; [exact W|discriminate]).
        inversion X as [| |x q K1 SM K2 CO CP K3 E]; subst. destruct v as [|c r]; [discriminate|]. cbn [map] in E. injection E as -> ->.
        inversion NV; subst. assert (capital c) as C by (apply capital_of; auto).
        change (lower c :: map lower r) with (map lower (c :: r)) in K3. rewrite upper_of_lower, upper_capitals in K3 by exact NV.
        destruct CP as (_ & c' & r' & E & _ & NR). injection E as _ <-.
        apply (in_capitals d h n (c :: r) c r); auto using no_capital_no_schwa.
    + apply fun_ok in V. apply in_exact; auto.
    + apply fun_first in V. destruct V as (x & q & E2 & K & SM & K2). destruct v as [|c r]; [discriminate|]. cbn [small_first] in E2. injection E2 as <- <-.
      destruct (FH c r eq_refl) as (q & E3 & NC). subst n. injection E3 as -> ->.
      assert (capital c) as C' by (destruct C as [C| ->]; [exact C|apply isLower_spec in SM; vm_compute in SM; discriminate]).
      assert (c <> SCHWA) as NS by (intros ->; exact (schwa_not_capital C')). destruct (capital_small c C' NS) as [_ U]. rewrite U in K2.
      apply (in_exact_proper d h (c :: q) (c :: r) c r); auto.
  - apply (dictionary_found d h b n v F).
Qed.
