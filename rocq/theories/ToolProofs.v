(** Lemmas about the command line tools. *)
From Verif Require Import Base BaseFacts CharModel CharSpec SpellerBase CacheModel CacheProofs HandleModel Utf8Model Utf8Spec Utf8Proofs
  SpellModel SpellSpec SpellProofs SpellProps AnalysisModel AnalyzerBase HyphModel HyphSpec HyphProofs HyphProps SuggestModel ToolModel ToolSpec ToolThreads.

(** ** Handles *)

Lemma set_up_fresh : forall h, set_up h -> forall f, cache_ok f (spellerCache h).
Proof.
  intros h S. induction S as [h E|h v r h' S IH L E|h o b S IH]; intros f.
  - destruct init_ok as (h' & E' & C). rewrite E in E'. injection E' as <-. apply C.
  - unfold voikkoSetIntegerOption in E. destruct (spellerCache h) as [c|] eqn:SC.
    + destruct (negb (sizeParam c =? v)); [destruct (Z.leb_spec 0 v)|].
      * destruct (new_cache v) as [c'| |] eqn:NC; try discriminate. cbn [bind] in E. injection E as <- <-. cbn. eapply consistent_new with (s := v); eauto; lia.
      * injection E as <- <-. exact I.
      * injection E as <- <-. rewrite SC. apply IH.
    + destruct (Z.leb_spec 0 v).
      * destruct (new_cache v) as [c'| |] eqn:NC; try discriminate. cbn [bind] in E. injection E as <- <-. cbn. eapply consistent_new with (s := v); eauto; lia.
      * injection E as <- <-. rewrite SC. exact I.
  - rewrite bool_keeps_cache. apply IH.
Qed.

(** The states of a handle while words are checked: the options of [base], some
    cache. *)
Definition fit (lib : library) (base h : handle) : Prop :=
  with_spellerCache h None = with_spellerCache base None /\ cache_ok (dict (lib_spell lib) base) (spellerCache h).

Lemma fit_refl : forall lib h, cache_ok (dict (lib_spell lib) h) (spellerCache h) -> fit lib h h.
Proof. intros. split; auto. Qed.

Lemma fit_dict : forall lib base h, fit lib base h -> dict (lib_spell lib) h = dict (lib_spell lib) base.
Proof.
  intros lib base h (E & _).
  change (dict (lib_spell lib) (with_spellerCache h None) = dict (lib_spell lib) (with_spellerCache base None)). rewrite E. auto.
Qed.

Lemma fit_accepted : forall lib base h w, fit lib base h -> (accepted (lib_spell lib) h w <-> accepted (lib_spell lib) base w).
Proof. intros lib base h w (E & _). rewrite <- (accepted_cache _ h None), <- (accepted_cache _ base None), E. tauto. Qed.

Lemma fit_suggest : forall lib base h w, fit lib base h ->
  voikkoSuggestUcs4 (lib_generate lib (ocrSuggestions h)) h w = voikkoSuggestUcs4 (lib_generate lib (ocrSuggestions base)) base w.
Proof.
  intros lib base h w (E & _).
  change (voikkoSuggestUcs4 (lib_generate lib (ocrSuggestions (with_spellerCache h None))) (with_spellerCache h None) w =
          voikkoSuggestUcs4 (lib_generate lib (ocrSuggestions (with_spellerCache base None))) (with_spellerCache base None) w). rewrite E. auto.
Qed.

Lemma fit_step : forall lib base h h', fit lib base h -> same_but_cache (dict (lib_spell lib) h) h h' -> fit lib base h'.
Proof.
  intros lib base h h' F (E & C & _). split.
  - rewrite E. cbn. apply F.
  - rewrite <- (fit_dict _ _ _ F). auto.
Qed.

(** ** Reports *)

Lemma accepted_not : forall sp h w r, (r = VOIKKO_SPELL_OK \/ r = VOIKKO_SPELL_FAILED) -> (r = VOIKKO_SPELL_OK <-> accepted sp h w) ->
  (r = VOIKKO_SPELL_FAILED <-> ~ accepted sp h w).
Proof.
  intros sp h w r [-> | ->] E.
  - split; [discriminate|]. intros X. destruct X. apply E. auto.
  - split; auto. intros _ X. apply E in X. discriminate.
Qed.

Lemma unlines_app : forall a b, unlines (a ++ b) = unlines a ++ unlines b.
Proof. intros. unfold unlines. rewrite map_app, concat_app. auto. Qed.

Lemma keys_printed : forall w i a ks, print_keys w i a (filter (fun k => match a k with Some _ => true | None => false end) ks) =
  Ok (unlines (flat_map (analysis_line w i a) ks)).
Proof.
  intros w i a. induction ks as [|k ks IH]; [reflexivity|]. cbn [filter flat_map]. rewrite unlines_app.
  destruct (a k) as [v|] eqn:E.
  - assert (analysis_line w i a k = [wstr "A(" ++ w ++ wstr "):" ++ decimal i ++ wstr ":" ++ wstr (key_name k) ++ wstr "=" ++ v]) as -> by (unfold analysis_line; rewrite E; auto).
    cbn [print_keys]. rewrite IH, E.
    assert (rd KEY_TO_STRING (key_int k) = Ok (key_name k)) as -> by (destruct k; reflexivity). cbn [bind].
    f_equal. unfold unlines at 2. cbn [map concat]. unfold endl. rewrite app_nil_r, <- !app_assoc. reflexivity.
  - rewrite IH. assert (analysis_line w i a k = []) as -> by (unfold analysis_line; rewrite E; auto). reflexivity.
Qed.

Lemma analyses_printed : forall w l i, print_analyses w i l =
  Ok (unlines (flat_map (fun '(i, a) => flat_map (analysis_line w i a) all_keys) (combine (seq i (length l)) l))).
Proof.
  intros w. induction l as [|a l IH]; intros i; [reflexivity|]. cbn [print_analyses length seq combine flat_map].
  unfold keys_of. rewrite keys_printed, IH. cbn [bind]. rewrite unlines_app. auto.
Qed.

Lemma unlines_one : forall l, unlines [l] = l ++ [10].
Proof. intros. unfold unlines. cbn [map concat]. rewrite app_nil_r. auto. Qed.

Lemma suggestions_printed : forall l, concat (map (fun x => wstr "S: " ++ x ++ endl) l) = unlines (map (fun x => wstr "S: " ++ x) l).
Proof.
  intros l. unfold unlines. rewrite map_map. reflexivity.
Qed.

Lemma mem_exists : forall x l, mem x l = existsb (Z.eqb x) l.
Proof. intros x. induction l as [|y l IH]; [reflexivity|]. cbn [mem existsb]. rewrite IH, (Z.eqb_sym y x). auto. Qed.

Lemma separated : forall cfg l, concat (map (fun x => if space cfg || negb (mem 0x20 x) then wordSeparator cfg :: x else []) l) =
  concat (map (fun x => wordSeparator cfg :: x) (filter (printable cfg) l)).
Proof.
  intros cfg. induction l as [|x l IH]; [reflexivity|]. cbn [map concat filter]. rewrite IH. unfold printable. rewrite mem_exists.
  destruct (space cfg || negb (existsb (Z.eqb 0x20) x)); reflexivity.
Qed.

Lemma report_ok : forall lib cfg base h w, fit lib base h -> checkable lib cfg base w ->
  exists ls h', check_word lib cfg h w = Ok (unlines ls, h') /\ report lib cfg base w ls /\ fit lib base h'.
Proof.
  intros lib cfg base h w F (U & SF).
  assert (exists r h', match checkMode cfg with MODE_NONE => Ok (VOIKKO_SPELL_OK, h) | _ => voikkoSpellUcs4 (lib_spell lib) h w end = Ok (r, h') /\
     fit lib base h' /\ (r = VOIKKO_SPELL_OK \/ r = VOIKKO_SPELL_FAILED) /\ counts_as (lib_spell lib) cfg base w (negb (r =? 0))) as (r & h' & E & F' & RV & CA).
  { destruct (spell_exact (lib_spell lib) h w U) as (r & h' & E & RV & AC & SB).
    { rewrite (fit_dict _ _ _ F). apply F. }
    rewrite (fit_accepted _ _ _ _ F) in AC.
    assert (counts_as (lib_spell lib) cfg base w (negb (r =? 0)) \/ checkMode cfg = MODE_NONE) as [CA|CM].
    { destruct (checkMode cfg) eqn:CM; auto; left; (destruct RV as [-> | ->]; cbn;
        [apply counts_good; [congruence|apply AC; auto]|apply counts_bad; [congruence|]; eapply accepted_not; eauto]). }
    - destruct (checkMode cfg) eqn:CM; try (exists r, h'; split; [auto|]; split; [eapply fit_step; eauto|auto]).
      exists VOIKKO_SPELL_OK, h. split; auto. split; auto. split; auto. cbn. apply counts_unchecked. auto.
    - rewrite CM. exists VOIKKO_SPELL_OK, h. split; auto. split; auto. split; auto. cbn. apply counts_unchecked. auto. }
  unfold check_word. rewrite E. cbn [bind]. rewrite (fit_suggest _ _ _ _ F').
  destruct RV as [-> | ->]; cbn [VOIKKO_SPELL_OK VOIKKO_SPELL_FAILED VOIKKO_CHARSET_CONVERSION_FAILED VOIKKO_INTERNAL_ERROR Z.eqb Pos.eqb orb negb] in *.
  - (* correct *)
    assert ((if morphology cfg && true then printMorphology lib w else Ok []) = Ok (unlines (analysis_lines cfg w (lib_analyzer lib true w)))) as EA.
    { rewrite andb_true_r. unfold analysis_lines, printMorphology. destruct (morphology cfg); [apply analyses_printed|reflexivity]. }
    rewrite EA. rewrite andb_false_r. destruct (oneLineOutput cfg) eqn:OL; cbn [bind].
    + eexists. exists h'. split; [|split; [apply report_one_line_good; auto|auto]].
      change (w :: analysis_lines cfg w (lib_analyzer lib true w)) with ([w] ++ analysis_lines cfg w (lib_analyzer lib true w)).
      rewrite unlines_app, unlines_one, app_nil_r. reflexivity.
    + eexists. exists h'. split; [|split; [apply report_good; auto|auto]].
      rewrite unlines_app, app_nil_r. do 3 f_equal. destruct (checkMode cfg); cbn [verdict_line]; rewrite ?unlines_one; unfold endl; rewrite <- ?app_assoc; reflexivity.
  - (* not correct *)
    rewrite andb_false_r. destruct (oneLineOutput cfg) eqn:OL; cbn [bind negb andb].
    + destruct SF as (l & o & EO & EL); [auto|]. rewrite EO. cbn [bind]. exists [w ++ concat (map (fun x => wordSeparator cfg :: x) (filter (printable cfg) l))], h'.
      split; [|split; [apply report_one_line_bad; auto; exists o; auto|auto]].
      rewrite unlines_one. rewrite !app_nil_r, <- app_assoc. unfold endl. do 4 f_equal. subst l. destruct o as [l|]; [|reflexivity]. rewrite <- separated. reflexivity.
    + assert (match checkMode cfg with
                | MODE_NORMAL => wstr "W: " ++ w ++ endl | MODE_ONLY_C_W => wstr "W" ++ endl | MODE_ONLY_INCORRECT => w ++ endl | MODE_NONE => [] end
              = unlines (verdict_line (checkMode cfg) false w)) as EV.
      { destruct (checkMode cfg); cbn [verdict_line]; rewrite ?unlines_one; unfold endl; rewrite <- ?app_assoc; reflexivity. }
      rewrite EV. destruct (suggest cfg) eqn:SG; cbn [andb].
      * destruct SF as (l & o & EO & EL); [auto|]. rewrite EO. cbn [bind].
        exists (verdict_line (checkMode cfg) false w ++ map (fun x => wstr "S: " ++ x) l), h'.
        split; [|split; [apply report_bad_suggestions; auto; exists o; auto|auto]].
        rewrite unlines_app. do 3 f_equal. subst l. destruct o as [l|]; [|reflexivity]. cbn [app]. rewrite suggestions_printed. reflexivity.
      * cbn [bind]. eexists. exists h'. split; [|split; [apply report_bad; auto|auto]]. rewrite !app_nil_r. reflexivity.
Qed.

Lemma counts_fun : forall sp cfg h w a b, counts_as sp cfg h w a -> counts_as sp cfg h w b -> a = b.
Proof. intros sp cfg h w a b A B. destruct A, B; auto; try congruence; contradiction. Qed.

Lemma suggested_fun : forall lib h w a b, suggested lib h w a -> suggested lib h w b -> a = b.
Proof. intros lib h w a b (o & E & ->) (o' & E' & ->). rewrite E in E'. injection E' as ->. auto. Qed.

Lemma report_fun : forall lib cfg h w a b, report lib cfg h w a -> report lib cfg h w b -> a = b.
Proof.
  intros lib cfg h w a b A B.
  destruct A as [C1 O1|C1 O1 S1|l C1 O1 S1 L1|C1 O1|l C1 O1 L1]; destruct B as [C2 O2|C2 O2 S2|l' C2 O2 S2 L2|C2 O2|l' C2 O2 L2];
    try reflexivity; try congruence; try (pose proof (counts_fun _ _ _ _ _ _ C1 C2); discriminate);
    rewrite (suggested_fun _ _ _ _ _ L1 L2); reflexivity.
Qed.

(** What the program answers to a word. *)
Definition answer_to (lib : library) (cfg : spell_config) (base : handle) (w : list Z) : list Z :=
  match check_word lib cfg base w with Ok (o, _) => o | _ => [] end.

Lemma check_answers : forall lib cfg base, fit lib base base ->
  answers (check_word lib cfg) (fit lib base) (checkable lib cfg base) (answer_to lib cfg base).
Proof.
  intros lib cfg base FB h w F C. destruct (report_ok lib cfg base h w F C) as (ls & h' & E & R & F').
  destruct (report_ok lib cfg base base w FB C) as (ls' & h2 & E2 & R2 & _).
  exists h'. split; auto. rewrite E. unfold answer_to. rewrite E2, (report_fun _ _ _ _ _ _ R R2). auto.
Qed.

Lemma check_words_answers : forall H (chk : H -> list Z -> res (list Z * H)) ft ok ans, answers chk ft ok ans -> forall ws h, ft h -> Forall ok ws ->
  exists h', check_words chk h ws = Ok (concat (map ans ws), h') /\ ft h'.
Proof.
  intros H chk ft ok ans A. induction ws as [|w ws IH]; intros h F W.
  - exists h. auto.
  - inversion W as [|? ? W1 W2]; subst. destruct (A h w F W1) as (h1 & E1 & F1). destruct (IH h1 F1 W2) as (h2 & E2 & F2).
    exists h2. cbn [check_words]. rewrite E1. cbn [bind]. rewrite E2. cbn. auto.
Qed.

(** ** Lines *)

Lemma split_line : forall l acc r, ~ In 10 l -> split_lines acc (l ++ 10 :: r) = (acc ++ l) :: split_lines [] r.
Proof.
  induction l as [|c l IH]; intros acc r N; cbn [app split_lines].
  - rewrite Z.eqb_refl, app_nil_r. auto.
  - assert (c <> 10) by (intros ->; apply N; left; auto). replace (c =? 10) with false by lia.
    rewrite IH by (intros X; apply N; right; auto). rewrite <- app_assoc. auto.
Qed.

Lemma lines_unlines : forall ls, Forall (fun l => ~ In 10 l) ls -> lines_of (unlines ls) = ls.
Proof.
  intros ls F. induction F as [|l ls N F IH]; [reflexivity|]. unfold lines_of, unlines in *. cbn [map concat].
  rewrite <- app_assoc. cbn [app]. rewrite split_line by auto. rewrite IH. auto.
Qed.

(** ** Hyphenation *)

Lemma upd_app : forall A (a : list A) x r y, upd (a ++ x :: r) (length a) y = a ++ y :: r.
Proof. induction a as [|z a IH]; intros; cbn; [auto|]. f_equal. apply IH. Qed.

Lemma wr_next : forall (a r : list Z) y, r <> [] -> wr (a ++ r) (length a) y = Ok ((a ++ [y]) ++ tl r).
Proof.
  intros a [|x r] y N; [congruence|]. unfold wr. rewrite app_length. cbn [length].
  replace (length a <? length a + S (length r))%nat with true by lia. rewrite upd_app. cbn [tl]. rewrite <- app_assoc. auto.
Qed.

Lemma rd_mid : forall (a : list Z) x r, rd (a ++ x :: r) (length a) = Ok x.
Proof. intros. unfold rd. rewrite nth_error_app2, Nat.sub_diag by auto. reflexivity. Qed.

(** [done] is what has been written; the rest of the buffer is long enough. *)
Lemma hyphenate_loop_ok : forall sep p w pw pp done rest, Forall (fun c => c = 0x20 \/ c = 0x2D \/ c = 0x3D) p -> length p = length w ->
  length pp = length pw -> (2 * length w + 1 <= length rest)%nat ->
  exists out rest', printed sep p w out /\ rest' <> [] /\
    hyphenate_loop (pw ++ w ++ [0]) (pp ++ p ++ [0]) sep (length w) (length pw) (done ++ rest) (length done) =
    Ok ((done ++ out) ++ rest', length (done ++ out)).
Proof.
  intros sep p. induction p as [|x p IH]; intros w pw pp done rest F LW LP LR.
  - destruct w; [|discriminate]. exists [], rest. cbn [length hyphenate_loop]. rewrite app_nil_r. split; [constructor|]. split; auto.
    destruct rest; [cbn in LR; lia|discriminate].
  - destruct w as [|c w]; [discriminate|]. cbn [length] in *. inversion F as [|? ? FX FR]; subst.
    destruct rest as [|r1 [|r2 rest]]; try (cbn [length] in LR; lia).
    change ((c :: w) ++ [0]) with (c :: w ++ [0]). change ((x :: p) ++ [0]) with (x :: p ++ [0]). cbn [length hyphenate_loop].
    assert (rd (pp ++ x :: p ++ [0]) (length pw) = Ok x) as RX by (rewrite <- LP; apply rd_mid). rewrite RX. cbn [bind].
    assert (forall done' rest', (2 * length w + 1 <= length rest')%nat ->
      exists out rest2, printed sep p w out /\ rest2 <> [] /\
      hyphenate_loop (pw ++ c :: w ++ [0]) (pp ++ x :: p ++ [0]) sep (length w) (S (length pw)) (done' ++ rest') (length done') =
      Ok ((done' ++ out) ++ rest2, length (done' ++ out))) as REC.
    { intros done' rest' L'. destruct (IH w (pw ++ [c]) (pp ++ [x]) done' rest') as (out & rest2 & P & N2 & E); auto; try (rewrite ?app_length; cbn; lia).
      exists out, rest2. split; auto. split; auto. rewrite <- E. rewrite <- !app_assoc, app_length. cbn [app length]. f_equal. lia. }
    assert (forall d (r : list Z) y, r <> [] -> (b <- wr (d ++ r) (length d) y ;; Ok (b, S (length d))) = Ok ((d ++ [y]) ++ tl r, length (d ++ [y]))) as PUT.
    { intros d r y NR. rewrite wr_next by auto. cbn [bind]. rewrite app_length. cbn. do 2 f_equal. lia. }
    assert (rd (pw ++ c :: w ++ [0]) (length pw) = Ok c) as RC by apply rd_mid. rewrite RC. cbn [bind].
    destruct FX as [-> |[-> | ->]]; cbn [Z.eqb Pos.eqb negb orb].
    + (* blank *) cbn [bind]. rewrite PUT by discriminate. cbn [bind tl].
      destruct (REC (done ++ [c]) (r2 :: rest)) as (out & rest2 & P & N2 & E).
      { cbn [length] in *. lia. }
      exists (c :: out), rest2. split; [constructor; auto|]. split; auto. rewrite E. rewrite <- !app_assoc. auto.
    + (* break *) rewrite PUT by discriminate. cbn [bind tl]. rewrite PUT by discriminate. cbn [bind tl].
      destruct (REC ((done ++ [sep]) ++ [c]) rest) as (out & rest2 & P & N2 & E).
      { cbn [length] in *. lia. }
      exists (sep :: c :: out), rest2. split; [constructor; auto|]. split; auto. rewrite E. rewrite <- !app_assoc. auto.
    + (* equals sign *) rewrite PUT by discriminate. cbn [bind tl]. destruct (Z.eqb_spec sep 0x2D) as [ES|ES]; cbn [negb orb].
      * cbn [bind]. destruct (REC (done ++ [sep]) (r2 :: rest)) as (out & rest2 & P & N2 & E).
        { cbn [length] in *. lia. }
        exists (sep :: out), rest2. split; [constructor; auto|]. split; auto. rewrite E. rewrite <- !app_assoc. auto.
      * rewrite PUT by discriminate. cbn [bind tl]. destruct (REC ((done ++ [sep]) ++ [c]) rest) as (out & rest2 & P & N2 & E).
        { cbn [length] in *. lia. }
        exists (sep :: c :: out), rest2. split; [apply printed_kept; auto|]. split; auto. rewrite E. rewrite <- !app_assoc. auto.
Qed.
