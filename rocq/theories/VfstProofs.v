(** * The speller and the analyser on the weighted transducer. *)
From Coq Require Import Sorted.
From Verif Require Import Base BaseFacts CharModel CharProofs AnalysisModel SpellerBase FstModel FstFileModel FstSpec FstProofs FstPaths FstLookup WfstModel WfstSpec
  WfstProofs WfstPaths WfstLookup WfstProps VfstModel VfstSpec.

Lemma buffer_two : (2 <= BUFFER_SIZE)%nat.
Proof. apply Nat.leb_le. vm_compute. reflexivity. Qed.
Lemma buffer_word : (MAX_WORD <= BUFFER_SIZE)%nat.
Proof. apply Nat.leb_le. vm_compute. reflexivity. Qed.
Lemma buffer_pos : (0 < BUFFER_SIZE)%nat.
Proof. pose proof buffer_two. lia. Qed.

(** The first result for a word is a function of the word. *)
Definition first_search (W : wtransducer) (word : list Z) :=
  wasearch MAX_LOOP_COUNT W (known_prefix W word) BUFFER_SIZE BUFFER_SIZE (start (neutral (forget W))) [] 0%nat.

Lemma first_next : forall W c word, good_weighted W -> wused W BUFFER_SIZE c -> (length word <= BUFFER_SIZE)%nat ->
  exists known c1 o c2 m fr, wprepare W c word = Ok (known, c1) /\ (known = true <-> known_prefix W word = word) /\ wused W BUFFER_SIZE c1 /\
    wnext W c1 BUFFER_SIZE = Ok (o, c2, m) /\ wused W BUFFER_SIZE c2 /\ first_search W word = (o, fr, m).
Proof.
  intros W c word (A & B & C & D & states & E & F) U L.
  destruct (wused_sized W states A B C D E F _ c buffer_two U) as [F1 F2].
  destruct (wprepare_spec W states B E F c word F1 ltac:(lia)) as (kn & c1 & P1 & P2 & P3 & P4).
  destruct (wnext_spec W states A B C D F _ BUFFER_SIZE c1 _ _ buffer_pos P4) as (o & f' & r' & m & c2 & N1 & N2 & N3 & N4 & N5).
  exists kn, c1, o, c2, m, (f', r'). rewrite P2, F2 in N1. repeat (split; [assumption|]).
  split; [eapply wused_lookup; [exact U|exact L|exact buffer_pos|exact P1|constructor]|]. split; [assumption|].
  split; [|exact N1].
  destruct o as [out w| | | |].
  { eapply wused_lookup; [exact U|exact L|exact buffer_pos|exact P1|]. eapply wlookup_found; [exact N2|constructor]. }
  all: eapply wused_lookup; [exact U|exact L|exact buffer_pos|exact P1|]; eapply wlookup_false; [exact N2|discriminate].
Qed.

Definition finds (W : wtransducer) (word : list Z) : bool :=
  negb (MAX_WORD <? length word)%nat && zlist_eqb (known_prefix W word) word &&
  match first_search W word with (WFound _ _, _, _) => true | _ => false end.

Lemma doSpell_spec : forall W c word, good_weighted W -> wused W BUFFER_SIZE c ->
  exists c', vfst_doSpell W c word = Ok (if finds W word then SPELL_OK else SPELL_FAILED, c') /\ wused W BUFFER_SIZE c'.
Proof.
  intros W c word G U. unfold vfst_doSpell, finds. destruct (MAX_WORD <? length word)%nat eqn:L; cbn [negb andb]; [eauto|].
  apply Nat.ltb_ge in L. pose proof buffer_word.
  destruct (first_next W c word G U ltac:(lia)) as (kn & c1 & o & c2 & m & fr & P & K & U1 & N & U2 & FS). rewrite P. cbn [bind].
  destruct kn.
  - rewrite (proj1 K eq_refl). rewrite zlist_eqb_refl. rewrite N. cbn [bind andb]. rewrite FS. exists c2. split; [|assumption]. now destruct o.
  - replace (zlist_eqb (known_prefix W word) word) with false; [cbn [andb]; eauto|]. symmetry. apply not_true_is_false. intros X. apply zlist_eqb_eq in X.
    apply K in X. discriminate.
Qed.

Definition verdict (W : wtransducer) (word : list Z) : spellresult :=
  if finds W word then SPELL_OK
  else match word with
       | first :: rest => if isLower first && finds W (upper first :: rest) then SPELL_CAP_FIRST else SPELL_FAILED
       | [] => SPELL_FAILED
       end.

Lemma spell_spec : forall W c word, good_weighted W -> wused W BUFFER_SIZE c ->
  exists c', vfst_spell W c word = Ok (verdict W word, c') /\ wused W BUFFER_SIZE c'.
Proof.
  intros W c word G U. unfold vfst_spell, verdict. destruct (doSpell_spec W c word G U) as (c1 & E & U1). rewrite E. cbn [bind].
  destruct word as [|first rest]; [destruct (finds W []); eauto|].
  destruct (finds W (first :: rest)); cbn [spell_failed andb]; [eauto|]. destruct (isLower first); cbn [andb]; [|eauto].
  destruct (doSpell_spec W c1 (upper first :: rest) G U1) as (c2 & E2 & U2). rewrite E2. cbn [bind]. destruct (finds W (upper first :: rest)); eauto.
Qed.

Lemma speller_used_wused : forall W c, good_weighted W -> speller_used W c -> wused W BUFFER_SIZE c.
Proof.
  intros W c G. induction 1; [constructor|]. destruct (spell_spec W c word G IHspeller_used) as (c2 & E & U). rewrite E in H0. injection H0 as _ <-. assumption.
Qed.

(** What [finds] means. *)
Lemma finds_sound : forall W word, good_weighted W -> finds W word = true -> accepted W word /\ (length word <= MAX_WORD)%nat.
Proof.
  intros W word G FT. unfold finds in FT. apply andb_true_iff in FT. destruct FT as [FT F3]. apply andb_true_iff in FT. destruct FT as [F1 F2].
  apply negb_true_iff, Nat.ltb_ge in F1. apply zlist_eqb_eq in F2. split; [|assumption]. pose proof buffer_word.
  destruct (first_next W _ word G (wused_new _ _) ltac:(lia)) as (kn & c1 & o & c2 & m & fr & P & K & U1 & N & U2 & FS).
  rewrite FS in F3. destruct o as [out w| | | |]; try discriminate.
  destruct (C36_weighted_sound W _ _ word kn c1 BUFFER_SIZE [(out, w)] None c2 out w G buffer_two (wused_new _ _) ltac:(lia) buffer_pos P) as [_ X].
  - eapply wlookup_found; [exact N|constructor].
  - now left.
  - destruct (X (proj2 K F2)) as [p Y]. now exists p, out.
Qed.

Lemma accepted_known : forall W word, (forall c s, find_symbol (w_stringToSymbol W) c = Some s -> w_firstNormalChar W <= s < Z.of_nat (length (w_symbolToString W))) ->
  accepted W word -> known_prefix W word = word.
Proof.
  intros W word WS (p & out & A). unfold waccepts, accepts in A. remember (@nil Z) as rest eqn:R in A.
  induction A; subst; cbn [known_prefix]; auto.
  unfold symbol_of in *. cbn [forget stringToSymbol] in *.
  match goal with H : find_symbol _ _ = Some _ |- _ => rewrite H end. now rewrite IHA.
Qed.

Lemma finds_complete : forall W word, good_weighted W -> in_file_order W -> one_flag W -> (length word <= MAX_WORD)%nat -> ~ gives_up W word ->
  accepted W word -> finds W word = true.
Proof.
  intros W word G O1 O2 L GU A. pose proof buffer_word.
  destruct (first_next W _ word G (wused_new _ _) ltac:(lia)) as (kn & c1 & o & c2 & m & fr & P & K & U1 & N & U2 & FS).
  pose proof (accepted_known W word (proj1 (proj2 G)) A) as KP. pose proof (proj2 K KP) as KT. subst kn.
  unfold finds. rewrite KP, zlist_eqb_refl, FS. replace (MAX_WORD <? length word)%nat with false by (symmetry; apply Nat.ltb_ge; lia). cbn [negb andb].
  assert (NL : ~ limit o) by (intros LO; apply GU; unfold gives_up; eauto 8).
  destruct o as [out w| | | |]; try (exfalso; apply NL; unfold limit; tauto); [reflexivity|].
  destruct (C37_weighted_partial W _ _ word c1 BUFFER_SIZE [] c2 G O1 O2 buffer_two (wused_new _ _) ltac:(lia) buffer_pos P) as (paths & X1 & _ & X3).
  - eapply wlookup_false; [exact N|discriminate].
  - destruct paths; [|discriminate]. destruct A as (p & out & A). apply X3 in A. destruct A.
Qed.

(** ** The analyser *)
Lemma analyses_lookup : forall step W prob, (forall c, step c = wnext W c BUFFER_SIZE) -> forall n full c l c',
  vfst_analyses step prob n full c = Ok (l, c') ->
  exists results e, wlookup W BUFFER_SIZE c results e c' /\ (e = None -> length results = n) /\ (e <> None -> (length results < n)%nat) /\
    l = map (fun '(out, w) => add (if full then add no_attributes FSTOUTPUT out else no_attributes) WEIGHT (prob w)) results.
Proof.
  intros step W prob ST. induction n as [|n IH]; intros full c l c' E; cbn [vfst_analyses] in E.
  - injection E as <- <-. exists [], None. split; [constructor|]. split; [reflexivity|]. split; [congruence|reflexivity].
  - apply bind_ok in E. destruct E as ([[o c1] k] & S & E). rewrite ST in S.
    destruct o as [out w| | | |]; cbn zeta in E.
    { apply bind_ok in E. destruct E as ([l1 c2] & R & E). injection E as <- <-. destruct (IH _ _ _ _ R) as (results & e & A & B & C & ->).
      exists ((out, w) :: results), e. split; [econstructor; eassumption|]. cbn [length]. split; [intros X; now rewrite B|]. split; [intros X; specialize (C X); lia|reflexivity]. }
    all: injection E as <- <-; eexists []; eexists; split; [eapply wlookup_false; [exact S|discriminate]|]; cbn [length map]; split; [discriminate|split; [lia|reflexivity]].
Qed.

Lemma analyses_total : forall step W prob, (forall c, step c = wnext W c BUFFER_SIZE) -> forall n full c,
  (forall results c2, wlookup W BUFFER_SIZE c results None c2 -> exists o c3 k, wnext W c2 BUFFER_SIZE = Ok (o, c3, k)) ->
  exists l c', vfst_analyses step prob n full c = Ok (l, c').
Proof.
  intros step W prob ST. induction n as [|n IH]; intros full c H; cbn [vfst_analyses]; [eauto|].
  destruct (H [] c (wlookup_stop _ _ _)) as (o & c3 & k & N). rewrite ST, N. cbn [bind]. destruct o as [out w| | | |]; eauto.
  destruct (IH full c3) as (l & c' & E).
  - intros results c2 L. apply (H ((out, w) :: results)). econstructor; eassumption.
  - cbn zeta. rewrite E. cbn [bind]. eauto.
Qed.

Lemma lookup_analyses : forall step W prob full, (forall c, step c = wnext W c BUFFER_SIZE) -> forall c results e c', wlookup W BUFFER_SIZE c results e c' ->
  forall n, (e = None -> length results = n) -> (e <> None -> (length results < n)%nat) ->
  vfst_analyses step prob n full c =
    Ok (map (fun '(out, w) => add (if full then add no_attributes FSTOUTPUT out else no_attributes) WEIGHT (prob w)) results, c').
Proof.
  intros step W prob full ST. induction 1; intros m N M.
  - cbn [length] in N. rewrite <- N by reflexivity. reflexivity.
  - destruct m as [|m]; [exfalso; destruct e; [specialize (M ltac:(discriminate)); lia|specialize (N eq_refl); discriminate]|].
    cbn [vfst_analyses]. rewrite ST, H. cbn [bind]. cbn zeta. rewrite IHwlookup; [reflexivity| |].
    + intros X. specialize (N X). cbn in N. lia.
    + intros X. specialize (M X). cbn in M. lia.
  - specialize (M ltac:(discriminate)). destruct m as [|m]; [cbn in M; lia|].
    cbn [vfst_analyses]. rewrite ST, H. cbn [bind]. destruct e; try reflexivity. exfalso. eapply H0. reflexivity.
Qed.

(** Everything about one analysed word. *)
Lemma analyze_spec : forall W prob c word full, good_weighted W -> wused W BUFFER_SIZE c ->
  exists l c', vfst_analyze W prob c word full = Ok (l, c') /\ wused W BUFFER_SIZE c' /\
    (exists d', vfst_analyze W prob (new_wconfiguration (w_featureCount W) BUFFER_SIZE) word full = Ok (l, d')) /\
    let low := voikko_set_case CT_ALL_LOWER word in
    ((l = [] /\ ((MAX_WORD < length word)%nat \/ known_prefix W low <> low)) \/
     (exists c1 results e, (length word <= MAX_WORD)%nat /\ wprepare W c low = Ok (true, c1) /\ wlookup W BUFFER_SIZE c1 results e c' /\
        (e = None -> length results = MAX_ANALYSIS_COUNT - 1)%nat /\ (e <> None -> length results < MAX_ANALYSIS_COUNT - 1)%nat /\
        l = map (fun '(out, w) => add (if full then add no_attributes FSTOUTPUT out else no_attributes) WEIGHT (prob w)) results)).
Proof.
  intros W prob c word full G U. unfold vfst_analyze. destruct (MAX_WORD <? length word)%nat eqn:L.
  { apply Nat.ltb_lt in L. exists [], c. split; [reflexivity|]. split; [assumption|]. split; [eauto|]. cbn zeta. left. auto. }
  apply Nat.ltb_ge in L. pose proof buffer_word as BW. cbn zeta. set (low := voikko_set_case CT_ALL_LOWER word).
  assert (LL : (length low <= BUFFER_SIZE)%nat) by (unfold low; rewrite set_case_length; lia).
  destruct (C39_weighted_no_overflow W _ c low BUFFER_SIZE G buffer_two U LL buffer_pos) as (kn & c1 & P & H).
  assert (K : kn = true <-> known_prefix W low = low).
  { destruct (first_next W c low G U LL) as (kn1 & ? & ? & ? & ? & ? & P1 & K1 & _). rewrite P in P1. injection P1 as <- <-. exact K1. }
  rewrite P. cbn [bind]. destruct kn.
  - destruct (analyses_total (fun c => wnext W c BUFFER_SIZE) W prob (fun c => eq_refl) (MAX_ANALYSIS_COUNT - 1)%nat full c1) as (l & c' & E).
    { intros results c2 LK. destruct (H _ _ _ LK) as [_ X]. auto. }
    exists l, c'. split; [exact E|].
    destruct (analyses_lookup _ W prob (fun c => eq_refl) _ _ _ _ _ E) as (results & e & A & B & C & X).
    split; [eapply wused_lookup; [exact U|exact LL|exact buffer_pos|exact P|exact A]|]. split.
    + destruct (C38_weighted_history W _ c low true c1 BUFFER_SIZE results e c' G buffer_two U LL buffer_pos P A) as (d3 & d4 & X1 & X2).
      rewrite X1. cbn [bind]. exists d4. rewrite X. apply lookup_analyses with (e := e) (W := W); auto.
    + right. exists c1, results, e. auto 10.
  - exists [], c1. split; [reflexivity|]. split; [eapply wused_lookup; [exact U|exact LL|exact buffer_pos|exact P|constructor]|]. split.
    + destruct (first_next W _ low G (wused_new _ _) LL) as (kn1 & d1 & ? & ? & ? & ? & P1 & K1 & _). rewrite P1. cbn [bind].
      destruct kn1; [|eauto]. exfalso. assert (false = true) by tauto. discriminate.
    + left. split; [reflexivity|]. right. intros X. apply K in X. discriminate.
Qed.

Lemma analyzer_used_wused : forall W prob c, good_weighted W -> analyzer_used W prob c -> wused W BUFFER_SIZE c.
Proof.
  intros W prob c G. induction 1; [constructor|]. destruct (analyze_spec W prob c word full G IHanalyzer_used) as (l2 & c2 & E & U & _).
  rewrite E in H0. injection H0 as _ <-. assumption.
Qed.
