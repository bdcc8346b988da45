(** * Properties of hyphenation (C24-C26). *)
From Verif Require Import Base BaseFacts CharModel CharProofs Utf8Model Utf8Spec Utf8Proofs AnalysisModel AnalyzerBase
  GcCacheModel HandleModel HyphModel HyphSpec HyphProofs.

(** The results of the functions below are never [UB] or [Fuel]: no access
    outside the buffers, and all loops end. *)

Lemma min_length_hyph : forall h, minHyphenatedWordLength (handle_hyph h) = min_length h.
Proof. reflexivity. Qed.

Lemma nonempty_dec : forall T (l : list T), l = [] \/ l <> [].
Proof. intros T [|x l]; [left|right]; [auto|discriminate]. Qed.

Lemma prefix_nth : forall (t d : list Z) i c, nth_error t i = Some c -> nth_error (t ++ d) i = Some c.
Proof. intros t d i c E. rewrite nth_error_app1; auto. eapply nth_error_lt; eauto. Qed.

Lemma good_lookup : forall an o word t l, hyph_word word -> looked_up an (hyph_ignoreDot o) word t l ->
  (length t <= length word)%nat /\ (forall i c, nth_error t i = Some c -> nth_error word i = Some c).
Proof.
  intros an o word t l W LU. destruct (lookup_ok an o word t l W LU) as (dot & WT & _). split.
  - rewrite WT, app_length. lia.
  - intros i c E. rewrite WT. apply prefix_nth. auto.
Qed.

(** C24: every word gets a pattern of its own length made of blanks, '-' and
    '=', without a break before the first character. *)
Theorem C24_pattern_shape : forall an h word t l,
  hyph_word word -> looked_up an (hyphIgnoreDot h) word t l -> good_analyses l ->
  exists p, voikkoHyphenateUcs4 an h word = Ok (Some p) /\ length p = length word /\
    Forall (fun c => c = 0x20 \/ c = 0x2D \/ c = 0x3D) p /\ ~ is_break p 0.
Proof.
  intros an h word t l W LU G. unfold voikkoHyphenateUcs4.
  destruct (Z.ltb_spec (Z.of_nat (length word)) (min_length h)) as [SH|SH].
  - exists (repeat BLANK (length word)). split; [unfold hyphenate, hyphenate_with; rewrite min_length_hyph; replace (_ <? _) with true by lia; auto|].
    split; [apply repeat_length|]. split.
    + apply Forall_forall. intros c I. apply repeat_spec in I. left. auto.
    + intros [B|B]; apply nth_error_In in B; apply repeat_spec in B; discriminate.
  - destruct (hyphenate_ok an (handle_hyph h) word t l W LU G) as (hs & p & O); [rewrite min_length_hyph; auto|].
    exists p. split; [apply O|]. split; [apply O|]. split.
    + apply Forall_forall. intros c I. apply In_nth_error in I. destruct I as (i & E). eapply (out_alphabet _ _ _ _ _ _ _ O); eauto.
    + intros B. destruct (out_value _ _ _ _ _ _ _ O 0%nat B) as (g & g' & I & C & V).
      destruct (out_pattern _ _ _ _ _ _ _ O g I) as (L & A & F).
      destruct (good_lookup an (handle_hyph h) word t l W LU) as [TL _].
      destruct (compound_ok (handle_hyph h) word (proj2 W) (length t) TL g L) as (x & X & _ & FR). rewrite C in X. inversion X. subst x.
      assert (exists c, nth_error g' 0 = Some c /\ unmarked c = false) as (c & E & U) by (unfold is_break in B; rewrite V in B; destruct B as [B|B]; eexists; split; eauto).
      destruct (FR 0%nat c E) as [(a & b & _ & _ & _ & K & _)|[_ K]]; [lia|]. apply F in K. congruence.
Qed.
Print Assumptions C24_pattern_shape.

(** C24: '=' marks a character that is left out or kept at a line break: a
    hyphen or an apostrophe of the word. *)
Theorem C24_replaced_characters : forall an h word t l p i,
  hyph_word word -> looked_up an (hyphIgnoreDot h) word t l -> good_analyses l -> fitting_analyses l t ->
  voikkoHyphenateUcs4 an h word = Ok (Some p) -> nth_error p i = Some 0x3D ->
  nth_error word i = Some 0x2D \/ nth_error word i = Some 0x27.
Proof.
  intros an h word t l p i W LU G FI E P. unfold voikkoHyphenateUcs4 in E.
  destruct (Z.ltb_spec (Z.of_nat (length word)) (min_length h)) as [SH|SH].
  - unfold hyphenate, hyphenate_with in E. rewrite min_length_hyph in E. replace (_ <? _) with true in E by lia. inversion E. subst p.
    apply nth_error_In in P. apply repeat_spec in P. discriminate.
  - destruct (hyphenate_ok an (handle_hyph h) word t l W LU G) as (hs & q & O); [rewrite min_length_hyph; auto|].
    rewrite (out_result _ _ _ _ _ _ _ O) in E. inversion E. subst q. clear E.
    destruct (out_value _ _ _ _ _ _ _ O i) as (g & g' & I & C & V); [right; auto|].
    destruct (out_pattern _ _ _ _ _ _ _ O g I) as (L & A & F).
    destruct (good_lookup an (handle_hyph h) word t l W LU) as [TL TN].
    destruct (compound_ok (handle_hyph h) word (proj2 W) (length t) TL g L) as (x & X & L' & FR). rewrite C in X. inversion X. subst x.
    rewrite P in V. symmetry in V. destruct (parts_facts word (length t) TL g L) as [PF _].
    assert (i < length g)%nat as IG by (apply nth_error_lt in V; lia).
    destruct (from_break_cases (handle_hyph h) word (length t) g i EQUALS (fun a b H => proj2 (proj2 (PF a b H))) IG (FR i _ V) (or_intror eq_refl))
      as [[B Q]|(a & b & _ & _ & _ & [K|K])]; auto.
    + left. destruct (nonempty_dec _ l) as [NL|NL].
      * destruct (out_unknown _ _ _ _ _ _ _ O NL) as (u & U & HU). rewrite HU in I. destruct I as [<-|[]].
        destruct (unknown_ok (handle_hyph h) word) as (u' & U' & _ & QU). rewrite U in U'. inversion U'. subst u'.
        destruct (QU i _ Q) as [(_ & _ & _ & K & _)|(K & _)]; auto. destruct (hyphenateUnknown (handle_hyph h)); discriminate.
      * apply (out_known _ _ _ _ _ _ _ O NL) in I. destruct I as (a & s & [Ia _] & As & Hg).
        assert (In a l) as IA by (rewrite <- (firstn_skipn 31 l); apply in_or_app; auto).
        assert (good_structure s) as GS. { unfold good_analyses in G. rewrite Forall_forall in G. destruct (G a IA) as (s' & A' & GS). congruence. }
        destruct (word_borders_strip s GS) as (r & GR & SY & _ & BR). rewrite Hg, BR in Q.
        destruct (Nat.lt_ge_cases i (length t)) as [IT|IT].
        -- rewrite nth_error_app1 in Q by (rewrite borders_length; auto). apply borders_equals in Q; auto. rewrite SY in Q.
           unfold fitting_analyses in FI. rewrite Forall_forall in FI. apply TN. apply (FI a IA s As). auto.
        -- rewrite nth_error_app2 in Q by (rewrite borders_length; auto). apply nth_error_In in Q.
           destruct (Nat.eqb (length t) (length word)); [destruct Q|]. destruct Q as [Q|[]]. discriminate.
    + discriminate.
Qed.
Print Assumptions C24_replaced_characters.

(** C24: short words have no breaks; a negative minimum length is huge. *)
Theorem C24_short_words : forall an h word, Z.of_nat (length word) < min_length h ->
  voikkoHyphenateUcs4 an h word = Ok (Some (repeat 0x20 (length word))).
Proof.
  intros an h word SH. unfold voikkoHyphenateUcs4, hyphenate, hyphenate_with. rewrite min_length_hyph. replace (_ <? _) with true by lia. reflexivity.
Qed.
Print Assumptions C24_short_words.

(** C24: words that have no UTF-8 form get no pattern (unless they are short). *)
Theorem C24_no_utf8 : forall an h word, Forall (fun c => - 2 ^ 31 <= c < 2 ^ 31) word -> ~ Forall encodable word ->
  min_length h <= Z.of_nat (length word) -> voikkoHyphenateUcs4 an h word = Ok None.
Proof.
  intros an h word R N SH. unfold voikkoHyphenateUcs4, hyphenate, hyphenate_with. rewrite min_length_hyph. replace (_ <? _) with false by lia.
  unfold splitCompounds. rewrite utf8FromUcs4_ok, append_all_none; auto.
Qed.
Print Assumptions C24_no_utf8.

(** C24: the UTF-8 entry point gives the same pattern for words of at most 255
    bytes and NULL for longer ones. *)
Theorem C24_utf8_agrees : forall an h word, hyph_word word ->
  voikkoHyphenateCstr an h (utf8_text word) =
  if (length (utf8_text word) <=? 255)%nat then voikkoHyphenateUcs4 an h word else Ok None.
Proof.
  intros an h word [E N]. unfold voikkoHyphenateCstr, LIBVOIKKO_MAX_WORD_CHARS.
  destruct (Nat.leb_spec (length (utf8_text word)) 255).
  - replace (255 <? _)%nat with false by lia. rewrite ucs4FromUtf8_encoded by auto. cbn [bind]. rewrite cstr_no_nul by auto. reflexivity.
  - replace (255 <? _)%nat with true by lia. reflexivity.
Qed.
Print Assumptions C24_utf8_agrees.

(** A compound with a border, and an analysis of "linja-auto" with a hyphen. *)
Definition an_example : analyzer := fun _ w =>
  if zlist_eqb w (wstr "kissanruoka") then [with_structure (wstr "=pppppp=ppppp")]
  else if zlist_eqb w (wstr "linja-auto") then [with_structure (wstr "=ppppp-=pppp")]
  else if zlist_eqb w (wstr "syysilta") then [with_structure (wstr "=pppp=pppp"); with_structure (wstr "=pppppppp")]
  else if zlist_eqb w (wstr "hyvinvointi") then [with_structure (wstr "=ppppp=pppppp")]
  else [].

Definition h_example : handle :=
  mk_handle false false false true true true false false false false false gc_empty None false true true 2 false.
Definition h_pretty : handle := snd (voikkoSetBooleanOption h_example 4 true).

Lemma hyph_word_check : forall w, forallb (fun c => (0 <? c) && (c <? 0xD800)) w = true -> hyph_word w.
Proof.
  intros w H. rewrite forallb_forall in H. split.
  - apply Forall_forall. intros c I. apply H in I. unfold encodable. lia.
  - intros I. apply H in I. discriminate.
Qed.
Ltac word_ok := apply hyph_word_check; reflexivity.

Lemma good_structure_check : forall s, forallb (fun x => negb (x =? 0)) s &&
  forallb (fun i => negb ((nth i s 0 =? 0x3D) && (nth (i + 1) s 0x3D =? 0x3D))) (seq 0 (length s)) = true -> good_structure s.
Proof.
  intros s H. apply andb_prop in H. destruct H as [H1 H2]. rewrite forallb_forall in H1, H2. split; [|split].
  - intros I. apply H1 in I. discriminate.
  - intros a b ->. assert (In (length a) (seq 0 (length (a ++ 0x3D :: 0x3D :: b)))) as I by (apply in_seq; rewrite app_length; cbn [length]; lia).
    apply H2 in I. rewrite app_nth2 in I by lia. rewrite app_nth2 in I by lia. rewrite Nat.sub_diag in I.
    replace (length a + 1 - length a)%nat with 1%nat in I by lia. discriminate.
  - intros a ->. assert (In (length a) (seq 0 (length (a ++ [0x3D%Z])))) as I by (apply in_seq; rewrite app_length; cbn [length]; lia).
    apply H2 in I. rewrite (app_nth2 a [0x3D] 0) in I by lia. rewrite Nat.sub_diag in I. rewrite (nth_overflow (a ++ [0x3D]) 0x3D) in I by (rewrite app_length; cbn [length]; lia). discriminate.
Qed.

Example C24_ex :
  hyph_word (wstr "linja-auto") /\ looked_up an_example (hyphIgnoreDot h_example) (wstr "linja-auto") (wstr "linja-auto") (an_example false (wstr "linja-auto")) /\
  good_analyses (an_example false (wstr "linja-auto")) /\ fitting_analyses (an_example false (wstr "linja-auto")) (wstr "linja-auto") /\
  voikkoHyphenateUcs4 an_example h_example (wstr "linja-auto") = Ok (Some (wstr "   - =  - ")) /\
  voikkoHyphenateUcs4 an_example h_example (wstr "rei'itys") = Ok (Some (wstr "   = -  ")).
Proof.
  split; [word_ok|]. split; [constructor; left; vm_compute; discriminate|]. split.
  { constructor; [|constructor]. eexists. split; [reflexivity|]. apply good_structure_check. reflexivity. }
  split.
  { constructor; [|constructor]. intros s E i N. injection E as <-. do 10 (destruct i as [|i]; [vm_compute in N; try discriminate; reflexivity|]).
    vm_compute in N. destruct i; discriminate. }
  split; vm_compute; reflexivity.
Qed.

(** C25: a break of a known word is, for every analysis that counts, either a
    border of the compound or strictly inside a part that has at least the
    minimum length. *)
Theorem C25_short_parts : forall an h word t l p i,
  hyph_word word -> looked_up an (hyphIgnoreDot h) word t l -> good_analyses l -> l <> [] ->
  voikkoHyphenateUcs4 an h word = Ok (Some p) -> is_break p i ->
  forall a s, counts (length t) l a -> a STRUCTURE = Some s ->
  is_break (word_borders (length t) s) i \/
  exists b e, (b < i < e)%nat /\ (e <= length t)%nat /\ min_length h <= Z.of_nat (e - b) /\
    forall k, (b < k < e)%nat -> ~ is_break (word_borders (length t) s) k.
Proof.
  intros an h word t l p i W LU G NL E B a s CA As. unfold voikkoHyphenateUcs4 in E.
  destruct (Z.ltb_spec (Z.of_nat (length word)) (min_length h)) as [SH|SH].
  - exfalso. unfold hyphenate, hyphenate_with in E. rewrite min_length_hyph in E. replace (_ <? _) with true in E by lia. inversion E. subst p.
    destruct B as [B|B]; apply nth_error_In in B; apply repeat_spec in B; discriminate.
  - destruct (hyphenate_ok an (handle_hyph h) word t l W LU G) as (hs & q & O); [rewrite min_length_hyph; auto|].
    rewrite (out_result _ _ _ _ _ _ _ O) in E. inversion E. subst q. clear E.
    destruct (good_lookup an (handle_hyph h) word t l W LU) as [TL TN].
    set (pad := if Nat.eqb (length t) (length word) then [] else [BLANK]).
    assert (PB : forall c, In c pad -> c = BLANK) by (unfold pad; intros c I; destruct (Nat.eqb (length t) (length word)); [destruct I|destruct I as [<-|[]]; auto]).
    set (g := word_borders (length t) s ++ pad).
    assert (In g hs) as I by (apply (out_known _ _ _ _ _ _ _ O NL); exists a, s; auto).
    destruct (out_pattern _ _ _ _ _ _ _ O g I) as (L & A & F).
    destruct (compound_ok (handle_hyph h) word (proj2 W) (length t) TL g L) as (g' & C & L' & FR).
    assert (i < length word)%nat as IL. { rewrite <- (out_length _ _ _ _ _ _ _ O). destruct B as [B|B]; eapply nth_error_lt; eauto. }
    pose proof (proj1 (out_break _ _ _ _ _ _ _ O i IL) B g g' I C) as B'.
    assert (exists c, nth_error g' i = Some c /\ (c = HYPHEN \/ c = EQUALS)) as (c & E1 & HC) by (destruct B'; eauto).
    destruct (parts_facts word (length t) TL g L) as [PF _].
    assert (i < length g)%nat as IG by lia.
    destruct (from_break_cases (handle_hyph h) word (length t) g i c (fun a b H => proj2 (proj2 (PF a b H))) IG (FR i _ E1) HC)
      as [[Q _]|(b & e & I2 & LE & J & _)]; auto.
    + left. apply (proj1 (break_app (word_borders (length t) s) pad i PB)). exact Q.
    + right. destruct (PF b e I2) as (BE & EL & BT). exists b, e. split; auto. split; auto. split.
      * unfold long_enough in LE. rewrite min_length_hyph in LE. lia.
      * intros k K Bk. apply (proj2 (break_app (word_borders (length t) s) pad k PB)) in Bk. fold g in Bk. destruct Bk as [Bk|Bk]; apply BT in Bk; auto; discriminate.
Qed.
Print Assumptions C25_short_parts.
Example C25_short_parts_ex :
  let h := snd (match voikkoSetIntegerOption h_example 9 6 with Ok x => x | _ => (0, h_example) end) in
  voikkoHyphenateUcs4 an_example h_example (wstr "hyvinvointi") = Ok (Some (wstr "  -  -   - ")) /\
  voikkoHyphenateUcs4 an_example h (wstr "hyvinvointi") = Ok (Some (wstr "     -   - ")) /\
  looked_up an_example (hyphIgnoreDot h) (wstr "hyvinvointi") (wstr "hyvinvointi") (an_example false (wstr "hyvinvointi")) /\
  an_example false (wstr "hyvinvointi") <> [] /\ good_analyses (an_example false (wstr "hyvinvointi")).
Proof.
  split; [vm_compute; reflexivity|]. split; [vm_compute; reflexivity|]. split; [constructor; left; vm_compute; discriminate|].
  split; [discriminate|]. constructor; [|constructor]. eexists. split; [reflexivity|]. apply good_structure_check. reflexivity.
Qed.

Lemma only_for_lookup : forall an d word t l a, looked_up an d word t l -> looked_up (only_for t a) d word t [a].
Proof.
  intros an d word t l a H. assert (only_for t a false t = [a]) as E by (unfold only_for; rewrite zlist_eqb_refl; auto).
  inversion H as [C E1 E2|v A1 A2 A3 A4 E1 E2]; subst.
  - rewrite <- E. apply looked_up_whole. left. rewrite E. discriminate.
  - rewrite <- E. apply looked_up_no_dot; auto. unfold only_for. destruct (zlist_eqb (t ++ [0x2E]) t) eqn:Q; auto.
    apply zlist_eqb_eq in Q. exfalso. assert (length (t ++ [0x2E%Z]) = length t) as L by congruence. rewrite app_length in L. cbn in L. lia.
Qed.

(** C25: a break is reported exactly where every analysis that counts, taken
    alone, gives a break. *)
Theorem C25_all_analyses_partial : forall an h word t l p i,
  hyph_word word -> looked_up an (hyphIgnoreDot h) word t l -> good_analyses l -> l <> [] ->
  min_length h <= Z.of_nat (length word) -> (i < length word)%nat -> voikkoHyphenateUcs4 an h word = Ok (Some p) ->
  (is_break p i <-> forall a, counts (length t) l a ->
     exists q, voikkoHyphenateUcs4 (only_for t a) h word = Ok (Some q) /\ is_break q i).
Proof.
  intros an h word t l p i W LU G NL SH IL E. unfold voikkoHyphenateUcs4 in *.
  destruct (hyphenate_ok an (handle_hyph h) word t l W LU G) as (hs & q & O); [rewrite min_length_hyph; auto|].
  rewrite (out_result _ _ _ _ _ _ _ O) in E. inversion E. subst q. clear E.
  assert (ONE : forall a s, In a l -> a STRUCTURE = Some s -> exists q, hyphenate (only_for t a) (handle_hyph h) word = Ok (Some q) /\
     (is_break q i <-> forall g', compoundHyphenation (handle_hyph h) word (word_borders (length t) s ++ if Nat.eqb (length t) (length word) then [] else [BLANK]) (length t) = Ok g' -> is_break g' i)).
  { intros a s Ia As. pose proof (only_for_lookup _ _ _ _ _ a LU) as LU1.
    assert (good_analyses [a]) as G1. { constructor; [|constructor]. unfold good_analyses in G. rewrite Forall_forall in G. auto. }
    destruct (hyphenate_ok (only_for t a) (handle_hyph h) word t [a] W LU1 G1) as (hs1 & q1 & O1); [rewrite min_length_hyph; auto|].
    exists q1. split; [apply O1|]. rewrite (out_break _ _ _ _ _ _ _ O1 i IL).
    assert (NE : [a] <> []) by discriminate. pose proof (out_known _ _ _ _ _ _ _ O1 NE) as KN. split.
    - intros H g' C. eapply H; eauto. apply KN. exists a, s. split; [|auto]. split; [left; auto|].
      intros (b & [<-|[]] & Sb). auto.
    - intros H g g' I C. apply KN in I. destruct I as (b & sb & [Ib _] & Ab & ->). destruct Ib as [<-|[]].
      assert (sb = s) by congruence. subst sb. auto. }
  assert (IN31 : forall a, In a (firstn 31 l) -> In a l) by (intros a Ia; rewrite <- (firstn_skipn 31 l); apply in_or_app; auto).
  rewrite (out_break _ _ _ _ _ _ _ O i IL). pose proof (out_known _ _ _ _ _ _ _ O NL) as KN. split.
  - intros H a CA. unfold good_analyses in G. rewrite Forall_forall in G. destruct (G a (IN31 _ (proj1 CA))) as (s & As & _).
    destruct (ONE a s (IN31 _ (proj1 CA)) As) as (q & Q1 & Q2). exists q. split; auto. apply Q2. intros g' C. eapply H; eauto. apply KN. eauto.
  - intros H g g' I C. apply KN in I. destruct I as (a & s & CA & As & ->). destruct (H a CA) as (q & Q1 & Q2).
    destruct (ONE a s (IN31 _ (proj1 CA)) As) as (q' & Q1' & Q2'). rewrite Q1 in Q1'. inversion Q1'. subst q'. apply Q2'; auto.
Qed.
Print Assumptions C25_all_analyses_partial.

(** Missing: analyses that do not count.  When one analysis is not a compound,
    compound analyses are ignored, so a break can be reported at a place where
    an ignored analysis has none. *)
Theorem C25_all_analyses_refuted : exists an h word a p q i,
  hyph_word word /\ In a (an false word) /\ good_analyses (an false word) /\
  voikkoHyphenateUcs4 an h word = Ok (Some p) /\ voikkoHyphenateUcs4 (only_for word a) h word = Ok (Some q) /\
  is_break p i /\ ~ is_break q i.
Proof.
  exists an_example, h_example, (wstr "syysilta"), (with_structure (wstr "=pppp=pppp")), (wstr "   -  - "), (wstr "    - - "), 3%nat.
  split; [word_ok|]. split; [left; reflexivity|]. split.
  { constructor; [|constructor; [|constructor]]; eexists; (split; [reflexivity|]); apply good_structure_check; reflexivity. }
  repeat match goal with |- _ /\ _ => split end; try (vm_compute; reflexivity).
  - left. reflexivity.
  - intros [K|K]; discriminate.
Qed.
Print Assumptions C25_all_analyses_refuted.

(** C25: with HYPHENATE_UNKNOWN_WORDS off, an unknown word without adjacent
    hyphens has no '-' break: the only breaks are at its hyphens. *)
Theorem C25_unknown_words_partial : forall an h word t p i,
  hyph_word word -> looked_up an (hyphIgnoreDot h) word t [] -> hyphUnknown h = false ->
  (forall a b, word <> a ++ [0x2D; 0x2D] ++ b) ->
  voikkoHyphenateUcs4 an h word = Ok (Some p) -> nth_error p i <> Some 0x2D /\ (is_break p i -> nth_error word i = Some 0x2D).
Proof.
  intros an h word t p i W LU U ND E. unfold voikkoHyphenateUcs4 in E.
  destruct (Z.ltb_spec (Z.of_nat (length word)) (min_length h)) as [SH|SH].
  - unfold hyphenate, hyphenate_with in E. rewrite min_length_hyph in E. replace (_ <? _) with true in E by lia. inversion E. subst p. split.
    + intros B. apply nth_error_In in B. apply repeat_spec in B. discriminate.
    + intros [B|B]; apply nth_error_In in B; apply repeat_spec in B; discriminate.
  - destruct (hyphenate_ok an (handle_hyph h) word t [] W LU) as (hs & q & O); [constructor|rewrite min_length_hyph; auto|].
    rewrite (out_result _ _ _ _ _ _ _ O) in E. inversion E. subst q. clear E.
    destruct (good_lookup an (handle_hyph h) word t [] W LU) as [TL TN].
    destruct (out_unknown _ _ _ _ _ _ _ O eq_refl) as (u & UM & HU).
    destruct (unknown_ok (handle_hyph h) word) as (u' & U' & LU' & QU). rewrite UM in U'. inversion U'. subst u'. clear U'.
    change (hyphenateUnknown (handle_hyph h)) with (hyphUnknown h) in QU. rewrite U in QU.
    assert (MAIN : forall g' k c, compoundHyphenation (handle_hyph h) word u (length t) = Ok g' -> nth_error g' k = Some c -> nth_error u k = Some c).
    { intros g' k c C E. destruct (compound_ok (handle_hyph h) word (proj2 W) (length t) TL u LU') as (x & X & L' & FR). rewrite C in X. inversion X. subst x.
      destruct (FR k c E) as [(a & b & seg & I1 & _ & J & R & SG & _)|[_ K]]; auto.
      assert (IA : forall fuel s e, (s < e)%nat -> nth_error u s = Some MARK_X -> In (a, b) (plist (length t) fuel u s e) -> nth_error u a = Some MARK_X).
      { induction fuel as [|fuel IH]; intros s e SE SX I; cbn [plist] in I.
        - destruct (e <? length t)%nat; [destruct I|]. destruct (Nat.eqb e (length t) && (s <? e)%nat); [|destruct I]. destruct I as [I|[]]. inversion I. subst. auto.
        - destruct (e <? length t)%nat eqn:EL.
          + destruct (nth_error u e) as [d|] eqn:EE; [|destruct I]. destruct (unmarked d) eqn:UD; cbn [negb] in I; [apply IH in I; auto; lia|].
            destruct (QU e d EE) as [(-> & Q1 & Q2 & Q3 & _)|(-> & _)]; [|discriminate]. cbn in I. destruct I as [I|I]; [inversion I; subst; auto|].
            apply IH in I; auto; [lia|]. destruct (nth_error u (e + 1)) as [d|] eqn:E1; [|apply nth_error_None in E1; lia].
            destruct (QU _ _ E1) as [(_ & _ & _ & Q4 & _)|(-> & _)]; auto. exfalso.
            apply (ND (firstn e word) (skipn (e + 2) word)). rewrite <- (firstn_skipn e word) at 1. f_equal.
            rewrite (skipn_cons_nth _ _ _ _ Q3). replace (S e) with (e + 1)%nat by lia. rewrite (skipn_cons_nth _ _ _ _ Q4). cbn [app]. do 2 f_equal. f_equal. lia.
          + destruct (Nat.eqb e (length t) && (s <? e)%nat); [|destruct I]. destruct I as [I|[]]. inversion I. subst. auto. }
      assert (nth_error u a = Some MARK_X) as AX.
      { unfold parts in I1. destruct (skip_ok u (length t) 0) as (s & SE & SB & SK & _); [lia|]. rewrite SE in I1.
        assert (length word <> 0)%nat as WN by (apply nth_error_lt in E; lia).
        assert (nth_error u 0 = Some MARK_X) as U0.
        { destruct (nth_error u 0) as [d|] eqn:D; [|apply nth_error_None in D; lia]. destruct (QU _ _ D) as [(_ & K & _)|(-> & _)]; [lia|auto]. }
        assert (s = 0)%nat. { destruct s as [|s]; auto. rewrite SK in U0 by lia. discriminate. } subst s.
        apply IA in I1; auto. }
      destruct (parts_facts word (length t) TL u LU') as [PF _]. destruct (PF a b I1) as (AB & BL & _).
      rewrite rule_x in R.
      - inversion R. subst seg. rewrite slice_nth in SG by lia. replace (a + (k - a))%nat with k in SG by lia. auto.
      - rewrite slice_nth by lia. rewrite Nat.add_0_r. auto. }
    assert (B : is_break p i -> nth_error p i = Some EQUALS /\ nth_error word i = Some 0x2D).
    { intros B. destruct (out_value _ _ _ _ _ _ _ O i B) as (g & g' & I & C & V). rewrite HU in I. destruct I as [<-|[]].
      assert (exists c, nth_error p i = Some c /\ (c = HYPHEN \/ c = EQUALS)) as (c & PC & HC) by (destruct B; eauto).
      assert (nth_error g' i = Some c) as GC by congruence. apply (MAIN g' i c C) in GC.
      destruct (QU _ _ GC) as [(Q1 & _ & _ & Q4 & _)|(Q1 & _)]; subst c; auto. destruct HC; discriminate. }
    split; [|intros K; apply B; auto]. intros K. destruct (B (or_introl K)) as [K' _]. rewrite K in K'. discriminate.
Qed.
Print Assumptions C25_unknown_words_partial.
Definition h_known_only : handle := snd (voikkoSetBooleanOption h_example 15 false).
Example C25_unknown_words_ex :
  hyph_word (wstr "foo-banaani") /\ looked_up an_example (hyphIgnoreDot h_known_only) (wstr "foo-banaani") (wstr "foo-banaani") [] /\
  voikkoHyphenateUcs4 an_example h_known_only (wstr "foo-banaani") = Ok (Some (wstr "   =       ")) /\
  voikkoHyphenateUcs4 an_example h_example (wstr "foo-banaani") = Ok (Some (wstr "   =  -  - ")).
Proof.
  split; [word_ok|]. split; [apply (looked_up_whole an_example _ (wstr "foo-banaani")); right; left; reflexivity|].
  split; vm_compute; reflexivity.
Qed.

(** Missing: adjacent hyphens.  The part after the first of them begins with the
    mark of the second one and is hyphenated although the word is unknown. *)
Theorem C25_unknown_words_refuted : exists an h word p i,
  hyph_word word /\ looked_up an (hyphIgnoreDot h) word word [] /\ hyphUnknown h = false /\
  voikkoHyphenateUcs4 an h word = Ok (Some p) /\ nth_error p i = Some 0x2D.
Proof.
  exists an_example, h_known_only, (wstr "a--banaani"), (wstr " ==- -  - "), 3%nat.
  split; [word_ok|]. split; [apply (looked_up_whole an_example _ (wstr "a--banaani")); right; left; reflexivity|].
  split; [reflexivity|]. split; vm_compute; reflexivity.
Qed.
Print Assumptions C25_unknown_words_refuted.

(** C25: without apostrophes in the word, NO_UGLY_HYPHENATION only removes
    breaks.  (When an unknown word is hyphenated without its final dot, the two
    settings may see different texts as Internet addresses; this case is left
    out.) *)
Theorem C25_ugly_subset_partial : forall an h word t l p q i,
  hyph_word word -> ~ In 0x27 word -> looked_up an (hyphIgnoreDot h) word t l -> good_analyses l -> (l <> [] \/ t = word) ->
  hyphUgly h = true ->
  voikkoHyphenateUcs4 an h word = Ok (Some p) ->
  voikkoHyphenateUcs4 an (snd (voikkoSetBooleanOption h 4 true)) word = Ok (Some q) ->
  is_break q i -> is_break p i.
Proof.
  intros an h word t l p q i W APO LU G NT U E1 E2 B. unfold voikkoHyphenateUcs4 in E1, E2.
  set (h' := snd (voikkoSetBooleanOption h 4 true)) in *.
  assert (min_length h' = min_length h) as ML by reflexivity.
  destruct (Z.ltb_spec (Z.of_nat (length word)) (min_length h)) as [SH|SH].
  - unfold hyphenate, hyphenate_with in E2. rewrite min_length_hyph, ML in E2. replace (_ <? _) with true in E2 by lia. inversion E2. subst q.
    destruct B as [B|B]; apply nth_error_In in B; apply repeat_spec in B; discriminate.
  - destruct (hyphenate_ok an (handle_hyph h) word t l W LU G) as (hs & p' & O); [rewrite min_length_hyph; auto|].
    destruct (hyphenate_ok an (handle_hyph h') word t l W LU G) as (hs' & q' & O'); [rewrite min_length_hyph; auto|].
    rewrite (out_result _ _ _ _ _ _ _ O) in E1. inversion E1. subst p'. rewrite (out_result _ _ _ _ _ _ _ O') in E2. inversion E2. subst q'. clear E1 E2.
    destruct (good_lookup an (handle_hyph h) word t l W LU) as [TL TN].
    assert (i < length word)%nat as IL. { rewrite <- (out_length _ _ _ _ _ _ _ O'). destruct B as [B|B]; eapply nth_error_lt; eauto. }
    assert (U1 : uglyHyphenation (handle_hyph h') = false) by reflexivity.
    assert (U2 : uglyHyphenation (handle_hyph h) = true) by exact U.
    apply (out_break _ _ _ _ _ _ _ O i IL). intros g g2 I C2. destruct (nonempty_dec _ l) as [NL|NL].
    + destruct NT as [NT|NT]; [congruence|]. subst t.
      destruct (out_unknown _ _ _ _ _ _ _ O NL) as (u2 & UM2 & HU2). destruct (out_unknown _ _ _ _ _ _ _ O' NL) as (u1 & UM1 & HU1).
      rewrite HU2 in I. destruct I as [<-|[]].
      assert (length u1 = length word) as L1 by (apply (out_pattern _ _ _ _ _ _ _ O'); rewrite HU1; left; auto).
      destruct (compound_ok (handle_hyph h') word (proj2 W) (length word) TL u1 L1) as (g1 & C1 & _).
      apply (styles_unknown (handle_hyph h') (handle_hyph h)) with (word := word) (u1 := u1) (u2 := u2) (h1 := g1); auto; [apply W|].
      apply (proj1 (out_break _ _ _ _ _ _ _ O' i IL) B u1 g1); auto. rewrite HU1. left. auto.
    + assert (In g hs') as I'. { apply (out_known _ _ _ _ _ _ _ O' NL). apply (out_known _ _ _ _ _ _ _ O NL). auto. }
      assert (length g = length word) as L1 by (apply (out_pattern _ _ _ _ _ _ _ O'); auto).
      destruct (compound_ok (handle_hyph h') word (proj2 W) (length t) TL g L1) as (g1 & C1 & _).
      apply (styles_compound (handle_hyph h') (handle_hyph h)) with (word := word) (len := length t) (h := g) (h1 := g1); auto; [apply W|].
      apply (proj1 (out_break _ _ _ _ _ _ _ O' i IL) B g g1); auto.
Qed.
Print Assumptions C25_ugly_subset_partial.
Example C25_ugly_subset_ex :
  voikkoHyphenateUcs4 an_example h_example (wstr "kissanruoka") = Ok (Some (wstr "   -  -  - ")) /\
  voikkoHyphenateUcs4 an_example h_example (wstr "ananas") = Ok (Some (wstr " - -  ")) /\
  voikkoHyphenateUcs4 an_example h_pretty (wstr "ananas") = Ok (Some (wstr "   -  ")) /\
  hyphUgly h_example = true /\ ~ In 0x27 (wstr "ananas").
Proof.
  repeat match goal with |- _ /\ _ => split end; try (vm_compute; reflexivity). intros I. repeat (destruct I as [I|I]; [discriminate|]). destruct I.
Qed.

(** Missing: apostrophes.  The setting also changes which consonants begin a
    syllable near an apostrophe, and can move a break. *)
Theorem C25_ugly_subset_refuted : exists an h word p q i,
  hyph_word word /\ looked_up an (hyphIgnoreDot h) word word [] /\ hyphUgly h = true /\
  voikkoHyphenateUcs4 an h word = Ok (Some p) /\
  voikkoHyphenateUcs4 an (snd (voikkoSetBooleanOption h 4 true)) word = Ok (Some q) /\
  is_break q i /\ ~ is_break p i.
Proof.
  exists an_example, h_example, (wstr "kaa'bra"), (wstr "     - "), (wstr "   -   "), 3%nat.
  split; [word_ok|]. split; [apply (looked_up_whole an_example _ (wstr "kaa'bra")); right; left; reflexivity|].
  split; [reflexivity|]. split; [vm_compute; reflexivity|]. split; [vm_compute; reflexivity|]. split; [left; reflexivity|].
  intros [K|K]; discriminate.
Qed.
Print Assumptions C25_ugly_subset_refuted.

(** C26: without context changes the result is the word with the separator
    inserted before exactly the characters with '-'. *)
Theorem C26_insert_exact : forall an h word sep t l,
  hyph_word word -> (length (utf8_text word) <= 255)%nat -> hyph_word sep ->
  looked_up an (hyphIgnoreDot h) word t l -> good_analyses l ->
  exists p r, voikkoHyphenateUcs4 an h word = Ok (Some p) /\
    voikkoInsertHyphensCstr an h (utf8_text word) (utf8_text sep) false = Ok (Some (utf8_text r)) /\
    inserted sep (fun i => nth_error p i = Some 0x2D) 0 word r.
Proof.
  intros an h word sep t l W L255 WS LU G. destruct (C24_pattern_shape an h word t l W LU G) as (p & E & L & A & _).
  unfold voikkoInsertHyphensCstr, LIBVOIKKO_MAX_WORD_CHARS. replace (255 <? _)%nat with false by lia.
  rewrite ucs4FromUtf8_encoded by apply W. cbn [bind]. rewrite ucs4FromUtf8_encoded by apply WS. cbn [bind].
  rewrite !cstr_no_nul by (apply W || apply WS). rewrite E. cbn [bind].
  destruct (insert_loop_ok sep false p word [0] L A) as (r & R & H). rewrite R. cbn [bind].
  specialize (H 0%nat (fun i => nth_error p i = Some 0x2D) (fun j => iff_refl _)).
  assert (hyph_word r) as WR.
  { clear - H W WS. revert W. induction H; intros W; auto.
    - destruct W as [WE WN]. inversion WE as [|c1 w1 X1 X2]. subst. destruct IHinserted as [Y1 Y2]; [split; auto; intros I; apply WN; right; auto|].
      split; [apply Forall_app; split; [apply WS|constructor; auto]|]. intros I. apply in_app_or in I. destruct I as [I|[I|I]]; [apply WS; auto|apply WN; left; auto|auto].
    - destruct W as [WE WN]. inversion WE as [|c1 w1 X1 X2]. subst. destruct IHinserted as [Y1 Y2]; [split; auto; intros I; apply WN; right; auto|].
      split; [constructor; auto|]. intros [I|I]; [apply WN; left; auto|auto]. }
  rewrite cstr_no_nul by apply WR. rewrite utf8FromUcs4_ok, (proj1 (append_all_encoded r (proj1 WR))). exists p, r. auto.
Qed.
Print Assumptions C26_insert_exact.

(** C26: removing the separator, a character that does not occur in the word,
    gives the word back. *)
Theorem C26_insert_inverse : forall an h word c t l,
  hyph_word word -> (length (utf8_text word) <= 255)%nat -> hyph_word [c] -> ~ In c word ->
  looked_up an (hyphIgnoreDot h) word t l -> good_analyses l ->
  exists r, voikkoInsertHyphensCstr an h (utf8_text word) (utf8_text [c]) false = Ok (Some (utf8_text r)) /\
    filter (fun x => negb (x =? c)) r = word.
Proof.
  intros an h word c t l W L255 WS NI LU G. destruct (C26_insert_exact an h word [c] t l W L255 WS LU G) as (p & r & _ & E & H).
  exists r. split; auto. clear - H NI. revert NI. induction H; intros NI; auto.
  - cbn [app filter]. rewrite Z.eqb_refl. cbn [negb]. assert (c0 <> c) by (intros ->; apply NI; left; auto). replace (c0 =? c) with false by lia.
    cbn [negb]. f_equal. apply IHinserted. intros I. apply NI. right. auto.
  - cbn [filter]. assert (c0 <> c) by (intros ->; apply NI; left; auto). replace (c0 =? c) with false by lia.
    cbn [negb]. f_equal. apply IHinserted. intros I. apply NI. right. auto.
Qed.
Print Assumptions C26_insert_inverse.

(** C26: with context changes allowed, characters at '=' other than hyphens are
    replaced by the separator, and nothing else differs. *)
Theorem C26_context_changes : forall an h word sep t l,
  hyph_word word -> (length (utf8_text word) <= 255)%nat -> hyph_word sep ->
  looked_up an (hyphIgnoreDot h) word t l -> good_analyses l ->
  exists p r, voikkoHyphenateUcs4 an h word = Ok (Some p) /\
    voikkoInsertHyphensCstr an h (utf8_text word) (utf8_text sep) true = Ok (Some (utf8_text r)) /\
    hyphenated sep p word r.
Proof.
  intros an h word sep t l W L255 WS LU G. destruct (C24_pattern_shape an h word t l W LU G) as (p & E & L & A & _).
  unfold voikkoInsertHyphensCstr, LIBVOIKKO_MAX_WORD_CHARS. replace (255 <? _)%nat with false by lia.
  rewrite ucs4FromUtf8_encoded by apply W. cbn [bind]. rewrite ucs4FromUtf8_encoded by apply WS. cbn [bind].
  rewrite !cstr_no_nul by (apply W || apply WS). rewrite E. cbn [bind].
  destruct (insert_loop_ok sep true p word [0] L A) as (r & R & H). rewrite R. cbn [bind].
  assert (hyph_word r) as WR.
  { assert (forall x, In x r -> In x word \/ In x sep) as IN.
    { clear - H. induction H; intros x I; auto.
      - destruct I as [<-|I]; [left; left; auto|]. apply IHhyphenated in I. cbn. tauto.
      - apply in_app_or in I. destruct I as [I|[<-|I]]; [right; auto|left; left; auto|]. apply IHhyphenated in I. cbn. tauto.
      - destruct I as [<-|I]; [left; left; auto|]. apply IHhyphenated in I. cbn. tauto.
      - apply in_app_or in I. destruct I as [I|I]; [right; auto|]. apply IHhyphenated in I. cbn. tauto. }
    destruct W as [W1 W2]. destruct WS as [S1 S2]. rewrite Forall_forall in W1, S1. split.
    - apply Forall_forall. intros x I. apply IN in I. destruct I; auto.
    - intros I. apply IN in I. tauto. }
  rewrite cstr_no_nul by apply WR. rewrite utf8FromUcs4_ok, (proj1 (append_all_encoded r (proj1 WR))). exists p, r. auto.
Qed.
Print Assumptions C26_context_changes.
Example C26_ex :
  voikkoInsertHyphensCstr an_example h_example (wstr "linja-auto") [0xC2; 0xAD] false =
    Ok (Some (wstr "lin" ++ [0xC2; 0xAD] ++ wstr "ja-au" ++ [0xC2; 0xAD] ++ wstr "to")) /\
  voikkoInsertHyphensCstr an_example h_example (wstr "rei'itys") (wstr "-") true = Ok (Some (wstr "rei-i-tys")) /\
  voikkoInsertHyphensCstr an_example h_example (wstr "rei'itys") (wstr "-") false = Ok (Some (wstr "rei'i-tys")).
Proof. repeat split; vm_compute; reflexivity. Qed.
