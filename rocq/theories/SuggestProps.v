(** * Properties of suggestions *)
From Coq Require Import Permutation Sorted.
From Verif Require Import Base BaseFacts CharModel CharSpec CharProofs Utf8Model Utf8Spec Utf8Proofs SpellerBase SpellSpec SpellProofs CacheModel
  AnalysisModel AnalyzerBase HandleModel HyphModel HyphSpec HyphProofs HyphProps AdapterModel TweaksModel TweaksSpec TweaksProofs TweaksProps
  SuggestModel SuggestSpec SuggestProofs SuggestProofs2 SuggestEdits SuggestInv SuggestInv2 SuggestOut SuggestHits.

(** ** A small dictionary for the examples *)

Definition noun (case : string) (st : list Z) : analysis :=
  add (add (with_structure st) CLASS (wstr "nimisana")) SIJAMUOTO (wstr case).
Definition entries : list (list Z * list analysis) :=
  [(wstr "talo", [noun "nimento" (wstr "=pppp")]);
   (wstr "talon", [noun "omanto" (wstr "=ppppp")]);
   (wstr "tulo", [noun "nimento" (wstr "=pppp")]);
   (wstr "matti", [add (with_structure (wstr "=ipppp")) CLASS (wstr "etunimi")]);
   (wstr "eu", [with_structure (wstr "=jj")]);
   (wstr "sana", [with_structure (wstr "=pppp"); noun "nimento" (wstr "=pppp"); noun "seuranto" (wstr "=pp=pp")])].
Definition toy : analyzer := from_list entries.

Lemma toy_good : good_analyzer toy.
Proof.
  apply from_list_good.
  repeat (constructor; [repeat (constructor; [eexists; split; [reflexivity|apply good_structure_check; reflexivity]|]); constructor|]). constructor.
Qed.
Lemma from_list_blind : forall d, case_blind_analyzer (from_list d).
Proof. intros d v w H. unfold from_list. rewrite H. auto. Qed.
Lemma from_list_no_schwa : forall d, forallb (fun e => negb (mem SCHWA (fst e))) d = true -> no_schwa (from_list d).
Proof.
  intros d H w I. unfold from_list. assert (L : In SCHWA (map lower w)) by (change SCHWA with (lower SCHWA); apply in_map; auto).
  induction d as [|(v, l) d IH]; cbn [find_word]; auto. cbn [forallb fst] in H. apply andb_true_iff in H as (H1 & H2).
  destruct (zlist_eqb v (map lower w)) eqn:E; auto. apply zlist_eqb_eq in E. subst v. apply mem_In in L. rewrite L in H1. discriminate.
Qed.
Lemma toy_no_schwa : no_schwa toy.
Proof. apply from_list_no_schwa. vm_compute. reflexivity. Qed.

(** ** C45: ranks *)

Lemma as_good_antisym : forall a b, as_good a b -> as_good b a -> a = b.
Proof. intros a b H K. inversion H; subst; auto; inversion K; auto. Qed.

(** Suggestion search gives a word the same verdict as spell checking. The rank
    is the smallest weight of the analyses that give this verdict; it is positive
    and does not overflow. *)
Theorem C45_rank : forall an w, good_analyses (an false w) -> exists r p, spellWithPriority an w = Ok (r, p) /\ adapter_spell an w = Ok r /\
  (an false w = [] -> r = SPELL_FAILED /\ p = 0) /\
  (an false w <> [] -> r <> SPELL_FAILED /\ 0 < p <= 60 * 8 ^ 4 * 3 /\ (exists a, In a (an false w) /\ weighs w a r p) /\
     forall a q p', In a (an false w) -> weighs w a q p' -> as_good r q /\ (q = r -> p <= p')).
Proof.
  intros an w G. destruct (with_priority_ok an w G) as (r & p & E & H). destruct (adapter_ok an w G) as (r' & E' & A1 & A2 & A3).
  exists r, p. split; auto. destruct H as [(-> & -> & En)|(N & (a & I & W) & H)].
  - split; [rewrite E'; f_equal; apply A1; auto|]. split; [auto|congruence].
  - assert (Ne : an false w <> []) by (intros X; rewrite X in I; destruct I).
    assert (Nr : r' <> SPELL_FAILED) by (intros X; apply A1 in X; contradiction). destruct (A2 Nr) as (b & st & Ib & Sb & Gb).
    assert (r' = r) as ->.
    { apply as_good_antisym.
      - pose proof W as (x & st' & _ & S' & G' & _). exact (A3 a st' r I S' G').
      - destruct (H b r' (getPriorityFromWordClassAndInflection b * parts_weight st * verdict_weight r') Ib) as (X & _); auto.
        exists (getPriorityFromWordClassAndInflection b), st. split; [apply base_spec|]. auto. }
    split; auto. split; [contradiction|]. intros _. split; auto. split; [apply weighs_range in W; unfold MAXRANK in W; lia|]. split; eauto.
Qed.
Print Assumptions C45_rank.
Example C45_rank_ex : good_analyses (toy false (wstr "sana")) /\ spellWithPriority toy (wstr "sana") = Ok (SPELL_OK, 2) /\
  spellWithPriority toy (wstr "sAna") = Ok (SPELL_CAP_ERROR, 6) /\
  spellWithPriority toy (wstr "matti") = Ok (SPELL_CAP_FIRST, 8).
Proof. split; [apply toy_good|]. repeat (split; [vm_compute; reflexivity|]); vm_compute; reflexivity. Qed.

(** Every analysis has exactly one weight. *)
Theorem C45_weight : forall w a st, a STRUCTURE = Some st -> ~ In 0 st -> exists r p, weighs w a r p /\
  forall r' p', weighs w a r' p' -> r' = r /\ p' = p.
Proof.
  intros w a st S1 N. destruct (match_ok w st N) as (r & _ & G).
  exists r, (getPriorityFromWordClassAndInflection a * parts_weight st * verdict_weight r).
  assert (W : weighs w a r (getPriorityFromWordClassAndInflection a * parts_weight st * verdict_weight r)).
  { exists (getPriorityFromWordClassAndInflection a), st. split; [apply base_spec|]. auto. }
  split; auto. intros r' p' W'. destruct (weighs_fun _ _ _ _ _ _ W' W). auto.
Qed.
Print Assumptions C45_weight.
Example C45_weight_ex : weighs (wstr "sana") (noun "seuranto" (wstr "=pp=pp")) SPELL_OK 480.
Proof.
  exists 60, (wstr "=pp=pp"). split.
  - apply (bw_case _ "seuranto"%string); [exists "nimisana"%string; split; [left; auto|reflexivity]|constructor|reflexivity].
  - split; [reflexivity|]. split; [|reflexivity]. destruct (match_ok (wstr "sana") (wstr "=pp=pp")) as (r & M & G).
    + vm_compute. intuition discriminate.
    + vm_compute in M. injection M as <-. exact G.
Qed.

(** The order of the analyses does not matter. *)
Theorem C45_order_irrelevant : forall an an' w, good_analyses (an false w) -> Permutation (an false w) (an' false w) ->
  spellWithPriority an w = spellWithPriority an' w.
Proof.
  intros an an' w G P.
  assert (G' : good_analyses (an' false w)) by (eapply Permutation_Forall; eauto).
  destruct (with_priority_ok an w G) as (r & p & -> & H). destruct (with_priority_ok an' w G') as (r' & p' & -> & H').
  destruct H as [(-> & -> & E)|(N & (a & I & W) & H)]; destruct H' as [(-> & -> & E')|(N' & (b & I' & W') & H')]; auto.
  - rewrite E in P. apply Permutation_nil in P. rewrite P in I'. destruct I'.
  - rewrite E' in P. apply Permutation_sym, Permutation_nil in P. rewrite P in I. destruct I.
  - pose proof (Permutation_in _ P I) as Ia. pose proof (Permutation_in _ (Permutation_sym P) I') as Ib.
    destruct (H _ _ _ Ib W') as (X1 & X2). destruct (H' _ _ _ Ia W) as (Y1 & Y2). pose proof (as_good_antisym _ _ X1 Y1). subst r'.
    specialize (X2 eq_refl). specialize (Y2 eq_refl). f_equal. f_equal. lia.
Qed.
Print Assumptions C45_order_irrelevant.

(** ** Words for which suggestions are safe *)

(** The word is normalised to a text of at least two characters, at most one
    character longer than the word itself, with at most 32 of the vowels that have
    counterparts. *)
Definition suggestible (word n : list Z) : Prop :=
  unicode_word word /\ voikko_normalise word = Ok n /\ (2 <= length word)%nat /\ (2 <= length n <= length word + 1)%nat /\ exists k, vowels_in n k /\ (k <= 32)%nat.
Definition suggest_with (an : analyzer) (ocr : bool) : status -> res status := strategy_generate (finnish_strategy an ocr).
Definition effort (ocr : bool) : nat := if ocr then 2000%nat else 800%nat.

Lemma vowel_count_app : forall a b, vowel_count (a ++ b) = (vowel_count a + vowel_count b)%nat.
Proof. induction a as [|c a IH]; intros b; cbn [app vowel_count]; auto. destruct (vowel c); rewrite IH; auto. Qed.

Lemma generate_ok : forall an ocr core, good_analyzer an -> ~ In 0 core -> (2 <= length core)%nat -> (vowel_count core <= 32)%nat ->
  exists s, suggest_with an ocr (new_status core 15) = Ok s /\ Inv an core (effort ocr) (edit ocr) s.
Proof.
  intros an [] core GA N L V; unfold suggest_with, finnish_strategy, effort, edit; [apply ocr_fine|apply typing_fine]; auto.
Qed.

Lemma searched_ex : forall h n, exists dot core, searched h n dot core.
Proof.
  intros h n. destruct n as [|c n _] using rev_ind.
  - exists false, []. split; auto. intros _ [|]; discriminate.
  - destruct (ignore_dot h) eqn:D; [destruct (Z.eq_dec c 0x2E) as [->|E]|].
    + exists true, n. split; auto.
    + exists false, (n ++ [c]). split; auto. intros _ x X. apply snoc_inj in X as (_ & X). congruence.
    + exists false, (n ++ [c]). split; auto. congruence.
Qed.

Lemma searched_fun : forall h n d c d' c', searched h n d c -> searched h n d' c' -> d = d' /\ c = c'.
Proof.
  intros h n [] c [] c' H K; cbn in *.
  - destruct H as (_ & H), K as (_ & K). rewrite H in K. apply snoc_inj in K as (-> & _). auto.
  - destruct H as (D & ->), K as (-> & K). elim (K D c eq_refl).
  - destruct H as (-> & H), K as (D & K). elim (H D c' K).
  - destruct H as (-> & _), K as (-> & _). auto.
Qed.

Lemma suggest_main : forall an ocr h word n, good_analyzer an -> an false [] = [] -> suggestible word n ->
  exists o, voikkoSuggestUcs4 (suggest_with an ocr) h word = Ok o /\
    ((length word <= 255)%nat -> (ignore_dot h = true -> length n <> 2%nat) -> forall dot core, searched h n dot core ->
       exists s, suggest_with an ocr (new_status core 15) = Ok s /\ Inv an core (effort ocr) (edit ocr) s /\
         match o with
         | None => found s = []
         | Some l => found s <> [] /\ exists ranked, stably_sorted (found s) ranked /\ Forall2 (returned h core dot) (firstn 5 ranked) l
         end) /\
    ((255 < length word)%nat \/ (ignore_dot h = true /\ length n = 2%nat) -> o = None).
Proof.
  intros an ocr h word n GA GE (U & En & Lw & Ln & k & Vk & Hk).
  destruct (Nat.ltb_spec 255 (length word)) as [Big|Small].
  { exists None. unfold voikkoSuggestUcs4. replace ((length word <=? 1)%nat || (LIBVOIKKO_MAX_WORD_CHARS <? length word)%nat) with true
      by (unfold LIBVOIKKO_MAX_WORD_CHARS; lia). split; auto. split; [lia|auto]. }
  assert (G : ((length word <=? 1)%nat || (LIBVOIKKO_MAX_WORD_CHARS <? length word)%nat) = false) by (unfold LIBVOIKKO_MAX_WORD_CHARS; lia).
  destruct (ignore_dot h && Nat.eqb (length n) 2) eqn:D2.
  { exists None. unfold voikkoSuggestUcs4. rewrite G, En. cbn [bind]. rewrite D2. split; auto.
    apply andb_true_iff in D2 as (A & B). apply Nat.eqb_eq in B. split; [intros _ X; elim (X A B)|auto]. }
  assert (ND : ignore_dot h = true -> length n <> 2%nat).
  { intros X Y. rewrite X, Y in D2. discriminate. }
  destruct (searched_ex h n) as (dot & core & Hs).
  assert (Nn : ~ In 0 n). { rewrite normalise_ok in En. injection En as <-. apply norm_word in U. intros I. unfold unicode_word in U. rewrite Forall_forall in U. specialize (U 0 I). unfold code_point in U. lia. }
  assert (Lc : (2 <= length core <= length word + 1)%nat /\ ~ In 0 core /\ (vowel_count core <= 32)%nat).
  { apply vowels_in_spec in Vk. subst k. destruct dot; cbn in Hs.
    - destruct Hs as (A & ->). specialize (ND A). rewrite app_length in *. cbn [length] in *. rewrite vowel_count_app in Hk. split; [lia|]. split; [|lia].
      intros X. apply Nn. apply in_or_app. auto.
    - destruct Hs as (-> & _). split; [lia|]. auto. }
  destruct Lc as (Lc & Nc & Vc). destruct (generate_ok an ocr core GA Nc (proj1 Lc) Vc) as (s & Es & I).
  destruct (suggest_shape (suggest_with an ocr) h word n dot core s) as (o & Eo & H); auto.
  - intros ->. cbn in Ln. lia.
  - lia.
  - intros _. destruct I as (_ & _ & _ & _ & _ & _ & F). apply Forall_forall. intros x Ix.
    apply In_nth_error in Ix as (i & Ix). destruct (F i x Ix) as (p & _ & _ & X & _). auto.
  - exists o. split; auto. split.
    + intros _ _ dot' core' Hs'. destruct (searched_fun _ _ _ _ _ _ Hs Hs') as (<- & <-). exists s. auto.
    + intros [X|(X & Y)]; [lia|elim (ND X Y)].
Qed.


(** Every candidate that is found carries its rank times its position (from five)
    among the candidates. *)
Theorem C45_candidates : forall an ocr core, good_analyzer an -> ~ In 0 core -> (2 <= length core)%nat ->
  (exists k, vowels_in core k /\ (k <= 32)%nat) ->
  exists s, suggest_with an ocr (new_status core 15) = Ok s /\
    forall i x r, nth_error (found s) i = Some (x, r) -> exists p, candidate_rank an core x p /\ r = p * (Z.of_nat i + 5).
Proof.
  intros an ocr core GA N L (k & V & K). apply vowels_in_spec in V. subst k.
  destruct (generate_ok an ocr core GA N L K) as (s & E & _ & _ & _ & _ & _ & _ & F). exists s. split; auto. intros i x r H.
  destruct (F i (x, r) H) as (p & P & _ & _ & _ & _ & R). exists p. auto.
Qed.
Print Assumptions C45_candidates.
Example C45_candidates_ex : exists s, suggest_with toy false (new_status (wstr "talo-sana") 15) = Ok s /\ found s = [(wstr "talo sana", 6 * (2 + 2) * 5)].
Proof. eexists. split; vm_compute; reflexivity. Qed.

(** ** C22: memory safety *)

(** Suggestions never touch memory outside their buffers, overflow or fail to
    end.  The words that [suggestible] leaves out are shown below. *)
Theorem C22_suggest_safe : forall an ocr h word n, good_analyzer an -> an false [] = [] -> suggestible word n ->
  exists o, voikkoSuggestUcs4 (suggest_with an ocr) h word = Ok o.
Proof. intros. destruct (suggest_main an ocr h word n) as (o & E & _); eauto. Qed.
Print Assumptions C22_suggest_safe.

Lemma vowels_count : forall w, (vowel_count w <= 32)%nat -> exists k, vowels_in w k /\ (k <= 32)%nat.
Proof. intros w H. exists (vowel_count w). split; auto. apply vowels_in_spec. auto. Qed.
Lemma suggestible_check : forall word n, forallb (fun c => (1 <=? c) && (c <? 0x110000)) word = true -> voikko_normalise word = Ok n ->
  (2 <=? length word)%nat && (2 <=? length n)%nat && (length n <=? length word + 1)%nat && (vowel_count n <=? 32)%nat = true -> suggestible word n.
Proof.
  intros word n F E H. split.
  - apply Forall_forall. intros c I. rewrite forallb_forall in F. specialize (F c I). unfold code_point. lia.
  - split; auto. split; [lia|]. split; [lia|]. apply vowels_count. lia.
Qed.
Example C22_suggest_safe_ex : exists h, voikkoInit = Ok h /\ good_analyzer toy /\ toy false [] = [] /\
  suggestible (wstr "taalo") (wstr "taalo") /\ suggestible [0x66; 0x61; 0xFB00] (wstr "faff") /\
  voikkoSuggestUcs4 (suggest_with toy false) h (wstr "taalo") = Ok (Some [wstr "talo"]) /\
  voikkoSuggestUcs4 (suggest_with toy false) h [0x66; 0x61; 0xFB00] = Ok None.
Proof.
  eexists. split; [reflexivity|]. split; [apply toy_good|]. split; [reflexivity|].
  split; [apply suggestible_check; vm_compute; reflexivity|]. split; [apply suggestible_check; vm_compute; reflexivity|].
  split; vm_compute; reflexivity.
Qed.

(** Words of at least two characters are not always safe: a letter with a
    combining mark is normalised to one character, which the generator that adds
    hyphens does not expect. *)
Theorem C22_short_refuted : exists h, voikkoInit = Ok h /\ (2 <= length [0x61; 0x308] <= 255)%nat /\
  voikkoSuggestUcs4 (suggest_with (fun _ _ => []) false) h [0x61; 0x308] = UB.
Proof. eexists. split; [reflexivity|]. split; [cbn; lia|]. vm_compute. reflexivity. Qed.
Print Assumptions C22_short_refuted.

(** Ligatures make the normalised word longer than the word; the original is
    then read past its end when the form of apostrophes and hyphens is restored. *)
Theorem C22_ligature_refuted : exists h an word, voikkoInit = Ok h /\ good_analyzer an /\ unicode_word word /\ (2 <= length word <= 255)%nat /\
  voikkoSuggestUcs4 (suggest_with an false) h word = UB.
Proof.
  eexists. exists (from_list [(wstr "ffiffi", [with_structure (wstr "=pppppp")])]), [0xFB03; 0xFB03].
  split; [reflexivity|]. split; [|split; [repeat constructor; cbn; lia|split; [cbn; lia|vm_compute; reflexivity]]].
  apply from_list_good. repeat (constructor; [repeat (constructor; [eexists; split; [reflexivity|apply good_structure_check; reflexivity]|]); constructor|]). constructor.
Qed.
Print Assumptions C22_ligature_refuted.

(** With more than 32 vowels a negative number is shifted to the left. *)
Theorem C22_vowels_refuted : exists h, voikkoInit = Ok h /\
  voikkoSuggestUcs4 (suggest_with (fun _ _ => []) false) h (repeat 0x61 33) = UB /\
  voikkoSuggestUcs4 (suggest_with (fun _ _ => []) false) h (repeat 0x61 32) = Ok None.
Proof. eexists. split; [reflexivity|]. split; vm_compute; reflexivity. Qed.
Print Assumptions C22_vowels_refuted.

(** ** C19: the list *)

(** For every generator: no list when it finds nothing, otherwise a list of the at
    most five best-ranked candidates in order of rank, candidates of equal rank in
    order of discovery. *)
Theorem C19_best_five : forall gen h word n dot core s, unicode_word word -> (2 <= length word <= 255)%nat -> voikko_normalise word = Ok n ->
  (length n <= length word + 1)%nat -> (ignore_dot h = true -> length n <> 2%nat) -> searched h n dot core ->
  gen (new_status core 15) = Ok s -> (dot = true -> forall x, In x (found s) -> fst x <> []) ->
  (found s = [] -> voikkoSuggestUcs4 gen h word = Ok None) /\
  (found s <> [] -> exists l ranked, voikkoSuggestUcs4 gen h word = Ok (Some l) /\ stably_sorted (found s) ranked /\
     length l = Nat.min 5 (length (found s)) /\ Forall2 (returned h core dot) (firstn 5 ranked) l).
Proof.
  intros gen h word n dot core s U Lw En Ln ND Hs Eg Hd.
  assert (Nn : n <> []). { rewrite normalise_ok in En. injection En as <-. apply norm_loop_nonempty. intros ->. cbn in Lw. lia. }
  destruct (suggest_shape gen h word n dot core s) as (o & Eo & H); auto.
  - destruct dot; cbn in Hs; destruct Hs as (A & B); [rewrite B, app_length in Ln; cbn in Ln|subst]; lia.
  - intros X. apply Forall_forall. auto.
  - split; intros F.
    + destruct o as [l|]; [destruct H; contradiction|auto].
    + destruct o as [l|]; [|contradiction]. destruct H as (_ & ranked & S1 & S2). exists l, ranked. repeat (split; auto).
      apply forall2_len in S2. rewrite <- S2, firstn_length. f_equal. destruct S1 as (P & _). apply Permutation_length in P. auto.
Qed.
Print Assumptions C19_best_five.
Definition fixed_list (l : list (list Z * Z)) (s : status) : res status := Ok (mkStatus (sword s) (maxCost s) (maxSuggestions s) l 0 []).
Example C19_best_five_ex : exists h, voikkoInit = Ok h /\ voikko_normalise (wstr "abc") = Ok (wstr "abc") /\
  searched h (wstr "abc") false (wstr "abc") /\
  voikkoSuggestUcs4 (fixed_list [(wstr "aa", 5); (wstr "bb", 2); (wstr "cc", 5); (wstr "dd", 1); (wstr "ee", 5); (wstr "ff", 5); (wstr "gg", 3)]) h (wstr "abc")
    = Ok (Some [wstr "dd"; wstr "bb"; wstr "gg"; wstr "aa"; wstr "cc"]).
Proof. eexists. split; [reflexivity|]. split; [reflexivity|]. split; [split; [auto|discriminate]|]. vm_compute. reflexivity. Qed.

(** With the Finnish generators the list has one to five entries. *)
Theorem C19_count : forall an ocr h word n l, good_analyzer an -> an false [] = [] -> suggestible word n ->
  voikkoSuggestUcs4 (suggest_with an ocr) h word = Ok (Some l) -> (1 <= length l <= 5)%nat.
Proof.
  intros an ocr h word n l GA GE S1 H. destruct (suggest_main an ocr h word n GA GE S1) as (o & E & H1 & H2). rewrite E in H. injection H as ->.
  destruct (Nat.ltb_spec 255 (length word)); [discriminate (H2 (or_introl H))|].
  destruct (ignore_dot h) eqn:D; [destruct (Nat.eq_dec (length n) 2) as [E2|]; [discriminate (H2 (or_intror (conj eq_refl E2)))|]|];
    (destruct (searched_ex h n) as (dot & core & Hs); destruct (H1 ltac:(lia) ltac:(congruence) _ _ Hs) as (s & Es & I & F & ranked & (P & _) & F2);
     apply forall2_len in F2; rewrite firstn_length in F2; apply Permutation_length in P; destruct (found s); [contradiction|]; cbn [length] in P; lia).
Qed.
Print Assumptions C19_count.

(** Nothing is suggested by the backend that has no suggestions, for words of one
    character or of more than 255, and for two characters with IGNORE_DOT. *)
Theorem C19_nothing : forall gen h word, unicode_word word ->
  (gen = null_generate \/ (length word <= 1)%nat \/ (255 < length word)%nat \/
   (ignore_dot h = true /\ exists n, voikko_normalise word = Ok n /\ length n = 2%nat)) ->
  voikkoSuggestUcs4 gen h word = Ok None.
Proof.
  intros gen h word U H. unfold voikkoSuggestUcs4, LIBVOIKKO_MAX_WORD_CHARS.
  destruct ((length word <=? 1)%nat || (255 <? length word)%nat) eqn:G; auto. rewrite normalise_ok. cbn [bind].
  destruct (ignore_dot h && Nat.eqb (length (norm_loop word)) 2) eqn:D; auto.
  destruct H as [->|[H|[H|(H1 & n & H2 & H3)]]]; try lia.
  - assert (Nn : norm_loop word <> []) by (apply norm_loop_nonempty; intros ->; discriminate).
    destruct (ignore_dot h); auto. destruct (norm_loop word) as [|c m _] using rev_ind; [contradiction|].
    unfold rd_back. rewrite app_length. cbn [length]. replace (length m + 1 - 1)%nat with (length m) by lia.
    rewrite (proj2 (rd_ok _ _ _ c)) by apply nth_mid.
    destruct (length m + 1 <? 1)%nat eqn:X; [lia|]. cbn [bind]. destruct (c =? 0x2E); auto.
  - rewrite normalise_ok in H2. injection H2 as <-. rewrite H1, H3 in D. discriminate.
Qed.
Print Assumptions C19_nothing.

(** ** C20: effort *)

(** The number of dictionary lookups does not exceed twice the budget of the
    strategy and two, nor the number of candidates 15. *)
Theorem C20_effort : forall an ocr core, good_analyzer an -> ~ In 0 core -> (2 <= length core)%nat ->
  (exists k, vowels_in core k /\ (k <= 32)%nat) ->
  exists s, suggest_with an ocr (new_status core 15) = Ok s /\ (length (lookups s) <= if ocr then 4002 else 1602)%nat /\ (length (found s) <= 15)%nat.
Proof.
  intros an ocr core GA N L (k & V & K). apply vowels_in_spec in V. subst k.
  destruct (generate_ok an ocr core GA N L K) as (s & E & _ & _ & _ & I4 & I5 & I6 & _). exists s. split; auto. split; auto.
  rewrite I5. unfold effort in I6. destruct ocr; lia.
Qed.
Print Assumptions C20_effort.
Definition lookups_for (an : analyzer) (ocr : bool) (w : list Z) : res nat := s <- suggest_with an ocr (new_status w 15) ;; Ok (length (lookups s)).
Example C20_effort_ex : lookups_for toy false (wstr "qwertyqwertyqwerty") = Ok 808%nat /\
  lookups_for toy false (wstr "taalo") = Ok 259%nat /\ lookups_for toy true (wstr "ta1o") = Ok 22%nat.
Proof. repeat (split; [vm_compute; reflexivity|]); vm_compute; reflexivity. Qed.

(** ** C21: suggestions are words of the dictionary *)

(** The list that is returned, entry by entry. *)
Lemma returned_list : forall an ocr h word n l y, good_analyzer an -> an false [] = [] -> suggestible word n ->
  voikkoSuggestUcs4 (suggest_with an ocr) h word = Ok (Some l) -> In y l ->
  exists dot core x, searched h n dot core /\ (exists p, entry_ok an core (edit ocr) (fst x) p) /\ returned h core dot x y.
Proof.
  intros an ocr h word n l y GA GE S1 H Iy. destruct (suggest_main an ocr h word n GA GE S1) as (o & E & H1 & H2). rewrite E in H. injection H as ->.
  destruct (Nat.ltb_spec 255 (length word)) as [B|B]; [discriminate (H2 (or_introl B))|].
  assert (D : ignore_dot h = true -> length n <> 2%nat) by (intros D D2; discriminate (H2 (or_intror (conj D D2)))).
  destruct (searched_ex h n) as (dot & core & Hs). destruct (H1 ltac:(lia) D _ _ Hs) as (s & Es & I & F & ranked & (P & _) & F2).
  assert (X : exists x, In x (firstn 5 ranked) /\ returned h core dot x y).
  { clear -F2 Iy. induction F2 as [|a b la lb R F2 IH]; [destruct Iy|]. destruct Iy as [<-|Iy]; [exists a; split; [left|]; auto|].
    destruct (IH Iy) as (x & A & B). exists x. split; [right|]; auto. }
  destruct X as (x & Ix & R). exists dot, core, x. split; auto. split; auto. apply In_firstn in Ix.
  apply (Permutation_in _ (Permutation_sym P)) in Ix. destruct I as (_ & _ & _ & _ & _ & _ & A).
  apply In_nth_error in Ix as (i & Ix). destruct (A i x Ix) as (p & _ & X). eauto.
Qed.

(** Every suggestion is, up to the final dot, the letter case and the form of
    apostrophes and hyphens, a word that the dictionary accepts as it is written,
    or two such words and a space. *)
Theorem C21_dictionary_words : forall an ocr h word n l y, good_analyzer an -> an false [] = [] -> case_blind_analyzer an -> no_schwa an ->
  suggestible word n -> voikkoSuggestUcs4 (suggest_with an ocr) h word = Ok (Some l) -> In y l ->
  exists dot core v d z, searched h n dot core /\ good_suggestion an v /\ dotted dot v d /\ case_follows (accept_all_uppercase h) core d z /\ same_text z y.
Proof.
  intros an ocr h word n l y GA GE CB NS S1 H I. destruct (returned_list an ocr h word n l y GA GE S1 H I) as (dot & core & x & Hs & (p & G & _) & d & z & R1 & R2 & R3).
  exists dot, core, (fst x), d, z. auto 6.
Qed.
Print Assumptions C21_dictionary_words.
Example C21_dictionary_words_ex : exists h, voikkoInit = Ok h /\ good_analyzer toy /\ toy false [] = [] /\ case_blind_analyzer toy /\ no_schwa toy /\
  voikkoSuggestUcs4 (suggest_with toy false) h (wstr "talosana") = Ok (Some [wstr "talo sana"]) /\
  voikkoSuggestUcs4 (suggest_with toy false) h (wstr "matti") = Ok (Some [wstr "Matti"]) /\
  voikkoSuggestUcs4 (suggest_with toy false) h (wstr "Talomatti") = Ok (Some [wstr "Talo Matti"]) /\
  voikkoSuggestUcs4 (suggest_with toy true) h (wstr "tal0") = Ok (Some [wstr "talo"]) /\
  voikkoSuggestUcs4 (suggest_with toy false) h (wstr "TALP") = Ok (Some [wstr "TALO"]).
Proof.
  eexists. split; [reflexivity|]. split; [apply toy_good|]. split; [reflexivity|]. split; [apply from_list_blind|]. split; [apply toy_no_schwa|].
  repeat (split; [vm_compute; reflexivity|]); vm_compute; reflexivity.
Qed.

(** Without these conditions a suggestion may be wrong: an analyser that knows the
    letter SCHWA makes the library suggest a word it does not accept. *)
Definition schwa_list : analyzer := from_list [([SCHWA; 0x61], [with_structure (wstr "=pp")])].
Theorem C21_schwa_refuted : exists h l, voikkoInit = Ok h /\ good_analyzer schwa_list /\ case_blind_analyzer schwa_list /\ schwa_list false [] = [] /\
  voikkoSuggestUcs4 (suggest_with schwa_list false) h [SCHWA; 0x61] = Ok (Some l) /\ Forall (fun v => ~ good_suggestion schwa_list v) l.
Proof.
  eexists. exists [[SCHWA; 0x61]]. split; [reflexivity|]. split; [|split; [apply from_list_blind|split; [reflexivity|split; [vm_compute; reflexivity|]]]].
  - apply from_list_good. repeat (constructor; [repeat (constructor; [eexists; split; [reflexivity|apply good_structure_check; reflexivity]|]); constructor|]). constructor.
  - constructor; [|constructor]. intros [(a & st & I & S1 & G1 & _)|(p1 & d & p2 & E & Hd & _)].
    + vm_compute in I. destruct I as [<-|[]]. vm_compute in S1. injection S1 as <-. apply G1. exists 0%nat, SCHWA, 0x70.
      split; [reflexivity|]. split; [reflexivity|]. left. split; auto.
    + assert (In 0x20 [SCHWA; 0x61]) by (rewrite E; apply in_or_app; right; apply in_or_app; right; left; auto). cbn in H. unfold SCHWA in H. lia.
Qed.
Print Assumptions C21_schwa_refuted.

(** ** C23: letter case of suggestions *)

Lemma respelt_case : forall c d, respelt c d -> (d = c \/ ((c = 0x27 \/ c = 0x2D) /\ (d = 0x2019 \/ d = 0x2010 \/ d = 0x2011))).
Proof. intros c d [->|U]; auto. right. inversion U; auto. Qed.

Lemma respelt_small : forall c d, respelt c d -> (small c <-> small d).
Proof. intros c d H. apply respelt_case in H as [->|([ -> | -> ] & [ -> |[ -> | -> ]])]; try tauto; rewrite <- !isLower_spec; vm_compute; split; discriminate. Qed.
Lemma respelt_capital : forall c d, respelt c d -> (capital c \/ c = SCHWA <-> capital d \/ d = SCHWA).
Proof. intros c d H. apply respelt_case in H as [->|([ -> | -> ] & [ -> |[ -> | -> ]])]; try tauto; rewrite <- !isUpper_spec; vm_compute; split; discriminate. Qed.

Lemma same_text_small : forall x y, same_text x y -> (no_small x <-> no_small y).
Proof.
  intros x y F. unfold no_small. induction F as [|c d x y R F IH]; [split; auto|]. rewrite !Forall_cons_iff, IH, (respelt_small c d R). tauto.
Qed.
Lemma same_text_capital : forall x y, same_text x y -> (no_capital x <-> no_capital y).
Proof.
  intros x y F. unfold no_capital. induction F as [|c d x y R F IH]; [split; auto|]. rewrite !Forall_cons_iff, IH.
  pose proof (respelt_capital c d R). tauto.
Qed.

(** The final dot plays no role in letter case. *)
Lemma dot_not_cased : ~ small 0x2E /\ ~ (capital 0x2E \/ 0x2E = SCHWA).
Proof. rewrite <- isLower_spec, <- isUpper_spec. vm_compute. split; discriminate. Qed.
Lemma searched_case : forall h n dot core, searched h n dot core -> (2 <= length n)%nat ->
  (no_small core <-> no_small n) /\ (no_cased core <-> no_cased n) /\ (starts_capital core <-> starts_capital n).
Proof.
  intros h n [] core H L; cbn in H.
  - destruct H as (_ & ->). destruct dot_not_cased as (D1 & D2). unfold no_small, no_cased. rewrite !Forall_app.
    assert (N1 : Forall (fun c => ~ small c) [0x2E]) by (constructor; auto).
    assert (N2 : Forall (fun c => ~ capital c /\ c <> SCHWA /\ ~ small c) [0x2E]) by (constructor; [tauto|constructor]).
    split; [tauto|]. split; [tauto|]. rewrite app_length in L. cbn in L. destruct core as [|c r]; [cbn in L; lia|]. unfold starts_capital. cbn [app].
    split; intros (c' & r' & E & C); injection E as <- <-; eauto.
  - destruct H as (-> & _). tauto.
Qed.

(** A word in capitals is given suggestions in capitals. *)
Theorem C23_capitals : forall an ocr h word n l y, good_analyzer an -> an false [] = [] -> suggestible word n ->
  voikkoSuggestUcs4 (suggest_with an ocr) h word = Ok (Some l) -> In y l -> accept_all_uppercase h = true -> all_capitals n -> no_small y.
Proof.
  intros an ocr h word n l y GA GE S1 H I Up (A1 & A2). destruct (returned_list an ocr h word n l y GA GE S1 H I) as (dot & core & x & Hs & _ & d & z & _ & (R1 & _) & R3).
  destruct (searched_case _ _ _ _ Hs) as (B1 & B2 & _); [apply S1|]. rewrite Up in R1. rewrite R1 in R3 by (unfold all_capitals; tauto).
  apply (same_text_small _ _ R3). unfold no_small. apply Forall_map, Forall_forall. intros c _. apply not_small_upper.
Qed.
Print Assumptions C23_capitals.

(** A word with an initial capital is given suggestions that are not all small
    letters, except when they do not begin with a letter. *)
Theorem C23_initial : forall an ocr h word n l y, good_analyzer an -> an false [] = [] -> suggestible word n ->
  voikkoSuggestUcs4 (suggest_with an ocr) h word = Ok (Some l) -> In y l -> starts_capital n -> ~ no_small n ->
  small_text y -> exists c r, y = c :: r /\ ~ small c.
Proof.
  intros an ocr h word n l y GA GE S1 H I St Ns (Y1 & Y2). destruct (returned_list an ocr h word n l y GA GE S1 H I) as (dot & core & x & Hs & _ & d & z & _ & (_ & R1 & R2) & R3).
  destruct (searched_case _ _ _ _ Hs) as (B1 & B2 & B3); [apply S1|].
  assert (Dec : small_text d \/ ~ small_text d).
  { destruct (ct_eqb (voikko_casetype d) CT_ALL_LOWER) eqn:E; [left|right]; rewrite <- casetype_small; congruence. }
  assert (Zs : small_text z). { split; [rewrite (same_text_small _ _ R3); auto|rewrite (same_text_capital _ _ R3); auto]. }
  destruct Dec as [Sm|Ns'].
  - destruct R1 as (c & r & -> & ->); [tauto|tauto|auto|]. inversion R3 as [|? c' ? r' Rc Rr]; subst. exists c', r'. split; auto.
    rewrite <- (respelt_small _ _ Rc). apply not_small_upper.
  - exfalso. rewrite R2 in Zs; [auto|unfold all_capitals; tauto|tauto].
Qed.
Print Assumptions C23_initial.

(** Otherwise the suggestion is written as in the dictionary. *)
Theorem C23_kept : forall an ocr h word n l y, good_analyzer an -> an false [] = [] -> suggestible word n ->
  voikkoSuggestUcs4 (suggest_with an ocr) h word = Ok (Some l) -> In y l -> ~ (starts_capital n /\ ~ no_small n) ->
  accept_all_uppercase h = false \/ ~ all_capitals n ->
  exists dot core x d, searched h n dot core /\ (case_blind_analyzer an -> no_schwa an -> good_suggestion an x) /\ dotted dot x d /\ same_text d y.
Proof.
  intros an ocr h word n l y GA GE S1 H I St Up. destruct (returned_list an ocr h word n l y GA GE S1 H I) as (dot & core & x & Hs & (p & G & _) & d & z & D & (R0 & R1 & R2) & R3).
  destruct (searched_case _ _ _ _ Hs) as (B1 & B2 & B3); [apply S1|]. exists dot, core, (fst x), d. do 3 (split; [auto|]).
  assert (z = d) as ->; auto.
  assert (Dec : all_capitals core \/ ~ all_capitals core).
  { destruct (ct_eqb (voikko_casetype core) CT_ALL_UPPER) eqn:E; [left|right]; rewrite <- casetype_capitals; congruence. }
  destruct Dec as [A|A].
  - rewrite R0 by auto. destruct Up as [->|Up]; auto. elim Up. unfold all_capitals in *. tauto.
  - apply R2; auto. tauto.
Qed.
Print Assumptions C23_kept.
Example C23_ex : exists h, voikkoInit = Ok h /\
  voikkoSuggestUcs4 (suggest_with toy false) h (wstr "TAALO") = Ok (Some [wstr "TALO"]) /\
  voikkoSuggestUcs4 (suggest_with toy false) (with_all_uppercase h false) (wstr "TAALO") = Ok (Some [wstr "talo"]) /\
  voikkoSuggestUcs4 (suggest_with toy false) h (wstr "Taalo") = Ok (Some [wstr "Talo"]) /\
  voikkoSuggestUcs4 (suggest_with toy false) h (wstr "taalo") = Ok (Some [wstr "talo"]) /\
  voikkoSuggestUcs4 (suggest_with toy false) (with_ignore_dot h true) (wstr "Taalo.") = Ok (Some [wstr "Talo."]) /\
  all_capitals (wstr "TAALO") /\ starts_capital (wstr "Taalo") /\ ~ no_small (wstr "Taalo") /\
  ~ all_capitals (wstr "taalo") /\ ~ starts_capital (wstr "taalo").
Proof.
  eexists. split; [reflexivity|]. do 5 (split; [vm_compute; reflexivity|]).
  split; [apply casetype_capitals; reflexivity|]. split; [exists 0x54; eexists; split; [reflexivity|apply isUpper_spec; reflexivity]|].
  split; [intros X; inversion X as [|? ? _ Y]; inversion Y as [|? ? Z1 _]; apply Z1, isLower_spec; reflexivity|].
  split; [rewrite <- casetype_capitals; discriminate|]. intros (c & r & E & C). apply isUpper_spec in C. injection E as <- <-. discriminate.
Qed.

(** Apostrophes and hyphens of the original are restored in the part before the
    first difference and in the part after the last one. *)
Theorem C23_punctuation : forall a o x b a' n y b', Forall2 respelt a' a -> Forall2 respelt b' b -> o <> n -> ~ unit_of [o] [n] ->
  exists mid, voikko_cset_reformat ((a ++ o :: x ++ b) ++ [0]) (length (a ++ o :: x ++ b)) (a' ++ n :: y ++ b') = Ok (a ++ mid ++ b) /\
    length mid = S (length y).
Proof. exact reformat_frame. Qed.
Print Assumptions C23_punctuation.
Theorem C23_same_word : forall w m, Forall2 respelt m w -> voikko_cset_reformat (w ++ [0]) (length w) m = Ok w.
Proof. exact reformat_whole. Qed.
Print Assumptions C23_same_word.
Example C23_punctuation_ex : exists h, voikkoInit = Ok h /\
  Forall2 respelt (wstr "-") [0x2011] /\ voikko_cset_reformat ([0x2010; 0x61; 0x62; 0x2011] ++ [0]) 4 (wstr "-abb-") = Ok [0x2010; 0x61; 0x62; 0x62; 0x2011].
Proof. eexists. split; [reflexivity|]. split; [constructor; [right; constructor|constructor]|]. vm_compute. reflexivity. Qed.

(** ** C48: what is tried *)

(** Whatever is suggested differs from the original by one of the edits listed in
    [typing_edit] or [ocr_edit], or is the original split in two. *)
Theorem C48_small_edits : forall an ocr h word n l y, good_analyzer an -> an false [] = [] -> suggestible word n ->
  voikkoSuggestUcs4 (suggest_with an ocr) h word = Ok (Some l) -> In y l ->
  exists dot core v d z, searched h n dot core /\ comes_from (edit ocr) core v /\ dotted dot v d /\ case_follows (accept_all_uppercase h) core d z /\ same_text z y.
Proof.
  intros an ocr h word n l y GA GE S1 H I. destruct (returned_list an ocr h word n l y GA GE S1 H I) as (dot & core & x & Hs & (p & _ & _ & _ & G & _) & d & z & R1 & R2 & R3).
  exists dot, core, (fst x), d, z. auto 6.
Qed.
Print Assumptions C48_small_edits.

(** All known words among these edits are found, unless 15 candidates are found
    or the budget is used before. *)
Theorem C48_complete : forall an ocr w s, good_analyzer an -> ~ In 0 w -> (2 <= length w)%nat -> (exists k, vowels_in w k /\ (k <= 32)%nat) ->
  an false w = [] -> (In SHY w -> an false (without_shy w) = []) ->
  suggest_with an ocr (new_status w 15) = Ok s -> (length (found s) < 15)%nat -> (length (lookups s) < if ocr then 2000 else 800)%nat ->
  forall v, edit ocr w v -> an false v <> [] -> exists x, In x (found s) /\ same_letters (fst x) v.
Proof.
  intros an ocr w s GA N L (k & V & K) N1 N2 H F C v E Nv. apply vowels_in_spec in V. subst k.
  destruct (generate_ok an ocr w GA N L K) as (s' & E' & _ & I2 & I3 & _ & I5 & _). rewrite E' in H. injection H as ->.
  assert (Ab : shouldAbort s = false).
  { unfold shouldAbort. rewrite I3, I2, <- I5. destruct (Nat.eqb_spec (length (found s)) 15); [lia|].
    replace (length (lookups s) <? effort ocr)%nat with true by (unfold effort; destruct ocr; lia). auto. }
  unfold suggest_with, finnish_strategy, edit in *. destruct ocr.
  - eapply (ocr_complete an GA w); eauto.
  - eapply (typing_complete an GA w); eauto.
Qed.
Print Assumptions C48_complete.
Example C48_complete_ex : exists s, suggest_with toy false (new_status (wstr "tqlo") 15) = Ok s /\ (length (found s) < 15)%nat /\ (length (lookups s) < 800)%nat /\
  toy false (wstr "tqlo") = [] /\ edit false (wstr "tqlo") (wstr "talo") /\ toy false (wstr "talo") <> [] /\ map fst (found s) = [wstr "talo"].
Proof.
  eexists. split; [vm_compute; reflexivity|]. split; [cbn; lia|]. split; [cbn [lookups length]; lia|]. split; [reflexivity|]. split; [|split; [discriminate|reflexivity]].
  do 9 right. left. exists REPLACEMENTS_1. split; [cbn [In]; tauto|]. exists (wstr "t"), (wstr "lo"), 0x71, 0x61.
  split; [left; repeat (first [left; reflexivity | right])|split; reflexivity].
Qed.

Lemma graded_check : forall w st r, mem 0 st = false -> matchWordAndAnalysis w st = Ok r -> graded w st r.
Proof.
  intros w st r N H. destruct (match_ok w st) as (r' & E & G); [intros I; apply mem_In in I; congruence|]. congruence.
Qed.

(** So are all splits into two parts that fit, as far as the splitting looks: at
    least two characters on each side, hyphens neither next to the split nor
    second in the second part, except that the split may replace a hyphen. *)
Theorem C48_splits : forall an w s, good_analyzer an -> ~ In 0 w -> (2 <= length w)%nat -> (exists k, vowels_in w k /\ (k <= 32)%nat) ->
  an false w = [] -> (In SHY w -> an false (without_shy w) = []) ->
  suggest_with an false (new_status w 15) = Ok s -> (length (found s) < 15)%nat -> (length (lookups s) < 800)%nat ->
  forall a b, split_known an w a b -> exists x, In x (found s) /\ same_letters (fst x) (a ++ 0x20 :: b).
Proof.
  intros an w s GA N L (k & V & K) N1 N2 H F C a b Sp. apply vowels_in_spec in V. subst k.
  destruct (generate_ok an false w GA N L K) as (s' & E' & _ & I2 & I3 & _ & I5 & _). rewrite E' in H. injection H as ->.
  assert (Ab : shouldAbort s = false).
  { unfold shouldAbort. rewrite I3, I2, <- I5. destruct (Nat.eqb_spec (length (found s)) 15); [lia|].
    replace (length (lookups s) <? effort false)%nat with true by (unfold effort; lia). auto. }
  eapply (splits_complete an GA w); eauto.
Qed.
Print Assumptions C48_splits.
Example C48_splits_ex : exists s, suggest_with toy false (new_status (wstr "Talo-matti") 15) = Ok s /\ (length (found s) < 15)%nat /\ (length (lookups s) < 800)%nat /\
  toy false (wstr "Talo-matti") = [] /\ split_known toy (wstr "Talo-matti") (wstr "Talo") (wstr "matti") /\ map fst (found s) = [wstr "Talo Matti"].
Proof.
  eexists. split; [vm_compute; reflexivity|]. split; [cbn; lia|]. split; [cbn [lookups length]; lia|]. split; [reflexivity|]. split; [|reflexivity].
  exists [0x2D]. split; [reflexivity|]. split; [auto|]. split; [cbn; lia|]. split; [cbn; lia|].
  split; [intros a' x y X; change (wstr "Talo") with (wstr "Ta" ++ [0x6C; 0x6F]) in X; change [0x6C; 0x6F] with ([0x6C] ++ [0x6F]) in X; change [x; y] with ([x] ++ [y]) in X;
          rewrite !app_assoc in X; apply snoc_inj in X as (X & <-); apply snoc_inj in X as (_ & <-); split; discriminate|].
  split; [intros x y r X; injection X as <- <- _; discriminate|]. split.
  - left. eexists _, _. split; [left; reflexivity|]. split; [reflexivity|]. left. apply graded_check; reflexivity.
  - eexists _, _. split; [left; reflexivity|]. split; [reflexivity|]. right. apply graded_check; reflexivity.
Qed.

(** A word that is known in some letter case is only suggested in another letter
    case, or without its soft hyphens. *)
Theorem C48_case_only : forall an ocr w s, good_analyzer an -> an false w <> [] -> suggest_with an ocr (new_status w 15) = Ok s ->
  found s <> [] /\ forall x, In x (found s) -> same_letters (fst x) w \/ (In SHY w /\ same_letters (fst x) (without_shy w)).
Proof.
  intros an ocr w s GA N H. unfold suggest_with in H. apply (known_only an GA w (finnish_strategy an ocr)); auto; destruct ocr.
  - apply Nat.ltb_lt. reflexivity.
  - apply Nat.ltb_lt. reflexivity.
  - left. reflexivity.
  - right. reflexivity.
Qed.
Print Assumptions C48_case_only.
Example C48_case_only_ex : exists s, suggest_with toy false (new_status (wstr "SaNa") 15) = Ok s /\ toy false (wstr "SaNa") <> [] /\ map fst (found s) = [wstr "sana"].
Proof. eexists. split; [vm_compute; reflexivity|]. split; [discriminate|reflexivity]. Qed.

(** Each generator looks up exactly its edits, until it is stopped. *)
Definition two_or_more (w : list Z) : Prop := ~ In 0 w /\ (2 <= length w)%nat.
Theorem C48_case_change : forall an, tries (gen_case_change an) (fun w v => v = w) two_or_more.
Proof. intros an. apply (tries_cand an _ (fun w => [w])); [intros; apply gen_case_change_try|intros; apply cand_case_spec]. Qed.
Theorem C48_soft_hyphens : forall an, tries (gen_soft_hyphens an) (fun w v => In SHY w /\ v = without_shy w) two_or_more.
Proof. intros an. apply (tries_cand an _ cand_soft_hyphens); [intros; apply gen_soft_hyphens_try|intros; apply in_cand_soft]. Qed.
Theorem C48_vowel_change : forall an, tries (gen_vowel_change an) vowels_changed (fun w => two_or_more w /\ exists k, vowels_in w k /\ (k <= 32)%nat).
Proof.
  intros an. apply (tries_cand an _ cand_vowel); [|intros; apply in_cand_vowel].
  intros s ((N & _) & k & V & K) Ab. apply vowels_in_spec in V. subst k. apply gen_vowel_try; auto.
Qed.
Theorem C48_replacement : forall an t, tries (gen_replacement an t) (replaced t) two_or_more.
Proof. intros an t. apply (tries_cand an _ (cand_replacement t)); [intros s (N & _) Ab; apply gen_replacement_try; auto|intros; apply in_cand_replacement]. Qed.
Theorem C48_deletion : forall an, tries (gen_deletion an) deleted two_or_more.
Proof. intros an. apply (tries_cand an _ cand_deletion); [intros s (N & _) Ab; apply gen_deletion_try; auto|intros; apply in_cand_deletion]. Qed.
Theorem C48_insert_special : forall an, tries (gen_insert_special an) (fun w v => hyphen_added w v \/ doubled w v) two_or_more.
Proof. intros an. apply (tries_cand an _ cand_special); [intros s (N & L) Ab; apply gen_insert_special_try; auto|intros; apply in_cand_special]. Qed.
Theorem C48_insertion : forall an letters, tries (gen_insertion an letters) (inserted_letter letters) two_or_more.
Proof.
  intros an t. assert (NE : forall w, two_or_more w -> w <> []) by (intros w (_ & L) ->; cbn in L; lia).
  apply (tries_cand an _ (cand_insertion t)); [intros s O Ab; apply gen_insertion_try; [apply O|apply NE; auto]|intros; apply in_cand_insertion; auto].
Qed.
Theorem C48_replace_two : forall an t, tries (gen_replace_two an t) (double_replaced t) two_or_more.
Proof.
  intros an t. assert (NE : forall w, two_or_more w -> w <> []) by (intros w (_ & L) ->; cbn in L; lia).
  apply (tries_cand an _ (cand_replace_two t)); [intros s O Ab; apply gen_replace_two_try; auto|intros; apply in_cand_replace_two].
Qed.
Theorem C48_swap : forall an, tries (gen_swap an) exchanged two_or_more.
Proof. intros an. apply (tries_cand an _ cand_swap); [intros s (N & _) Ab; apply gen_swap_try; auto|intros; apply in_cand_swap]. Qed.
Theorem C48_delete_two : forall an, tries (gen_delete_two an) pair_deleted two_or_more.
Proof. intros an. apply (tries_cand an _ cand_delete_two); [intros s (N & _) Ab; apply gen_delete_two_try; auto|intros; apply in_cand_delete_two]. Qed.
Theorem C48_two_replacements : forall an t, tries (gen_multi_replacement an t 2) (twice_replaced t) two_or_more.
Proof.
  intros an t. apply (tries_cand an _ (fun w => cand_multi t 2 0 w)); [intros s (N & _) Ab; apply gen_multi_try; auto|intros; apply in_cand_multi2].
Qed.
Print Assumptions C48_vowel_change.
Print Assumptions C48_insert_special.
Print Assumptions C48_two_replacements.
(** No word is known and the budget is large: all edits are looked up. *)
Definition tried (g : status -> res status) (w : list Z) : res (list (list Z)) :=
  s <- g (setMaxCost (new_status w 15) 1000) ;; if shouldAbort s then Ok [] else Ok (lookups s).
Definition ignorant : analyzer := fun _ _ => [].
Example C48_generators_ex :
  two_or_more (wstr "talo") /\
  tried (gen_vowel_change ignorant) (wstr "talo") = Ok [[0x74; 0xE4; 0x6C; 0x6F]; [0x74; 0x61; 0x6C; 0xF6]; [0x74; 0xE4; 0x6C; 0xF6]] /\
  tried (gen_deletion ignorant) (wstr "taal") = Ok [wstr "aal"; wstr "tal"; wstr "taa"] /\
  tried (gen_insert_special ignorant) (wstr "taalo") = Ok [wstr "ta-alo"; wstr "taa-lo"; wstr "ttaalo"; wstr "taallo"; wstr "taaloo"] /\
  tried (gen_insertion ignorant (wstr "a")) (wstr "tl") = Ok [wstr "atl"; wstr "tal"; wstr "tla"] /\
  tried (gen_swap ignorant) (wstr "tao") = Ok [wstr "ato"; wstr "oat"; wstr "toa"] /\
  tried (gen_delete_two ignorant) (wstr "tatatuu") = Ok [wstr "tatuu"] /\
  tried (gen_replace_two ignorant [(0x61, 0x62)]) (wstr "taaA") = Ok [wstr "tbba"] /\
  tried (gen_multi_replacement ignorant [(0x61, 0x62)] 2) (wstr "aa") = Ok [wstr "bb"].
Proof. split; [split; [vm_compute; intuition discriminate|cbn; lia]|]. repeat (split; [vm_compute; reflexivity|]); vm_compute; reflexivity. Qed.

(** ** C49: the UTF-8 interface *)

(** The suggestions for a UTF-8 word of at most 255 bytes are those of the decoded
    word, encoded; those that cannot be encoded are left out. *)
Lemma encode_all_ok : forall l, exists u, encode_all l = Ok u /\ (Forall (Forall encodable) l -> u = map utf8_text l).
Proof.
  induction l as [|w l (u & E & H)]; cbn [encode_all]; [exists []; auto|]. rewrite utf8FromUcs4_ok. cbn [bind]. rewrite E. cbn [bind].
  eexists. split; [reflexivity|]. intros F. inversion F; subst. destruct (append_all_encoded w) as (-> & _); auto. cbn [map]. f_equal. auto.
Qed.
Theorem C49_suggest_utf8 : forall gen h w bytes, encodes bytes w -> ~ In 0 w -> (length bytes <= 255)%nat ->
  (voikkoSuggestUcs4 gen h w = Ok None -> voikkoSuggestCstr gen h bytes = Ok None) /\
  (forall l, voikkoSuggestUcs4 gen h w = Ok (Some l) -> l <> [] -> Forall (Forall encodable) l ->
     voikkoSuggestCstr gen h bytes = Ok (Some (map utf8_text l))).
Proof.
  intros gen h w bytes (F & ->) N L. unfold voikkoSuggestCstr.
  destruct (Nat.eqb_spec (length (utf8_text w)) 0) as [Z0|N0].
  { pose proof (utf8_text_len w). assert (length w = O) by lia. destruct w; [|discriminate]. split; auto. intros l X. discriminate. }
  unfold LIBVOIKKO_MAX_WORD_CHARS. rewrite (proj2 (Nat.ltb_ge 255 _)) by auto.
  rewrite ucs4FromUtf8_encoded by auto. cbn [bind]. rewrite cstr_no_nul by auto. split.
  - intros ->. auto.
  - intros l -> Ne Fl. cbn [bind]. destruct (encode_all_ok l) as (u & -> & H). cbn [bind]. rewrite H by auto. destruct l; [contradiction|auto].
Qed.
Print Assumptions C49_suggest_utf8.
Example C49_suggest_utf8_ex : exists h, voikkoInit = Ok h /\ encodes (wstr "Taalo") (wstr "Taalo") /\
  voikkoSuggestCstr (suggest_with toy false) h (wstr "Taalo") = Ok (Some [wstr "Talo"]).
Proof.
  eexists. split; [reflexivity|]. split; [|vm_compute; reflexivity]. split; [|vm_compute; reflexivity].
  apply Forall_forall. intros c I. vm_compute in I. unfold encodable. lia.
Qed.

(** [encodings l u]: [u] holds the encodings of the words of [l] that can be
    encoded, in the same order. *)
Inductive encodings : list (list Z) -> list (list Z) -> Prop :=
| encodings_nil : encodings [] []
| encodings_keep : forall w l u, Forall encodable w -> encodings l u -> encodings (w :: l) (utf8_text w :: u)
| encodings_drop : forall w l u, ~ Forall encodable w -> encodings l u -> encodings (w :: l) u.
Lemma encode_all_encodings : forall l, Forall (Forall (fun c => - 2 ^ 31 <= c < 2 ^ 31)) l -> exists u, encode_all l = Ok u /\ encodings l u.
Proof.
  induction l as [|w l IH]; intros F; [exists []; split; [reflexivity|constructor]|]. inversion F as [|? ? Fw Fl]; subst.
  destruct (IH Fl) as (u & E & H). cbn [encode_all]. rewrite utf8FromUcs4_ok. cbn [bind]. rewrite E. cbn [bind].
  destruct (Forall_dec encodable ltac:(intros c; unfold encodable; destruct ((0 <=? c) && (c <=? 0x10FFFF) && negb ((0xD800 <=? c) && (c <=? 0xDFFF)) && negb (c =? 0xFFFE) && negb (c =? 0xFFFF)) eqn:B; [left|right]; lia) w) as [Y|N].
  - destruct (append_all_encoded w) as (-> & _); auto. exists (utf8_text w :: u). split; [reflexivity|constructor; auto].
  - rewrite append_all_none by auto. exists u. split; [reflexivity|constructor; auto].
Qed.
Theorem C49_unencodable : forall gen h w bytes l, encodes bytes w -> ~ In 0 w -> (length bytes <= 255)%nat ->
  voikkoSuggestUcs4 gen h w = Ok (Some l) -> Forall (Forall (fun c => - 2 ^ 31 <= c < 2 ^ 31)) l ->
  exists u, encodings l u /\
    (u = [] -> voikkoSuggestCstr gen h bytes = Ok None) /\
    (u <> [] -> voikkoSuggestCstr gen h bytes = Ok (Some u)).
Proof.
  intros gen h w bytes l (F & ->) N L E Fl. destruct (encode_all_encodings l Fl) as (u & Eu & H). exists u. split; [exact H|].
  assert (voikkoSuggestCstr gen h (utf8_text w) = Ok (match u with [] => None | _ => Some u end)) as ->.
  { unfold voikkoSuggestCstr. destruct (Nat.eqb_spec (length (utf8_text w)) 0) as [Z0|N0].
    { pose proof (utf8_text_len w). assert (length w = O) by lia. destruct w; [|discriminate]. discriminate E. }
    unfold LIBVOIKKO_MAX_WORD_CHARS. rewrite (proj2 (Nat.ltb_ge 255 _)) by auto.
    rewrite ucs4FromUtf8_encoded by auto. cbn [bind]. rewrite cstr_no_nul by auto. rewrite E. cbn [bind]. rewrite Eu. reflexivity. }
  split; intros U; destruct u; congruence.
Qed.
Print Assumptions C49_unencodable.
(** A generator whose suggestions contain a surrogate code point. *)
Example C49_unencodable_ex : exists h, voikkoInit = Ok h /\
  let gen l := fun s => fold_left (fun r w => s <- r ;; addSuggestion s w 1) l (Ok s) in
  voikkoSuggestUcs4 (gen [[0x61; 0xD800]; wstr "talo"]) h (wstr "taalo") = Ok (Some [[0x61; 0xD800]; wstr "talo"]) /\
  voikkoSuggestCstr (gen [[0x61; 0xD800]; wstr "talo"]) h (wstr "taalo") = Ok (Some [wstr "talo"]) /\
  voikkoSuggestCstr (gen [[0x61; 0xD800]]) h (wstr "taalo") = Ok None.
Proof. eexists. split; [reflexivity|]. cbv zeta. repeat (split; [vm_compute; reflexivity|]); vm_compute; reflexivity. Qed.

(** Malformed UTF-8 gives no suggestions. *)
Theorem C49_malformed : forall gen h bytes, Forall byte bytes -> (forall w, ~ encodes bytes w) -> voikkoSuggestCstr gen h bytes = Ok None.
Proof.
  intros gen h bytes B M. unfold voikkoSuggestCstr. destruct (Nat.eqb _ _); auto. destruct (_ <? _)%nat; auto.
  destruct (ucs4FromUtf8_total bytes B) as [(w & _ & E)|(E & _)]; [elim (M w E)|rewrite E; auto].
Qed.
Print Assumptions C49_malformed.
