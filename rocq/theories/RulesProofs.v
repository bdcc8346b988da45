(** * Safety of the grammar rules: no rule fails and every error lies inside
    the text. *)
From Verif Require Import Base BaseFacts CharModel TokenModel TokenSpec TokenProofs SpellerBase SentenceModel SentenceSpec SentenceProofs
  AnalysisModel AnalyzerBase Utf8Model Utf8Proofs GcCacheModel ParaModel RulesModel GrammarSpec ParaProofs ParaLoops.

(** The error lies inside the first [hi] characters, is not empty and has a
    known code. *)
Definition fits (hi : nat) (e : gc_error) : Prop :=
  (0 < errorlen e)%nat /\ (startpos e + errorlen e <= hi)%nat /\ 1 <= error_code e <= 18.
Ltac fit := unfold fits, GCERR_INVALID_SPELLING, GCERR_EXTRA_WHITESPACE, GCERR_SPACE_BEFORE_PUNCTUATION, GCERR_EXTRA_COMMA,
  GCERR_INVALID_SENTENCE_STARTER, GCERR_WRITE_FIRST_LOWERCASE, GCERR_WRITE_FIRST_UPPERCASE, GCERR_REPEATING_WORD,
  GCERR_TERMINATING_PUNCTUATION_MISSING, GCERR_INVALID_PUNCTUATION_AT_END_OF_QUOTATION, GCERR_FOREIGN_QUOTATION_MARK,
  GCERR_MISPLACED_CLOSING_PARENTHESIS, GCERR_NEGATIVE_VERB_MISMATCH, GCERR_A_INFINITIVE_REQUIRED, GCERR_MA_INFINITIVE_REQUIRED,
  GCERR_MISPLACED_SIDESANA, GCERR_MISSING_MAIN_VERB, GCERR_EXTRA_MAIN_VERB; cbn; lia.

Definition tlen (toks : list gtoken) : nat := length (concat (map g_str toks)).
Lemma tlen_cons : forall t r, tlen (t :: r) = (tokenlen t + tlen r)%nat.
Proof. intros. unfold tlen. cbn [map concat]. rewrite app_length. reflexivity. Qed.
Lemma tlen_app : forall a b, tlen (a ++ b) = (tlen a + tlen b)%nat.
Proof. intros. unfold tlen. rewrite map_app, concat_app, app_length. reflexivity. Qed.
Lemma nonempty_len : forall t, g_str t <> [] -> (0 < tokenlen t)%nat.
Proof. intros t. unfold tokenlen. destruct (g_str t); cbn; [congruence|lia]. Qed.

Lemma suggestion_ok : forall w, exists s, suggestion w = Ok s.
Proof. intros w. unfold suggestion. rewrite utf8FromUcs4_ok. cbn [bind]. eauto. Qed.

Lemma located_app : forall a b pos, located pos (a ++ b) <-> located pos a /\ located (pos + tlen a) b.
Proof.
  induction a as [|t a IH]; intros b pos; cbn [app located].
  - unfold tlen. cbn. rewrite Nat.add_0_r. tauto.
  - rewrite IH, tlen_cons, Nat.add_assoc. tauto.
Qed.

Lemma local_fits : forall toks first pos hi, located pos toks -> (pos + tlen toks <= hi)%nat -> Forall (fits hi) (local_punctuation first toks).
Proof.
  intros toks. remember (length toks) as n eqn:N. revert toks N. induction n as [n IH] using lt_wf_ind. intros toks N first pos hi L H.
  destruct toks as [|t r]; [constructor|]. cbn [located] in L. destruct L as (P & NE & L). rewrite tlen_cons in H. apply nonempty_len in NE.
  assert (forall first, Forall (fits hi) (local_punctuation first r)) as R.
  { intros f. apply (IH (length r)) with (pos := (pos + tokenlen t)%nat); auto; [subst n; cbn; lia|lia]. }
  assert (forall t2 r2, r = t2 :: r2 -> (pos + tokenlen t + 1 <= hi)%nat) as T2.
  { intros t2 r2 ->. cbn [located] in L. destruct L as (_ & NE2 & _). apply nonempty_len in NE2. rewrite tlen_cons in H. lia. }
  cbn [local_punctuation]. destruct (g_type t) eqn:G; try (apply R).
  - match goal with |- Forall _ (if _ then _ else ?x) => set (other := x) end.
    assert (Forall (fits hi) other) as O.
    { subst other. destruct first.
      - destruct (_ || _); [auto|]. constructor; [|auto]. destruct (Nat.eqb (g_pos t) 0) eqn:Q; fit.
      - destruct r as [|t2 r2]; [auto|]. destruct (chr0 t =? 0x2C); [|auto].
        destruct (negb (is_punct t2) || negb (chr0 t2 =? 0x2C)); [auto|]. constructor; [|auto]. specialize (T2 _ _ eq_refl). fit. }
    destruct (chr0 t =? 0x5B); [|auto]. destruct r as [|t2 [|t3 r3]]; auto. destruct (chr0 t3 =? 0x5D); [|auto].
    cbn [located] in L. destruct L as (_ & _ & (_ & _ & L)). rewrite !tlen_cons in H.
    apply (IH (length r3)) with (pos := (pos + tokenlen t + tokenlen t2 + tokenlen t3)%nat); auto; [subst n; cbn; lia|lia].
  - (* whitespace *)
    destruct (1 <? tokenlen t)%nat eqn:Q; [constructor; [fit|auto]|].
    destruct r as [|t2 r2]; [apply R|]. destruct (negb (is_punct t2) || negb (chr0 t2 =? 0x2C)); [apply R|].
    constructor; [|apply R]. specialize (T2 _ _ eq_refl). fit.
Qed.

Lemma quotations_fits : forall toks pos hi, located pos toks -> (pos + tlen toks <= hi)%nat ->
  exists l, punctuation_of_quotations toks = Ok l /\ Forall (fits hi) l.
Proof.
  induction toks as [|t r IH]; intros pos hi L H; [exists []; split; [reflexivity|constructor]|].
  cbn [located] in L. destruct L as (P & NE & L). rewrite tlen_cons in H. apply nonempty_len in NE.
  destruct (IH _ hi L ltac:(lia)) as (l & E & F). cbn [punctuation_of_quotations].
  destruct r as [|t1 [|t2 r2]]; [exists []; auto|exists []; auto|].
  cbn [located] in L. destruct L as (P1 & N1 & P2 & N2 & L). rewrite !tlen_cons in H. apply nonempty_len in N1, N2.
  destruct (negb (is_punct t)); [eauto|]. destruct (chr0 t =? 0x201C).
  { destruct (suggestion_ok [0x201D]) as (s & ->). cbn [bind]. eexists. split; [reflexivity|]. constructor; [fit|constructor]. }
  destruct (negb (is_punct t1)); [eauto|]. destruct (negb (isFinnishQuotationMark (chr0 t1))); [eauto|].
  destruct (negb (is_punct t2)); [eauto|]. destruct (negb (chr0 t2 =? 0x2C)); [eauto|]. cbv zeta.
  destruct (chr0 t =? 0x2E).
  { match goal with |- context [suggestion ?x] => destruct (suggestion_ok x) as (s & ->) end. cbn [bind]. rewrite E. cbn [bind].
    eexists. split; [reflexivity|]. constructor; [fit|auto]. }
  destruct (_ || _); [|eauto].
  match goal with |- context [suggestion ?x] => destruct (suggestion_ok x) as (s & ->) end. cbn [bind]. rewrite E. cbn [bind].
  eexists. split; [reflexivity|]. constructor; [fit|auto].
Qed.

Lemma repeating_fits : forall toks pos hi, located pos toks -> (pos + tlen toks <= hi)%nat ->
  exists l, repeating_words toks = Ok l /\ Forall (fits hi) l.
Proof.
  intros toks. remember (length toks) as n eqn:N. revert toks N. induction n as [n IH] using lt_wf_ind. intros toks N pos hi L H.
  destruct toks as [|t [|t1 [|t2 r3]]]; try (exists []; split; [reflexivity|constructor]).
  cbn [located] in L. destruct L as (P & NE & P1 & N1 & P2 & N2 & L). rewrite !tlen_cons in H. apply nonempty_len in NE as NEl, N1 as N1l, N2 as N2l.
  assert (exists l, repeating_words (t1 :: t2 :: r3) = Ok l /\ Forall (fits hi) l) as R1.
  { apply (IH (length (t1 :: t2 :: r3))) with (pos := (pos + tokenlen t)%nat); auto; [subst n; cbn; lia|cbn; auto|rewrite !tlen_cons; lia]. }
  assert (exists l, repeating_words (t2 :: r3) = Ok l /\ Forall (fits hi) l) as R2.
  { apply (IH (length (t2 :: r3))) with (pos := (pos + tokenlen t + tokenlen t1)%nat); auto; [subst n; cbn; lia|cbn; auto|rewrite !tlen_cons; lia]. }
  assert (exists l, repeating_words r3 = Ok l /\ Forall (fits hi) l) as R3.
  { apply (IH (length r3)) with (pos := (pos + tokenlen t + tokenlen t1 + tokenlen t2)%nat); auto; [subst n; cbn; lia|lia]. }
  change (repeating_words (t :: t1 :: t2 :: r3)) with
    (if negb (is_wordt t) then repeating_words (t1 :: t2 :: r3)
     else if negb (is_space t1) then repeating_words (t2 :: r3)
     else if negb (is_wordt t2) then repeating_words r3
     else if negb (equalsIgnoreCase (cstr (g_str t)) (cstr (g_str t2))) then repeating_words (t2 :: r3)
     else if isDigit (chr0 t) then repeating_words (t2 :: r3)
     else if repeatable t then repeating_words (t2 :: r3)
     else
       s <- suggestion (g_str t) ;;
       l <- repeating_words (t1 :: t2 :: r3) ;;
       Ok (mk_error GCERR_REPEATING_WORD (g_pos t) (tokenlen t + tokenlen t1 + tokenlen t2) s :: l)).
  repeat match goal with |- context [if ?b then _ else _] => destruct b; [assumption|] end.
  destruct (suggestion_ok (g_str t)) as (s & ->). cbn [bind]. destruct R1 as (l & -> & F). cbn [bind].
  eexists. split; [reflexivity|]. constructor; [fit|auto].
Qed.

Lemma usub_ok : forall a b, (b <= a)%nat -> usub a b = Ok (a - b)%nat.
Proof. intros a b L. unfold usub. apply Nat.leb_le in L. rewrite L. reflexivity. Qed.

Lemma located_nth : forall l pos i t, located pos l -> nth_error l i = Some t -> (pos <= g_pos t)%nat /\ (0 < tokenlen t)%nat /\ (g_pos t + tokenlen t <= pos + tlen l)%nat.
Proof.
  induction l as [|u l IH]; intros pos i t L E; [destruct i; discriminate|]. destruct L as (P & N & L). rewrite tlen_cons. apply nonempty_len in N. destruct i as [|i].
  - cbn in E. injection E as <-. lia.
  - destruct (IH _ i t L E). lia.
Qed.
Lemma located_order : forall l pos i j t u, located pos l -> (i < j)%nat -> nth_error l i = Some t -> nth_error l j = Some u -> (g_pos t + tokenlen t <= g_pos u)%nat.
Proof.
  induction l as [|x l IH]; intros pos i j t u L IJ E F; [destruct i; discriminate|]. destruct L as (P & N & L). destruct j as [|j]; [lia|]. destruct i as [|i].
  - cbn in E. injection E as <-. destruct (located_nth _ _ j u L F). lia.
  - eapply (IH _ i j); eauto. lia.
Qed.

Lemma negative_fits : forall toks pos hi, located pos toks -> (pos + tlen toks <= hi)%nat -> exists l, negative_verb toks = Ok l /\ Forall (fits hi) l.
Proof.
  induction toks as [|t r IH]; intros pos hi L H; [exists []; split; [reflexivity|constructor]|].
  cbn [located] in L. destruct L as (P & NE & L). rewrite tlen_cons in H. apply nonempty_len in NE.
  destruct (IH _ hi L ltac:(lia)) as (l & E & F). cbn [negative_verb].
  destruct r as [|t1 [|t2 r2]]; [exists []; auto|exists []; auto|].
  cbn [located] in L. destruct L as (P1 & N1 & P2 & N2 & L). rewrite !tlen_cons in H. apply nonempty_len in N1, N2.
  rewrite usub_ok by lia. rewrite E. cbn [bind].
  destruct (_ && _); cbn [bind]; eexists; (split; [reflexivity|]); [|auto]. constructor; [fit|auto].
Qed.

Lemma compound_fits : forall toks pos hi, located pos toks -> (pos + tlen toks <= hi)%nat -> exists l, compound_verb toks = Ok l /\ Forall (fits hi) l.
Proof.
  induction toks as [|t r IH]; intros pos hi L H; [exists []; split; [reflexivity|constructor]|].
  cbn [located] in L. destruct L as (P & NE & L). rewrite tlen_cons in H. apply nonempty_len in NE.
  destruct (IH _ hi L ltac:(lia)) as (l & E & F). cbn [compound_verb].
  destruct r as [|t1 [|t2 r2]]; [exists []; auto|exists []; auto|].
  cbn [located] in L. destruct L as (P1 & N1 & P2 & N2 & L). rewrite !tlen_cons in H. apply nonempty_len in N1, N2.
  rewrite usub_ok by lia. rewrite E. cbn [bind].
  destruct (_ && _); [|cbn [bind]; eauto].
  destruct (requireFollowingVerb t), (verbFollowerType t2); cbn [bind]; eexists; (split; [reflexivity|]); auto; (constructor; [fit|auto]).
Qed.

Lemma sidesana_fits : forall toks pos hi, toks <> [] -> located pos toks -> (pos + tlen toks <= hi)%nat -> exists l, sidesana toks = Ok l /\ Forall (fits hi) l.
Proof.
  intros toks pos hi N L H. unfold sidesana. destruct (rev toks) as [|last before] eqn:R.
  { apply (f_equal (@rev gtoken)) in R. rewrite rev_involutive in R. cbn in R. congruence. }
  cbv zeta. set (l := if is_space last then before else last :: before).
  assert (forall t, In t l -> In t toks) as IN.
  { intros t I. apply in_rev. rewrite R. subst l. destruct (is_space last); [right|]; auto. }
  destruct l as [|t1 [|t2 r]]; try (eexists; split; [reflexivity|constructor]).
  destruct (_ && _); (eexists; split; [reflexivity|]); [|constructor]. constructor; [|constructor].
  destruct (In_nth_error toks t2) as (i & E); [apply IN; right; left; auto|]. destruct (located_nth _ _ _ _ L E) as (A & B & C). fit.
Qed.

Lemma end_fits : forall o p hi, p <> [] -> Forall (fun s => s_tokens s <> []) p ->
  (forall s, In s p -> located (s_pos s) (s_tokens s) /\ (s_pos s + tlen (s_tokens s) <= hi)%nat) ->
  exists l, end_punctuation o p = Ok l /\ Forall (fits hi) l.
Proof.
  intros o p hi N F L. unfold end_punctuation.
  repeat match goal with |- context [if ?b then Ok [] else _] => destruct b; [exists []; split; [reflexivity|constructor]|] end.
  destruct (rev p) as [|s r] eqn:R.
  { apply (f_equal (@rev gsentence)) in R. rewrite rev_involutive in R. cbn in R. congruence. }
  assert (In s p) as I by (apply in_rev; rewrite R; left; auto).
  rewrite Forall_forall in F. specialize (F s I). destruct (L s I) as (LO & H).
  destruct (rev (s_tokens s)) as [|t q] eqn:RT.
  { apply (f_equal (@rev gtoken)) in RT. rewrite rev_involutive in RT. cbn in RT. congruence. }
  assert (In t (s_tokens s)) as IT by (apply in_rev; rewrite RT; left; auto).
  destruct (In_nth_error _ _ IT) as (i & E). destruct (located_nth _ _ _ _ LO E) as (A & B & C).
  destruct (is_punct t); eexists; (split; [reflexivity|]); [constructor|]. constructor; [|constructor]. fit.
Qed.

(** ** Missing or extra verbs *)
Lemma verb_clause_ok : forall tokens i t nx clause verb pos hi, located pos tokens -> (pos + tlen tokens <= hi)%nat ->
  nth_error tokens i = Some t -> (clause = true -> (verb < i)%nat) ->
  exists c v e, verb_clause tokens i t nx clause verb = Ok (c, v, e) /\ (c = true -> (v < S i)%nat) /\ Forall (fits hi) e.
Proof.
  intros tokens i t nx clause verb pos hi L H E C. unfold verb_clause. cbv zeta.
  match goal with |- context [if ?b then _ else _] => destruct b end; [eexists _, _, _; split; [reflexivity|]; split; [discriminate|constructor]|].
  match goal with |- context [if ?b then _ else _] => destruct b end; [eexists _, _, _; split; [reflexivity|]; split; [discriminate|constructor]|].
  match goal with |- context [if ?b then _ else _] => destruct b end; [eexists _, _, _; split; [reflexivity|]; split; [discriminate|constructor]|].
  destruct (isMainVerb t); [|eexists _, _, _; split; [reflexivity|]; split; [intros X; specialize (C X); lia|constructor]].
  destruct clause; [|eexists _, _, _; split; [reflexivity|]; split; [intros; lia|constructor]].
  specialize (C eq_refl). destruct (nth_error tokens verb) as [v|] eqn:V.
  2:{ apply nth_error_None in V. assert (i < length tokens)%nat by (apply nth_error_Some; congruence). lia. }
  rewrite (proj2 (rd_ok _ _ _ _) V). cbn [bind].
  destruct (same_verb_repeated i verb t v); [eexists _, _, _; split; [reflexivity|]; split; [discriminate|constructor]|].
  pose proof (located_order _ _ _ _ _ _ L C V E). destruct (located_nth _ _ _ _ L E) as (A & B & D). destruct (located_nth _ _ _ _ L V) as (A' & B' & D').
  rewrite usub_ok by lia. cbn [bind]. eexists _, _, _; split; [reflexivity|]; split; [discriminate|]. constructor; [fit|constructor].
Qed.

Lemma missing_loop_ok : forall rest pre tokens s pos hi, tokens = pre ++ rest -> located pos tokens -> (pos + tlen tokens <= hi)%nat ->
  (mv_clause s = true -> (mv_verb s < length pre)%nat) ->
  (forall t, mv_last s = Some t -> In t tokens) -> (mv_last s = None -> mv_words s = 0%nat) ->
  exists l r, missing_verb_loop tokens rest (length pre) s = Ok (l, r) /\ Forall (fits hi) l /\
    (forall s', r = Some s' -> (forall t, mv_last s' = Some t -> In t tokens) /\ (mv_last s' = None -> mv_words s' = 0%nat)).
Proof.
  induction rest as [|t rest IH]; intros pre tokens s pos hi T L H C LA LN; cbn [missing_verb_loop].
  { exists [], (Some s). split; [reflexivity|]. split; [constructor|]. intros s' [= <-]. auto. }
  destruct (chr0 t =? 9). { exists [], None. split; [reflexivity|]. split; [constructor|]. discriminate. }
  assert (nth_error tokens (length pre) = Some t) as E by (subst tokens; rewrite nth_error_app2, Nat.sub_diag by lia; reflexivity).
  assert (In t tokens) as IT by (eapply nth_error_In; eauto).
  match goal with |- context [bind (if is_wordt t then ?x else ?y) _] => set (st := if is_wordt t then x else y) end.
  assert (exists s1 e, st = Ok (s1, e) /\ Forall (fits hi) e /\ (mv_clause s1 = true -> (mv_verb s1 < S (length pre))%nat) /\ mv_last s1 = mv_last s /\
    (is_wordt t = false -> mv_words s1 = mv_words s)) as (s1 & e & -> & Fe & C1 & L1 & W1).
  { subst st. destruct (is_wordt t).
    - destruct (verb_clause_ok tokens (length pre) t (nth_error rest 1) (mv_clause s) (mv_verb s) pos hi L H E C) as (c & v & e & -> & Cv & Fe). cbn [bind].
      eexists _, _. split; [reflexivity|]. cbn. split; [auto|]. split; [auto|]. split; [auto|]. discriminate.
    - destruct (is_punct t); eexists _, _; (split; [reflexivity|]); cbn; (split; [constructor|]); (split; [|auto]); [discriminate|]. intros X. specialize (C X). lia. }
  cbn [bind].
  set (s2 := if is_space t then s1 else _).
  destruct (IH (pre ++ [t]) tokens s2 pos hi) as (l & r & E2 & F2 & R2); auto.
  { rewrite <- app_assoc. exact T. }
  { rewrite app_length, Nat.add_1_r. subst s2. destruct (is_space t); auto. }
  { subst s2. destruct (is_space t); cbn; [rewrite L1; auto|]. intros u [= <-]. auto. }
  { subst s2. destruct (is_space t) eqn:SP; [|discriminate]. rewrite L1. intros X.
    rewrite W1; [auto|]. unfold is_space, is_wordt, is_word in *. destruct (g_type t); auto; discriminate. }
  rewrite app_length, Nat.add_1_r in E2. rewrite E2. cbn [bind]. eexists _, _. split; [reflexivity|]. split; [apply Forall_app; auto|auto].
Qed.

Lemma missing_fits : forall o s hi, s_tokens s <> [] -> located (s_pos s) (s_tokens s) -> (s_pos s + tlen (s_tokens s) <= hi)%nat ->
  exists l, missing_verb o s = Ok l /\ Forall (fits hi) l.
Proof.
  intros o s hi N L H. unfold missing_verb. destruct (s_tokens s) as [|f toks] eqn:T; [congruence|].
  change (rd (f :: toks) 0) with (Ok f). cbn [bind].
  destruct (is_punct f); [exists []; split; [reflexivity|constructor]|].
  match goal with |- context [if ?b then _ else _] => destruct b end; [exists []; split; [reflexivity|constructor]|].
  rewrite <- T in *.
  destruct (missing_loop_ok (s_tokens s) [] (s_tokens s) (mk_mv 0 None false false 0) (s_pos s) hi eq_refl L H) as (l & r & E & F & R); try discriminate; auto.
  cbn [length] in E. rewrite E. cbn [bind]. destruct r as [st|]; [|eauto]. destruct (R st eq_refl) as (RA & RB).
  destruct (mv_found st || (mv_words st <? 2)%nat) eqn:Q; [eauto|]. destruct (mv_last st) as [last|] eqn:LA.
  2:{ rewrite RB in Q by auto. apply orb_false_iff in Q. destruct Q as [_ Q]. discriminate. }
  destruct (negb _ || _); [eauto|].
  destruct (In_nth_error _ _ (RA last eq_refl)) as (i & Ei). destruct (located_nth _ _ _ _ L Ei) as (A & B & C).
  rewrite usub_ok by lia. cbn [bind]. eexists. split; [reflexivity|]. apply Forall_app. split; [auto|]. constructor; [fit|constructor].
Qed.
