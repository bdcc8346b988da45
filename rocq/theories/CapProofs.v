(** * The capitalization rule: it always terminates without failing and only
    marks words and closing parentheses of the paragraph. *)
From Verif Require Import Base BaseFacts CharModel TokenModel SpellerBase SentenceModel AnalysisModel AnalyzerBase Utf8Model GcCacheModel
  ParaModel RulesModel ParaLoops RulesProofs.

Definition wf_par (p : list gsentence) : Prop := Forall (fun s => s_tokens s <> [] /\ Forall (fun t => g_str t <> []) (s_tokens s)) p.
Definition all_tokens (p : list gsentence) : list gtoken := flat_map s_tokens p.

(** The three kinds of errors. *)
Inductive cap_error (p : list gsentence) : gc_error -> Prop :=
| ce_upper : forall t s, In t (all_tokens p) -> is_wordt t = true -> isUpper (chr0 t) = false -> isDigit (chr0 t) = false ->
    possibleSentenceStart t = false -> change_first upper t = Ok s -> cap_error p (mk_error GCERR_WRITE_FIRST_UPPERCASE (g_pos t) (tokenlen t) s)
| ce_lower : forall t s, In t (all_tokens p) -> is_wordt t = true -> isUpper (chr0 t) = true -> isValidWord t = true ->
    firstLetterLcase t = true -> possibleSentenceStart t = false -> possibleGeographicalName t = false -> (1 < tokenlen t)%nat ->
    voikko_casetype (g_str t) <> CT_ALL_UPPER -> (forall c, nth_error (g_str t) 1 = Some c -> c <> 0x2D /\ c <> 0x3A) ->
    change_first lower t = Ok s -> cap_error p (mk_error GCERR_WRITE_FIRST_LOWERCASE (g_pos t) (tokenlen t) s)
| ce_paren : forall t, In t (all_tokens p) -> is_punct t = true -> (chr0 t = 0x29 \/ chr0 t = 0x5D) ->
    cap_error p (mk_error GCERR_MISPLACED_CLOSING_PARENTHESIS (g_pos t) 1 []).

Definition valid (p : list gsentence) (cs ct : nat) : Prop :=
  (cs <= length p)%nat /\
  (ct = 0%nat \/ exists s, nth_error p cs = Some s /\ shouldSkip (s_tokens s) = false /\ (ct < length (s_tokens s))%nat).
Definition remaining (p : list gsentence) (cs ct : nat) : nat := (length (flat_map s_tokens (skipn cs p)) - ct)%nat.

Lemma skip_spec : forall rest cs cs' o, skip_sentences rest cs = (cs', o) ->
  match o with
  | None => cs' = (cs + length rest)%nat
  | Some s => (cs <= cs')%nat /\ nth_error rest (cs' - cs) = Some s /\ shouldSkip (s_tokens s) = false
  end.
Proof.
  induction rest as [|s rest IH]; intros cs cs' o H; cbn [skip_sentences] in H.
  { injection H as <- <-. cbn. lia. }
  destruct (shouldSkip (s_tokens s)) eqn:Q.
  - apply IH in H. destruct o as [s'|]; [|cbn; lia]. destruct H as (A & B & C). split; [lia|]. split; [|auto].
    replace (cs' - cs)%nat with (S (cs' - S cs)) by lia. exact B.
  - injection H as <- <-. rewrite Nat.sub_diag. cbn. auto.
Qed.

Lemma skipn_nth : forall A (l : list A) i j, nth_error (skipn i l) j = nth_error l (i + j).
Proof. intros A l i. revert l. induction i as [|i IH]; intros [|x l] j; cbn; auto. destruct j; auto. Qed.

Lemma skipn_cons : forall A (l : list A) i x, nth_error l i = Some x -> skipn i l = x :: skipn (S i) l.
Proof. induction l as [|y l IH]; intros i x E; destruct i; try discriminate; cbn in *; [injection E as ->; auto|]. rewrite (IH _ _ E). destruct l; reflexivity. Qed.

Lemma remaining_mono : forall p i j, (i <= j)%nat -> (length (flat_map s_tokens (skipn j p)) <= length (flat_map s_tokens (skipn i p)))%nat.
Proof.
  intros p i j L. replace j with (i + (j - i))%nat by lia. generalize (j - i)%nat as d. intros d. rewrite <- skipn_skipn. generalize (skipn i p) as q. clear.
  induction d as [|d IH]; intros q; [rewrite skipn_O; lia|]. destruct q as [|s q]; [cbn; lia|]. cbn [skipn flat_map]. rewrite app_length. specialize (IH q). lia.
Qed.

Lemma get_ok : forall p cs ct, wf_par p -> valid p cs ct ->
  (exists t cs' ct', getTokenAndAdvance p cs ct = Ok (Some t, cs', ct') /\ In t (all_tokens p) /\ valid p cs' ct' /\
     (remaining p cs' ct' < remaining p cs ct)%nat) \/
  getTokenAndAdvance p cs ct = Ok (None, length p, ct).
Proof.
  intros p cs ct W (LE & V). unfold getTokenAndAdvance. destruct (skip_sentences (skipn cs p) cs) as [cs' o] eqn:SE. pose proof (skip_spec _ _ _ _ SE) as SP.
  destruct o as [s|].
  2:{ right. rewrite skipn_length in SP. replace cs' with (length p) by lia. reflexivity. }
  left. destruct SP as (L & N & NS). rewrite skipn_nth in N. replace (cs + (cs' - cs))%nat with cs' in N by lia.
  assert (s_tokens s <> []) as NE by (apply nth_error_In in N; unfold wf_par in W; rewrite Forall_forall in W; apply W; auto).
  assert (ct < length (s_tokens s))%nat as CT.
  { destruct V as [->|(s0 & N0 & NS0 & L0)]; [destruct (s_tokens s); [congruence|cbn; lia]|].
    rewrite (skipn_cons _ _ _ _ N0) in SE. cbn [skip_sentences] in SE. rewrite NS0 in SE. injection SE as <- <-. rewrite N0 in N. auto. }
  destruct (nth_error (s_tokens s) ct) as [t|] eqn:T; [|apply nth_error_None in T; lia].
  rewrite (proj2 (rd_ok _ _ _ _) T). cbn [bind]. cbv zeta.
  assert (In t (all_tokens p)) as IT by (unfold all_tokens; apply in_flat_map; exists s; split; eapply nth_error_In; eauto).
  assert (cs' < length p)%nat as LP by (apply nth_error_Some; congruence).
  pose proof (remaining_mono p cs cs' L) as RM. unfold remaining.
  rewrite (skipn_cons _ _ _ _ N) in RM. cbn [flat_map] in RM. rewrite app_length in RM.
  destruct (Nat.eqb_spec (length (s_tokens s)) (S ct)) as [Q|Q]; eexists _, _, _; (split; [reflexivity|]); (split; [auto|]).
  - split; [split; [lia|left; auto]|]. rewrite Nat.sub_0_r. lia.
  - split; [split; [lia|right; exists s; repeat split; auto; lia]|]. rewrite (skipn_cons _ _ _ _ N). cbn [flat_map]. rewrite app_length. lia.
Qed.

Definition in_opt (p : list gsentence) (o : option gtoken) : Prop := forall t, o = Some t -> In t (all_tokens p).
Definition word_opt (p : list gsentence) (o : option gtoken) : Prop := forall t, o = Some t -> In t (all_tokens p) /\ is_wordt t = true.

Lemma until_ok : forall fuel p cs ct before, wf_par p -> valid p cs ct -> (remaining p cs ct < fuel)%nat -> in_opt p before ->
  exists l b w cs' ct', until_next_word fuel p cs ct before = Ok (l, b, w, cs', ct') /\
    Forall (fun t => In t (all_tokens p) /\ is_wordt t = false) l /\ in_opt p b /\ word_opt p w /\ valid p cs' ct' /\
    (cs' = length p \/ (w <> None /\ (remaining p cs' ct' < remaining p cs ct)%nat)).
Proof.
  induction fuel as [|f IH]; intros p cs ct before W V R B; [lia|]. cbn [until_next_word].
  destruct (get_ok p cs ct W V) as [(t & cs' & ct' & E & I & V' & R')|E]; rewrite E; cbn [bind].
  - destruct (is_wordt t) eqn:T.
    + eexists _, _, _, _, _. split; [reflexivity|]. split; [constructor|]. split; [auto|]. split; [intros u [= <-]; auto|]. split; [auto|]. right. split; [discriminate|auto].
    + destruct (IH p cs' ct' (Some t) W V' ltac:(lia) ltac:(intros u [= <-]; auto)) as (l & b & w & cs2 & ct2 & -> & F & Bb & Ww & V2 & C). cbn [bind].
      eexists _, _, _, _, _. split; [reflexivity|]. split; [constructor; auto|]. split; [auto|]. split; [auto|]. split; [auto|].
      destruct C as [C|(C1 & C2)]; [left; auto|right; split; [auto|lia]].
  - eexists _, _, _, _, _. split; [reflexivity|]. split; [constructor|]. split; [auto|]. split; [intros u; discriminate|].
    split; [|left; reflexivity]. destruct V as (LE & V). split; [lia|]. destruct V as [->|(s & N & NS & L)]; [left; auto|].
    (* the sentence is not skipped, so a token would have been found *)
    exfalso. unfold getTokenAndAdvance in E. rewrite (skipn_cons _ _ _ _ N) in E. cbn [skip_sentences] in E. rewrite NS in E.
    destruct (rd (s_tokens s) ct) eqn:Q; cbn [bind] in E; [destruct (Nat.eqb _ _); discriminate|discriminate|discriminate].
Qed.

(** Context between two calls of state functions. *)
Record cap_inv (p : list gsentence) (c : cap_context) : Prop := {
  ci_valid : valid p (currentSentence c) (currentToken c);
  ci_next : word_opt p (nextWord c)
}.

Lemma until_word_ok : forall p c, wf_par p -> cap_inv p c ->
  exists l c', getTokensUntilNextWord p c = Ok (l, c') /\ Forall (fun t => In t (all_tokens p) /\ is_wordt t = false) l /\ cap_inv p c' /\
    quotes c' = quotes c /\ sentenceEnded c' = sentenceEnded c /\
    (currentSentence c' = length p \/
     (nextWord c' <> None /\ (remaining p (currentSentence c') (currentToken c') < remaining p (currentSentence c) (currentToken c))%nat)).
Proof.
  intros p c W I. unfold getTokensUntilNextWord.
  destruct (until_ok (total_tokens p + 1) p (currentSentence c) (currentToken c) (nextWord c) W (ci_valid _ _ I)) as (l & b & w & cs & ct & -> & F & B & Ww & V & C).
  { unfold remaining, total_tokens. pose proof (remaining_mono p 0 (currentSentence c) ltac:(lia)) as M. rewrite skipn_O in M. lia. }
  { intros t E. apply (ci_next _ _ I t E). }
  cbn [bind]. eexists _, _. split; [reflexivity|]. split; [auto|]. split; [split; cbn; auto|]. cbn. auto.
Qed.

Lemma push_pop_errors : forall p toks h qs e, Forall (fun t => In t (all_tokens p)) toks ->
  forall l h' q' e', push_pop toks h qs e = (l, h', q', e') -> Forall (cap_error p) l.
Proof.
  intros p. induction toks as [|t r IH]; intros h qs e F l h' q' e' H; cbn [push_pop] in H.
  { injection H as <- _ _ _. constructor. }
  inversion F as [|? ? Ft Fr]; subst. destruct (is_punct t) eqn:P; cbn [negb] in H; [|eapply IH; eauto].
  destruct (isFinnishQuotationMark (chr0 t)); [eapply IH; eauto|].
  destruct ((chr0 t =? 0x28) || (chr0 t =? 0x5B)); [eapply IH; eauto|].
  destruct ((chr0 t =? 0x29) || (chr0 t =? 0x5D)) eqn:C.
  - destruct qs as [|top qs].
    + destruct (push_pop r h [] e) as [[[l2 h2] q2] e2] eqn:E. injection H as <- _ _ _. constructor; [|eapply IH; eauto].
      apply ce_paren; auto. lia.
    + destruct ((top =? 0x28) || (top =? 0x5B)); eapply IH; eauto.
  - destruct (wcschr (wstr ".!?") (chr0 t)); eapply IH; eauto.
Qed.

Lemma quotes_ok : forall p c toks l h c', Forall (fun t => In t (all_tokens p)) toks -> pushAndPopQuotes c toks = (l, h, c') ->
  Forall (cap_error p) l /\ currentSentence c' = currentSentence c /\ currentToken c' = currentToken c /\ nextWord c' = nextWord c.
Proof.
  intros p c toks l h c' F H. unfold pushAndPopQuotes in H. destruct (push_pop toks false (quotes c) (sentenceEnded c)) as [[[l1 h1] q1] e1] eqn:E.
  injection H as <- _ <-. split; [eapply push_pop_errors; eauto|]. auto.
Qed.

Lemma change_first_ok : forall f t, g_str t <> [] -> exists s, change_first f t = Ok s.
Proof. intros f t N. unfold change_first. destruct (g_str t); [congruence|]. apply suggestion_ok. Qed.

Lemma wf_token : forall p t, wf_par p -> In t (all_tokens p) -> g_str t <> [].
Proof.
  intros p t W I. apply in_flat_map in I. destruct I as (s & Is & It). unfold wf_par in W. rewrite Forall_forall in W.
  destruct (W s Is) as (_ & F). rewrite Forall_forall in F. auto.
Qed.

Lemma upper_error_ok : forall p t, wf_par p -> In t (all_tokens p) -> is_wordt t = true -> exists l, upper_error t = Ok l /\ Forall (cap_error p) l.
Proof.
  intros p t W I T. unfold upper_error. destruct (_ && _) eqn:Q; [|exists []; split; [reflexivity|constructor]].
  apply andb_true_iff in Q. destruct Q as (Q & Q3). apply andb_true_iff in Q. destruct Q as (Q1 & Q2). apply negb_true_iff in Q1, Q2, Q3.
  destruct (change_first_ok upper t (wf_token p t W I)) as (s & E). rewrite E. cbn [bind]. eexists. split; [reflexivity|]. constructor; [|constructor].
  apply ce_upper; auto.
Qed.

Lemma lower_error_ok : forall p t, wf_par p -> In t (all_tokens p) -> is_wordt t = true -> exists l, lower_error t = Ok l /\ Forall (cap_error p) l.
Proof.
  intros p t W I T. unfold lower_error.
  destruct (isValidWord t && firstLetterLcase t && isUpper (chr0 t) && negb (possibleSentenceStart t) && (1 <? tokenlen t)%nat) eqn:Q;
    [|exists []; split; [reflexivity|constructor]].
  repeat (apply andb_true_iff in Q; destruct Q as (Q & ?)). apply Nat.ltb_lt in H. apply negb_true_iff in H0.
  destruct (nth_error (g_str t) 1) as [c|] eqn:E; [|apply nth_error_None in E; unfold tokenlen in H; lia].
  rewrite (proj2 (rd_ok _ _ _ _) E). cbn [bind].
  destruct (_ && _) eqn:R; [|exists []; split; [reflexivity|constructor]].
  repeat (apply andb_true_iff in R; destruct R as (R & ?)). apply negb_true_iff in H3, H4, H5, R.
  destruct (change_first_ok lower t (wf_token p t W I)) as (s & ES). rewrite ES. cbn [bind]. eexists. split; [reflexivity|]. constructor; [|constructor].
  apply ce_lower; auto.
  - intros X. rewrite X in H4. discriminate.
  - intros c' E'. rewrite E in E'. injection E' as <-. lia.
Qed.

(** What a state function guarantees. *)
Definition step_ok (p : list gsentence) (c : cap_context) (r : cap_result) : Prop :=
  exists l s c', r = Ok (l, s, c') /\ Forall (cap_error p) l /\ cap_inv p c' /\ s <> INITIAL /\
    (currentSentence c' = length p \/
     (nextWord c' <> None /\ (remaining p (currentSentence c') (currentToken c') < remaining p (currentSentence c) (currentToken c))%nat)).

Ltac finish :=
  match goal with
  | |- step_ok ?p ?c (Ok (?l, ?s, ?c')) =>
      exists l, s, c'; split; [reflexivity|]; split; [auto|]; split; [auto|]; split; [discriminate|]; auto
  end.

Lemma set_ended_inv : forall p c b, cap_inv p c -> cap_inv p (set_ended c b).
Proof. intros p c b [A B]. split; auto. Qed.

Lemma tl_forall : forall A (P : A -> Prop) l, Forall P l -> Forall P (tl l).
Proof. intros A P [|x l] F; cbn; auto. inversion F; auto. Qed.

Lemma state_ok : forall st o p c, wf_par p -> cap_inv p c -> (st <> INITIAL -> nextWord c <> None) -> step_ok p c (stateFunctions st o p c).
Proof.
  intros st o p c W I NW.
  destruct (until_word_ok p c W I) as (seps & c1 & E & F & I1 & _ & _ & PR).
  assert (Forall (fun t => In t (all_tokens p)) seps) as F' by (eapply Forall_impl; [|exact F]; cbn; tauto).
  assert (forall toks l h c2, Forall (fun t => In t (all_tokens p)) toks -> pushAndPopQuotes c1 toks = (l, h, c2) -> Forall (cap_error p) l /\ cap_inv p c2 /\
    (currentSentence c2 = length p \/
     (nextWord c2 <> None /\ (remaining p (currentSentence c2) (currentToken c2) < remaining p (currentSentence c) (currentToken c))%nat))) as Q.
  { intros toks l h c2 Ft H. destruct (quotes_ok p c1 toks l h c2 Ft H) as (A & B & C & D). split; [auto|]. split.
    - destruct I1 as [V1 N1]. split; rewrite ?B, ?C, ?D; auto.
    - rewrite B, C, D. auto. }
  destruct st; cbn [stateFunctions].
  - unfold inInitial. rewrite E. cbn [bind]. destruct (pushAndPopQuotes c1 seps) as [[l h] c2] eqn:PP. destruct (Q seps l h c2 F' PP) as (A & B & C).
    destruct (negb (no_quotes c2)); [finish|]. destruct (accept_bulleted o); [finish|]. destruct (containsToken _ _); finish.
  - specialize (NW ltac:(discriminate)). unfold inUpper. destruct (nextWord c) as [word|] eqn:NX; [|congruence].
    destruct (ci_next _ _ I word NX) as (IW & TW). rewrite E. cbn [bind].
    destruct (isListItemAndClosingParenthesis word seps).
    { destruct (pushAndPopQuotes c1 (tl seps)) as [[l h] c2] eqn:PP. destruct (Q _ l h c2 (tl_forall _ _ _ F') PP) as (A & B & C). finish. }
    destruct (upper_error_ok p word W IW TW) as (e & -> & Fe). cbn [bind].
    destruct (pushAndPopQuotes c1 seps) as [[l h] c2] eqn:PP. destruct (Q seps l h c2 F' PP) as (A & B & C). cbv zeta.
    assert (Forall (cap_error p) (e ++ l)) as FE by (apply Forall_app; auto).
    pose proof (set_ended_inv p c2 true B) as B2.
    destruct (negb (no_quotes c2)); [finish|]. destruct (_ || _); [finish|]. destruct (_ && _); [finish|]. destruct (_ && _); [finish|].
    destruct (lastPunctuationEndsSentence seps); finish.
  - specialize (NW ltac:(discriminate)). unfold inLower. destruct (nextWord c) as [word|] eqn:NX; [|congruence].
    destruct (ci_next _ _ I word NX) as (IW & TW). destruct (lower_error_ok p word W IW TW) as (e & -> & Fe). cbn [bind]. rewrite E. cbn [bind].
    destruct (isListItemAndClosingParenthesis word seps).
    { destruct (pushAndPopQuotes c1 (tl seps)) as [[l h] c2] eqn:PP. destruct (Q _ l h c2 (tl_forall _ _ _ F') PP) as (A & B & C).
      assert (Forall (cap_error p) (e ++ l)) as FE by (apply Forall_app; auto). finish. }
    destruct (pushAndPopQuotes c1 seps) as [[l h] c2] eqn:PP. destruct (Q seps l h c2 F' PP) as (A & B & C). cbv zeta.
    assert (Forall (cap_error p) (e ++ l)) as FE by (apply Forall_app; auto).
    pose proof (set_ended_inv p c2 true B) as B2.
    destruct (negb (no_quotes c2)); [finish|]. destruct (_ || _); [finish|]. destruct (lastPunctuationEndsSentence seps); finish.
  - specialize (NW ltac:(discriminate)). unfold inDontCare. rewrite E. cbn [bind]. destruct (nextWord c) as [word|] eqn:NX; [|congruence].
    match goal with |- context [bind (match seps with [] => Ok false | _ => _ end) _] =>
      assert (exists b, match seps with [] => Ok false | t :: _ => if negb (chr0 t =? 0x29) then Ok false else Ok (isListItemAndClosingParenthesis word seps) end = Ok b) as (li & ->) end.
    { destruct seps as [|t q]; [eauto|]. destruct (negb (chr0 t =? 0x29)); eauto. }
    cbn [bind]. destruct li.
    { destruct (pushAndPopQuotes c1 (tl seps)) as [[l h] c2] eqn:PP. destruct (Q _ l h c2 (tl_forall _ _ _ F') PP) as (A & B & C). finish. }
    destruct (pushAndPopQuotes c1 seps) as [[l h] c2] eqn:PP. destruct (Q seps l h c2 F' PP) as (A & B & C).
    pose proof (set_ended_inv p c2 true B) as B2.
    destruct (negb (no_quotes c2)); [finish|]. destruct (containsToken _ _); [finish|].
    match goal with |- context [bind (if accept_titles o then Ok ?x else Ok false) _] => assert (exists b, (if accept_titles o then Ok x else Ok false) = Ok b) as (ch & ->) by (destruct (accept_titles o); eauto) end.
    cbn [bind]. destruct ch; [finish|]. destruct (lastPunctuationEndsSentence seps); finish.
  - unfold inQuoted. rewrite E. cbn [bind]. destruct (pushAndPopQuotes c1 seps) as [[l h] c2] eqn:PP. destruct (Q seps l h c2 F' PP) as (A & B & C).
    pose proof (set_ended_inv p c2 false B) as B2.
    destruct (negb (no_quotes c2)); [finish|]. destruct (lastPunctuationEndsSentence seps); [finish|]. destruct (_ || _); finish.
Qed.

Lemma continues_inv : forall p c, wf_par p -> cap_continues p c = true -> (currentSentence c < length p)%nat /\ (0 < remaining p (currentSentence c) (currentToken c))%nat.
Proof.
  intros p c W H. unfold cap_continues in H. destruct (nth_error p (currentSentence c)) as [s|] eqn:N; [|discriminate].
  split; [apply nth_error_Some; congruence|]. unfold remaining. rewrite (skipn_cons _ _ _ _ N). cbn [flat_map]. rewrite app_length. apply Nat.leb_le in H. lia.
Qed.

Lemma cap_loop_ok : forall fuel o p st c, wf_par p -> cap_inv p c -> (remaining p (currentSentence c) (currentToken c) <= fuel)%nat ->
  (st <> INITIAL -> cap_continues p c = true -> nextWord c <> None) ->
  exists l, cap_loop fuel o p st c = Ok l /\ Forall (cap_error p) l.
Proof.
  induction fuel as [|f IH]; intros o p st c W I R NW; cbn [cap_loop]; destruct (cap_continues p c) eqn:C; cbn [negb];
    try (exists []; split; [reflexivity|constructor]).
  - destruct (continues_inv p c W C). lia.
  - destruct (state_ok st o p c W I) as (e & s & c' & -> & Fe & I' & NI & PR); [intros X; auto|]. cbn [bind].
    destruct (IH o p s c' W I') as (l & -> & Fl).
    + destruct PR as [PR|(_ & PR)]; [|lia]. unfold remaining. rewrite PR, skipn_all. cbn. lia.
    + intros _ C'. destruct PR as [PR|(PR & _)]; [|auto]. destruct (continues_inv p c' W C'). lia.
    + cbn [bind]. eexists. split; [reflexivity|]. apply Forall_app. auto.
Qed.

Lemma capitalization_ok : forall o p, wf_par p -> exists l, capitalization o p = Ok l /\ Forall (cap_error p) l.
Proof.
  intros o p W. unfold capitalization. apply cap_loop_ok; auto.
  - split; cbn; [split; [lia|left; auto]|intros t; discriminate].
  - unfold remaining, total_tokens. cbn [currentSentence currentToken]. rewrite skipn_O. lia.
Qed.
