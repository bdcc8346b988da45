(** * The capitalisation check finds exactly what is described. *)
From Verif Require Import Base BaseFacts CharModel TokenModel TokenSpec TokenProofs SpellerBase SentenceModel SentenceProofs AnalysisModel AnalyzerBase Utf8Model
  GcCacheModel HandleModel ParaModel RulesModel GrammarModel GrammarSpec RulesSpec CapSpec ParaProofs ParaLoops RulesProofs AutocorrectProofs CapProofs
  GrammarCallSpec GrammarProofs RuleMeaning.

(** ** Reading tokens *)
Definition stream (p : list gsentence) (cs ct : nat) : list gtoken := skipn ct (flat_map s_tokens (skipn cs p)).
Definition kept (p : list gsentence) : Prop := Forall (fun s => shouldSkip (s_tokens s) = false) p.
Definition at_pos (p : list gsentence) (cs ct : nat) : Prop :=
  ct = 0%nat \/ exists s, nth_error p cs = Some s /\ (ct < length (s_tokens s))%nat.

Lemma skipn_app_lt : forall A (a b : list A) n, (n <= length a)%nat -> skipn n (a ++ b) = skipn n a ++ b.
Proof. intros A a b n L. rewrite skipn_app. replace (n - length a)%nat with 0%nat by lia. reflexivity. Qed.

Lemma get_stream : forall p cs ct, wf_par p -> kept p -> at_pos p cs ct ->
  match stream p cs ct with
  | [] => exists cs', getTokenAndAdvance p cs ct = Ok (None, cs', ct) /\ stream p cs' ct = [] /\ at_pos p cs' ct
  | t :: r => exists cs' ct', getTokenAndAdvance p cs ct = Ok (Some t, cs', ct') /\ stream p cs' ct' = r /\ at_pos p cs' ct'
  end.
Proof.
  intros p cs ct W K V. unfold getTokenAndAdvance, stream. destruct (nth_error p cs) as [s|] eqn:N.
  - rewrite (skipn_cons _ _ _ _ N). cbn [skip_sentences flat_map].
    assert (In s p) as Is by (eapply nth_error_In; eauto). unfold kept in K. rewrite Forall_forall in K. rewrite (K s Is).
    assert (s_tokens s <> []) as NE by (unfold wf_par in W; rewrite Forall_forall in W; apply W; auto).
    assert (ct < length (s_tokens s))%nat as L.
    { destruct V as [->|(s' & N' & L)]; [destruct (s_tokens s); [congruence|cbn; lia]|]. rewrite N in N'. injection N' as <-. auto. }
    destruct (nth_error (s_tokens s) ct) as [t|] eqn:T; [|apply nth_error_None in T; lia].
    rewrite skipn_app_lt by lia. rewrite (skipn_cons _ _ _ _ T). cbn [app].
    rewrite (proj2 (rd_ok _ _ _ _) T). cbn [bind]. cbv zeta. destruct (Nat.eqb_spec (length (s_tokens s)) (S ct)) as [Q|Q].
    + eexists _, _. split; [reflexivity|]. split; [rewrite skipn_O, <- Q, skipn_all; reflexivity|left; auto].
    + eexists _, _. split; [reflexivity|]. split; [rewrite (skipn_cons _ _ _ _ N); cbn [flat_map]; apply skipn_app_lt; lia|].
      right. exists s. split; [auto|lia].
  - pose proof (proj1 (nth_error_None _ _) N) as L. rewrite (skipn_all2 p L). cbn [skip_sentences flat_map]. rewrite skipn_nil.
    eexists. split; [reflexivity|]. rewrite (skipn_all2 p L). cbn [flat_map]. rewrite skipn_nil. split; [reflexivity|exact V].
Qed.

Lemma continues_stream : forall p c, wf_par p -> at_pos p (currentSentence c) (currentToken c) ->
  cap_continues p c = true <-> stream p (currentSentence c) (currentToken c) <> [].
Proof.
  intros p c W V. unfold cap_continues, stream. destruct (nth_error p (currentSentence c)) as [s|] eqn:N.
  - assert (currentToken c < length (s_tokens s))%nat as L.
    { destruct V as [->|(s' & N' & L)]; [|rewrite N in N'; injection N' as <-; auto]. assert (s_tokens s <> []) as NE.
      { unfold wf_par in W; rewrite Forall_forall in W; apply W. eapply nth_error_In; eauto. } destruct (s_tokens s); [congruence|cbn; lia]. }
    rewrite (skipn_cons _ _ _ _ N). cbn [flat_map]. rewrite skipn_app_lt by lia. split; [|intros _; apply Nat.leb_le; lia].
    intros _ X. apply (f_equal (@length gtoken)) in X. rewrite app_length, skipn_length in X. cbn in X. lia.
  - pose proof (proj1 (nth_error_None _ _) N) as L. rewrite (skipn_all2 p L). cbn. rewrite skipn_nil. split; [discriminate|congruence].
Qed.

Lemma until_stream : forall l fuel p cs ct before, wf_par p -> kept p -> at_pos p cs ct -> stream p cs ct = l -> (length l < fuel)%nat ->
  (exists seps w r b cs' ct', l = seps ++ w :: r /\ (forall t, In t seps -> ~ word t) /\ word w /\
     until_next_word fuel p cs ct before = Ok (seps, b, Some w, cs', ct') /\ stream p cs' ct' = r /\ at_pos p cs' ct') \/
  ((forall t, In t l -> ~ word t) /\ exists b cs' ct', until_next_word fuel p cs ct before = Ok (l, b, None, cs', ct') /\ stream p cs' ct' = [] /\ at_pos p cs' ct').
Proof.
  induction l as [|t l IH]; intros fuel p cs ct before W K V E L; (destruct fuel as [|f]; [cbn in L; lia|]); cbn [until_next_word];
    pose proof (get_stream p cs ct W K V) as G; rewrite E in G.
  - destruct G as (cs' & -> & G1 & G2). cbn [bind]. right. split; [intros t []|]. eexists _, _, _. split; [reflexivity|]. auto.
  - destruct G as (cs' & ct' & -> & G1 & G2). cbn [bind]. destruct (is_wordt t) eqn:T.
    + apply word_iff in T. left. exists [], t, l, before, cs', ct'. split; [reflexivity|]. split; [intros u []|]. auto.
    + assert (~ word t) as NW by (intros X; apply word_iff in X; congruence).
      destruct (IH f p cs' ct' (Some t) W K G2 G1) as [(seps & w & r & b & c2 & t2 & -> & A & B & -> & C & D)|(A & b & c2 & t2 & -> & C & D)]; [cbn in L; lia| |]; cbn [bind].
      * left. exists (t :: seps), w, r, b, c2, t2. split; [reflexivity|]. split; [intros u [<-|I]; auto|]. auto.
      * right. split; [intros u [<-|I]; auto|]. eauto 7.
Qed.

Lemma until_word_stream : forall p c, wf_par p -> kept p -> at_pos p (currentSentence c) (currentToken c) ->
  exists seps c', getTokensUntilNextWord p c = Ok (seps, c') /\ (forall t, In t seps -> ~ word t) /\ quotes c' = quotes c /\
    at_pos p (currentSentence c') (currentToken c') /\
    match nextWord c' with
    | Some w => word w /\ stream p (currentSentence c) (currentToken c) = seps ++ w :: stream p (currentSentence c') (currentToken c')
    | None => stream p (currentSentence c) (currentToken c) = seps /\ stream p (currentSentence c') (currentToken c') = []
    end.
Proof.
  intros p c W K V. unfold getTokensUntilNextWord.
  destruct (until_stream _ (total_tokens p + 1) p (currentSentence c) (currentToken c) (nextWord c) W K V eq_refl) as
    [(seps & w & r & b & cs & ct & E & A & B & -> & C & D)|(A & b & cs & ct & -> & C & D)].
  - unfold stream. rewrite skipn_length. pose proof (remaining_mono p 0 (currentSentence c) ltac:(lia)) as M. rewrite skipn_O in M. unfold total_tokens. lia.
  - cbn [bind]. eexists _, _. split; [reflexivity|]. cbn [nextWord quotes currentSentence currentToken]. rewrite C. auto.
  - cbn [bind]. eexists _, _. split; [reflexivity|]. cbn [nextWord quotes currentSentence currentToken]. auto.
Qed.

(** ** Punctuation *)
Definition usable (t : gtoken) : Prop := plain_token t /\ g_str t <> [].
Lemma usable_hd : forall t, usable t -> ~ word t -> ~ In (chr0 t) [0; 0x22; 0xBB; 0x201C; 0x201D; 0x28; 0x29; 0x5B; 0x5D; 9].
Proof.
  intros t ((P0 & P1 & _) & N) NW [X|X]; [|apply (P1 NW); exact X]. unfold chr0 in X. destruct (g_str t) as [|c s]; [congruence|]. cbn in X. apply P0. left. auto.
Qed.
Lemma plain_quotes : forall seps h e, Forall usable seps -> (forall t, In t seps -> ~ word t) -> exists h' e', push_pop seps h [] e = ([], h', [], e').
Proof.
  induction seps as [|t r IH]; intros h e F NW; cbn [push_pop]; [eauto|]. inversion F as [|? ? U F']; subst.
  pose proof (usable_hd t U (NW t (or_introl eq_refl))) as P. assert (forall u, In u r -> ~ word u) as NW' by (intros u I; apply NW; right; auto).
  destruct (is_punct t); cbn [negb]; [|apply IH; auto]. cbv zeta. cbn [In] in P.
  destruct (isFinnishQuotationMark (chr0 t)) eqn:Q. { exfalso. apply quote_iff in Q. cbn in Q. intuition lia. }
  destruct ((chr0 t =? 0x28) || (chr0 t =? 0x5B)) eqn:Q1; [exfalso; intuition lia|].
  destruct ((chr0 t =? 0x29) || (chr0 t =? 0x5D)) eqn:Q2; [exfalso; intuition lia|].
  destruct (wcschr (wstr ".!?") (chr0 t)); apply IH; auto.
Qed.
Lemma plain_pop : forall c seps, quotes c = [] -> Forall usable seps -> (forall t, In t seps -> ~ word t) ->
  exists h c', pushAndPopQuotes c seps = ([], h, c') /\ quotes c' = [] /\ nextWord c' = nextWord c /\ currentSentence c' = currentSentence c /\ currentToken c' = currentToken c.
Proof.
  intros c seps Q F NW. unfold pushAndPopQuotes. rewrite Q. destruct (plain_quotes seps false (sentenceEnded c) F NW) as (h & e & ->). eexists _, _. split; [reflexivity|]. auto.
Qed.

Lemma stops_iff : forall c, wcschr (wstr ".?!") c = true <-> In c [0; 0x2E; 0x3F; 0x21].
Proof. intros c. rewrite wcschr_spec. cbn. intuition lia. Qed.

Lemma ends_iff : forall seps, lastPunctuationEndsSentence seps = true <-> ends_sentence seps.
Proof.
  intros seps. unfold lastPunctuationEndsSentence. set (f := fun t => is_punct t && negb (chr0 t =? 0x2C)).
  assert (forall t, f t = true <-> punct t /\ ~ starts t 0x2C) as FI.
  { intros t. unfold f. rewrite andb_true_iff, punct_iff, negb_true_iff, Z.eqb_neq. reflexivity. }
  assert (forall l, match find f (rev l) with
                    | Some t => exists l1 l2, l = l1 ++ t :: l2 /\ f t = true /\ forall u, In u l2 -> f u = false
                    | None => forall u, In u l -> f u = false end) as X.
  { clear seps FI. intros l. induction l as [|t l IH] using rev_ind; [intros u []|]. rewrite rev_app_distr. cbn [rev app find].
    destruct (f t) eqn:Ft; [exists l, []; split; [reflexivity|]; split; [auto|intros u []]|].
    destruct (find f (rev l)) as [v|].
    - destruct IH as (l1 & l2 & -> & A & B). exists l1, (l2 ++ [t]). rewrite <- app_assoc. split; [reflexivity|]. split; [auto|].
      intros u I. apply in_app_or in I. destruct I as [I|[<-|[]]]; auto.
    - intros u I. apply in_app_or in I. destruct I as [I|[<-|[]]]; auto. }
  specialize (X seps). destruct (find f (rev seps)) as [t|].
  - destruct X as (l1 & l2 & E & Ft & L2). apply FI in Ft. destruct Ft as (Pt & Ct). rewrite stops_iff. split.
    + intros I. exists l1, t, l2. split; [auto|]. split; [auto|]. split; [auto|]. split; [exists (chr0 t); split; [reflexivity|auto]|].
      intros u Iu Pu. specialize (L2 u Iu). unfold f in L2. rewrite (proj2 (punct_iff u) Pu) in L2. cbn [andb] in L2. apply negb_false_iff, Z.eqb_eq in L2. exact L2.
    + intros (m1 & u & m2 & E' & Pu & Cu & (c & Sc & Ic) & L2').
      assert (u = t) as ->; [|unfold starts in Sc; unfold chr0; rewrite Sc; exact Ic].
      rewrite E in E'. revert m1 E'. clear - Pt Ct L2 Pu Cu L2' FI. revert l1. induction l1 as [|a l1 IH]; intros m1 E; destruct m1 as [|b m1]; cbn in E; injection E as X E.
      * auto.
      * exfalso. assert (In u l2) as I by (rewrite E; apply in_or_app; right; left; auto). specialize (L2 u I). assert (f u = true) by (apply FI; auto). congruence.
      * exfalso. assert (In t m2) as I by (rewrite <- E; apply in_or_app; right; left; auto). elim Ct. auto.
      * eapply IH; eauto.
  - split; [discriminate|]. intros (m1 & u & m2 & E' & Pu & Cu & _). assert (f u = true) by (apply FI; auto). rewrite (X u) in H; [discriminate|]. rewrite E'. apply in_or_app. right. left. auto.
Qed.

(** ** Words *)
Lemma change_iff : forall f w s, g_str w <> [] -> ~ In 0 (g_str w) -> change_first f w = Ok s <-> offered (f (hd 0 (g_str w)) :: tl (g_str w)) s.
Proof.
  intros f w s N Z. unfold change_first. destruct (g_str w) as [|c r]; [congruence|]. cbn [hd tl].
  assert (cstr r = r) as -> by (apply cstr_no_nul; intros X; apply Z; right; exact X).
  rewrite Nat.sub_diag. cbn [repeat]. rewrite app_nil_r. apply offered_iff.
Qed.

Lemma upper_iff : forall w l, usable w -> upper_error w = Ok l -> forall e, In e l <-> needs_capital w e.
Proof.
  intros w l ((P0 & _) & N) E e. unfold upper_error in E. unfold needs_capital.
  destruct (isUpper (chr0 w)) eqn:A; [injection E as <-; split; [intros []|]; intros (X & _); unfold chr0 in A; congruence|].
  destruct (isDigit (chr0 w)) eqn:B; [injection E as <-; split; [intros []|]; intros (_ & X & _); unfold chr0 in B; congruence|].
  destruct (possibleSentenceStart w) eqn:C; [injection E as <-; split; [intros []|]; intros (_ & _ & X & _); congruence|]. cbn [negb andb] in E.
  destruct (change_first upper w) as [s| |] eqn:CF; try discriminate. cbn [bind] in E. injection E as <-. pose proof (proj1 (change_iff _ _ _ N P0) CF) as O. split.
  - intros [<-|[]]. split; [auto|]. split; [auto|]. split; [auto|]. exists s. split; [auto|reflexivity].
  - intros (_ & _ & _ & s' & O' & ->). apply (change_iff _ _ _ N P0) in O'. rewrite CF in O'. injection O' as <-. left. reflexivity.
Qed.

Lemma lower_iff : forall w l, usable w -> lower_error w = Ok l -> forall e, In e l <-> needs_small w e.
Proof.
  intros w l ((P0 & _) & N) E e. unfold lower_error in E. unfold needs_small.
  destruct (isValidWord w) eqn:A; [|injection E as <-; split; [intros []|]; intros (_ & X & _); congruence].
  destruct (firstLetterLcase w) eqn:B; [|injection E as <-; split; [intros []|]; intros (_ & _ & X & _); congruence].
  destruct (isUpper (chr0 w)) eqn:C; [|injection E as <-; split; [intros []|]; intros (X & _); unfold chr0 in C; congruence].
  destruct (possibleSentenceStart w) eqn:D; [injection E as <-; split; [intros []|]; intros (_ & _ & _ & X & _); congruence|].
  destruct (1 <? tokenlen w)%nat eqn:L.
  2:{ injection E as <-. split; [intros []|]. intros (_ & _ & _ & _ & _ & _ & (c & X & _) & _). apply Nat.ltb_ge in L.
      assert (1 < length (g_str w))%nat by (apply nth_error_Some; congruence). unfold tokenlen in L. lia. }
  cbn [negb andb] in E. destruct (rd (g_str w) 1) as [c| |] eqn:R; try discriminate. apply rd_ok in R. cbn [bind] in E.
  assert (forall P : Prop, (P -> False) -> (In e [] <-> P)) as NO by (intros P X; split; [intros []|intros Y; elim (X Y)]).
  destruct (Z.eqb_spec c 0x2D) as [X1|X1]; [injection E as <-; apply NO; intros (_ & _ & _ & _ & _ & _ & (c' & Y & Y1 & Y2) & _); rewrite R in Y; injection Y as <-; auto|].
  destruct (Z.eqb_spec c 0x3A) as [X2|X2]; [injection E as <-; apply NO; intros (_ & _ & _ & _ & _ & _ & (c' & Y & Y1 & Y2) & _); rewrite R in Y; injection Y as <-; auto|].
  assert ((match voikko_casetype (g_str w) with CT_ALL_UPPER => true | _ => false end = true /\ voikko_casetype (g_str w) = CT_ALL_UPPER) \/
          (match voikko_casetype (g_str w) with CT_ALL_UPPER => true | _ => false end = false /\ voikko_casetype (g_str w) <> CT_ALL_UPPER)) as [(H1 & H2)|(H1 & H2)]
    by (destruct (voikko_casetype (g_str w)); auto; right; split; auto; discriminate); rewrite H1 in E; cbn [negb andb] in E.
  { injection E as <-. apply NO. intros (_ & _ & _ & _ & _ & Y & _). auto. }
  destruct (possibleGeographicalName w) eqn:G; cbn [negb andb] in E; [injection E as <-; apply NO; intros (_ & _ & _ & _ & Y & _); congruence|].
  destruct (change_first lower w) as [s| |] eqn:CF; try discriminate. cbn [bind] in E. injection E as <-. pose proof (proj1 (change_iff _ _ _ N P0) CF) as O. split.
  - intros [<-|[]]. repeat (split; [solve [auto]|]). split; [exists c; auto|]. exists s. split; [auto|reflexivity].
  - intros (_ & _ & _ & _ & _ & _ & _ & s' & O' & ->). apply (change_iff _ _ _ N P0) in O'. rewrite CF in O'. injection O' as <-. left. reflexivity.
Qed.

(** ** The loop *)
Inductive found_from : bool -> gtoken -> list gtoken -> gc_error -> Prop :=
| ff_here : forall (b : bool) w r e, r <> [] -> (if b then needs_capital w e else needs_small w e) -> found_from b w r e
| ff_later : forall b w seps w' r e, (forall t, In t seps -> ~ word t) -> word w' -> found_from (lastPunctuationEndsSentence seps) w' r e ->
    found_from b w (seps ++ w' :: r) e.

Lemma split_word : forall a w r b w' r', (forall t, In t a -> ~ word t) -> word w -> (forall t, In t b -> ~ word t) -> word w' ->
  a ++ w :: r = b ++ w' :: r' -> a = b /\ w = w' /\ r = r'.
Proof.
  induction a as [|x a IH]; intros w r b w' r' A W B W' E; destruct b as [|y b]; cbn in E; injection E as X E; subst; auto.
  - elim (B y); [left; auto|auto].
  - elim (A w'); [left; auto|auto].
  - destruct (IH w r b w' r') as (-> & -> & ->); auto; intros t I; [apply A|apply B]; right; auto.
Qed.
Lemma no_word_split : forall a b w r, (forall t, In t a -> ~ word t) -> word w -> a = b ++ w :: r -> False.
Proof. intros a b w r A W ->. apply (A w); [apply in_or_app; right; left; auto|auto]. Qed.

Lemma list_item_plain : forall w seps, Forall usable seps -> (forall t, In t seps -> ~ word t) -> isListItemAndClosingParenthesis w seps = false.
Proof.
  intros w [|t r] F NW; [reflexivity|]. unfold isListItemAndClosingParenthesis. pose proof (usable_hd t (Forall_inv F) (NW t (or_introl eq_refl))) as P.
  destruct (Z.eqb_spec (chr0 t) 0x29) as [X|]; [|reflexivity]. exfalso. apply P. rewrite X. cbn. tauto.
Qed.
Lemma no_tab_plain : forall seps, Forall usable seps -> (forall t, In t seps -> ~ word t) -> containsToken seps [9] = false.
Proof.
  intros seps F NW. unfold containsToken. apply Bool.not_true_is_false. intros X. apply existsb_exists in X. destruct X as (t & I & X). apply str_is_iff in X.
  rewrite Forall_forall in F. pose proof (usable_hd t (F t I) (NW t I)) as P. apply P. unfold text_of in X. unfold chr0. destruct (g_str t) as [|c s]; [discriminate|].
  cbn [cstr] in X. cbn [hd]. destruct (c =? 0); [discriminate|]. injection X as -> _. cbn. tauto.
Qed.

Lemma plain_loop : forall fuel o p c w st, wf_par p -> kept p -> at_pos p (currentSentence c) (currentToken c) ->
  accept_titles o = false -> quotes c = [] -> nextWord c = Some w -> usable w -> word w -> Forall usable (stream p (currentSentence c) (currentToken c)) ->
  st = UPPER \/ st = LOWER -> (length (stream p (currentSentence c) (currentToken c)) <= fuel)%nat ->
  exists l, cap_loop fuel o p st c = Ok l /\
    forall e, In e l <-> found_from (match st with UPPER => true | _ => false end) w (stream p (currentSentence c) (currentToken c)) e.
Proof.
  induction fuel as [|f IH]; intros o p c w st W K V AT Q NX Uw Ww US ST L.
  { assert (stream p (currentSentence c) (currentToken c) = []) as Z by (destruct (stream _ _ _); [auto|cbn in L; lia]).
    cbn [cap_loop]. destruct (cap_continues p c) eqn:C; [apply continues_stream in C; auto; congruence|]. exists []. split; [reflexivity|].
    intros e. rewrite Z. split; [intros []|]. intros X. inversion X as [? ? ? ? R|? ? a ? ? ? ? ? ? Y]; subst; [congruence|destruct a; discriminate]. }
  cbn [cap_loop]. destruct (cap_continues p c) eqn:C; cbn [negb].
  2:{ assert (stream p (currentSentence c) (currentToken c) = []) as Z.
      { destruct (stream p (currentSentence c) (currentToken c)) eqn:Z; [auto|]. assert (cap_continues p c = true) by (apply continues_stream; auto; congruence). congruence. }
      exists []. split; [reflexivity|]. intros e. rewrite Z. split; [intros []|]. intros X. inversion X as [? ? ? ? R|? ? a ? ? ? ? ? ? Y]; subst; [congruence|destruct a; discriminate]. }
  apply continues_stream in C; auto.
  destruct (until_word_stream p c W K V) as (seps & c1 & E & NW & Q1 & V1 & R). rewrite Q in Q1.
  assert (Forall usable seps) as FS.
  { destruct (nextWord c1); [destruct R as (_ & R); rewrite R in US; apply Forall_app in US; tauto|]. destruct R as (R & _). rewrite <- R. exact US. }
  destruct (plain_pop c1 seps Q1 FS NW) as (h & c2 & PP & Q2 & N2 & S2 & T2).
  assert (exists e0 st' c3, stateFunctions st o p c = Ok (e0, st', c3) /\ (forall e, In e e0 <-> if match st with UPPER => true | _ => false end then needs_capital w e else needs_small w e) /\
     st' = (if lastPunctuationEndsSentence seps then UPPER else LOWER) /\ quotes c3 = [] /\ nextWord c3 = nextWord c1 /\ currentSentence c3 = currentSentence c1 /\ currentToken c3 = currentToken c1)
    as (e0 & st' & c3 & -> & E0 & -> & Q3 & N3 & S3 & T3).
  { pose proof Uw as ((_ & _ & Pw) & Nw). destruct (Pw Ww) as (PI & PG & _). unfold text_of in PI.
    assert (forall s, placeNameInInstitutionName w s = false) as PL by (intros s; unfold placeNameInInstitutionName; rewrite PG; reflexivity).
    assert (no_quotes c2 = true) as NQ by (unfold no_quotes; rewrite Q2; reflexivity).
    destruct ST as [-> | ->]; cbn [stateFunctions].
    - unfold inUpper. rewrite NX, E. cbn [bind]. rewrite (list_item_plain w seps FS NW).
      assert (exists l, upper_error w = Ok l) as (l & EL).
      { unfold upper_error. destruct (_ && _); [|eauto]. destruct (change_first_ok upper w Nw) as (s & ->). cbn [bind]. eauto. }
      rewrite EL. cbn [bind]. rewrite PP, NQ. cbn [negb]. cbv zeta. rewrite (no_tab_plain seps FS NW), PL, AT, PI. cbn [orb andb].
      pose proof (upper_iff w l Uw EL) as UI. rewrite app_nil_r.
      destruct (lastPunctuationEndsSentence seps); eexists _, _, _; (split; [reflexivity|]); (split; [exact UI|]); cbn; auto.
    - unfold inLower. rewrite NX. assert (exists l, lower_error w = Ok l) as (l & EL).
      { unfold lower_error. match goal with |- context [if ?b then _ else Ok false] => destruct b eqn:B end; [|cbn [bind]; eauto].
        apply andb_true_iff in B. destruct B as (_ & B). apply Nat.ltb_lt in B. destruct (nth_error (g_str w) 1) as [x|] eqn:Y; [|apply nth_error_None in Y; unfold tokenlen in B; lia].
        rewrite (proj2 (rd_ok _ _ _ _) Y). cbn [bind]. destruct (_ && _); [|eauto]. destruct (change_first_ok lower w Nw) as (s & ->). cbn [bind]. eauto. }
      rewrite EL. cbn [bind]. rewrite E. cbn [bind]. rewrite (list_item_plain w seps FS NW), PP, NQ. cbn [negb]. cbv zeta. rewrite (no_tab_plain seps FS NW), PL. cbn [orb].
      pose proof (lower_iff w l Uw EL) as LI. rewrite app_nil_r.
      destruct (lastPunctuationEndsSentence seps); eexists _, _, _; (split; [reflexivity|]); (split; [exact LI|]); cbn; auto. }
  cbn [bind]. destruct (nextWord c1) as [w1|] eqn:NX1.
  - destruct R as (Ww1 & R). rewrite R in US. apply Forall_app in US. destruct US as (_ & US). inversion US as [|? ? Uw1 US1]; subst.
    destruct (IH o p c3 w1 (if lastPunctuationEndsSentence seps then UPPER else LOWER)) as (l & -> & IL); auto; rewrite ?S3, ?T3; auto.
    { destruct (lastPunctuationEndsSentence seps); auto. }
    { rewrite R, app_length in L. cbn [length] in L. lia. }
    cbn [bind]. eexists. split; [reflexivity|]. intros e. rewrite in_app_iff, E0, IL, S3, T3, R.
    replace (match (if lastPunctuationEndsSentence seps then UPPER else LOWER) with UPPER => true | _ => false end) with (lastPunctuationEndsSentence seps)
      by (destruct (lastPunctuationEndsSentence seps); reflexivity). split.
    + intros [X|X]; [apply ff_here; [destruct seps; discriminate|exact X]|apply ff_later; auto].
    + intros X. inversion X as [? ? ? ? _ Y|? ? a b r ? A B Y]; [left; subst; exact Y|].
      match goal with H : _ = seps ++ _ |- _ => destruct (split_word _ _ _ _ _ _ A B NW Ww1 H) as (Z1 & Z2 & Z3) end. subst a b r. right. exact Y.
  - destruct R as (R & R1). assert (cap_loop f o p (if lastPunctuationEndsSentence seps then UPPER else LOWER) c3 = Ok []) as ->.
    { assert (cap_continues p c3 = false) as Z. { destruct (cap_continues p c3) eqn:Z; [|auto]. apply continues_stream in Z; auto; rewrite S3, T3 in *; [congruence|auto]. }
      destruct f; cbn [cap_loop]; rewrite Z; reflexivity. }
    cbn [bind]. eexists. split; [reflexivity|]. intros e. rewrite app_nil_r, E0. split.
    + intros X. apply ff_here; auto.
    + intros X. inversion X as [? ? ? ? _ Y|? ? a b r ? A B Y]; [subst; exact Y|]. exfalso. apply (NW b); [|exact B].
      match goal with H : _ = stream _ _ _ |- _ => rewrite R in H; rewrite <- H end. apply in_or_app; right; left; auto.
Qed.

Lemma found_later : forall b w r e, found_from b w r e -> word w -> exists (b' : bool) w', (if b' then needs_capital w' e else needs_small w' e) /\
  ((b' = b /\ w' = w /\ r <> []) \/
   exists l v seps q, w :: r = l ++ v :: seps ++ w' :: q /\ q <> [] /\ word v /\ (forall t, In t seps -> ~ word t) /\ word w' /\ b' = lastPunctuationEndsSentence seps).
Proof.
  intros b w r e H. induction H as [b w r e N X|b w seps w1 r e A W1 H IH]; intros W.
  - exists b, w. auto.
  - destruct (IH W1) as (b' & w' & X & [(-> & -> & N)|(l & v & s2 & q & E & N & Wv & A2 & W' & ->)]).
    + exists (lastPunctuationEndsSentence seps), w1. split; [auto|]. right. exists [], w, seps, r. auto 7.
    + exists (lastPunctuationEndsSentence s2), w'. split; [auto|]. right. exists (w :: seps ++ l), v, s2, q. split; [|auto 7].
      cbn [app]. rewrite <- app_assoc. rewrite <- E. reflexivity.
Qed.
Lemma later_found : forall l w r v seps w' q b e, w :: r = l ++ v :: seps ++ w' :: q -> word w -> q <> [] -> word v -> (forall t, In t seps -> ~ word t) -> word w' ->
  (if lastPunctuationEndsSentence seps then needs_capital w' e else needs_small w' e) -> found_from b w r e.
Proof.
  intros l. remember (length l) as n eqn:N. revert l N. induction n as [n IH] using lt_wf_ind. intros l N w r v seps w' q b e E W Q V A W' X.
  destruct l as [|x l]; cbn [app] in E; injection E as -> E.
  - rewrite E. apply ff_later; auto. apply ff_here; auto.
  - (* the first word after w *)
    assert (forall m, (forall t, In t m -> ~ word t) \/ exists a u b, m = a ++ u :: b /\ (forall t, In t a -> ~ word t) /\ word u) as SP.
    { induction m as [|y m IHm]; [left; intros t []|]. destruct (is_wordt y) eqn:Y.
      - apply word_iff in Y. right. exists [], y, m. split; [auto|]. split; [intros t []|auto].
      - assert (~ word y) as NY by (intros Z; apply word_iff in Z; congruence). destruct IHm as [I|(a & u & b0 & -> & I1 & I2)].
        + left. intros t [<-|J]; auto.
        + right. exists (y :: a), u, b0. split; [auto|]. split; [intros t [<-|J]; auto|auto]. }
    destruct (SP l) as [I|(a & u & b0 & -> & I1 & I2)].
    + rewrite E. apply ff_later; auto. refine (IH 0%nat _ [] eq_refl v _ v seps w' q _ e _ V Q V A W' X); [subst n; cbn; lia|reflexivity].
    + rewrite E. rewrite <- app_assoc. cbn [app]. apply ff_later; auto. refine (IH (length (u :: b0)) _ (u :: b0) eq_refl u _ v seps w' q _ e _ I2 Q V A W' X).
      * subst n. cbn [length]. rewrite app_length. cbn [length]. lia.
      * reflexivity.
Qed.

Lemma plain_kept : forall s, plain_sentence s -> Forall (fun t => g_str t <> []) (s_tokens s) -> shouldSkip (s_tokens s) = false.
Proof.
  intros s (F & w & c & I & W & Ic & C) NE. revert F I NE. induction (s_tokens s) as [|t r IH]; intros F I NE; [destruct I|].
  inversion F as [|? ? P F']; subst. inversion NE as [|? ? Nt NE']; subst. cbn [shouldSkip].
  assert (chr0 t <> 0x201C) as H.
  { destruct (is_wordt t) eqn:T.
    - apply word_iff in T. destruct P as (_ & _ & P). apply (P T).
    - destruct P as (_ & P & _). intros X. apply P; [intros Y; apply word_iff in Y; congruence|]. unfold chr0 in X. rewrite X. cbn. tauto. }
  destruct (Z.eqb_spec (chr0 t) 0x201C) as [X|_]; [contradiction|]. destruct (is_wordt t) eqn:T; cbn [negb].
  - destruct (existsb isLower (g_str t)) eqn:EX; [reflexivity|]. destruct I as [->|I]; [|auto].
    assert (existsb isLower (g_str w) = true) by (apply existsb_exists; eauto). congruence.
  - destruct I as [->|I]; [apply word_iff in W; congruence|auto].
Qed.

Lemma plain_meaning : forall o p l, p <> [] -> wf_par p -> plain_paragraph p -> accept_titles o = false -> accept_bulleted o = false ->
  capitalization o p = Ok l -> forall e, In e l <-> capital_error (flat_map s_tokens p) e.
Proof.
  intros o p l PN W (PS & DASH) AT AB E.
  assert (kept p) as K.
  { apply Forall_forall. intros s I. unfold wf_par in W. rewrite Forall_forall in PS, W. apply plain_kept; [auto|]. apply W. auto. }
  assert (Forall usable (flat_map s_tokens p)) as US.
  { apply Forall_forall. intros t I. apply in_flat_map in I. destruct I as (s & Is & It). unfold wf_par in W. rewrite Forall_forall in PS, W. split.
    - destruct (PS s Is) as (F & _). rewrite Forall_forall in F. auto.
    - destruct (W s Is) as (_ & F). rewrite Forall_forall in F. auto. }
  set (c0 := mk_cap 0 0 None None [] false).
  assert (stream p 0 0 = flat_map s_tokens p) as S0 by (unfold stream; rewrite !skipn_O; reflexivity).
  assert (at_pos p 0 0) as V0 by (left; auto).
  unfold capitalization in E. fold c0 in E.
  assert (cap_continues p c0 = true) as C0.
  { apply continues_stream; auto. cbn [c0 currentSentence currentToken]. rewrite S0. destruct p as [|s p]; [congruence|]. unfold wf_par in W. apply Forall_inv in W. destruct W as (W & _).
    cbn [flat_map]. destruct (s_tokens s); [congruence|discriminate]. }
  destruct (total_tokens p + length p)%nat as [|f] eqn:FU. { destruct p; [congruence|cbn in FU; lia]. }
  cbn [cap_loop] in E. rewrite C0 in E. cbn [negb stateFunctions] in E.
  destruct (until_word_stream p c0 W K V0) as (seps & c1 & E1 & NW & Q1 & V1 & R). cbn [c0 currentSentence currentToken quotes] in Q1, R. rewrite S0 in R.
  destruct (nextWord c1) as [w|] eqn:NX.
  2:{ exfalso. destruct R as (R & _). destruct p as [|s p]; [congruence|]. apply Forall_inv in PS. destruct PS as (_ & w & c & I & Ww & _).
      apply (NW w); auto. rewrite <- R. cbn [flat_map]. apply in_or_app. auto. }
  destruct R as (Ww & R). rewrite R in US. apply Forall_app in US. destruct US as (U1 & U2). inversion U2 as [|? ? Uw U3]; subst.
  destruct (plain_pop c1 seps Q1 U1 NW) as (h & c2 & PP & Q2 & N2 & S2 & T2).
  unfold inInitial in E. rewrite E1 in E. cbn [bind] in E. rewrite PP in E. unfold no_quotes in E. rewrite Q2, AB in E. cbn [negb] in E.
  assert (containsToken seps (wstr "-") = false) as CT.
  { apply Bool.not_true_is_false. intros X. apply existsb_exists in X. destruct X as (t & I & X). apply str_is_iff in X. eapply DASH; eauto. }
  rewrite CT in E. cbn [bind] in E.
  destruct (plain_loop f o p c2 w UPPER) as (l' & E' & IL); auto; rewrite ?S2, ?T2; auto.
  { congruence. }
  { assert (length (flat_map s_tokens p) = total_tokens p) as TT by reflexivity. rewrite R, app_length in TT. cbn [length] in TT. lia. }
  rewrite E' in E. cbn [bind app] in E. injection E as <-. rewrite S2, T2 in IL. set (r := stream p (currentSentence c1) (currentToken c1)) in *.
  intros e. rewrite IL, R. split.
  - intros X. destruct (found_later _ _ _ _ X Ww) as (b & w' & Y & [(-> & -> & N)|(a & v & s2 & q & Z & N & Wv & A & W' & ->)]).
    + exists true, seps, w. split; [eapply at_first; eauto|]. left. auto.
    + exists false, s2, w'. split.
      * rewrite Z. eapply (at_later _ (seps ++ a)); [rewrite <- app_assoc; reflexivity|auto..].
      * destruct (lastPunctuationEndsSentence s2) eqn:LP; [left; split; [right; apply ends_iff; auto|auto]|]. right. split; [|auto].
        intros [F|F]; [discriminate|]. apply ends_iff in F. congruence.
  - intros (first & s2 & w' & [s3 w3 q Z N A W'|a v s3 w3 q Z N Wv A W'] & X).
    + destruct (split_word _ _ _ _ _ _ NW Ww A W' Z) as (-> & -> & ->). apply ff_here; auto. destruct X as [(_ & X)|(X & _)]; [exact X|]. elim X. auto.
    + assert (exists a', a ++ [v] = seps ++ w :: a') as (a' & EA).
      { clear - Z NW Ww Wv. revert a Z. induction seps as [|x seps IH]; intros [|y a] Z; cbn in Z; injection Z as -> Z.
        - exists []. reflexivity.
        - exists (a ++ [v]). reflexivity.
        - elim (NW v); [left; auto|auto].
        - destruct (IH (fun t I => NW t (or_intror I)) a Z) as (a' & EQ). exists a'. cbn. rewrite EQ. reflexivity. }
      replace (a ++ v :: s3 ++ w3 :: q) with ((a ++ [v]) ++ s3 ++ w3 :: q) in Z by (rewrite <- app_assoc; reflexivity). rewrite EA, <- app_assoc in Z. cbn [app] in Z.
      apply app_inv_head in Z. assert (exists m, w :: a' = m ++ [v]) as (m & EM).
      { destruct a' as [|z a'] using rev_ind; [exists []; apply app_inj_tail in EA; destruct EA as (_ & ->); reflexivity|].
        exists (w :: a'). replace (seps ++ w :: a' ++ [z]) with ((seps ++ w :: a') ++ [z]) in EA by (rewrite <- app_assoc; reflexivity).
        apply app_inj_tail in EA. destruct EA as (_ & ->). reflexivity. }
      change (w :: a' ++ s3 ++ w3 :: q) with ((w :: a') ++ s3 ++ w3 :: q) in Z. rewrite EM, <- app_assoc in Z. cbn [app] in Z.
      eapply (later_found m); eauto. destruct (lastPunctuationEndsSentence s3) eqn:LP.
      * destruct X as [(_ & X)|(X & _)]; [exact X|]. elim X. right. apply ends_iff. auto.
      * destruct X as [([F|F] & _)|(_ & X)]; [discriminate|apply ends_iff in F; congruence|exact X].
Qed.
