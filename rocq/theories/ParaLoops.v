(** * Tokens, sentences and paragraphs of the grammar checker. *)
From Verif Require Import Base BaseFacts CharModel TokenModel TokenSpec TokenProofs SpellerBase SentenceModel SentenceSpec SentenceProofs
  AnalysisModel AnalyzerBase GcCacheModel ParaModel GrammarSpec ParaProofs.

(** Tokens with consecutive positions. *)
Fixpoint located (pos : nat) (toks : list gtoken) : Prop :=
  match toks with
  | [] => True
  | t :: r => g_pos t = pos /\ g_str t <> [] /\ located (pos + tokenlen t) r
  end.

Definition shape (t : gtoken) : token := (g_type t, g_str t).

(** What the analysis says about a token. *)
Definition token_facts (an : analyzer) (t : gtoken) : Prop :=
  (g_type t = TOKEN_WORD -> word_flags (readings an (g_str t)) t) /\
  (g_type t <> TOKEN_WORD -> isConjunction t = false /\ isVerbNegative t = false /\ isValidWord t = false /\ possibleMainVerb t = false /\
     possibleConjunction t = false /\ requireFollowingVerb t = FOLLOWING_VERB_NONE).

Fixpoint marks (start : bool) (toks : list token) : list bool :=
  match toks with
  | [] => []
  | (ty, s) :: r => if start && is_word ty then true :: marks false r else false :: marks (start || separates ty s) r
  end.

Lemma token_seq_text : forall text toks, token_seq (nextToken false) text toks -> text <> [] ->
  exists ty n r, toks = (ty, firstn n text) :: r /\ nextToken false text = Ok (ty, n) /\ ty <> TOKEN_NONE /\
    (0 < n <= length text)%nat /\ firstn n text <> [] /\ token_seq (nextToken false) (skipn n text) r.
Proof.
  intros text toks H N. destruct (token_seq_inv _ _ H N) as (t & n & r & E & T & NN & L & _ & R).
  exists t, n, r. repeat (split; auto); try lia. destruct text; [congruence|]. destruct n; [lia|discriminate].
Qed.

Lemma sentence_tokens : forall n an text sp off start toks, structured an -> token_seq (nextToken false) text toks -> (0 < n)%nat ->
  ((length toks <= n)%nat -> exists l, analyseSentence_loop n an text sp off start = Ok (Some l) /\
     map shape l = toks /\ located (sp + off) l /\ Forall (token_facts an) l /\ map possibleSentenceStart l = marks start toks) /\
  ((n < length toks)%nat -> analyseSentence_loop n an text sp off start = Ok None).
Proof.
  induction n as [|n IH]; intros an text sp off start toks S H P; [lia|].
  destruct text as [|c0 text0].
  - pose proof (token_seq_nil _ H) as ->. cbn [analyseSentence_loop]. change (nextToken false []) with (Ok (TOKEN_NONE, 0%nat)). cbn [bind].
    split; [|cbn; lia]. intros _. exists []. cbn. repeat split; auto.
  - remember (c0 :: text0) as text eqn:T. assert (text <> []) as N by (subst; discriminate). clear T c0 text0.
    destruct (token_seq_text _ _ H N) as (ty & k & r & -> & E & TN & L & NE & R).
    destruct (analyseToken_ok an ty (firstn k text) (sp + off) S NE) as (t & ET & A1 & A2 & A3 & A4 & A5 & A6).
    cbn [analyseSentence_loop]. rewrite E. cbn [bind].
    assert (forall A (x y : res A), match ty with TOKEN_NONE => x | _ => y end = y) as MT by (intros; destruct ty; congruence).
    rewrite MT. rewrite ET. cbn [bind].
    assert (tokenlen t = k) as TL by (unfold tokenlen; rewrite A2, firstn_length; lia).
    assert ((let '(t, start0) := if start && is_word ty then (set_possibleSentenceStart t true, false)
              else if separates ty (firstn k text) then (t, true) else (t, start) in (t, start0)) =
            (if start && is_word ty then set_possibleSentenceStart t true else t,
             if start && is_word ty then false else start || separates ty (firstn k text))) as B.
    { destruct (start && is_word ty) eqn:Q; [reflexivity|]. destruct (separates ty (firstn k text)); rewrite ?orb_true_r, ?orb_false_r; reflexivity. }
    set (t' := if start && is_word ty then set_possibleSentenceStart t true else t) in *.
    set (st := if start && is_word ty then false else start || separates ty (firstn k text)) in *.
    replace (if start && is_word ty then (set_possibleSentenceStart t true, false)
              else if separates ty (firstn k text) then (t, true) else (t, start)) with (t', st)
      by (rewrite <- B; destruct (start && is_word ty), (separates ty (firstn k text)); reflexivity).
    clear B.
    assert (shape t' = (ty, firstn k text) /\ g_pos t' = (sp + off)%nat /\ tokenlen t' = k /\ token_facts an t') as (S1 & S2 & S3 & S4).
    { assert (tokenlen (set_possibleSentenceStart t true) = k) by exact TL.
      assert (shape t = (ty, firstn k text)) as SH by (unfold shape; congruence).
      assert (token_facts an t) as TF by (unfold token_facts; rewrite A1, A2; split; auto).
      subst t'. destruct (start && is_word ty); [|auto]. split; [exact SH|]. split; [exact A3|]. split; [auto|exact TF]. }
    assert (possibleSentenceStart t' :: marks st r = marks start ((ty, firstn k text) :: r)) as MK.
    { cbn [marks]. subst t' st. destruct (start && is_word ty); cbn; rewrite ?A4; reflexivity. }
    clearbody t' st. clear MT ET A1 A2 A3 A4 A5 A6 TL t.
    destruct (Nat.eqb_spec (length text - k) 0) as [Q|Q].
    + assert (skipn k text = []) as SK by (apply length_zero_iff_nil; rewrite skipn_length; auto).
      rewrite SK in R. pose proof (token_seq_nil _ R) as ->. split; [|cbn; lia]. intros _.
      exists [t']. split; [reflexivity|]. split; [cbn; rewrite S1; reflexivity|].
      split; [cbn; split; [auto|split; auto]|]. { unfold shape in S1. injection S1 as _ ->. auto. }
      split; [constructor; auto|]. rewrite <- MK. reflexivity.
    + assert (skipn k text <> []) as SK by (intros X; apply (f_equal (@length Z)) in X; rewrite skipn_length in X; cbn in X; lia).
      assert (0 < length r)%nat as LR by (destruct (token_seq_text _ _ R SK) as (? & ? & ? & -> & _); cbn; lia).
      cbn [length].
      split; intros LT.
      * destruct (proj1 (IH an (skipn k text) sp (off + k)%nat st r S R ltac:(lia)) ltac:(lia)) as (l & EL & M & LO & FA & MK').
        rewrite EL. cbn [bind]. exists (t' :: l). split; [reflexivity|]. cbn [map located]. rewrite S1, M. split; [reflexivity|].
        split; [|split; [constructor; auto|rewrite MK'; exact MK]].
        split; [auto|]. split; [unfold shape in S1; injection S1 as _ ->; auto|].
        rewrite S3. rewrite <- Nat.add_assoc. exact LO.
      * destruct n as [|n']; [cbn [analyseSentence_loop bind]; reflexivity|].
        rewrite (proj2 (IH an (skipn k text) sp (off + k)%nat st r S R ltac:(lia)) ltac:(lia)). reflexivity.
Qed.

(** ** Words that may start a sentence *)
Lemma separates_iff : forall ty s, separates ty s = true -> separator ty s.
Proof.
  intros ty s. unfold separates, separator. destruct ty; try discriminate. rewrite orb_true_iff, andb_true_iff, !Nat.eqb_eq, wcschr_spec.
  intros [(L & W)|L]; split; auto. right. destruct s as [|c [|]]; cbn in L; try discriminate. exists c. split; auto. cbn [hd] in W.
  cbn in *. intuition.
Qed.
Lemma separates_iff2 : forall ty s, separator ty s -> separates ty s = true.
Proof.
  intros ty s (-> & [L|(c & -> & I)]); unfold separates; [rewrite L; cbn; rewrite ?orb_true_r; reflexivity|].
  cbn [length Nat.eqb hd]. replace (wcschr _ c) with true; [reflexivity|]. symmetry. apply wcschr_spec. destruct I as [<-|I]; auto.
Qed.

Definition opens (toks : list token) (i : nat) : Prop :=
  exists j ty s, (j < i)%nat /\ nth_error toks j = Some (ty, s) /\ separates ty s = true /\
    (forall k ty' s', (j < k < i)%nat -> nth_error toks k = Some (ty', s') -> is_word ty' = false).

Lemma marks_length : forall toks st, length (marks st toks) = length toks.
Proof. induction toks as [|[ty s] r IH]; intros st; cbn [marks length]; auto. destruct (st && is_word ty); cbn [length]; rewrite IH; auto. Qed.

Lemma marks_spec : forall toks st i, nth_error (marks st toks) i = Some true <->
  exists ty s, nth_error toks i = Some (ty, s) /\ is_word ty = true /\
    (opens toks i \/ (st = true /\ forall k ty' s', (k < i)%nat -> nth_error toks k = Some (ty', s') -> is_word ty' = false)).
Proof.
  induction toks as [|[ty s] r IH]; intros st i; cbn [marks].
  - destruct i; (split; [discriminate|intros (? & ? & X & _); discriminate]).
  - destruct i as [|i].
    + transitivity (st && is_word ty = true); [destruct (st && is_word ty); cbn; split; congruence|]. rewrite andb_true_iff. split.
      * intros (-> & W). exists ty, s. split; [reflexivity|]. split; [auto|]. right. split; [auto|]. intros k; lia.
      * intros (ty' & s' & E & W & [(j & _ & _ & L & _)|(X & _)]); [lia|]. cbn in E. injection E as <- <-. auto.
    + assert (nth_error (if st && is_word ty then true :: marks false r else false :: marks (st || separates ty s) r) (S i) =
              nth_error (marks (if st && is_word ty then false else st || separates ty s) r) i) as -> by (destruct (st && is_word ty); reflexivity).
      rewrite IH. cbn [nth_error]. split.
      * intros (ty' & s' & E & W & C). exists ty', s'. split; [auto|]. split; [auto|].
        destruct C as [(j & tj & sj & L & Ej & Sj & F)|(X & F)].
        { left. exists (S j), tj, sj. split; [lia|]. split; [auto|]. split; [auto|]. intros k t1 s1 Lk Ek. destruct k; [lia|]. apply (F k t1 s1); auto; lia. }
        destruct (st && is_word ty) eqn:Q; [discriminate|]. apply orb_true_iff in X.
        destruct (separates ty s) eqn:SE.
        { left. exists 0%nat, ty, s. split; [lia|]. split; [auto|]. split; [auto|]. intros k t1 s1 Lk Ek. destruct k; [lia|]. apply (F k t1 s1); auto; lia. }
        destruct X as [->|X]; [|congruence]. right. split; [auto|]. intros k t1 s1 Lk Ek. destruct k; [|apply (F k t1 s1); auto; lia].
        cbn in Ek. injection Ek as <- <-. apply andb_false_iff in Q. destruct Q; auto; discriminate.
      * intros (ty' & s' & E & W & C). exists ty', s'. split; [auto|]. split; [auto|].
        destruct C as [(j & tj & sj & L & Ej & Sj & F)|(-> & F)].
        { destruct j as [|j].
          - cbn in Ej. injection Ej as <- <-. right. split.
            + assert (is_word ty = false) as -> by (unfold separates in Sj; destruct ty; auto; discriminate). rewrite andb_false_r, Sj, orb_true_r. auto.
            + intros k t1 s1 Lk Ek. apply (F (S k) t1 s1); auto; lia.
          - left. exists j, tj, sj. split; [lia|]. split; [auto|]. split; [auto|]. intros k t1 s1 Lk Ek. apply (F (S k) t1 s1); auto; lia. }
        right. rewrite (F 0%nat ty s); [|lia|reflexivity]. rewrite andb_false_r. split; [auto|]. intros k t1 s1 Lk Ek. apply (F (S k) t1 s1); auto; lia.
Qed.

Lemma start_flags : forall l, map possibleSentenceStart l = marks false (map shape l) ->
  forall i t, nth_error l i = Some t -> (possibleSentenceStart t = true <-> may_start l i).
Proof.
  intros l M i t E. pose proof (marks_spec (map shape l) false i) as X. rewrite <- M in X. rewrite nth_error_map, E in X. cbn [option_map] in X.
  transitivity (Some (possibleSentenceStart t) = Some true); [split; congruence|]. rewrite X. clear X M.
  assert (forall j ty s, nth_error (map shape l) j = Some (ty, s) <-> exists u, nth_error l j = Some u /\ g_type u = ty /\ g_str u = s) as NM.
  { intros j ty s. rewrite nth_error_map. destruct (nth_error l j) as [u|]; cbn; split; try discriminate.
    - intros [= <- <-]. eauto.
    - intros (v & [= ->] & <- & <-). reflexivity.
    - intros (v & X & _). discriminate. }
  assert (forall ty, is_word ty = true <-> ty = TOKEN_WORD) as IW by (intros []; cbn; split; congruence).
  unfold may_start. split.
  - intros (ty & s & A & W & [(j & tj & sj & L & B & SP & F)|(Q & _)]); [|discriminate].
    apply NM in A, B. destruct A as (t' & A & <- & <-). destruct B as (u & B & <- & <-). rewrite E in A. injection A as <-.
    exists t, j, u. split; [auto|]. split; [apply IW; auto|]. split; [auto|]. split; [auto|]. split; [apply separates_iff; auto|].
    intros k v Lk Ek Q. specialize (F k (g_type v) (g_str v) Lk). rewrite Q in F. cbn in F. discriminate F. apply NM. exists v. auto.
  - intros (t' & j & u & A & W & L & B & SP & F). rewrite E in A. injection A as <-. exists (g_type t), (g_str t).
    split; [apply NM; eauto|]. split; [apply IW; auto|]. left. exists j, (g_type u), (g_str u).
    split; [auto|]. split; [apply NM; eauto|]. split; [apply separates_iff2; auto|].
    intros k ty' s' Lk Ek. apply NM in Ek. destruct Ek as (v & Ev & <- & <-). specialize (F k v Lk Ev). destruct (g_type v); auto; congruence.
Qed.

(** ** Sentences *)
Lemma find_sentence_ok : forall fuel spell d text sl, (length text < fuel)%nat ->
  exists s rest ty, sure_sentence (sentence_next spell d) text s rest ty /\
    find_sentence fuel spell d text sl = Ok (ty, (sl + length s)%nat) /\ text = s ++ rest /\ (text <> [] -> s <> []) /\
    ((ty = SENTENCE_NONE /\ rest = []) \/ (ty = SENTENCE_PROBABLE /\ rest <> [])).
Proof.
  induction fuel as [|f IH]; intros spell d text sl L; [lia|]. cbn [find_sentence].
  destruct (sentence_shape spell d text) as (toks & ty & n & _ & E & C). rewrite E. cbn [bind].
  destruct C as [(-> & ->)|([-> | ->] & N & _)].
  - exists (firstn (length text) text), (skipn (length text) text), SENTENCE_NONE.
    split; [eapply sure_here; [eauto|discriminate]|]. rewrite firstn_all, skipn_all, app_nil_r. split; [auto|]. split; [auto|]. split; auto.
  - exists (firstn n text), (skipn n text), SENTENCE_PROBABLE.
    split; [eapply sure_here; [eauto|discriminate]|]. rewrite firstn_length, Nat.min_l by lia. split; [auto|]. rewrite firstn_skipn. split; [auto|].
    split; [|right; split; auto].
    + intros _ X. apply (f_equal (@length Z)) in X. rewrite firstn_length in X. cbn in X. lia.
    + intros X. apply (f_equal (@length Z)) in X. rewrite skipn_length in X. cbn in X. lia.
  - destruct (IH spell d (skipn n text) (sl + n)%nat) as (s & rest & ty & SS & F & A & B & C); [rewrite skipn_length; lia|].
    exists (firstn n text ++ s), rest, ty. split; [eapply sure_later; eauto|].
    rewrite F, app_length, firstn_length, Nat.min_l by lia. split; [f_equal; f_equal; lia|].
    split; [rewrite <- app_assoc, <- A, firstn_skipn; auto|]. split; [|auto].
    intros _ X. apply (f_equal (@length Z)) in X. rewrite app_length, firstn_length in X. cbn in X. lia.
Qed.

Lemma sure_sentence_unique : forall next text s rest ty s' rest' ty',
  sure_sentence next text s rest ty -> sure_sentence next text s' rest' ty' -> s = s' /\ rest = rest' /\ ty = ty'.
Proof.
  intros next text s rest ty s' rest' ty' H. revert s' rest' ty'. induction H; intros s' rest' ty' H'; inversion H'; subst.
  - rewrite H in H1. injection H1 as <- <- <-. auto.
  - congruence.
  - congruence.
  - rewrite H in H1. injection H1 as <- <-. destruct (IHsure_sentence _ _ _ H2) as (-> & -> & ->). auto.
Qed.
Lemma sure_sentences_unique : forall next text a b, sure_sentences next text a -> sure_sentences next text b -> a = b.
Proof.
  intros next text a b H. revert b. induction H as [text s rest H|text s rest ty ss H N H2 IH]; intros b B; inversion B as [? s' rest' H'|? s' rest' ty' ss' H' N' H2']; subst.
  - destruct (sure_sentence_unique _ _ _ _ _ _ _ _ H H') as (-> & _). auto.
  - destruct (sure_sentence_unique _ _ _ _ _ _ _ _ H H') as (_ & _ & X). congruence.
  - destruct (sure_sentence_unique _ _ _ _ _ _ _ _ H H') as (_ & _ & X). congruence.
  - destruct (sure_sentence_unique _ _ _ _ _ _ _ _ H H') as (-> & -> & _). f_equal. auto.
Qed.

Lemma sure_sentences_exist : forall spell d text, exists ss, sure_sentences (sentence_next spell d) text ss /\
  concat ss = text /\ (text <> [] -> Forall (fun s => s <> []) ss).
Proof.
  intros spell d text. remember (length text) as n eqn:N. revert text N. induction n as [n IH] using lt_wf_ind. intros text N.
  destruct (find_sentence_ok (S (length text)) spell d text 0 ltac:(lia)) as (s & rest & ty & SS & _ & A & B & [(-> & ->)|(-> & R)]).
  - exists [s]. split; [econstructor; eauto|]. rewrite app_nil_r in A. subst s. cbn. rewrite app_nil_r. auto.
  - assert (text <> []) as TN by (intros ->; destruct s, rest; discriminate || congruence).
    destruct (IH (length rest)) with (text := rest) as (ss & H1 & H2 & H3); auto.
    { subst n. rewrite A, app_length. specialize (B TN). destruct s; [congruence|cbn; lia]. }
    exists (s :: ss). split; [eapply sures_step; eauto; discriminate|]. cbn. rewrite H2. auto.
Qed.

(** The setting "ignore_dot" has no influence on sentence boundaries. *)
Lemma sentence_loop_dot : forall fuel spell text d d' tok sl ps pt ef iq ed pe,
  match sentence_loop fuel spell text d tok sl ps pt ef iq ed pe, sentence_loop fuel spell text d' tok sl ps pt ef iq ed pe with
  | Ok (ty, n, _), Ok (ty', n', _) => ty = ty' /\ n = n'
  | UB, UB | Fuel, Fuel => True
  | _, _ => False
  end.
Proof.
  induction fuel as [|f IH]; intros spell text d d' tok sl ps pt ef iq ed pe; cbn [sentence_loop];
  destruct (is_none tok || negb (sl <? length text)%nat); auto.
  destruct (nextToken false (skipn sl text)) as [[ty k]| |]; cbn [bind]; auto.
  destruct (ef && negb iq).
  { destruct ty; try apply IH; match goal with |- context [if ?b then _ else _] => destruct b end; auto. }
  destruct ty; try apply IH. destruct (rd text sl) as [c| |]; cbn [bind]; auto.
  destruct (wcschr (wstr "!?") c); [apply IH|].
  destruct ((c =? 0x2E) && Nat.eqb k 3 || (c =? 0x2026)); [apply IH|].
  destruct (c =? 0x2E).
  { match goal with |- context [bind ?x _] => destruct x as [b| |] end; cbn [bind]; auto. apply IH. }
  destruct (c =? 0x3A); [apply IH|].
  destruct (isFinnishQuotationMark c || (c =? 0x201C)); [|apply IH].
  match goal with |- context [bind ?x _] => destruct x as [b| |] end; cbn [bind]; auto. destruct b; apply IH.
Qed.
Lemma sentence_next_dot : forall spell text d d' ty n, sentence_next spell d text = Ok (ty, n, d) -> sentence_next spell d' text = Ok (ty, n, d').
Proof.
  intros spell text d d' ty n H. pose proof (sentence_loop_dot (length text + 1) spell text d d' TOKEN_WORD 0 0 TOKEN_NONE false false false false) as X.
  fold (sentence_next spell d text) (sentence_next spell d' text) in X. rewrite H in X.
  destruct (sentence_shape spell d' text) as (_ & ty' & n' & _ & E & _). rewrite E in *. destruct X as (-> & ->). auto.
Qed.
Lemma find_sentence_dot : forall fuel spell text d d' sl, find_sentence fuel spell d text sl = find_sentence fuel spell d' text sl.
Proof.
  induction fuel as [|f IH]; intros spell text d d' sl; cbn [find_sentence]; auto.
  destruct (sentence_shape spell d text) as (_ & ty & n & _ & E & _). rewrite (sentence_next_dot _ _ _ d' _ _ E), E. cbn [bind].
  destruct ty; auto.
Qed.
Lemma paragraph_loop_dot : forall n spell an d d' text pos, analyseParagraph_loop n spell an d text pos = analyseParagraph_loop n spell an d' text pos.
Proof.
  induction n as [|n IH]; intros spell an d d' text pos; cbn [analyseParagraph_loop]; auto. rewrite (find_sentence_dot _ _ _ d d').
  destruct (find_sentence _ spell d' text 0) as [[ty k]| |]; cbn [bind]; auto. destruct (analyseSentence an (firstn k text) pos) as [[l|]| |]; cbn [bind]; auto.
  destruct ty; auto; rewrite (IH spell an d d'); auto.
Qed.

(** ** Paragraphs *)
Definition sentence_facts (an : analyzer) (s : gsentence) : Prop :=
  located (s_pos s) (s_tokens s) /\ Forall (token_facts an) (s_tokens s) /\
  map possibleSentenceStart (s_tokens s) = marks false (map shape (s_tokens s)).

Lemma located_pos : forall l pos, located pos l -> forall i t, nth_error l i = Some t ->
  g_pos t = (pos + length (concat (map g_str (firstn i l))))%nat.
Proof.
  induction l as [|u l IH]; intros pos H i t E; [destruct i; discriminate|]. destruct H as (P & _ & R). destruct i as [|i].
  - cbn in *. injection E as <-. lia.
  - cbn [nth_error] in E. cbn [firstn map concat]. rewrite app_length. rewrite (IH _ R i t E). unfold tokenlen. lia.
Qed.

Lemma short_dec : forall s, exists toks, token_seq (nextToken false) s toks /\ (short_sentence s <-> (length toks <= 500)%nat).
Proof.
  intros s. destruct (token_seq_exists false s) as [toks H]. exists toks. split; auto. split.
  - intros (t' & H' & L). rewrite (token_seq_unique _ _ _ _ H H'). auto.
  - intros L. exists toks. auto.
Qed.

Lemma paragraph_ok : forall n spell an d text pos ss, structured an -> sure_sentences (sentence_next spell d) text ss ->
  (Forall short_sentence (firstn n ss) /\ exists p, analyseParagraph_loop n spell an d text pos = Ok (Some p) /\
     describes pos (firstn n ss) p /\ Forall (sentence_facts an) p) \/
  (~ Forall short_sentence (firstn n ss) /\ analyseParagraph_loop n spell an d text pos = Ok None).
Proof.
  induction n as [|n IH]; intros spell an d text pos ss S H.
  { left. cbn. split; [constructor|]. exists []. repeat split; constructor. }
  cbn [analyseParagraph_loop].
  destruct (find_sentence_ok (length text + 1) spell d text 0 ltac:(lia)) as (s & rest & ty & SS & F & A & B & C). rewrite F. cbn [bind Nat.add].
  assert (firstn (length s) text = s /\ skipn (length s) text = rest) as (FS & SK).
  { rewrite A, firstn_app, skipn_app, firstn_all, skipn_all, Nat.sub_diag. cbn. rewrite app_nil_r. auto. }
  rewrite FS, SK. unfold analyseSentence.
  assert (exists ss', ss = s :: ss') as (ss' & ->).
  { inversion H as [? s' rest' H'|? s' rest' ty' ss' H' N' H2']; subst; destruct (sure_sentence_unique _ _ _ _ _ _ _ _ SS H') as (-> & _); eauto. }
  destruct (short_dec s) as (toks & T & SD).
  destruct (sentence_tokens MAX_TOKENS_IN_SENTENCE an s pos 0 false toks S T ltac:(unfold MAX_TOKENS_IN_SENTENCE; lia)) as (Y & N).
  destruct (le_lt_dec (length toks) 500) as [L|L].
  2:{ right. rewrite (N L). cbn [bind firstn]. split; [|reflexivity]. intros X. apply Forall_inv in X. apply SD in X. lia. }
  destruct (Y L) as (l & E & M & LO & FA & MK). rewrite E. cbn [bind firstn].
  rewrite Nat.add_0_r in LO.
  assert (sentence_facts an (mk_gsentence pos ty l)) as SF by (split; [exact LO|split; [exact FA|cbn; rewrite M; exact MK]]).
  assert (forall ss1 p1, describes (pos + length s) ss1 p1 -> describes pos (s :: ss1) (mk_gsentence pos ty l :: p1)) as DS.
  { intros ss1 p1 D. constructor; auto; cbn [s_tokens].
    - replace (map (fun t => (g_type t, g_str t)) l) with (map shape l) by reflexivity. rewrite M. auto.
    - intros i t Ei. rewrite (located_pos _ _ LO i t Ei). reflexivity. }
  destruct C as [(-> & ->)|(-> & R)].
  - assert (ss' = []) as ->.
    { inversion H as [? s' rest' H'|? s' rest' ty' ss0 H' N' H2']; subst; auto. destruct (sure_sentence_unique _ _ _ _ _ _ _ _ SS H') as (_ & _ & X). congruence. }
    rewrite firstn_nil. left. split; [constructor; [apply SD; auto|constructor]|].
    eexists. split; [reflexivity|]. split; [apply DS; constructor|constructor; auto].
  - assert (sure_sentences (sentence_next spell d) rest ss') as H2.
    { inversion H as [? s' rest' H'|? s' rest' ty' ss0 H' N' H2']; subst; destruct (sure_sentence_unique _ _ _ _ _ _ _ _ SS H') as (_ & X & Y'); [congruence|subst; auto]. }
    destruct (IH spell an d rest (pos + length s)%nat ss' S H2) as [(SH & p & E2 & D & PF)|(SH & E2)]; rewrite E2; cbn [bind].
    + left. split; [constructor; [apply SD; auto|auto]|]. eexists. split; [reflexivity|]. split; [apply DS; auto|constructor; auto].
    + right. split; [|reflexivity]. intros X. inversion X; subst. auto.
Qed.
