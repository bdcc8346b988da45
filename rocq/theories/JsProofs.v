(** * Proofs about the JavaScript interface. *)
From Coq Require Import Permutation Sorted.
From Verif Require Import Base BaseFacts CharModel TokenModel TokenSpec TokenProofs Utf8Model Utf8Spec Utf8Proofs SpellerBase SentenceModel SentenceSpec SentenceProofs SentenceProps
  AnalyzerBase CacheModel GcCacheModel HandleModel ParaModel RulesModel GrammarModel GrammarSpec GrammarCallSpec
  RulesProofs GrammarProofs PyModel PySpec PyProofs JavaModel JavaSpec JavaProofs JsModel JsSpec.

Lemma js_nonnull_ok : forall enc, writes_utf8 enc -> forall d fuel pre rest, Forall plain pre -> Forall plain rest -> (length rest < fuel)%nat ->
  exists toks, js_nonnull_loop enc fuel d (pre ++ rest) (utf8_text (pre ++ rest)) (length pre) (length (utf8_text pre)) (length (utf8_text rest)) =
      Ok toks /\ token_seq (jnext d) rest toks.
Proof.
  intros enc W d fuel. induction fuel as [|fuel IH]; intros pre rest PP PR L; [lia|]. cbn [js_nonnull_loop].
  destruct rest as [|c r]; [exists []; split; [reflexivity|eapply seq_end; reflexivity]|].
  remember (c :: r) as rest eqn:R. pose proof (utf8_text_len rest) as LL.
  replace (0 <? length (utf8_text rest))%nat with true by (symmetry; apply Nat.ltb_lt; subst rest; cbn [length] in *; lia).
  rewrite utf8_app. pose proof (window (utf8_text pre) (utf8_text rest) []) as WI. rewrite app_nil_r in WI. rewrite WI.
  fold (jnext d rest). destruct (jnext_ok d rest PR) as (t & n & m & E & T & N & _); [subst; discriminate|]. rewrite E. cbn [bind].
  rewrite slice_at. destruct (Forall_part plain n rest PR) as (P1 & P2). rewrite (W _ P1).
  destruct (IH (pre ++ firstn n rest) (skipn n rest)) as (toks & S1 & S2); [now apply Forall_app|auto|rewrite skipn_length; lia|].
  rewrite <- app_assoc, firstn_skipn in S1. rewrite !utf8_app, !app_length in S1.
  assert (length (utf8_text rest) - length (utf8_text (firstn n rest)) = length (utf8_text (skipn n rest)))%nat as Q.
  { rewrite <- (firstn_skipn n rest) at 1. rewrite utf8_app, app_length. lia. }
  rewrite Q, S1. cbn [bind]. exists ((t, firstn n rest) :: toks). split; [reflexivity|].
  eapply seq_step; eauto.
Qed.
Lemma js_tokensNonNull_ok : forall enc, writes_utf8 enc -> forall fuel d text, Forall plain text -> (length text < fuel)%nat ->
  exists toks, js_tokensNonNull enc fuel d text = Ok toks /\ token_seq (jnext d) text toks.
Proof.
  intros enc W fuel d text P L. unfold js_tokensNonNull. rewrite W by auto.
  apply (js_nonnull_ok enc W d fuel [] text (Forall_nil _) P L).
Qed.

Lemma js_tokens_ok : forall enc, writes_utf8 enc -> forall d fuel rounds pre rest acc, Forall (fun u => plain u \/ u = 0) rest ->
  (length rest < rounds)%nat -> (length rest < fuel)%nat ->
  exists toks, js_tokens_loop enc rounds fuel d (pre ++ rest) (length pre) (length pre) acc = Ok (acc ++ toks) /\ token_list (jnext d) rest toks.
Proof.
  intros enc W d fuel rounds. induction rounds as [|rounds IH]; intros pre rest acc A L LF; [lia|]. cbn [js_tokens_loop]. unfold find_from.
  assert (skipn (length pre) (pre ++ rest) = rest) as SK by (rewrite skipn_app, skipn_all, Nat.sub_diag; reflexivity). rewrite SK.
  pose proof (find_at_spec 0 rest (length pre)) as F. destruct (find_at 0 rest (length pre)) as [k|].
  - destruct F as (a & b & -> & N & ->). apply Forall_app in A. destruct A as (Aa & Ab). inversion Ab as [|? ? _ Ab']; subst.
    assert (Forall plain a) as PA.
    { apply Forall_forall. intros x I. rewrite Forall_forall in Aa. destruct (Aa x I) as [|Q]; [auto|]. subst x. contradiction. }
    rewrite !app_length in *. cbn [length] in *. rewrite slice_at.
    assert (firstn (length a) (a ++ 0 :: b) = a) as -> by (rewrite firstn_app, firstn_all, Nat.sub_diag; cbn [firstn]; apply app_nil_r).
    destruct (js_tokensNonNull_ok enc W fuel d a PA) as (l & E & S); [lia|]. rewrite E. cbn [bind].
    destruct (IH (pre ++ a ++ [0]) b ((acc ++ l) ++ [(TOKEN_UNKNOWN, [0])]) Ab') as (toks & E2 & T2); try lia.
    rewrite !app_length in E2. cbn [length] in E2.
    replace ((pre ++ a ++ [0]) ++ b) with (pre ++ a ++ 0 :: b) in E2 by (rewrite <- !app_assoc; reflexivity).
    exists (l ++ (TOKEN_UNKNOWN, [0]) :: toks). rewrite <- Nat.add_assoc. split; [rewrite E2, <- !app_assoc; reflexivity|]. now apply tl_nul.
  - assert (Forall plain rest) as PA.
    { apply Forall_forall. intros x I. rewrite Forall_forall in A. destruct (A x I) as [|Q]; [auto|]. subst x. contradiction. }
    destruct (js_tokensNonNull_ok enc W fuel d rest PA) as (l & E & S); [lia|]. rewrite E. cbn [bind]. exists l. split; [reflexivity|]. now apply tl_last.
Qed.

Lemma js_list_concat : forall d text toks, Forall (fun u => plain u \/ u = 0) text -> token_list (jnext d) text toks ->
  concat (map snd toks) = text /\ Forall (fun tk => snd tk <> [] /\ fst tk <> TOKEN_NONE) toks.
Proof.
  assert (forall piece, Forall (fun u => plain u \/ u = 0) piece -> ~ In 0 piece -> Forall plain piece) as PL.
  { intros piece A N. apply Forall_forall. intros x I. rewrite Forall_forall in A. destruct (A x I) as [|Q]; [auto|]. subst x. contradiction. }
  intros d text toks A H. induction H as [text toks N S|piece toks text rest N S H IH].
  - eapply seq_concat; eauto.
  - apply Forall_app in A. destruct A as (A1 & A2). inversion A2; subst. destruct (seq_concat d piece toks (PL _ A1 N) S) as (C & F).
    destruct IH as (C2 & F2); [auto|]. rewrite map_app, concat_app, C. cbn [map snd concat app]. rewrite C2.
    split; [reflexivity|]. apply Forall_app. split; [auto|]. constructor; [|auto]. cbn. split; discriminate.
Qed.

(** On plain texts the sentences are those of the Java interface. *)
Lemma js_sentences_same : forall enc, writes_utf8 enc -> forall spell fuel d text len, Forall plain text ->
  js_sentences_loop enc fuel spell d text (utf8_text text) (length (utf8_text text)) len = jsentences_loop fuel spell d text len.
Proof.
  intros enc W spell fuel. induction fuel as [|fuel IH]; intros d text len P; [reflexivity|]. cbn [js_sentences_loop jsentences_loop].
  rewrite getBytes_plain by auto. destruct (0 <? length (utf8_text text))%nat; [|reflexivity]. rewrite firstn_all.
  rewrite (C07_utf8_agrees spell d (utf8_text text) text (conj (plain_encodable _ P) eq_refl) (plain_no_nul _ P)).
  destruct (sentence_shape spell d text) as (toks & ty & n & _ & E & X). rewrite E. cbn [bind].
  assert (n <= length text)%nat as LE by (destruct X as [(_ & ->)|(_ & K & _)]; lia).
  unfold substring. cbn [Nat.leb]. replace (n <=? length text)%nat with true by lia. cbn [andb bind].
  unfold slice. cbn [skipn]. rewrite Nat.sub_0_r. destruct (Forall_part plain n text P) as (P1 & P2). rewrite (W _ P1).
  assert (utf8_text text = utf8_text (firstn n text) ++ utf8_text (skipn n text)) as Q by (rewrite <- utf8_app, firstn_skipn; reflexivity).
  rewrite Q, app_length, skipn_app, skipn_all, Nat.sub_diag. cbn [app skipn].
  replace (length (utf8_text (firstn n text)) + length (utf8_text (skipn n text)) - length (utf8_text (firstn n text)))%nat with (length (utf8_text (skipn n text))) by lia.
  now rewrite IH.
Qed.

Lemma js_grammar_same : forall enc, writes_utf8 enc -> forall fuel b h p o n acc, Forall plain p -> js_grammar_loop enc fuel b h p o n acc = jgrammar_loop fuel b h p o n acc.
Proof.
  intros enc W fuel. induction fuel as [|fuel IH]; intros b h p o n acc P; [reflexivity|]. cbn [jgrammar_loop js_grammar_loop].
  rewrite W, getBytes_plain by auto.
  destruct (voikkoNextGrammarErrorCstr b h (utf8_text p) 0 n) as [[[e|] h']| |]; cbn [bind]; auto.
Qed.
Lemma js_paragraphs_same : forall enc, writes_utf8 enc -> forall fuel b lines h o acc, Forall (Forall plain) lines ->
  js_paragraphs_loop enc fuel b h lines o acc = jparagraphs_loop fuel b h lines o acc.
Proof.
  intros enc W fuel b lines. induction lines as [|p lines IH]; intros h o acc P; [reflexivity|]. inversion P; subst. cbn [jparagraphs_loop js_paragraphs_loop].
  rewrite js_grammar_same by auto. destruct (jgrammar_loop fuel b h p o 0 acc) as [[l h2]| |]; cbn [bind]; auto.
Qed.
