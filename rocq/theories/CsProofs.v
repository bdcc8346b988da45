(** * Proofs about the C# interface. *)
From Coq Require Import Permutation Sorted.
From Verif Require Import Base BaseFacts CharModel TokenModel TokenSpec TokenProofs Utf8Model Utf8Spec Utf8Proofs SpellerBase SentenceModel SentenceSpec SentenceProofs SentenceProps
  AnalyzerBase CacheModel GcCacheModel HandleModel ParaModel RulesModel GrammarModel GrammarSpec GrammarCallSpec
  RulesProofs GrammarProofs PyModel PySpec PyProofs JavaModel JavaSpec JavaProofs CsModel CsSpec.

Lemma cs_chars_plain : forall s, Forall plain s -> cs_chars s = s.
Proof. intros s H. induction H as [|u s P H IH]; [reflexivity|]. cbn [cs_chars]. rewrite (plain_surrogate u P), IH. reflexivity. Qed.
Lemma s2n_plain : forall s, Forall plain s -> s2n s = utf8_text s.
Proof. intros s H. unfold s2n. now rewrite cs_chars_plain. Qed.

Lemma cs_chars_ok : forall n s, (length s <= n)%nat -> Forall some_unit s ->
  Forall encodable (cs_chars s) /\ ~ In 0 (cs_chars s) /\ (length (cs_chars s) <= length s)%nat /\ (s <> [] -> cs_chars s <> []).
Proof.
  intros n. induction n as [|n IH]; intros s L F; (destruct s as [|u r]; [cbn; repeat split; auto|]); [cbn in L; lia|].
  inversion F as [|? ? U FR]; subst. unfold some_unit in U. cbn [length] in L. destruct (IH r ltac:(lia) FR) as (E1 & Z1 & L1 & _). cbn [cs_chars].
  destruct (surrogate u) eqn:S; unfold surrogate in S.
  - destruct r as [|v r'].
    + cbn. repeat split; auto; try discriminate; [constructor; [unfold encodable; lia|auto]|intros [Q|[]]; lia].
    + inversion FR as [|? ? V FR']; subst. unfold some_unit in V. cbn [length] in *. destruct ((u <? 56320) && (56320 <=? v) && (v <=? 57343)) eqn:B.
      * destruct (IH r' ltac:(lia) FR') as (E2 & Z2 & L2 & _). cbn [length]. repeat split; try discriminate; try lia.
        -- constructor; [unfold encodable; lia|auto].
        -- intros [Q|Q]; [lia|auto].
      * cbn [length]. repeat split; try discriminate; try lia.
        -- constructor; [unfold encodable; lia|auto].
        -- intros [Q|Q]; [lia|auto].
  - cbn [length]. repeat split; try discriminate; try lia.
    + constructor; [unfold encodable; lia|auto].
    + intros [Q|Q]; [lia|auto].
Qed.

(** ** Tokens *)

Lemma jnext_any : forall d w, Forall encodable w -> ~ In 0 w -> w <> [] -> exists t n, jnext d w = Ok (t, n) /\ t <> TOKEN_NONE /\ (0 < n <= length w)%nat.
Proof.
  intros d w P Z NE. unfold jnext, nextTokenCstr.
  destruct (cstr_loop_prefix (length (utf8_text w) + 1) d w 0 50 P Z) as (m & M & E); try lia.
  { replace (length (utf8_text w) + 1 - 1)%nat with (length (utf8_text w)) by lia.
    pose proof (pow2_gt (length (utf8_text w))). pose proof (utf8_text_len w). lia. }
  destruct (nextToken_spec d (firstn m w)) as (t & n & EQ & OK & LE & X). exists t, n. rewrite E. split; [auto|].
  assert (firstn m w <> []) as N2 by (destruct w; [congruence|]; destruct m; [lia|discriminate]).
  destruct (X N2) as (T & N). rewrite firstn_length in LE. repeat split; auto; lia.
Qed.

(** Between NULs: the tokens concatenate to the text, and they are those of the
    library if there are no surrogates. *)
Lemma cs_nonnull_ok : forall d n text, (length text <= n)%nat -> Forall some_unit text ->
  exists toks, (forall fuel, (n < fuel)%nat -> cs_nonnull fuel d text = Ok toks) /\
    concat (map snd toks) = text /\ Forall (fun tk => snd tk <> [] /\ fst tk <> TOKEN_NONE) toks /\
    (Forall plain text -> token_seq (jnext d) text toks).
Proof.
  intros d n. induction n as [|n IH]; intros text L F.
  - destruct text; [|cbn in L; lia]. exists []. repeat split; auto; [intros [|fuel] Q; [lia|reflexivity]|intros _; eapply seq_end; reflexivity].
  - destruct text as [|c r]; [exists []; repeat split; auto; [intros [|fuel] Q; [lia|reflexivity]|intros _; eapply seq_end; reflexivity]|].
    remember (c :: r) as text eqn:T. destruct (cs_chars_ok (length text) text ltac:(lia) F) as (E & Z & LC & NE).
    assert (cs_chars text <> []) as NC by (apply NE; subst; discriminate).
    destruct (jnext_any d (cs_chars text) E Z NC) as (ty & k & SE & TN & K).
    destruct (IH (skipn k text)) as (ss & S1 & S2 & S3 & S4); [rewrite skipn_length; lia| |].
    { rewrite <- (firstn_skipn k text) in F. now apply Forall_app in F. }
    exists ((ty, firstn k text) :: ss). split; [|split; [|split]].
    + intros [|fuel] Q; [lia|]. cbn [cs_nonnull]. unfold s2n at 1 2. pose proof (utf8_text_len (cs_chars text)) as LL.
      replace (0 <? length (utf8_text (cs_chars text)))%nat with true by lia.
      fold (jnext d (cs_chars text)). rewrite SE. cbn [bind].
      unfold substring. cbn [Nat.leb]. replace (k <=? length text)%nat with true by lia. cbn [andb bind].
      unfold slice. cbn [skipn]. rewrite Nat.sub_0_r. rewrite S1 by lia. reflexivity.
    + cbn [map snd concat]. rewrite S2. apply firstn_skipn.
    + constructor; [|auto]. cbn [fst snd]. split; [|auto]. subst text. destruct k; [lia|discriminate].
    + intros P. rewrite (cs_chars_plain text P) in SE. eapply seq_step; eauto. apply S4. now apply Forall_part.
Qed.

Lemma cs_tokens_ok : forall d fuel rounds pre rest acc, Forall (fun u => some_unit u \/ u = 0) rest ->
  (length rest < rounds)%nat -> (length rest < fuel)%nat ->
  exists toks, cs_tokens_loop rounds fuel d (pre ++ rest) (length pre) (length pre) acc = Ok (acc ++ toks) /\
    (forall fuel', (length rest < fuel')%nat -> forall acc', cs_tokens_loop rounds fuel' d (pre ++ rest) (length pre) (length pre) acc' = Ok (acc' ++ toks)) /\
    concat (map snd toks) = rest /\ Forall (fun tk => snd tk <> [] /\ fst tk <> TOKEN_NONE) toks /\
    (forall tk, In tk toks -> In 0 (snd tk) -> tk = (TOKEN_UNKNOWN, [0])) /\
    (Forall (fun u => plain u \/ u = 0) rest -> token_list (jnext d) rest toks).
Proof.
  assert (forall text toks, ~ In 0 text -> concat (map snd toks) = text -> forall tk : token_type * list Z, In tk toks -> ~ In 0 (snd tk)) as NZ.
  { intros text toks N C tk I Q. apply N. rewrite <- C. apply in_concat. exists (snd tk). split; auto. now apply in_map. }
  intros d fuel rounds. induction rounds as [|rounds IH]; intros pre rest acc A L LF; [lia|]. cbn [cs_tokens_loop]. unfold find_from.
  assert (skipn (length pre) (pre ++ rest) = rest) as SK by (rewrite skipn_app, skipn_all, Nat.sub_diag; reflexivity). rewrite SK.
  pose proof (find_at_spec 0 rest (length pre)) as F. destruct (find_at 0 rest (length pre)) as [k|].
  - destruct F as (a & b & -> & N & ->). pose proof A as A0. apply Forall_app in A0. destruct A0 as (Aa & Ab). inversion Ab as [|? ? _ Ab']; subst.
    assert (Forall some_unit a) as PA.
    { apply Forall_forall. intros x I. rewrite Forall_forall in Aa. destruct (Aa x I) as [|Q]; [auto|]. subst x. contradiction. }
    unfold substring. replace (length pre <=? length pre + length a)%nat with true by lia.
    rewrite !app_length in *. cbn [length] in *. replace (length pre + length a <=? length pre + (length a + S (length b)))%nat with true by lia. cbn [andb bind].
    rewrite slice_at.
    assert (firstn (length a) (a ++ 0 :: b) = a) as -> by (rewrite firstn_app, firstn_all, Nat.sub_diag; cbn [firstn]; apply app_nil_r).
    destruct (cs_nonnull_ok d (length a) a (le_n _) PA) as (l & E & C & FT & TS).
    destruct (IH (pre ++ a ++ [0]) b ((acc ++ l) ++ [(TOKEN_UNKNOWN, [0])]) Ab') as (toks & E1 & E2 & C2 & F2 & Z2 & T2); try lia.
    rewrite !app_length in E1, E2. cbn [length] in E1, E2.
    replace ((pre ++ a ++ [0]) ++ b) with (pre ++ a ++ 0 :: b) in E1, E2 by (rewrite <- !app_assoc; reflexivity).
    exists (l ++ (TOKEN_UNKNOWN, [0]) :: toks). rewrite <- Nat.add_assoc.
    split; [rewrite E by lia; cbn [bind]; rewrite E1, <- !app_assoc; reflexivity|].
    split; [intros fuel' LF' acc'; rewrite E by lia; cbn [bind]; rewrite E2 by lia; rewrite <- !app_assoc; reflexivity|].
    split; [rewrite map_app, concat_app, C; cbn [map snd concat app]; now rewrite C2|].
    split; [apply Forall_app; split; [auto|constructor; [cbn; split; discriminate|auto]]|].
    split; [intros tk I Q; apply in_app_or in I; destruct I as [I|[I|I]]; auto; exfalso; revert Q; eapply NZ; eauto|].
    intros P. apply Forall_app in P. destruct P as (P1 & P2). inversion P2; subst. apply tl_nul; auto. apply TS.
    apply Forall_forall. intros x I. rewrite Forall_forall in P1. destruct (P1 x I) as [|Q]; [auto|]. subst x. contradiction.
  - assert (Forall some_unit rest) as PA.
    { apply Forall_forall. intros x I. rewrite Forall_forall in A. destruct (A x I) as [|Q]; [auto|]. subst x. contradiction. }
    unfold substring. rewrite app_length. replace (length pre <=? length pre + length rest)%nat with true by lia.
    rewrite Nat.leb_refl. cbn [andb bind]. rewrite slice_at, firstn_all.
    destruct (cs_nonnull_ok d (length rest) rest (le_n _) PA) as (l & E & C & FT & TS). exists l.
    split; [rewrite E by lia; reflexivity|]. split; [intros fuel' LF' acc'; rewrite E by lia; reflexivity|].
    split; [auto|]. split; [auto|]. split; [intros tk I Q; exfalso; revert Q; eapply NZ; eauto|].
    intros P. apply tl_last; auto. apply TS.
    apply Forall_forall. intros x I. rewrite Forall_forall in P. destruct (P x I) as [|Q]; [auto|]. subst x. contradiction.
Qed.

(** ** Sentences *)

Lemma cs_sentences_concat : forall spell d n text len, (length text <= n)%nat -> Forall some_unit text ->
  exists ss, (forall fuel, (n < fuel)%nat -> cs_sentences_loop fuel spell d text len = Ok ss) /\ concat (map fst ss) = text /\ Forall (fun s => fst s <> []) ss.
Proof.
  intros spell d n. induction n as [|n IH]; intros text len L F.
  - destruct text; [|cbn in L; lia]. exists []. repeat split; auto. intros [|fuel] Q; [lia|reflexivity].
  - destruct text as [|c r]; [exists []; repeat split; auto; intros [|fuel] Q; [lia|reflexivity]|].
    remember (c :: r) as text eqn:T. destruct (cs_chars_ok (length text) text ltac:(lia) F) as (E & Z & LC & NE).
    assert (cs_chars text <> []) as NC by (apply NE; subst; discriminate).
    destruct (sentence_shape spell d (cs_chars text)) as (toks & ty & k & _ & SE & X).
    assert (0 < k <= length (cs_chars text))%nat as K by (destruct X as [(_ & ->)|(_ & K & _)]; [destruct (cs_chars text); [congruence|cbn; lia]|lia]).
    destruct (IH (skipn k text) k) as (ss & S1 & S2 & S3); [rewrite skipn_length; lia| |].
    { rewrite <- (firstn_skipn k text) in F. now apply Forall_app in F. }
    exists ((firstn k text, ty) :: ss). split; [|split].
    + intros [|fuel] Q; [lia|]. cbn [cs_sentences_loop]. unfold s2n at 1 2. pose proof (utf8_text_len (cs_chars text)) as LL.
      replace (0 <? length (utf8_text (cs_chars text)))%nat with true by lia.
      rewrite (C07_utf8_agrees spell d (utf8_text (cs_chars text)) (cs_chars text) (conj E eq_refl) Z), SE. cbn [bind].
      unfold substring. cbn [Nat.leb]. replace (k <=? length text)%nat with true by lia. cbn [andb bind].
      unfold slice. cbn [skipn]. rewrite Nat.sub_0_r. rewrite S1 by lia. reflexivity.
    + cbn [map fst concat]. rewrite S2. apply firstn_skipn.
    + constructor; [|auto]. cbn [fst]. subst text. destruct k; [lia|discriminate].
Qed.

(** On plain texts the two interfaces do the same. *)
Lemma cs_sentences_same : forall spell fuel d text len, Forall plain text -> cs_sentences_loop fuel spell d text len = jsentences_loop fuel spell d text len.
Proof.
  intros spell fuel. induction fuel as [|fuel IH]; intros d text len P; [reflexivity|]. cbn [cs_sentences_loop jsentences_loop].
  rewrite s2n_plain, getBytes_plain by auto. destruct (0 <? length (utf8_text text))%nat; [|reflexivity].
  destruct (sentence_next_cstr spell d (utf8_text text)) as [[[ty w] d']| |]; cbn [bind]; auto.
  destruct (substring text 0 (match w with Some n => n | None => len end)); cbn [bind]; auto.
  rewrite IH; [reflexivity|]. now apply Forall_part.
Qed.

(** ** Grammar errors *)

Lemma cs_grammar_same : forall fuel b h p o n acc, Forall plain p -> cs_grammar_loop fuel b h p o n acc = jgrammar_loop fuel b h p o n acc.
Proof.
  intros fuel. induction fuel as [|fuel IH]; intros b h p o n acc P; [reflexivity|]. cbn [jgrammar_loop cs_grammar_loop].
  rewrite s2n_plain, getBytes_plain by auto.
  destruct (voikkoNextGrammarErrorCstr b h (utf8_text p) 0 n) as [[[e|] h']| |]; cbn [bind]; auto.
Qed.
Lemma cs_paragraphs_same : forall fuel b lines h o acc, Forall (Forall plain) lines ->
  cs_paragraphs_loop fuel b h lines o acc = jparagraphs_loop fuel b h lines o acc.
Proof.
  intros fuel b lines. induction lines as [|p lines IH]; intros h o acc P; [reflexivity|]. inversion P; subst. cbn [jparagraphs_loop cs_paragraphs_loop].
  rewrite cs_grammar_same by auto. destruct (jgrammar_loop fuel b h p o 0 acc) as [[l h2]| |]; cbn [bind]; auto.
Qed.

(** The text is split where the text with plain newlines is. *)
Lemma regex_unix : forall text text', unix_text text text' -> forall cur, regex_split text cur = split_at 10 text' cur.
Proof.
  intros text text' H. induction H as [|text text' H IH|c text text' N H IH]; intros cur.
  - reflexivity.
  - cbn. now rewrite IH.
  - cbn [regex_split split_at]. destruct (c =? 10) eqn:C; [now rewrite IH|]. destruct text as [|y r]; [apply IH|].
    destruct ((c =? 13) && (y =? 10)) eqn:B; [|apply IH]. apply andb_true_iff in B. destruct B as (B1 & B2).
    apply Z.eqb_eq in B1, B2. subst. exfalso. eapply N; reflexivity.
Qed.
Lemma unix_exists : forall n text, (length text <= n)%nat -> exists text', unix_text text text'.
Proof.
  intros n. induction n as [|n IH]; intros text L; (destruct text as [|c r]; [exists []; constructor|]); cbn [length] in L; [lia|].
  destruct (Z.eq_dec c 13) as [->|N].
  - destruct r as [|y r]; [exists [13]; repeat constructor; intros; discriminate|]. destruct (Z.eq_dec y 10) as [->|N].
    + cbn [length] in L. destruct (IH r ltac:(lia)) as (t & T). exists (10 :: t). now constructor.
    + destruct (IH (y :: r) ltac:(lia)) as (t & T). exists (13 :: t). constructor; [congruence|auto].
  - destruct (IH r ltac:(lia)) as (t & T). exists (c :: t). constructor; [congruence|auto].
Qed.
Lemma unix_plain : forall text text', unix_text text text' -> Forall plain text -> Forall plain text'.
Proof.
  intros text text' H. induction H as [|text text' H IH|c text text' N H IH]; intros P; inversion P as [|? ? P1 P2]; subst; auto.
  inversion P2; subst. constructor; auto.
Qed.
Lemma unix_unique : forall text t1 t2, unix_text text t1 -> unix_text text t2 -> t1 = t2.
Proof.
  intros text t1 t2 H. revert t2. induction H as [|text text' H IH|c text text' N H IH]; intros t2 U.
  - now inversion U.
  - inversion U as [|? ? U2|? ? ? N U2]; subst; [now rewrite (IH _ U2)|]. exfalso. eapply N; reflexivity.
  - inversion U as [|? ? U2|? ? ? N2 U2]; subst; [exfalso; eapply N; reflexivity|now rewrite (IH _ U2)].
Qed.
Lemma unix_same : forall text text', unix_text text text' -> no_crlf text -> text' = text.
Proof.
  intros text text' H. induction H as [|text text' H IH|c text text' N H IH]; intros C; [auto|exfalso; apply (C [] text); reflexivity|].
  f_equal. apply IH. intros a b E. apply (C (c :: a) b). cbn. now f_equal.
Qed.
