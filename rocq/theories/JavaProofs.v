(** * Proofs about the Java interface. *)
From Coq Require Import Permutation Sorted.
From Verif Require Import Base BaseFacts CharModel TokenModel TokenSpec TokenProofs Utf8Model Utf8Spec Utf8Proofs SpellerBase SentenceModel SentenceSpec SentenceProofs SentenceProps
  AnalyzerBase CacheModel GcCacheModel HandleModel ParaModel RulesModel GrammarModel GrammarSpec GrammarCallSpec
  RulesProofs GrammarProofs PyModel PySpec PyProofs JavaModel JavaSpec.

Lemma plain_encodable : forall s, Forall plain s -> Forall encodable s.
Proof. intros s H. eapply Forall_impl; [|exact H]. intros u (P & Q). unfold encodable. lia. Qed.
Lemma plain_no_nul : forall s, Forall plain s -> ~ In 0 s.
Proof. intros s H I. rewrite Forall_forall in H. destruct (H 0 I). lia. Qed.
Lemma plain_surrogate : forall u, plain u -> surrogate u = false.
Proof. intros u (P & Q). unfold surrogate. lia. Qed.
Lemma chars_plain : forall s, Forall plain s -> chars s = s.
Proof. intros s H. induction H as [|u s P H IH]; [reflexivity|]. cbn [chars]. rewrite (plain_surrogate u P), IH. reflexivity. Qed.
Lemma getBytes_plain : forall s, Forall plain s -> getBytes s = utf8_text s.
Proof. intros s H. unfold getBytes. now rewrite chars_plain. Qed.
Lemma utf8_app : forall a b, utf8_text (a ++ b) = utf8_text a ++ utf8_text b.
Proof. intros a b. unfold utf8_text. now rewrite map_app, concat_app. Qed.
Lemma Forall_part : forall (P : Z -> Prop) n l, Forall P l -> Forall P (firstn n l) /\ Forall P (skipn n l).
Proof. intros P n l H. rewrite <- (firstn_skipn n l) in H. now apply Forall_app in H. Qed.

(** ** Tokens *)

Lemma cstr_loop_prefix : forall fuel d w len m, Forall encodable w -> ~ In 0 w -> (50 <= m)%nat ->
  (length w + 5 < m * 2 ^ (fuel - 1))%nat -> (0 < fuel)%nat ->
  exists m', (50 <= m')%nat /\ cstr_loop fuel d (utf8_text w) len m = nextToken d (firstn m' w).
Proof.
  induction fuel as [|fuel IH]; intros d w len m E Z M F FP; [lia|]. cbn [cstr_loop]. unfold doNextTokenCstr.
  rewrite ucs4FromUtf8_max_encoded by auto. cbn [bind].
  rewrite cstr_id by (intros Q; apply firstn_In in Q; auto).
  destruct (nextToken_spec d (firstn m w)) as (t & n & EQ & OK & LE & NE). rewrite EQ. cbn [bind].
  destruct (is_none t || (n + 5 <? m)%nat) eqn:B; [exists m; auto|].
  apply orb_false_iff in B. destruct B as (_ & B). apply Nat.ltb_ge in B. rewrite firstn_length in LE.
  replace (S fuel - 1)%nat with fuel in F by lia.
  destruct fuel as [|fuel']; [cbn [Nat.pow] in F; lia|].
  apply IH; auto; try lia. replace (S fuel' - 1)%nat with fuel' by lia. cbn [Nat.pow] in F. lia.
Qed.

Definition jnext (d : bool) (w : list Z) : res (token_type * nat) := nextTokenCstr d (utf8_text w).

Lemma jnext_ok : forall d w, Forall plain w -> w <> [] -> exists t n m, jnext d w = Ok (t, n) /\ t <> TOKEN_NONE /\ (0 < n <= length w)%nat /\
  token_ok (firstn m w) t n.
Proof.
  intros d w P NE. unfold jnext, nextTokenCstr.
  destruct (cstr_loop_prefix (length (utf8_text w) + 1) d w 0 50 (plain_encodable w P) (plain_no_nul w P)) as (m & M & E); try lia.
  { replace (length (utf8_text w) + 1 - 1)%nat with (length (utf8_text w)) by lia.
    pose proof (pow2_gt (length (utf8_text w))). pose proof (utf8_text_len w). lia. }
  destruct (nextToken_spec d (firstn m w)) as (t & n & EQ & OK & LE & X). exists t, n, m. rewrite E. split; [auto|].
  assert (firstn m w <> []) as N2 by (destruct w; [congruence|]; destruct m; [lia|discriminate]).
  destruct (X N2) as (T & N). rewrite firstn_length in LE. repeat split; auto; lia.
Qed.

Lemma nonnull_ok : forall d last fuel pre rest, Forall plain pre -> Forall plain rest -> (length rest < fuel)%nat ->
  exists toks, nonnull_loop fuel d (pre ++ rest) (utf8_text (pre ++ rest)) last (length pre) (length (utf8_text pre)) (length (utf8_text rest)) =
      Ok (positions (last + length pre) toks) /\ token_seq (jnext d) rest toks.
Proof.
  intros d last fuel. induction fuel as [|fuel IH]; intros pre rest PP PR L; [lia|]. cbn [nonnull_loop].
  destruct rest as [|c r]; [exists []; split; [reflexivity|eapply seq_end; reflexivity]|].
  remember (c :: r) as rest eqn:R. pose proof (utf8_text_len rest) as LL.
  replace (0 <? length (utf8_text rest))%nat with true by (symmetry; apply Nat.ltb_lt; subst rest; cbn [length] in *; lia).
  rewrite utf8_app. pose proof (window (utf8_text pre) (utf8_text rest) []) as W. rewrite app_nil_r in W. rewrite W.
  fold (jnext d rest). destruct (jnext_ok d rest PR) as (t & n & m & E & T & N & _); [subst; discriminate|]. rewrite E. cbn [bind].
  unfold substring. replace (length pre <=? length pre + n)%nat with true by lia.
  replace (length pre + n <=? length (pre ++ rest))%nat with true by (rewrite app_length; lia). cbn [andb bind].
  rewrite slice_at. destruct (Forall_part plain n rest PR) as (P1 & P2). rewrite (getBytes_plain _ P1).
  destruct (IH (pre ++ firstn n rest) (skipn n rest)) as (toks & S1 & S2); [now apply Forall_app|auto|rewrite skipn_length; lia|].
  rewrite <- app_assoc, firstn_skipn in S1. rewrite !utf8_app, !app_length in S1.
  assert (length (utf8_text rest) - length (utf8_text (firstn n rest)) = length (utf8_text (skipn n rest)))%nat as Q.
  { rewrite <- (firstn_skipn n rest) at 1. rewrite utf8_app, app_length. lia. }
  rewrite Q, S1. cbn [bind]. exists ((t, firstn n rest) :: toks). cbn [positions fst snd]. rewrite <- Nat.add_assoc. split; [reflexivity|].
  eapply seq_step; eauto.
Qed.

Lemma tokensNonNull_ok : forall fuel d text last, Forall plain text -> (length text < fuel)%nat ->
  exists toks, tokensNonNull fuel d text last = Ok (positions last toks) /\ token_seq (jnext d) text toks.
Proof.
  intros fuel d text last P L. unfold tokensNonNull. rewrite getBytes_plain by auto.
  destruct (nonnull_ok d last fuel [] text (Forall_nil _) P L) as (toks & E & S). exists toks. split; [|auto].
  cbn [app length] in E. rewrite Nat.add_0_r in E. exact E.
Qed.

Lemma special_spec : forall s i,
  match special_at s i with
  | None => Forall (fun u => ~ single u) s
  | Some k => exists a u b, s = a ++ u :: b /\ Forall (fun u => ~ single u) a /\ single u /\ k = (i + length a)%nat
  end.
Proof.
  intros s. induction s as [|x s IH]; intros i; cbn [special_at]; [auto|].
  destruct ((x =? 0) || surrogate x) eqn:E.
  - exists [], x, s. cbn. repeat split; auto. unfold single. unfold surrogate in E. lia.
  - assert (~ single x) by (unfold single; unfold surrogate in E; lia).
    specialize (IH (S i)). destruct (special_at s (S i)).
    + destruct IH as (a & u & b & -> & N & U & ->). exists (x :: a), u, b. cbn. repeat split; auto; lia.
    + auto.
Qed.

Lemma seq_concat : forall d text toks, Forall plain text -> token_seq (jnext d) text toks ->
  concat (map snd toks) = text /\ Forall (fun tk => snd tk <> [] /\ fst tk <> TOKEN_NONE) toks.
Proof.
  intros d text toks P H. induction H as [text n E|text t n rest E T H IH].
  - destruct text as [|c r]; [auto|]. destruct (jnext_ok d (c :: r) P) as (t & k & m & E2 & T & _); [discriminate|]. congruence.
  - destruct (Forall_part plain n text P) as (P1 & P2). destruct (IH P2) as (C & F). cbn [map snd concat]. rewrite C, firstn_skipn. split; [auto|].
    constructor; [|auto]. cbn [fst snd]. split; [|auto]. destruct text as [|c r].
    + cbn in E. congruence.
    + destruct (jnext_ok d (c :: r) P) as (t' & k & m & E2 & _ & K & _); [discriminate|]. rewrite E in E2. injection E2 as <- <-.
      destruct n; [lia|discriminate].
Qed.

Lemma positions_app : forall a b pos, positions pos (a ++ b) = positions pos a ++ positions (pos + length (concat (map snd a))) b.
Proof.
  intros a. induction a as [|tk a IH]; intros b pos; cbn [app positions map concat]; [now rewrite Nat.add_0_r|].
  cbn [length]. rewrite IH, app_length, Nat.add_assoc. reflexivity.
Qed.

Lemma rd_at : forall (a b : list Z) u, rd (a ++ u :: b) (length a) = Ok u.
Proof. intros. unfold rd. rewrite nth_error_app2 by lia. rewrite Nat.sub_diag. reflexivity. Qed.

Lemma jtokens_ok : forall d fuel rounds pre rest acc, Forall (fun u => plain u \/ single u) rest ->
  (length rest < rounds)%nat -> (length rest < fuel)%nat ->
  exists toks, jtokens_loop rounds fuel d (pre ++ rest) (length pre) (length pre) acc = Ok (acc ++ positions (length pre) toks) /\
    unit_tokens (jnext d) rest toks.
Proof.
  intros d fuel rounds. induction rounds as [|rounds IH]; intros pre rest acc A L LF; [lia|]. cbn [jtokens_loop]. unfold indexOfSpecialUnknown.
  assert (skipn (length pre) (pre ++ rest) = rest) as SK by (rewrite skipn_app, skipn_all, Nat.sub_diag; reflexivity). rewrite SK.
  pose proof (special_spec rest (length pre)) as F. destruct (special_at rest (length pre)) as [k|].
  - destruct F as (a & u & b & -> & N & U & ->).
    assert (Forall plain a) as PA.
    { apply Forall_app in A. destruct A as (A & _). apply Forall_forall. intros x I. rewrite Forall_forall in A, N. destruct (A x I); [auto|]. elim (N x I); auto. }
    unfold substring. replace (length pre <=? length pre + length a)%nat with true by lia.
    rewrite !app_length in *. cbn [length] in *. replace (length pre + length a <=? length pre + (length a + S (length b)))%nat with true by lia. cbn [andb bind].
    rewrite slice_at.
    assert (firstn (length a) (a ++ u :: b) = a) as -> by (rewrite firstn_app, firstn_all, Nat.sub_diag; cbn [firstn]; apply app_nil_r).
    destruct (tokensNonNull_ok fuel d a (length pre) PA) as (l & E & S); [lia|]. rewrite E. cbn [bind].
    destruct (seq_concat d a l PA S) as (C & _).
    assert (rd (pre ++ a ++ u :: b) (length pre + length a) = Ok u) as ->.
    { rewrite app_assoc, <- app_length. apply rd_at. } cbn [bind].
    destruct (IH (pre ++ a ++ [u]) b ((acc ++ positions (length pre) l) ++ [(TOKEN_UNKNOWN, [u], (length pre + length a)%nat)])) as (toks & E2 & T); try lia.
    { apply Forall_app in A. destruct A as (_ & A). now inversion A. }
    rewrite !app_length in E2. cbn [length] in E2. rewrite <- Nat.add_assoc.
    replace ((pre ++ a ++ [u]) ++ b) with (pre ++ a ++ u :: b) in E2 by (rewrite <- !app_assoc; reflexivity).
    rewrite E2. exists (l ++ (TOKEN_UNKNOWN, [u]) :: toks). split; [|now constructor].
    rewrite positions_app, C. cbn [positions fst snd length]. rewrite <- !app_assoc, Nat.add_assoc. reflexivity.
  - assert (Forall plain rest) as PA.
    { apply Forall_forall. intros x I. rewrite Forall_forall in A, F. destruct (A x I); [auto|]. elim (F x I); auto. }
    unfold substring. rewrite app_length. replace (length pre <=? length pre + length rest)%nat with true by lia.
    rewrite Nat.leb_refl. cbn [andb bind]. rewrite slice_at, firstn_all.
    destruct (tokensNonNull_ok fuel d rest (length pre) PA) as (l & E & S); [lia|]. rewrite E. cbn [bind]. exists l. split; [reflexivity|]. now constructor.
Qed.

Lemma unit_concat : forall d text toks, unit_tokens (jnext d) text toks ->
  concat (map snd toks) = text /\ Forall (fun tk => snd tk <> [] /\ fst tk <> TOKEN_NONE) toks.
Proof.
  intros d text toks H. induction H as [text toks P S|piece toks u text rest P U S H IH].
  - eapply seq_concat; eauto.
  - destruct (seq_concat d piece toks P S) as (C & F). destruct IH as (C2 & F2). rewrite map_app, concat_app, C. cbn [map snd concat app]. rewrite C2.
    split; [reflexivity|]. apply Forall_app. split; [auto|]. constructor; [|auto]. cbn. split; discriminate.
Qed.

(** ** Sentences *)

Lemma jsentences_ok : forall spell d fuel text len, Forall plain text -> (length text < fuel)%nat -> text <> [] ->
  exists ss last, jsentences_loop fuel spell d text len = Ok (ss ++ [(last, SENTENCE_NONE)]) /\
    sentence_seq (sentence_next spell d) text (map fst ss ++ [last]) /\ Forall (fun s => snd s <> SENTENCE_NONE) ss.
Proof.
  intros spell d fuel. induction fuel as [|fuel IH]; intros text len P L NE; [lia|]. cbn [jsentences_loop].
  pose proof (utf8_text_len text) as LL. rewrite getBytes_plain by auto.
  replace (0 <? length (utf8_text text))%nat with true by (symmetry; apply Nat.ltb_lt; destruct text; [congruence|]; cbn [length] in *; lia).
  rewrite (C07_utf8_agrees spell d (utf8_text text) text (conj (plain_encodable _ P) eq_refl) (plain_no_nul _ P)).
  destruct (sentence_shape spell d text) as (toks & ty & n & _ & E & X). rewrite E. cbn [bind].
  assert (n <= length text)%nat as LE by (destruct X as [(_ & ->)|(_ & K & _)]; lia).
  unfold substring. cbn [Nat.leb]. replace (n <=? length text)%nat with true by lia. cbn [andb bind].
  unfold slice. cbn [skipn]. rewrite Nat.sub_0_r.
  destruct X as [(-> & ->)|(T & K & _)].
  - rewrite skipn_all. destruct fuel as [|fuel]; [destruct text; cbn [length] in *; [congruence|lia]|]. cbn.
    exists [], (firstn (length text) text). cbn [map app]. repeat split; auto. eapply sseq_end; eauto.
  - destruct (IH (skipn n text) n) as (ss & last & S1 & S2 & F2); [now apply Forall_part|rewrite skipn_length; lia| |].
    { intros Q. apply (f_equal (@length Z)) in Q. rewrite skipn_length in Q. cbn in Q. lia. }
    rewrite S1. cbn [bind]. exists ((firstn n text, ty) :: ss), last. cbn [map fst app]. split; [reflexivity|].
    assert (ty <> SENTENCE_NONE) by (destruct T as [->| ->]; discriminate).
    split; [eapply sseq_step; eauto|]. constructor; auto.
Qed.

(** ** Grammar errors *)

Lemma grammar_cstr : forall b h p start skip, Forall plain p ->
  voikkoNextGrammarErrorCstr b h (utf8_text p) start skip = voikkoNextGrammarErrorUcs4 b h (p ++ [0]) (length p) start skip.
Proof.
  intros b h p start skip P. unfold voikkoNextGrammarErrorCstr. destruct p as [|c r]; [reflexivity|]. remember (c :: r) as p eqn:Q.
  pose proof (utf8_text_len p) as LL. replace (Nat.eqb (length (utf8_text p)) 0) with false by (symmetry; apply Nat.eqb_neq; subst p; cbn [length] in *; lia).
  rewrite ucs4FromUtf8_encoded by now apply plain_encodable. cbn [bind]. rewrite cstr_no_nul by now apply plain_no_nul. reflexivity.
Qed.

Lemma jgrammar_loop_same : forall fuel b h p o n acc, Forall plain p -> jgrammar_loop fuel b h p o n acc = grammar_loop fuel b h p o n acc.
Proof.
  intros fuel. induction fuel as [|fuel IH]; intros b h p o n acc P; [reflexivity|]. cbn [jgrammar_loop grammar_loop].
  rewrite getBytes_plain, grammar_cstr by auto.
  destruct (voikkoNextGrammarErrorUcs4 b h (p ++ [0]) (length p) 0 n) as [[[e|] h']| |]; cbn [bind]; auto.
Qed.
Lemma grammar_loop_acc : forall fuel b h p o n acc, grammar_loop fuel b h p o n acc =
  bind (grammar_loop fuel b h p o n []) (fun '(l, h') => Ok (acc ++ l, h')).
Proof.
  intros fuel. induction fuel as [|fuel IH]; intros b h p o n acc; [reflexivity|]. cbn [grammar_loop].
  destruct (voikkoNextGrammarErrorUcs4 b h (p ++ [0]) (length p) 0 n) as [[[e|] h']| |]; cbn [bind]; auto; [|now rewrite app_nil_r].
  rewrite IH, (IH _ _ _ _ _ ([] ++ [moved o e])). destruct (grammar_loop fuel b h' p o (n + 1) []) as [[l h2]| |]; cbn [bind]; auto.
  cbn [app]. now rewrite <- app_assoc.
Qed.
Lemma jparagraphs_same : forall fuel b lines h o acc, Forall (Forall plain) lines ->
  jparagraphs_loop fuel b h lines o acc = paragraphs_loop fuel b h lines o acc.
Proof.
  intros fuel b lines. induction lines as [|p lines IH]; intros h o acc P; [reflexivity|]. inversion P; subst. cbn [jparagraphs_loop paragraphs_loop]. unfold grammarParagraph.
  rewrite jgrammar_loop_same, grammar_loop_acc by auto. destruct (grammar_loop fuel b h p o 0 []) as [[l h2]| |]; cbn [bind]; auto.
Qed.

Lemma lines_plain : forall text lines, lines_of text lines -> Forall plain text -> Forall (Forall plain) lines.
Proof.
  intros text lines H. induction H as [line N|line text rest N H IH]; intros P; [auto|]. apply Forall_app in P. destruct P as (P1 & P2). inversion P2; subst. auto.
Qed.

Lemma drop_empty_spec : forall l, exists k, l = drop_empty l ++ repeat [] k.
Proof.
  intros l. induction l as [|p l (k & IH)]; [exists 0%nat; reflexivity|]. cbn [drop_empty]. destruct (drop_empty l) as [|q r] eqn:D.
  - cbn [app] in IH. destruct p as [|c p']; [exists (S k); cbn; now f_equal|exists k; cbn; now f_equal].
  - exists k. destruct p; cbn [app] in *; now f_equal.
Qed.
Lemma jsplit_spec : forall text, exists k, split_at 10 text [] = jsplit text ++ repeat [] k.
Proof.
  intros text. unfold jsplit. destruct (split_at 10 text []) as [|p [|q r]].
  - exists 0%nat. reflexivity.
  - exists 0%nat. reflexivity.
  - apply drop_empty_spec.
Qed.
Lemma errors_of_empty : forall b o k pos, errors_of b o pos (repeat [] k) [].
Proof. intros b o k. induction k; intros pos; cbn; constructor; auto. Qed.
Lemma errors_of_app : forall b o k pos lines l, errors_of b o pos lines l -> errors_of b o pos (lines ++ repeat [] k) l.
Proof. intros b o k pos lines l H. induction H; cbn [app]; [apply errors_of_empty|now constructor|econstructor; eauto]. Qed.

(** ** Uniqueness *)

Lemma plain_not_single : forall u, plain u -> single u -> False.
Proof. intros u (P & Q) [->|S]; lia. Qed.

Lemma single_split : forall a u b a' u' b', Forall plain a -> Forall plain a' -> single u -> single u' ->
  a ++ u :: b = a' ++ u' :: b' -> a = a' /\ u = u' /\ b = b'.
Proof.
  intros a. induction a as [|x a IH]; intros u b a' u' b' P P' U U' E; destruct a' as [|x' a']; cbn in E.
  - injection E as -> ->. auto.
  - injection E as -> _. inversion P'; subst. exfalso. eapply plain_not_single; eauto.
  - injection E as -> _. inversion P; subst. exfalso. eapply plain_not_single; eauto.
  - injection E as -> E2. inversion P; inversion P'; subst. destruct (IH u b a' u' b') as (-> & -> & ->); auto.
Qed.

Lemma unit_unique : forall next text a b, unit_tokens next text a -> unit_tokens next text b -> a = b.
Proof.
  assert (forall piece u text, Forall plain (piece ++ u :: text) -> single u -> False) as NO.
  { intros piece u text P U. apply Forall_app in P. destruct P as (_ & P). inversion P; subst. eapply plain_not_single; eauto. }
  intros next text a b H. revert b. induction H as [text toks P S|piece toks u text rest P U S H IH]; intros b B; inversion B as [t k P2 S2 E|p k v t r P2 U2 S2 T2 E]; subst.
  - eapply token_seq_unique; eauto.
  - exfalso. eapply NO; eauto.
  - exfalso. eapply NO; eauto.
  - apply single_split in E; auto. destruct E as (-> & -> & ->). rewrite (token_seq_unique _ _ _ _ S2 S), (IH _ T2). reflexivity.
Qed.

Lemma positions_at : forall toks pre t s p, In (t, s, p) (positions (length pre) toks) ->
  In (t, s) toks /\ firstn (length s) (skipn p (pre ++ concat (map snd toks))) = s.
Proof.
  intros toks. induction toks as [|tk toks IH]; intros pre t s p I; [destruct I|]. cbn [positions] in I. destruct I as [I|I].
  - injection I as <- <- <-. split; [left; now destruct tk|]. cbn [map concat]. rewrite skipn_app, skipn_all, Nat.sub_diag. cbn [skipn app].
    rewrite firstn_app, firstn_all, Nat.sub_diag. cbn [firstn]. apply app_nil_r.
  - rewrite <- app_length in I. destruct (IH (pre ++ snd tk) t s p I) as (A & B). split; [now right|]. cbn [map concat]. rewrite app_assoc. exact B.
Qed.

(** ** Sentences of strings with surrogates *)

Definition some_unit (u : Z) : Prop := 0 < u < 0xFFFE.
Lemma chars_ok : forall n s, (length s <= n)%nat -> Forall some_unit s ->
  Forall encodable (chars s) /\ ~ In 0 (chars s) /\ (length (chars s) <= length s)%nat /\ (s <> [] -> chars s <> []).
Proof.
  intros n. induction n as [|n IH]; intros s L F; (destruct s as [|u r]; [cbn; repeat split; auto|]); [cbn in L; lia|].
  inversion F as [|? ? U FR]; subst. unfold some_unit in U. cbn [length] in L. destruct (IH r ltac:(lia) FR) as (E1 & Z1 & L1 & _). cbn [chars].
  destruct (surrogate u) eqn:S; unfold surrogate in S.
  - destruct r as [|v r'].
    + cbn. repeat split; auto; try discriminate; [constructor; [unfold encodable; lia|auto]|intros [Q|[]]; lia].
    + inversion FR as [|? ? V FR']; subst. unfold some_unit in V. cbn [length] in *. destruct ((u <? 56320) && (56320 <=? v) && (v <=? 57343)) eqn:B.
      * destruct (IH r' ltac:(lia) FR') as (E2 & Z2 & L2 & _). cbn [length]. repeat split; try discriminate; try lia.
        -- constructor; [unfold encodable; lia|auto].
        -- intros [Q|Q]; [lia|auto].
      * cbn [length]. repeat split; try discriminate; try lia.
        -- constructor; [unfold encodable; lia|auto].
        -- intros [Q|Q]; [lia|auto].
  - cbn [length]. repeat split; try discriminate; try lia.
    + constructor; [unfold encodable; lia|auto].
    + intros [Q|Q]; [lia|auto].
Qed.

Lemma jsentences_concat : forall spell d n text len, (length text <= n)%nat -> Forall some_unit text ->
  exists ss, (forall fuel, (n < fuel)%nat -> jsentences_loop fuel spell d text len = Ok ss) /\ concat (map fst ss) = text /\ Forall (fun s => fst s <> []) ss.
Proof.
  intros spell d n. induction n as [|n IH]; intros text len L F.
  - destruct text; [|cbn in L; lia]. exists []. repeat split; auto. intros [|fuel] Q; [lia|reflexivity].
  - destruct text as [|c r]; [exists []; repeat split; auto; intros [|fuel] Q; [lia|reflexivity]|].
    remember (c :: r) as text eqn:T. destruct (chars_ok (length text) text ltac:(lia) F) as (E & Z & LC & NE).
    assert (chars text <> []) as NC by (apply NE; subst; discriminate).
    destruct (sentence_shape spell d (chars text)) as (toks & ty & k & _ & SE & X).
    assert (0 < k <= length (chars text))%nat as K by (destruct X as [(_ & ->)|(_ & K & _)]; [destruct (chars text); [congruence|cbn; lia]|lia]).
    destruct (IH (skipn k text) k) as (ss & S1 & S2 & S3); [rewrite skipn_length; lia| |].
    { rewrite <- (firstn_skipn k text) in F. now apply Forall_app in F. }
    exists ((firstn k text, ty) :: ss). split; [|split].
    + intros [|fuel] Q; [lia|]. cbn [jsentences_loop]. unfold getBytes at 1 2. pose proof (utf8_text_len (chars text)) as LL.
      replace (0 <? length (utf8_text (chars text)))%nat with true by lia.
      rewrite (C07_utf8_agrees spell d (utf8_text (chars text)) (chars text) (conj E eq_refl) Z), SE. cbn [bind].
      unfold substring. cbn [Nat.leb]. replace (k <=? length text)%nat with true by lia. cbn [andb bind].
      unfold slice. cbn [skipn]. rewrite Nat.sub_0_r. rewrite S1 by lia. reflexivity.
    + cbn [map fst concat]. rewrite S2. apply firstn_skipn.
    + constructor; [|auto]. cbn [fst]. subst text. destruct k; [lia|discriminate].
Qed.
