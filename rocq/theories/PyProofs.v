(** * Proofs about the Python interface. *)
From Coq Require Import Permutation Sorted.
From Verif Require Import Base BaseFacts CharModel TokenModel TokenSpec TokenProofs SpellerBase SentenceModel SentenceSpec SentenceProofs
  AnalyzerBase CacheModel GcCacheModel HandleModel ParaModel RulesModel GrammarModel GrammarSpec GrammarCallSpec
  RulesProofs GrammarProofs PyModel PySpec.

Lemma window : forall (pre rest tail : list Z), firstn (length rest) (skipn (length pre) ((pre ++ rest) ++ tail)) = rest.
Proof.
  intros. rewrite <- app_assoc, skipn_app, skipn_all, Nat.sub_diag. cbn [skipn app].
  rewrite firstn_app, firstn_all, Nat.sub_diag. cbn [firstn]. apply app_nil_r.
Qed.
Lemma slice_at : forall (pre rest : list Z) n, slice (pre ++ rest) (length pre) (length pre + n) = firstn n rest.
Proof.
  intros. unfold slice. rewrite skipn_app, skipn_all, Nat.sub_diag. cbn [skipn app]. f_equal. lia.
Qed.

(** ** Tokens *)

Lemma split_loop_ok : forall d fuel pre rest, (length rest < fuel)%nat ->
  exists toks, split_loop fuel d (pre ++ rest) (length pre) (length rest) = Ok toks /\ token_seq (nextToken d) rest toks.
Proof.
  intros d fuel. induction fuel as [|fuel IH]; intros pre rest L; [lia|]. cbn [split_loop].
  destruct rest as [|c r]; [exists []; split; [reflexivity|eapply seq_end; reflexivity]|].
  remember (c :: r) as rest eqn:R. replace (0 <? length rest)%nat with true by (subst rest; reflexivity).
  rewrite window. destruct (nextToken_spec d rest) as (t & n & E & _ & LE & NE). rewrite E. cbn [bind].
  destruct (NE ltac:(subst rest; discriminate)) as [T N].
  replace (is_none t) with false by (destruct t; [elim T; reflexivity|reflexivity..]).
  destruct (IH (pre ++ firstn n rest) (skipn n rest)) as (toks & S1 & S2); [rewrite skipn_length; lia|].
  rewrite <- app_assoc, firstn_skipn, app_length, firstn_length, skipn_length, Nat.min_l in S1 by lia.
  rewrite S1. cbn [bind]. rewrite slice_at. eexists. split; [reflexivity|]. eapply seq_step; eauto.
Qed.

Lemma splitTokens_ok : forall d text, exists toks, splitTokens d text = Ok toks /\ token_seq (nextToken d) text toks.
Proof. intros d text. apply (split_loop_ok d (S (length text)) [] text). lia. Qed.

Lemma find_at_spec : forall c s i,
  match find_at c s i with
  | None => ~ In c s
  | Some k => exists a b, s = a ++ c :: b /\ ~ In c a /\ k = (i + length a)%nat
  end.
Proof.
  intros c s. induction s as [|x s IH]; intros i; cbn [find_at]; [auto|].
  destruct (x =? c) eqn:E.
  - apply Z.eqb_eq in E. subst x. exists [], s. cbn. repeat split; auto.
  - apply Z.eqb_neq in E. specialize (IH (S i)). destruct (find_at c s (S i)).
    + destruct IH as (a & b & -> & N & ->). exists (x :: a), b. cbn. repeat split; [|lia]. intros [Q|Q]; auto.
    + cbn. intros [Q|Q]; auto.
Qed.

Lemma tokens_loop_ok : forall d fuel pre rest acc, (length rest < fuel)%nat ->
  exists toks, tokens_loop fuel d (pre ++ rest) (length pre) acc = Ok (acc ++ toks) /\ token_list (nextToken d) rest toks.
Proof.
  intros d fuel. induction fuel as [|fuel IH]; intros pre rest acc L; [lia|]. cbn [tokens_loop]. unfold find_from.
  assert (skipn (length pre) (pre ++ rest) = rest) as SK by (rewrite skipn_app, skipn_all, Nat.sub_diag; reflexivity). rewrite SK.
  pose proof (find_at_spec 0 rest (length pre)) as F. destruct (find_at 0 rest (length pre)) as [k|].
  - destruct F as (a & b & -> & N & ->). rewrite slice_at.
    assert (firstn (length a) (a ++ 0 :: b) = a) as -> by (rewrite firstn_app, firstn_all, Nat.sub_diag; cbn [firstn]; apply app_nil_r).
    destruct (splitTokens_ok d a) as (l & E & S). rewrite E. cbn [bind].
    destruct (IH (pre ++ a ++ [0]) b ((acc ++ l) ++ [(TOKEN_UNKNOWN, [0])])) as (toks & E2 & T); [rewrite app_length in L; cbn [length] in L; lia|].
    rewrite !app_length in E2. cbn [length] in E2. rewrite <- Nat.add_assoc.
    replace ((pre ++ a ++ [0]) ++ b) with (pre ++ a ++ 0 :: b) in E2 by (rewrite <- !app_assoc; reflexivity).
    rewrite E2. exists (l ++ (TOKEN_UNKNOWN, [0]) :: toks). split; [rewrite <- !app_assoc; reflexivity|]. now constructor.
  - destruct (splitTokens_ok d rest) as (l & E & S). rewrite E. cbn [bind]. exists l. split; [reflexivity|]. now constructor.
Qed.

Lemma py_tokens_ok : forall d text, exists toks, py_tokens d text = Ok toks /\ token_list (nextToken d) text toks.
Proof. intros d text. apply (tokens_loop_ok d (S (length text)) [] text []). lia. Qed.

Lemma token_list_concat : forall d text toks, token_list (nextToken d) text toks ->
  concat (map snd toks) = text /\ Forall (fun tk => snd tk <> []) toks /\
  (forall tk, In tk toks -> In 0 (snd tk) -> tk = (TOKEN_UNKNOWN, [0])).
Proof.
  assert (forall text toks, ~ In 0 text -> concat (map snd toks) = text -> forall tk : token_type * list Z, In tk toks -> ~ In 0 (snd tk)) as NZ.
  { intros text toks N C tk I Q. apply N. rewrite <- C. apply in_concat. exists (snd tk). split; auto. now apply in_map. }
  intros d text toks H. induction H as [text toks N S|piece toks text rest N S H IH].
  - destruct (token_seq_concat _ _ _ S) as (C & F). split; [auto|]. split; [auto|]. intros tk I Q. exfalso. revert Q. eapply NZ; eauto.
  - destruct (token_seq_concat _ _ _ S) as (C & F). destruct IH as (C2 & F2 & Z2). rewrite map_app, concat_app, C. cbn [map snd concat app]. rewrite C2.
    split; [reflexivity|]. split; [apply Forall_app; split; [auto|constructor; [discriminate|auto]]|].
    intros tk I Q. apply in_app_or in I. destruct I as [I|[I|I]]; auto. exfalso. revert Q. eapply NZ; eauto.
Qed.

Lemma split_unique : forall (c : Z) a b a' b', ~ In c a -> ~ In c a' -> a ++ c :: b = a' ++ c :: b' -> a = a' /\ b = b'.
Proof.
  intros c a. induction a as [|x a IH]; intros b a' b' N N' E; destruct a' as [|x' a']; cbn in E.
  - injection E as ->. auto.
  - injection E as -> _. elim N'. now left.
  - injection E as -> _. elim N. now left.
  - injection E as -> E2. destruct (IH b a' b') as (-> & ->); auto; [intros Q; apply N; now right|intros Q; apply N'; now right].
Qed.

Lemma token_list_unique : forall next text a b, token_list next text a -> token_list next text b -> a = b.
Proof.
  intros next text a b H. revert b. induction H as [text toks N S|piece toks text rest N S H IH]; intros b B; inversion B as [t k N2 S2 E|p k t r N2 S2 T2 E]; subst.
  - eapply token_seq_unique; eauto.
  - elim N. apply in_or_app. right. now left.
  - elim N2. apply in_or_app. right. now left.
  - apply split_unique in E; auto. destruct E as (-> & ->). rewrite (token_seq_unique _ _ _ _ S2 S), (IH _ T2). reflexivity.
Qed.

(** ** Sentences *)

Lemma sentences_loop_ok : forall spell d fuel pre rest, (length rest < fuel)%nat -> rest <> [] ->
  exists ss ty last, sentences_loop fuel spell d (pre ++ rest) (length pre) (length rest) = Ok (ss ++ [(last, ty)]) /\
    sentence_seq (sentence_next spell d) rest (map fst ss ++ [last]) /\ ty = SENTENCE_NONE /\ Forall (fun s => snd s <> SENTENCE_NONE) ss.
Proof.
  intros spell d fuel. induction fuel as [|fuel IH]; intros pre rest L NE; [lia|]. cbn [sentences_loop].
  replace (0 <? length rest)%nat with true by (destruct rest; [congruence|reflexivity]).
  assert (firstn (length rest) (skipn (length pre) (pre ++ rest) ++ [0]) = rest) as ->.
  { rewrite skipn_app, skipn_all, Nat.sub_diag. cbn [skipn app]. rewrite firstn_app, firstn_all, Nat.sub_diag. cbn [firstn]. apply app_nil_r. }
  destruct (sentence_shape spell d rest) as (toks & ty & n & _ & E & [(-> & ->)|(T & K & _)]); rewrite E; cbn [bind is_snone]; rewrite slice_at.
  - exists [], SENTENCE_NONE, (firstn (length rest) rest). cbn [map app]. repeat split; auto. eapply sseq_end; eauto.
  - destruct (IH (pre ++ firstn n rest) (skipn n rest)) as (ss & ty' & last & S1 & S2 & T2 & F2); [rewrite skipn_length; lia| |].
    { intros Q. apply (f_equal (@length Z)) in Q. rewrite skipn_length in Q. cbn in Q. lia. }
    rewrite <- app_assoc, firstn_skipn, app_length, firstn_length, skipn_length, Nat.min_l in S1 by lia.
    replace (is_snone ty) with false by (destruct T as [->| ->]; reflexivity). rewrite S1. cbn [bind].
    exists ((firstn n rest, ty) :: ss), ty', last. cbn [map fst app]. split; [reflexivity|].
    assert (ty <> SENTENCE_NONE) by (destruct T as [->| ->]; discriminate).
    split; [eapply sseq_step; eauto|]. split; [auto|]. constructor; auto.
Qed.

(** ** Grammar errors *)

Lemma answer_skip : forall l k, answer l 0 (Z.of_nat k) = nth_error l k.
Proof.
  intros l k. unfold answer. rewrite Nat2Z.id.
  assert (filter (fun e : gc_error => (startpos e <? 0)%nat) l = []) as -> by (clear; induction l; cbn; auto).
  cbn [length]. now rewrite Nat.max_0_r.
Qed.

Lemma grammar_loop_ok : forall b p offset l, structured (b_analyzer b) -> never_empty (b_autocorrect b) -> text_ok p ->
  forall todo done h acc, l = done ++ todo -> reached b h -> error_list b (gc_options_of h) p l ->
  exists h', (forall fuel, (length todo < fuel)%nat ->
      grammar_loop fuel b h p offset (Z.of_nat (length done)) acc = Ok (acc ++ map (moved offset) todo, h')) /\
    reached b h' /\ gc_options_of h' = gc_options_of h.
Proof.
  intros b p offset l S N T todo. induction todo as [|e todo IH]; intros done h acc L R EL;
    destruct (call_ok b h p [] 0 (Z.of_nat (length done)) S N T (reached_memory b h S N R)) as (l' & h' & EL' & _ & E & _ & O);
    rewrite (error_list_unique _ _ _ _ _ EL' EL), answer_skip in E;
    (assert (reached b h') as R' by (eapply reached_step; [exact R|]; eapply gs_check; eauto)).
  - rewrite L, app_nil_r in E.
    replace (nth_error done (length done)) with (@None gc_error) in E by (symmetry; apply nth_error_None; lia).
    exists h'. split; [|auto]. intros [|fuel] F; [cbn in F; lia|]. cbn [grammar_loop]. rewrite E. cbn [bind map]. now rewrite app_nil_r.
  - rewrite L, nth_error_app2, Nat.sub_diag in E by lia. cbn [nth_error] in E.
    destruct (IH (done ++ [e]) h' (acc ++ [moved offset e])) as (h2 & E2 & R2 & O2).
    + rewrite <- app_assoc. exact L.
    + exact R'.
    + rewrite O. exact EL.
    + exists h2. split; [|split; [auto|congruence]]. intros [|fuel] F; [cbn in F; lia|]. cbn [grammar_loop]. rewrite E. cbn [bind].
      replace (Z.of_nat (length done) + 1) with (Z.of_nat (length (done ++ [e]))) by (rewrite app_length; cbn [length]; lia).
      rewrite E2 by (cbn in F; lia). cbn [map]. now rewrite <- app_assoc.
Qed.

Lemma moved_later : forall n l, Forall2 (later n) l (map (moved n) l).
Proof. intros n l. induction l; cbn; constructor; auto. repeat split. Qed.


Lemma paragraphs_ok : forall b, structured (b_analyzer b) -> never_empty (b_autocorrect b) ->
  forall lines pos h acc, reached b h -> Forall (fun p => ~ In 0 p) lines ->
  exists bound l h', (forall fuel, (bound <= fuel)%nat -> paragraphs_loop fuel b h lines pos acc = Ok (acc ++ l, h')) /\
    errors_of b (gc_options_of h) pos lines l /\ reached b h' /\ gc_options_of h' = gc_options_of h.
Proof.
  intros b S N lines. induction lines as [|p lines IH]; intros pos h acc R Z; cbn [paragraphs_loop].
  - exists 0%nat, [], h. rewrite app_nil_r. repeat split; auto. constructor.
  - inversion Z as [|? ? Zp Zl]; subst. destruct p as [|c p'].
    + destruct (IH (pos + length (@nil BinNums.Z) + 1)%nat h (acc ++ []) R Zl) as (bound & l & h' & E & EO & R' & O).
      exists (Nat.max 1 bound), l, h'. split.
      { intros fuel L. destruct fuel as [|fuel]; [lia|].
        change (grammarParagraph (Datatypes.S fuel) b h [] pos) with (@Ok (list gc_error * handle) ([], h)).
        cbn [bind]. rewrite E by lia. now rewrite app_nil_r. }
      split; [|auto]. apply eo_empty. cbn [length] in EO. rewrite Nat.add_0_r in EO. exact EO.
    + remember (c :: p') as p eqn:Q. assert (text_ok p) as T by (split; [subst; discriminate|auto]).
      destruct (call_ok b h p [] 0 0 S N T (reached_memory b h S N R)) as (found & _ & EL & _).
      destruct (grammar_loop_ok b p pos found S N T found [] h [] eq_refl R EL) as (h1 & E1 & R1 & O1).
      destruct (IH (pos + length p + 1)%nat h1 (acc ++ map (moved pos) found) R1 Zl) as (bound & l & h2 & E2 & EO & R2 & O2).
      exists (Nat.max (Datatypes.S (length found)) bound), (map (moved pos) found ++ l), h2. split.
      { intros fuel L. unfold grammarParagraph. change 0 with (Z.of_nat (length (@nil gc_error))). rewrite E1 by lia. cbn [bind app].
        rewrite E2 by lia. now rewrite app_assoc. }
      split; [|split; [auto|congruence]]. apply eo_line with (found := found); auto; [subst; discriminate|apply moved_later|].
      rewrite <- O1. exact EO.
Qed.

Lemma split_at_spec : forall c text cur, ~ In c cur -> exists line lines, split_at c text cur = line :: lines /\
  (forall P : list Z -> list (list Z) -> Prop,
     (forall l, ~ In c l -> P l [l]) -> (forall l t r, ~ In c l -> P t r -> P (l ++ c :: t) (l :: r)) -> P (cur ++ text) (line :: lines)).
Proof.
  intros c text. induction text as [|x text IH]; intros cur N; cbn [split_at].
  - exists cur, []. split; [reflexivity|]. intros P A B. rewrite app_nil_r. auto.
  - destruct (x =? c) eqn:E.
    + apply Z.eqb_eq in E. subst x. destruct (IH []) as (line & lines & E2 & H); [intros []|]. rewrite E2.
      exists cur, (line :: lines). split; [reflexivity|]. intros P A B. apply B; [auto|]. exact (H P A B).
    + apply Z.eqb_neq in E. destruct (IH (cur ++ [x])) as (line & lines & E2 & H).
      { intros Q. apply in_app_or in Q. destruct Q as [Q|[Q|[]]]; auto. }
      exists line, lines. split; [auto|]. intros P A B. specialize (H P A B). rewrite <- app_assoc in H. exact H.
Qed.

Lemma split_lines : forall text, lines_of text (split_at 10 text []).
Proof.
  intros text. destruct (split_at_spec 10 text []) as (line & lines & -> & H); [auto|].
  apply (H lines_of); [apply lines_last|apply lines_more].
Qed.

Lemma lines_no_nul : forall text lines, lines_of text lines -> ~ In 0 text -> Forall (fun p => ~ In 0 p) lines.
Proof.
  intros text lines H. induction H as [line N|line text rest N H IH]; intros Z; [auto|]. constructor.
  - intros Q. apply Z, in_or_app. auto.
  - apply IH. intros Q. apply Z, in_or_app. right. now right.
Qed.

Lemma lines_unique : forall text a b, lines_of text a -> lines_of text b -> a = b.
Proof.
  intros text a b H. revert b. induction H as [line N|line text rest N H IH]; intros b B; inversion B as [t N2 E|l t r N2 T2 E]; subst.
  - reflexivity.
  - elim N. apply in_or_app. right. now left.
  - elim N2. apply in_or_app. right. now left.
  - apply split_unique in E; auto. destruct E as (-> & ->). f_equal. auto.
Qed.

Lemma later_unique : forall n l a b, Forall2 (later n) l a -> Forall2 (later n) l b -> a = b.
Proof.
  intros n l a b H. revert b. induction H as [|e f l a (P & Q & R & T) F IH]; intros b B; inversion B as [|? g ? b' (P' & Q' & R' & T') F']; subst; auto.
  f_equal; [|auto]. destruct f, g. cbn in *. congruence.
Qed.

Lemma errors_unique : forall b o pos lines l l', errors_of b o pos lines l -> errors_of b o pos lines l' -> l = l'.
Proof.
  intros b o pos lines l l' H. revert l'. induction H as [pos|pos lines l H IH|pos line lines found here l NE EL F H IH]; intros l' H'; inversion H'; subst; auto; try congruence.
  match goal with X : error_list b o line ?f |- _ => rewrite (error_list_unique _ _ _ _ _ X EL) in * end.
  f_equal; [eapply later_unique; eauto|auto].
Qed.

(** More steps do not change the result. *)
Lemma grammar_loop_mono : forall f k b h p o n acc r, (f <= k)%nat -> grammar_loop f b h p o n acc = Ok r -> grammar_loop k b h p o n acc = Ok r.
Proof.
  intros f. induction f as [|f IH]; intros k b h p o n acc r L E; [discriminate|]. destruct k as [|k]; [lia|]. cbn [grammar_loop] in *.
  destruct (voikkoNextGrammarErrorUcs4 b h (p ++ [0]) (length p) 0 n) as [[[e|] h']| |]; cbn [bind] in *; try discriminate; auto.
  apply IH; [lia|auto].
Qed.
Lemma paragraphs_mono : forall lines f k b h o acc r, (f <= k)%nat -> paragraphs_loop f b h lines o acc = Ok r -> paragraphs_loop k b h lines o acc = Ok r.
Proof.
  intros lines. induction lines as [|p lines IH]; intros f k b h o acc r L E; cbn [paragraphs_loop] in *; [auto|]. unfold grammarParagraph in *.
  destruct (grammar_loop f b h p o 0 []) as [[l h']| |] eqn:G; cbn [bind] in E; try discriminate.
  rewrite (grammar_loop_mono f k _ _ _ _ _ _ _ L G). cbn [bind]. eauto.
Qed.
Lemma grammarErrors_mono : forall f k b h text r, (f <= k)%nat -> py_grammarErrors f b h text = Ok r -> py_grammarErrors k b h text = Ok r.
Proof.
  intros f k b h text r L. unfold py_grammarErrors. destruct (negb (isValidInput text)); [auto|]. now apply paragraphs_mono.
Qed.

(** Where the errors are: in order, and each inside one line. *)
Lemma error_list_fits : forall b o text l, structured (b_analyzer b) -> never_empty (b_autocorrect b) -> text_ok text -> error_list b o text l ->
  Forall (fits (length text)) l /\ StronglySorted (fun e f => (startpos e <= startpos f)%nat) l.
Proof.
  intros b o text l S N (TN & TZ) (found & E & P & SS & _). split; [|auto].
  destruct (find_errors_ok b o false text TN) as (found' & E' & F).
  { split; [auto|]. intros t T. split; [|auto]. intros i out n X. eapply N; eauto. }
  rewrite E in E'. injection E' as <-. eapply Permutation_Forall; [symmetry; exact P|exact F].
Qed.

Lemma errors_inside : forall b o, structured (b_analyzer b) -> never_empty (b_autocorrect b) ->
  forall text lines, lines_of text lines -> ~ In 0 text -> forall before l, (before = [] \/ exists p, before = p ++ [10]) ->
  errors_of b o (length before) lines l ->
  Forall (fun e => (0 < errorlen e)%nat /\ 1 <= error_code e <= 18 /\ (length before <= startpos e)%nat /\ inside_line (before ++ text) (startpos e) (errorlen e)) l /\
  StronglySorted (fun e f => (startpos e <= startpos f)%nat) l.
Proof.
  intros b o S N.
  assert (forall line before after found here, line <> [] -> ~ In 0 line -> ~ In 10 line -> (before = [] \/ exists p, before = p ++ [10]) ->
    (after = [] \/ exists p, after = 10 :: p) -> error_list b o line found -> Forall2 (later (length before)) found here ->
    Forall (fun e => (0 < errorlen e)%nat /\ 1 <= error_code e <= 18 /\ (length before <= startpos e)%nat /\
                     inside_line (before ++ line ++ after) (startpos e) (errorlen e) /\ (startpos e < length before + length line)%nat) here /\
    StronglySorted (fun e f => (startpos e <= startpos f)%nat) here) as ONE.
  { intros line before after found here NE Z NL B A EL F. destruct (error_list_fits b o line found S N (conj NE Z) EL) as (FI & SS). clear EL.
    induction F as [|e f found here (P & Q & R & T) F IH]; [split; constructor|]. inversion FI as [|? ? (F1 & F2 & F3) FI']; subst. inversion SS as [|? ? SS' FS]; subst.
    destruct (IH FI' SS') as (I1 & I2). split.
    - constructor; [|auto]. repeat split; try lia. exists before, line, after. repeat split; auto; lia.
    - constructor; [auto|]. clear - F FS P. induction F as [|e' f' found here (P' & _) F IH]; [constructor|]. inversion FS; subst. constructor; [lia|auto]. }
  intros text lines H. induction H as [line NL|line text rest NL H IH]; intros Z before l B E.
  - inversion E as [|? ? ? E2|? ? ? found here l2 NE EL F E2]; subst; inversion E2; subst; [split; constructor|].
    destruct (ONE line before [] found here NE Z NL B (or_introl eq_refl) EL F) as (F1 & S1). rewrite !app_nil_r in *. split; [|auto].
    eapply Forall_impl; [|exact F1]. cbn. tauto.
  - assert (~ In 0 text) as Zt by (intros Q; apply Z, in_or_app; right; now right).
    assert (~ In 0 line) as Zl by (intros Q; apply Z, in_or_app; now left).
    assert (forall l2, errors_of b o (length before + length line + 1) rest l2 ->
      Forall (fun e => (0 < errorlen e)%nat /\ 1 <= error_code e <= 18 /\ (length before + length line < startpos e)%nat /\
                       inside_line (before ++ line ++ 10 :: text) (startpos e) (errorlen e)) l2 /\
      StronglySorted (fun e f => (startpos e <= startpos f)%nat) l2) as REST.
    { intros l2 E2. destruct (IH Zt (before ++ line ++ [10]) l2) as (F2 & S2); [right; exists (before ++ line); now rewrite <- app_assoc| |].
      - rewrite !app_length. cbn [length]. rewrite Nat.add_assoc. exact E2.
      - split; [|auto]. eapply Forall_impl; [|exact F2]. intros e (P & Q & R & T). rewrite !app_length in R. cbn [length] in R.
        repeat split; try lia. rewrite <- !app_assoc in T. exact T. }
    inversion E as [|? ? ? E2|? ? ? found here l2 NE EL F E2]; subst.
    + destruct (REST l) as (F2 & S2); [cbn [length]; rewrite Nat.add_0_r; exact E2|]. split; [|auto].
      eapply Forall_impl; [|exact F2]. cbn [length]. intros e (P & Q & R & T). repeat split; try lia. exact T.
    + destruct (REST l2 E2) as (F2 & S2).
      destruct (ONE line before (10 :: text) found here NE Zl NL B (or_intror (ex_intro _ text eq_refl)) EL F) as (F1 & S1). split.
      * apply Forall_app. split; (eapply Forall_impl; [|eassumption]); cbn; intros e (P & Q & R & T); repeat split; try lia; tauto.
      * clear - F1 F2 S1 S2. induction S1 as [|e here S1 IH FS]; [exact S2|]. inversion F1 as [|? ? (_ & _ & _ & _ & L) F1']; subst. cbn [app]. constructor; [auto|].
        apply Forall_app. split; [auto|]. eapply Forall_impl; [|exact F2]. cbn. intros f (_ & _ & Q & _). lia.
Qed.

(** ** Dictionaries *)

Lemma str_eq_iff : forall a b, str_eq a b = true <-> a = b.
Proof.
  intros a. induction a as [|x a IH]; intros [|y b]; cbn [str_eq]; try (split; congruence).
  rewrite andb_true_iff, IH, Z.eqb_eq. split; [intros (-> & ->); reflexivity|intros Q; injection Q; auto].
Qed.
Lemma str_lt_irrefl : forall a, str_lt a a = false.
Proof. intros a. induction a as [|x a IH]; cbn [str_lt]; [reflexivity|]. rewrite IH, Z.ltb_irrefl, andb_false_r. reflexivity. Qed.
Lemma str_lt_total : forall a b, str_lt a b = false -> str_lt b a = false -> a = b.
Proof.
  intros a. induction a as [|x a IH]; intros [|y b]; cbn [str_lt]; try congruence.
  intros P Q. apply orb_false_iff in P, Q. destruct P as (P1 & P2), Q as (Q1 & Q2). apply Z.ltb_ge in P1, Q1.
  assert (x = y) by lia. subst y. rewrite Z.eqb_refl in *. cbn [andb] in *. f_equal. auto.
Qed.
