(** * Properties of the command line tools (C65-C68). *)
From Coq Require DecimalString DecimalNat Ascii.
From Verif Require Import Base BaseFacts CharModel CharSpec CharProofs SpellerBase CacheModel HandleModel Utf8Model Utf8Spec TokenModel TokenSpec TokenProofs TokenProps
  SentenceModel SentenceSpec SentenceProofs SpellModel SpellSpec SpellProofs SpellProps AnalysisModel AnalyzerBase HyphModel HyphSpec HyphProofs HyphProps
  SuggestModel SuggestInv2 SuggestProps GcCacheModel ParaModel RulesModel GrammarModel GrammarSpec GrammarCallSpec GrammarProofs GrammarProps ToolModel ToolSpec ToolThreads ToolProofs.

(** ** C65: voikkospell with several threads *)

Lemma repeat_forall : forall A (P : A -> Prop) x k, P x -> Forall P (repeat x k).
Proof. intros A P x k H. induction k; cbn; auto. Qed.

(** voikkospell -j [n] prints, whatever the threads do when, what the program
    prints with a single thread, and it always comes to an end; provided there
    are no words at all or more than 500 (n - 1) of them.  (Missing: smaller
    inputs, for which see the next theorem.) *)
Theorem C65_same_output_partial : forall lib cfg h words n, set_up h -> (1 <= n <= 200)%nat ->
  Forall (checkable lib cfg h) words -> (words = [] \/ 500 * (n - 1) < length words)%nat ->
  exists out h', check_words (check_word lib cfg) h words = Ok (out, h') /\
    always_ends n (check_word lib cfg) (start n (repeat h n) words) (12 * length words + 12) (fun m => at_ m = AT_END /\ output m = out).
Proof.
  intros lib cfg h words n S N W C.
  assert (F : fit lib h h) by (apply fit_refl; apply set_up_fresh; auto).
  pose proof (check_answers lib cfg h F) as A.
  destruct (check_words_answers _ _ _ _ _ A words h F W) as (h' & E & _).
  exists (concat (map (answer_to lib cfg h) words)), h'. split; auto.
  apply (all_runs _ _ (fit lib h) (checkable lib cfg h) (answer_to lib cfg h) n words 500 eq_refl ltac:(lia) A ltac:(lia) W (repeat h n)).
  - apply repeat_length.
  - apply repeat_forall. auto.
  - destruct C as [->|C]; [left; reflexivity|right; exact C].
Qed.
Print Assumptions C65_same_output_partial.

(** With fewer words the program always waits for a thread that it never
    created: [pthread_join] is called with an identifier that has not been
    written. *)
Theorem C65_few_words_refuted : forall lib cfg h words n, set_up h -> (1 <= n <= 200)%nat ->
  Forall (checkable lib cfg h) words -> (0 < length words <= 500 * (n - 1))%nat ->
  always_ends n (check_word lib cfg) (start n (repeat h n) words) (12 * length words + 12) (fun m => at_ m = AT_FAULT).
Proof.
  intros lib cfg h words n S N W C.
  assert (F : fit lib h h) by (apply fit_refl; apply set_up_fresh; auto).
  pose proof (check_answers lib cfg h F) as A.
  apply (all_runs _ _ (fit lib h) (checkable lib cfg h) (answer_to lib cfg h) n words 500 eq_refl ltac:(lia) A ltac:(lia) W (repeat h n)); auto.
  - apply repeat_length.
  - apply repeat_forall. auto.
Qed.
Print Assumptions C65_few_words_refuted.

(** Two ways of scheduling: the other threads run whenever they can, or only
    when the main thread waits. *)
Fixpoint first_thread {H} (chk : H -> list Z -> res (list Z * H)) (k : nat) (m : machine H) : option (machine H) :=
  match k with
  | O => None
  | S k => match thread_step chk k m with Some m' => Some m' | None => first_thread chk k m end
  end.
Fixpoint drive {H} (eager : bool) (chk : H -> list Z -> res (list Z * H)) (n fuel : nat) (m : machine H) : machine H :=
  match fuel with
  | O => m
  | S fuel =>
      match (if eager then first_thread chk n m else main_step n m) with
      | Some m' => drive eager chk n fuel m'
      | None => match (if eager then main_step n m else first_thread chk n m) with
                | Some m' => drive eager chk n fuel m'
                | None => m
                end
      end
  end.

Definition toy_analyses : analyzer := fun _ w =>
  if zlist_eqb w (wstr "talo") then [an1 [(STRUCTURE, "=pppp"); (CLASS, "nimisana")]]%string
  else if zlist_eqb w (wstr "kala-allas") then [an1 [(STRUCTURE, "=pppp-=ppppp")]]%string else [].
Definition toy_library : library := mk_library SpellProps.toy (SuggestProps.suggest_with toy_analyses) toy_analyses.
Definition bare_library : library := mk_library SpellProps.toy (fun _ s => Ok s) (fun _ _ => []).
Definition plain : spell_config := mk_spell_config MODE_NORMAL false false false 0x20 false.
Definition many_words (k : nat) : list (list Z) := concat (repeat (map wstr ["talo"; "Talo"; "tAlo"; "matti"]%string) k).

Lemma plain_checkable : forall h k, Forall (checkable bare_library plain h) (many_words k).
Proof.
  intros h k. unfold many_words. apply Forall_concat. apply repeat_forall.
  repeat constructor; cbn; try lia; intros [X|X]; discriminate.
Qed.

(** 504 words and two threads, without the cache. *)
Example C65_same_output_partial_ex : exists h0 h, voikkoInit = Ok h0 /\ voikkoSetIntegerOption h0 17 (-1) = Ok (1, h) /\ set_up h /\ Forall (checkable bare_library plain h) (many_words 126) /\
  (500 * (2 - 1) < length (many_words 126))%nat /\
  (forall eager, at_ (drive eager (check_word bare_library plain) 2 4000 (start 2 (repeat h 2) (many_words 126))) = AT_END) /\
  (forall eager, firstn 33 (output (drive eager (check_word bare_library plain) 2 4000 (start 2 (repeat h 2) (many_words 126)))) =
     unlines (map wstr ["C: talo"; "C: Talo"; "W: tAlo"; "W: matti"]%string)).
Proof.
  do 2 eexists. split; [reflexivity|]. split; [vm_compute; reflexivity|].
  split; [eapply set_up_cache with (v := -1); [apply set_up_new; reflexivity|lia|vm_compute; reflexivity]|].
  split; [apply plain_checkable|]. split; [vm_compute; lia|].
  split; intros [|]; vm_compute; reflexivity.
Qed.
Example C65_few_words_refuted_ex : exists h, voikkoInit = Ok h /\ set_up h /\ Forall (checkable bare_library plain h) (many_words 1) /\
  (forall eager, at_ (drive eager (check_word bare_library plain) 2 4000 (start 2 (repeat h 2) (many_words 1))) = AT_FAULT).
Proof.
  eexists. split; [reflexivity|]. split; [apply set_up_new; reflexivity|]. split; [apply plain_checkable|]. intros [|]; vm_compute; reflexivity.
Qed.

(** ** C66: the report of voikkospell *)

(** For every word the program prints the lines that its options ask for, and
    they do not depend on the words before it. *)
Theorem C66_report : forall lib cfg h words, set_up h -> Forall (checkable lib cfg h) words ->
  exists reports h', check_words (check_word lib cfg) h words = Ok (unlines (concat reports), h') /\
    Forall2 (report lib cfg h) words reports.
Proof.
  intros lib cfg h words S W.
  assert (F : fit lib h h) by (apply fit_refl; apply set_up_fresh; auto).
  assert (forall h0, fit lib h h0 -> exists reports h', check_words (check_word lib cfg) h0 words = Ok (unlines (concat reports), h') /\
    Forall2 (report lib cfg h) words reports) as G; [|apply G; auto].
  induction W as [|w words C W IH]; intros h0 F0.
  - exists [], h0. split; [reflexivity|constructor].
  - destruct (report_ok lib cfg h h0 w F0 C) as (ls & h1 & E & R & F1). destruct (IH h1 F1) as (rs & h2 & E2 & R2).
    exists (ls :: rs), h2. split; [|constructor; auto]. cbn [check_words concat]. rewrite E. cbn [bind]. rewrite E2. cbn [bind].
    rewrite unlines_app. reflexivity.
Qed.
Print Assumptions C66_report.

Theorem C66_determined : forall lib cfg h w a b, report lib cfg h w a -> report lib cfg h w b -> a = b.
Proof. exact report_fun. Qed.
Print Assumptions C66_determined.

(** Without options a program that reads the output line by line finds the words
    in the order of the input, each with its verdict. *)
Theorem C66_read_back : forall lib h words, set_up h -> Forall unicode_word words -> Forall (fun w => ~ In 10 w) words ->
  exists out h' ls, check_words (check_word lib (mk_spell_config MODE_NORMAL false false false 0x20 false)) h words = Ok (out, h') /\
    lines_of out = ls /\
    Forall2 (fun w l => (accepted (lib_spell lib) h w /\ l = wstr "C: " ++ w) \/ (~ accepted (lib_spell lib) h w /\ l = wstr "W: " ++ w)) words ls.
Proof.
  intros lib h words S U N. destruct (C66_report lib (mk_spell_config MODE_NORMAL false false false 0x20 false) h words S) as (rs & h' & E & R).
  { eapply Forall_impl; [|exact U]. intros w W. split; auto. intros [X|X]; discriminate. }
  exists (unlines (concat rs)), h', (concat rs). split; auto.
  assert (Forall2 (fun w l => (accepted (lib_spell lib) h w /\ l = wstr "C: " ++ w) \/ (~ accepted (lib_spell lib) h w /\ l = wstr "W: " ++ w)) words (concat rs)) as G.
  { clear E N U. induction R as [|w ls ws rs' R1 R2 IH]; [constructor|]. cbn [concat].
    destruct R1 as [C O|C O B|l C O B L|C O|l C O L]; cbn [oneLineOutput suggest checkMode verdict_line morphology analysis_lines] in *; try discriminate;
      rewrite ?app_nil_r; cbn [app]; constructor; auto; inversion C; subst; try discriminate; auto. }
  split; auto. apply lines_unlines. clear E R. induction G as [|w l ws ls' L1 L2 IH]; [constructor|].
  inversion N; subst. inversion U; subst. constructor; [|apply IH; auto].
  intros I. destruct L1 as [[_ ->]|[_ ->]]; cbn in I; repeat (destruct I as [I|I]; [discriminate|]); auto.
Qed.
Print Assumptions C66_read_back.

(** With -t the program prints the incorrect words and nothing else; a text
    without incorrect words gives no output. *)
Theorem C66_incorrect_only : forall lib h words, set_up h -> Forall unicode_word words ->
  exists bad h', check_words (check_word lib (mk_spell_config MODE_ONLY_INCORRECT false false false 0x20 false)) h words = Ok (unlines bad, h') /\
    (forall w, In w bad <-> In w words /\ ~ accepted (lib_spell lib) h w).
Proof.
  intros lib h words S U. destruct (C66_report lib (mk_spell_config MODE_ONLY_INCORRECT false false false 0x20 false) h words S) as (rs & h' & E & R).
  { eapply Forall_impl; [|exact U]. intros w W. split; auto. intros [X|X]; discriminate. }
  exists (concat rs), h'. split; auto. clear E U. induction R as [|w ls ws rs' R1 R2 IH].
  - intros w. cbn. tauto.
  - intros v. cbn [concat]. rewrite in_app_iff, IH.
    destruct R1 as [C O|C O B|l C O B L|C O|l C O L]; cbn [oneLineOutput suggest checkMode verdict_line morphology analysis_lines] in *; try discriminate;
      inversion C; subst; try discriminate; cbn; split; intuition (subst; auto; try contradiction).
Qed.
Print Assumptions C66_incorrect_only.

Definition full : spell_config := mk_spell_config MODE_NORMAL true true false 0x20 false.
Definition one_line : spell_config := mk_spell_config MODE_NORMAL false false true 0x20 false.
Definition shown (r : res (list Z * handle)) : res (list Z) := '(o, _) <- r ;; Ok o.
Example C66_report_ex : exists h, voikkoInit = Ok h /\ set_up h /\
  Forall (checkable toy_library full h) (map wstr ["talo"; "taalo"]%string) /\
  shown (check_words (check_word toy_library full) h (map wstr ["talo"; "taalo"]%string)) =
     Ok (unlines (map wstr ["C: talo"; "A(talo):1:CLASS=nimisana"; "A(talo):1:STRUCTURE==pppp"; "W: taalo"; "S: talo"]%string)) /\
  shown (check_words (check_word toy_library one_line) h (map wstr ["talo"; "taalo"]%string)) =
     Ok (unlines (map wstr ["talo"; "taalo talo"]%string)) /\
  shown (check_words (check_word toy_library (mk_spell_config MODE_ONLY_INCORRECT false false false 0x20 false)) h (map wstr ["talo"; "taalo"]%string)) =
     Ok (unlines (map wstr ["taalo"]%string)).
Proof.
  eexists. split; [reflexivity|]. split; [apply set_up_new; reflexivity|]. split.
  { repeat constructor; cbn; try lia; intros _; eexists; eexists; (split; [vm_compute; reflexivity|reflexivity]). }
  repeat split; vm_compute; reflexivity.
Qed.

(** ** C67: voikkohyphenate *)

Lemma printed_no_zero : forall sep p w out, printed sep p w out -> sep <> 0 -> ~ In 0 w -> ~ In 0 out.
Proof.
  intros sep p w out P S N. induction P as [|c p w r P IH|c p w r P IH|c p w r E P IH|c p w r E P IH]; auto;
    (assert (~ In 0 w) as N1 by (intros X; apply N; right; auto)); specialize (IH N1); cbn; intros X;
    repeat (destruct X as [X|X]; [subst; first [apply S; reflexivity | apply N; left; reflexivity | discriminate] |]); auto.
Qed.

(** The program stays inside its buffer and prints the word written out with the
    pattern that the library gives for it. *)
Theorem C67_printed : forall an h w t l sep, hyph_word w -> looked_up an (hyphIgnoreDot h) w t l -> good_analyses l -> sep <> 0 ->
  exists p out, voikkoHyphenateUcs4 an h w = Ok (Some p) /\ printed sep p w out /\ hyphenateWord an h w sep = Ok (out ++ [10]).
Proof.
  intros an h w t l sep W LU G S. destruct (C24_pattern_shape an h w t l W LU G) as (p & E & LP & A & _).
  destruct (hyphenate_loop_ok sep p w [] [] [] (repeat 0 (length w * 2 + 1)) A LP eq_refl) as (out & rest & P & NR & EL).
  { rewrite repeat_length. lia. }
  exists p, out. split; auto. split; auto. unfold hyphenateWord. rewrite E. cbn [bind]. cbn [app length] in EL. rewrite EL. cbn [bind].
  rewrite wr_next by auto. cbn [bind]. rewrite <- app_assoc. cbn [app]. rewrite SuggestInv2.cstr_app; [reflexivity|].
  eapply printed_no_zero; eauto. apply W.
Qed.
Print Assumptions C67_printed.

(** With a separator other than '-' that does not occur in the word, all
    characters of the word are printed: deleting the separators gives the word
    back. *)
Theorem C67_characters_kept : forall an h w t l sep, hyph_word w -> looked_up an (hyphIgnoreDot h) w t l -> good_analyses l -> sep <> 0 ->
  sep <> 0x2D -> ~ In sep w ->
  exists out, hyphenateWord an h w sep = Ok (out ++ [10]) /\ filter (fun c => negb (c =? sep)) out = w.
Proof.
  intros an h w t l sep W LU G S D N. destruct (C67_printed an h w t l sep W LU G S) as (p & out & _ & P & E). exists out. split; auto.
  clear - P D N. induction P as [|c p w r P IH|c p w r P IH|c p w r E P IH|c p w r E P IH]; auto; try contradiction;
    (assert (~ In sep w) as N1 by (intros X; apply N; right; auto)); specialize (IH N1);
    (assert (c <> sep) by (intros ->; apply N; left; auto)); cbn [filter]; rewrite ?Z.eqb_refl; cbn [negb]; replace (c =? sep) with false by lia; cbn [negb]; rewrite IH; auto.
Qed.
Print Assumptions C67_characters_kept.

(** With the separator '-' only hyphens and apostrophes of the word can be lost:
    without them the output is the word without them. *)
Theorem C67_hyphens : forall an h w t l, hyph_word w -> looked_up an (hyphIgnoreDot h) w t l -> good_analyses l -> fitting_analyses l t ->
  exists out, hyphenateWord an h w 0x2D = Ok (out ++ [10]) /\
    filter (fun c => negb ((c =? 0x2D) || (c =? 0x27))) out = filter (fun c => negb ((c =? 0x2D) || (c =? 0x27))) w.
Proof.
  intros an h w t l W LU G FI. destruct (C67_printed an h w t l 0x2D W LU G ltac:(lia)) as (p & out & EP & P & E). exists out. split; auto.
  assert (forall i, nth_error p i = Some 0x3D -> nth_error w i = Some 0x2D \/ nth_error w i = Some 0x27) as K
    by (intros i; eapply C24_replaced_characters; eauto).
  clear - P K. induction P as [|c p w r P IH|c p w r P IH|c p w r E P IH|c p w r E P IH]; auto; try congruence;
    (assert (filter (fun c => negb ((c =? 0x2D) || (c =? 0x27))) r = filter (fun c => negb ((c =? 0x2D) || (c =? 0x27))) w) as IH1
       by (apply IH; intros i X; apply (K (S i) X))); cbn [filter].
  - rewrite IH1. auto.
  - cbn [Z.eqb Pos.eqb orb negb]. rewrite IH1. auto.
  - cbn [Z.eqb Pos.eqb orb negb]. destruct (K 0%nat eq_refl) as [X|X]; injection X as ->; cbn [Z.eqb Pos.eqb orb negb]; auto.
Qed.
Print Assumptions C67_hyphens.

Example C67_printed_ex : exists h, voikkoInit = Ok h /\ hyph_word (wstr "kala-allas") /\
  looked_up toy_analyses (hyphIgnoreDot h) (wstr "kala-allas") (wstr "kala-allas") [an1 [(STRUCTURE, "=pppp-=ppppp"%string)]] /\
  good_analyses [an1 [(STRUCTURE, "=pppp-=ppppp"%string)]] /\ fitting_analyses [an1 [(STRUCTURE, "=pppp-=ppppp"%string)]] (wstr "kala-allas") /\
  hyphenateWord toy_analyses h (wstr "kala-allas") 0x2D = Ok (wstr "ka-la-al-las" ++ [10]) /\
  hyphenateWord toy_analyses h (wstr "kala-allas") 0x2F = Ok (wstr "ka/la/-al/las" ++ [10]).
Proof.
  eexists. split; [reflexivity|].
  split; [word_ok|].
  split. { apply looked_up_whole. left. discriminate. }
  split. { constructor; [|constructor]. eexists. split; [reflexivity|]. apply good_structure_check. reflexivity. }
  split. { constructor; [|constructor]. intros s E. injection E as <-. intros i X. do 10 (destruct i as [|i]; [cbn in X; try discriminate; reflexivity|]). cbn in X. destruct i; discriminate. }
  split; vm_compute; reflexivity.
Qed.

(** ** C68: voikkogc *)

(** -t: a line for each token of the text, in order. *)
Theorem C68_tokens : forall ignore_dot text toks fuel, token_seq (nextToken ignore_dot) text toks -> (length text < fuel)%nat ->
  print_tokens fuel ignore_dot text = Ok (unlines (map token_line toks)).
Proof.
  intros d text toks fuel T. revert fuel. induction T as [text n E|text t n rest E NE T IH]; intros fuel L; (destruct fuel as [|fuel]; [lia|]);
    destruct (nextToken_spec d text) as (t' & n' & E' & OK & LE & PO); rewrite E in E'; injection E' as <- <-.
  - destruct text as [|c text]; [reflexivity|]. destruct PO as [PO _]; congruence.
  - destruct text as [|c text].
    { cbn in E. congruence. }
    destruct PO as [_ PO]; [discriminate|]. cbn [print_tokens]. change (length (c :: text) =? 0)%nat with false. cbn [andb]. rewrite E. cbn [bind].
    replace (length (c :: text) <? n)%nat with false by lia.
    assert (print_tokens fuel d (skipn n (c :: text)) = Ok (unlines (map token_line rest))) as -> by (apply IH; rewrite skipn_length; lia).
    cbn [map]. change (token_line (t, firstn n (c :: text)) :: map token_line rest) with ([token_line (t, firstn n (c :: text))] ++ map token_line rest).
    rewrite unlines_app, unlines_one. unfold token_line. cbn [fst snd]. destruct t; try congruence; cbn [bind token_mark]; unfold endl; rewrite <- !app_assoc; reflexivity.
Qed.
Print Assumptions C68_tokens.

(** -s: a line for each sentence of the text, in order; together the lines hold
    the whole text. *)
Theorem C68_sentences : forall spell ignore_dot text fuel, text <> [] -> ~ In 0 text -> (length text < fuel)%nat ->
  exists ss, typed_sentences spell ignore_dot text ss /\ concat (map snd ss) = text /\
    split_sentences fuel spell ignore_dot text = Ok (unlines (map sentence_line ss)).
Proof.
  intros spell d text fuel. revert text. induction fuel as [|fuel IH]; intros text NE NZ L; [lia|].
  destruct (sentence_shape spell d text) as (toks & ty & n & _ & E & C). destruct text as [|c text]; [congruence|]. remember (c :: text) as t eqn:ET.
  assert ((length t =? 0)%nat = false) as LZ by (subst t; reflexivity).
  destruct C as [(-> & ->)|(CT & (B1 & B2) & _)].
  - exists [(SENTENCE_NONE, t)]. split; [eapply typed_end; eauto|]. split; [apply app_nil_r|]. cbn [split_sentences]. rewrite LZ, E. cbn [bind].
    rewrite cstr_id by auto. cbn [map]. rewrite unlines_one. unfold sentence_line. cbn [fst snd sentence_mark]. rewrite <- app_assoc. reflexivity.
  - assert (skipn n t <> []) as NS by (intros X; apply (f_equal (@length Z)) in X; rewrite skipn_length in X; cbn in X; lia).
    destruct (IH (skipn n t)) as (ss & TS & CC & ES); auto.
    { intros X. apply NZ. rewrite <- (firstn_skipn n t). apply in_or_app. auto. }
    { rewrite skipn_length. lia. }
    exists ((ty, firstn n t) :: ss). split; [eapply typed_step; eauto|]. split; [cbn [map concat snd]; rewrite CC; apply firstn_skipn|].
    cbn [split_sentences]. rewrite LZ, E. cbn [bind]. replace (length t <? n)%nat with false by lia. rewrite ES. cbn [bind].
    cbn [map]. change (sentence_line (ty, firstn n t) :: map sentence_line ss) with ([sentence_line (ty, firstn n t)] ++ map sentence_line ss).
    rewrite unlines_app, unlines_one. unfold sentence_line. cbn [fst snd]. destruct CT as [-> | ->]; cbn [sentence_mark]; unfold endl; rewrite <- !app_assoc; reflexivity.
Qed.
Print Assumptions C68_sentences.

Lemma comma_quoted : forall l, comma_separated l = quoted_list l.
Proof.
  induction l as [|x [|y l] IH]; [reflexivity|cbn; rewrite app_nil_r; reflexivity|].
  assert (comma_separated (x :: y :: l) = quoted x ++ wstr "," ++ comma_separated (y :: l)) as -> by (unfold quoted; rewrite <- !app_assoc; reflexivity). rewrite IH. unfold quoted_list. cbn [map concat].
  rewrite <- !app_assoc. reflexivity.
Qed.

Lemma error_line_printed : forall cfg e, (if printLineNumbersInGc cfg then decimal lineNumber ++ wstr " " else []) ++ print_error cfg e = error_line cfg e ++ [10].
Proof.
  intros cfg e. unfold error_line, print_error, endl. rewrite comma_quoted. change (decimal lineNumber ++ wstr " ") with (wstr "0 ").
  rewrite <- !app_assoc. destruct (printLineNumbersInGc cfg); destruct (explanation_language cfg); reflexivity.
Qed.

Lemma grammar_printed : forall b cfg text, structured (b_analyzer b) -> never_empty (b_autocorrect b) -> text_ok text ->
  forall l k h fuel, reached b h -> error_list b (gc_options_of h) text l -> (k <= length l)%nat -> (length l - k < fuel)%nat ->
  exists h', check_grammar fuel b cfg h text (Z.of_nat k) = Ok (unlines (paragraph_lines cfg (skipn k l)), h') /\
    reached b h' /\ gc_options_of h' = gc_options_of h.
Proof.
  intros b cfg text SB N T l k h fuel. revert k h. induction fuel as [|fuel IH]; intros k h R EL LK LF; [lia|].
  assert (forall start skip, exists h', voikkoNextGrammarErrorUcs4 b h (text ++ [0]) (length text) start skip = Ok (answer l start skip, h') /\
    reached b h' /\ gc_options_of h' = gc_options_of h) as CALL.
  { intros st sk. pose proof (reached_memory b h SB N R) as M. destruct (call_ok b h text [] st sk SB N T M) as (l' & h' & EL' & _ & E & _ & EO).
    rewrite (error_list_unique _ _ _ _ _ EL EL'). exists h'. split; auto. split; auto. eapply reached_step; [exact R|]. eapply gs_check; eauto. }
  destruct (CALL 0%nat (Z.of_nat k)) as (h' & E & R' & O').
  assert (answer l 0 (Z.of_nat k) = nth_error l k) as A.
  { unfold answer. rewrite Nat2Z.id. replace (filter (fun e => (startpos e <? 0)%nat) l) with (@nil gc_error) by (clear; induction l; auto).
    cbn [length]. rewrite Nat.max_0_r. reflexivity. }
  rewrite A in E. cbn [check_grammar]. rewrite E. cbn [bind]. destruct (nth_error l k) as [e|] eqn:NK.
  - assert (k < length l)%nat by (eapply nth_error_lt; eauto).
    destruct (IH (S k) h' R') as (h2 & E2 & R2 & O2); [rewrite O'; auto|lia|lia|]. replace (Z.of_nat k + 1) with (Z.of_nat (S k)) by lia.
    rewrite E2. cbn [bind]. exists h2. split; [|split; [auto|congruence]]. rewrite (BaseFacts.skipn_cons_nth _ _ _ _ NK).
    change (unlines (paragraph_lines cfg (e :: skipn (S k) l))) with ((error_line cfg e ++ [10]) ++ unlines (paragraph_lines cfg (skipn (S k) l))).
    rewrite <- error_line_printed, <- !app_assoc. reflexivity.
  - apply nth_error_None in NK. exists h'. split; [|auto]. rewrite skipn_all2 by auto. unfold paragraph_lines, last_line. cbn [map app]. rewrite unlines_one.
    change (decimal lineNumber ++ wstr " ") with (wstr "0 "). rewrite <- app_assoc. reflexivity.
Qed.

(** Without -t and -s: the errors of every line of the input, each on a line of
    its own, and after them "-". *)
Theorem C68_errors : forall b cfg h ps, structured (b_analyzer b) -> never_empty (b_autocorrect b) -> reached b h -> Forall text_ok ps ->
  exists ls, Forall2 (error_list b (gc_options_of h)) ps ls /\
    forall fuel, Forall (fun l => length l < fuel)%nat ls ->
      exists h', check_paragraphs fuel b cfg h ps = Ok (unlines (concat (map (paragraph_lines cfg) ls)), h').
Proof.
  intros b cfg h ps S N R T. revert h R. induction T as [|p ps TP T IH]; intros h R.
  - exists []. split; [constructor|]. intros fuel _. exists h. reflexivity.
  - destruct (C28_result b h p [] S N R TP) as (l & EL & _). destruct (IH h R) as (ls & ELS & _). exists (l :: ls). split; [constructor; auto|].
    intros fuel F. inversion F as [|? ? F1 F2]; subst.
    destruct (grammar_printed b cfg p S N TP l 0 h fuel R EL ltac:(lia) ltac:(lia)) as (h1 & E1 & R1 & O1).
    destruct (IH h1 R1) as (ls' & ELS' & E'). rewrite O1 in ELS'.
    assert (ls' = ls) as ->.
    { clear - ELS ELS'. revert ls' ELS'. induction ELS as [|p l ps ls X Y IHE]; intros ls' E'; inversion E'; subst; auto.
      f_equal; [eapply error_list_unique; eauto|auto]. }
    destruct (E' fuel F2) as (h2 & E2). exists h2. cbn [check_paragraphs]. change 0 with (Z.of_nat 0) at 1. rewrite E1. cbn [bind]. rewrite E2. cbn [bind map concat].
    rewrite unlines_app. reflexivity.
Qed.
Print Assumptions C68_errors.

Lemma digits_no_space : forall u, ~ In 32 (wstr (DecimalString.NilEmpty.string_of_uint u)).
Proof. induction u; cbn [DecimalString.NilEmpty.string_of_uint]; intros X; cbn [wstr map list_ascii_of_string] in X; try destruct X as [X|X]; try discriminate; auto. Qed.

Lemma decimal_no_space : forall n, ~ In 32 (decimal n).
Proof.
  intros n. unfold decimal, DecimalString.NilZero.string_of_uint. destruct (Nat.to_uint n) eqn:E; try apply digits_no_space.
  intros X. repeat (destruct X as [X|X]; [discriminate|]). destruct X.
Qed.

Lemma decimal_zero : forall n, decimal n = wstr "0" -> n = 0%nat.
Proof.
  intros n E. unfold decimal in E.
  assert (DecimalString.NilZero.string_of_uint (Nat.to_uint n) = "0"%string) as E'.
  { destruct (DecimalString.NilZero.string_of_uint (Nat.to_uint n)) as [|a [|b s]]; try discriminate. pose proof (f_equal (fun l => nth 0 l 0) E) as E0. change (Z.of_N (N_of_ascii a) = 48) in E0.
    assert (N_of_ascii a = 48%N) as E1 by lia. rewrite <- (Ascii.ascii_N_embedding a), E1. reflexivity. }
  assert (DecimalString.NilZero.uint_of_string (DecimalString.NilZero.string_of_uint (Nat.to_uint n)) = Some (Nat.to_uint n)) as U
    by (apply DecimalString.NilZero.usu; intros NI; pose proof (DecimalNat.Unsigned.of_to n) as O; rewrite NI in O; cbn in O; subst n; discriminate).
  rewrite E' in U. cbn in U. injection U as U. rewrite <- (DecimalNat.Unsigned.of_to n), <- U. reflexivity.
Qed.

Lemma numbered_zero : forall r, numbered 0 (wstr "0 " ++ r) /\ forall k, (0 < k)%nat -> ~ numbered k (wstr "0 " ++ r).
Proof.
  intros r. split; [exists r; reflexivity|]. intros k K (r' & E).
  enough (decimal k = wstr "0") as X by (apply decimal_zero in X; lia).
  pose proof (decimal_no_space k) as N. destruct (decimal k) as [|x [|y d]].
  - discriminate.
  - cbn in E. injection E as E _. subst x. reflexivity.
  - cbn in E. injection E as _ E _. elim N. right. left. auto.
Qed.

(** The manual says that -n puts the number of the line of input before each
    message; the program always puts 0 there. *)
Theorem C68_line_numbers_refuted : forall b lang h ps, structured (b_analyzer b) -> never_empty (b_autocorrect b) -> reached b h -> Forall text_ok ps ->
  exists ls, Forall2 (error_list b (gc_options_of h)) ps ls /\
    forall fuel, Forall (fun l => length l < fuel)%nat ls ->
      exists messages h', check_paragraphs fuel b (mk_gc_config true lang) h ps = Ok (unlines messages, h') /\
        (length ps <= length messages)%nat /\ Forall (fun m => numbered 0 m /\ forall k, (0 < k)%nat -> ~ numbered k m) messages.
Proof.
  intros b lang h ps S N R T. destruct (C68_errors b (mk_gc_config true lang) h ps S N R T) as (ls & EL & E). exists ls. split; auto.
  intros fuel F. destruct (E fuel F) as (h' & E'). exists (concat (map (paragraph_lines (mk_gc_config true lang)) ls)), h'. split; auto.
  clear - EL. induction EL as [|p l ps ls X EL (IH1 & IH2)]; [split; [auto|constructor]|]. cbn [map concat]. rewrite app_length. split.
  - unfold paragraph_lines at 1. rewrite app_length. cbn [length]. lia.
  - apply Forall_app. split; auto. unfold paragraph_lines. apply Forall_app. split.
    + apply Forall_forall. intros m I. apply in_map_iff in I. destruct I as (e & <- & _). unfold error_line. cbn [printLineNumbersInGc]. apply numbered_zero.
    + constructor; [|constructor]. unfold last_line. cbn [printLineNumbersInGc]. apply numbered_zero.
Qed.
Print Assumptions C68_line_numbers_refuted.

Example C68_ex : exists h, voikkoInit = Ok h /\ reached GrammarProps.toy h /\ structured toy_analyzer /\ Forall text_ok (map wstr ["ja  ei"; "On ei."]%string) /\
  shown (check_paragraphs 10 GrammarProps.toy (mk_gc_config false None) h (map wstr ["ja  ei"; "On ei."]%string)) =
    Ok (unlines (map wstr ["[code=7, level=0, descr="""", stpos=0, len=2, suggs={""Ja""}]"; "[code=2, level=0, descr="""", stpos=2, len=2, suggs={"" ""}]";
                           "[code=9, level=0, descr="""", stpos=4, len=2, suggs={}]"; "-"; "-"]%string)) /\
  print_tokens 100 false (wstr "ja, ei.") =
    Ok (unlines (map wstr ["W: ""ja"""; "P: "","""; "S: "" """; "W: ""ei"""; "P: ""."""]%string)) /\
  split_sentences 100 (fun _ => SPELL_FAILED) true (wstr "En tule. Menen!") = Ok (unlines (map wstr ["B: En tule. "; "E: Menen!"]%string)).
Proof.
  eexists. split; [reflexivity|]. split; [apply reached_init; reflexivity|]. split; [apply toy_structured|].
  split. { repeat constructor; try discriminate; cbn; intuition discriminate. }
  repeat split; vm_compute; reflexivity.
Qed.
