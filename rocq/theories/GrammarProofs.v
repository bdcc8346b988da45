(** * The grammar checker as a whole: all errors of a paragraph, the error list
    and the interface. *)
From Coq Require Import Permutation Sorted.
From Verif Require Import Base BaseFacts CharModel TokenModel TokenSpec TokenProofs SpellerBase SentenceModel SentenceSpec SentenceProofs
  AnalysisModel AnalyzerBase Utf8Model Utf8Proofs CacheModel GcCacheModel HandleModel ParaModel RulesModel GrammarModel GrammarSpec GrammarCallSpec ParaProofs ParaLoops
  RulesProofs AutocorrectProofs CapProofs.

(** ** All rules *)
Definition good_sentence (hi : nat) (s : gsentence) : Prop :=
  s_tokens s <> [] /\ located (s_pos s) (s_tokens s) /\ (s_pos s + tlen (s_tokens s) <= hi)%nat.

Lemma located_nonempty : forall l pos, located pos l -> Forall (fun t => g_str t <> []) l.
Proof. induction l as [|t l IH]; intros pos L; constructor; destruct L as (_ & N & L); eauto. Qed.

(** The conditions under which the autocorrect rules are safe. *)
Definition autocorrect_safe (tr : option prefix_lookup) (toks : list gtoken) : Prop :=
  forall t, tr = Some t -> consuming t /\ Forall (fun t => ~ In 0 (g_str t)) toks.

Lemma sentence_errors_ok : forall tr o s hi, good_sentence hi s -> autocorrect_safe tr (s_tokens s) ->
  exists l, sentence_errors tr o s = Ok l /\ Forall (fits hi) l.
Proof.
  intros tr o s hi (NE & L & H) A. unfold sentence_errors. cbv zeta.
  destruct (quotations_fits _ _ _ L H) as (l1 & -> & F1). cbn [bind].
  destruct (repeating_fits _ _ _ L H) as (l2 & -> & F2). cbn [bind].
  destruct (missing_fits o s hi NE L H) as (l3 & -> & F3). cbn [bind].
  destruct (negative_fits _ _ _ L H) as (l4 & -> & F4). cbn [bind].
  destruct (compound_fits _ _ _ L H) as (l5 & -> & F5). cbn [bind].
  destruct (sidesana_fits _ _ _ NE L H) as (l6 & -> & F6). cbn [bind].
  assert (exists l7, (match tr with Some t => autocorrect t s | None => Ok [] end) = Ok l7 /\ Forall (fits hi) l7) as (l7 & -> & F7).
  { destruct tr as [t|]; [|exists []; split; [reflexivity|constructor]]. destruct (A t eq_refl) as (C & Z).
    apply autocorrect_fits; auto. eapply located_nonempty; eauto. }
  cbn [bind]. eexists. split; [reflexivity|]. pose proof (local_fits (s_tokens s) true _ _ L H).
  repeat (apply Forall_app; split; auto).
Qed.

Lemma sentences_errors_ok : forall tr o p hi, Forall (good_sentence hi) p -> Forall (fun s => autocorrect_safe tr (s_tokens s)) p ->
  exists l, sentences_errors tr o p = Ok l /\ Forall (fits hi) l.
Proof.
  induction p as [|s p IH]; intros hi G A; cbn [sentences_errors]; [exists []; split; [reflexivity|constructor]|].
  inversion G; subst. inversion A; subst. destruct (sentence_errors_ok tr o s hi) as (e & -> & Fe); auto. cbn [bind].
  destruct (IH hi) as (l & -> & Fl); auto. cbn [bind]. eexists. split; [reflexivity|]. apply Forall_app; auto.
Qed.

Lemma cap_fits : forall p hi e, Forall (good_sentence hi) p -> cap_error p e -> fits hi e.
Proof.
  intros p hi e G C.
  assert (forall t, In t (all_tokens p) -> (g_pos t + tokenlen t <= hi)%nat /\ (0 < tokenlen t)%nat) as B.
  { intros t I. apply in_flat_map in I. destruct I as (s & Is & It). rewrite Forall_forall in G. destruct (G s Is) as (_ & L & H).
    destruct (In_nth_error _ _ It) as (i & E). destruct (located_nth _ _ _ _ L E). lia. }
  destruct C as [t s I|t s I|t I]; destruct (B t I); fit.
Qed.

Lemma rule_engine_ok : forall tr o p hi, p <> [] -> Forall (good_sentence hi) p -> Forall (fun s => autocorrect_safe tr (s_tokens s)) p ->
  exists l, rule_engine tr o p = Ok l /\ Forall (fits hi) l.
Proof.
  intros tr o p hi N G A. unfold rule_engine.
  destruct (sentences_errors_ok tr o p hi G A) as (l1 & -> & F1). cbn [bind].
  destruct (capitalization_ok o p) as (l2 & -> & F2).
  { eapply Forall_impl; [|exact G]. intros s (NE & L & _). split; auto. eapply located_nonempty; eauto. }
  cbn [bind]. destruct (end_fits o p hi N) as (l3 & -> & F3).
  { eapply Forall_impl; [|exact G]. intros s (NE & _). auto. }
  { intros s I. rewrite Forall_forall in G. destruct (G s I) as (_ & L & H). auto. }
  cbn [bind]. eexists. split; [reflexivity|]. repeat (apply Forall_app; split; auto).
  eapply Forall_impl; [|exact F2]. intros e C. eapply cap_fits; eauto.
Qed.

(** ** From the text to the sentences *)
Lemma tlen_shape : forall l, tlen l = length (concat (map snd (map shape l))).
Proof. intros l. unfold tlen. rewrite map_map. reflexivity. Qed.

Lemma describes_good : forall an ss pos p hi, describes pos ss p -> Forall (sentence_facts an) p -> Forall (fun s => s <> []) ss ->
  (pos + length (concat ss) <= hi)%nat -> Forall (good_sentence hi) p.
Proof.
  intros an ss. induction ss as [|s ss IH]; intros pos p hi D F N H; inversion D as [|? ? ? g q P T PO D']; subst; [constructor|].
  inversion F as [|? ? Fg Fq]; subst. inversion N as [|? ? Ns Nq]; subst. cbn [concat] in H. rewrite app_length in H.
  change (map (fun t => (g_type t, g_str t)) (s_tokens g)) with (map shape (s_tokens g)) in T.
  destruct (token_seq_concat _ _ _ T) as (C & _). pose proof (tlen_shape (s_tokens g)) as TL. rewrite C in TL.
  constructor; [|eapply IH; eauto; lia]. destruct Fg as (L & _). split; [|split; [auto|lia]].
  intros X. rewrite X in C. cbn in C. congruence.
Qed.

Lemma describes_concat : forall ss pos p, describes pos ss p -> concat (map g_str (flat_map s_tokens p)) = concat ss.
Proof.
  intros ss. induction ss as [|s ss IH]; intros pos p D; inversion D as [|? ? ? g q P T PO D']; subst; [reflexivity|].
  cbn [flat_map]. rewrite map_app, concat_app. cbn [concat]. erewrite IH by eauto. f_equal.
  destruct (token_seq_concat _ _ _ T) as (C & _). rewrite map_map in C. exact C.
Qed.

Lemma token_in_text : forall p t c, In t (flat_map s_tokens p) -> In c (g_str t) -> In c (concat (map g_str (flat_map s_tokens p))).
Proof. intros p t c I C. apply in_concat. exists (g_str t). split; [apply in_map; auto|auto]. Qed.

Lemma concat_firstn : forall A n (l : list (list A)) x, In x (concat (firstn n l)) -> In x (concat l).
Proof. intros A n l x I. apply in_concat in I. destruct I as (y & Y & X). apply in_concat. exists y. split; auto. eapply firstn_In; eauto. Qed.

Lemma concat_firstn_len : forall A n (l : list (list A)), (length (concat (firstn n l)) <= length (concat l))%nat.
Proof. intros A n l. rewrite <- (firstn_skipn n l) at 2. rewrite concat_app, app_length. lia. Qed.

(** The text is safe for the autocorrect rules of the backend. *)
Definition backend_safe (b : gc_backend) (text : list Z) : Prop :=
  structured (b_analyzer b) /\ (forall t, b_autocorrect b = Some t -> consuming t /\ ~ In 0 text).

Lemma find_errors_ok : forall b o d text, text <> [] -> backend_safe b text ->
  exists l, find_errors b o d text = Ok l /\ Forall (fits (length text)) l.
Proof.
  intros b o d text N (S & A). unfold find_errors, analyseParagraph.
  destruct (sure_sentences_exist (b_speller b) d text) as (ss & SS & CC & NN). specialize (NN N).
  destruct (paragraph_ok MAX_SENTENCES_IN_PARAGRAPH (b_speller b) (b_analyzer b) d text 0 ss S SS) as [(SH & p & E & D & F)|(SH & E)]; rewrite E; cbn [bind].
  2:{ exists []. split; [reflexivity|constructor]. }
  destruct (worth_checking p); [|exists []; split; [reflexivity|constructor]].
  set (shown := firstn MAX_SENTENCES_IN_PARAGRAPH ss) in *.
  assert (p <> []) as PN.
  { intros ->. inversion D as [? Q|]. subst. subst shown. destruct ss as [|s ss]; [inversion SS|]. discriminate. }
  assert (Forall (good_sentence (length text)) p) as G.
  { eapply describes_good; [exact D|exact F| |].
    - apply Forall_forall. intros s I. rewrite Forall_forall in NN. apply NN. eapply firstn_In; eauto.
    - cbn [Nat.add]. subst shown. pose proof (concat_firstn_len Z MAX_SENTENCES_IN_PARAGRAPH ss) as X. rewrite CC in X. exact X. }
  apply rule_engine_ok; auto.
  apply Forall_forall. intros s I t Et. destruct (A t Et) as (C & Z). split; [auto|]. apply Forall_forall. intros u Iu X. apply Z.
  rewrite <- CC. apply (concat_firstn _ MAX_SENTENCES_IN_PARAGRAPH). fold shown. rewrite <- (describes_concat _ _ _ D).
  eapply token_in_text; [|exact X]. apply in_flat_map. eauto.
Qed.

Lemma find_errors_dot : forall b o d d' text, find_errors b o d text = find_errors b o d' text.
Proof. intros. unfold find_errors, analyseParagraph. rewrite (paragraph_loop_dot _ _ _ d d'). reflexivity. Qed.

(** ** The error list *)
Definition by_start (e f : gc_error) : Prop := (startpos e <= startpos f)%nat.

Lemma append_loop_sorted : forall rest entry e, StronglySorted by_start (entry :: rest) -> (startpos entry <= startpos e)%nat ->
  StronglySorted by_start (append_loop entry rest e) /\ Permutation (append_loop entry rest e) (e :: entry :: rest) /\
  (forall k, filter (fun x => Nat.eqb (startpos x) k) (append_loop entry rest e) =
             filter (fun x => Nat.eqb (startpos x) k) (entry :: rest) ++ (if Nat.eqb (startpos e) k then [e] else [])).
Proof.
  induction rest as [|n r IH]; intros entry e SS LE; cbn [append_loop].
  - split; [constructor; [constructor; constructor|constructor; [exact LE|constructor]]|]. split; [apply perm_swap|].
    intros k. cbn [filter]. destruct (Nat.eqb (startpos entry) k), (Nat.eqb (startpos e) k); reflexivity.
  - inversion SS as [|? ? S2 F2]; subst. inversion F2 as [|? ? En Fr]; subst. unfold by_start in En.
    destruct ((startpos entry <=? startpos e)%nat && (startpos e <? startpos n)%nat) eqn:Q.
    + apply andb_true_iff in Q. destruct Q as (_ & Q). apply Nat.ltb_lt in Q. inversion S2 as [|? ? S3 F3]; subst.
      split; [|split; [apply perm_swap|]].
      * constructor; [constructor; [exact S2|]|]; constructor; auto; unfold by_start in *; try lia.
        eapply Forall_impl; [|exact F3]. cbn. intros. lia.
      * intros k. cbn [filter]. destruct (Nat.eqb_spec (startpos e) k); [|rewrite app_nil_r; reflexivity].
        assert (filter (fun x => Nat.eqb (startpos x) k) (n :: r) = []) as X.
        { apply forallb_filter_id || idtac. clear - F3 Q e0. cbn [filter].
          destruct (Nat.eqb_spec (startpos n) k); [lia|]. induction r as [|m r IHr]; [reflexivity|]. inversion F3; subst. cbn [filter].
          destruct (Nat.eqb_spec (startpos m) (startpos e)); [unfold by_start in *; lia|]. apply IHr; auto. }
        change (filter (fun x => Nat.eqb (startpos x) k) (n :: r)) with (if Nat.eqb (startpos n) k then n :: filter (fun x => Nat.eqb (startpos x) k) r else filter (fun x => Nat.eqb (startpos x) k) r) in X.
        rewrite X. destruct (Nat.eqb (startpos entry) k); reflexivity.
    + assert (startpos n <= startpos e)%nat as LN.
      { apply andb_false_iff in Q. destruct Q as [Q|Q]; [apply Nat.leb_gt in Q; lia|apply Nat.ltb_ge in Q; lia]. }
      destruct (IH n e S2 LN) as (I1 & I2 & I3). split; [|split].
      * constructor; auto. apply Forall_forall. intros x X. apply (Permutation_in _ I2) in X. destruct X as [<-|X]; [exact LE|].
        rewrite Forall_forall in F2. auto.
      * rewrite I2. apply perm_swap.
      * intros k. cbn [filter] in *. rewrite I3. destruct (Nat.eqb (startpos entry) k); reflexivity.
Qed.

Lemma append_sorted : forall l e, StronglySorted by_start l ->
  StronglySorted by_start (append_error l e) /\ Permutation (append_error l e) (e :: l) /\
  (forall k, filter (fun x => Nat.eqb (startpos x) k) (append_error l e) =
             filter (fun x => Nat.eqb (startpos x) k) l ++ (if Nat.eqb (startpos e) k then [e] else [])).
Proof.
  intros [|n r] e SS; cbn [append_error].
  - split; [constructor; constructor|]. split; [auto|]. intros k. cbn. destruct (Nat.eqb (startpos e) k); reflexivity.
  - destruct (startpos e <? startpos n)%nat eqn:Q; [|apply append_loop_sorted; auto; apply Nat.ltb_ge in Q; lia].
    apply Nat.ltb_lt in Q. inversion SS as [|? ? S2 F2]; subst. split; [|split; [auto|]].
    + constructor; auto. constructor; [unfold by_start; lia|]. eapply Forall_impl; [|exact F2]. unfold by_start. intros. lia.
    + intros k. cbn [filter]. destruct (Nat.eqb_spec (startpos e) k); [|rewrite app_nil_r; reflexivity].
      destruct (Nat.eqb_spec (startpos n) k); [lia|]. cbn [app].
      assert (filter (fun x => Nat.eqb (startpos x) k) r = []) as ->; [|reflexivity].
      clear - F2 Q e0. induction r as [|m r IHr]; [reflexivity|]. inversion F2; subst. cbn [filter].
      destruct (Nat.eqb_spec (startpos m) (startpos e)); [unfold by_start in *; lia|]. apply IHr; auto.
Qed.

Lemma fold_sorted : forall l acc, StronglySorted by_start acc ->
  let r := fold_left append_error l acc in
  StronglySorted by_start r /\ Permutation r (acc ++ l) /\
  (forall k, filter (fun x => Nat.eqb (startpos x) k) r = filter (fun x => Nat.eqb (startpos x) k) (acc ++ l)).
Proof.
  induction l as [|e l IH]; intros acc SS; cbn [fold_left]; cbv zeta.
  - rewrite app_nil_r. auto.
  - destruct (append_sorted acc e SS) as (A & B & C). destruct (IH (append_error acc e) A) as (D & E & F). split; [auto|]. split.
    + rewrite E, B. cbn. apply Permutation_middle.
    + intros k. rewrite F, !filter_app, C. cbn [filter]. rewrite <- app_assoc. f_equal. destruct (Nat.eqb (startpos e) k); reflexivity.
Qed.

(** The loop that looks for the error to report. *)
Definition before (start : nat) (l : list gc_error) : nat := length (filter (fun e => (startpos e <? start)%nat) l).

Lemma error_loop_skip : forall l prev skip start, error_loop l prev skip start =
  error_loop (skipn (Z.to_nat (skip - prev)) l) (Z.max prev skip) skip start.
Proof.
  induction l as [|e l IH]; intros prev skip start.
  - rewrite skipn_nil. reflexivity.
  - destruct (Z_le_dec skip prev).
    + replace (Z.to_nat (skip - prev)) with 0%nat by lia. rewrite Z.max_l by lia. reflexivity.
    + replace (Z.to_nat (skip - prev)) with (S (Z.to_nat (skip - (prev + 1)))) by lia. cbn [skipn error_loop].
      replace (skip <=? prev) with false by lia. cbn [andb]. rewrite IH. f_equal. lia.
Qed.

Lemma error_loop_sorted : forall l prev skip start, StronglySorted by_start l -> skip <= prev ->
  error_loop l prev skip start = nth_error l (before start l).
Proof.
  induction l as [|e l IH]; intros prev skip start SS LE; [reflexivity|]. inversion SS as [|? ? S2 F2]; subst.
  cbn [error_loop]. unfold before. cbn [filter]. replace (skip <=? prev) with true by lia. cbn [andb].
  destruct (startpos e <? start)%nat eqn:Q.
  - replace (start <=? startpos e)%nat with false by lia. cbn [length nth_error]. apply IH; auto; lia.
  - replace (start <=? startpos e)%nat with true by lia.
    replace (filter (fun e0 => (startpos e0 <? start)%nat) l) with (@nil gc_error); [reflexivity|].
    symmetry. clear - Q F2. induction l as [|m l IHl]; [reflexivity|]. inversion F2; subst. unfold by_start in *. cbn [filter].
    replace (startpos m <? start)%nat with false by lia. auto.
Qed.

Lemma sorted_skipn : forall n l, StronglySorted by_start l -> StronglySorted by_start (skipn n l).
Proof. induction n as [|n IH]; intros [|x l] S; cbn; auto. inversion S; auto. Qed.

Lemma before_skipn : forall n l start, StronglySorted by_start l -> (n + before start (skipn n l) = Nat.max n (before start l))%nat \/ (length l <= n)%nat.
Proof.
  induction n as [|n IH]; intros l start S; [left; cbn [skipn]; rewrite Nat.max_0_l; reflexivity|]. destruct l as [|e l]; [right; cbn; lia|].
  inversion S as [|? ? S2 F2]; subst. cbn [skipn]. destruct (IH l start S2) as [H|H]; [left|right; cbn; lia].
  unfold before in *. cbn [filter]. destruct (startpos e <? start)%nat eqn:Q; [cbn [length]; lia|].
  assert (filter (fun e0 => (startpos e0 <? start)%nat) l = []) as X.
  { clear - Q F2. induction l as [|m l IHl]; [reflexivity|]. inversion F2; subst. unfold by_start in *. cbn [filter].
    replace (startpos m <? start)%nat with false by lia. auto. }
  rewrite X in *. cbn [length] in *. lia.
Qed.

Lemma nth_skipn : forall A (l : list A) i j, nth_error (skipn i l) j = nth_error l (i + j).
Proof. intros A l i. revert l. induction i as [|i IH]; intros [|x l] j; cbn; auto. destruct j; auto. Qed.

(** The error found is the one after those skipped and those that start too early. *)
Lemma error_loop_nth : forall l skip start, StronglySorted by_start l ->
  error_loop l 0 skip start = nth_error l (Nat.max (Z.to_nat skip) (before start l)).
Proof.
  intros l skip start S. rewrite error_loop_skip, Z.sub_0_r. rewrite error_loop_sorted by (try apply sorted_skipn; auto; lia).
  rewrite nth_skipn. destruct (before_skipn (Z.to_nat skip) l start S) as [H|H]; [rewrite H; reflexivity|].
  rewrite !(proj2 (nth_error_None _ _)); auto; lia.
Qed.

(** ** The interface *)
Lemma wcscmp_same : forall t r, ~ In 0 t -> wcscmp_eq (t ++ [0]) (t ++ 0 :: r) = Ok true.
Proof.
  induction t as [|c t IH]; intros r N; cbn [app wcscmp_eq]; [reflexivity|]. rewrite Z.eqb_refl. cbn [negb].
  destruct (Z.eqb_spec c 0) as [->|]; [elim N; left; auto|]. apply IH. intros X. apply N. right. auto.
Qed.
Lemma wcscmp_other : forall t u r, ~ In 0 t -> ~ In 0 u -> t <> u -> wcscmp_eq (t ++ [0]) (u ++ 0 :: r) = Ok false.
Proof.
  induction t as [|c t IH]; intros u r N M D; destruct u as [|d u]; cbn [app wcscmp_eq]; try congruence.
  - destruct (Z.eqb_spec 0 d) as [<-|]; [elim M; left; auto|reflexivity].
  - destruct (Z.eqb_spec c 0) as [->|]; [elim N; left; auto|reflexivity].
  - destruct (Z.eqb_spec c d) as [<-|]; cbn [negb]; [|reflexivity]. destruct (Z.eqb_spec c 0) as [->|]; [elim N; left; auto|].
    apply IH; [intros X; apply N; right; auto|intros X; apply M; right; auto|congruence].
Qed.

Lemma firstn_text : forall (t r : list Z), firstn (length t) (t ++ r) = t.
Proof. intros. rewrite firstn_app, Nat.sub_diag, firstn_all. cbn. rewrite app_nil_r. reflexivity. Qed.

Lemma to_cache_ok : forall b h text rest l, find_errors b (gc_options_of h) (ignore_dot h) text = Ok l ->
  paragraphToCache b h (text ++ rest) (length text) = Ok (mk_gc_cache (Some (text ++ [0])) (fold_left append_error l [])).
Proof.
  intros b h text rest l E. unfold paragraphToCache. rewrite app_length.
  replace (length text + length rest <? length text)%nat with false by lia. rewrite firstn_text, E. reflexivity.
Qed.

(** ** The memory of the handle *)
Definition memory_ok (b : gc_backend) (h : handle) : Prop :=
  gcCache h = gc_empty \/
  exists text l, text_ok text /\ find_errors b (gc_options_of h) false text = Ok l /\
    gcCache h = mk_gc_cache (Some (text ++ [0])) (fold_left append_error l []).

Lemma fits_code : forall hi l, Forall (fits hi) l -> forall e, In e (fold_left append_error l []) -> (error_code e =? 0) = false.
Proof.
  intros hi l F e I. destruct (fold_sorted l [] (SSorted_nil _)) as (_ & P & _). apply (Permutation_in _ P) in I. cbn in I.
  rewrite Forall_forall in F. destruct (F e I) as (_ & _ & C). lia.
Qed.

(** The answer of a call on a handle with a good memory. *)
Lemma call_ok : forall b h text rest start skip, structured (b_analyzer b) -> never_empty (b_autocorrect b) -> text_ok text -> memory_ok b h ->
  exists l h', error_list b (gc_options_of h) text l /\ Forall (fits (length text)) l /\
    voikkoNextGrammarErrorUcs4 b h (text ++ 0 :: rest) (length text) start skip = Ok (answer l start skip, h') /\
    memory_ok b h' /\ gc_options_of h' = gc_options_of h.
Proof.
  intros b h text rest start skip ST NE (TN & TZ) M.
  destruct (find_errors_ok b (gc_options_of h) false text TN) as (found & E & F).
  { split; [auto|]. intros t T. split; [|auto]. intros i o n X. eapply NE; eauto. }
  destruct (fold_sorted found [] (SSorted_nil _)) as (S1 & P1 & K1). cbn [app] in P1, K1.
  set (l := fold_left append_error found []) in *.
  assert (error_list b (gc_options_of h) text l) as EL by (exists found; repeat split; auto).
  assert (Forall (fits (length text)) l) as FL by (eapply Permutation_Forall; [symmetry; exact P1|exact F]).
  assert (forall a, a = nth_error l (Nat.max (Z.to_nat skip) (before start l)) ->
            match a with Some e => if error_code e =? 0 then None else Some e | None => None end = answer l start skip) as AN.
  { intros a A. unfold answer. fold (before start l). rewrite <- A. destruct a as [e|]; [|reflexivity].
    rewrite (fits_code _ _ F e); [reflexivity|]. symmetry in A. eapply nth_error_In; eauto. }
  unfold voikkoNextGrammarErrorUcs4. replace (Nat.eqb (length text) 0) with false by (destruct text; [congruence|reflexivity]).
  cbv zeta.
  assert (exists g, gcCache h = g) as (g & G) by eauto.
  assert (errorFromCache (gcCache h) (text ++ 0 :: rest) start skip = Ok NOT_CACHED \/
          gcCache h = mk_gc_cache (Some (text ++ [0])) l) as [NC|HIT].
  { destruct M as [M|(u & lu & (UN & UZ) & EU & M)]; rewrite M; [left; reflexivity|].
    destruct (list_eq_dec Z.eq_dec u text) as [->|D].
    - right. rewrite E in EU. injection EU as <-. reflexivity.
    - left. unfold errorFromCache. cbn [paragraph]. rewrite wcscmp_other by auto. reflexivity. }
  - rewrite NC. cbn [bind]. rewrite (to_cache_ok b h text (0 :: rest) found).
    2:{ rewrite (find_errors_dot b _ _ false). exact E. }
    fold l. cbn [bind]. unfold errorFromCache. cbn [paragraph errors]. rewrite wcscmp_same by auto. cbn [bind].
    rewrite error_loop_nth by auto. exists l, (with_gcCache h (mk_gc_cache (Some (text ++ [0])) l)).
    split; [auto|]. split; [auto|]. split; [|split; [|reflexivity]].
    + rewrite <- (AN _ eq_refl). destruct (nth_error l (Nat.max (Z.to_nat skip) (before start l))); reflexivity.
    + right. exists text, found. repeat split; auto.
  - rewrite HIT. unfold errorFromCache. cbn [paragraph errors]. rewrite wcscmp_same by auto. cbn [bind].
    rewrite error_loop_nth by auto. exists l, h. split; [auto|]. split; [auto|]. split; [|split; [|reflexivity]].
    + rewrite <- (AN _ eq_refl). destruct (nth_error l (Nat.max (Z.to_nat skip) (before start l))); reflexivity.
    + right. exists text, found. repeat split; auto.
Qed.

(** The UTF-8 interface. *)
Lemma cstr_split : forall w, exists rest, w ++ [0] = cstr w ++ 0 :: rest.
Proof.
  induction w as [|c w IH]; cbn [cstr app]; [exists []; reflexivity|].
  destruct (Z.eqb_spec c 0) as [->|]; [exists (w ++ [0]); reflexivity|]. destruct IH as (r & ->). exists r. reflexivity.
Qed.

Lemma call_utf8 : forall b h bytes start skip,
  voikkoNextGrammarErrorCstr b h bytes start skip =
  match bytes with
  | [] => Ok (None, h)
  | _ => o <- ucs4FromUtf8 bytes ;;
      match o with
      | None => Ok (None, h)
      | Some w => match cstr w with
                  | [] => Ok (None, h)
                  | _ => voikkoNextGrammarErrorUcs4 b h (w ++ [0]) (length (cstr w)) start skip
                  end
      end
  end.
Proof.
  intros. unfold voikkoNextGrammarErrorCstr. destruct bytes as [|c r]; [reflexivity|]. cbn [length Nat.eqb].
  destruct (ucs4FromUtf8 (c :: r)) as [[w|]| |]; cbn [bind]; try reflexivity. destruct (cstr w); reflexivity.
Qed.

Lemma text_ok_cstr : forall w c r, cstr w = c :: r -> text_ok (cstr w).
Proof.
  intros w c r E. split; [congruence|]. clear. induction w as [|d w IH]; cbn [cstr]; [auto|].
  destruct (Z.eqb_spec d 0); [auto|]. intros [X|X]; auto.
Qed.

Lemma options_bool : forall b h o v, memory_ok b h -> memory_ok b (snd (voikkoSetBooleanOption h o v)).
Proof.
  intros b h o v M.
  assert (forall a c d e, (gcCache (with_gc_options h a c d e) = e) /\ gc_options_of (with_gc_options h a c d e) = mk_gc_options a c d) as W by (intros; split; reflexivity).
  unfold voikkoSetBooleanOption.
  destruct o as [|p|p]; [exact M| |exact M].
  do 5 (try (destruct p as [p|p|]; try exact M)).
  all: unfold setGrammarOption; destruct v; cbn [andb negb];
    repeat match goal with |- context [if ?x then _ else _] => destruct x eqn:? end; cbn [snd];
    try (left; reflexivity); destruct h; cbn in *; subst; exact M.
Qed.

Lemma options_int : forall h o v r h', voikkoSetIntegerOption h o v = Ok (r, h') -> gcCache h' = gcCache h /\ gc_options_of h' = gc_options_of h.
Proof.
  intros h o v r h' E.
  assert ((exists c, h' = with_spellerCache h c) \/ (exists x y z, h' = with_hyph h x y z) \/ h' = h) as [(c & ->)|[(x & y & z & ->)| ->]]; [|split; reflexivity..].
  unfold voikkoSetIntegerOption in E. destruct o as [|p|p]; try (injection E as <- <-; auto).
  do 5 (try (destruct p as [p|p|]; try (injection E as <- <-; eauto 6))).
  destruct (spellerCache h) as [c|].
  - destruct (negb (sizeParam c =? v)); [|injection E as <- <-; auto].
    destruct (0 <=? v); [|injection E as <- <-; eauto]. destruct (new_cache v); cbn [bind] in E; try discriminate. injection E as <- <-. eauto.
  - destruct (0 <=? v); [|injection E as <- <-; eauto]. destruct (new_cache v); cbn [bind] in E; try discriminate. injection E as <- <-. eauto.
Qed.

Lemma reached_memory : forall b h, structured (b_analyzer b) -> never_empty (b_autocorrect b) -> reached b h -> memory_ok b h.
Proof.
  intros b h S N R. induction R as [h I|h h' R IH G].
  - left. unfold voikkoInit in I. destruct (new_cache 0); cbn [bind] in I; try discriminate. injection I as <-. reflexivity.
  - assert (forall text rest start skip r, text_ok text -> voikkoNextGrammarErrorUcs4 b h (text ++ 0 :: rest) (length text) start skip = Ok (r, h') -> memory_ok b h') as C.
    { intros text rest start skip r T E. destruct (call_ok b h text rest start skip S N T IH) as (l & h2 & _ & _ & E2 & M & _). congruence. }
    inversion G as [? text rest start skip r ? T E|? bytes start skip r ? E|? o v|? o v r ? E|? ? E1 E2]; subst.
    + eapply C; eauto.
    + rewrite call_utf8 in E. destruct bytes as [|c0 r0]; [congruence|]. destruct (ucs4FromUtf8 (c0 :: r0)) as [[w|]| |]; cbn [bind] in E; try discriminate; [|congruence].
      destruct (cstr w) as [|c1 r1] eqn:CW; [congruence|]. rewrite <- CW in *. destruct (cstr_split w) as (rest & X). rewrite X in E.
      eapply C; [|exact E]. eapply text_ok_cstr; eauto.
    + apply options_bool; auto.
    + apply options_int in E. destruct E as (E1 & E2). destruct IH as [M|(t & l & T & F & M)]; [left; congruence|right; exists t, l; rewrite E1, E2; auto].
    + destruct IH as [M|(t & l & T & F & M)]; [left; congruence|right; exists t, l; rewrite E1, E2; auto].
Qed.

(** A sorted list is determined by the errors at each position. *)
Lemma sorted_determined : forall l l', StronglySorted by_start l -> StronglySorted by_start l' ->
  (forall k, filter (starts_at k) l = filter (starts_at k) l') -> l = l'.
Proof.
  assert (forall e l, StronglySorted by_start (e :: l) -> forall k, (k < startpos e)%nat -> filter (starts_at k) (e :: l) = []) as Z.
  { intros e l S k K. inversion S as [|? ? S2 F2]; subst. cbn [filter]. unfold starts_at at 1. replace (Nat.eqb (startpos e) k) with false by (symmetry; apply Nat.eqb_neq; lia).
    clear S S2. induction l as [|f l IH]; [reflexivity|]. inversion F2 as [|? ? A B]; subst. unfold by_start in A. cbn [filter]. unfold starts_at at 1.
    replace (Nat.eqb (startpos f) k) with false by (symmetry; apply Nat.eqb_neq; lia). auto. }
  assert (forall e l k, startpos e = k -> filter (starts_at k) (e :: l) = e :: filter (starts_at k) l) as P.
  { intros e l k <-. cbn [filter]. unfold starts_at at 1. rewrite Nat.eqb_refl. reflexivity. }
  induction l as [|e l IH]; intros l' S S' H.
  - destruct l' as [|f l']; [reflexivity|]. specialize (H (startpos f)). rewrite P in H by auto. discriminate.
  - destruct l' as [|f l']. { specialize (H (startpos e)). rewrite P in H by auto. discriminate. }
    assert (startpos e = startpos f) as Q.
    { destruct (lt_eq_lt_dec (startpos e) (startpos f)) as [[L|L]|L]; [|auto|].
      - pose proof (H (startpos e)) as X. rewrite P in X by auto. rewrite (Z f l' S' _ L) in X. discriminate.
      - pose proof (H (startpos f)) as X. rewrite (P f l') in X by auto. rewrite (Z e l S _ L) in X. discriminate. }
    pose proof (H (startpos e)) as X. rewrite !P in X by auto. injection X as <- X. f_equal. inversion S; inversion S'; subst. apply IH; auto.
    intros k. specialize (H k). cbn [filter] in H. destruct (starts_at k e); [injection H as H|]; auto.
Qed.

Lemma error_list_unique : forall b o text l l', error_list b o text l -> error_list b o text l' -> l = l'.
Proof.
  intros b o text l l' (f & E & _ & S & K) (f' & E' & _ & S' & K'). rewrite E in E'. injection E' as <-.
  apply sorted_determined; auto. intros k. rewrite K, K'. reflexivity.
Qed.

Lemma analyse_unfold : forall spell an d text, analyseParagraph spell an d text = analyseParagraph_loop MAX_SENTENCES_IN_PARAGRAPH spell an d text 0.
Proof. reflexivity. Qed.
