(** * Properties of the grammar checker (C28 to C32, C43, C51). *)
From Coq Require Import Permutation Sorted.
From Verif Require Import Base BaseFacts CharModel TokenModel TokenSpec TokenProofs SpellerBase SentenceModel SentenceSpec SentenceProofs
  AnalysisModel AnalyzerBase Utf8Model Utf8Proofs CacheModel GcCacheModel HandleModel ParaModel RulesModel GrammarModel GrammarSpec GrammarCallSpec
  ParaProofs ParaLoops RulesProofs AutocorrectProofs CapProofs GrammarProofs.

(** ** A small dictionary for the examples *)
Definition an1 (l : list (Key * string)) : analysis :=
  fun k => match find (fun p => key_eqb (fst p) k) l with
           | Some (_, s) => Some (wstr s) | None => None end.
Definition toy_analyzer : analyzer := fun _ w =>
  if zlist_eqb w (wstr "ei") then [an1 [(STRUCTURE, "=pp"); (CLASS, "kieltosana")]]%string
  else if zlist_eqb w (wstr "luen") then [an1 [(STRUCTURE, "=pppp"); (CLASS, "teonsana"); (MOOD, "indicative"); (NEGATIVE, "false"); (PERSON, "1")]]%string
  else if zlist_eqb w (wstr "ja") then [an1 [(STRUCTURE, "=pp"); (CLASS, "sidesana")]]%string
  else if zlist_eqb w (wstr "Matti") then [an1 [(STRUCTURE, "=ippppp"); (CLASS, "etunimi")]]%string
  else [an1 [(STRUCTURE, "=p"); (CLASS, "nimisana")]]%string.
Definition toy : gc_backend := mk_backend (fun _ => SPELL_FAILED) toy_analyzer None.
Definition toy_rules : prefix_lookup := fun w => if starts_with (wstr "joten kuten") w then Some (wstr "jotenkuten", 11%nat) else None.
Definition toy2 : gc_backend := mk_backend (fun _ => SPELL_FAILED) toy_analyzer (Some toy_rules).
Definition no_options : gc_options := mk_gc_options false false false.
Definition code_spans (r : res (list gc_error)) : option (list (Z * nat * nat)) :=
  match r with Ok l => Some (map (fun e => (error_code e, startpos e, errorlen e)) l) | _ => None end.

Lemma toy_structured : structured toy_analyzer.
Proof.
  intros w a I. unfold toy_analyzer in I.
  repeat match type of I with In _ (if ?x then _ else _) => destruct x end; destruct I as [<-|[]]; discriminate.
Qed.
Lemma toy_never_empty : never_empty (Some toy_rules).
Proof.
  intros t i o n E R. injection E as <-. unfold toy_rules in R. destruct (starts_with (wstr "joten kuten") i); [|discriminate]. injection R as _ <-. lia.
Qed.

(** ** C31: the analysis *)

(** The sentences of any text are uniquely determined, they concatenate to the
    text and none is empty.  The first 200 of them are analysed: if none has
    more than 500 tokens, the result lists their tokens, with their true
    positions, otherwise the paragraph is not checked at all. *)
Theorem C31_analysis : forall spell an d text, structured an ->
  exists ss, sure_sentences (sentence_next spell d) text ss /\
    (forall ss', sure_sentences (sentence_next spell d) text ss' -> ss' = ss) /\
    concat ss = text /\ (text <> [] -> Forall (fun s => s <> []) ss) /\
    (Forall short_sentence (firstn 200 ss) ->
       exists p, analyseParagraph spell an d text = Ok (Some p) /\ describes 0 (firstn 200 ss) p) /\
    (~ Forall short_sentence (firstn 200 ss) -> analyseParagraph spell an d text = Ok None).
Proof.
  intros spell an d text S. destruct (sure_sentences_exist spell d text) as (ss & H & C & N). exists ss.
  split; [auto|]. split; [intros; eapply sure_sentences_unique; eauto|]. split; [auto|]. split; [auto|].
  destruct (paragraph_ok MAX_SENTENCES_IN_PARAGRAPH spell an d text 0 ss S H) as [(F & p & E & D & _)|(F & E)].
  - split; [intros _; exists p; split; auto|intros X; elim X; auto].
  - split; [intros X; elim F; auto|intros _; auto].
Qed.
Print Assumptions C31_analysis.
Example C31_analysis_ex :
  (match analyseParagraph (fun _ => SPELL_FAILED) toy_analyzer true (wstr "Matti ei lue. Ei! ") with
   | Ok (Some p) => Some (map (fun s => (s_pos s, map (fun t => (g_type t, g_pos t, length (g_str t))) (s_tokens s))) p)
   | _ => None
   end)
  = Some [(0, [(TOKEN_WORD, 0, 5); (TOKEN_WHITESPACE, 5, 1); (TOKEN_WORD, 6, 2); (TOKEN_WHITESPACE, 8, 1); (TOKEN_WORD, 9, 3);
               (TOKEN_PUNCTUATION, 12, 1); (TOKEN_WHITESPACE, 13, 1)]);
          (14, [(TOKEN_WORD, 14, 2); (TOKEN_PUNCTUATION, 16, 1); (TOKEN_WHITESPACE, 17, 1)])]%nat.
Proof. vm_compute. reflexivity. Qed.


(** Up to 200 sentences the tokens cover the text. *)
Theorem C31_cover : forall spell an d text p ss, structured an -> sure_sentences (sentence_next spell d) text ss -> (length ss <= 200)%nat ->
  analyseParagraph spell an d text = Ok (Some p) ->
  concat (map g_str (flat_map s_tokens p)) = text /\
  (text <> [] -> Forall (fun s => s_tokens s <> []) p) /\
  (forall i t, nth_error (flat_map s_tokens p) i = Some t ->
     g_pos t = length (concat (map g_str (firstn i (flat_map s_tokens p))))).
Proof.
  intros spell an d text p ss S H L E.
  destruct (sure_sentences_exist spell d text) as (ss' & H' & C & N). rewrite (sure_sentences_unique _ _ _ _ H' H) in *. clear ss' H'.
  destruct (paragraph_ok MAX_SENTENCES_IN_PARAGRAPH spell an d text 0 ss S H) as [(F & p' & E' & D & FA)|(F & E')].
  2:{ rewrite analyse_unfold, E' in E. discriminate. }
  rewrite analyse_unfold, E' in E. injection E as ->.
  change MAX_SENTENCES_IN_PARAGRAPH with 200%nat in D. rewrite (firstn_all2 _ L) in D. clear E' F L H. split; [|split].
  - rewrite (describes_concat _ _ _ D). auto.
  - intros NE. eapply Forall_impl; [|eapply (describes_good an ss 0 p (length text)); eauto]; [intros s (X & _); exact X|].
    rewrite C. cbn. lia.
  - clear - D. change (forall i t, nth_error (flat_map s_tokens p) i = Some t -> g_pos t = (0 + length (concat (map g_str (firstn i (flat_map s_tokens p)))))%nat).
    revert D. generalize 0%nat as pos. revert p. induction ss as [|s ss IH]; intros p pos D i t E; inversion D as [|? ? ? g q P T PO D']; subst.
    { destruct i; discriminate. }
    cbn [flat_map] in *. destruct (lt_dec i (length (s_tokens g))) as [Li|Li].
    + rewrite nth_error_app1 in E by auto. rewrite firstn_app. replace (i - length (s_tokens g))%nat with 0%nat by lia.
      cbn [firstn]. rewrite app_nil_r. eapply PO; eauto.
    + rewrite nth_error_app2 in E by lia. rewrite (IH q _ D' _ _ E). rewrite firstn_app, (firstn_all2 (s_tokens g)) by lia.
      rewrite map_app, concat_app, app_length. destruct (token_seq_concat _ _ _ T) as (C & _). rewrite map_map in C.
      replace (concat (map g_str (s_tokens g))) with s by (symmetry; exact C). lia.
Qed.
Print Assumptions C31_cover.
Example C31_cover_ex :
  sure_sentences (sentence_next (fun _ => SPELL_FAILED) false) (wstr "Ei. Jo! On") [wstr "Ei. "; wstr "Jo! "; wstr "On"].
Proof.
  eapply sures_step with (ty := SENTENCE_PROBABLE) (rest := wstr "Jo! On"); [exact (sure_here _ (wstr "Ei. Jo! On") SENTENCE_PROBABLE 4 false eq_refl ltac:(discriminate))|discriminate|].
  eapply sures_step with (ty := SENTENCE_PROBABLE) (rest := wstr "On"); [exact (sure_here _ (wstr "Jo! On") SENTENCE_PROBABLE 4 false eq_refl ltac:(discriminate))|discriminate|].
  eapply sures_end with (rest := []). exact (sure_here _ (wstr "On") SENTENCE_NONE 2 false eq_refl ltac:(discriminate)).
Qed.

(** Beyond 200 sentences the rest of the text is silently ignored: the double
    comma at the end is not found. *)
Definition many : list Z := concat (repeat (wstr "Ei! ") 200) ++ wstr "On ,, ei.".
Theorem C31_limit_refuted : exists text, code_spans (find_errors toy no_options false text) <> None /\
  (exists a, text = a ++ wstr "On ,, ei.") /\
  (forall l, find_errors toy no_options false text = Ok l -> ~ Exists (fun e => (800 <= startpos e)%nat) l) /\
  (exists e, find_errors toy no_options false (wstr "On ,, ei.") = Ok e /\ e <> []).
Proof.
  exists many. split; [vm_compute; discriminate|]. split; [exists (concat (repeat (wstr "Ei! ") 200)); reflexivity|]. split.
  - intros l E.
    assert (match find_errors toy no_options false many with Ok l => forallb (fun e => startpos e <? 800)%nat l | _ => true end = true) as X by (vm_compute; reflexivity).
    rewrite E in X. rewrite forallb_forall in X. intros H. apply Exists_exists in H. destruct H as (e & I & H). specialize (X e I). lia.
  - eexists. split; [vm_compute; reflexivity|discriminate].
Qed.
Print Assumptions C31_limit_refuted.

(** ** C30: spans *)

(** For every text, dictionary and setting, checking does not fail, and every
    error found lies inside the text, is not empty and has a known code.  The
    autocorrect rules, if any, must not match the empty string; with them, the
    text must not contain NUL. *)
Theorem C30_spans : forall b o d text, structured (b_analyzer b) -> never_empty (b_autocorrect b) ->
  (b_autocorrect b <> None -> ~ In 0 text) -> text <> [] ->
  exists l, find_errors b o d text = Ok l /\
    Forall (fun e => (0 < errorlen e)%nat /\ (startpos e + errorlen e <= length text)%nat /\ 1 <= error_code e <= 18) l.
Proof.
  intros b o d text S N Z T. apply find_errors_ok; auto. split; auto. intros t E. split; [|apply Z; congruence].
  intros i out n X. eapply N; eauto.
Qed.
Print Assumptions C30_spans.
Example C30_spans_ex :
  code_spans (find_errors toy2 no_options false (wstr "ei luen ,, Joten joten kuten matti  ja. ")) =
  Some [(3, 7%nat, 2%nat); (4, 8%nat, 2%nat); (2, 34%nat, 2%nat); (8, 11%nat, 11%nat); (13, 0%nat, 7%nat); (16, 36%nat, 2%nat);
        (1, 17%nat, 11%nat); (7, 0%nat, 2%nat); (6, 11%nat, 5%nat); (9, 39%nat, 1%nat)] /\
  structured toy_analyzer /\ never_empty (Some toy_rules).
Proof. split; [vm_compute; reflexivity|]. split; [apply toy_structured|apply toy_never_empty]. Qed.

(** The span of an autocorrect error need not be the text that was corrected:
    after a soft hyphen the rule matches "joten kuten" but the span reported
    has one character more. *)
Definition softly : list Z := wstr "Pa" ++ [0xAD] ++ wstr "ha joten kuten.".
Theorem C30_exact_refuted : exists text l e, find_errors toy2 no_options false text = Ok l /\ In e l /\ error_code e = 1 /\
  startpos e = 6%nat /\ firstn 11 (skipn 6 text) = wstr "joten kuten" /\ errorlen e = 12%nat.
Proof.
  exists softly. eexists. eexists. split; [vm_compute; reflexivity|]. split; [right; left; reflexivity|]. vm_compute. auto.
Qed.
Print Assumptions C30_exact_refuted.

(** With autocorrect rules a NUL in the first word makes the checker read
    beyond the end of a buffer. *)
Theorem C30_nul_refuted : exists text, In 0 text /\ find_errors toy2 no_options false text = UB.
Proof. exists (wstr "A" ++ [0] ++ wstr "b@c.fi on."). split; [cbn; auto|vm_compute; reflexivity]. Qed.
Print Assumptions C30_nul_refuted.

(** ** C32: the capitalisation check *)

(** On every paragraph whose sentences and tokens are not empty the check ends
    without failing: in particular it never looks at a word that does not exist
    (modelled as [UB]) and never runs out of steps (modelled as [Fuel]). *)
Theorem C32_capitalization : forall o p,
  Forall (fun s => s_tokens s <> [] /\ Forall (fun t => g_str t <> []) (s_tokens s)) p ->
  exists l, capitalization o p = Ok l.
Proof. intros o p W. destruct (capitalization_ok o p W) as (l & E & _). eauto. Qed.
Print Assumptions C32_capitalization.

(** All paragraphs that are checked are of this kind. *)
Theorem C32_paragraphs : forall spell an d text p, structured an -> text <> [] -> analyseParagraph spell an d text = Ok (Some p) ->
  Forall (fun s => s_tokens s <> [] /\ Forall (fun t => g_str t <> []) (s_tokens s)) p.
Proof.
  intros spell an d text p S T E. destruct (sure_sentences_exist spell d text) as (ss & H & C & N).
  destruct (paragraph_ok MAX_SENTENCES_IN_PARAGRAPH spell an d text 0 ss S H) as [(F & p' & E' & D & FA)|(F & E')];
    rewrite analyse_unfold, E' in E; [|discriminate]. injection E as ->.
  assert (Forall (good_sentence (length text)) p) as G.
  { eapply describes_good; [exact D|exact FA| |].
    - apply Forall_forall. intros s I. specialize (N T). rewrite Forall_forall in N. apply N. eapply firstn_In; eauto.
    - pose proof (concat_firstn_len Z MAX_SENTENCES_IN_PARAGRAPH ss) as X. rewrite C in X. exact X. }
  eapply Forall_impl; [|exact G]. intros s (X & L & _). split; [auto|]. eapply located_nonempty; eauto.
Qed.
Print Assumptions C32_paragraphs.
Example C32_paragraphs_ex :
  (p <- analyseParagraph (fun _ => SPELL_FAILED) toy_analyzer false (wstr "Kissa (matti ja ""Koira"" ei)) on. juu ei.") ;;
   match p with Some p => l <- capitalization no_options p ;; Ok (map (fun e => (error_code e, startpos e)) l) | None => UB end)
  = Ok [(12, 27%nat); (7, 33%nat)].
Proof. vm_compute. reflexivity. Qed.

(** ** C51: the words *)

(** The flags of every token of an analysed paragraph mean what their names say
    about the readings of the word, and a word may start a sentence exactly if
    it is the first word after a separator. *)
Theorem C51_flags : forall spell an d text p s i t, structured an -> analyseParagraph spell an d text = Ok (Some p) ->
  In s p -> nth_error (s_tokens s) i = Some t ->
  (g_type t = TOKEN_WORD -> word_flags (readings an (g_str t)) t) /\
  (g_type t <> TOKEN_WORD -> isConjunction t = false /\ isVerbNegative t = false /\ isValidWord t = false /\
     possibleMainVerb t = false /\ possibleConjunction t = false /\ requireFollowingVerb t = FOLLOWING_VERB_NONE) /\
  (possibleSentenceStart t = true <-> may_start (s_tokens s) i).
Proof.
  intros spell an d text p s i t S E I T. destruct (sure_sentences_exist spell d text) as (ss & H & C & N).
  destruct (paragraph_ok MAX_SENTENCES_IN_PARAGRAPH spell an d text 0 ss S H) as [(F & p' & E' & D & FA)|(F & E')];
    rewrite analyse_unfold, E' in E; [|discriminate]. injection E as ->.
  rewrite Forall_forall in FA. destruct (FA s I) as (_ & TF & M). rewrite Forall_forall in TF.
  destruct (TF t (nth_error_In _ _ T)) as (A & B). split; [exact A|]. split; [exact B|]. apply start_flags; auto.
Qed.
Print Assumptions C51_flags.
Example C51_flags_ex :
  (match analyseParagraph (fun _ => SPELL_FAILED) toy_analyzer true (wstr "ja luen: ei") with
   | Ok (Some [s]) => Some (map (fun t => (isConjunction t, isMainVerb t, isVerbNegative t, possibleSentenceStart t)) (filter is_wordt (s_tokens s)))
   | _ => None
   end)
  = Some [(true, false, false, false); (false, true, false, false); (false, false, true, true)].
Proof. vm_compute. reflexivity. Qed.

(** What is said about the infinitive that a word is depends on the order of its
    readings. *)
Theorem C51_order_refuted : exists a c, ~ (forall l1 l2 t1 t2, Permutation l1 l2 ->
  analyseToken (fun _ _ => l1) TOKEN_WORD [0x61] 0 = Ok t1 -> analyseToken (fun _ _ => l2) TOKEN_WORD [0x61] 0 = Ok t2 ->
  verbFollowerType t1 = verbFollowerType t2) /\ has a MOOD "A-infinitive" /\ agent_abessive c.
Proof.
  pose (a := an1 [(STRUCTURE, "=p"); (MOOD, "A-infinitive")]%string).
  pose (c := an1 [(STRUCTURE, "=p"); (PARTICIPLE, "agent"); (SIJAMUOTO, "vajanto")]%string).
  exists a, c. split; [|repeat split; vm_compute; reflexivity].
  assert (exists t, analyseToken (fun _ _ => [a; c]) TOKEN_WORD [0x61] 0 = Ok t /\ verbFollowerType t = FOLLOWING_VERB_NONE) as (t1 & E1 & F1)
    by (eexists; split; vm_compute; reflexivity).
  assert (exists t, analyseToken (fun _ _ => [c; a]) TOKEN_WORD [0x61] 0 = Ok t /\ verbFollowerType t = FOLLOWING_VERB_A_INFINITIVE) as (t2 & E2 & F2)
    by (eexists; split; vm_compute; reflexivity).
  intros H. specialize (H [a; c] [c; a] t1 t2 (perm_swap _ _ _) E1 E2). congruence.
Qed.
Print Assumptions C51_order_refuted.

(** ** C28: enumeration *)

(** Any call on any handle reached by a program: it does not fail, and returns
    the first error of the list that is neither among the first [skip] ones nor
    starts before [start]. *)
Theorem C28_result : forall b h text rest, structured (b_analyzer b) -> never_empty (b_autocorrect b) -> reached b h -> text_ok text ->
  exists l, error_list b (gc_options_of h) text l /\
    forall start skip, exists h', voikkoNextGrammarErrorUcs4 b h (text ++ 0 :: rest) (length text) start skip = Ok (answer l start skip, h').
Proof.
  intros b h text rest S N R T. pose proof (reached_memory b h S N R) as M.
  destruct (call_ok b h text rest 0 0 S N T M) as (l & _ & EL & _). exists l. split; [auto|]. intros start skip.
  destruct (call_ok b h text rest start skip S N T M) as (l' & h' & EL' & _ & E & _). exists h'.
  rewrite (error_list_unique _ _ _ _ _ EL EL'). exact E.
Qed.
Print Assumptions C28_result.

(** The list of errors is determined by the text, the dictionary and the
    options. *)
Theorem C28_list : forall b o text l l', error_list b o text l -> error_list b o text l' -> l = l'.
Proof. exact error_list_unique. Qed.
Print Assumptions C28_list.

(** So the calls with start 0 and skip 0, 1, 2, ... list all errors of the text,
    each once, and then report no more. *)
Theorem C28_enumeration : forall b h text rest, structured (b_analyzer b) -> never_empty (b_autocorrect b) -> reached b h -> text_ok text ->
  exists l, error_list b (gc_options_of h) text l /\
    (forall k, (k < length l)%nat -> exists e h', nth_error l k = Some e /\
       voikkoNextGrammarErrorUcs4 b h (text ++ 0 :: rest) (length text) 0 (Z.of_nat k) = Ok (Some e, h')) /\
    (forall k, (length l <= k)%nat -> exists h',
       voikkoNextGrammarErrorUcs4 b h (text ++ 0 :: rest) (length text) 0 (Z.of_nat k) = Ok (None, h')).
Proof.
  intros b h text rest S N R T. destruct (C28_result b h text rest S N R T) as (l & EL & C). exists l. split; [auto|].
  assert (forall k, answer l 0 (Z.of_nat k) = nth_error l k) as A.
  { intros k. unfold answer. rewrite Nat2Z.id.
    replace (filter (fun e => (startpos e <? 0)%nat) l) with (@nil gc_error) by (clear; induction l; auto).
    cbn [length]. rewrite Nat.max_0_r. reflexivity. }
  split; intros k L; destruct (C 0%nat (Z.of_nat k)) as (h' & E); rewrite A in E.
  - destruct (nth_error l k) as [e|] eqn:X; [|apply nth_error_None in X; lia]. exists e, h'. auto.
  - exists h'. rewrite E. do 3 f_equal. apply nth_error_None. auto.
Qed.
Print Assumptions C28_enumeration.

Definition codes (b : gc_backend) (h : handle) (text : list Z) (start : nat) (n : nat) : list (option (Z * nat)) :=
  map (fun k => match voikkoNextGrammarErrorUcs4 b h (text ++ [0]) (length text) start (Z.of_nat k) with
                | Ok (Some e, _) => Some (error_code e, startpos e) | _ => None end) (seq 0 n).
Example C28_enumeration_ex : exists h, voikkoInit = Ok h /\ reached toy2 h /\ text_ok (wstr "ei luen ,, joten kuten") /\
  codes toy2 h (wstr "ei luen ,, joten kuten") 0 7 =
  [Some (13, 0%nat); Some (7, 0%nat); Some (3, 7%nat); Some (4, 8%nat); Some (1, 11%nat); Some (9, 17%nat); None].
Proof.
  eexists. split; [reflexivity|]. split; [apply reached_init; reflexivity|]. split; [split; [discriminate|]|vm_compute; reflexivity].
  cbn. intros X. repeat (destruct X as [X|X]; [discriminate|]). exact X.
Qed.

(** From a later start the first call returns the first error that does not
    start earlier. *)
Theorem C28_start : forall b h text rest start, structured (b_analyzer b) -> never_empty (b_autocorrect b) -> reached b h -> text_ok text ->
  exists l, error_list b (gc_options_of h) text l /\
    exists h', voikkoNextGrammarErrorUcs4 b h (text ++ 0 :: rest) (length text) start 0 =
               Ok (find (fun e => (start <=? startpos e)%nat) l, h').
Proof.
  intros b h text rest start S N R T. destruct (C28_result b h text rest S N R T) as (l & EL & C). exists l. split; [auto|].
  destruct (C start 0) as (h' & E). exists h'. rewrite E. do 2 f_equal. unfold answer. cbn [Z.to_nat Nat.max].
  destruct EL as (_ & _ & _ & SS & _). clear - SS. induction l as [|e l IH]; [reflexivity|]. inversion SS as [|? ? S2 F2]; subst.
  cbn [filter find]. destruct (startpos e <? start)%nat eqn:Q.
  - replace (start <=? startpos e)%nat with false by lia. cbn [length nth_error]. auto.
  - replace (start <=? startpos e)%nat with true by lia.
    replace (filter (fun e0 => (startpos e0 <? start)%nat) l) with (@nil gc_error); [reflexivity|].
    symmetry. clear - Q F2. induction l as [|m l IHl]; [reflexivity|]. inversion F2; subst. cbn [filter].
    replace (startpos m <? start)%nat with false by lia. auto.
Qed.
Print Assumptions C28_start.

(** But the errors to be skipped are counted from the start of the text, so that
    skipping one error from there may return the same error again. *)
Theorem C28_start_refuted : exists h text, voikkoInit = Ok h /\ codes toy2 h text 5 4 = [Some (3, 7%nat); Some (3, 7%nat); Some (3, 7%nat); Some (4, 8%nat)].
Proof. eexists. exists (wstr "ei luen ,, joten kuten"). split; [reflexivity|]. vm_compute. reflexivity. Qed.
Print Assumptions C28_start_refuted.

(** ** C29: no influence of earlier calls *)

(** Two handles with the same grammar options, whatever was done with them
    before, report the same error for the same text, in either encoding. *)
Theorem C29_history_independent : forall b h1 h2, structured (b_analyzer b) -> never_empty (b_autocorrect b) ->
  reached b h1 -> reached b h2 -> gc_options_of h1 = gc_options_of h2 ->
  (forall text rest1 rest2 start skip, text_ok text -> exists r h1' h2',
     voikkoNextGrammarErrorUcs4 b h1 (text ++ 0 :: rest1) (length text) start skip = Ok (r, h1') /\
     voikkoNextGrammarErrorUcs4 b h2 (text ++ 0 :: rest2) (length text) start skip = Ok (r, h2')) /\
  (forall bytes start skip r1 r2 h1' h2',
     voikkoNextGrammarErrorCstr b h1 bytes start skip = Ok (r1, h1') ->
     voikkoNextGrammarErrorCstr b h2 bytes start skip = Ok (r2, h2') -> r1 = r2).
Proof.
  intros b h1 h2 S N R1 R2 O. pose proof (reached_memory b h1 S N R1) as M1. pose proof (reached_memory b h2 S N R2) as M2.
  assert (forall text rest1 rest2 start skip, text_ok text -> exists r h1' h2',
     voikkoNextGrammarErrorUcs4 b h1 (text ++ 0 :: rest1) (length text) start skip = Ok (r, h1') /\
     voikkoNextGrammarErrorUcs4 b h2 (text ++ 0 :: rest2) (length text) start skip = Ok (r, h2')) as U.
  { intros text rest1 rest2 start skip T.
    destruct (call_ok b h1 text rest1 start skip S N T M1) as (l1 & h1' & EL1 & _ & E1 & _).
    destruct (call_ok b h2 text rest2 start skip S N T M2) as (l2 & h2' & EL2 & _ & E2 & _).
    rewrite O in EL1. rewrite (error_list_unique _ _ _ _ _ EL1 EL2) in *. eauto. }
  split; [exact U|]. intros bytes start skip r1 r2 h1' h2' E1 E2. rewrite call_utf8 in E1, E2.
  destruct bytes as [|c0 r0]; [congruence|]. destruct (ucs4FromUtf8 (c0 :: r0)) as [[w|]| |]; cbn [bind] in *; try congruence.
  destruct (cstr w) as [|c1 t1] eqn:CW; [congruence|]. rewrite <- CW in *. destruct (cstr_split w) as (rest & X). rewrite X in E1, E2.
  destruct (U (cstr w) rest rest start skip (text_ok_cstr _ _ _ CW)) as (r & a & c & Y1 & Y2). congruence.
Qed.
Print Assumptions C29_history_independent.
Example C29_history_independent_ex : exists h h1 h2, voikkoInit = Ok h /\
  voikkoNextGrammarErrorUcs4 toy h (wstr "ja  ei" ++ [0]) 6 0 0 = Ok (Some (mk_error 7 0 2 [wstr "Ja"]), h1) /\
  reached toy h1 /\ gcCache h1 <> gcCache h /\ gc_options_of h1 = gc_options_of h /\
  voikkoNextGrammarErrorCstr toy h1 (wstr "On  ei.") 0 0 = Ok (Some (mk_error 2 2 2 [wstr " "]), h2) /\ reached toy h2.
Proof.
  do 3 eexists. split; [reflexivity|]. split; [vm_compute; reflexivity|].
  match goal with |- ?A /\ _ => assert A as RR end.
  { eapply reached_step; [apply reached_init; reflexivity|].
    eapply (gs_check _ _ (wstr "ja  ei") [] 0 0 (Some (mk_error 7 0 2 [wstr "Ja"]))); [split; [discriminate|]|vm_compute; reflexivity].
    cbn. intros X. repeat (destruct X as [X|X]; [discriminate|]). exact X. }
  split; [exact RR|]. split; [discriminate|]. split; [reflexivity|]. split; [vm_compute; reflexivity|].
  eapply reached_step; [exact RR|]. apply (gs_check_utf8 _ _ (wstr "On  ei.") 0 0 (Some (mk_error 2 2 2 [wstr " "]))). vm_compute. reflexivity.
Qed.

(** The text must be followed by a NUL: with any other character after it no
    error is ever reported, and with nothing after it the program reads beyond
    the buffer. *)
Theorem C29_terminated_refuted : exists h text, voikkoInit = Ok h /\ text_ok text /\
  (exists e h', voikkoNextGrammarErrorUcs4 toy h (text ++ [0]) (length text) 0 0 = Ok (Some e, h')) /\
  (exists h', voikkoNextGrammarErrorUcs4 toy h (text ++ wstr "x" ++ [0]) (length text) 0 0 = Ok (None, h')) /\
  voikkoNextGrammarErrorUcs4 toy h text (length text) 0 0 = UB.
Proof.
  eexists. exists (wstr "On  ei"). split; [reflexivity|]. split.
  { split; [discriminate|]. cbn. intros X. repeat (destruct X as [X|X]; [discriminate|]). exact X. }
  split; [do 2 eexists; vm_compute; reflexivity|]. split; [eexists; vm_compute; reflexivity|vm_compute; reflexivity].
Qed.
Print Assumptions C29_terminated_refuted.

(** After checking a text that contains NUL, the text before the NUL gets the
    errors of the longer text: the one reported here lies outside the text. *)
Theorem C29_nul_refuted : exists h h' r text more, voikkoInit = Ok h /\ text_ok text /\
  voikkoNextGrammarErrorUcs4 toy h (text ++ 0 :: more ++ [0]) (length text + 1 + length more) 0 0 = Ok (r, h') /\
  (exists e h2, voikkoNextGrammarErrorUcs4 toy h' (text ++ [0]) (length text) 0 1 = Ok (Some e, h2) /\ (length text <= startpos e)%nat) /\
  (exists e h2, voikkoNextGrammarErrorUcs4 toy h (text ++ [0]) (length text) 0 1 = Ok (e, h2) /\
     forall x, e = Some x -> (startpos x + errorlen x <= length text)%nat).
Proof.
  eexists. eexists. eexists. exists (wstr "Juu luen"), (wstr ", ei"). split; [reflexivity|]. split.
  { split; [discriminate|]. cbn. intros X. repeat (destruct X as [X|X]; [discriminate|]). exact X. }
  split; [vm_compute; reflexivity|]. split.
  - do 2 eexists. split; [vm_compute; reflexivity|]. cbn. lia.
  - do 2 eexists. split; [vm_compute; reflexivity|]. intros x X. first [discriminate|injection X as <-; cbn; lia].
Qed.
Print Assumptions C29_nul_refuted.

(** ** C43: messages *)

Lemma starts_spec : forall lit s, starts_with lit s = true <-> exists r, s = lit ++ r.
Proof.
  induction lit as [|c lit IH]; intros s; cbn [starts_with app]; [split; eauto|]. destruct s as [|d s].
  - split; [discriminate|intros (r & X); discriminate].
  - rewrite andb_true_iff, Z.eqb_eq, IH. split.
    + intros (-> & r & ->). eauto.
    + intros (r & [= -> ->]). eauto.
Qed.
Lemma message_lang : forall code lang, voikko_error_message_cstr code lang =
  voikko_error_message_cstr code (if starts_with (wstr "fi") lang then wstr "fi" else wstr "en").
Proof. intros code lang. unfold voikko_error_message_cstr at 1. destruct (starts_with (wstr "fi") lang); reflexivity. Qed.
Lemma message_unknown : forall code lang, code < 1 \/ 18 < code -> voikko_error_message_cstr code lang = voikko_error_message_cstr 0 lang.
Proof.
  intros code lang H. unfold voikko_error_message_cstr. destruct code as [|p|p]; [reflexivity| |reflexivity].
  do 5 (destruct p as [p|p|]; try reflexivity; try lia).
Qed.
Definition codes18 : list Z := [1; 2; 3; 4; 5; 6; 7; 8; 9; 10; 11; 12; 13; 14; 15; 16; 17; 18].
Definition messages_good (lang : list Z) : bool :=
  forallb (fun c =>
    negb (zlist_eqb (voikko_error_message_cstr c lang) (voikko_error_message_cstr 0 lang)) &&
    forallb (fun d => (c =? d) || negb (zlist_eqb (voikko_error_message_cstr c lang) (voikko_error_message_cstr d lang))) codes18 &&
    match ucs4FromUtf8 (voikko_error_message_cstr c lang) with Ok (Some (_ :: _)) => true | _ => false end) codes18.

(** In both languages every code that is ever reported (see C30) has a message
    of its own, different from the one for unknown codes, and valid as UTF-8.
    The language is Finnish if it starts with "fi", and English otherwise. *)
Theorem C43_messages : forall lang code, 1 <= code <= 18 ->
  (forall other, other < 1 \/ 18 < other -> voikko_error_message_cstr code lang <> voikko_error_message_cstr other lang) /\
  (forall other, 1 <= other <= 18 -> voikko_error_message_cstr code lang = voikko_error_message_cstr other lang -> code = other) /\
  (exists w, ucs4FromUtf8 (voikko_error_message_cstr code lang) = Ok (Some w) /\ w <> []) /\
  (forall r, lang = wstr "fi" ++ r -> voikko_error_message_cstr code lang = voikko_error_message_cstr code (wstr "fi")) /\
  ((forall r, lang <> wstr "fi" ++ r) -> voikko_error_message_cstr code lang = voikko_error_message_cstr code (wstr "en")).
Proof.
  intros lang code H.
  assert (messages_good (if starts_with (wstr "fi") lang then wstr "fi" else wstr "en") = true) as G
    by (destruct (starts_with (wstr "fi") lang); vm_compute; reflexivity).
  unfold messages_good in G. rewrite forallb_forall in G. specialize (G code). rewrite !(message_lang code lang).
  apply andb_prop in G; [|cbn; lia]. destruct G as (G & U). apply andb_prop in G. destruct G as (G & D).
  split; [|split; [|split; [|split]]].
  - intros other O. rewrite (message_unknown other lang O), (message_lang 0 lang). intros X. rewrite X in G. rewrite zlist_eqb_refl in G. discriminate.
  - intros other O X. rewrite (message_lang other lang) in X. rewrite forallb_forall in D. specialize (D other). rewrite X in D. rewrite zlist_eqb_refl in D.
    cbn [negb] in D. rewrite orb_false_r in D. apply Z.eqb_eq, D. cbn. lia.
  - destruct (ucs4FromUtf8 (voikko_error_message_cstr code (if starts_with (wstr "fi") lang then wstr "fi" else wstr "en"))) as [[[|c w]|]| |]; try discriminate.
    exists (c :: w). split; [reflexivity|discriminate].
  - intros r E. assert (starts_with (wstr "fi") lang = true) as -> by (apply starts_spec; eauto). reflexivity.
  - intros E. destruct (starts_with (wstr "fi") lang) eqn:Q; [|reflexivity]. apply starts_spec in Q. destruct Q as (r & Q). elim (E r Q).
Qed.
Print Assumptions C43_messages.
Example C43_messages_ex :
  voikko_error_message_cstr 4 (wstr "en_GB") = wstr "Remove extra comma." /\
  voikko_error_message_cstr 4 (wstr "fi_FI") = wstr "Poista ylim" ++ [0xC3; 0xA4; 0xC3; 0xA4] ++ wstr "r" ++ [0xC3; 0xA4] ++ wstr "inen pilkku." /\
  voikko_error_message_cstr 77 (wstr "sv") = wstr "Unknown error".
Proof. repeat split. Qed.

(** Only two letters are compared: a language that is neither Finnish nor
    English, such as Filipino ("fil"), gets the Finnish messages. *)
Theorem C43_two_letters : forall code, voikko_error_message_cstr code (wstr "fil") = voikko_error_message_cstr code (wstr "fi").
Proof. reflexivity. Qed.
Print Assumptions C43_two_letters.
