(** * The rules of the grammar checker mean what they say (C50, C53). *)
From Verif Require Import Base BaseFacts CharModel TokenModel TokenSpec TokenProofs SpellerBase SentenceModel SentenceProofs AnalysisModel AnalyzerBase Utf8Model
  GcCacheModel HandleModel ParaModel RulesModel GrammarModel GrammarSpec RulesSpec ParaProofs ParaLoops RulesProofs AutocorrectProofs CapProofs
  GrammarCallSpec GrammarProofs GrammarProps RuleMeaning RulesFound.

(** ** C50: local rules *)

Lemma find_eq : forall b o d text p, analyseParagraph (b_speller b) (b_analyzer b) d text = Ok (Some p) ->
  find_errors b o d text = if worth_checking p then rule_engine (b_autocorrect b) o p else Ok [].
Proof.
  intros b o d text p. unfold find_errors. generalize (analyseParagraph (b_speller b) (b_analyzer b) d text) as r. intros r ->. reflexivity.
Qed.
Lemma found_engine : forall b o d text p l, structured (b_analyzer b) -> text <> [] ->
  analyseParagraph (b_speller b) (b_analyzer b) d text = Ok (Some p) -> find_errors b o d text = Ok l ->
  p <> [] /\ Forall (good_sentence (length text)) p /\ (checked p -> rule_engine (b_autocorrect b) o p = Ok l) /\ (~ checked p -> l = []).
Proof.
  intros b o d text p l S N E F. destruct (paragraph_good _ _ _ _ _ S N E) as (PN & G). split; [auto|]. split; [auto|].
  rewrite (find_eq _ _ _ _ _ E) in F.
  pose proof (checked_iff p PN) as C. assert (Forall (fun s => s_tokens s <> []) p) as NT by (eapply Forall_impl; [|exact G]; intros s (NE & _); auto).
  specialize (C NT). destruct (worth_checking p).
  - split; [intros _; exact F|]. intros X. elim X. apply C. reflexivity.
  - split; [intros X; apply C in X; discriminate|]. intros _. injection F as <-. reflexivity.
Qed.

(** Whatever is reported with one of the codes 2 to 5, 8 to 11 or 13 to 17 is
    there: the tokens of the paragraph show the error described, with the span
    and the suggestions reported. *)
Theorem C50_reported : forall b o d text p l e, structured (b_analyzer b) -> text <> [] ->
  analyseParagraph (b_speller b) (b_analyzer b) d text = Ok (Some p) -> find_errors b o d text = Ok l ->
  In e l -> described_code (error_code e) -> checked p /\ paragraph_error o p e.
Proof.
  intros b o d text p l e S N E F I C. destruct (found_engine _ _ _ _ _ _ S N E F) as (PN & G & Y & Z).
  assert (worth_checking p = true \/ worth_checking p = false) as [W|W] by (destruct (worth_checking p); auto).
  - assert (checked p) as CP by (apply checked_iff; auto; eapply Forall_impl; [|exact G]; intros s (NE & _); auto).
    split; [auto|]. destruct (engine_meaning _ _ _ _ _ PN G (Y CP)) as (A & _). auto.
  - assert (~ checked p) as CP.
    { intros X. apply checked_iff in X; auto; [congruence|]. eapply Forall_impl; [|exact G]; intros s (NE & _); auto. }
    rewrite (Z CP) in I. destruct I.
Qed.
Print Assumptions C50_reported.
Example C50_reported_ex :
  code_spans (find_errors toy no_options false (wstr "ei luen ,, Joten joten kuten ja. ")) =
  Some [(3, 7%nat, 2%nat); (4, 8%nat, 2%nat); (8, 11%nat, 11%nat); (13, 0%nat, 7%nat); (16, 29%nat, 2%nat); (7, 0%nat, 2%nat); (6, 11%nat, 5%nat); (9, 32%nat, 1%nat)].
Proof. vm_compute. reflexivity. Qed.

(** The other direction: in paragraphs that are checked, every error described
    is reported.  (Two rules need sentences without opening square brackets and
    without adjacent words, see below; words are adjacent only in unusual texts.) *)
Theorem C50_exact : forall b o d text p l e, structured (b_analyzer b) -> text <> [] ->
  analyseParagraph (b_speller b) (b_analyzer b) d text = Ok (Some p) -> find_errors b o d text = Ok l ->
  checked p -> described_code (error_code e) ->
  (Forall simple_sentence p \/ ~ In (error_code e) [2; 3; 4; 5; 8]) ->
  (In e l <-> paragraph_error o p e).
Proof.
  intros b o d text p l e S N E F CP C SI. destruct (found_engine _ _ _ _ _ _ S N E F) as (PN & G & Y & _).
  destruct (engine_meaning _ _ _ _ _ PN G (Y CP)) as (A & _ & B & D & _ & R & U). split; [auto|].
  intros [(s & I & [X|X])|X]; [|eauto|auto]. destruct SI as [SI|SI].
  - rewrite Forall_forall in SI. eauto.
  - apply (R s e I X).
    + intros K. apply SI. cbn. lia.
    + intros K. apply SI. cbn. lia.
Qed.
Print Assumptions C50_exact.

(** Paragraphs that are not checked get no errors at all. *)
Theorem C50_unchecked : forall b o d text p l, structured (b_analyzer b) -> text <> [] ->
  analyseParagraph (b_speller b) (b_analyzer b) d text = Ok (Some p) -> find_errors b o d text = Ok l -> ~ checked p -> l = [].
Proof. intros b o d text p l S N E F. apply (found_engine _ _ _ _ _ _ S N E F). Qed.
Print Assumptions C50_unchecked.

(** Text in square brackets: three tokens are skipped. *)
Definition bracketed : list gsentence :=
  Eval vm_compute in match analyseParagraph (b_speller toy) (b_analyzer toy) false (wstr "Luen [  ] ei.") with Ok (Some p) => p | _ => [] end.
Theorem C50_brackets_refuted : exists text p l e, analyseParagraph (b_speller toy) (b_analyzer toy) false text = Ok (Some p) /\
  find_errors toy no_options false text = Ok l /\ checked p /\ paragraph_error no_options p e /\ error_code e = 2 /\ ~ In e l.
Proof.
  exists (wstr "Luen [  ] ei."), bracketed, []. exists (mk_error 2 6 2 [wstr " "]).
  split; [vm_compute; reflexivity|]. split; [vm_compute; reflexivity|]. split.
  - intros s [= <-]. left. eexists. split; [right; left; reflexivity|reflexivity].
  - split; [|split; [reflexivity|intros []]].
    left. eexists. split; [left; reflexivity|]. left. 
    assert (exists t, In t (s_tokens (hd (mk_gsentence 0 SENTENCE_NONE []) bracketed)) /\ g_type t = TOKEN_WHITESPACE /\ g_pos t = 6%nat /\ g_str t = wstr "  ") as (t & I & T & P & Q).
    { eexists. split; [do 3 right; left; reflexivity|]. auto. }
    replace (mk_error 2 6 2 [wstr " "]) with (mk_error 2 (g_pos t) (len t) [wstr " "]) by (unfold len; rewrite P, Q; reflexivity).
    apply le_whitespace; [exact I|exact T|]. unfold len. rewrite Q. cbn. lia.
Qed.
Print Assumptions C50_brackets_refuted.

(** The hypotheses of [C50_exact] are met by ordinary texts. *)
Fixpoint simpleb (l : list gtoken) : bool :=
  match l with
  | [] => true
  | t :: r => negb (is_punct t && (chr0 t =? 0x5B)) && match r with u :: _ => negb (is_wordt t && is_wordt u) | [] => true end && simpleb r
  end.
Lemma simpleb_sound : forall s, simpleb (s_tokens s) = true -> simple_sentence s.
Proof.
  intros s. unfold simple_sentence. generalize (s_tokens s) as l. clear s. induction l as [|t r IH]; intros H.
  - split; [intros t []|]. intros a b (l1 & l2 & X). destruct l1; discriminate.
  - cbn [simpleb] in H. apply andb_true_iff in H. destruct H as (H & H3). apply andb_true_iff in H. destruct H as (H1 & H2). destruct (IH H3) as (A & B). split.
    + intros u [<-|I]; [|auto]. intros X. apply mark_iff in X. rewrite X in H1. discriminate.
    + intros a b ([|u l1] & l2 & X).
      * cbn in X. injection X as -> ->. intros (Wa & Wb). apply word_iff in Wa. apply word_iff in Wb. rewrite Wa, Wb in H2. discriminate.
      * injection X as _ X. apply (B a b). exists l1, l2. exact X.
Qed.
Example C50_exact_ex : exists p, analyseParagraph (b_speller toy) (b_analyzer toy) false (wstr "Ei luen  ja ja. Matti ,, luen ei.") = Ok (Some p) /\
  checked p /\ Forall simple_sentence p /\ length p = 2%nat /\
  code_spans (find_errors toy no_options false (wstr "Ei luen  ja ja. Matti ,, luen ei.")) =
    Some [(2, 7%nat, 2%nat); (8, 9%nat, 5%nat); (16, 12%nat, 2%nat); (3, 21%nat, 2%nat); (4, 22%nat, 2%nat)].
Proof.
  set (r := analyseParagraph (b_speller toy) (b_analyzer toy) false (wstr "Ei luen  ja ja. Matti ,, luen ei.")).
  assert (match r with Ok (Some p) => forallb (fun s => simpleb (s_tokens s)) p && Nat.eqb (length p) 2 | _ => false end = true) as X by (vm_compute; reflexivity).
  destruct r as [[p|]| |]; try discriminate. apply andb_true_iff in X. destruct X as (X & L). apply Nat.eqb_eq in L. exists p. split; [reflexivity|]. split.
  - intros s ->. discriminate.
  - split; [|split; [exact L|vm_compute; reflexivity]]. apply Forall_forall. intros s I. apply simpleb_sound. rewrite forallb_forall in X. auto.
Qed.

(** Error 18 is reported only for two main verbs without punctuation or
    conjunction between them, and it is reported for the first two main verbs of
    every clause. *)
Theorem C50_extra_verb : forall b o d text p l, structured (b_analyzer b) -> text <> [] ->
  analyseParagraph (b_speller b) (b_analyzer b) d text = Ok (Some p) -> find_errors b o d text = Ok l ->
  (forall e, In e l -> error_code e = 18 -> exists s, In s p /\ extra_verb_in o s e) /\
  (checked p -> forall s e, In s p -> verbs_counted o s -> first_verbs o s e -> In e l).
Proof.
  intros b o d text p l S N E F. destruct (found_engine _ _ _ _ _ _ S N E F) as (PN & G & Y & Z).
  assert (worth_checking p = true <-> checked p) as CI by (apply checked_iff; auto; eapply Forall_impl; [|exact G]; intros s (NE & _); auto).
  split.
  - intros e I C. destruct (worth_checking p).
    + destruct (engine_meaning _ _ _ _ _ PN G (Y (proj1 CI eq_refl))) as (_ & A & _). auto.
    + rewrite Z in I; [destruct I|]. intros X. apply CI in X. discriminate.
  - intros CP. destruct (engine_meaning _ _ _ _ _ PN G (Y CP)) as (_ & _ & _ & _ & A & _). auto.
Qed.
Print Assumptions C50_extra_verb.
Example C50_extra_verb_ex :
  code_spans (find_errors toy no_options false (wstr "Matti luen kissa luen.")) = Some [(18, 6%nat, 15%nat)] /\
  code_spans (find_errors toy no_options false (wstr "Matti luen, kissa luen.")) = Some [] /\
  code_spans (find_errors toy no_options false (wstr "Matti luen ja kissa luen.")) = Some [].
Proof. split; [|split]; vm_compute; reflexivity. Qed.

(** ** C53: the end of the paragraph *)

(** With at most 200 sentences, a paragraph gets error 9 exactly if its last
    token is not punctuation, unless the options accept that, and the span is
    that last token: it reaches to the end of the text. *)
Theorem C53_end : forall b o d text p l ss e, structured (b_analyzer b) -> text <> [] ->
  sure_sentences (sentence_next (b_speller b) d) text ss -> (length ss <= 200)%nat ->
  analyseParagraph (b_speller b) (b_analyzer b) d text = Ok (Some p) -> find_errors b o d text = Ok l -> checked p ->
  (In e l /\ error_code e = 9 <->
   accept_unfinished o = false /\ accept_bulleted o = false /\ (accept_titles o = true -> (1 < length p)%nat) /\
   exists before t, flat_map s_tokens p = before ++ [t] /\ ~ punct t /\
     e = mk_error 9 (length text - len t) (len t) []).
Proof.
  intros b o d text p l ss e S N SS LE E F CP.
  assert (described_code 9) as DC by (cbn; tauto).
  destruct (found_engine _ _ _ _ _ _ S N E F) as (PN & G & _ & _).
  destruct (C31_cover _ _ _ _ _ _ S SS LE E) as (CC & NE & PO). specialize (NE N).
  assert (forall q s a t, p = q ++ [s] -> s_tokens s = a ++ [t] -> flat_map s_tokens p = (flat_map s_tokens q ++ a) ++ [t]) as FM.
  { intros q s a t -> T. rewrite flat_map_app. cbn [flat_map]. rewrite T, app_nil_r, app_assoc. reflexivity. }
  assert (forall before t, flat_map s_tokens p = before ++ [t] -> g_pos t = (length text - len t)%nat) as POS.
  { intros before t X. assert (nth_error (flat_map s_tokens p) (length before) = Some t) as Y by (rewrite X; apply nth_middle').
    rewrite (PO _ _ Y), X, firstn_app, firstn_all, Nat.sub_diag. cbn [firstn]. rewrite app_nil_r. rewrite <- CC, X, map_app, concat_app. cbn [map concat].
    rewrite app_nil_r, app_length. unfold len. lia. }
  split.
  - intros (I & C9). rewrite <- C9 in DC. destruct (C50_reported _ _ _ _ _ _ _ S N E F I DC) as (_ & [(s & Is & [X|X])|X]);
      [inversion X; subst; discriminate|inversion X; subst; discriminate|].
    destruct X as [q s a t P T NP NT AU AB]. split; [auto|]. split; [auto|]. split.
    + intros AT. rewrite P, app_length. cbn [length]. destruct q; [|cbn; lia]. elim NT. auto.
    + exists (flat_map s_tokens q ++ a), t. split; [eapply FM; eauto|]. split; [auto|]. rewrite (POS _ _ (FM _ _ _ _ P T)). reflexivity.
  - intros (AU & AB & AT & before & t & X & NP & ->). split; [|reflexivity].
    apply (C50_exact b o d text p l (mk_error 9 (length text - len t) (len t) []) S N E F CP DC); [right; cbn; intuition lia|]. right.
    destruct (exists_last PN) as (q & s & P). rewrite Forall_forall in NE. assert (In s p) as Is by (rewrite P; apply in_or_app; right; left; auto).
    destruct (exists_last (NE s Is)) as (a & t' & T). assert (t' = t) as ->.
    { pose proof (FM q s a t' P T) as Y. rewrite X in Y. apply app_inj_tail in Y. symmetry. apply Y. }
    rewrite <- (POS _ _ X). apply (unfinished_here o p q s a t); auto.
    intros (AT' & ->). specialize (AT AT'). rewrite P in AT. cbn in AT. lia.
Qed.
Print Assumptions C53_end.
Example C53_end_ex :
  code_spans (find_errors toy no_options false (wstr "Ei luen. Ei")) = Some [(9, 9%nat, 2%nat)] /\
  code_spans (find_errors toy (mk_gc_options true false false) false (wstr "Matti luen")) = Some [] /\
  code_spans (find_errors toy (mk_gc_options false true false) false (wstr "Matti luen")) = Some [] /\
  code_spans (find_errors toy no_options false (wstr "Ei luen. Ei.")) = Some [].
Proof. split; [|split; [|split]]; vm_compute; reflexivity. Qed.

(** Whitespace after the final full stop is taken for a missing full stop. *)
Theorem C53_whitespace_refuted : exists text l e, text = wstr "Matti luen. " /\ find_errors toy no_options false text = Ok l /\ In e l /\ error_code e = 9.
Proof.
  exists (wstr "Matti luen. "), [mk_error 9 11 1 []], (mk_error 9 11 1 []). split; [reflexivity|]. split; [vm_compute; reflexivity|]. split; [left; reflexivity|reflexivity].
Qed.
Print Assumptions C53_whitespace_refuted.

(** In a longer text the last sentence analysed is taken for the end. *)
Theorem C53_limit_refuted : exists text l e, (exists a, text = a ++ wstr "Ei!") /\ find_errors toy no_options false text = Ok l /\ In e l /\ error_code e = 9.
Proof.
  exists (concat (repeat (wstr "Ei! ") 200) ++ wstr "Ei!"), [mk_error 9 799 1 []], (mk_error 9 799 1 []).
  split; [exists (concat (repeat (wstr "Ei! ") 200)); reflexivity|]. split; [vm_compute; reflexivity|]. split; [left; reflexivity|reflexivity].
Qed.
Print Assumptions C53_limit_refuted.
