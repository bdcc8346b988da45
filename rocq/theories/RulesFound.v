(** * The errors of a sentence and of a paragraph are those described. *)
From Verif Require Import Base BaseFacts CharModel TokenModel TokenSpec TokenProofs SpellerBase SentenceModel SentenceProofs AnalysisModel AnalyzerBase Utf8Model
  GcCacheModel HandleModel ParaModel RulesModel GrammarModel GrammarSpec RulesSpec ParaProofs ParaLoops RulesProofs AutocorrectProofs CapProofs
  GrammarCallSpec GrammarProofs RuleMeaning.

Lemma autocorrect_code : forall tr s l, autocorrect tr s = Ok l -> forall e, In e l -> error_code e = 1.
Proof.
  intros tr s l E.
  assert (forall lf a starts l b, autocorrect_loop tr s lf a starts = Ok (l, b) -> forall e, In e l -> error_code e = 1) as L.
  { intros lf a. induction starts as [|[p u] starts IH]; intros l0 b X e I; cbn [autocorrect_loop] in X; [injection X as <- <-; destruct I|].
    destruct (lf && (0 <? p)%nat); [injection X as <- <-; destruct I|]. destruct (tr (skipn p (ac_buffer a))) as [[out k]|].
    - cbv zeta in X. match type of X with (if ?c then _ else _) = _ => destruct c end; [eauto|].
      destruct (length_correction _ _ _ _ _) as [c| |]; try discriminate. cbn [bind] in X. destruct (suggestion _) as [g| |]; try discriminate. cbn [bind] in X.
      destruct (autocorrect_loop tr s lf a starts) as [(l1, b1)| |] eqn:Y; try discriminate. cbn [bind] in X. injection X as <- <-. destruct I as [<-|I]; [reflexivity|eauto].
    - destruct (rd (s_tokens s) 0) as [f| |]; try discriminate. cbn [bind] in X.
      destruct (autocorrect_loop tr s lf a starts) as [(l1, b1)| |] eqn:Y; try discriminate. cbn [bind] in X. injection X as <- <-. eauto. }
  assert (forall lf l b, autocorrect_pass tr s lf = Ok (l, b) -> forall e, In e l -> error_code e = 1) as P.
  { intros lf l0 b X e I. unfold autocorrect_pass in X. destruct (collect _ _ _ _ _) as [[a|]| |]; try discriminate; cbn [bind] in X; [eauto|].
    injection X as <- <-. destruct I. }
  unfold autocorrect in E. destruct (autocorrect_pass tr s false) as [(l1, b)| |] eqn:E1; try discriminate. cbn [bind] in E.
  destruct b; [|injection E as <-; eauto]. destruct (autocorrect_pass tr s true) as [(l2, b2)| |] eqn:E2; try discriminate. cbn [bind] in E.
  injection E as <-. intros e I. apply in_app_or in I. destruct I; eauto.
Qed.

Lemma repeats_iff : forall s e, repeats (s_tokens s) e -> local_error s e.
Proof. intros s e (a & b & c & g & N & A & B & C & D & F & G & H & ->). eapply le_repeat; eauto. Qed.
Lemma quoting_iff : forall s e, quoting (s_tokens s) e -> local_error s e.
Proof.
  intros s e (l1 & a & b & c & l2 & T & F & [X|[X|X]]).
  - destruct X as (q & g & A & B & C & D & O & ->). eapply le_quote_stop; eauto.
  - destruct X as (x & q & g & A & B & C & D & X & O & ->). eapply le_quote_other; eauto.
  - destruct X as (g & A & O & ->). eapply le_foreign; eauto.
Qed.

Lemma sentence_meaning : forall tr o s hi l, good_sentence hi s -> sentence_errors tr o s = Ok l ->
  (forall e, In e l -> error_code e = 1 \/ (error_code e = 18 /\ extra_verb_in o s e) \/ local_error s e \/ missing_verb_in o s e) /\
  (simple_sentence s -> forall e, local_error s e -> In e l) /\
  (forall e, missing_verb_in o s e -> In e l) /\
  (verbs_counted o s -> forall e, first_verbs o s e -> In e l) /\
  (forall e, local_error s e -> ~ 2 <= error_code e <= 5 -> error_code e <> 8 -> In e l).
Proof.
  intros tr o s hi l (NE & L & H) E. unfold sentence_errors in E. cbv zeta in E.
  destruct (punctuation_of_quotations (s_tokens s)) as [l1| |] eqn:E1; try discriminate. cbn [bind] in E.
  destruct (repeating_words (s_tokens s)) as [l2| |] eqn:E2; try discriminate. cbn [bind] in E.
  destruct (missing_verb o s) as [l3| |] eqn:E3; try discriminate. cbn [bind] in E.
  destruct (negative_verb (s_tokens s)) as [l4| |] eqn:E4; try discriminate. cbn [bind] in E.
  destruct (compound_verb (s_tokens s)) as [l5| |] eqn:E5; try discriminate. cbn [bind] in E.
  destruct (sidesana (s_tokens s)) as [l6| |] eqn:E6; try discriminate. cbn [bind] in E.
  destruct (match tr with Some t => autocorrect t s | None => Ok [] end) as [l7| |] eqn:E7; try discriminate. cbn [bind] in E. injection E as <-.
  pose proof (located_nonempty _ _ L) as NS.
  pose proof (quotations_meaning _ _ E1) as M1. destruct (repeating_meaning _ _ E2) as (M2 & M2'). pose proof (missing_meaning o s l3 L E3) as M3.
  pose proof (extra_meaning o s l3 L E3) as M3'. pose proof (negative_meaning _ _ _ L E4) as M4. pose proof (compound_meaning _ _ _ L E5) as M5.
  pose proof (sidesana_meaning _ _ E6) as M6.
  set (l0 := local_punctuation true (s_tokens s)).
  assert (forall e, In e (l0 ++ l1 ++ l2 ++ l3 ++ l4 ++ l5 ++ l6 ++ l7) <->
     In e l0 \/ In e l1 \/ In e l2 \/ In e l3 \/ In e l4 \/ In e l5 \/ In e l6 \/ In e l7) as IN by (intros e; rewrite !in_app_iff; tauto).
  assert (forall e, local_error s e -> ~ 2 <= error_code e <= 5 -> error_code e <> 8 -> In e (l0 ++ l1 ++ l2 ++ l3 ++ l4 ++ l5 ++ l6 ++ l7)) as REST.
  { intros e X C5 C8. apply IN. inversion X; subst; cbn [error_code] in *; try lia.
    - right; left. apply M1. eexists _, _, _, _, _. split; [eassumption|]. split; [assumption|]. left. eexists _, _. repeat (split; [eassumption|]). reflexivity.
    - right; left. apply M1. eexists _, _, _, _, _. split; [eassumption|]. split; [assumption|]. right; left. eexists _, _, _. repeat (split; [eassumption|]). reflexivity.
    - right; left. apply M1. eexists _, _, _, _, _. split; [eassumption|]. split; [assumption|]. right; right. eexists _. repeat (split; [eassumption|]). reflexivity.
    - do 4 right; left. apply M4. eexists _, _, _. repeat (split; [eassumption|]). reflexivity.
    - do 5 right; left. apply M5. eexists _, _, _. repeat (split; [eassumption|]). left. auto.
    - do 5 right; left. apply M5. eexists _, _, _. repeat (split; [eassumption|]). right. auto.
    - do 6 right; left. apply M6. eexists _, _, _, _. repeat (split; [eassumption|]). reflexivity. }
  split; [|split; [|split; [|split]]].
  - intros e I. apply IN in I. destruct I as [I|[I|[I|[I|[I|[I|[I|I]]]]]]].
    + apply local_sound in I. destruct I as (pre & t & r & T & I). right; right; left. eapply here_iff; eauto.
    + right; right; left. apply quoting_iff, M1, I.
    + right; right; left. apply repeats_iff, M2, I.
    + right. destruct (Z.eq_dec (error_code e) 18) as [C|C]; [left; auto|]. right; right. apply M3. auto.
    + right; right; left. apply M4 in I. destruct I as (a & b & c & N & A & B & C & D & F & ->). eapply le_negative; eauto.
    + right; right; left. apply M5 in I. destruct I as (a & b & c & N & A & B & C & [(D & F & ->)|(D & F & ->)]); [eapply le_A_infinitive|eapply le_MA_infinitive]; eauto.
    + right; right; left. apply M6 in I. destruct I as (x & c & d & y & T & A & B & C & D & F & ->). eapply le_conjunction; eauto.
    + left. destruct tr as [t|]; [|injection E7 as <-; destruct I]. eapply autocorrect_code; eauto.
  - intros (NB & NA) e X. destruct (Z_le_dec 2 (error_code e)) as [C1|C1]; [destruct (Z_le_dec (error_code e) 5) as [C2|C2]|].
    + apply IN. left. destruct (here_complete s e X (conj C1 C2)) as (pre & t & r & T & I). eapply (local_complete _ true); eauto.
    + destruct (Z.eq_dec (error_code e) 8) as [C8|C8]; [|apply REST; auto; lia].
      inversion X; subst; cbn [error_code] in *; try lia. apply IN. right; right; left. apply M2'; [exact NA|]. eexists _, _, _, _. repeat (split; [eassumption|]). reflexivity.
    + apply REST; auto; lia.
  - intros e X. apply M3 in X. apply IN. tauto.
  - intros V e X. apply IN. do 3 right; left. eapply first_verbs_meaning; eauto.
  - exact REST.
Qed.

Lemma sentences_meaning : forall tr o p hi l, Forall (good_sentence hi) p -> sentences_errors tr o p = Ok l ->
  (forall e, In e l -> exists s, In s p /\ (error_code e = 1 \/ (error_code e = 18 /\ extra_verb_in o s e) \/ local_error s e \/ missing_verb_in o s e)) /\
  (forall s e, In s p -> simple_sentence s -> local_error s e -> In e l) /\
  (forall s e, In s p -> missing_verb_in o s e -> In e l) /\
  (forall s e, In s p -> verbs_counted o s -> first_verbs o s e -> In e l) /\
  (forall s e, In s p -> local_error s e -> ~ 2 <= error_code e <= 5 -> error_code e <> 8 -> In e l).
Proof.
  intros tr o p hi. induction p as [|s p IH]; intros l G E; cbn [sentences_errors] in E.
  { injection E as <-. repeat split; intros; repeat match goal with H : In _ [] |- _ => destruct H end. }
  destruct (sentence_errors tr o s) as [l1| |] eqn:E1; try discriminate. cbn [bind] in E.
  destruct (sentences_errors tr o p) as [l2| |] eqn:E2; try discriminate. cbn [bind] in E. injection E as <-.
  inversion G as [|? ? G1 G2]; subst. destruct (sentence_meaning tr o s hi l1 G1 E1) as (A & B & C & D & F).
  destruct (IH l2 G2 eq_refl) as (A' & B' & C' & D' & F'). split; [|split; [|split; [|split]]].
  - intros e I. apply in_app_or in I. destruct I as [I|I]; [exists s; split; [left; auto|auto]|]. destruct (A' e I) as (u & Iu & X). exists u. split; [right; auto|auto].
  - intros u e [<-|I] X Y; apply in_or_app; [left|right]; eauto.
  - intros u e [<-|I] X; apply in_or_app; [left|right]; eauto.
  - intros u e [<-|I] X Y; apply in_or_app; [left|right]; eauto.
  - intros u e [<-|I] X Y Y'; apply in_or_app; [left|right]; eauto.
Qed.

Lemma cap_code : forall p e, cap_error p e -> In (error_code e) [6; 7; 12].
Proof. intros p e []; cbn; auto. Qed.

Lemma engine_meaning : forall tr o p hi l, p <> [] -> Forall (good_sentence hi) p -> rule_engine tr o p = Ok l ->
  (forall e, In e l -> described_code (error_code e) -> paragraph_error o p e) /\
  (forall e, In e l -> error_code e = 18 -> exists s, In s p /\ extra_verb_in o s e) /\
  (forall s e, In s p -> simple_sentence s -> local_error s e -> In e l) /\
  (forall s e, In s p -> missing_verb_in o s e -> In e l) /\
  (forall s e, In s p -> verbs_counted o s -> first_verbs o s e -> In e l) /\
  (forall s e, In s p -> local_error s e -> ~ 2 <= error_code e <= 5 -> error_code e <> 8 -> In e l) /\
  (forall e, unfinished o p e -> In e l).
Proof.
  intros tr o p hi l N G E. unfold rule_engine in E.
  destruct (sentences_errors tr o p) as [l1| |] eqn:E1; try discriminate. cbn [bind] in E.
  destruct (capitalization_ok o p) as (l2 & X2 & F2).
  { eapply Forall_impl; [|exact G]. intros s (NE & L & _). split; auto. eapply located_nonempty; eauto. }
  rewrite X2 in E. cbn [bind] in E. destruct (end_punctuation o p) as [l3| |] eqn:E3; try discriminate. cbn [bind] in E. injection E as <-.
  destruct (sentences_meaning tr o p hi l1 G E1) as (A & B & C & D & F).
  assert (Forall (fun s => s_tokens s <> []) p) as NT by (eapply Forall_impl; [|exact G]; intros s (NE & _); auto).
  pose proof (end_meaning o p l3 NT N E3) as M3. rewrite Forall_forall in F2.
  assert (forall e, unfinished o p e -> error_code e = 9) as C9 by (intros e [q s l0 t _ _ _ _ _ _]; reflexivity).
  split; [|split].
  - intros e I DC. apply in_app_or in I. destruct I as [I|I]; [|apply in_app_or in I; destruct I as [I|I]].
    + destruct (A e I) as (s & Is & [X|[(X & _)|X]]); [rewrite X in DC; cbn in DC; intuition lia|rewrite X in DC; cbn in DC; intuition lia|]. left. exists s. auto.
    + specialize (F2 e I). apply cap_code in F2. cbn in DC, F2. intuition lia.
    + right. apply M3. exact I.
  - intros e I DC. apply in_app_or in I. destruct I as [I|I]; [|apply in_app_or in I; destruct I as [I|I]].
    + destruct (A e I) as (s & Is & [X|[(_ & X)|[X|X]]]); [lia|eauto|inversion X; subst; discriminate|inversion X; subst; discriminate].
    + specialize (F2 e I). apply cap_code in F2. rewrite DC in F2. cbn in F2. intuition lia.
    + apply M3 in I. apply C9 in I. lia.
  - split; [|split; [|split; [|split]]].
    + intros s e I X Y. apply in_or_app. left. eauto.
    + intros s e I X. apply in_or_app. left. eauto.
    + intros s e I X Y. apply in_or_app. left. eauto.
    + intros s e I X Y Z. apply in_or_app. left. eauto.
    + intros e X. apply M3 in X. rewrite !in_app_iff. auto.
Qed.

Lemma checked_iff : forall p, p <> [] -> Forall (fun s => s_tokens s <> []) p -> worth_checking p = true <-> checked p.
Proof.
  intros p N F. unfold worth_checking, checked. destruct p as [|s [|s2 p]]; [congruence| |split; [intros _ u X; discriminate|reflexivity]].
  inversion F as [|? ? NE _]; subst. destruct (existsb is_space (s_tokens s)) eqn:E.
  - split; [|reflexivity]. intros _ u [= <-]. left. apply existsb_exists in E. destruct E as (t & I & X). exists t. split; [auto|]. apply space_iff. auto.
  - destruct (s_tokens s) as [|w r] eqn:T; [congruence|]. cbn [length Nat.eqb]. rewrite orb_false_r, negb_orb, andb_true_iff, negb_involutive, negb_true_iff, Nat.ltb_ge, word_iff. split.
    + intros (A & B) u [= <-]. right. exists w, r. rewrite T. split; [auto|]. split; [auto|]. lia.
    + intros X. destruct (X s eq_refl) as [(t & I & Y)|(w' & r' & T' & Y & Z)].
      * exfalso. rewrite T in I. apply space_iff in Y. assert (existsb is_space (w :: r) = true) by (apply existsb_exists; eauto). congruence.
      * rewrite T in T'. injection T' as <- <-. split; [lia|auto].
Qed.

(** The paragraphs that the rules see. *)
Lemma paragraph_good : forall spell an d text p, structured an -> text <> [] -> analyseParagraph spell an d text = Ok (Some p) ->
  p <> [] /\ Forall (good_sentence (length text)) p.
Proof.
  intros spell an d text p S T E. destruct (sure_sentences_exist spell d text) as (ss & H & C & N).
  destruct (paragraph_ok MAX_SENTENCES_IN_PARAGRAPH spell an d text 0 ss S H) as [(F & p' & E' & D & FA)|(F & E')];
    rewrite analyse_unfold, E' in E; [|discriminate]. injection E as ->. specialize (N T). split.
  - intros ->. inversion D as [? Q|]. destruct ss as [|s ss]; [inversion H|]. discriminate.
  - eapply describes_good; [exact D|exact FA| |].
    + apply Forall_forall. intros s I. rewrite Forall_forall in N. apply N. eapply firstn_In; eauto.
    + pose proof (concat_firstn_len Z MAX_SENTENCES_IN_PARAGRAPH ss) as X. rewrite C in X. exact X.
Qed.
