(** * The rules find exactly what the specification describes. *)
From Verif Require Import Base BaseFacts CharModel TokenModel TokenSpec TokenProofs SpellerBase SentenceModel AnalysisModel AnalyzerBase Utf8Model
  GcCacheModel ParaModel RulesModel GrammarSpec RulesSpec ParaProofs ParaLoops RulesProofs.

Lemma punct_iff : forall t, is_punct t = true <-> punct t.
Proof. intros t. unfold is_punct, punct. destruct (g_type t); split; congruence. Qed.
Lemma space_iff : forall t, is_space t = true <-> space t.
Proof. intros t. unfold is_space, space. destruct (g_type t); split; congruence. Qed.
Lemma word_iff : forall t, is_wordt t = true <-> word t.
Proof. intros t. unfold is_wordt, is_word, word. destruct (g_type t); split; congruence. Qed.
Lemma mark_iff : forall t c, is_punct t && (chr0 t =? c) = true <-> mark t c.
Proof. intros t c. rewrite andb_true_iff, punct_iff, Z.eqb_eq. reflexivity. Qed.
Lemma not_mark_iff : forall t c, negb (is_punct t) || negb (chr0 t =? c) = false <-> mark t c.
Proof. intros t c. rewrite <- negb_andb, negb_false_iff. apply mark_iff. Qed.
Lemma quote_iff : forall c, isFinnishQuotationMark c = true <-> quotation_mark c.
Proof.
  intros c. unfold isFinnishQuotationMark, quotation_mark. rewrite wcschr_spec. cbn. intuition lia.
Qed.
Lemma offered_iff : forall w s, suggestion w = Ok s <-> offered w s.
Proof.
  intros w s. unfold suggestion, offered. destruct (utf8FromUcs4 w) as [o| |]; cbn [bind].
  - split; [intros [= <-]; eauto|intros (o' & [= <-] & ->); reflexivity].
  - split; [discriminate|intros (o & X & _); discriminate].
  - split; [discriminate|intros (o & X & _); discriminate].
Qed.
Lemma str_is_iff : forall t l, str_is t l = true <-> text_of t = l.
Proof. intros t l. unfold str_is, text_of. apply zlist_eqb_eq. Qed.

(** ** Local punctuation *)
Definition here (first : bool) (t : gtoken) (r : list gtoken) : list gc_error :=
  match g_type t with
  | TOKEN_WHITESPACE =>
      if (1 <? tokenlen t)%nat then [mk_error 2 (g_pos t) (tokenlen t) [wstr " "]]
      else match r with
           | t2 :: _ => if negb (is_punct t2) || negb (chr0 t2 =? 0x2C) then [] else [mk_error 3 (g_pos t) 2 [wstr ","]]
           | [] => []
           end
  | TOKEN_PUNCTUATION =>
      if first then
        if wcschr [0x28; 0x29; 0x27; 0x2D; 0x201C; 0x2013; 0x2014] (chr0 t) || isFinnishQuotationMark (chr0 t) then []
        else [mk_error 5 (g_pos t - 1) (if Nat.eqb (g_pos t) 0 then 1 else 2) []]
      else match r with
           | t2 :: _ => if chr0 t =? 0x2C then if negb (is_punct t2) || negb (chr0 t2 =? 0x2C) then [] else [mk_error 4 (g_pos t) 2 [wstr ","]] else []
           | [] => []
           end
  | _ => []
  end.

Lemma local_cons : forall first t r, local_punctuation first (t :: r) = here first t r ++ local_punctuation false r \/
  (mark t 0x5B /\ exists t2 t3 r3, r = t2 :: t3 :: r3 /\ local_punctuation first (t :: r) = local_punctuation false r3).
Proof.
  intros first t r. unfold here. cbn [local_punctuation]. destruct (g_type t) eqn:G; try (left; reflexivity).
  - match goal with |- (if ?b then _ else ?x) = _ \/ _ => set (other := x) end.
    assert (other = here first t r ++ local_punctuation false r) as O.
    { subst other. unfold here. rewrite G. destruct first.
      - destruct (_ || _); [reflexivity|]. destruct (Nat.eqb_spec (g_pos t) 0) as [E|E]; [rewrite E|]; reflexivity.
      - destruct r as [|t2 r]; [reflexivity|]. destruct (chr0 t =? 0x2C); [|reflexivity].
        destruct (negb (is_punct t2) || negb (chr0 t2 =? 0x2C)); reflexivity. }
    unfold here in O. rewrite G in O. clearbody other. destruct (Z.eqb_spec (chr0 t) 0x5B) as [E|]; [|left; exact O].
    destruct r as [|t2 [|t3 r3]]; [left; exact O|left; exact O|]. destruct (chr0 t3 =? 0x5D); [|left; exact O].
    right. split; [split; auto|]. eexists _, _, _. split; reflexivity.
  - left. destruct (1 <? tokenlen t)%nat; [reflexivity|]. destruct r as [|t2 r]; [reflexivity|].
    destruct (negb (is_punct t2) || negb (chr0 t2 =? 0x2C)); reflexivity.
Qed.

Definition nilb {A} (l : list A) : bool := match l with [] => true | _ => false end.

Lemma local_sound : forall toks first e, In e (local_punctuation first toks) ->
  exists pre t r, toks = pre ++ t :: r /\ In e (here (first && nilb pre) t r).
Proof.
  intros toks. remember (length toks) as n eqn:N. revert toks N. induction n as [n IH] using lt_wf_ind. intros toks N first e I.
  destruct toks as [|t r]; [destruct I|]. destruct (local_cons first t r) as [E|(_ & t2 & t3 & r3 & -> & E)]; rewrite E in I.
  - apply in_app_or in I. destruct I as [I|I].
    + exists [], t, r. cbn [nilb]. rewrite andb_true_r. auto.
    + destruct (IH (length r) ltac:(subst n; cbn; lia) r eq_refl false e I) as (pre & u & q & -> & H). exists (t :: pre), u, q. split; [reflexivity|].
      cbn [nilb]. rewrite andb_false_r. exact H.
  - destruct (IH (length r3) ltac:(subst n; cbn; lia) r3 eq_refl false e I) as (pre & u & q & -> & H). exists (t :: t2 :: t3 :: pre), u, q. split; [reflexivity|].
    cbn [nilb]. rewrite andb_false_r. exact H.
Qed.

Lemma local_complete : forall toks first e pre t r, (forall x, In x toks -> ~ mark x 0x5B) ->
  toks = pre ++ t :: r -> In e (here (first && nilb pre) t r) -> In e (local_punctuation first toks).
Proof.
  intros toks first e pre. revert toks first. induction pre as [|u pre IH]; intros toks first t r F -> I.
  - cbn [app nilb] in *. rewrite andb_true_r in I. destruct (local_cons first t r) as [E|(M & _)]; [|elim (F t); [left; auto|auto]].
    rewrite E. apply in_or_app. auto.
  - cbn [app] in *. destruct (local_cons first u (pre ++ t :: r)) as [E|(M & _)]; [|elim (F u); [left; auto|auto]].
    rewrite E. apply in_or_app. right. cbn [nilb] in I. rewrite andb_false_r in I. eapply IH; [|reflexivity|exact I].
    intros x X. apply F. right. exact X.
Qed.

Lemma here_iff : forall s pre t r e, s_tokens s = pre ++ t :: r -> Forall (fun t => g_str t <> []) (s_tokens s) ->
  In e (here (nilb pre) t r) -> local_error s e /\ 2 <= error_code e <= 5.
Proof.
  intros s pre t r e S NE I. unfold here in I. destruct (g_type t) eqn:G; try (destruct I).
  - destruct pre as [|u pre]; cbn [nilb] in I.
    + destruct (wcschr [0x28; 0x29; 0x27; 0x2D; 0x201C; 0x2013; 0x2014] (chr0 t) || isFinnishQuotationMark (chr0 t)) eqn:Q; [destruct I|].
      destruct I as [<-|[]]. apply orb_false_iff in Q. destruct Q as (Q1 & Q2). split; [|cbn; lia].
      eapply (le_starter _ t r (chr0 t)); [exact S|split; [exact G|reflexivity]| |].
      * intros X. assert (wcschr [0x28; 0x29; 0x27; 0x2D; 0x201C; 0x2013; 0x2014] (chr0 t) = true) by (apply wcschr_spec; right; exact X). congruence.
      * intros X. apply quote_iff in X. congruence.
    + destruct r as [|t2 r]; [destruct I|]. destruct (Z.eqb_spec (chr0 t) 0x2C) as [E|]; [|destruct I].
      destruct (negb (is_punct t2) || negb (chr0 t2 =? 0x2C)) eqn:Q; [destruct I|]. destruct I as [<-|[]]. apply not_mark_iff in Q. split; [|cbn; lia].
      eapply (le_commas _ (u :: pre)); [exact S|discriminate|split; [exact G|exact E]|exact Q].
  - destruct (1 <? tokenlen t)%nat eqn:Q.
    + destruct I as [<-|[]]. apply Nat.ltb_lt in Q. split; [|cbn; lia]. apply le_whitespace; auto. rewrite S. apply in_or_app. right. left. auto.
    + apply Nat.ltb_ge in Q. destruct r as [|t2 r]; [destruct I|].
      destruct (negb (is_punct t2) || negb (chr0 t2 =? 0x2C)) eqn:M; [destruct I|]. destruct I as [<-|[]]. apply not_mark_iff in M. split; [|cbn; lia].
      eapply (le_space_comma _ t t2); [exists pre, r; exact S|exact G| |exact M].
      rewrite Forall_forall in NE. specialize (NE t). assert (0 < tokenlen t)%nat; [|unfold len, tokenlen in *; lia].
      apply nonempty_len, NE. rewrite S. apply in_or_app. right. left. auto.
Qed.

Lemma here_complete : forall s e, local_error s e -> 2 <= error_code e <= 5 -> exists pre t r, s_tokens s = pre ++ t :: r /\ In e (here (nilb pre) t r).
Proof.
  intros s e H C. inversion H as [t I T L|a b (l1 & l2 & S) A L M|l1 a b l2 S N A B|t r c S M N Q|? ? ? ? ? ? ? ? ? ? ? ?|?|?|?|?|?|?|?]; subst; try (cbn in C; lia).
  - apply in_split in I. destruct I as (l1 & l2 & S). exists l1, t, l2. split; [auto|]. unfold here. rewrite T.
    replace (1 <? tokenlen t)%nat with true by (symmetry; apply Nat.ltb_lt; exact L). left. reflexivity.
  - exists l1, a, (b :: l2). split; [auto|]. unfold here. rewrite A. unfold len in L. fold (tokenlen a) in L. rewrite L. cbn [Nat.ltb Nat.leb].
    rewrite (proj2 (not_mark_iff b 0x2C) M). left. reflexivity.
  - exists l1, a, (b :: l2). split; [auto|]. unfold here. destruct A as (A1 & A2). rewrite A1. destruct l1; [congruence|]. cbn [nilb].
    unfold starts in A2. fold (chr0 a) in A2. rewrite A2. cbn [Z.eqb Pos.eqb]. rewrite (proj2 (not_mark_iff b 0x2C) B). left. reflexivity.
  - exists [], t, r. split; [auto|]. unfold here. destruct M as (M1 & M2). rewrite M1. cbn [nilb]. unfold starts in M2. fold (chr0 t) in M2. rewrite M2.
    destruct (wcschr [0x28; 0x29; 0x27; 0x2D; 0x201C; 0x2013; 0x2014] c) eqn:W.
    { apply wcschr_spec in W. destruct W as [->|W]; [elim Q; left; auto|elim N; exact W]. }
    destruct (isFinnishQuotationMark c) eqn:F; [apply quote_iff in F; elim Q; exact F|]. left. reflexivity.
Qed.

(** ** Rules for three consecutive tokens *)
Definition splits3 (toks pre : list gtoken) a b c r : Prop := toks = pre ++ a :: b :: c :: r.

Lemma located_three : forall pre a b c r pos, located pos (pre ++ a :: b :: c :: r) ->
  (g_pos c + tokenlen c - g_pos a = tokenlen a + tokenlen b + tokenlen c)%nat.
Proof. intros pre a b c r pos L. apply located_app in L. destruct L as (_ & A & _ & B & _ & C & _). lia. Qed.

Lemma negative_meaning : forall toks pos l, located pos toks -> negative_verb toks = Ok l ->
  forall e, In e l <-> exists a b c, next3 toks a b c /\ word a /\ space b /\ word c /\ isVerbNegative a = true /\ isPositiveVerb c = true /\
    e = mk_error 13 (g_pos a) (len a + len b + len c) [].
Proof.
  induction toks as [|t r IH]; intros pos l L E e.
  { injection E as <-. split; [intros []|]. intros (a & b & c & (l1 & l2 & X) & _). destruct l1; discriminate. }
  cbn [negative_verb] in E. destruct r as [|t1 [|t2 r2]].
  1,2: injection E as <-; split; [intros []|]; intros (a & b & c & (l1 & l2 & X) & _);
    apply (f_equal (@length gtoken)) in X; rewrite app_length in X; cbn in X; lia.
  pose proof (located_three [] t t1 t2 r2 pos L) as LEN. destruct L as (P0 & N0 & L). 
  match type of E with bind ?x _ = _ => destruct x as [l0| |] eqn:E0; try discriminate end. cbn [bind] in E.
  destruct (negative_verb (t1 :: t2 :: r2)) as [l'| |] eqn:E'; try discriminate. injection E as <-. specialize (IH _ l' L eq_refl e).
  rewrite in_app_iff, IH. clear IH E'.
  assert (forall a b c, next3 (t :: t1 :: t2 :: r2) a b c <-> (a = t /\ b = t1 /\ c = t2) \/ next3 (t1 :: t2 :: r2) a b c) as NX.
  { intros a b c. split.
    - intros (l1 & l2 & X). destruct l1 as [|u l1]; [left; injection X; auto|right]. injection X as _ X. exists l1, l2. exact X.
    - intros [(-> & -> & ->)|(l1 & l2 & X)]; [exists [], r2; reflexivity|exists (t :: l1), l2; rewrite X; reflexivity]. }
  assert (In e l0 <-> word t /\ space t1 /\ word t2 /\ isVerbNegative t = true /\ isPositiveVerb t2 = true /\ e = mk_error 13 (g_pos t) (len t + len t1 + len t2) []) as H0.
  { destruct (is_wordt t && is_space t1 && is_wordt t2 && isVerbNegative t && isPositiveVerb t2) eqn:Q.
    - apply andb_true_iff in Q. destruct Q as (Q & Q5). apply andb_true_iff in Q. destruct Q as (Q & Q4). apply andb_true_iff in Q. destruct Q as (Q & Q3).
      apply andb_true_iff in Q. destruct Q as (Q1 & Q2). apply word_iff in Q1, Q3. apply space_iff in Q2.
      destruct (usub (g_pos t2 + tokenlen t2) (g_pos t)) as [n| |] eqn:U; try discriminate. cbn [bind] in E0. injection E0 as <-.
      unfold usub in U. destruct (Nat.leb _ _); [|discriminate]. injection U as <-. rewrite LEN. cbn [In]. unfold len, tokenlen.
      split; [intros [<-|[]]; repeat (split; [solve [auto]|]); reflexivity|intros (_ & _ & _ & _ & _ & ->); left; reflexivity].
    - injection E0 as <-. split; [intros []|]. intros (A & B & C & D & F & _). apply word_iff in A, C. apply space_iff in B.
      rewrite A, B, C, D, F in Q. discriminate. }
  rewrite H0. split.
  - intros [(A & B & C & D & F & ->)|(a & b & c & N & X)].
    + exists t, t1, t2. split; [apply NX; left; auto|]. repeat (split; [solve [auto]|]). reflexivity.
    + exists a, b, c. split; [apply NX; right; exact N|exact X].
  - intros (a & b & c & N & X). apply NX in N. destruct N as [(-> & -> & ->)|N]; [left; exact X|right; exists a, b, c; auto].
Qed.

Lemma compound_meaning : forall toks pos l, located pos toks -> compound_verb toks = Ok l ->
  forall e, In e l <-> exists a b c, next3 toks a b c /\ word a /\ space b /\ word c /\
    ((requireFollowingVerb a = FOLLOWING_VERB_A_INFINITIVE /\ verbFollowerType c = FOLLOWING_VERB_MA_INFINITIVE /\ e = mk_error 14 (g_pos a) (len a + len b + len c) []) \/
     (requireFollowingVerb a = FOLLOWING_VERB_MA_INFINITIVE /\ verbFollowerType c = FOLLOWING_VERB_A_INFINITIVE /\ e = mk_error 15 (g_pos a) (len a + len b + len c) [])).
Proof.
  induction toks as [|t r IH]; intros pos l L E e.
  { injection E as <-. split; [intros []|]. intros (a & b & c & (l1 & l2 & X) & _). destruct l1; discriminate. }
  cbn [compound_verb] in E. destruct r as [|t1 [|t2 r2]].
  1,2: injection E as <-; split; [intros []|]; intros (a & b & c & (l1 & l2 & X) & _);
    apply (f_equal (@length gtoken)) in X; rewrite app_length in X; cbn in X; lia.
  pose proof (located_three [] t t1 t2 r2 pos L) as LEN. destruct L as (P0 & N0 & L).
  match type of E with bind ?x _ = _ => destruct x as [l0| |] eqn:E0; try discriminate end. cbn [bind] in E.
  destruct (compound_verb (t1 :: t2 :: r2)) as [l'| |] eqn:E'; try discriminate. injection E as <-. specialize (IH _ l' L eq_refl e).
  rewrite in_app_iff, IH. clear IH E'.
  assert (forall a b c, next3 (t :: t1 :: t2 :: r2) a b c <-> (a = t /\ b = t1 /\ c = t2) \/ next3 (t1 :: t2 :: r2) a b c) as NX.
  { intros a b c. split.
    - intros (l1 & l2 & X). destruct l1 as [|u l1]; [left; injection X; auto|right]. injection X as _ X. exists l1, l2. exact X.
    - intros [(-> & -> & ->)|(l1 & l2 & X)]; [exists [], r2; reflexivity|exists (t :: l1), l2; rewrite X; reflexivity]. }
  assert (In e l0 <-> word t /\ space t1 /\ word t2 /\
    ((requireFollowingVerb t = FOLLOWING_VERB_A_INFINITIVE /\ verbFollowerType t2 = FOLLOWING_VERB_MA_INFINITIVE /\ e = mk_error 14 (g_pos t) (len t + len t1 + len t2) []) \/
     (requireFollowingVerb t = FOLLOWING_VERB_MA_INFINITIVE /\ verbFollowerType t2 = FOLLOWING_VERB_A_INFINITIVE /\ e = mk_error 15 (g_pos t) (len t + len t1 + len t2) []))) as H0.
  { destruct (is_wordt t && is_space t1 && is_wordt t2) eqn:Q.
    - apply andb_true_iff in Q. destruct Q as (Q & Q3).
      apply andb_true_iff in Q. destruct Q as (Q1 & Q2). apply word_iff in Q1, Q3. apply space_iff in Q2.
      rewrite usub_ok in E0 by (apply nonempty_len in N0; lia). cbn [bind] in E0. rewrite LEN in E0. unfold tokenlen in E0. unfold len.
      destruct (requireFollowingVerb t), (verbFollowerType t2); cbn [bind] in E0; injection E0 as <-;
          (split; [intros I; try (destruct I as [<-|[]]); try (elim I); (split; [auto|split; [auto|split; [auto|]]])|]);
          try (left; repeat split; auto; fail); try (right; repeat split; auto; fail);
          intros (_ & _ & _ & [(A & B & ->)|(A & B & ->)]); try discriminate; left; reflexivity.
    - injection E0 as <-. split; [intros []|]. intros (A & B & C & _). apply word_iff in A, C. apply space_iff in B.
      rewrite A, B, C in Q. discriminate. }
  rewrite H0. split.
  - intros [X|(a & b & c & N & X)].
    + exists t, t1, t2. split; [apply NX; left; auto|exact X].
    + exists a, b, c. split; [apply NX; right; exact N|exact X].
  - intros (a & b & c & N & X). apply NX in N. destruct N as [(-> & -> & ->)|N]; [left; exact X|right; exists a, b, c; auto].
Qed.

(** ** Repeated words *)
Definition repeats (toks : list gtoken) (e : gc_error) : Prop :=
  exists a b c sugg, next3 toks a b c /\ word a /\ space b /\ word c /\
    map lower (text_of a) = map lower (text_of c) /\ isDigit (hd 0 (g_str a)) = false /\ ~ may_be_repeated a /\ offered (g_str a) sugg /\
    e = mk_error 8 (g_pos a) (len a + len b + len c) sugg.

Lemma same_letters : forall a b, equalsIgnoreCase a b = true <-> map lower a = map lower b.
Proof.
  intros a b. unfold equalsIgnoreCase. destruct (Nat.eqb_spec (length a) (length b)) as [E|E]; cbn [negb].
  - apply zlist_eqb_eq.
  - split; [discriminate|]. intros X. apply (f_equal (@length Z)) in X. rewrite !map_length in X. congruence.
Qed.
Lemma repeatable_iff : forall t, repeatable t = true <-> may_be_repeated t.
Proof.
  intros t. unfold repeatable, may_be_repeated. rewrite !orb_true_iff, !str_is_iff. cbn [In]. intuition congruence.
Qed.

Lemma repeats_cons : forall t r e, repeats r e -> repeats (t :: r) e.
Proof. intros t r e (a & b & c & s & (l1 & l2 & ->) & X). exists a, b, c, s. split; [exists (t :: l1), l2; reflexivity|exact X]. Qed.

Lemma repeating_unfold : forall t t1 t2 r3, repeating_words (t :: t1 :: t2 :: r3) =
    (if negb (is_wordt t) then repeating_words (t1 :: t2 :: r3)
     else if negb (is_space t1) then repeating_words (t2 :: r3)
     else if negb (is_wordt t2) then repeating_words r3
     else if negb (equalsIgnoreCase (cstr (g_str t)) (cstr (g_str t2))) then repeating_words (t2 :: r3)
     else if isDigit (chr0 t) then repeating_words (t2 :: r3)
     else if repeatable t then repeating_words (t2 :: r3)
     else
       s <- suggestion (g_str t) ;;
       l <- repeating_words (t1 :: t2 :: r3) ;;
       Ok (mk_error GCERR_REPEATING_WORD (g_pos t) (tokenlen t + tokenlen t1 + tokenlen t2) s :: l)).
Proof. reflexivity. Qed.

Lemma repeating_meaning : forall toks l, repeating_words toks = Ok l ->
  (forall e, In e l -> repeats toks e) /\
  ((forall a b, next2 toks a b -> ~ (word a /\ word b)) -> forall e, repeats toks e -> In e l).
Proof.
  intros toks. remember (length toks) as n eqn:N. revert toks N. induction n as [n IH] using lt_wf_ind. intros toks N l E.
  destruct toks as [|t [|t1 [|t2 r3]]].
  1,2,3: injection E as <-; split; [intros e []|]; intros _ e (a & b & c & s & (l1 & l2 & X) & _);
    apply (f_equal (@length gtoken)) in X; rewrite app_length in X; cbn in X; lia.
  rewrite repeating_unfold in E.
  assert (forall l', repeating_words (t1 :: t2 :: r3) = Ok l' -> _) as I1 by (intros l'; apply (IH (length (t1 :: t2 :: r3))); [subst n; cbn; lia|reflexivity]).
  assert (forall l', repeating_words (t2 :: r3) = Ok l' -> _) as I2 by (intros l'; apply (IH (length (t2 :: r3))); [subst n; cbn; lia|reflexivity]).
  assert (forall l', repeating_words r3 = Ok l' -> _) as I3 by (intros l'; apply (IH (length r3)); [subst n; cbn; lia|reflexivity]).
  clear IH N.
  assert (forall e, repeats (t :: t1 :: t2 :: r3) e -> (forall s, e <> mk_error 8 (g_pos t) (len t + len t1 + len t2) s \/ ~ word t \/ ~ space t1 \/ ~ word t2 \/
    map lower (text_of t) <> map lower (text_of t2) \/ isDigit (chr0 t) = true \/ may_be_repeated t) -> repeats (t1 :: t2 :: r3) e) as D1.
  { intros e (a & b & c & s & (l1 & l2 & X) & A & B & C & F & G & H & O & Y) Z. destruct l1 as [|u l1].
    - injection X as <- <- <- X. specialize (Z s). unfold chr0 in Z. intuition congruence.
    - injection X as _ X. exists a, b, c, s. split; [exists l1, l2; exact X|]. repeat (split; [assumption|]). exact Y. }
  assert (forall e, repeats (t1 :: t2 :: r3) e -> ~ word t1 -> repeats (t2 :: r3) e) as D2.
  { intros e (a & b & c & s & (l1 & l2 & X) & A & Y) Z. destruct l1 as [|u l1]; [injection X as <- <- X; contradiction|].
    injection X as _ X. exists a, b, c, s. split; [exists l1, l2; exact X|]. split; [exact A|exact Y]. }
  assert (forall e, repeats (t2 :: r3) e -> ~ word t2 -> repeats r3 e) as D3.
  { intros e (a & b & c & s & (l1 & l2 & X) & A & Y) Z. destruct l1 as [|u l1]; [injection X as <- X; contradiction|].
    injection X as _ X. exists a, b, c, s. split; [exists l1, l2; exact X|]. split; [exact A|exact Y]. }
  assert (forall a b, next2 (t1 :: t2 :: r3) a b -> next2 (t :: t1 :: t2 :: r3) a b) as N1 by (intros a b (x & y & ->); exists (t :: x), y; reflexivity).
  assert (forall a b, next2 (t2 :: r3) a b -> next2 (t :: t1 :: t2 :: r3) a b) as N2 by (intros a b (x & y & ->); exists (t :: t1 :: x), y; reflexivity).
  assert (forall a b, next2 r3 a b -> next2 (t :: t1 :: t2 :: r3) a b) as N3 by (intros a b (x & y & ->); exists (t :: t1 :: t2 :: x), y; reflexivity).
  assert (next2 (t :: t1 :: t2 :: r3) t t1) as NT by (exists [], (t2 :: r3); reflexivity).
  destruct (is_wordt t) eqn:W; cbn [negb] in E.
  2:{ destruct (I1 l E) as (S & C). split; [intros e X; apply repeats_cons, S, X|]. intros NA e X. apply C; [intros a b Q; apply NA, N1, Q|].
      apply D1; auto. intros s. right. left. intros Q. apply word_iff in Q. congruence. }
  apply word_iff in W.
  destruct (is_space t1) eqn:W1; cbn [negb] in E.
  2:{ destruct (I2 l E) as (S & C). split; [intros e X; do 2 apply repeats_cons; apply S, X|]. intros NA e X. apply C; [intros a b Q; apply NA, N2, Q|].
      apply D2; [apply D1; auto|].
      - intros s. right. right. left. intros Q. apply space_iff in Q. congruence.
      - intros Q. apply (NA t t1 NT). auto. }
  apply space_iff in W1. assert (~ word t1) as NW1 by (unfold word, space in *; congruence).
  destruct (is_wordt t2) eqn:W2; cbn [negb] in E.
  2:{ assert (~ word t2) as NW2 by (intros Q; apply word_iff in Q; congruence).
      destruct (I3 l E) as (S & C). split; [intros e X; do 3 apply repeats_cons; apply S, X|]. intros NA e X. apply C; [intros a b Q; apply NA, N3, Q|].
      apply D3; [apply D2; [apply D1; [exact X|intros s; do 3 right; left; exact NW2]|exact NW1]|exact NW2]. }
  apply word_iff in W2.
  assert (forall l, repeating_words (t2 :: r3) = Ok l ->
     (map lower (text_of t) <> map lower (text_of t2) \/ isDigit (chr0 t) = true \/ may_be_repeated t) ->
     (forall e, In e l -> repeats (t :: t1 :: t2 :: r3) e) /\
     ((forall a b, next2 (t :: t1 :: t2 :: r3) a b -> ~ (word a /\ word b)) -> forall e, repeats (t :: t1 :: t2 :: r3) e -> In e l)) as SK.
  { intros l0 E0 Z. destruct (I2 l0 E0) as (S & C). split; [intros e X; do 2 apply repeats_cons; apply S, X|]. intros NA e X.
    apply C; [intros a b Q; apply NA, N2, Q|]. apply D2; [apply D1; [exact X|intros s; do 4 right; exact Z]|exact NW1]. }
  destruct (equalsIgnoreCase (cstr (g_str t)) (cstr (g_str t2))) eqn:Q1; cbn [negb] in E.
  2:{ apply SK; auto. left. intros X. apply same_letters in X. unfold text_of in X. congruence. }
  apply same_letters in Q1.
  destruct (isDigit (chr0 t)) eqn:Q2; [apply SK; auto|]. destruct (repeatable t) eqn:Q3; [apply SK; auto; do 2 right; apply repeatable_iff; auto|].
  destruct (suggestion (g_str t)) as [s| |] eqn:SU; try discriminate. cbn [bind] in E.
  destruct (repeating_words (t1 :: t2 :: r3)) as [l1| |] eqn:E1; try discriminate. injection E as <-. destruct (I1 l1 eq_refl) as (S & C).
  split.
  - intros e [<-|I]; [|apply repeats_cons, S, I]. exists t, t1, t2, s. split; [exists [], r3; reflexivity|].
    split; [exact W|]. split; [exact W1|]. split; [exact W2|]. split; [exact Q1|]. split; [exact Q2|].
    split; [intros X; apply repeatable_iff in X; congruence|]. split; [apply offered_iff; exact SU|reflexivity].
  - intros NA e X. destruct X as (a & b & c & s' & (x & y & X) & Y). destruct x as [|u x].
    + injection X as <- <- <- _. left. destruct Y as (_ & _ & _ & _ & _ & _ & O & ->). apply offered_iff in O. rewrite SU in O. injection O as <-. reflexivity.
    + injection X as _ X. right. apply C; [intros a' b' Q; apply NA, N1, Q|]. exists a, b, c, s'. split; [exists x, y; exact X|exact Y].
Qed.

(** ** Quotations *)
Definition quoting (toks : list gtoken) (e : gc_error) : Prop :=
  exists l1 a b c l2, toks = l1 ++ a :: b :: c :: l2 /\ (forall t, In t l1 -> ~ foreign t) /\
    ((exists q sugg, mark a 0x2E /\ mark b q /\ quotation_mark q /\ mark c 0x2C /\ offered [q; 0x2C; 0] sugg /\ e = mk_error 10 (g_pos a) 3 sugg) \/
     (exists x q sugg, mark a x /\ (x = 0x21 \/ x = 0x3F) /\ mark b q /\ quotation_mark q /\ mark c 0x2C /\ offered [x; q; 0] sugg /\ e = mk_error 10 (g_pos a) 3 sugg) \/
     (exists sugg, foreign a /\ offered [0x201D] sugg /\ e = mk_error 11 (g_pos a) 1 sugg)).

Lemma quotations_meaning : forall toks l, punctuation_of_quotations toks = Ok l -> forall e, In e l <-> quoting toks e.
Proof.
  induction toks as [|t r IH]; intros l E e.
  { injection E as <-. split; [intros []|]. intros (l1 & a & b & c & l2 & X & _). destruct l1; discriminate. }
  cbn [punctuation_of_quotations] in E. destruct r as [|t1 [|t2 r2]].
  1,2: injection E as <-; split; [intros []|]; intros (l1 & a & b & c & l2 & X & _);
    apply (f_equal (@length gtoken)) in X; rewrite app_length in X; cbn in X; lia.
  set (r := t1 :: t2 :: r2) in *.
  assert (~ foreign t -> forall e, quoting r e -> quoting (t :: r) e) as UP.
  { intros NF e0 (l1 & a & b & c & l2 & X & F & Y). exists (t :: l1), a, b, c, l2. split; [rewrite X; reflexivity|]. split; [|exact Y].
    intros u [<-|I]; auto. }
  assert (forall e, quoting (t :: r) e -> ~ foreign t /\ quoting r e \/
     ((exists q sugg, mark t 0x2E /\ mark t1 q /\ quotation_mark q /\ mark t2 0x2C /\ offered [q; 0x2C; 0] sugg /\ e = mk_error 10 (g_pos t) 3 sugg) \/
     (exists x q sugg, mark t x /\ (x = 0x21 \/ x = 0x3F) /\ mark t1 q /\ quotation_mark q /\ mark t2 0x2C /\ offered [x; q; 0] sugg /\ e = mk_error 10 (g_pos t) 3 sugg) \/
     (exists sugg, foreign t /\ offered [0x201D] sugg /\ e = mk_error 11 (g_pos t) 1 sugg))) as DN.
  { intros e0 (l1 & a & b & c & l2 & X & F & Y). destruct l1 as [|u l1].
    - injection X as <- <- <- _. right. exact Y.
    - injection X as <- X. left. split; [apply F; left; auto|]. exists l1, a, b, c, l2. split; [exact X|]. split; [intros v I; apply F; right; auto|exact Y]. }
  assert (forall e, ((exists q sugg, mark t 0x2E /\ mark t1 q /\ quotation_mark q /\ mark t2 0x2C /\ offered [q; 0x2C; 0] sugg /\ e = mk_error 10 (g_pos t) 3 sugg) \/
     (exists x q sugg, mark t x /\ (x = 0x21 \/ x = 0x3F) /\ mark t1 q /\ quotation_mark q /\ mark t2 0x2C /\ offered [x; q; 0] sugg /\ e = mk_error 10 (g_pos t) 3 sugg) \/
     (exists sugg, foreign t /\ offered [0x201D] sugg /\ e = mk_error 11 (g_pos t) 1 sugg)) -> quoting (t :: r) e) as HERE.
  { intros e0 Y. exists [], t, t1, t2, r2. split; [reflexivity|]. split; [intros u []|exact Y]. }
  assert (forall l, punctuation_of_quotations r = Ok l -> ~ foreign t ->
     ~ (exists x q, mark t x /\ (x = 0x2E \/ x = 0x21 \/ x = 0x3F) /\ mark t1 q /\ quotation_mark q /\ mark t2 0x2C) ->
     forall e, In e l <-> quoting (t :: r) e) as SK.
  { intros l0 E0 NF NQ e0. rewrite (IH l0 E0 e0). split; [apply UP; auto|]. intros X. apply DN in X. destruct X as [(_ & X)|[X|[X|X]]]; [exact X| | |].
    - exfalso. destruct X as (q & s & A & B & C & D & _). apply NQ. exists 0x2E, q. auto 7.
    - exfalso. destruct X as (x & q & s & A & B & C & D & F & _). apply NQ. exists x, q. split; [auto|]. split; [tauto|auto].
    - exfalso. destruct X as (s & A & _). auto. }
  destruct (is_punct t) eqn:P; cbn [negb] in E.
  2:{ assert (~ punct t) as NP by (intros X; apply punct_iff in X; congruence). apply SK; [exact E|intros (X & _); auto|]. intros (x & q & (X & _) & _). auto. }
  apply punct_iff in P. destruct (Z.eqb_spec (chr0 t) 0x201C) as [F|F].
  { destruct (suggestion [0x201D]) as [s| |] eqn:SU; try discriminate. cbn [bind] in E. injection E as <-. split.
    - intros [<-|[]]. apply HERE. right. right. exists s. split; [split; [exact P|exact F]|]. split; [apply offered_iff; exact SU|reflexivity].
    - intros X. apply DN in X. destruct X as [(X & _)|[X|[X|X]]].
      + elim X. split; [exact P|exact F].
      + exfalso. destruct X as (q & s' & (_ & A) & _). unfold starts in A. unfold chr0 in F. lia.
      + exfalso. destruct X as (x & q & s' & (_ & A) & B & _). unfold starts in A. unfold chr0 in F. lia.
      + destruct X as (s' & _ & O & ->). apply offered_iff in O. rewrite SU in O. injection O as <-. left. reflexivity. }
  assert (~ foreign t) as NF by (intros (_ & X); auto).
  destruct (is_punct t1) eqn:P1; cbn [negb] in E.
  2:{ apply SK; auto. intros (x & q & _ & _ & (X & _) & _). apply punct_iff in X. congruence. }
  apply punct_iff in P1. destruct (isFinnishQuotationMark (chr0 t1)) eqn:Q1; cbn [negb] in E.
  2:{ apply SK; auto. intros (x & q & _ & _ & (_ & X) & Y & _). apply quote_iff in Y. unfold starts in X. unfold chr0 in Q1. congruence. }
  apply quote_iff in Q1. destruct (is_punct t2) eqn:P2; cbn [negb] in E.
  2:{ apply SK; auto. intros (x & q & _ & _ & _ & _ & (X & _)). apply punct_iff in X. congruence. }
  apply punct_iff in P2. destruct (Z.eqb_spec (chr0 t2) 0x2C) as [C2|C2]; cbn [negb] in E.
  2:{ apply SK; auto. intros (x & q & _ & _ & _ & _ & (_ & X)). auto. }
  cbv zeta in E. assert (mark t1 (chr0 t1)) as M1 by (split; auto; reflexivity). assert (mark t2 0x2C) as M2 by (split; auto).
  assert (forall q, mark t1 q -> q = chr0 t1) as U1 by (intros q (_ & X); symmetry; exact X).
  assert (forall q, mark t q -> q = chr0 t) as U0 by (intros q (_ & X); symmetry; exact X).
  destruct (Z.eqb_spec (chr0 t) 0x2E) as [D|D].
  { destruct (suggestion [chr0 t1; 0x2C; 0]) as [s| |] eqn:SU; try discriminate. cbn [bind] in E.
    destruct (punctuation_of_quotations r) as [l'| |] eqn:E'; try discriminate. cbn [bind] in E. injection E as <-. cbn [In]. rewrite (IH l' eq_refl e). split.
    - intros [<-|X]; [|apply UP; auto]. apply HERE. left. exists (chr0 t1), s. split; [split; auto|]. repeat (split; [solve [auto]|]). split; [apply offered_iff; exact SU|reflexivity].
    - intros X. apply DN in X. destruct X as [(_ & X)|[X|[X|X]]]; [right; exact X| | |].
      + left. destruct X as (q & s' & _ & B & _ & _ & O & ->). rewrite (U1 q B) in O. apply offered_iff in O. rewrite SU in O. injection O as <-. reflexivity.
      + exfalso. destruct X as (x & q & s' & A & B & _). pose proof (U0 _ A); lia.
      + exfalso. destruct X as (s' & A & _). auto. }
  destruct ((chr0 t =? 0x21) || (chr0 t =? 0x3F)) eqn:X2.
  2:{ apply SK; auto. intros (x & q & A & B & _). pose proof (U0 _ A); lia. }
  assert (suggestion [if chr0 t =? 0x21 then 0x21 else 0x3F; chr0 t1; 0] = suggestion [chr0 t; chr0 t1; 0]) as EQ.
  { destruct (Z.eqb_spec (chr0 t) 0x21) as [<-|]; [reflexivity|]. cbn [orb] in X2. apply Z.eqb_eq in X2. rewrite X2. reflexivity. }
  rewrite EQ in E. destruct (suggestion [chr0 t; chr0 t1; 0]) as [s| |] eqn:SU; try discriminate. cbn [bind] in E.
  destruct (punctuation_of_quotations r) as [l'| |] eqn:E'; try discriminate. cbn [bind] in E. injection E as <-. cbn [In]. rewrite (IH l' eq_refl e). split.
  - intros [<-|X]; [|apply UP; auto]. apply HERE. right. left. exists (chr0 t), (chr0 t1), s. split; [split; auto; reflexivity|]. split; [lia|]. repeat (split; [solve [auto]|]).
    split; [apply offered_iff; exact SU|reflexivity].
  - intros X. apply DN in X. destruct X as [(_ & X)|[X|[X|X]]]; [right; exact X| | |].
    + exfalso. destruct X as (q & s' & A & _). pose proof (U0 _ A). lia.
    + left. destruct X as (x & q & s' & A & _ & B & _ & _ & O & ->). rewrite (U1 q B), (U0 x A) in O. apply offered_iff in O. rewrite SU in O. injection O as <-. reflexivity.
    + exfalso. destruct X as (s' & A & _). auto.
Qed.

(** ** The end of the sentence and of the paragraph *)
Lemma rev_snoc : forall A (l : list A) x r, rev l = x :: r -> l = rev r ++ [x].
Proof. intros A l x r E. rewrite <- (rev_involutive l), E. reflexivity. Qed.

Lemma sidesana_meaning : forall toks l, sidesana toks = Ok l -> forall e, In e l <->
  exists l1 c d x, toks = l1 ++ c :: d :: x /\ (x = [] \/ exists w, x = [w] /\ space w) /\
    isConjunction c = true /\ text_of c <> wstr "vaan" /\ punct d /\ text_of d = wstr "." /\ e = mk_error 16 (g_pos c) (len c) [].
Proof.
  intros toks l E e. unfold sidesana in E. destruct (rev toks) as [|last before] eqn:R; [discriminate|]. apply rev_snoc in R. cbv zeta in E.
  set (L := if is_space last then before else last :: before) in E.
  assert (forall l1 c d x, toks = l1 ++ c :: d :: x -> (x = [] \/ exists w, x = [w] /\ space w) -> punct d -> L = d :: c :: rev l1) as UN.
  { intros l1 c d x T X D. destruct X as [->|(w & -> & SP)].
    - replace (l1 ++ [c; d]) with ((l1 ++ [c]) ++ [d]) in T by (rewrite <- app_assoc; reflexivity). rewrite R in T. apply app_inj_tail in T. destruct T as (T & ->).
      subst L. assert (is_space d = false) as -> by (destruct (is_space d) eqn:Q; [apply space_iff in Q; unfold space, punct in *; congruence|reflexivity]).
      f_equal. rewrite <- (rev_involutive before), T, rev_app_distr. reflexivity.
    - replace (l1 ++ [c; d; w]) with ((l1 ++ [c; d]) ++ [w]) in T by (rewrite <- app_assoc; reflexivity). rewrite R in T. apply app_inj_tail in T. destruct T as (T & ->).
      subst L. rewrite (proj2 (space_iff w) SP). rewrite <- (rev_involutive before), T, rev_app_distr. reflexivity. }
  assert (forall d c r, L = d :: c :: r -> exists x, toks = rev r ++ c :: d :: x /\ (x = [] \/ exists w, x = [w] /\ space w)) as EX.
  { intros d c r Q. subst L. destruct (is_space last) eqn:SP.
    - subst before. exists [last]. split; [rewrite R; cbn [rev]; rewrite <- !app_assoc; reflexivity|]. right. exists last. split; [auto|]. apply space_iff. auto.
    - injection Q as -> ->. exists []. split; [rewrite R; cbn [rev]; rewrite <- app_assoc; reflexivity|left; auto]. }
  clearbody L. clear R before last.
  assert (L <> [] -> (forall t, L <> [t]) -> exists d c r, L = d :: c :: r) as SH by (intros A B; destruct L as [|d [|c r]]; [congruence|elim (B d); auto|eauto]).
  destruct L as [|d [|c r]].
  1,2: injection E as <-; split; [intros []|]; intros (l1 & c' & d' & x & T & X & _ & _ & D & _); specialize (UN l1 c' d' x T X D); discriminate.
  destruct (isConjunction c && negb (str_is c (wstr "vaan")) && is_punct d && str_is d (wstr ".")) eqn:Q; injection E as <-.
  - apply andb_true_iff in Q. destruct Q as (Q & Q4). apply andb_true_iff in Q. destruct Q as (Q & Q3). apply andb_true_iff in Q. destruct Q as (Q1 & Q2).
    apply negb_true_iff in Q2. apply punct_iff in Q3. apply str_is_iff in Q4. split.
    + intros [<-|[]]. destruct (EX d c r eq_refl) as (x & T & X). exists (rev r), c, d, x. repeat (split; [solve [auto]|]). split; [intros Y; apply str_is_iff in Y; congruence|]. auto.
    + intros (l1 & c' & d' & x & T & X & _ & _ & D & _ & ->). specialize (UN l1 c' d' x T X D). injection UN as _ <- _. left. reflexivity.
  - split; [intros []|]. intros (l1 & c' & d' & x & T & X & A & B & D & F & ->). specialize (UN l1 c' d' x T X D). injection UN as <- <- _.
    apply str_is_iff in F. apply punct_iff in D. rewrite A, D, F in Q. destruct (str_is c (wstr "vaan")) eqn:Y; [apply str_is_iff in Y; contradiction|discriminate].
Qed.

Lemma end_meaning : forall o p l, Forall (fun s => s_tokens s <> []) p -> p <> [] -> end_punctuation o p = Ok l -> forall e, In e l <-> unfinished o p e.
Proof.
  intros o p l F N E e. unfold end_punctuation in E. destruct (rev p) as [|s q] eqn:R.
  { apply (f_equal (@rev gsentence)) in R. rewrite rev_involutive in R. cbn in R. congruence. }
  apply rev_snoc in R.
  assert (forall q' s', p = q' ++ [s'] -> q' = rev q /\ s' = s) as UN by (intros q' s' X; rewrite R in X; apply app_inj_tail in X; destruct X; auto).
  assert (accept_titles o && Nat.eqb (length p) 1 = true <-> accept_titles o = true /\ rev q = []) as TI.
  { rewrite andb_true_iff, Nat.eqb_eq. rewrite R, app_length. cbn [length]. split; intros (A & B); (split; [auto|]); [destruct (rev q); [auto|cbn in B; lia]|rewrite B; reflexivity]. }
  destruct (accept_titles o && Nat.eqb (length p) 1).
  { injection E as <-. split; [intros []|]. intros X. inversion X as [q' s' l' t' A B C D G H]; subst e. apply UN in A. destruct A as (-> & ->). elim D. apply TI. auto. }
  assert (~ (accept_titles o = true /\ rev q = [])) as NT by (intros X; apply TI in X; discriminate). clear TI.
  destruct (accept_unfinished o) eqn:U. { injection E as <-. split; [intros []|]. intros X. inversion X; congruence. }
  destruct (accept_bulleted o) eqn:BU. { injection E as <-. split; [intros []|]. intros X. inversion X; congruence. }
  destruct (rev (s_tokens s)) as [|t r] eqn:RT; [discriminate|]. apply rev_snoc in RT.
  destruct (is_punct t) eqn:P; injection E as <-.
  - apply punct_iff in P. split; [intros []|]. intros X. inversion X as [q' s' l' t' A B C D G H]; subst e. apply UN in A. destruct A as (-> & ->).
    rewrite RT in B. apply app_inj_tail in B. destruct B as (_ & <-). contradiction.
  - split.
    + intros [<-|[]]. eapply (unfinished_here o p (rev q) s (rev r) t); auto. intros X. apply punct_iff in X. congruence.
    + intros X. inversion X as [q' s' l' t' A B C D G H]; subst e. apply UN in A. destruct A as (-> & ->). rewrite RT in B. apply app_inj_tail in B. destruct B as (_ & <-). left. reflexivity.
Qed.

(** ** Verbs *)
Definition last_other (d : option gtoken) (l : list gtoken) : option gtoken := fold_left (fun d t => if is_space t then d else Some t) l d.
Definition verb_word (t : gtoken) : bool := is_wordt t && (negb (isValidWord t) || possibleMainVerb t || isVerbNegative t).

Lemma verb_clause_code : forall tokens i t nx c v c' v' e, verb_clause tokens i t nx c v = Ok (c', v', e) -> forall x, In x e -> error_code x = 18.
Proof.
  intros tokens i t nx c v c' v' e E x I. unfold verb_clause in E. cbv zeta in E.
  destruct (possibleConjunction t); [injection E as <- <- <-; destruct I|].
  match type of E with (if ?b then _ else _) = _ => destruct b end; [injection E as <- <- <-; destruct I|].
  match type of E with (if ?b then _ else _) = _ => destruct b end; [injection E as <- <- <-; destruct I|].
  destruct (isMainVerb t); [|injection E as <- <- <-; destruct I].
  destruct c; [|injection E as <- <- <-; destruct I]. destruct (rd tokens v) as [u| |]; try discriminate. cbn [bind] in E.
  destruct (same_verb_repeated i v t u); [injection E as <- <- <-; destruct I|].
  destruct (usub (g_pos t + tokenlen t) (g_pos u)) as [n| |]; try discriminate. cbn [bind] in E. injection E as <- <- <-. destruct I as [<-|[]]. reflexivity.
Qed.

Lemma missing_loop_state : forall rest tokens i s l r, missing_verb_loop tokens rest i s = Ok (l, r) ->
  (forall x, In x l -> error_code x = 18) /\
  match r with
  | None => exists t, In t rest /\ starts t 9
  | Some s' => (forall t, In t rest -> ~ starts t 9) /\ mv_words s' = (mv_words s + length (filter is_wordt rest))%nat /\
      mv_found s' = mv_found s || existsb verb_word rest /\ mv_last s' = last_other (mv_last s) rest
  end.
Proof.
  induction rest as [|t rest IH]; intros tokens i s l r E; cbn [missing_verb_loop] in E.
  { injection E as <- <-. split; [intros x []|]. split; [intros t []|]. split; [cbn; lia|]. split; [cbn; rewrite orb_false_r; reflexivity|reflexivity]. }
  destruct (Z.eqb_spec (chr0 t) 9) as [T|T]. { injection E as <- <-. split; [intros x []|]. exists t. split; [left; auto|exact T]. }
  match type of E with bind ?st _ = _ => destruct st as [(s1, e)| |] eqn:ST; try discriminate end. cbn [bind] in E.
  match type of E with bind (missing_verb_loop _ _ _ ?x) _ = _ => set (s2 := x) in * end.
  destruct (missing_verb_loop tokens rest (S i) s2) as [(l2, r2)| |] eqn:E2; try discriminate. cbn [bind] in E. injection E as <- <-.
  destruct (IH _ _ _ _ _ E2) as (C2 & R2).
  assert ((forall x, In x e -> error_code x = 18) /\ mv_words s1 = (mv_words s + (if is_wordt t then 1 else 0))%nat /\
    mv_found s1 = mv_found s || verb_word t /\ mv_last s1 = mv_last s) as (Ce & W1 & F1 & L1).
  { unfold verb_word. destruct (is_wordt t).
    - destruct (verb_clause _ _ _ _ _ _) as [((c, v), e')| |] eqn:V; try discriminate. cbn [bind] in ST. injection ST as <- <-. cbn.
      split; [eapply verb_clause_code; eauto|]. split; [lia|]. split; [rewrite !orb_assoc; reflexivity|reflexivity].
    - destruct (is_punct t); injection ST as <- <-; cbn; (split; [intros x []|]); (split; [lia|]); (split; [rewrite orb_false_r; reflexivity|reflexivity]). }
  split. { intros x I. apply in_app_or in I. destruct I; auto. }
  destruct r2 as [s'|]. 2:{ destruct R2 as (u & I & X). exists u. split; [right; auto|auto]. }
  destruct R2 as (A & B & C & D). split; [intros u [<-|I]; [exact T|auto]|].
  assert (mv_words s2 = mv_words s1 /\ mv_found s2 = mv_found s1 /\ mv_last s2 = if is_space t then mv_last s1 else Some t) as (X1 & X2 & X3)
    by (subst s2; destruct (is_space t); auto).
  rewrite B, C, D, X1, X2, X3, W1, F1, L1. split; [cbn [filter]; destruct (is_wordt t); cbn [length]; lia|].
  split; [cbn [existsb]; rewrite !orb_assoc; reflexivity|]. reflexivity.
Qed.

Lemma last_other_some : forall l d z, last_other d l = Some z <->
  (exists l1 l2, l = l1 ++ z :: l2 /\ ~ space z /\ Forall space l2) \/ (Forall space l /\ d = Some z).
Proof.
  induction l as [|t l IH]; intros d z; cbn [last_other fold_left].
  { split; [intros ->; right; split; [constructor|reflexivity]|]. intros [(l1 & l2 & X & _)|(_ & X)]; [destruct l1; discriminate|exact X]. }
  fold (last_other (if is_space t then d else Some t) l). rewrite IH. split.
  - intros [(l1 & l2 & -> & A & B)|(A & B)]; [left; exists (t :: l1), l2; auto|]. destruct (is_space t) eqn:SP.
    + right. split; [constructor; [apply space_iff; exact SP|exact A]|exact B].
    + injection B as ->. left. exists [], l. split; [reflexivity|]. split; [intros X; apply space_iff in X; congruence|exact A].
  - intros [(l1 & l2 & X & A & B)|(A & ->)].
    + destruct l1 as [|u l1]; injection X as -> X.
      * right. subst l2. split; [exact B|]. destruct (is_space z) eqn:SP; [apply space_iff in SP; contradiction|reflexivity].
      * left. exists l1, l2. auto.
    + right. inversion A as [|? ? A1 A2]; subst. split; [exact A2|]. rewrite (proj2 (space_iff t) A1). reflexivity.
Qed.

Lemma last_split_unique : forall l1 z l2 l1' z' l2', l1 ++ z :: l2 = l1' ++ z' :: l2' ->
  ~ space z -> Forall space l2 -> ~ space z' -> Forall space l2' -> l1 = l1' /\ z = z'.
Proof.
  induction l1 as [|a l1 IH]; intros z l2 l1' z' l2' E A B C D; destruct l1' as [|a' l1']; cbn in E; injection E as X E.
  - auto.
  - exfalso. apply C. rewrite E, Forall_forall in B. apply B. apply in_or_app. right. left. reflexivity.
  - exfalso. apply A. rewrite <- E, Forall_forall in D. apply D. apply in_or_app. right. left. reflexivity.
  - destruct (IH _ _ _ _ _ E A B C D) as (-> & ->). subst. auto.
Qed.

Lemma stop_iff : forall c, wcschr (wstr ".?") c = true <-> In c [0; 0x2E; 0x3F].
Proof. intros c. rewrite wcschr_spec. cbn. intuition lia. Qed.

Lemma tlen_concat : forall l, tlen l = length (concat (map g_str l)).
Proof. induction l as [|t l IH]; [reflexivity|]. rewrite tlen_cons, IH. cbn [map concat]. rewrite app_length. reflexivity. Qed.

Lemma missing_meaning : forall o s l, located (s_pos s) (s_tokens s) -> missing_verb o s = Ok l ->
  forall e, In e l /\ error_code e <> 18 <-> missing_verb_in o s e.
Proof.
  intros o s l LO E e. unfold missing_verb in E. destruct (s_tokens s) as [|f r] eqn:T; [discriminate|].
  assert (rd (f :: r) 0 = Ok f) as RD by reflexivity. rewrite RD in E. clear RD. cbn [bind] in E. rewrite <- T in *.
  assert (forall e, missing_verb_in o s e -> ~ punct f /\
     ~ (accept_bulleted o = true /\ s_pos s = 0%nat /\ (isLower (hd 0 (g_str f)) = true \/ firstLetterLcase f = false))) as IN.
  { intros e0 [f' r' l1 z l2 T' A B]. rewrite T in T'. injection T' as <- _. auto. }
  destruct (is_punct f) eqn:P.
  { injection E as <-. split; [intros ([] & _)|]. intros X. apply punct_iff in P. destruct (IN e X). contradiction. }
  assert (~ punct f) as NP by (intros X; apply punct_iff in X; congruence).
  destruct (accept_bulleted o && Nat.eqb (s_pos s) 0 && (isLower (chr0 f) || negb (firstLetterLcase f))) eqn:BU.
  { injection E as <-. split; [intros ([] & _)|]. intros X. destruct (IN e X) as (_ & Y). elim Y. apply andb_true_iff in BU. destruct BU as (BU & B3).
    apply andb_true_iff in BU. destruct BU as (B1 & B2). apply Nat.eqb_eq in B2. apply orb_true_iff in B3. rewrite negb_true_iff in B3. auto. }
  assert (~ (accept_bulleted o = true /\ s_pos s = 0%nat /\ (isLower (hd 0 (g_str f)) = true \/ firstLetterLcase f = false))) as NB.
  { intros (B1 & B2 & B3). rewrite B1, B2 in BU. cbn [Nat.eqb andb] in BU. unfold chr0 in BU. destruct B3 as [B3|B3]; rewrite B3 in BU; [discriminate|]. rewrite orb_true_r in BU. discriminate. }
  clear IN BU P.
  destruct (missing_verb_loop (s_tokens s) (s_tokens s) 0 (mk_mv 0 None false false 0)) as [(l0, q)| |] eqn:EL; try discriminate. cbn [bind] in E.
  destruct (missing_loop_state _ _ _ _ _ _ EL) as (C18 & ST). cbn [mv_words mv_last mv_found] in ST.
  destruct q as [st|].
  2:{ injection E as <-. split; [intros (I & N); elim N; auto|]. intros [f' r' l1 z l2 T' A B TAB]. destruct ST as (t & I & X). elim (TAB t I X). }
  destruct ST as (TAB & W & F & LA).
  assert (forall g, (In e l0 /\ error_code e <> 18 <-> g) <-> ~ g) as NO by (intros g; specialize (C18 e); tauto).
  destruct (mv_found st || (mv_words st <? 2)%nat) eqn:FW.
  { injection E as <-. apply NO. intros [f' r' l1 z l2 T' A B _ V N2 _]. apply orb_true_iff in FW. destruct FW as [FW|FW].
    - rewrite F in FW. cbn [orb] in FW. apply existsb_exists in FW. destruct FW as (t & I & X). unfold verb_word in X. apply andb_true_iff in X. destruct X as (X1 & X2).
      apply word_iff in X1. destruct (V t I X1) as (V1 & V2 & V3). rewrite V1, V2, V3 in X2. discriminate.
    - apply Nat.ltb_lt in FW. lia. }
  apply orb_false_iff in FW. destruct FW as (FF & FW). apply Nat.ltb_ge in FW.
  destruct (mv_last st) as [z|] eqn:LZ; [|discriminate]. symmetry in LA. apply last_other_some in LA. destruct LA as [(l1 & l2 & TZ & NS & SP)|(_ & X)]; [|discriminate].
  assert (forall l1' z' l2', s_tokens s = l1' ++ z' :: l2' -> ~ space z' -> Forall space l2' -> l1' = l1 /\ z' = z) as UN.
  { intros l1' z' l2' Q A B. rewrite TZ in Q. destruct (last_split_unique _ _ _ _ _ _ Q NS SP A B). auto. }
  destruct (negb (wcschr (wstr ".?") (chr0 z)) || str_is z (wstr "...")) eqn:CZ.
  { injection E as <-. apply NO. intros [f' r' l1' z' l2' T' A B _ V N2 Q1 Q2 Q3 Q4 Q5]. destruct (UN _ _ _ Q1 Q2 Q3) as (-> & ->).
    apply orb_true_iff in CZ. rewrite negb_true_iff, str_is_iff in CZ. destruct CZ as [CZ|CZ]; [|contradiction]. destruct Q4 as (c & Sc & Ic).
    assert (wcschr (wstr ".?") (chr0 z) = true) by (apply stop_iff; unfold starts in Sc; unfold chr0; rewrite Sc; exact Ic). congruence. }
  apply orb_false_iff in CZ. destruct CZ as (C1 & C2). rewrite negb_false_iff in C1.
  assert (g_pos z + tokenlen z = s_pos s + tlen (l1 ++ [z]))%nat as LEN.
  { rewrite TZ in LO. apply located_app in LO. destruct LO as (_ & LO). destruct LO as (LO & _). rewrite tlen_app, tlen_cons. unfold tlen at 2. cbn. lia. }
  rewrite LEN, usub_ok in E by lia. cbn [bind] in E. replace (s_pos s + tlen (l1 ++ [z]) - s_pos s)%nat with (tlen (l1 ++ [z])) in E by lia. rewrite tlen_concat in E.
  injection E as <-. split.
  - intros (I & N). apply in_app_or in I. destruct I as [I|[<-|[]]]; [elim N; auto|]. apply (mv_here o s f r l1 z l2); auto.
    + intros t I X. apply word_iff in X. assert (verb_word t = false) as VW.
      { destruct (verb_word t) eqn:Q; [|reflexivity]. rewrite F in FF. cbn [orb] in FF. rewrite <- FF. symmetry. apply existsb_exists. exists t. auto. }
      unfold verb_word in VW. rewrite X in VW. cbn [andb] in VW. apply orb_false_iff in VW. destruct VW as (VW & V3). apply orb_false_iff in VW. destruct VW as (V1 & V2).
      apply negb_false_iff in V1. auto.
    + lia.
    + exists (chr0 z). split; [reflexivity|]. apply stop_iff in C1. exact C1.
    + intros X. apply str_is_iff in X. congruence.
  - intros [f' r' l1' z' l2' T' A B _ V N2 Q1 Q2 Q3 Q4 Q5]. destruct (UN _ _ _ Q1 Q2 Q3) as (-> & ->). split; [|discriminate].
    apply in_or_app. right. left. reflexivity.
Qed.

(** What the rule remembers: the first main verb of the current clause. *)
Definition clause_inv (pre : list gtoken) (s : mv_state) : Prop :=
  mv_clause s = true -> exists l1 v mid, pre = l1 ++ v :: mid /\ mv_verb s = length l1 /\ main_verb v /\ Forall between mid.

Lemma nth_middle' : forall A (a : list A) x b, nth_error (a ++ x :: b) (length a) = Some x.
Proof. intros A a x b. rewrite nth_error_app2 by lia. rewrite Nat.sub_diag. reflexivity. Qed.

Lemma extra_sound : forall o s rest pre st l r, located (s_pos s) (s_tokens s) -> s_tokens s = pre ++ rest -> (forall x, In x pre -> ~ starts x 9) -> clause_inv pre st ->
  missing_verb_loop (s_tokens s) rest (length pre) st = Ok (l, r) -> forall e, In e l -> extra_verb_in o s e.
Proof.
  intros o s rest. induction rest as [|t rest IH]; intros pre st l r LO T TAB INV E e I; cbn [missing_verb_loop] in E.
  { injection E as <- <-. destruct I. }
  destruct (Z.eqb_spec (chr0 t) 9) as [Tt|Tt]; [injection E as <- <-; destruct I|].
  match type of E with bind ?st _ = _ => destruct st as [(s1, e1)| |] eqn:ST; try discriminate end. cbn [bind] in E.
  match type of E with bind (missing_verb_loop _ _ _ ?x) _ = _ => set (s2 := x) in * end.
  destruct (missing_verb_loop (s_tokens s) rest (S (length pre)) s2) as [(l2, r2)| |] eqn:E2; try discriminate. cbn [bind] in E. injection E as <- <-.
  assert (forall x, In x (pre ++ [t]) -> ~ starts x 9) as TAB' by (intros x X; apply in_app_or in X; destruct X as [X|[<-|[]]]; auto).
  assert (forall c, clause_inv (pre ++ [t]) c = clause_inv (pre ++ [t]) c) as _ by reflexivity.
  assert (mv_clause s2 = mv_clause s1 /\ mv_verb s2 = mv_verb s1) as (X1 & X2) by (subst s2; destruct (is_space t); auto).
  assert (clause_inv (pre ++ [t]) s1 /\ forall e, In e e1 -> extra_verb_in o s e) as (INV1 & E1).
  2:{ apply in_app_or in I. destruct I as [I|I]; [auto|]. apply (IH (pre ++ [t]) s2 l2 r2); auto.
      - rewrite <- app_assoc. exact T.
      - unfold clause_inv. rewrite X1, X2. exact INV1.
      - rewrite app_length, Nat.add_1_r. exact E2. }
  clear IH E2 I e. assert (between t -> clause_inv (pre ++ [t]) st) as KEEP.
  { intros B C. destruct (INV C) as (l1 & v & mid & -> & V & M & F). exists l1, v, (mid ++ [t]). split; [rewrite <- app_assoc; reflexivity|].
    split; [exact V|]. split; [exact M|]. apply Forall_app. auto. }
  destruct (is_wordt t) eqn:W.
  2:{ destruct (is_punct t) eqn:P; injection ST as <- <-; (split; [|intros e []]); [intros X; discriminate|]. apply KEEP. split.
      - intros X. apply punct_iff in X. congruence.
      - intros X. apply word_iff in X. congruence. }
  apply word_iff in W. assert (~ punct t) as NP by (unfold punct, word in *; congruence).
  destruct (verb_clause _ _ _ _ _ _) as [((c, v), e')| |] eqn:V; try discriminate. cbn [bind] in ST. injection ST as <- <-.
  unfold verb_clause in V. cbv zeta in V.
  destruct (possibleConjunction t) eqn:PC; [injection V as <- <- <-; split; [intros X; discriminate|intros e []]|].
  match type of V with (if ?b then _ else _) = _ => destruct b end; [injection V as <- <- <-; split; [intros X; discriminate|intros e []]|].
  match type of V with (if ?b then _ else _) = _ => destruct b end; [injection V as <- <- <-; split; [intros X; discriminate|intros e []]|].
  destruct (isMainVerb t) eqn:MV.
  2:{ injection V as <- <- <-. split; [|intros e []]. unfold clause_inv. cbn. apply KEEP. split; auto. }
  destruct (mv_clause st) eqn:CL.
  2:{ injection V as <- <- <-. split; [|intros e []]. intros _. exists pre, t, []. split; [reflexivity|]. split; [reflexivity|]. split; [split; auto|constructor]. }
  destruct (INV CL) as (l1 & u & mid & -> & VB & M & F). rewrite VB in V.
  assert (nth_error (s_tokens s) (length l1) = Some u) as NU by (rewrite T, <- app_assoc; apply nth_middle').
  rewrite (proj2 (rd_ok _ _ _ _) NU) in V. cbn [bind] in V.
  destruct (same_verb_repeated _ _ t u) eqn:SV; [injection V as <- <- <-; split; [intros X; discriminate|intros e []]|].
  assert (g_pos t + tokenlen t = g_pos u + tlen (u :: mid ++ [t]))%nat as LEN.
  { rewrite T in LO. rewrite <- app_assoc in LO. apply located_app in LO. destruct LO as (_ & LO). cbn [app] in LO. destruct LO as (P1 & _ & LO).
    apply located_app in LO. destruct LO as (_ & LO). destruct LO as (P2 & _). rewrite tlen_cons, tlen_app, tlen_cons. unfold tlen at 2. cbn [map concat length]. lia. }
  rewrite LEN, usub_ok in V by lia. cbn [bind] in V. injection V as <- <- <-. split; [intros X; discriminate|]. intros e [<-|[]].
  replace (g_pos u + tlen (u :: mid ++ [t]) - g_pos u)%nat with (tlen (u :: mid ++ [t])) by lia. rewrite tlen_concat.
  apply (ev_here o s l1 u mid t rest).
  - rewrite T, <- app_assoc. reflexivity.
  - exact M.
  - exact F.
  - split; auto.
  - intros (L1 & (S1 & S2)). unfold same_verb_repeated in SV. apply negb_false_iff in SV. rewrite app_length in SV. cbn [length] in SV. rewrite L1 in SV.
    rewrite !orb_true_iff, !negb_true_iff, !Nat.eqb_neq in SV. destruct SV as [[SV|SV]|SV]; [lia|unfold tokenlen in SV; unfold len in S1; congruence|].
    unfold text_of in S2. rewrite S2, zlist_eqb_refl in SV. discriminate.
  - intros x X. apply TAB'. rewrite <- app_assoc. exact X.
Qed.

Lemma extra_meaning : forall o s l, located (s_pos s) (s_tokens s) -> missing_verb o s = Ok l ->
  forall e, In e l -> error_code e = 18 -> extra_verb_in o s e.
Proof.
  intros o s l LO E e I C. unfold missing_verb in E. destruct (rd (s_tokens s) 0) as [f| |]; try discriminate. cbn [bind] in E.
  destruct (is_punct f); [injection E as <-; destruct I|].
  match type of E with (if ?b then _ else _) = _ => destruct b end; [injection E as <-; destruct I|].
  destruct (missing_verb_loop (s_tokens s) (s_tokens s) 0 (mk_mv 0 None false false 0)) as [(l0, q)| |] eqn:EL; try discriminate. cbn [bind] in E.
  assert (In e l0 -> extra_verb_in o s e) as X.
  { apply (extra_sound o s (s_tokens s) [] (mk_mv 0 None false false 0) l0 q); auto. intros Y. discriminate. }
  destruct q as [st|]; [|injection E as <-; auto].
  match type of E with (if ?b then _ else _) = _ => destruct b end; [injection E as <-; auto|].
  destruct (mv_last st) as [z|]; [|discriminate]. match type of E with (if ?b then _ else _) = _ => destruct b end; [injection E as <-; auto|].
  destruct (usub _ _) as [n| |]; try discriminate. cbn [bind] in E. injection E as <-. apply in_app_or in I. destruct I as [I|[<-|[]]]; [auto|]. discriminate C.
Qed.

Lemma loop_app : forall a b tokens i st l r, (forall x, In x a -> ~ starts x 9) -> missing_verb_loop tokens (a ++ b) i st = Ok (l, r) ->
  exists st' l1 l2, missing_verb_loop tokens b (i + length a) st' = Ok (l2, r) /\ l = l1 ++ l2 /\
    (a = [] -> st' = st) /\ (forall a' x, a = a' ++ [x] -> clause_border x -> mv_clause st' = false).
Proof.
  induction a as [|t a IH]; intros b tokens i st l r TAB E.
  { exists st, [], l. rewrite Nat.add_0_r. split; [exact E|]. split; [reflexivity|]. split; [reflexivity|]. intros a' x X. destruct a'; discriminate. }
  cbn [app missing_verb_loop] in E. destruct (Z.eqb_spec (chr0 t) 9) as [Tt|Tt]; [elim (TAB t (or_introl eq_refl)); exact Tt|].
  match type of E with bind ?st _ = _ => destruct st as [(s1, e1)| |] eqn:ST; try discriminate end. cbn [bind] in E.
  match type of E with bind (missing_verb_loop _ _ _ ?x) _ = _ => set (s2 := x) in * end.
  destruct (missing_verb_loop tokens (a ++ b) (S i) s2) as [(l2, r2)| |] eqn:E2; try discriminate. cbn [bind] in E. injection E as <- <-.
  destruct (IH b tokens (S i) s2 l2 r2) as (st' & l1 & l3 & A & -> & B & C); auto. { intros x X. apply TAB. right. auto. }
  exists st', (e1 ++ l1), l3. split; [cbn [length]; rewrite Nat.add_succ_r; exact A|]. split; [rewrite app_assoc; reflexivity|]. split; [discriminate|].
  intros [|u a'] x X K; [|injection X as _ X; eauto]. injection X as <- ->. rewrite (B eq_refl).
  assert (mv_clause s1 = false) as X1; [|subst s2; destruct (is_space t); auto].
  destruct K as [K|(K1 & K2)].
  - assert (is_wordt t = false) as W by (destruct (is_wordt t) eqn:Q; [apply word_iff in Q; unfold word, punct in *; congruence|reflexivity]).
    rewrite W, (proj2 (punct_iff t) K) in ST. injection ST as <- <-. reflexivity.
  - rewrite (proj2 (word_iff t) K1) in ST. unfold verb_clause in ST. cbv zeta in ST. rewrite K2 in ST. cbn [bind] in ST. injection ST as <- <-. reflexivity.
Qed.

Lemma no_phrase : forall t, ~ phrase_start t -> starts_with (wstr "siin" ++ [0xE4]) (g_str t) = false /\ starts_with ([0x6B; 0xE4] ++ wstr "vi") (g_str t) = false.
Proof.
  intros t N. assert (forall p s, starts_with p s = true -> exists r, s = p ++ r) as X.
  { induction p as [|c p IH]; intros [|d u] Q; cbn in Q |- *; try (eexists; reflexivity); try discriminate.
    apply andb_true_iff in Q. destruct Q as (Q1 & Q2). apply Z.eqb_eq in Q1. destruct (IH _ Q2) as (r & ->). exists r. subst; reflexivity. }
  split; [destruct (starts_with (wstr "siin" ++ [0xE4]) (g_str t)) eqn:Q|destruct (starts_with ([0x6B; 0xE4] ++ wstr "vi") (g_str t)) eqn:Q]; auto;
    apply X in Q; destruct Q as (r & Q); elim N; exists r; [left|right]; rewrite Q; rewrite <- app_assoc; reflexivity.
Qed.

Lemma plain_clause : forall tokens i t nx c v, ~ phrase_start t -> possibleConjunction t = false ->
  verb_clause tokens i t nx c v = (if isMainVerb t then
    if c then
      u <- rd tokens v ;;
      if same_verb_repeated i v t u then Ok (false, v, [])
      else len <- usub (g_pos t + tokenlen t) (g_pos u) ;; Ok (false, v, [mk_error GCERR_EXTRA_MAIN_VERB (g_pos u) len []])
    else Ok (true, i, [])
  else Ok (c, v, [])).
Proof.
  intros tokens i t nx c v N P. unfold verb_clause. cbv zeta. rewrite P. destruct (no_phrase t N) as (A & B). destruct nx as [t2|]; [|reflexivity].
  rewrite A, B. reflexivity.
Qed.

Lemma loop_between : forall m b tokens i st l r, (forall x, In x m -> ~ starts x 9) -> (forall x, In x m -> ~ phrase_start x) -> Forall between m ->
  missing_verb_loop tokens (m ++ b) i st = Ok (l, r) ->
  exists st', missing_verb_loop tokens b (i + length m) st' = Ok (l, r) /\ mv_clause st' = mv_clause st /\ mv_verb st' = mv_verb st.
Proof.
  induction m as [|t m IH]; intros b tokens i st l r TAB PH F E.
  { exists st. rewrite Nat.add_0_r. auto. }
  cbn [app missing_verb_loop] in E. destruct (Z.eqb_spec (chr0 t) 9) as [Tt|Tt]; [elim (TAB t (or_introl eq_refl)); exact Tt|].
  match type of E with bind ?st _ = _ => destruct st as [(s1, e1)| |] eqn:ST; try discriminate end. cbn [bind] in E.
  match type of E with bind (missing_verb_loop _ _ _ ?x) _ = _ => set (s2 := x) in * end.
  destruct (missing_verb_loop tokens (m ++ b) (S i) s2) as [(l2, r2)| |] eqn:E2; try discriminate. cbn [bind] in E. injection E as <- <-.
  inversion F as [|? ? (F1 & F2) F3]; subst.
  destruct (IH b tokens (S i) s2 l2 r2) as (st' & A & B & C); auto. { intros x X. apply TAB. right. auto. } { intros x X. apply PH. right. auto. }
  assert (e1 = [] /\ mv_clause s1 = mv_clause st /\ mv_verb s1 = mv_verb st) as (-> & X1 & X2).
  { destruct (is_wordt t) eqn:W.
    - destruct (F2 (proj1 (word_iff t) W)) as (Q1 & Q2). rewrite plain_clause in ST by (auto; apply PH; left; auto). rewrite Q1 in ST. cbn [bind] in ST. injection ST as <- <-. auto.
    - destruct (is_punct t) eqn:P; [apply punct_iff in P; contradiction|]. injection ST as <- <-. auto. }
  exists st'. split; [cbn [length]; rewrite Nat.add_succ_r; exact A|]. rewrite B, C, <- X1, <- X2. subst s2. destruct (is_space t); auto.
Qed.

Lemma first_verbs_meaning : forall o s l e, located (s_pos s) (s_tokens s) -> verbs_counted o s -> missing_verb o s = Ok l -> first_verbs o s e -> In e l.
Proof.
  intros o s l e LO (f & r0 & T0 & NP & NB) E X. unfold missing_verb in E.
  assert (rd (s_tokens s) 0 = Ok f) as RD by (rewrite T0; reflexivity). rewrite RD in E. cbn [bind] in E. clear RD.
  destruct (is_punct f) eqn:P; [apply punct_iff in P; contradiction|].
  destruct (accept_bulleted o && Nat.eqb (s_pos s) 0 && (isLower (chr0 f) || negb (firstLetterLcase f))) eqn:BU.
  { elim NB. apply andb_true_iff in BU. destruct BU as (BU & B3).
    apply andb_true_iff in BU. destruct BU as (B1 & B2). apply Nat.eqb_eq in B2. apply orb_true_iff in B3. rewrite negb_true_iff in B3. auto. }
  clear BU NB P NP T0 f r0.
  destruct (missing_verb_loop (s_tokens s) (s_tokens s) 0 (mk_mv 0 None false false 0)) as [(l0, q)| |] eqn:EL; try discriminate. cbn [bind] in E.
  assert (In e l0) as G.
  { clear E l. destruct X as [a m0 v mid t l2 T ST F0 Mv Fm Mt NS TAB PH].
    rewrite T in EL at 2. destruct (loop_app a _ _ _ _ _ _ (fun x I => TAB x (in_or_app _ _ _ (or_introl I))) EL) as (st1 & p1 & q1 & E1 & -> & A1 & A2).
    apply in_or_app. right. clear EL.
    assert (mv_clause st1 = false) as C1 by (destruct ST as [->|(a' & x & -> & K)]; [rewrite A1 by auto; reflexivity|eapply A2; eauto]).
    apply loop_between in E1; auto.
    2:{ intros x I. apply TAB. apply in_or_app. right. apply in_or_app. auto. }
    2:{ intros x I. apply PH. apply in_or_app. auto. }
    destruct E1 as (st2 & E1 & C2 & _). rewrite C1 in C2. clear st1 A1 A2 C1. destruct Mv as (Wv & Mv & Pv).
    cbn [missing_verb_loop] in E1. destruct (Z.eqb_spec (chr0 v) 9) as [Tt|_].
    { elim (TAB v); [|exact Tt]. do 2 (apply in_or_app; right). left. reflexivity. }
    rewrite (proj2 (word_iff v) Wv) in E1. rewrite plain_clause in E1; [|apply PH; apply in_or_app; right; left; reflexivity|exact Pv]. rewrite Mv, C2 in E1. cbn [bind] in E1.
    match type of E1 with bind (missing_verb_loop _ _ _ ?x) _ = _ => set (st3 := x) in * end.
    assert (mv_clause st3 = true /\ mv_verb st3 = (0 + length a + length m0)%nat) as (C3 & V3) by (subst st3; destruct (is_space v); auto). clearbody st3.
    destruct (missing_verb_loop _ (mid ++ t :: l2) _ st3) as [(l3, r3)| |] eqn:E3; try discriminate. cbn [bind app] in E1. injection E1 as <- <-.
    apply loop_between in E3; auto.
    2:{ intros x I. apply TAB. do 2 (apply in_or_app; right). right. apply in_or_app. auto. }
    2:{ intros x I. apply PH. apply in_or_app; right. right. apply in_or_app. auto. }
    destruct E3 as (st4 & E3 & C4 & V4). rewrite C3 in C4. rewrite V3 in V4. destruct Mt as (Wt & Mt & Pt).
    cbn [missing_verb_loop] in E3. destruct (Z.eqb_spec (chr0 t) 9) as [Tt|_].
    { elim (TAB t); [|exact Tt]. do 2 (apply in_or_app; right). right. apply in_or_app. right. left. reflexivity. }
    rewrite (proj2 (word_iff t) Wt) in E3. rewrite plain_clause in E3; [|apply PH; apply in_or_app; right; right; apply in_or_app; right; left; reflexivity|exact Pt]. rewrite Mt, C4, V4 in E3.
    assert (nth_error (s_tokens s) (0 + length a + length m0) = Some v) as NU by (rewrite T, app_assoc; cbn [Nat.add]; rewrite <- app_length; apply nth_middle').
    rewrite (proj2 (rd_ok _ _ _ _) NU) in E3. cbn [bind] in E3.
    destruct (same_verb_repeated _ _ t v) eqn:SV.
    { exfalso. apply NS. unfold same_verb_repeated in SV. apply negb_true_iff in SV. rewrite !orb_false_iff, !negb_false_iff, !Nat.eqb_eq in SV.
      destruct SV as ((S1 & S2) & S3). apply zlist_eqb_eq in S3. split; [lia|]. split; [symmetry; exact S2|symmetry; exact S3]. }
    assert (g_pos t + tokenlen t = g_pos v + tlen (v :: mid ++ [t]))%nat as LEN.
    { rewrite T in LO. apply located_app in LO. destruct LO as (_ & LO). apply located_app in LO. destruct LO as (_ & LO). destruct LO as (P1 & _ & LO).
      apply located_app in LO. destruct LO as (_ & LO). destruct LO as (P2 & _). rewrite tlen_cons, tlen_app, tlen_cons. unfold tlen at 2. cbn [map concat length]. lia. }
    rewrite LEN, usub_ok in E3 by lia. cbn [bind] in E3. replace (g_pos v + tlen (v :: mid ++ [t]) - g_pos v)%nat with (tlen (v :: mid ++ [t])) in E3 by lia. rewrite tlen_concat in E3.
    destruct (missing_verb_loop _ l2 _ _) as [(l4, r4)| |]; try discriminate. cbn [bind] in E3. injection E3 as <- <-. left. reflexivity. }
  destruct q as [st|]; [|injection E as <-; auto].
  match type of E with (if ?b then _ else _) = _ => destruct b end; [injection E as <-; auto|].
  destruct (mv_last st) as [z|]; [|discriminate]. match type of E with (if ?b then _ else _) = _ => destruct b end; [injection E as <-; auto|].
  destruct (usub _ _) as [n| |]; try discriminate. cbn [bind] in E. injection E as <-. apply in_or_app. left. exact G.
Qed.
