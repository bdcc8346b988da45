(** Lemmas about sentence detection. *)
From Verif Require Import Base BaseFacts CharModel TokenModel TokenSpec TokenProofs SpellerBase SentenceModel SentenceSpec.

Lemma only_nd_ok : forall text n i, (i + n <= length text)%nat ->
  exists b, only_numbers_or_dots text n i = Ok b /\
   (b = true <-> Forall (fun c => c = 0x2E \/ c = 0x2D \/ digit c) (firstn n (skipn i text))).
Proof.
  intros text. induction n; intros i L; cbn [only_numbers_or_dots].
  - exists true. split; auto. split; auto. intros _. constructor.
  - destruct (rd_lt _ text i ltac:(lia)) as (c & -> & E). cbn [bind].
    rewrite (skipn_cons_nth _ _ _ _ E). cbn [firstn].
    assert (isDigit c = true <-> digit c) as D by (unfold isDigit, digit, in_range; lia).
    destruct (negb (c =? 46) && negb (c =? 45) && negb (isDigit c)) eqn:B.
    + exists false. split; auto. split; [discriminate|]. intros F. inversion F; subst.
      rewrite <- D in H1. destruct (isDigit c); lia.
    + destruct (IHn (S i) ltac:(lia)) as (b & E2 & I). exists b. split; auto. rewrite I. split; intros F.
      * constructor; auto. rewrite <- D. destruct (isDigit c); lia.
      * inversion F; auto.
Qed.

Lemma dot_part_ok : forall spell word rest, word <> [] ->
  exists b, dot_part_of_word spell (word ++ 0x2E :: rest) (length word + 1) = Ok b /\
    (b = true <-> dot_belongs spell word).
Proof.
  intros spell word rest NE. unfold dot_part_of_word.
  assert (1 <= length word)%nat as L by (destruct word; simpl; [congruence|lia]).
  destruct (Nat.ltb_spec (length word + 1) 2); [lia|].
  replace (length word + 1 - 1)%nat with (length word) by lia.
  destruct (only_nd_ok (word ++ 0x2E :: rest) (length word) 0) as (b & E & I).
  { rewrite app_length. simpl. lia. }
  cbn [skipn] in I. rewrite firstn_app, firstn_all, Nat.sub_diag, firstn_O, app_nil_r in I.
  assert ((length word + 1 <=? length (word ++ 0x2E%Z :: rest))%nat = true) as LE.
  { apply Nat.leb_le. rewrite app_length. simpl. lia. }
  assert (firstn (length word + 1) (word ++ 0x2E :: rest) = word ++ [0x2E]) as FN.
  { rewrite firstn_app. replace (length word + 1 - length word)%nat with 1%nat by lia. rewrite firstn_all2 by lia. reflexivity. }
  assert (spell_failed (spell (word ++ [0x2E])) = true <-> spell (word ++ [0x2E]) = SPELL_FAILED) as SF.
  { destruct (spell (word ++ [0x2E])); simpl; split; congruence. }
  unfold dot_belongs.
  destruct (Nat.eqb_spec (length word + 1) 2); cbn [bind].
  - destruct word as [|c [|c2 word]]; simpl in *; try lia.
    unfold rd. simpl. destruct (isUpper c) eqn:U; cbn [bind].
    + exists true. split; auto. split; auto. intros _. left. exists c. auto.
    + rewrite E. cbn [bind]. destruct b.
      * exists true. split; auto. split; auto. intros _. right. left. apply I. auto.
      * eexists. split; [reflexivity|]. rewrite negb_true_iff, <- not_true_iff_false, SF. split; auto.
        intros [(c' & Q & Q2)|[Q|Q]]; auto.
        -- injection Q as ->. congruence.
        -- apply I in Q. discriminate.
  - rewrite E. cbn [bind]. destruct b.
    + exists true. split; auto. split; auto. intros _. right. left. apply I. auto.
    + rewrite LE, FN. eexists. split; [reflexivity|]. rewrite negb_true_iff, <- not_true_iff_false, SF. split; auto.
      intros [(c' & Q & Q2)|[Q|Q]]; auto.
      -- subst word. simpl in n. lia.
      -- apply I in Q. discriminate.
Qed.

Lemma token_seq_inv : forall text toks, token_seq (nextToken false) text toks -> text <> [] ->
  exists t n rest, toks = (t, firstn n text) :: rest /\ nextToken false text = Ok (t, n) /\
    t <> TOKEN_NONE /\ (0 < n <= length text)%nat /\ token_ok text t n /\ token_seq (nextToken false) (skipn n text) rest.
Proof.
  intros text toks H NE. destruct (nextToken_spec false text) as (t & k & E & OK & LE & NX).
  destruct (NX NE) as [T K].
  inversion H; subst; rewrite E in H0; injection H0 as -> ->; [congruence|].
  exists t0, n, rest. repeat split; auto; lia.
Qed.

Lemma token_seq_nil : forall toks, token_seq (nextToken false) [] toks -> toks = [].
Proof. intros toks H. inversion H; subst; auto. simpl in H0. injection H0 as <- <-. congruence. Qed.

Lemma text_of_cons : forall tk r, text_of (tk :: r) = snd tk ++ text_of r.
Proof. reflexivity. Qed.

Definition terminator_b (tk : token) : bool :=
  match tk with (TOKEN_PUNCTUATION, c :: _) => mem c [0; 0x21; 0x3F; 0x2E; 0x2026; 0x3A] | _ => false end.
Definition quote_b (tk : token) : bool :=
  match tk with (TOKEN_PUNCTUATION, c :: _) => mem c [0x22; 0xBB; 0x201C; 0x201D] | _ => false end.

Lemma terminator_b_spec : forall tk, terminator_b tk = true <-> terminator tk.
Proof.
  intros [t s]. unfold terminator, punct_starting. cbn [fst snd]. destruct t, s; cbn [terminator_b];
   try (split; [discriminate|intros [A (c & r & B & C)]; congruence]).
  rewrite mem_In. split; intros H; [eauto|]. destruct H as [_ (c & r & B & C)]. injection B as -> ->. auto.
Qed.
Lemma quote_b_spec : forall tk, quote_b tk = true <-> quote tk.
Proof.
  intros [t s]. unfold quote, punct_starting. cbn [fst snd]. destruct t, s; cbn [quote_b];
   try (split; [discriminate|intros [A (c & r & B & C)]; congruence]).
  rewrite mem_In. split; intros H; [eauto|]. destruct H as [_ (c & r & B & C)]. injection B as -> ->. auto.
Qed.

(** One round of the loop, on tokens.  [word] is the previous token if it was
    a word. *)
Lemma quote_not_term : forall c, mem c [0x22; 0xBB; 0x201C; 0x201D] = true -> mem c [0; 0x21; 0x3F; 0x2E; 0x2026; 0x3A] = false.
Proof. intros c H. cbn [mem] in *. lia. Qed.

Section Loop.
Variable (spell : speller) (text : list Z) (d : bool).

Definition shape (toks : list token) (slen : nat) (ef iq : bool) (r : sentence_type * nat * bool) : Prop :=
  let '(ty, n, d') := r in
  d' = d /\
  ((ty = SENTENCE_NONE /\ n = length text) \/
   ((ty = SENTENCE_PROBABLE \/ ty = SENTENCE_POSSIBLE) /\
    exists a tk b, toks = a ++ tk :: b /\ fst tk <> TOKEN_WHITESPACE /\ n = (slen + length (text_of a))%nat /\
      (ef = true \/ Exists terminator a) /\ quote_parity a iq)).

Lemma shape_step : forall tk toks slen ef iq ef' iq' r,
  shape toks (slen + length (snd tk)) ef' iq' r ->
  (ef' = true -> ef = true \/ terminator tk) ->
  (quote tk -> iq = negb iq') -> (~ quote tk -> iq = iq') ->
  shape (tk :: toks) slen ef iq r.
Proof.
  intros tk toks slen ef iq ef' iq' [[ty n] d'] (D & S) E Q NQ. split; auto.
  destruct S as [S|(T & a & x & b & -> & W & -> & X & P)]; auto. right. split; auto.
  exists (tk :: a), x, b. split; auto. split; auto. split; [rewrite text_of_cons, app_length; lia|]. split.
  - destruct X as [X|X]; [|auto]. destruct (E X); auto.
  - destruct (quote_b tk) eqn:B.
    + apply quote_b_spec in B. rewrite (Q B). constructor; auto.
    + assert (~ quote tk) as N by (rewrite <- quote_b_spec, B; discriminate). rewrite (NQ N). constructor; auto.
Qed.

Lemma loop_shape : forall toks fuel tok slen ps pt ef iq ed pe,
  token_seq (nextToken false) (skipn slen text) toks -> (slen <= length text)%nat ->
  (length toks < fuel)%nat -> tok <> TOKEN_NONE ->
  (pt = TOKEN_WORD -> (ps < slen)%nat) ->
  exists r, sentence_loop fuel spell text d tok slen ps pt ef iq ed pe = Ok r /\ shape toks slen ef iq r.
Proof.
  induction toks as [|tk toks IH]; intros fuel tok slen ps pt ef iq ed pe TS SL FU TN PS;
    (destruct fuel as [|fuel]; [simpl in FU; lia|]); cbn [sentence_loop].
  - replace (is_none tok) with false by (destruct tok; simpl; congruence). cbn [orb].
    destruct (Nat.ltb_spec slen (length text)); cbn [negb].
    + exfalso. destruct (token_seq_inv _ _ TS) as (t & n & rest & Q & _); [|discriminate].
      intros X. apply (f_equal (@length Z)) in X. rewrite skipn_length in X. simpl in X. lia.
    + eexists. split; [reflexivity|]. split; auto.
  - replace (is_none tok) with false by (destruct tok; simpl; congruence). cbn [orb].
    destruct (Nat.ltb_spec slen (length text)); cbn [negb].
    2:{ exfalso. rewrite skipn_all2 in TS by lia. apply token_seq_nil in TS. discriminate. }
    destruct (token_seq_inv _ _ TS) as (t & n & rest & Q & NX & T0 & NL & TOK & TS').
    { intros X. apply (f_equal (@length Z)) in X. rewrite skipn_length in X. simpl in X. lia. }
    injection Q as Qt <-. rewrite NX. cbn [bind].
    rewrite skipn_length in NL.
    assert (length (snd tk) = n) as LT by (subst tk; cbn [snd]; rewrite firstn_length, skipn_length; lia).
    rewrite skipn_skipn in TS'. cbn [length] in FU.
    assert (forall ef' iq' ed' pe', exists r,
       sentence_loop fuel spell text d t (slen + n) slen t ef' iq' ed' pe' = Ok r /\ shape toks (slen + n) ef' iq' r) as IH'.
    { intros. apply IH; auto; lia. }
    assert (forall ef' iq' ed' pe', (ef' = true -> ef = true \/ terminator tk) ->
        (quote tk -> iq = negb iq') -> (~ quote tk -> iq = iq') ->
        exists r, sentence_loop fuel spell text d t (slen + n) slen t ef' iq' ed' pe' = Ok r /\ shape (tk :: toks) slen ef iq r) as GO.
    { intros ef' iq' ed' pe' A B C. destruct (IH' ef' iq' ed' pe') as (r & E & S). exists r. split; auto.
      eapply shape_step; eauto. rewrite LT. auto. }
    assert (t <> TOKEN_PUNCTUATION -> ~ quote tk) as NQ.
    { intros NP [X _]. subst tk. simpl in X. auto. }
    destruct (ef && negb iq) eqn:B.
    + destruct ef, iq; try discriminate. destruct t.
      4:{ apply GO; auto. intros QQ. exfalso. apply NQ in QQ; auto; discriminate. }
      all: match goal with |- exists r, (if ?b then _ else _) = _ /\ _ => destruct b end;
        (eexists; split; [reflexivity|]); (split; [reflexivity|]); right; (split; [auto|]);
        exists [], tk, toks; (split; [auto|]); (split; [subst tk; simpl; congruence|]);
        (split; [simpl; lia|]); (split; [auto|constructor]).
    + destruct t; try (apply GO; auto; intros QQ; exfalso; eapply NQ; eauto; discriminate).
      destruct (rd_lt _ text slen ltac:(lia)) as (c & R & E). rewrite R. cbn [bind].
      assert (exists r, tk = (TOKEN_PUNCTUATION, c :: r)) as [tr TK].
      { subst tk. rewrite (skipn_cons_nth _ _ _ _ E). destruct n; [lia|]. cbn [firstn]. eauto. }
      assert (terminator_b tk = mem c [0; 0x21; 0x3F; 0x2E; 0x2026; 0x3A]) as TB by (subst tk; rewrite TK; reflexivity).
      assert (quote_b tk = mem c [0x22; 0xBB; 0x201C; 0x201D]) as QB by (subst tk; rewrite TK; reflexivity).
      assert (forall ed' pe', mem c [0; 0x21; 0x3F; 0x2E; 0x2026; 0x3A] = true -> 
         exists r, sentence_loop fuel spell text d TOKEN_PUNCTUATION (slen + n) slen TOKEN_PUNCTUATION true iq ed' pe' = Ok r /\ shape (tk :: toks) slen ef iq r) as GT.
      { intros ed' pe' M. apply GO; auto.
        - intros _. right. apply terminator_b_spec. congruence.
        - intros QQ. exfalso. apply quote_b_spec in QQ. rewrite QB in QQ. apply quote_not_term in QQ. congruence. }
      change (wstr "!?") with [0x21; 0x3F] in *.
      destruct (wcschr [0x21; 0x3F] c) eqn:W1.
      { apply GT. apply wcschr_spec in W1. apply mem_In. clear -W1. simpl in *. lia. }
      destruct (((c =? 46) && Nat.eqb n 3) || (c =? 0x2026)) eqn:W2.
      { apply GT. apply mem_In. clear -W2. simpl. lia. }
      destruct (Z.eqb_spec c 0x2E) as [->|NE].
      { assert (forall b : bool, mem 46 [0; 0x21; 0x3F; 0x2E; 0x2026; 0x3A] = true) as M by auto.
        destruct (negb (Nat.eqb slen 0) && match pt with TOKEN_WORD => true | _ => false end) eqn:PW; [|cbn [bind]; apply GT; auto].
        assert (ps < slen)%nat as PL by (apply PS; destruct pt; auto; destruct (Nat.eqb slen 0); discriminate).
        destruct (dot_part_ok spell (firstn (slen - ps) (skipn ps text)) (skipn (S slen) text)) as (b & DP & _).
        { intros X. apply (f_equal (@length Z)) in X. rewrite firstn_length, skipn_length in X. simpl in X. lia. }
        assert (length (firstn (slen - ps) (skipn ps text)) = slen - ps)%nat as LL by (rewrite firstn_length, skipn_length; lia).
        rewrite LL in DP.
        assert (firstn (slen - ps) (skipn ps text) ++ 46 :: skipn (S slen) text = skipn ps text) as XX.
        { rewrite <- (skipn_cons_nth _ _ _ _ E). rewrite <- (firstn_skipn (slen - ps) (skipn ps text)) at 2.
          f_equal. rewrite skipn_skipn. f_equal. lia. }
        rewrite XX in DP. rewrite DP. cbn [bind]. apply GT; auto. }
      destruct (Z.eqb_spec c 0x3A) as [->|NC]; [apply GT; auto|].
      assert (c <> 0 /\ c <> 0x21 /\ c <> 0x3F /\ c <> 0x2026) as (N0 & N1 & N2 & N3).
      { apply not_true_iff_false in W1. rewrite wcschr_spec in W1. clear -W1 W2. simpl in W1. lia. }
      destruct (isFinnishQuotationMark c || (c =? 0x201C)) eqn:QM.
      { assert (quote tk) as QT.
        { apply quote_b_spec. rewrite QB. apply mem_In. unfold isFinnishQuotationMark in QM. apply orb_true_iff in QM.
          destruct QM as [QM|QM]; [apply wcschr_spec in QM|]; clear -QM N0; simpl in *; lia. }
        match goal with |- exists r, bind ?e _ = _ /\ _ => assert (exists b, e = Ok b) as [cm CM] end.
        { destruct (negb (negb iq) && (slen + 1 <? length text)%nat) eqn:CB; eauto.
          apply andb_true_iff in CB. destruct CB as [_ CB]. apply Nat.ltb_lt in CB.
          destruct (rd_lt _ text (slen + 1) CB) as (x & -> & _). cbn [bind]. eauto. }
        rewrite CM. cbn [bind]. destruct cm; apply GO; auto; try discriminate; try (rewrite negb_involutive; auto); tauto. }
      { apply GO; auto. intros QT. exfalso. apply quote_b_spec in QT. rewrite QB in QT. apply mem_In in QT.
        apply not_true_iff_false in QM. apply QM. apply orb_true_iff. unfold isFinnishQuotationMark. rewrite wcschr_spec.
        clear -QT N0. simpl in *. lia. }
Qed.
End Loop.

Section Exact.
Variable (spell : speller) (text : list Z) (d : bool).

Lemma text_of_app : forall a b, text_of (a ++ b) = text_of a ++ text_of b.
Proof. intros. unfold text_of. rewrite map_app, concat_app. auto. Qed.

Lemma seq_skip : forall pre rest slen,
  token_seq (nextToken false) (skipn slen text) (pre ++ rest) ->
  token_seq (nextToken false) (skipn (slen + length (text_of pre)) text) rest.
Proof.
  induction pre as [|tk pre IH]; intros rest slen H.
  - simpl. rewrite Nat.add_0_r. auto.
  - cbn [app] in H. inversion H as [|? t n r EN TN TS]; subst. rewrite skipn_skipn in TS. rewrite text_of_cons, app_length. cbn [snd].
    destruct (nextToken_spec false (skipn slen text)) as (t' & k & E & OK & LE & NX). rewrite EN in E. injection E as <- <-.
    rewrite firstn_length, Nat.min_l by auto. rewrite Nat.add_assoc. apply IH. auto.
Qed.

(** The head of a token sequence, seen from the loop. *)
Lemma seq_head : forall tk rest slen,
  token_seq (nextToken false) (skipn slen text) (tk :: rest) ->
  nextToken false (skipn slen text) = Ok (fst tk, length (snd tk)) /\ fst tk <> TOKEN_NONE /\
  (0 < length (snd tk))%nat /\ (slen + length (snd tk) <= length text)%nat /\
  skipn slen text = snd tk ++ skipn (slen + length (snd tk)) text /\ (slen < length text)%nat.
Proof.
  intros tk rest slen H. inversion H as [|? t n r H2 TN TS]; subst. cbn [fst snd].
  destruct (nextToken_spec false (skipn slen text)) as (t' & k & E & OK & LE & NX). rewrite H2 in E. injection E as <- <-.
  rewrite skipn_length in LE.
  assert (skipn slen text <> []) as NE.
  { intros Q. rewrite Q in H2. simpl in H2. injection H2 as <- <-. congruence. }
  destruct (NX NE) as [_ P]. rewrite firstn_length, skipn_length, Nat.min_l by auto.
  repeat split; auto; try lia.
  rewrite <- skipn_skipn. symmetry. apply firstn_skipn.
Qed.

Definition step_loop fuel tok slen ps pt ef iq ed pe := sentence_loop fuel spell text d tok slen ps pt ef iq ed pe.

Lemma loop_unfold : forall fuel tok slen ps pt ef iq ed pe tk rest,
  tok <> TOKEN_NONE -> token_seq (nextToken false) (skipn slen text) (tk :: rest) ->
  sentence_loop (S fuel) spell text d tok slen ps pt ef iq ed pe =
      let token := fst tk in let tokenlen := length (snd tk) in
      let continue ef iq ed pe :=
        sentence_loop fuel spell text d token (slen + tokenlen) slen token ef iq ed pe in
      if ef && negb iq then
        match token with
        | TOKEN_WHITESPACE => continue ef iq ed pe
        | _ =>
            let glued := match pt, token with
                         | TOKEN_WHITESPACE, _ => false
                         | _, TOKEN_WORD => true
                         | _, _ => false
                         end in
            if ed || pe || glued
            then Ok (SENTENCE_POSSIBLE, slen, d)
            else Ok (SENTENCE_PROBABLE, slen, d)
        end
      else
        match token with
        | TOKEN_PUNCTUATION =>
            punct <- rd text slen ;;
            if wcschr (wstr "!?") punct then
              continue true iq ed (if iq then true else pe)
            else if ((punct =? 0x2E) && Nat.eqb tokenlen 3) || (punct =? 0x2026) then
              continue true iq ed true
            else if punct =? 0x2E then
              dp <- (if negb (Nat.eqb slen 0) &&
                        match pt with TOKEN_WORD => true | _ => false end
                     then dot_part_of_word spell (skipn ps text) (slen - ps + 1)
                     else Ok false) ;;
              continue true iq (if (dp : bool) then true else ed) pe
            else if punct =? 0x3A then
              continue true iq ed true
            else if isFinnishQuotationMark punct || (punct =? 0x201C) then
              let iq := negb iq in
              comma <- (if negb iq && (slen + 1 <? length text)%nat
                        then c <- rd text (slen + 1) ;; Ok (c =? 0x2C)
                        else Ok false) ;;
              if (comma : bool) then continue false iq ed false
              else continue ef iq ed pe
            else continue ef iq ed pe
        | _ => continue ef iq ed pe
        end.
Proof.
  intros fuel tok slen ps pt ef iq ed pe tk rest TN H. apply seq_head in H. destruct H as (H & T & P & L & _ & LT).
  cbn [sentence_loop]. replace (is_none tok) with false by (destruct tok; simpl; congruence). cbn [orb].
  destruct (Nat.ltb_spec slen (length text)); [|lia]. cbn [negb]. rewrite H. cbn [bind]. reflexivity.
Qed.

Lemma first_char : forall tk rest slen c r, token_seq (nextToken false) (skipn slen text) (tk :: rest) ->
  snd tk = c :: r -> rd text slen = Ok c.
Proof.
  intros tk rest slen c r H E. apply seq_head in H. destruct H as (_ & _ & _ & _ & H & _).
  apply rd_ok. rewrite <- (Nat.add_0_r slen), <- nth_error_skipn, H, E. reflexivity.
Qed.

Lemma skip_plain_token : forall fuel tok slen ps pt tk rest,
  tok <> TOKEN_NONE -> token_seq (nextToken false) (skipn slen text) (tk :: rest) ->
  ~ terminator tk -> ~ quote tk ->
  sentence_loop (S fuel) spell text d tok slen ps pt false false false false =
  sentence_loop fuel spell text d (fst tk) (slen + length (snd tk)) slen (fst tk) false false false false.
Proof.
  intros fuel tok slen ps pt tk rest TN H NT NQ. rewrite (loop_unfold _ _ _ _ _ _ _ _ _ _ _ TN H). cbv zeta. cbn [andb].
  destruct (fst tk) eqn:T; auto.
  pose proof (seq_head _ _ _ H) as (_ & _ & P & _). destruct (snd tk) as [|c r] eqn:S; [simpl in P; lia|].
  rewrite (first_char _ _ _ _ _ H S). cbn [bind].
  assert (~ In c [0; 0x21; 0x3F; 0x2E; 0x2026; 0x3A]) as N1 by (intros Q; apply NT; split; eauto).
  assert (~ In c [0x22; 0xBB; 0x201C; 0x201D]) as N2 by (intros Q; apply NQ; split; eauto).
  simpl in N1, N2. change (wstr "!?") with [0x21; 0x3F].
  destruct (wcschr [0x21; 0x3F] c) eqn:W1; [apply wcschr_spec in W1; simpl in W1; lia|].
  replace (c =? 0x2E) with false by lia. replace (c =? 0x2026) with false by lia. cbn [andb orb].
  replace (c =? 0x3A) with false by lia.
  destruct (isFinnishQuotationMark c) eqn:Q.
  { unfold isFinnishQuotationMark in Q. apply wcschr_spec in Q. simpl in Q. lia. }
  replace (c =? 0x201C) with false by lia. reflexivity.
Qed.

Lemma skip_plain : forall pre fuel tok slen ps pt rest,
  tok <> TOKEN_NONE -> token_seq (nextToken false) (skipn slen text) (pre ++ rest) ->
  Forall (fun tk => ~ terminator tk /\ ~ quote tk) pre -> (length pre <= fuel)%nat ->
  exists tok' ps' pt', tok' <> TOKEN_NONE /\
    ((pre = [] /\ ps' = ps /\ pt' = pt) \/
     (exists pre' w, pre = pre' ++ [(pt', w)] /\ ps' = (slen + length (text_of pre'))%nat)) /\
  sentence_loop fuel spell text d tok slen ps pt false false false false =
  sentence_loop (fuel - length pre) spell text d tok' (slen + length (text_of pre)) ps' pt' false false false false.
Proof.
  induction pre as [|tk pre IH]; intros fuel tok slen ps pt rest TN H F LF.
  - exists tok, ps, pt. split; auto. split; auto. simpl. rewrite Nat.add_0_r, Nat.sub_0_r. auto.
  - destruct fuel as [|fuel]; [simpl in LF; lia|]. cbn [length] in LF. inversion F as [|? ? [NT NQ] F']; subst.
    cbn [app] in H. rewrite (skip_plain_token fuel tok slen ps pt tk _ TN H NT NQ).
    pose proof (seq_head _ _ _ H) as (_ & T0 & _).
    destruct (IH fuel (fst tk) (slen + length (snd tk))%nat slen (fst tk) rest) as (tok' & ps' & pt' & A & B & C); auto; try lia.
    { change (tk :: pre ++ rest) with ([tk] ++ pre ++ rest) in H. apply seq_skip in H. rewrite text_of_cons in H. simpl in H. rewrite app_nil_r in H. auto. }
    exists tok', ps', pt'. split; auto. split.
    + right. destruct B as [(-> & -> & ->)|(pre' & w & -> & ->)].
      * exists [], (snd tk). destruct tk. simpl. split; auto.
      * exists (tk :: pre'), w. split; auto. rewrite text_of_cons, app_length. lia.
    + rewrite C. rewrite text_of_cons, app_length. cbn [length Nat.sub]. f_equal. lia.
Qed.

(** State after the terminator. *)
Definition after_term (pre : list token) (term : token) (ed pe : bool) : Prop :=
  ed || pe = false <-> certain_end spell pre term.

Lemma at_term : forall fuel tok slen ps pt pre term rest,
  tok <> TOKEN_NONE -> token_seq (nextToken false) (skipn slen text) (term :: rest) -> terminator term ->
  ((pre = [] /\ slen = 0%nat) \/ (exists pre' w, pre = pre' ++ [(pt, w)] /\ (ps + length w = slen)%nat /\ skipn ps text = w ++ skipn slen text /\ w <> [])) ->
  exists ed pe, after_term pre term ed pe /\
  sentence_loop (S fuel) spell text d tok slen ps pt false false false false =
  sentence_loop fuel spell text d (fst term) (slen + length (snd term)) slen (fst term) true false ed pe.
Proof.
  intros fuel tok slen ps pt pre term rest TN H TT PRE.
  rewrite (loop_unfold _ _ _ _ _ _ _ _ _ _ _ TN H). cbv zeta. cbn [andb].
  destruct TT as (T & c & r & S & C). pose proof T as T'. pose proof S as S'.
  pose proof (seq_head _ _ _ H) as (NX & _ & _ & _ & SK & LT).
  rewrite T. rewrite (first_char _ _ _ _ _ H S). cbn [bind].
  assert (token_ok (skipn slen text) (fst term) (length (snd term))) as OK.
  { destruct (nextToken_spec false (skipn slen text)) as (t' & k & E & OK & LE & _). rewrite NX in E. injection E as <- <-. auto. }
  rewrite T in OK. cbn [token_ok] in OK.
  assert ((length (snd term) = 1%nat /\ r = []) \/ (snd term = [0x2E; 0x2E; 0x2E] /\ c = 0x2E)) as LEN.
  { destruct OK as [(c' & r' & A & B & L1)|(r' & A & L3)].
    - left. split; auto. rewrite S in L1. destruct r; auto. simpl in L1. lia.
    - right. rewrite A in SK. rewrite S in *. destruct r as [|c2 [|c3 [|]]]; simpl in L3; try lia. simpl in SK. injection SK as <- <- <- _. auto. }
  rewrite S. change (wstr "!?") with [0x21; 0x3F].
  unfold after_term, certain_end. rewrite S.
  destruct (wcschr [0x21; 0x3F] c) eqn:W1.
  { apply wcschr_spec in W1. simpl in W1. exists false, false. split; [|reflexivity]. split; auto. intros _. left. exists c.
    destruct LEN as [[_ ->]|[_ ->]]; [|lia]. split; auto. simpl. lia. }
  assert (c <> 0 /\ c <> 0x21 /\ c <> 0x3F) as (N0 & N1 & N2).
  { apply not_true_iff_false in W1. rewrite wcschr_spec in W1. clear -W1. simpl in W1. lia. }
  destruct (((c =? 46) && Nat.eqb (length (c :: r)) 3) || (c =? 0x2026)) eqn:W2.
  { exists false, true. split; [|reflexivity]. split; [discriminate|].
    intros [(c' & Q & I)|[Q _]]; exfalso.
    - injection Q as -> ->. simpl in I. lia.
    - injection Q as -> ->. simpl in W2. discriminate. }
  destruct (Z.eqb_spec c 0x2E) as [->|NE].
  { assert (r = []) as ->.
    { destruct LEN as [[_ ->]|[Q _]]; auto. rewrite S in Q. injection Q as ->. simpl in W2. discriminate. }
    assert (skipn slen text = 46 :: skipn (slen + 1) text) as SK1 by (rewrite S in SK; exact SK).
    destruct (negb (Nat.eqb slen 0) && match pt with TOKEN_WORD => true | _ => false end) eqn:PW.
    - destruct pt; try (rewrite andb_false_r in PW; discriminate). rewrite andb_true_r in PW.
      destruct PRE as [[-> ->]|(pre' & w & -> & PS & SKP & WN)]; [discriminate|].
      destruct (dot_part_ok spell w (skipn (slen + 1) text) WN) as (b & DP & DB).
      rewrite SKP, SK1. replace (slen - ps + 1)%nat with (length w + 1)%nat by lia. rewrite DP. cbn [bind].
      exists (if b then true else false), false. split; [|reflexivity].
      rewrite orb_false_r. split.
      + intros B. right. split; auto. intros (q & w' & Q & DB'). apply app_inj_tail in Q. destruct Q as [_ Q]. injection Q as <-.
        apply DB in DB'. subst b. discriminate.
      + intros [(c' & Q & I)|[_ Q]].
        * injection Q as <-. simpl in I. lia.
        * destruct b; auto. exfalso. apply Q. exists pre', w. split; auto. apply DB. auto.
    - cbn [bind]. exists false, false. split; [|reflexivity]. split; auto. intros _. right. split; auto.
      intros (q & w & Q & DB). destruct PRE as [[-> _]|(pre' & w' & -> & PS & SKP & WN)].
      + destruct q; discriminate.
      + apply app_inj_tail in Q. destruct Q as [_ Q]. injection Q as -> ->.
        destruct w; [congruence|]. simpl in PS. replace (Nat.eqb slen 0) with false in PW by (symmetry; apply Nat.eqb_neq; lia). discriminate. }
  destruct (Z.eqb_spec c 0x3A) as [->|NC].
  { exists false, true. split; [|reflexivity]. split; [discriminate|].
    intros [(c' & Q & I)|[Q _]]; exfalso.
    - injection Q as <- ->. simpl in I. lia.
    - discriminate. }
  exfalso. simpl in C. lia.
Qed.

Lemma loop_exact : forall pre term ws rest,
  token_seq (nextToken false) text (pre ++ term :: ws ++ rest) ->
  Forall (fun tk => ~ terminator tk /\ ~ quote tk) pre -> terminator term ->
  Forall (fun tk => fst tk = TOKEN_WHITESPACE) ws ->
  (forall tk r, rest = tk :: r -> fst tk <> TOKEN_WHITESPACE) ->
  match rest with
  | [] => sentence_next spell d text = Ok (SENTENCE_NONE, length text, d)
  | next :: _ =>
      exists ty, sentence_next spell d text = Ok (ty, length (text_of (pre ++ term :: ws)), d) /\
        ((ty = SENTENCE_PROBABLE /\ certain_end spell pre term /\ (ws <> [] \/ fst next <> TOKEN_WORD)) \/
         (ty = SENTENCE_POSSIBLE /\ (~ certain_end spell pre term \/ (ws = [] /\ fst next = TOKEN_WORD))))
  end.
Proof.
  intros pre term ws rest H FP TT FW RH. unfold sentence_next.
  pose proof (token_seq_concat _ _ _ H) as [CC NEs].
  assert (length (pre ++ term :: ws ++ rest) <= length text)%nat as LL.
  { rewrite <- CC. clear - NEs. induction NEs; simpl; auto. rewrite app_length. destruct (snd x); simpl in *; [congruence|]. lia. }
  destruct (skip_plain pre (length text + 1) TOKEN_WORD 0 0 TOKEN_NONE (term :: ws ++ rest)) as (tok' & ps' & pt' & TN & PP & ->); auto; try discriminate.
  { rewrite app_length in LL. lia. }
  cbn [Nat.add].
  pose proof (seq_skip pre (term :: ws ++ rest) 0 H) as H1. cbn [Nat.add] in H1.
  set (slen := length (text_of pre)) in *.
  rewrite app_length in LL. cbn [length] in LL. rewrite app_length in LL. clear CC NEs.
  destruct (length text + 1 - length pre)%nat as [|fuel] eqn:FE; [lia|].
  destruct (at_term fuel tok' slen ps' pt' pre term (ws ++ rest) TN H1 TT) as (ed & pe & AT & ->).
  { destruct PP as [(-> & -> & ->)|(pre' & w & -> & ->)]; [left; auto|right].
    exists pre', w. split; auto. subst slen. rewrite text_of_app, app_length, text_of_cons. simpl (text_of []). rewrite app_nil_r. cbn [snd].
    split; [lia|].
    pose proof H as Hc. rewrite <- app_assoc in Hc. apply (seq_skip pre' _ 0) in Hc. cbn [Nat.add app] in Hc.
    pose proof (seq_head _ _ _ Hc) as (_ & _ & P & _ & SK & _). cbn [snd] in *. split; auto.
    intros ->. simpl in P. lia. }
  pose proof (seq_head _ _ _ H1) as (_ & T0 & _).
  assert (fst term = TOKEN_PUNCTUATION) as TP by apply TT.
  change (term :: ws ++ rest) with ([term] ++ ws ++ rest) in H1. apply seq_skip in H1.
  rewrite text_of_cons in H1. simpl (text_of []) in H1. rewrite app_nil_r in H1.
  assert (forall prev, prev <> TOKEN_WHITESPACE \/ prev = TOKEN_WHITESPACE) as DW by (intros []; auto; left; discriminate).
  (* a generic lemma for the final step *)
  assert (forall f s ps pt tok, tok <> TOKEN_NONE -> (s <= length text)%nat -> token_seq (nextToken false) (skipn s text) rest -> (0 < f)%nat ->
     match rest with
     | [] => sentence_loop f spell text d tok s ps pt true false ed pe = Ok (SENTENCE_NONE, length text, d)
     | next :: _ => exists ty, sentence_loop f spell text d tok s ps pt true false ed pe = Ok (ty, s, d) /\
         ((ty = SENTENCE_PROBABLE /\ certain_end spell pre term /\ (pt = TOKEN_WHITESPACE \/ fst next <> TOKEN_WORD)) \/
         (ty = SENTENCE_POSSIBLE /\ (~ certain_end spell pre term \/ (pt <> TOKEN_WHITESPACE /\ fst next = TOKEN_WORD))))
     end) as FIN.
  { intros f s ps pt tok TK SB HS FF. destruct f as [|f]; [lia|]. destruct rest as [|nx rest'].
    - cbn [sentence_loop]. replace (is_none tok) with false by (destruct tok; simpl; congruence). cbn [orb].
      destruct (Nat.ltb_spec s (length text)); cbn [negb]; auto.
      exfalso. destruct (token_seq_inv _ _ HS) as (t & n & r & Q & _); [|discriminate].
      intros X. apply (f_equal (@length Z)) in X. rewrite skipn_length in X. simpl in X. lia.
    - rewrite (loop_unfold _ _ _ _ _ _ _ _ _ _ _ TK HS). cbv zeta. cbn [andb negb].
      specialize (RH nx rest' eq_refl). unfold after_term in AT.
      set (glued := match pt with TOKEN_WHITESPACE => false | _ => match fst nx with TOKEN_WORD => true | _ => false end end).
      assert (glued = true <-> pt <> TOKEN_WHITESPACE /\ fst nx = TOKEN_WORD) as G.
      { subst glued. destruct pt, (fst nx); split; intros Q; try discriminate; auto; try (split; [discriminate|auto]); destruct Q; congruence. }
      assert (exists ty, (if ed || pe || glued then Ok (SENTENCE_POSSIBLE, s, d) else Ok (SENTENCE_PROBABLE, s, d)) = Ok (ty, s, d) /\
         ((ty = SENTENCE_PROBABLE /\ certain_end spell pre term /\ (pt = TOKEN_WHITESPACE \/ fst nx <> TOKEN_WORD)) \/
         (ty = SENTENCE_POSSIBLE /\ (~ certain_end spell pre term \/ (pt <> TOKEN_WHITESPACE /\ fst nx = TOKEN_WORD))))) as X.
      { destruct (ed || pe); cbn [orb].
        - eexists. split; [reflexivity|]. right. split; auto. left. intros CE. apply AT in CE. discriminate.
        - destruct glued.
          + eexists. split; [reflexivity|]. right. split; auto. right. apply G. auto.
          + eexists. split; [reflexivity|]. left. split; auto. split; [apply AT; auto|].
            destruct pt; auto; right; intros Q; assert (false = true) by (apply G; split; auto; discriminate); discriminate. }
      destruct (fst nx) eqn:TNX; try exact X. congruence. }
  destruct ws as [|w1 ws].
  - cbn [app] in *. pose proof (seq_head) as SH.
    rewrite text_of_app, app_length, text_of_cons. simpl (text_of []). rewrite app_nil_r. fold slen.
    assert (slen + length (snd term) <= length text)%nat as SB.
    { pose proof H as H2. apply (seq_skip pre _ 0) in H2. apply seq_head in H2. cbn [Nat.add] in H2. fold slen in H2. lia. }
    specialize (FIN fuel (slen + length (snd term))%nat slen (fst term) (fst term) T0 SB H1 ltac:(lia)).
    destruct rest; auto. destruct FIN as (ty & E & F). exists ty. split; auto. rewrite TP in F.
    destruct F as [(A & B & [C|C])|(A & [B|(B & C)])]; try discriminate; auto 6.
  - inversion FW as [|? ? W1 FW']; subst.
    assert (ws = []) as ->.
    { destruct ws as [|w2 ws]; auto. exfalso. inversion FW'; subst. cbn [app] in H1.
      pose proof (seq_head _ _ _ H1) as (NX1 & _). pose proof H1 as H2.
      change (w1 :: w2 :: ws ++ rest) with ([w1] ++ w2 :: ws ++ rest) in H2. apply seq_skip in H2.
      rewrite text_of_cons in H2. simpl (text_of []) in H2. rewrite app_nil_r in H2.
      pose proof (seq_head _ _ _ H2) as (NX2 & _). rewrite <- skipn_skipn in NX2. rewrite W1 in NX1. rewrite H3 in NX2.
      destruct (nextToken_spec false (skipn (slen + length (snd term)) text)) as (t' & k & E & OK & LE & _). rewrite NX1 in E. injection E as <- <-.
      destruct (nextToken_spec false (skipn (length (snd w1)) (skipn (slen + length (snd term)) text))) as (t' & k & E & OK2 & LE2 & NE2). rewrite NX2 in E. injection E as <- <-.
      destruct OK as [_ N]. destruct OK2 as [F2 _].
      destruct (skipn (length (snd w1)) (skipn (slen + length (snd term)) text)) as [|c r] eqn:SS; [simpl in NX2; discriminate|].
      destruct (NE2 ltac:(discriminate)) as [_ P]. destruct (length (snd w2)); [lia|]. simpl in F2. inversion F2; subst.
      apply (N c); auto. rewrite <- (Nat.add_0_r (length (snd w1))), <- nth_error_skipn, SS. reflexivity. }
    cbn [app] in *. pose proof (seq_head _ _ _ H1) as (NX1 & TW & PW & LW & _ & _).
    destruct fuel as [|fuel]; [simpl in LL; lia|].
    rewrite (loop_unfold _ _ _ _ _ _ _ _ _ _ _ T0 H1). cbv zeta. cbn [andb negb]. rewrite W1.
    pose proof H1 as H2. change (w1 :: rest) with ([w1] ++ rest) in H2. apply seq_skip in H2.
    rewrite text_of_cons in H2. simpl (text_of []) in H2. rewrite app_nil_r in H2.
    specialize (FIN fuel (slen + length (snd term) + length (snd w1))%nat (slen + length (snd term))%nat TOKEN_WHITESPACE TOKEN_WHITESPACE ltac:(discriminate) LW H2 ltac:(simpl in LL; lia)).
    destruct rest; auto. destruct FIN as (ty & E & F). exists ty. split.
    + rewrite E. rewrite text_of_app, app_length, !text_of_cons, !app_length. simpl (text_of []). fold slen. simpl. f_equal. f_equal. f_equal. lia.
    + destruct F as [(A & B & [C|C])|(A & [B|(B & C)])]; try congruence; [left|left|right]; auto; split; auto; split; auto; left; discriminate.
Qed.

(** No terminator at all: no boundary. *)
Lemma loop_no_terminator : forall toks, token_seq (nextToken false) text toks -> Forall (fun tk => ~ terminator tk) toks ->
  sentence_next spell d text = Ok (SENTENCE_NONE, length text, d).
Proof.
  intros toks H F. unfold sentence_next.
  pose proof (token_seq_concat _ _ _ H) as [CC NEs].
  assert (length toks <= length text)%nat as LL.
  { rewrite <- CC. clear - NEs. induction NEs; simpl; auto. rewrite app_length. destruct (snd x); simpl in *; [congruence|]. lia. }
  destruct (loop_shape spell text d toks (length text + 1) TOKEN_WORD 0 0 TOKEN_NONE false false false false) as ([[ty n] d'] & E & D & S); auto; try lia; try discriminate.
  rewrite E. subst d'. destruct S as [(-> & ->)|(_ & a & tk & b & -> & _ & _ & [X|X] & _)]; auto; [discriminate|].
  exfalso. apply Forall_app in F. destruct F as [F _]. rewrite Forall_forall in F. apply Exists_exists in X. destruct X as (x & I & X). eapply F; eauto.
Qed.
End Exact.

Lemma sentence_shape : forall spell d text, exists toks ty n,
  token_seq (nextToken false) text toks /\ sentence_next spell d text = Ok (ty, n, d) /\
  ((ty = SENTENCE_NONE /\ n = length text) \/
   ((ty = SENTENCE_PROBABLE \/ ty = SENTENCE_POSSIBLE) /\ (0 < n < length text)%nat /\
    exists a tk b, toks = a ++ tk :: b /\ text_of a = firstn n text /\ text_of (tk :: b) = skipn n text /\
      fst tk <> TOKEN_WHITESPACE /\ Exists terminator a /\ quote_parity a false)).
Proof.
  intros spell d text. destruct (token_seq_exists false text) as [toks H]. exists toks.
  pose proof (token_seq_concat _ _ _ H) as [CC NEs].
  assert (length toks <= length text)%nat as LL.
  { rewrite <- CC. clear - NEs. induction NEs; simpl; auto. rewrite app_length. destruct (snd x); simpl in *; [congruence|]. lia. }
  destruct (loop_shape spell text d toks (length text + 1) TOKEN_WORD 0 0 TOKEN_NONE false false false false) as ([[ty n] d'] & E & D & S); auto; try lia; try discriminate.
  subst d'. exists ty, n. split; auto. split; auto.
  destruct S as [S|(T & a & tk & b & -> & W & -> & [X|X] & Q)]; auto; [discriminate|]. right. split; auto.
  cbn [Nat.add]. change (concat (map snd (a ++ tk :: b))) with (text_of (a ++ tk :: b)) in CC. rewrite text_of_app in CC.
  apply Forall_app in NEs. destruct NEs as [NA NB]. inversion NB; subst.
  assert (0 < length (text_of a))%nat.
  { apply Exists_exists in X. destruct X as (x & I & (_ & c & r & X & _)). apply in_split in I. destruct I as (l1 & l2 & ->).
    rewrite text_of_app, text_of_cons, X, !app_length. simpl. lia. }
  assert (0 < length (text_of (tk :: b)))%nat.
  { rewrite text_of_cons, app_length. destruct (snd tk); simpl; [congruence|lia]. }
  split. { rewrite app_length. lia. }
  exists a, tk, b. split; auto. rewrite firstn_app, skipn_app, firstn_all, skipn_all, Nat.sub_diag. simpl (firstn 0 _). rewrite app_nil_r.
  repeat split; auto.
Qed.

Lemma sentence_seq_exists : forall spell d text, exists ss, sentence_seq (sentence_next spell d) text ss /\
  concat ss = text /\ (text <> [] -> Forall (fun s => s <> []) ss).
Proof.
  intros spell d text. remember (length text) as n eqn:N. revert text N.
  induction n as [n IH] using lt_wf_ind. intros text N.
  destruct (sentence_shape spell d text) as (toks & ty & k & TS & E & [(-> & ->)|(T & K & _)]).
  - exists [firstn (length text) text]. split; [eapply sseq_end; eauto|]. rewrite firstn_all. simpl. rewrite app_nil_r. auto.
  - assert (skipn k text <> []) as NE.
    { intros Q. apply (f_equal (@length Z)) in Q. rewrite skipn_length in Q. simpl in Q. lia. }
    destruct (IH (length (skipn k text))) with (text := skipn k text) as (ss & S & C & F); auto.
    { rewrite skipn_length. lia. }
    exists (firstn k text :: ss). split; [eapply sseq_step; eauto; destruct T as [->| ->]; discriminate|].
    simpl. rewrite C, firstn_skipn. split; auto. intros _. constructor; auto.
    intros Q. apply (f_equal (@length Z)) in Q. rewrite firstn_length in Q. simpl in Q. lia.
Qed.

Lemma sentence_seq_unique : forall next text a b, sentence_seq next text a -> sentence_seq next text b -> a = b.
Proof.
  intros next text a b H. revert b. induction H; intros bb B; inversion B; subst; auto; try congruence.
  f_equal; try congruence. apply IHsentence_seq. congruence.
Qed.
