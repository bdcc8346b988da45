(** Lemmas about the tokenizer. *)
From Verif Require Import Base BaseFacts CharModel TokenModel TokenSpec Utf8Model Utf8Spec Utf8Proofs.

(** ** Character classes *)
Lemma whitespace_b : forall c, isWhitespace c = true <-> whitespace c.
Proof.
  intros c. unfold isWhitespace, whitespace, in_range. cbn [In].
  rewrite !orb_true_iff, !andb_true_iff, !Z.leb_le, !Z.eqb_eq. split; intros H.
  - lia.
  - repeat (destruct H as [H|H]; [lia|]). lia.
Qed.

Lemma wcschr_spec : forall s c, wcschr s c = true <-> c = 0 \/ In c s.
Proof. intros. unfold wcschr. rewrite orb_true_iff, Z.eqb_eq, mem_In. tauto. Qed.

Definition letter_b (c : Z) : bool :=
  in_range 65 90 c || in_range 97 122 c || (in_range 193 687 c && negb (c =? 215) && negb (c =? 247)) ||
  in_range 0x400 0x481 c || in_range 0x48A 0x527 c || in_range 0x1400 0x15C3 c || in_range 0xFB00 0xFB04 c.

Lemma letter_b_spec : forall c, letter_b c = true <-> letter c.
Proof. intros. unfold letter_b, letter, in_range. lia. Qed.

Lemma char_type_eq : forall c, get_char_type c =
  if letter_b c then CHAR_LETTER else if isWhitespace c then CHAR_WHITESPACE
  else if wcschr punctuation_chars c then CHAR_PUNCTUATION
  else if isFinnishQuotationMark c then CHAR_PUNCTUATION
  else if wcschr (wstr "0123456789") c then CHAR_DIGIT else CHAR_UNKNOWN.
Proof.
  intros c. unfold get_char_type.
  match goal with |- (if ?b then _ else _) = _ => replace b with (letter_b c) end; [reflexivity|].
  unfold letter_b, in_range. lia.
Qed.

Lemma punct_b : forall c, wcschr punctuation_chars c || isFinnishQuotationMark c = true <-> punctuation c.
Proof.
  intros c. unfold isFinnishQuotationMark. rewrite orb_true_iff, !wcschr_spec.
  unfold punctuation, punctuation_chars. rewrite in_app_iff. cbn [In wstr].
  change (Z.of_N (N_of_ascii ".")) with 0x2E. change (Z.of_N (N_of_ascii ",")) with 0x2C.
  change (Z.of_N (N_of_ascii ";")) with 0x3B. change (Z.of_N (N_of_ascii "-")) with 0x2D.
  change (Z.of_N (N_of_ascii "!")) with 0x21. change (Z.of_N (N_of_ascii "?")) with 0x3F.
  change (Z.of_N (N_of_ascii ":")) with 0x3A. change (Z.of_N (N_of_ascii "'")) with 0x27.
  change (Z.of_N (N_of_ascii "(")) with 0x28. change (Z.of_N (N_of_ascii ")")) with 0x29.
  change (Z.of_N (N_of_ascii "[")) with 0x5B. change (Z.of_N (N_of_ascii "]")) with 0x5D.
  change (Z.of_N (N_of_ascii "{")) with 0x7B. change (Z.of_N (N_of_ascii "}")) with 0x7D.
  change (Z.of_N (N_of_ascii "/")) with 0x2F. change (Z.of_N (N_of_ascii "&")) with 0x26.
  split; intros H.
  - destruct H as [H|H]; (destruct H as [H|H]; [subst; left; reflexivity|]);
    repeat match goal with H : _ \/ _ |- _ => destruct H as [H|H] end; subst; try contradiction; tauto.
  - repeat match goal with H : _ \/ _ |- _ => destruct H as [H|H] end; subst; try contradiction; tauto.
Qed.

Lemma digit_b : forall c, wcschr (wstr "0123456789") c = true <-> c = 0 \/ digit c.
Proof.
  intros c. rewrite wcschr_spec. unfold digit. cbn [In wstr].
  change (Z.of_N (N_of_ascii "0")) with 48. change (Z.of_N (N_of_ascii "1")) with 49.
  change (Z.of_N (N_of_ascii "2")) with 50. change (Z.of_N (N_of_ascii "3")) with 51.
  change (Z.of_N (N_of_ascii "4")) with 52. change (Z.of_N (N_of_ascii "5")) with 53.
  change (Z.of_N (N_of_ascii "6")) with 54. change (Z.of_N (N_of_ascii "7")) with 55.
  change (Z.of_N (N_of_ascii "8")) with 56. change (Z.of_N (N_of_ascii "9")) with 57. lia.
Qed.

Lemma ws_exclusive : forall c, whitespace c -> ~ letter c /\ ~ punctuation c /\ ~ digit c.
Proof.
  intros c H. unfold whitespace, letter, punctuation, digit in *. cbn [In] in *.
  repeat (destruct H as [H|H]; [subst; repeat split; intros Q; intuition lia|]). destruct H.
Qed.

Lemma class_ws : forall c, get_char_type c = CHAR_WHITESPACE <-> whitespace c.
Proof.
  intros c. rewrite char_type_eq. split.
  - destruct (letter_b c); [discriminate|]. destruct (isWhitespace c) eqn:W; [intros _; apply whitespace_b; auto|].
    repeat match goal with |- (if ?b then _ else _) = _ -> _ => destruct b; [discriminate|] end. discriminate.
  - intros H. pose proof (ws_exclusive c H) as (A & _).
    destruct (letter_b c) eqn:L; [apply letter_b_spec in L; tauto|].
    rewrite (proj2 (whitespace_b c) H). auto.
Qed.

Lemma class_letter : forall c, get_char_type c = CHAR_LETTER <-> letter c.
Proof.
  intros c. rewrite char_type_eq, <- letter_b_spec. destruct (letter_b c); [tauto|]. split; [|discriminate].
  repeat match goal with |- (if ?b then _ else _) = _ -> _ => destruct b; [discriminate|] end. discriminate.
Qed.

Lemma class_punct : forall c, get_char_type c = CHAR_PUNCTUATION -> punctuation c.
Proof.
  intros c. rewrite char_type_eq, <- punct_b.
  destruct (letter_b c); [discriminate|]. destruct (isWhitespace c); [discriminate|].
  destruct (wcschr punctuation_chars c); [auto|]. destruct (isFinnishQuotationMark c); [auto|].
  destruct (wcschr _ c); discriminate.
Qed.

Lemma class_digit : forall c, get_char_type c = CHAR_DIGIT -> digit c.
Proof.
  intros c. rewrite char_type_eq.
  destruct (letter_b c); [discriminate|]. destruct (isWhitespace c); [discriminate|].
  destruct (wcschr punctuation_chars c) eqn:P; [discriminate|]. destruct (isFinnishQuotationMark c); [discriminate|].
  destruct (wcschr (wstr "0123456789") c) eqn:D; [|discriminate]. intros _. apply digit_b in D.
  destruct D as [->|D]; auto. discriminate.
Qed.

Lemma class_unknown : forall c, get_char_type c = CHAR_UNKNOWN -> ~ whitespace c /\ ~ digit c /\ ~ letter c /\ ~ punctuation c.
Proof.
  intros c. rewrite char_type_eq.
  destruct (letter_b c) eqn:L; [discriminate|]. destruct (isWhitespace c) eqn:W; [discriminate|].
  destruct (wcschr punctuation_chars c) eqn:P; [discriminate|]. destruct (isFinnishQuotationMark c) eqn:Q; [discriminate|].
  destruct (wcschr (wstr "0123456789") c) eqn:D; [discriminate|]. intros _.
  repeat split; intros H.
  - apply whitespace_b in H. congruence.
  - assert (wcschr (wstr "0123456789") c = true) by (apply digit_b; auto). congruence.
  - apply letter_b_spec in H. congruence.
  - apply punct_b in H. rewrite P, Q in H. discriminate.
Qed.

Lemma class_not_ws : forall c, get_char_type c <> CHAR_WHITESPACE -> ~ whitespace c.
Proof. intros c H Q. apply class_ws in Q. auto. Qed.

(** ** Loops *)
Definition nows (text : list Z) (r : nat) : Prop := Forall (fun c => ~ whitespace c) (firstn r text).

Lemma nows_0 : forall text, nows text 0.
Proof. intros; unfold nows; simpl; constructor. Qed.

Lemma nows_S : forall text i c, nows text i -> nth_error text i = Some c -> ~ whitespace c -> nows text (S i).
Proof.
  intros text i c N E W. unfold nows in *. rewrite (firstn_S_nth _ _ _ _ E). apply Forall_app. split; auto.
Qed.

Lemma eqb_len : forall (text : list Z) i, (i < length text)%nat -> Nat.eqb (i + 1) (length text) = false -> (i + 1 < length text)%nat.
Proof. intros. apply Nat.eqb_neq in H0. lia. Qed.

Lemma email_loop_spec : forall text n i fa fd, (i + n = length text)%nat -> nows text i ->
  exists r, email_loop text n i fa fd = Ok r /\ (r <= length text)%nat /\ nows text r.
Proof.
  intros text. induction n; intros i fa fd L N; cbn [email_loop].
  - eexists; split; [reflexivity|]. assert (i = length text) by lia; subst i.
    destruct (fa && fd); split; auto; try lia; apply nows_0.
  - destruct (rd_lt _ text i ltac:(lia)) as (c & R & E). rewrite R. cbn [bind].
    assert (forall b : bool, exists r, Ok (if b then i else 0%nat) = Ok r /\ (r <= length text)%nat /\ nows text r) as D.
    { intros b. eexists; split; [reflexivity|]. destruct b; split; auto; try lia; apply nows_0. }
    assert (get_char_type c <> CHAR_WHITESPACE -> forall a b, exists r, email_loop text n (S i) a b = Ok r /\ (r <= length text)%nat /\ nows text r) as IH.
    { intros W a b. apply IHn; [lia|]. eapply nows_S; eauto. apply class_not_ws; auto. }
    destruct (get_char_type c) eqn:T.
    + destruct (c =? 0x40).
      * destruct fa; [apply (D false)|]. apply IH; congruence.
      * destruct (negb _); [apply D|]. apply IH; congruence.
    + apply IH; congruence.
    + apply IH; congruence.
    + apply D.
    + destruct ((c =? 0x2E) && fa).
      * destruct (Nat.eqb (i + 1) (length text)) eqn:Q; cbn [bind]; [apply D|].
        apply eqb_len in Q; [|lia].
        destruct (rd_lt _ text (i + 1) Q) as (d & Rd & _). rewrite Rd. cbn [bind].
        destruct (get_char_type d); try (apply IH; congruence). apply D.
      * destruct (negb _); [apply D|]. apply IH; congruence.
Qed.

Lemma url_loop_spec : forall text n i, (i + n = length text)%nat -> nows text i ->
  exists r, url_loop text n i = Ok r /\ (i <= r <= length text)%nat /\ nows text r.
Proof.
  intros text. induction n; intros i L N; cbn [url_loop].
  - eexists; split; [reflexivity|]. assert (i = length text) by lia; subst i. split; auto; lia.
  - destruct (rd_lt _ text i ltac:(lia)) as (c & R & E). rewrite R. cbn [bind].
    assert (exists r, Ok i = Ok r /\ (i <= r <= length text)%nat /\ nows text r) as D.
    { eexists; split; [reflexivity|]. split; auto; lia. }
    assert (get_char_type c <> CHAR_WHITESPACE -> exists r, url_loop text n (S i) = Ok r /\ (i <= r <= length text)%nat /\ nows text r) as IH.
    { intros W. destruct (IHn (S i) ltac:(lia)) as (r & Q1 & Q2 & Q3); [eapply nows_S; eauto; apply class_not_ws; auto|].
      exists r. split; auto. split; auto. lia. }
    destruct (get_char_type c) eqn:T.
    + destruct (negb _); [apply D|]. apply IH; congruence.
    + apply IH; congruence.
    + apply IH; congruence.
    + apply D.
    + destruct (c =? 0x2E).
      * destruct (Nat.eqb (i + 1) (length text)) eqn:Q; cbn [bind]; [apply D|].
        apply eqb_len in Q; [|lia].
        destruct (rd_lt _ text (i + 1) Q) as (d & Rd & _). rewrite Rd. cbn [bind].
        destruct (get_char_type d); try (apply IH; congruence). apply D.
      * apply IH; congruence.
Qed.

Lemma nows_prefix_literal : forall s text, firstn (length s) text = s -> forallb (fun c => negb (isWhitespace c)) s = true ->
  nows text (length s).
Proof.
  intros s text H F. unfold nows. rewrite H. apply Forall_forall. intros x Hx W.
  rewrite forallb_forall in F. specialize (F x Hx). apply whitespace_b in W. rewrite W in F. discriminate.
Qed.

Lemma findUrl_spec : forall text, exists r, findUrlOrEmail text = Ok r /\ (r <= length text)%nat /\ nows text r.
Proof.
  intros text. unfold findUrlOrEmail.
  assert (exists r, (if (length text <? 6)%nat then Ok 0%nat else email_loop text (length text) 0 false false) = Ok r /\ (r <= length text)%nat /\ nows text r) as EM.
  { destruct (length text <? 6)%nat.
    - exists O; split; auto. split; [lia|apply nows_0].
    - apply email_loop_spec; [lia|apply nows_0]. }
  destruct (Nat.ltb_spec (length text) 12) as [L|L]; cbn [bind]; auto.
  destruct (prefix_eq_ok (wstr "http://") text ltac:(simpl; lia)) as [p1 E1]. rewrite E1. cbn [bind].
  destruct p1; cbn [bind].
  - destruct (rd_lt _ text 4 ltac:(lia)) as (c & R & E). rewrite R. cbn [bind].
    apply prefix_eq_true in E1.
    assert (c = 0x3A) as ->.
    { assert (nth_error (firstn 7 text) 4 = Some c) as Q by (rewrite nth_error_firstn_lt; auto; lia).
      change (length (wstr "http://")) with 7%nat in E1. rewrite E1 in Q. simpl in Q. congruence. }
    change (0x3A =? 0x73) with false. cbn [negb].
    destruct (url_loop_spec text (length text - 7) 7 ltac:(lia)) as (r & A & B & C).
    + apply (nows_prefix_literal (wstr "http://")); auto.
    + exists r. split; auto. split; auto. lia.
  - destruct (prefix_eq_ok (wstr "https://") text ltac:(simpl; lia)) as [p2 E2]. rewrite E2. cbn [bind].
    destruct p2; cbn [negb]; auto.
    destruct (rd_lt _ text 4 ltac:(lia)) as (c & R & E). rewrite R. cbn [bind].
    apply prefix_eq_true in E2.
    assert (c = 0x73) as ->.
    { assert (nth_error (firstn 8 text) 4 = Some c) as Q by (rewrite nth_error_firstn_lt; auto; lia).
      change (length (wstr "https://")) with 8%nat in E2. rewrite E2 in Q. simpl in Q. congruence. }
    change (0x73 =? 0x73) with true.
    destruct (url_loop_spec text (length text - 8) 8 ltac:(lia)) as (r & A & B & C).
    + apply (nows_prefix_literal (wstr "https://")); auto.
    + exists r. split; auto. split; auto. lia.
Qed.

Lemma word_loop_spec : forall d text n i pn sl, (i + n = length text)%nat -> nows text i ->
  exists r, word_loop d text n i pn sl = Ok r /\ (i <= r <= length text)%nat /\ nows text r /\
    (forall c, nth_error text i = Some c -> letter c \/ digit c -> (i < r)%nat).
Proof.
  intros d text. induction n; intros i pn sl L N; cbn [word_loop].
  - eexists; split; [reflexivity|]. assert (i = length text) by lia; subst i. split; [lia|]. split; auto.
    intros c H. apply nth_error_lt in H. lia.
  - destruct (rd_lt _ text i ltac:(lia)) as (c & R & E). rewrite R. cbn [bind].
    assert (~ (letter c \/ digit c) -> exists r, Ok i = Ok r /\ (i <= r <= length text)%nat /\ nows text r /\
      (forall c, nth_error text i = Some c -> letter c \/ digit c -> (i < r)%nat)) as D0.
    { intros X. eexists; split; [reflexivity|]. split; [lia|]. split; auto. intros c' Q. rewrite E in Q. injection Q as <-. tauto. }
    assert (get_char_type c <> CHAR_WHITESPACE -> exists r, Ok (i + 1)%nat = Ok r /\ (i <= r <= length text)%nat /\ nows text r /\
      (forall c, nth_error text i = Some c -> letter c \/ digit c -> (i < r)%nat)) as D1.
    { intros X. eexists; split; [reflexivity|]. split; [lia|]. split; [|intros; lia]. rewrite Nat.add_1_r. eapply nows_S; eauto. apply class_not_ws; auto. }
    assert (get_char_type c <> CHAR_WHITESPACE -> forall a b, exists r, word_loop d text n (S i) a b = Ok r /\ (i <= r <= length text)%nat /\ nows text r /\
      (forall c, nth_error text i = Some c -> letter c \/ digit c -> (i < r)%nat)) as IH.
    { intros W a b. destruct (IHn (S i) a b ltac:(lia)) as (r & Q1 & Q2 & Q3 & _); [eapply nows_S; eauto; apply class_not_ws; auto|].
      exists r. split; auto. split; [lia|]. split; auto. intros; lia. }
    assert (get_char_type c = CHAR_PUNCTUATION -> ~ (letter c \/ digit c)) as PX.
    { intros X [Q|Q].
      - apply class_letter in Q. congruence.
      - apply class_punct in X. unfold punctuation, digit in *. simpl in X. lia. }
    assert (get_char_type c = CHAR_PUNCTUATION -> forall b : bool, exists r, Ok (i + (if b then 1 else 0))%nat = Ok r /\ (i <= r <= length text)%nat /\ nows text r /\
      (forall c, nth_error text i = Some c -> letter c \/ digit c -> (i < r)%nat)) as DA.
    { intros X b. destruct b; [apply D1; congruence|]. rewrite Nat.add_0_r. apply D0. auto. }
    assert (get_char_type c = CHAR_PUNCTUATION -> Nat.eqb (i + 1) (length text) = false -> exists x, rd text (i + 1) = Ok x) as RD.
    { intros _ Q. apply eqb_len in Q; [|lia]. destruct (rd_lt _ text (i + 1) Q) as (x & Rx & _). eauto. }
    destruct (get_char_type c) eqn:T.
    + apply D0. apply class_unknown in T. tauto.
    + apply IH; congruence.
    + apply IH; congruence.
    + apply D0. apply class_ws in T. pose proof (ws_exclusive c T). tauto.
    + specialize (PX eq_refl). specialize (D0 PX). specialize (DA eq_refl). specialize (RD eq_refl).
      specialize (D1 ltac:(congruence)). specialize (IH ltac:(congruence)).
      destruct ((c =? 0x27) || (c =? 0x2019) || (c =? 0x3A)).
      { destruct (Nat.eqb (i + 1) (length text)) eqn:Q; auto. destruct (RD eq_refl) as [x ->]. cbn [bind].
        destruct (get_char_type x); auto. }
      destruct ((c =? 0x2D) || (c =? 0xAD) || (c =? 0x2010) || (c =? 0x2011)).
      { destruct (Nat.eqb (i + 1) (length text)) eqn:Q; auto. destruct (RD eq_refl) as [x ->]. cbn [bind].
        destruct (isFinnishQuotationMark x); auto. destruct (get_char_type x); auto. destruct (x =? 0x2C); auto. }
      destruct (c =? 0x2E).
      { destruct (Nat.eqb (i + 1) (length text)) eqn:Q; auto. destruct (RD eq_refl) as [x ->]. cbn [bind].
        destruct (get_char_type x); auto. destruct sl; auto. }
      destruct (c =? 0x2C); auto.
      destruct (negb pn); auto.
      destruct (Nat.eqb (i + 1) (length text)) eqn:Q; auto. destruct (RD eq_refl) as [x ->]. cbn [bind].
      destruct (get_char_type x); auto.
Qed.

Lemma word_length_spec : forall d text, exists r, word_length d text = Ok r /\ (r <= length text)%nat /\ nows text r /\
    (forall c, nth_error text 0 = Some c -> letter c \/ digit c -> (0 < r)%nat).
Proof.
  intros d text. unfold word_length. destruct (findUrl_spec text) as (u & E & L & N). rewrite E. cbn [bind].
  destruct (Nat.eqb_spec u 0); cbn [negb].
  - destruct (word_loop_spec d text (length text) 0 false false ltac:(lia) (nows_0 _)) as (r & A & B & C & D).
    exists r. split; auto. split; [lia|]. auto.
  - exists u. split; auto. split; auto. split; auto. intros; lia.
Qed.

Lemma ws_loop_spec : forall text n i, (i + n = length text)%nat -> Forall whitespace (firstn i text) ->
  exists r, ws_loop text n i = Ok r /\ (i <= r <= length text)%nat /\ Forall whitespace (firstn r text) /\
    (forall c, nth_error text r = Some c -> ~ whitespace c).
Proof.
  intros text. induction n; intros i L N; cbn [ws_loop].
  - eexists; split; [reflexivity|]. assert (i = length text) by lia; subst i. split; [lia|]. split; auto.
    intros c H. apply nth_error_lt in H. lia.
  - destruct (rd_lt _ text i ltac:(lia)) as (c & R & E). rewrite R. cbn [bind].
    assert (get_char_type c <> CHAR_WHITESPACE -> exists r, Ok i = Ok r /\ (i <= r <= length text)%nat /\ Forall whitespace (firstn r text) /\
    (forall c, nth_error text r = Some c -> ~ whitespace c)) as D.
    { intros X. eexists; split; [reflexivity|]. split; [lia|]. split; auto. intros c' Q. rewrite E in Q. injection Q as <-. apply class_not_ws; auto. }
    destruct (get_char_type c) eqn:T; try (apply D; congruence).
    destruct (IHn (S i) ltac:(lia)) as (r & A & B & C).
    + rewrite (firstn_S_nth _ _ _ _ E). apply Forall_app. split; auto. constructor; auto. apply class_ws; auto.
    + exists r. split; auto. split; [lia|auto].
Qed.

Lemma nextToken_spec : forall d text, exists t n, nextToken d text = Ok (t, n) /\ token_ok text t n /\
  (n <= length text)%nat /\ (text <> [] -> t <> TOKEN_NONE /\ (0 < n)%nat).
Proof.
  intros d text. unfold nextToken. destruct text as [|c text'] eqn:TX.
  { exists TOKEN_NONE, O. simpl. split; [reflexivity|]. split; [split; reflexivity|]. split; [lia|]. intros H; elim H; auto. }
  rewrite <- TX. replace (Nat.eqb (length text) 0) with false by (subst; reflexivity).
  assert (rd text 0 = Ok c) as -> by (subst; reflexivity). cbn [bind].
  assert (1 <= length text)%nat as L1 by (subst; simpl; lia).
  assert (nth_error text 0 = Some c) as E0 by (subst; auto).
  destruct (get_char_type c) eqn:T.
  - exists TOKEN_UNKNOWN, 1%nat. split; auto. split; [|split; [lia|intros; split; [discriminate|lia]]].
    apply class_unknown in T. exists c, text'. tauto.
  - destruct (word_length_spec d text) as (r & -> & B & C & D). cbn [bind]. do 2 eexists. split; [reflexivity|].
    apply class_letter in T. specialize (D c E0 (or_introl T)). split; [|split; [auto|intros; split; [discriminate|lia]]].
    split; auto. exists c, text'. auto.
  - destruct (word_length_spec d text) as (r & -> & B & C & D). cbn [bind]. do 2 eexists. split; [reflexivity|].
    apply class_digit in T. specialize (D c E0 (or_intror T)). split; [|split; [auto|intros; split; [discriminate|lia]]].
    split; auto. exists c, text'. auto.
  - apply class_ws in T. destruct (ws_loop_spec text (length text - 1) 1 ltac:(lia)) as (r & -> & B & C & D).
    { subst. simpl. constructor; auto. }
    cbn [bind]. do 2 eexists. split; [reflexivity|]. split; [|split; [lia|intros; split; [discriminate|lia]]]. split; auto.
  - assert (exists t n, Ok (TOKEN_PUNCTUATION, 1%nat) = Ok (t, n) /\ token_ok text t n /\
       (n <= length text)%nat /\ (text <> [] -> t <> TOKEN_NONE /\ (0 < n)%nat)) as P1.
    { exists TOKEN_PUNCTUATION, 1%nat. split; auto. split; [|split; [lia|intros; split; [discriminate|lia]]].
      left. exists c, text'. split; auto. split; auto. apply class_punct; auto. }
    destruct (wcschr [0x2D; 0x2010; 0x2011] c) eqn:H.
    + destruct (Nat.eqb_spec (length text) 1); auto.
      destruct (word_length_spec d (tl text)) as (r & -> & B & C & D). cbn [bind].
      destruct (Nat.eqb_spec r 0); auto.
      exists TOKEN_WORD, (r + 1)%nat. split; auto.
      assert (length text = S (length (tl text)))%nat by (subst; auto).
      split; [|split; [lia|intros; split; [discriminate|lia]]].
      apply wcschr_spec in H. cbn [In] in H.
      split.
      * rewrite Nat.add_1_r. rewrite TX. cbn [firstn]. rewrite TX in C. cbn [tl] in C. constructor; auto.
        apply class_not_ws; congruence.
      * exists c, text'. split; auto. right. right. split; [|lia]. unfold initial_hyphen. intuition.
    + destruct (Nat.ltb_spec (length text) 3); cbn [bind]; auto.
      destruct (Z.eqb_spec c 0x2E); cbn [negb bind]; auto.
      destruct text' as [|c1 [|c2 text']]; try (subst text; simpl in *; lia).
      assert (rd text 1 = Ok c1) as -> by (subst; auto). cbn [bind].
      destruct (Z.eqb_spec c1 0x2E); cbn [negb bind]; auto.
      assert (rd text 2 = Ok c2) as -> by (subst; auto). cbn [bind].
      destruct (Z.eqb_spec c2 0x2E); auto.
      exists TOKEN_PUNCTUATION, 3%nat. split; auto. split; [|split; [lia|intros; split; [discriminate|lia]]].
      right. exists text'. subst. auto.
Qed.

(** ** Tokenizing a prefix of the text *)
Section Prefix.
Variables (p w : list Z).
Hypothesis PW : p = firstn (length p) w.
Hypothesis LT : (length p < length w)%nat.

Lemma pre_rd : forall i, (i < length p)%nat -> rd w i = rd p i.
Proof.
  intros i H. unfold rd. rewrite PW. rewrite nth_error_firstn_lt; auto.
Qed.

Lemma pre_email_ws : forall k, (k < length p)%nat -> (exists c, nth_error p k = Some c /\ whitespace c) ->
  forall n n' i fa fd, (i <= k)%nat -> (i + n = length p)%nat -> (i + n' = length w)%nat ->
  email_loop w n' i fa fd = email_loop p n i fa fd.
Proof.
  intros k K (wc & Ek & Wk).
  induction n; intros n' i fa fd LE L L'; [lia|].
  destruct n' as [|n']; [lia|]. cbn [email_loop].
  rewrite pre_rd by lia. destruct (rd_lt _ p i ltac:(lia)) as (c & R & E). rewrite R. cbn [bind].
  assert (get_char_type c <> CHAR_WHITESPACE -> (S i <= k)%nat) as SK.
  { intros W. assert (i <> k); [|lia]. intros ->. rewrite E in Ek. injection Ek as ->. apply class_ws in Wk. auto. }
  assert (get_char_type c <> CHAR_WHITESPACE -> forall a b, email_loop w n' (S i) a b = email_loop p n (S i) a b) as IH.
  { intros W a b. specialize (SK W). apply IHn; lia. }
  destruct (get_char_type c) eqn:T; auto; try (apply IH; congruence).
  - destruct (c =? 0x40). { destruct fa; auto. apply IH; congruence. }
    destruct (negb _); auto. apply IH; congruence.
  - specialize (SK ltac:(congruence)). specialize (IH ltac:(congruence)).
    destruct ((c =? 0x2E) && fa).
    + replace (Nat.eqb (i + 1) (length w)) with false by (symmetry; apply Nat.eqb_neq; lia).
      replace (Nat.eqb (i + 1) (length p)) with false by (symmetry; apply Nat.eqb_neq; lia).
      rewrite pre_rd by lia. destruct (rd p (i + 1)); cbn [bind]; auto.
      match goal with |- (if ?b then _ else _) = _ => destruct b; auto end.
    + destruct (negb _); auto.
Qed.

Lemma pre_url : forall n n' i r, (i + n = length p)%nat -> (i + n' = length w)%nat ->
  url_loop p n i = Ok r -> (r + 1 < length p)%nat -> url_loop w n' i = Ok r.
Proof.
  induction n; intros n' i r L L' H LR; cbn [url_loop] in H; [injection H as H; lia|].
  destruct n' as [|n']; [lia|]. cbn [url_loop]. rewrite pre_rd by lia.
  destruct (rd_lt _ p i ltac:(lia)) as (c & R & E). rewrite R in *. cbn [bind] in *.
  destruct (get_char_type c) eqn:T; auto; try (eapply IHn; eauto; lia).
  - destruct (negb _); auto; eapply IHn; eauto; lia.
  - destruct (c =? 0x2E); [|eapply IHn; eauto; lia].
    replace (Nat.eqb (i + 1) (length w)) with false by (symmetry; apply Nat.eqb_neq; lia).
    destruct (Nat.eqb_spec (i + 1) (length p)); cbn [bind] in H.
    + injection H as H. lia.
    + rewrite pre_rd by lia. destruct (rd p (i + 1)); cbn [bind] in *; try discriminate.
      match goal with |- (if ?b then _ else _) = _ => destruct b; auto end. eapply IHn; eauto; lia.
Qed.

Lemma pre_word : forall d n n' i pn sl r, (i + n = length p)%nat -> (i + n' = length w)%nat ->
  word_loop d p n i pn sl = Ok r -> (r + 1 < length p)%nat -> word_loop d w n' i pn sl = Ok r.
Proof.
  intros d. induction n; intros n' i pn sl r L L' H LR; cbn [word_loop] in H; [injection H as H; lia|].
  destruct n' as [|n']; [lia|]. cbn [word_loop]. rewrite pre_rd by lia.
  destruct (rd_lt _ p i ltac:(lia)) as (c & R & E). rewrite R in *. cbn [bind] in *.
  assert (forall a b, word_loop d p n (S i) a b = Ok r -> word_loop d w n' (S i) a b = Ok r) as IH.
  { intros a b Q. eapply IHn; eauto; lia. }
  replace (Nat.eqb (i + 1) (length w)) with false by (symmetry; apply Nat.eqb_neq; lia).
  assert (((i + 1)%nat = length p -> Ok i = Ok r -> False) /\ ((i + 1)%nat = length p -> Ok (i + 1)%nat = Ok r -> False) /\
     ((i + 1)%nat = length p -> Ok (i + (if d then 1 else 0))%nat = Ok r -> False)) as (X1 & X2 & X3).
  { repeat split; intros Q Q2; injection Q2 as Q2; try lia; destruct d; lia. }
  destruct (get_char_type c) eqn:T; auto.
  destruct ((c =? 0x27) || (c =? 0x2019) || (c =? 0x3A)).
  { destruct (Nat.eqb_spec (i + 1) (length p)); [exfalso; auto|]. rewrite pre_rd by lia.
    destruct (rd p (i + 1)) as [x| |]; cbn [bind] in *; try discriminate. destruct (get_char_type x); auto. }
  destruct ((c =? 0x2D) || (c =? 0xAD) || (c =? 0x2010) || (c =? 0x2011)).
  { destruct (Nat.eqb_spec (i + 1) (length p)); [exfalso; auto|]. rewrite pre_rd by lia.
    destruct (rd p (i + 1)) as [x| |]; cbn [bind] in *; try discriminate.
    destruct (isFinnishQuotationMark x); auto. destruct (get_char_type x); auto. }
  destruct (c =? 0x2E).
  { destruct (Nat.eqb_spec (i + 1) (length p)); [exfalso; auto|]. rewrite pre_rd by lia.
    destruct (rd p (i + 1)) as [x| |]; cbn [bind] in *; try discriminate.
    destruct (get_char_type x); auto. destruct sl; auto. }
  destruct (c =? 0x2C); auto. destruct (negb pn); auto.
  destruct (Nat.eqb_spec (i + 1) (length p)); [exfalso; auto|]. rewrite pre_rd by lia.
  destruct (rd p (i + 1)) as [x| |]; cbn [bind] in *; try discriminate.
  destruct (get_char_type x); auto.
Qed.

Lemma pre_ws : forall n n' i r, (i + n = length p)%nat -> (i + n' = length w)%nat ->
  ws_loop p n i = Ok r -> (r + 1 < length p)%nat -> ws_loop w n' i = Ok r.
Proof.
  induction n; intros n' i r L L' H LR; cbn [ws_loop] in H; [injection H as H; lia|].
  destruct n' as [|n']; [lia|]. cbn [ws_loop]. rewrite pre_rd by lia.
  destruct (rd_lt _ p i ltac:(lia)) as (c & R & E). rewrite R in *. cbn [bind] in *.
  destruct (get_char_type c) eqn:T; auto; try (eapply IHn; eauto; lia).
Qed.

Lemma pre_prefix_eq : forall s, (length s <= length p)%nat -> prefix_eq s w = prefix_eq s p.
Proof.
  intros s H. rewrite PW. clear LT. revert H. generalize (length p) as m.
  clear PW. revert w. induction s; intros w0 m H; [reflexivity|].
  cbn [length] in H. destruct m; [lia|]. destruct w0; [reflexivity|].
  cbn [firstn prefix_eq]. destruct (a =? z); auto. apply IHs. lia.
Qed.
End Prefix.

Lemma email_no_at : forall text n i fd, (i + n = length text)%nat -> ~ In 0x40 text -> email_loop text n i false fd = Ok 0%nat.
Proof.
  intros text. induction n; intros i fd L N; cbn [email_loop]; auto.
  destruct (rd_lt _ text i ltac:(lia)) as (c & R & E). rewrite R. cbn [bind].
  assert (forall b, email_loop text n (S i) false b = Ok 0%nat) as IH by (intros; apply IHn; auto; lia).
  destruct (get_char_type c); auto.
  - destruct (Z.eqb_spec c 0x40); [subst; elim N; eapply nth_error_In; eauto|]. destruct (negb _); auto.
  - rewrite andb_false_r. destruct (negb _); auto.
Qed.

(** A text whose first token is not disturbed by cutting the text at [m]
    characters: no '@' at all, or whitespace before the cut. *)
Definition cut_safe (m : nat) (w : list Z) : Prop :=
  ~ In 0x40 w \/ exists k c, (k < m)%nat /\ nth_error w k = Some c /\ whitespace c.

Lemma findUrl_prefix : forall p w r, p = firstn (length p) w -> (length p < length w)%nat ->
  (12 <= length p)%nat -> cut_safe (length p) w -> findUrlOrEmail p = Ok r -> (r + 1 < length p)%nat ->
  findUrlOrEmail w = Ok r.
Proof.
  intros p w r PW LT L12 CS H LR. unfold findUrlOrEmail in *.
  replace (length w <? 12)%nat with false by (symmetry; apply Nat.ltb_ge; lia).
  replace (length p <? 12)%nat with false in H by (symmetry; apply Nat.ltb_ge; lia).
  rewrite (pre_prefix_eq p w PW (wstr "http://")) by (simpl; lia).
  rewrite (pre_prefix_eq p w PW (wstr "https://")) by (simpl; lia).
  match goal with |- bind ?b _ = _ => destruct b as [nu| |]; cbn [bind] in *; try discriminate end.
  destruct nu.
  - replace (length w <? 6)%nat with false by (symmetry; apply Nat.ltb_ge; lia).
    replace (length p <? 6)%nat with false in H by (symmetry; apply Nat.ltb_ge; lia).
    destruct CS as [NA|(k & c & K & E & W)].
    + rewrite email_no_at in * ; auto. intros Q. apply NA. rewrite PW in Q. 
      rewrite <- (firstn_skipn (length p) w). apply in_or_app; auto.
    + rewrite <- H. eapply (pre_email_ws p w PW LT k K); try lia.
      exists c. split; auto. rewrite PW, nth_error_firstn_lt; auto.
  - rewrite (pre_rd p w PW) by lia. destruct (rd p 4) as [c4| |]; cbn [bind] in *; try discriminate.
    eapply (pre_url p w PW LT); eauto; destruct (c4 =? 0x73); lia.
Qed.

Lemma word_length_prefix : forall d p w r, p = firstn (length p) w -> (length p < length w)%nat ->
  (12 <= length p)%nat -> cut_safe (length p) w -> word_length d p = Ok r -> (r + 1 < length p)%nat ->
  word_length d w = Ok r.
Proof.
  intros d p w r PW LT L12 CS H LR. unfold word_length in *.
  destruct (findUrl_spec p) as (u & E & LU & _). rewrite E in H. cbn [bind] in H.
  destruct (Nat.eqb_spec u 0); cbn [negb] in H.
  - subst u. rewrite (findUrl_prefix p w 0) by (auto; lia). cbn [bind Nat.eqb negb].
    eapply (pre_word p w PW LT); eauto; lia.
  - injection H as ->. rewrite (findUrl_prefix p w r) by (auto; lia). cbn [bind].
    destruct (Nat.eqb_spec r 0); cbn [negb]; auto. congruence.
Qed.

Lemma nextToken_prefix : forall d p w t n, p = firstn (length p) w -> (length p < length w)%nat ->
  (13 <= length p)%nat -> cut_safe (length p) w -> nextToken d p = Ok (t, n) -> (n + 1 < length p)%nat ->
  nextToken d w = Ok (t, n).
Proof.
  intros d p w t n PW LT L CS H LR. unfold nextToken in *.
  replace (Nat.eqb (length w) 0) with false by (symmetry; apply Nat.eqb_neq; lia).
  replace (Nat.eqb (length p) 0) with false in H by (symmetry; apply Nat.eqb_neq; lia).
  rewrite (pre_rd p w PW) by lia. destruct (rd p 0) as [c| |] eqn:R0; cbn [bind] in *; try discriminate.
  destruct (get_char_type c) eqn:T; auto.
  - destruct (word_length d p) as [m| |] eqn:W; cbn [bind] in *; try discriminate. injection H as <- ->.
    rewrite (word_length_prefix d p w n) by (auto; lia). reflexivity.
  - destruct (word_length d p) as [m| |] eqn:W; cbn [bind] in *; try discriminate. injection H as <- ->.
    rewrite (word_length_prefix d p w n) by (auto; lia). reflexivity.
  - destruct (ws_loop p (length p - 1) 1) as [m| |] eqn:W; cbn [bind] in *; try discriminate. injection H as <- ->.
    rewrite (pre_ws p w PW LT (length p - 1) (length w - 1) 1 n) by (auto; lia). reflexivity.
  - destruct (wcschr [45; 8208; 8209] c).
    + replace (Nat.eqb (length w) 1) with false by (symmetry; apply Nat.eqb_neq; lia).
      replace (Nat.eqb (length p) 1) with false in H by (symmetry; apply Nat.eqb_neq; lia).
      assert (length (tl p) + 1 = length p)%nat as LP by (destruct p; simpl in *; lia).
      assert (length (tl w) + 1 = length w)%nat as LW by (destruct w; simpl in *; lia).
      assert (tl p = firstn (length (tl p)) (tl w)) as PW'.
      { destruct p, w; simpl in *; try lia. congruence. }
      assert (cut_safe (length (tl p)) (tl w)) as CS'.
      { destruct CS as [NA|(k & wc & K & E & W)].
        - left. intros Q. apply NA. destruct w; simpl in *; auto.
        - right. destruct k as [|k].
          + exfalso. apply class_ws in W. apply rd_ok in R0. rewrite PW, nth_error_firstn_lt in R0 by lia. congruence.
          + exists k, wc. split; [lia|]. split; auto. destruct w; simpl in *; auto. destruct k; discriminate. }
      destruct (word_length d (tl p)) as [m| |] eqn:W; cbn [bind] in *; try discriminate.
      assert (m + 1 < length (tl p))%nat as ML.
      { destruct (Nat.eqb_spec m 0); [lia|]. injection H as <- H. lia. }
      rewrite (word_length_prefix d (tl p) (tl w) m) by (auto; lia). cbn [bind]. auto.
    + replace (length w <? 3)%nat with false by (symmetry; apply Nat.ltb_ge; lia).
      replace (length p <? 3)%nat with false in H by (symmetry; apply Nat.ltb_ge; lia).
      rewrite !(pre_rd p w PW) by lia. auto.
Qed.

(** ** The UTF-8 entry point *)
Lemma cut_safe_mono : forall m m' w, (m <= m')%nat -> cut_safe m w -> cut_safe m' w.
Proof.
  intros m m' w L [N|(k & c & K & E & W)]; [left; auto|right]. exists k, c. split; [lia|auto].
Qed.

Lemma cstr_id : forall w, ~ In 0 w -> cstr w = w.
Proof. intros. apply cstr_no_nul; auto. Qed.

Lemma firstn_In : forall A n (l : list A) x, In x (firstn n l) -> In x l.
Proof. intros A n l x H. rewrite <- (firstn_skipn n l). apply in_or_app; auto. Qed.

Lemma cstr_loop_agree : forall fuel d w len m, Forall encodable w -> ~ In 0 w ->
  (50 <= m)%nat -> ((length w <= 50)%nat \/ cut_safe 50 w) -> (length w + 5 < m * 2 ^ (fuel - 1))%nat -> (0 < fuel)%nat ->
  cstr_loop fuel d (utf8_text w) len m = nextToken d w.
Proof.
  induction fuel; intros d w len m E Z M CS F FP; [lia|]. cbn [cstr_loop]. unfold doNextTokenCstr.
  rewrite ucs4FromUtf8_max_encoded by auto. cbn [bind].
  rewrite cstr_id by (intros Q; apply firstn_In in Q; auto).
  destruct (nextToken_spec d (firstn m w)) as (t & n & EQ & OK & LE & NE). rewrite EQ. cbn [bind].
  destruct (Nat.le_gt_cases (length w) m) as [SL|SL].
  - rewrite firstn_all2 in * by auto.
    destruct (is_none t || (n + 5 <? m)%nat) eqn:B; [congruence|].
    destruct fuel; [|apply IHfuel; auto; try lia].
    + exfalso. simpl in F. destruct (Nat.ltb_spec (n + 5) m); [destruct (is_none t); discriminate|]. lia.
    + replace (S fuel - 1)%nat with fuel by lia. replace (S (S fuel) - 1)%nat with (S fuel) in F by lia. simpl in F. lia.
  - destruct CS as [CS|CS]; [lia|].
    assert (length (firstn m w) = m) as LM by (rewrite firstn_length; lia).
    assert (t <> TOKEN_NONE) as TN.
    { apply NE. intros Q. rewrite Q in LM. simpl in LM. lia. }
    replace (is_none t) with false by (destruct t; auto; congruence). cbn [orb].
    destruct (Nat.ltb_spec (n + 5) m).
    + symmetry. eapply nextToken_prefix; eauto; rewrite ?LM; auto; try lia. apply (cut_safe_mono 50); auto.
    + destruct fuel; [|apply IHfuel; auto; try lia].
      * exfalso. simpl in F. lia.
      * replace (S fuel - 1)%nat with fuel by lia. replace (S (S fuel) - 1)%nat with (S fuel) in F by lia. simpl in F. lia.
Qed.

Lemma pow2_gt : forall n, (n < 2 ^ n)%nat.
Proof. induction n; simpl; lia. Qed.

Lemma cstr_agree : forall d w, Forall encodable w -> ~ In 0 w ->
  ((length w <= 50)%nat \/ cut_safe 50 w) -> nextTokenCstr d (utf8_text w) = nextToken d w.
Proof.
  intros d w E Z C. unfold nextTokenCstr. apply cstr_loop_agree; auto; try lia.
  replace (length (utf8_text w) + 1 - 1)%nat with (length (utf8_text w)) by lia.
  pose proof (pow2_gt (length (utf8_text w))). pose proof (utf8_text_len w). lia.
Qed.

(** Arbitrary bytes: the UTF-8 entry point terminates without undefined
    behaviour. *)
Lemma next_unchecked_shrinks : forall it c it', next_unchecked it = Ok (c, it') -> (length it' < length it)%nat.
Proof.
  intros it c it' H. destruct it as [|b0 it]; [discriminate|]. unfold next_unchecked in H.
  destruct (sequence_length b0 =? 2).
  { destruct it; [discriminate|]. injection H as _ <-. simpl. lia. }
  destruct (sequence_length b0 =? 3).
  { destruct it as [|? [|? ?]]; try discriminate. injection H as _ <-. simpl. lia. }
  destruct (sequence_length b0 =? 4).
  { destruct it as [|? [|? [|? ?]]]; try discriminate. injection H as _ <-. simpl. lia. }
  injection H as _ <-. simpl. lia.
Qed.

Lemma doUcs4_len : forall n it w, doUcs4FromUtf8 it n = Ok w -> length w = n /\ (n <= length it)%nat.
Proof.
  induction n; intros it w H; cbn [doUcs4FromUtf8] in H.
  - injection H as <-. simpl. lia.
  - destruct (next_unchecked it) as [[c it']| |] eqn:N; cbn [bind] in H; try discriminate.
    destruct (doUcs4FromUtf8 it' n) as [r| |] eqn:D; cbn [bind] in H; try discriminate. injection H as <-.
    apply next_unchecked_shrinks in N. apply IHn in D. simpl. lia.
Qed.

Lemma ucs4_max_len : forall bytes m w, ucs4FromUtf8_max bytes m = Ok (Some w) -> (length w <= length bytes)%nat.
Proof.
  intros bytes m w H. unfold ucs4FromUtf8_max in H. destruct (_ <? _)%nat.
  - destruct (doUcs4FromUtf8 bytes m) eqn:D; cbn [bind] in H; try discriminate. injection H as ->.
    apply doUcs4_len in D. lia.
  - destruct (distance bytes) as [[k|]| |]; cbn [bind] in H; try discriminate.
    destruct (doUcs4FromUtf8 bytes _) eqn:D; cbn [bind] in H; try discriminate. injection H as ->.
    apply doUcs4_len in D. lia.
Qed.

Lemma cstr_loop_safe : forall fuel d bytes len m, Forall byte bytes ->
  (length bytes + 5 < m * 2 ^ (fuel - 1))%nat -> (0 < fuel)%nat ->
  exists t n, cstr_loop fuel d bytes len m = Ok (t, n) /\ (t = TOKEN_NONE \/ (0 < n <= length bytes)%nat).
Proof.
  induction fuel; intros d bytes len m B F FP; [lia|]. cbn [cstr_loop]. unfold doNextTokenCstr.
  destruct (ucs4FromUtf8_max_safe bytes m B) as [o E]. rewrite E. cbn [bind].
  destruct o as [w|]; cbn [bind].
  - destruct (nextToken_spec d (cstr w)) as (t & n & EQ & OK & LE & NE). rewrite EQ. cbn [bind].
    apply ucs4_max_len in E. pose proof (cstr_length w) as CL.
    destruct (is_none t) eqn:IN; cbn [orb].
    + exists t, n. split; auto. left. destruct t; auto; discriminate.
    + assert (cstr w <> []) as X.
      { intros Q. rewrite Q in OK, EQ. simpl in EQ. injection EQ as <- <-. discriminate. }
      specialize (NE X). destruct (Nat.ltb_spec (n + 5) m).
      * exists t, n. split; auto. right. lia.
      * destruct fuel; [exfalso; simpl in F; lia|]. apply IHfuel; auto; try lia.
        replace (S fuel - 1)%nat with fuel by lia. replace (S (S fuel) - 1)%nat with (S fuel) in F by lia. simpl in F. lia.
  - exists TOKEN_NONE, len. split; auto.
Qed.

Lemma cstr_safe : forall d bytes, Forall byte bytes ->
  exists t n, nextTokenCstr d bytes = Ok (t, n) /\ (t = TOKEN_NONE \/ (0 < n <= length bytes)%nat).
Proof.
  intros d bytes B. unfold nextTokenCstr. apply cstr_loop_safe; auto; try lia.
  replace (length bytes + 1 - 1)%nat with (length bytes) by lia. pose proof (pow2_gt (length bytes)). lia.
Qed.

(** ** Effect of [ignore_dot] *)
Lemma word_loop_dot : forall text n i pn sl, (i + n = length text)%nat ->
  exists r, word_loop false text n i pn sl = Ok r /\
   (word_loop true text n i pn sl = Ok r \/
    (word_loop true text n i pn sl = Ok (S r) /\ nth_error text r = Some 0x2E)).
Proof.
  intros text. induction n; intros i pn sl L; cbn [word_loop].
  - eexists; split; [reflexivity|]. auto.
  - destruct (rd_lt _ text i ltac:(lia)) as (c & R & E). rewrite R. cbn [bind].
    assert (forall k, exists r, Ok k = Ok r /\ (Ok k = Ok r \/ Ok k = Ok (S r) /\ nth_error text r = Some 0x2E)) as D by (intros; eexists; eauto).
    assert (forall a b, exists r, word_loop false text n (S i) a b = Ok r /\
      (word_loop true text n (S i) a b = Ok r \/ (word_loop true text n (S i) a b = Ok (S r) /\ nth_error text r = Some 0x2E))) as IH
      by (intros; apply IHn; lia).
    assert (c = 0x2E -> exists r, Ok (i + 0)%nat = Ok r /\ (Ok (i + 1)%nat = Ok r \/ Ok (i + 1)%nat = Ok (S r) /\ nth_error text r = Some 0x2E)) as A.
    { intros ->. exists i. split; [f_equal; lia|]. right. split; auto. f_equal; lia. }
    assert (Nat.eqb (i + 1) (length text) = false -> exists x, rd text (i + 1) = Ok x) as RD.
    { intros Q. apply eqb_len in Q; [|lia]. destruct (rd_lt _ text (i + 1) Q) as (x & Rx & _). eauto. }
    destruct (get_char_type c) eqn:T; auto.
    destruct ((c =? 0x27) || (c =? 0x2019) || (c =? 0x3A)).
    { destruct (Nat.eqb (i + 1) (length text)); auto. destruct (RD eq_refl) as [x ->]. cbn [bind]. destruct (get_char_type x); auto. }
    destruct ((c =? 0x2D) || (c =? 0xAD) || (c =? 0x2010) || (c =? 0x2011)).
    { destruct (Nat.eqb (i + 1) (length text)); auto. destruct (RD eq_refl) as [x ->]. cbn [bind].
      destruct (isFinnishQuotationMark x); auto. destruct (get_char_type x); auto. destruct (x =? 0x2C); auto. }
    destruct (Z.eqb_spec c 0x2E).
    { destruct (Nat.eqb (i + 1) (length text)); auto. destruct (RD eq_refl) as [x ->]. cbn [bind].
      destruct (get_char_type x); auto. destruct sl; auto. }
    destruct (c =? 0x2C); auto. destruct (negb pn); auto.
    destruct (Nat.eqb (i + 1) (length text)); auto. destruct (RD eq_refl) as [x ->]. cbn [bind]. destruct (get_char_type x); auto.
Qed.

Lemma word_length_dot : forall text,
  exists r, word_length false text = Ok r /\
   (word_length true text = Ok r \/ (word_length true text = Ok (S r) /\ nth_error text r = Some 0x2E)).
Proof.
  intros text. unfold word_length. destruct (findUrl_spec text) as (u & -> & _). cbn [bind].
  destruct (negb (Nat.eqb u 0)); [eexists; eauto|]. apply word_loop_dot. lia.
Qed.

Lemma nextToken_dot : forall text, exists t n t' n',
  nextToken false text = Ok (t, n) /\ nextToken true text = Ok (t', n') /\
  ((t' = t /\ n' = n) \/
   (t = TOKEN_WORD /\ t' = TOKEN_WORD /\ n' = S n /\ nth_error text n = Some 0x2E) \/
   (t = TOKEN_PUNCTUATION /\ n = 1%nat /\ t' = TOKEN_WORD /\ n' = 2%nat /\ nth_error text 1 = Some 0x2E)).
Proof.
  intros text. unfold nextToken. destruct (Nat.eqb_spec (length text) 0).
  { do 4 eexists. split; [reflexivity|]. split; [reflexivity|]. auto. }
  destruct (rd_lt _ text 0 ltac:(lia)) as (c & R & E). rewrite R. cbn [bind].
  destruct (get_char_type c) eqn:T.
  - do 4 eexists. split; [reflexivity|]. split; [reflexivity|]. auto.
  - destruct (word_length_dot text) as (r & -> & [->|[-> D]]); cbn [bind]; do 4 eexists; (split; [reflexivity|]); (split; [reflexivity|]); auto.
    right. left. auto.
  - destruct (word_length_dot text) as (r & -> & [->|[-> D]]); cbn [bind]; do 4 eexists; (split; [reflexivity|]); (split; [reflexivity|]); auto.
    right. left. auto.
  - destruct (ws_loop_spec text (length text - 1) 1 ltac:(lia)) as (r & -> & _).
    { destruct text; simpl in *; [congruence|]. constructor; auto. injection E as ->. apply class_ws; auto. }
    cbn [bind]. do 4 eexists. split; [reflexivity|]. split; [reflexivity|]. auto.
  - destruct (wcschr [45; 8208; 8209] c).
    + destruct (Nat.eqb_spec (length text) 1). { do 4 eexists. split; [reflexivity|]. split; [reflexivity|]. auto. }
      destruct (word_length_dot (tl text)) as (r & -> & [->|[-> D]]); cbn [bind].
      * destruct (Nat.eqb r 0); do 4 eexists; (split; [reflexivity|]); (split; [reflexivity|]); auto.
      * assert (nth_error text (S r) = Some 0x2E) as D'. { destruct text; simpl in *; auto. destruct r; discriminate. }
        destruct (Nat.eqb_spec r 0).
        -- subst r. do 4 eexists; (split; [reflexivity|]); (split; [reflexivity|]). right. right. auto.
        -- do 4 eexists; (split; [reflexivity|]); (split; [reflexivity|]). right. left. repeat split; auto. replace (r + 1)%nat with (S r) by lia. auto.
    + destruct (length text <? 3)%nat eqn:L3; cbn [bind]. { do 4 eexists. split; [reflexivity|]. split; [reflexivity|]. auto. }
      apply Nat.ltb_ge in L3.
      destruct (c =? 0x2E); cbn [negb bind]. 2:{ do 4 eexists. split; [reflexivity|]. split; [reflexivity|]. auto. }
      destruct (rd_lt _ text 1 ltac:(lia)) as (c1 & -> & _). cbn [bind].
      destruct (c1 =? 0x2E); cbn [negb bind]. 2:{ do 4 eexists. split; [reflexivity|]. split; [reflexivity|]. auto. }
      destruct (rd_lt _ text 2 ltac:(lia)) as (c2 & -> & _). cbn [bind].
      destruct (c2 =? 0x2E); do 4 eexists; (split; [reflexivity|]); (split; [reflexivity|]); auto.
Qed.

(** ** Token sequences *)
Lemma token_seq_exists : forall d text, exists toks, token_seq (nextToken d) text toks.
Proof.
  intros d text. remember (length text) as n eqn:N. revert text N.
  induction n as [n IH] using lt_wf_ind. intros text N.
  destruct (nextToken_spec d text) as (t & k & E & OK & LE & NE).
  destruct text as [|c text'].
  - exists []. eapply seq_end. reflexivity.
  - destruct (NE ltac:(discriminate)) as [T K].
    destruct (IH (length (skipn k (c :: text')))) with (text := skipn k (c :: text')) as [toks S]; auto.
    { rewrite skipn_length. cbn [length] in *. lia. }
    eexists. eapply seq_step; eauto.
Qed.

Lemma token_seq_unique : forall next text a b, token_seq next text a -> token_seq next text b -> a = b.
Proof.
  intros next text a b H. revert b. induction H; intros b B; inversion B; subst; auto; try congruence.
  rewrite H in H2. injection H2 as -> ->. f_equal. apply IHtoken_seq. auto.
Qed.

Lemma token_seq_concat : forall d text toks, token_seq (nextToken d) text toks ->
  concat (map snd toks) = text /\ Forall (fun tk => snd tk <> []) toks.
Proof.
  intros d text toks H. induction H.
  - destruct (nextToken_spec d text) as (t & k & E & OK & LE & NE).
    rewrite H in E. injection E as <- <-. destruct OK as [-> _]. split; auto.
  - destruct IHtoken_seq as [C F]. cbn [map snd concat]. rewrite C, firstn_skipn. split; auto. constructor; auto. cbn [snd].
    destruct (nextToken_spec d text) as (t' & k & E & OK & LE & NE). rewrite H in E. injection E as <- <-.
    destruct text; [simpl in *|].
    + simpl in H. injection H as <- <-. congruence.
    + destruct (NE ltac:(discriminate)). destruct n; [lia|]. discriminate.
Qed.
