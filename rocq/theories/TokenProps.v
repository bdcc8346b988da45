(** * Properties of the tokenizer (C03-C06, C47). *)
From Verif Require Import Base BaseFacts CharModel TokenModel TokenSpec Utf8Model Utf8Spec TokenProofs.

(** C03: for every text and either setting of ignore_dot, repeated calls
    produce exactly one finite sequence of tokens; all tokens are non-empty and
    they concatenate to the text. *)
Theorem C03_tokens_partition : forall ignore_dot text,
  exists toks, token_seq (nextToken ignore_dot) text toks /\
    (forall toks', token_seq (nextToken ignore_dot) text toks' -> toks' = toks) /\
    concat (map snd toks) = text /\
    Forall (fun tk => snd tk <> []) toks.
Proof.
  intros d text. destruct (token_seq_exists d text) as [toks H]. exists toks. split; auto.
  split; [intros; eapply token_seq_unique; eauto|]. eapply token_seq_concat; eauto.
Qed.
Print Assumptions C03_tokens_partition.
Example C03_tokens_partition_ex :
  token_seq (nextToken false) (wstr "a-b: c...")
    [(TOKEN_WORD, wstr "a-b"); (TOKEN_PUNCTUATION, wstr ":"); (TOKEN_WHITESPACE, wstr " ");
     (TOKEN_WORD, wstr "c"); (TOKEN_PUNCTUATION, wstr "...")].
Proof.
  eapply seq_step with (n := 3%nat); [reflexivity|discriminate|].
  eapply seq_step with (n := 1%nat); [reflexivity|discriminate|].
  eapply seq_step with (n := 1%nat); [reflexivity|discriminate|].
  eapply seq_step with (n := 1%nat); [reflexivity|discriminate|].
  eapply seq_step with (n := 3%nat); [reflexivity|discriminate|].
  eapply seq_end; reflexivity.
Qed.

(** C03: TOKEN_NONE is the answer for the empty text and only for it. *)
Theorem C03_none_iff_empty : forall ignore_dot text n,
  nextToken ignore_dot text = Ok (TOKEN_NONE, n) <-> text = [] /\ n = 0%nat.
Proof.
  intros d text n. split; [intros H|intros [-> ->]; reflexivity].
  destruct (nextToken_spec d text) as (t & k & E & OK & LE & NE). rewrite H in E. injection E as <- <-. exact OK.
Qed.
Print Assumptions C03_none_iff_empty.

(** C04: no access outside the [textlen] characters happens (such an access is
    [UB] in the model), and the returned length is within the text. *)
Theorem C04_tokenizer_in_bounds : forall ignore_dot text,
  exists t n, nextToken ignore_dot text = Ok (t, n) /\ (n <= length text)%nat /\ (text <> [] -> (1 <= n)%nat).
Proof.
  intros d text. destruct (nextToken_spec d text) as (t & k & E & OK & LE & NE).
  exists t, k. split; auto. split; auto. intros X. apply NE in X. lia.
Qed.
Print Assumptions C04_tokenizer_in_bounds.
Example C04_tokenizer_in_bounds_ex : (* text ending in the middle of lookahead *)
  nextToken false (wstr "abc'") = Ok (TOKEN_WORD, 3%nat) /\ nextToken true (wstr "abc.") = Ok (TOKEN_WORD, 4%nat).
Proof. split; reflexivity. Qed.

(** C04 for the UTF-8 entry point: any byte string whatsoever is handled
    without undefined behaviour and in finitely many rounds. *)
Theorem C04_tokenizer_utf8_in_bounds : forall ignore_dot bytes, Forall byte bytes ->
  exists t n, nextTokenCstr ignore_dot bytes = Ok (t, n) /\ (t = TOKEN_NONE \/ (1 <= n <= length bytes)%nat).
Proof.
  intros d bytes B. destruct (cstr_safe d bytes B) as (t & n & E & H). exists t, n. split; auto.
Qed.
Print Assumptions C04_tokenizer_utf8_in_bounds.
Example C04_tokenizer_utf8_in_bounds_ex : nextTokenCstr false [0x61; 0xE4] = Ok (TOKEN_NONE, 0%nat).
Proof. reflexivity. Qed.

(** C05: each token is of the kind its type says. *)
Theorem C05_token_classes : forall ignore_dot text t n,
  nextToken ignore_dot text = Ok (t, n) -> token_ok text t n.
Proof.
  intros d text t n H. destruct (nextToken_spec d text) as (t' & k & E & OK & LE & NE).
  rewrite H in E. injection E as <- <-. exact OK.
Qed.
Print Assumptions C05_token_classes.
Example C05_token_classes_ex :
  nextToken false (wstr "  x") = Ok (TOKEN_WHITESPACE, 2%nat) /\ nextToken false (wstr "<x") = Ok (TOKEN_UNKNOWN, 1%nat) /\
  nextToken false (wstr "..x") = Ok (TOKEN_PUNCTUATION, 1%nat) /\ nextToken false (wstr "-foo bar") = Ok (TOKEN_WORD, 4%nat) /\
  nextToken false (wstr "3,14 ") = Ok (TOKEN_WORD, 4%nat) /\ nextToken false (wstr "a.b@c.fi. ") = Ok (TOKEN_WORD, 8%nat).
Proof. repeat split; reflexivity. Qed.

(** C05: two consecutive tokens are never both whitespace. *)
Theorem C05_no_adjacent_whitespace : forall ignore_dot text n m,
  nextToken ignore_dot text = Ok (TOKEN_WHITESPACE, n) ->
  nextToken ignore_dot (skipn n text) = Ok (TOKEN_WHITESPACE, m) -> False.
Proof.
  intros d text n m H1 H2. apply C05_token_classes in H1.
  destruct (nextToken_spec d (skipn n text)) as (t' & k & E & OK & LE & NE).
  rewrite H2 in E. injection E as <- <-. destruct OK as [F _].
  destruct (skipn n text) as [|c r] eqn:S.
  - simpl in H2. discriminate.
  - destruct (NE ltac:(discriminate)) as [_ P]. destruct m; [lia|]. simpl in F. inversion F; subst.
    destruct H1 as [_ N]. apply (N c); auto.
    rewrite <- (Nat.add_0_r n), <- nth_error_skipn, S. reflexivity.
Qed.
Print Assumptions C05_no_adjacent_whitespace.
Example C05_no_adjacent_whitespace_ex : nextToken false (wstr "  a ") = Ok (TOKEN_WHITESPACE, 2%nat).
Proof. reflexivity. Qed.

(** C06, proved part: on well-formed, NUL-free UTF-8 text both entry points
    agree when the text is at most 50 characters long, or contains no '@', or
    has whitespace among its first 50 characters.  Missing: long runs without
    whitespace that contain '@' (see the refutation below). *)
Theorem C06_utf8_agrees_partial : forall ignore_dot bytes w, encodes bytes w -> ~ In 0 w ->
  ((length w <= 50)%nat \/ ~ In 0x40 w \/
   (exists k c, (k < 50)%nat /\ nth_error w k = Some c /\ whitespace c)) ->
  nextTokenCstr ignore_dot bytes = nextToken ignore_dot w.
Proof.
  intros d bytes w [E ->] Z C. apply cstr_agree; auto.
Qed.
Print Assumptions C06_utf8_agrees_partial.
Example C06_utf8_agrees_partial_ex : (* 60 a-umlauts followed by a colon: 121 bytes *)
  encodes (utf8_text (repeat 0xE4 60 ++ [0x3A])) (repeat 0xE4 60 ++ [0x3A]) /\
  nextTokenCstr false (utf8_text (repeat 0xE4 60 ++ [0x3A])) = Ok (TOKEN_WORD, 60%nat).
Proof.
  split; [|vm_compute; reflexivity]. split; [|auto]. apply Forall_app. split.
  - apply Forall_forall. intros x Hx. apply repeat_spec in Hx. subst. unfold encodable. lia.
  - constructor; [unfold encodable; lia|constructor].
Qed.

(** C06, full claim is false: an e-mail address longer than 50 characters is
    one word for the wide entry point; the UTF-8 entry point cuts the text at
    50 characters, no longer recognises the address and stops at the '+'. *)
Theorem C06_utf8_agrees_refuted :
  ~ (forall ignore_dot bytes w, encodes bytes w -> ~ In 0 w ->
       nextTokenCstr ignore_dot bytes = nextToken ignore_dot w).
Proof.
  intros H. specialize (H false (utf8_text (wstr "a+aaaaaaaaaaaaaaaaaaaaaaaaaaaaaaaaaaaaaaaaaaaaaaaaaaaaaaaa@example.com"))
     (wstr "a+aaaaaaaaaaaaaaaaaaaaaaaaaaaaaaaaaaaaaaaaaaaaaaaaaaaaaaaa@example.com")).
  assert (nextTokenCstr false (utf8_text (wstr "a+aaaaaaaaaaaaaaaaaaaaaaaaaaaaaaaaaaaaaaaaaaaaaaaaaaaaaaaa@example.com")) =
          nextToken false (wstr "a+aaaaaaaaaaaaaaaaaaaaaaaaaaaaaaaaaaaaaaaaaaaaaaaaaaaaaaaa@example.com")) as E.
  { apply H.
    - split; auto. apply Forall_forall. intros x Hx. cbv in Hx. unfold encodable.
      repeat (destruct Hx as [Hx|Hx]; [subst; lia|]). destruct Hx.
    - intros Hx. cbv in Hx. repeat (destruct Hx as [Hx|Hx]; [discriminate|]). destruct Hx. }
  vm_compute in E. discriminate.
Qed.
Print Assumptions C06_utf8_agrees_refuted.

(** C06, second half is false as well: a malformed byte far behind the first
    token goes unnoticed. *)
Theorem C06_malformed_rejected_refuted :
  exists bytes, Forall byte bytes /\ (forall w, ~ encodes bytes w) /\
    nextTokenCstr false bytes = Ok (TOKEN_WORD, 1%nat).
Proof.
  exists (wstr "a " ++ repeat 0x61 300 ++ [0xFF]). split; [|split].
  - apply Forall_forall. intros x Hx. rewrite !in_app_iff in Hx.
    destruct Hx as [Hx|[Hx|Hx]].
    + cbv in Hx. unfold byte. repeat (destruct Hx as [Hx|Hx]; [subst; lia|]). destruct Hx.
    + apply repeat_spec in Hx. subst. unfold byte. lia.
    + destruct Hx as [<-|[]]. unfold byte. lia.
  - intros w [E Q].
    assert (Forall (fun b => b <= 247) (utf8_text w)) as B.
    { clear Q. induction E; [constructor|]. unfold utf8_text in *. cbn [map concat]. apply Forall_app. split; auto.
      unfold encodable in H. unfold rfc3629.
      assert (forall a, a mod 64 < 64) by (intros; apply Z.mod_pos_bound; lia).
      assert (x / 64 < 32 \/ 2048 <= x) by (destruct (Z.lt_ge_cases x 2048); auto; left; apply Z.div_lt_upper_bound; lia).
      assert (x / 4096 < 16 \/ 65536 <= x) by (destruct (Z.lt_ge_cases x 65536); auto; left; apply Z.div_lt_upper_bound; lia).
      assert (x / 262144 < 5) by (apply Z.div_lt_upper_bound; lia).
      repeat match goal with H : forall _, _ |- _ => pose proof (H x); pose proof (H (x / 64)); pose proof (H (x / 4096)); clear H end.
      destruct (Z.ltb_spec x 128); [repeat constructor; lia|].
      destruct (Z.ltb_spec x 2048); [repeat constructor; lia|].
      destruct (Z.ltb_spec x 65536); repeat constructor; lia. }
    rewrite <- Q in B. rewrite Forall_forall in B. specialize (B 255).
    assert (255 <= 247); [|lia]. apply B. rewrite !in_app_iff. right. right. simpl. auto.
  - vm_compute. reflexivity.
Qed.
Print Assumptions C06_malformed_rejected_refuted.

(** C47: IGNORE_DOT only decides whether a trailing dot belongs to the word.
    Compared with the option off, the first token is the same, or it is a word
    extended by exactly one '.', or a lone hyphen before a dot becomes the word
    consisting of the hyphen and the dot. *)
Theorem C47_ignore_dot_effect : forall text, exists t n t' n',
  nextToken false text = Ok (t, n) /\ nextToken true text = Ok (t', n') /\
  ((t' = t /\ n' = n) \/
   (t = TOKEN_WORD /\ t' = TOKEN_WORD /\ n' = S n /\ nth_error text n = Some 0x2E) \/
   (t = TOKEN_PUNCTUATION /\ n = 1%nat /\ t' = TOKEN_WORD /\ n' = 2%nat /\ nth_error text 1 = Some 0x2E)).
Proof. exact nextToken_dot. Qed.
Print Assumptions C47_ignore_dot_effect.
Example C47_ignore_dot_effect_ex :
  nextToken false (wstr "esim. a") = Ok (TOKEN_WORD, 4%nat) /\ nextToken true (wstr "esim. a") = Ok (TOKEN_WORD, 5%nat) /\
  nextToken false (wstr "-. a") = Ok (TOKEN_PUNCTUATION, 1%nat) /\ nextToken true (wstr "-. a") = Ok (TOKEN_WORD, 2%nat).
Proof. repeat split; reflexivity. Qed.
