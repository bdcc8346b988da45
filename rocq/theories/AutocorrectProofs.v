(** * Safety of the autocorrect rules. *)
From Verif Require Import Base BaseFacts CharModel TokenModel SpellerBase SentenceModel AnalysisModel AnalyzerBase Utf8Model GcCacheModel
  ParaModel RulesModel ParaLoops RulesProofs.

(** Boundaries in normalized and original positions: the original advances at
    least as much as the normalized. *)
Fixpoint ladder (n0 o0 : nat) (l : list (nat * nat)) : Prop :=
  match l with
  | [] => True
  | (n, o) :: r => (n0 <= n)%nat /\ (o0 <= o)%nat /\ (n + o0 <= o + n0)%nat /\ ladder n o r
  end.

Lemma correction_ok : forall l n1 o1 corr sp pl D, ladder n1 o1 l -> (n1 <= o1)%nat -> (corr <= o1 - n1)%nat ->
  (forall n o, In (n, o) ((n1, o1) :: l) -> (o - n <= D)%nat) ->
  exists c, length_correction l (Some (n1, o1)) sp pl corr = Ok c /\ (c <= D)%nat.
Proof.
  induction l as [|[n o] l IH]; intros n1 o1 corr sp pl D L NO C M; cbn [length_correction].
  { exists corr. split; [reflexivity|]. specialize (M n1 o1 ltac:(left; auto)). lia. }
  destruct L as (A & B & E & L).
  assert ((if (o <=? sp)%nat then usub o n else Ok corr) = Ok (if (o <=? sp)%nat then (o - n)%nat else corr)) as ->.
  { destruct (o <=? sp)%nat; [apply usub_ok; lia|reflexivity]. }
  cbn [bind]. destruct (sp + pl <? n)%nat eqn:Q.
  - replace (o <=? sp)%nat with false by lia. rewrite usub_ok by lia. cbn [bind]. rewrite usub_ok by lia. eexists. split; [reflexivity|].
    specialize (M n1 o1 ltac:(left; auto)). lia.
  - apply IH; auto; [lia| |].
    + destruct (o <=? sp)%nat; lia.
    + intros n' o' I. apply M. right. auto.
Qed.

Lemma filter_length_le : forall A (f : A -> bool) l, (length (filter f l) <= length l)%nat.
Proof. induction l as [|x l IH]; cbn; auto. destruct (f x); cbn; lia. Qed.

Lemma collect_ok : forall toks lf first norm orig, Forall (fun t => g_str t <> []) toks ->
  (lf = true -> first = true -> forall t, hd_error toks = Some t -> ~ In 0 (g_str t)) ->
  exists r, collect lf first toks norm orig = Ok r /\
    forall a, r = Some a -> ladder norm orig (ac_bounds a) /\
      exists N, (N + orig <= norm + (orig + tlen toks))%nat /\
        forall n o, In (n, o) ((norm, orig) :: ac_bounds a) -> (n <= N)%nat /\ (o + N <= orig + tlen toks + n)%nat.
Proof.
  induction toks as [|t r IH]; intros lf first norm orig F Z; cbn [collect].
  { eexists. split; [reflexivity|]. intros a [= <-]. cbn [ac_bounds]. split; [exact I|]. exists norm. split; [lia|].
    intros n o [[= <- <-]|[]]. unfold tlen. cbn. lia. }
  inversion F as [|? ? Ft Fr]; subst. apply nonempty_len in Ft as FL.
  assert (exists w, (if is_space t then Ok (if BUFFER_SIZE <=? Z.of_nat norm then None else Some [0x20])
            else if BUFFER_SIZE <=? Z.of_nat (norm + tokenlen t) then Ok None
            else str <- token_string lf first t ;; Ok (Some (filter kept str))) = Ok w /\ forall w', w = Some w' -> (length w' <= tokenlen t)%nat) as (w & -> & LW).
  { destruct (is_space t). { eexists. split; [reflexivity|]. intros w'. destruct (_ <=? _); [discriminate|]. intros [= <-]. cbn. lia. }
    destruct (_ <=? _). { eexists. split; [reflexivity|]. discriminate. }
    assert (exists str, token_string lf first t = Ok str /\ (length str <= tokenlen t)%nat) as (str & -> & LS).
    { unfold token_string. destruct (lf && first) eqn:Q; [|exists (g_str t); split; [reflexivity|unfold tokenlen; lia]].
      apply andb_true_iff in Q. destruct Q as (-> & ->). specialize (Z eq_refl eq_refl t eq_refl).
      rewrite cstr_no_nul by auto. unfold tokenlen in *. destruct (g_str t) as [|c s]; [cbn in FL; lia|]. cbv zeta.
      replace (length (c :: s) <=? length (lower c :: s ++ [0%Z]))%nat with true by (cbn [length]; rewrite app_length; cbn [length]; lia).
      eexists. split; [reflexivity|]. rewrite firstn_length. lia. }
    cbn [bind]. eexists. split; [reflexivity|]. intros w' [= <-].
    pose proof (filter_length_le _ kept str). lia. }
  cbn [bind]. destruct w as [w|]; [|eexists; split; [reflexivity|discriminate]]. specialize (LW w eq_refl). cbv zeta.
  destruct (IH lf false (norm + length w)%nat (orig + tokenlen t)%nat Fr ltac:(discriminate)) as (x & E & P). rewrite E. cbn [bind].
  destruct x as [a|]; (eexists; split; [reflexivity|]); [|discriminate]. intros a' [= <-]. cbn [ac_bounds].
  destruct (P a eq_refl) as (LA & N & HN & HM). rewrite tlen_cons. split; [cbn [ladder]; repeat split; auto; lia|].
  exists N. split; [lia|]. intros n o [[= <- <-]|I].
  - destruct (HM (norm + length w)%nat (orig + tokenlen t)%nat ltac:(left; auto)). lia.
  - destruct (HM n o I). lia.
Qed.

(** Every match of the transducer consumes something. *)
Definition consuming (tr : prefix_lookup) : Prop := forall input out n, tr input = Some (out, n) -> (0 < n)%nat.

Lemma autocorrect_loop_ok : forall tr s lf a hi starts, consuming tr -> s_tokens s <> [] -> ladder 0 0 (ac_bounds a) ->
  (exists N, (N <= tlen (s_tokens s))%nat /\ forall n o, In (n, o) ((0, 0)%nat :: ac_bounds a) -> (n <= N)%nat /\ (o + N <= tlen (s_tokens s) + n)%nat) ->
  (s_pos s + tlen (s_tokens s) <= hi)%nat ->
  exists l b, autocorrect_loop tr s lf a starts = Ok (l, b) /\ Forall (fits hi) l.
Proof.
  intros tr s lf a hi starts TR NE LA (N & HN & HM) H. induction starts as [|[p u] starts IH]; cbn [autocorrect_loop].
  { eexists _, _. split; [reflexivity|constructor]. }
  destruct (lf && (0 <? p)%nat); [eexists _, _; split; [reflexivity|constructor]|].
  destruct IH as (l & b & E & F).
  destruct (tr (skipn p (ac_buffer a))) as [[out k]|] eqn:T.
  2:{ destruct (s_tokens s) as [|f q]; [congruence|]. change (rd (f :: q) 0) with (Ok f). cbn [bind]. rewrite E. cbn [bind]. eexists _, _. split; [reflexivity|auto]. }
  apply TR in T. cbv zeta.
  destruct (existsb (fun b0 => Nat.eqb (u + k) (fst b0)) ((0, 0)%nat :: ac_bounds a)) eqn:X; cbn [negb]; [|eexists _, _; split; [exact E|auto]].
  apply existsb_exists in X. destruct X as ([n o] & I & X). cbn [fst] in X. apply Nat.eqb_eq in X. destruct (HM n o I) as (M1 & M2).
  assert (exists c, length_correction ((0, 0)%nat :: ac_bounds a) None (s_pos s + u) k 0 = Ok c /\ (c <= tlen (s_tokens s) - N)%nat) as (c & -> & C).
  { cbn [length_correction]. replace (0 <=? s_pos s + u)%nat with true by lia. rewrite usub_ok by lia. cbn [bind].
    replace (s_pos s + u + k <? 0)%nat with false by lia. apply correction_ok; auto; try lia.
    intros n' o' I'. destruct (HM n' o' I'). lia. }
  cbn [bind]. match goal with |- context [suggestion ?x] => destruct (suggestion_ok x) as (sg & ->) end. cbn [bind]. rewrite E. cbn [bind].
  eexists _, _. split; [reflexivity|]. constructor; [|auto]. fit.
Qed.

Lemma autocorrect_fits : forall tr s hi, consuming tr -> s_tokens s <> [] -> Forall (fun t => g_str t <> []) (s_tokens s) ->
  Forall (fun t => ~ In 0 (g_str t)) (s_tokens s) -> (s_pos s + tlen (s_tokens s) <= hi)%nat ->
  exists l, autocorrect tr s = Ok l /\ Forall (fits hi) l.
Proof.
  intros tr s hi TR NE F Z H.
  assert (forall lf, exists l b, autocorrect_pass tr s lf = Ok (l, b) /\ Forall (fits hi) l) as P.
  { intros lf. unfold autocorrect_pass. destruct (collect_ok (s_tokens s) lf true 0 0 F) as (r & -> & R).
    { intros _ _ t E. destruct (s_tokens s) as [|f q]; [discriminate|]. cbn in E. injection E as <-. inversion Z; auto. }
    cbn [bind]. destruct r as [a|]; [|eexists _, _; split; [reflexivity|constructor]]. destruct (R a eq_refl) as (LA & N & HN & HM).
    apply autocorrect_loop_ok; auto. exists N. split; [lia|]. intros n o I. destruct (HM n o I). lia. }
  unfold autocorrect. destruct (P false) as (l & b & -> & Fl). cbn [bind]. destruct b; [|eauto].
  destruct (P true) as (l2 & b2 & -> & F2). cbn [bind]. eexists. split; [reflexivity|]. apply Forall_app. auto.
Qed.
