(** * The search for corrections with an error model and a dictionary. *)
From Coq Require Import Sorted.
From Verif Require Import Base BaseFacts CharModel CacheModel AnalysisModel SpellerBase SuggestModel FstModel FstFileModel FstSpec FstProofs FstPaths FstLookup FstProps WfstModel WfstSpec
  WfstProofs WfstPaths WfstLookup WfstReach WfstProps VfstModel VfstSpec VfstProofs.

Ltac wproj := cbn [wc_size wc_stackDepth wc_flagDepth wc_inputDepth wc_states wc_transitions wc_inputs wc_outputs wc_flags wc_inputLength].

(** ** Paths are in order *)
Lemma before_irrefl : forall p, ~ before p p.
Proof. induction p as [|i p IH]; intros B; inversion B; subst; [lia|auto]. Qed.

Lemma path_total : forall T, firstNormalChar T < FINAL -> forall q fl w p out rest, path T q fl w p out rest -> forall fl' w' p' out' rest', path T q fl' w' p' out' rest' ->
  p = p' \/ before p p' \/ before p' p.
Proof.
  assert (FUN : forall T q i t u, has_transition T q i t -> has_transition T q i u -> t = u).
  { intros T q i t u (_ & _ & _ & _ & _ & N1) (_ & _ & _ & _ & _ & N2). congruence. }
  intros T TN. induction 1; intros fl2 w2 p' out' rest' P';
    (inversion P'; subst;
     match goal with |- ?i :: _ = ?j :: _ \/ _ => destruct (lt_eq_lt_dec i j) as [[LT|EQ]|LT]; [right; left; now apply before_here| |right; right; now apply before_here] end;
     subst; match goal with X : has_transition _ _ _ ?t, Y : has_transition _ _ _ ?u |- _ => tryif constr_eq t u then fail else assert (t = u) by (eapply FUN; eassumption); subst t end;
     try (exfalso; congruence); try (exfalso; unfold FINAL in *; lia)).
  all: try (now left).
  all: match goal with IH : forall fl' w' p' out' rest', path _ _ fl' w' p' out' rest' -> _, P : path _ _ _ _ ?p2 _ _ |- _ :: ?p1 = _ :: ?p2 \/ _ =>
         destruct (IH _ _ _ _ _ P) as [->|[B|B]]; [now left|right; left; now apply before_later|right; right; now apply before_later] end.
Qed.

Lemma first_weight_fun : forall A u w w', w_firstNormalChar A < FINAL -> first_weight A u w -> first_weight A u w' -> w = w'.
Proof.
  intros A u w w' N (q & o & Q1 & -> & Q2) (q' & o' & Q1' & -> & Q2').
  destruct (path_total (forget A) N _ _ _ _ _ _ Q1 _ _ _ _ _ Q1') as [->|[B|B]]; [reflexivity| |]; exfalso; [exact (Q2' _ _ Q1 B)|exact (Q2 _ _ Q1' B)].
Qed.

(** ** A number for each position, to show that the search goes forward *)
Fixpoint code (b n : nat) (p : list nat) : nat :=
  match n, p with
  | S n, x :: p => (S x * b ^ n + code b n p)%nat
  | _, _ => 0%nat
  end.

Lemma code_bound : forall b n p, Forall (fun x => (S x < b)%nat) p -> (0 < b)%nat -> (code b n p < b ^ n)%nat.
Proof.
  intros b. induction n as [|n IH]; intros p F B; cbn [code Nat.pow]; [lia|]. pose proof (Nat.pow_nonzero b n ltac:(lia)). destruct p as [|x p]; [nia|].
  inversion F; subst. specialize (IH p H3 B). assert (S x * b ^ n + b ^ n <= b * b ^ n)%nat by nia. lia.
Qed.

Lemma code_before : forall b p q, before p q -> forall n, Forall (fun x => (S x < b)%nat) p -> (length p <= n)%nat -> (length q <= n)%nat -> (0 < b)%nat ->
  (code b n p < code b n q)%nat.
Proof.
  intros b. induction 1 as [i j p q L|i p q H IH]; intros n F L1 L2 B; (destruct n as [|n]; [cbn in L1; lia|]); cbn [code length] in *; inversion F; subst.
  - pose proof (code_bound b n p H2 B). assert (S i * b ^ n + b ^ n <= S j * b ^ n)%nat by nia. lia.
  - specialize (IH n H3 ltac:(lia) ltac:(lia) B). lia.
Qed.

Lemma code_append : forall b p x n, (length p < n)%nat -> (0 < b)%nat -> (code b n p < code b n (p ++ [x]))%nat.
Proof.
  intros b. induction p as [|y p IH]; intros x n L B; (destruct n as [|n]; [cbn in L; lia|]); cbn [code length app] in *.
  - pose proof (Nat.pow_nonzero b n ltac:(lia)). nia.
  - specialize (IH x n ltac:(lia) B). lia.
Qed.

Lemma before_last : forall a x y l, (x < y)%nat -> before (a ++ x :: l) (a ++ [y]).
Proof. induction a as [|z a IH]; intros x y l L; cbn [app]; [now apply before_here|apply before_later; auto]. Qed.

(** ** Searching and going back *)
Section Model.
Variable W : wtransducer.
Variable states : nat -> Prop.
Variable word : list Z.
Local Notation T := (forget W).
Hypothesis Wnormal : 0 < w_firstNormalChar W < FINAL.
Hypothesis Wsymbols : forall c s, find_symbol (w_stringToSymbol W) c = Some s -> w_firstNormalChar W <= s < Z.of_nat (length (w_symbolToString W)).
Hypothesis Wunknown : w_firstNormalChar W <= Z.of_nat (length (w_symbolToString W)).
Hypothesis Wepsilon : nth_error (w_symbolToString W) 0 = Some [].
Hypothesis Wstates : forall q, states q -> good_wstate W q /\
  forall i c, has_wtransition W q i c -> good_wtransition W c /\ (w_symIn c <> 0xFFFFFFFF -> states (Z.to_nat (w_target c))).

Local Notation in_state := (in_state T states word).
Local Notation act := (act T word false).
Local Notation chain := (chain T states word false).
Local Notation acc := (acc T word false).
Local Notation covered := (covered T word false).
Local Notation Tst := (Tstates W states Wstates).
Local Notation Tsy := (Tsymbols W Wsymbols).

(** As [wasearch_found], for any property of the paths left behind. *)
Theorem wasearch_covered : forall n bufferLen size fl0 f r reached (D : list nat -> list Z -> nat -> Prop) (ord : Prop) o f' r' reached',
  (ord -> in_file_order W /\ one_flag W) -> chain fl0 f r -> (0 < bufferLen)%nat -> (ord -> covered fl0 f r D) ->
  wasearch n W word bufferLen size f r reached = (o, (f', r'), reached') ->
  match o with
  | WFound out w => chain fl0 f' r' /\ (length out < bufferLen)%nat /\
      exists p strs, w = to_int16 (path_weight W p) /\ acc fl0 p out (length word) /\ Forall2 (has_string T) (osyms T r') strs /\ out = concat strs /\
        (ord -> covered fl0 f' r' (fun p' out' k => D p' out' k \/ (p', out') = (p, out)))
  | WEnd => ord -> forall p out k, acc fl0 p out k -> D p out k
  | _ => True
  end.
Proof.
  induction n as [|n IH]; intros bufferLen size fl0 f r reached D ord o f' r' reached' ORD CH BL CO E; cbn [wasearch] in E; [injection E as <- <- <- <-; exact I|].
  pose proof (chain_in T states word false _ _ _ CH) as IN.
  assert (SK : ord ->
    match wtopscan W word f with
    | Some (i', _, _) => forall j u, (fr_ct f <= j < i')%nat -> has_transition T (fr_state f) j u -> act (fr_flags f) (fr_pos f) u = None
    | None => forall j u, (fr_ct f <= j)%nat -> has_transition T (fr_state f) j u -> act (fr_flags f) (fr_pos f) u = None
    end) by (intros OO; destruct (ORD OO) as [O1 O2]; now apply (wtopscan_skip W states word Wnormal Wsymbols Wunknown Wstates O1 O2)).
  destruct (wtopscan W word f) as [[[i t] [[fl pos]|]]|] eqn:ES.
  - destruct (wtopscan_some W states word Wstates _ _ _ _ IN ES) as (A & B & C & D1 & D2).
    destruct (Nat.eqb (length r + 2) size); [injection E as <- _ _ _; exact I|].
    assert (CS : chain fl0 (set_ct f i) r) by (apply chain_set; assumption).
    eapply IH; [exact ORD| |exact BL| |exact E].
    + eapply chain_push; [exact CS|apply (wtopscan_next W states word Wsymbols Wstates _ _ _ _ _ IN ES)|exact (proj2 B)|exact C|reflexivity].
    + intros OO. apply (covered_down T states word false Wnormal Tsy Wunknown Wepsilon Tst fl0 (set_ct f i) r D (forget_weight t) fl pos); auto; [|exact (proj2 B)].
      apply (covered_move T states word false Wnormal Tsy Wunknown Wepsilon Tst); auto. exact (SK OO).
  - destruct (wtopscan_some W states word Wstates _ _ _ _ IN ES) as (A & B & C & D1 & D2).
    destruct (chain_strings T states word false Wnormal Wepsilon Tst _ _ _ CH) as [strs ST].
    destruct (write_output_spec T states Tsy Tst _ _ bufferLen [] ST BL) as [X|X]; rewrite X in E; injection E as <- <- <- <-; [|exact I].
    assert (CS : chain fl0 (set_ct f i) r) by (apply chain_set; assumption).
    split; [apply chain_set; assumption|]. split; [eapply FstLookup.write_output_length; exact X|]. cbn [app].
    destruct (act_final _ _ _ _ _ _ C) as [_ TP].
    exists (position (set_ct f i) r), strs. split; [reflexivity|]. split; [|split; [exact ST|split; [reflexivity|]]].
    + rewrite <- (TP eq_refl). apply (acc_position W states word Wnormal Wsymbols Wepsilon Wstates fl0 (set_ct f i) r (forget_weight t)); auto. exact (proj2 B).
    + intros OO p' out' k AC BE.
      destruct (covered_final T states word false Wnormal Tsy Wunknown Wepsilon Tst fl0 (set_ct f i) r D (forget_weight t) strs CS) with (p := p') (out := out') (n := k) as [Y|Y]; auto.
      * apply (covered_move T states word false Wnormal Tsy Wunknown Wepsilon Tst); auto. exact (SK OO).
      * exact (proj2 B).
      * right. now injection Y as -> -> _.
  - destruct r as [|g r].
    + injection E as <- <- <- <-. intros OO p out k X.
      pose proof X as (P & _). destruct (path_cons T states Tsy Tst _ _ _ _ _ _ P) as (j & q & -> & _).
      destruct (Nat.lt_ge_cases j (fr_ct f)) as [Y|Y].
      * apply (CO OO); [assumption|]. now apply before_here.
      * exfalso. eapply (no_path T states word false Wnormal Tsy Wunknown Wepsilon Tst fl0 f []); [exact CH|exact X|]. intros u U. eapply (SK OO); eauto.
    + eapply IH; [exact ORD|apply (chain_back T states word false Tsy Tst _ _ _ _ CH)|exact BL| |exact E].
      intros OO. eapply (covered_up T states word false Wnormal Tsy Wunknown Wepsilon Tst); [exact CH|auto|]. exact (SK OO).
Qed.

(** Each step of a search goes forward. *)
Definition digits : nat := (length (wtransitions W) + 2)%nat.

Lemma in_state_digit : forall f, in_state f -> (S (fr_ct f) < digits)%nat.
Proof.
  intros f (Q & _ & _ & _ & CL). destruct (Tst _ Q) as [(last & big & X & L & _) _]. specialize (CL _ _ X).
  unfold forget in L. cbn [transitions] in L. rewrite map_length in L. unfold digits. lia.
Qed.

Lemma chain_digits : forall fl0 f r, chain fl0 f r -> Forall (fun x => (S x < digits)%nat) (position f r).
Proof.
  assert (G : forall fl0 f r, chain fl0 f r -> Forall (fun x => (S x < digits)%nat) (rev (map fr_ct r))).
  { induction 1; cbn [map rev]; [constructor|]. apply Forall_app. split; [assumption|]. constructor; [|constructor]. apply in_state_digit. eapply chain_in; eauto. }
  intros fl0 f r CH. unfold position. apply Forall_app. split; [eauto|]. constructor; [|constructor]. apply in_state_digit. eapply chain_in; eauto.
Qed.

Lemma position_length : forall f r, length (position f r) = S (length r).
Proof. intros f r. unfold position. rewrite app_length, rev_length, map_length. cbn. lia. Qed.

Lemma code_up : forall fl0 f g r size, chain fl0 f (g :: r) -> (length (g :: r) < size)%nat ->
  (code digits size (position f (g :: r)) < code digits size (position (set_ct g (S (fr_ct g))) r))%nat.
Proof.
  intros fl0 f g r size CH L. apply code_before.
  - unfold position. cbn [map rev fr_ct set_ct]. rewrite <- app_assoc. cbn [app]. apply before_last. lia.
  - eapply chain_digits; eauto.
  - rewrite position_length. lia.
  - rewrite position_length. cbn [length] in L. lia.
  - unfold digits. lia.
Qed.

Lemma code_move : forall fl0 f r i size, chain fl0 f r -> (length r < size)%nat -> (fr_ct f <= i)%nat ->
  (code digits size (position f r) <= code digits size (position (set_ct f i) r))%nat.
Proof.
  intros fl0 f r i size CH L LE. destruct (Nat.eq_dec (fr_ct f) i) as [<-|NE]; [unfold position; cbn [fr_ct set_ct]; lia|].
  apply Nat.lt_le_incl. apply code_before; rewrite ?position_length; try (unfold digits; lia).
  - unfold position. cbn [fr_ct set_ct]. apply before_last. lia.
  - eapply chain_digits; eauto.
Qed.

Theorem wasearch_code : forall n bufferLen size fl0 f r reached out w f' r' reached', chain fl0 f r -> (length r + 2 <= size)%nat ->
  wasearch n W word bufferLen size f r reached = (WFound out w, (f', r'), reached') ->
  (code digits size (position f r) < code digits size (position f' r'))%nat /\ (length r' + 2 <= size)%nat.
Proof.
  induction n as [|n IH]; intros bufferLen size fl0 f r reached out w f' r' reached' CH SZ E; cbn [wasearch] in E; [discriminate|].
  pose proof (chain_in T states word false _ _ _ CH) as IN.
  destruct (wtopscan W word f) as [[[i t] [[fl pos]|]]|] eqn:ES.
  - destruct (wtopscan_some W states word Wstates _ _ _ _ IN ES) as (A & B & C & D1 & D2).
    destruct (Nat.eqb_spec (length r + 2) size); [discriminate|].
    assert (CS : chain fl0 (set_ct f i) r) by (apply chain_set; assumption).
    assert (CP : chain fl0 (mk_fr (Z.to_nat (w_target t)) (Z.to_nat (w_target t)) fl pos) (set_ct f i :: r))
      by (eapply chain_push; [exact CS|apply (wtopscan_next W states word Wsymbols Wstates _ _ _ _ _ IN ES)|exact (proj2 B)|exact C|reflexivity]).
    apply (IH _ _ _ _ _ _ _ _ _ _ _ CP) in E; [|cbn [length]; lia]. destruct E as [E1 E2]. split; [|assumption].
    eapply Nat.le_lt_trans; [apply (code_move fl0 f r i size CH); [lia|exact A]|]. eapply Nat.lt_trans; [|exact E1].
    unfold position at 2. cbn [map rev fr_ct]. change (rev (map fr_ct r) ++ [fr_ct (set_ct f i)]) with (position (set_ct f i) r). apply code_append.
    + rewrite position_length. lia.
    + unfold digits. lia.
  - destruct (wtopscan_some W states word Wstates _ _ _ _ IN ES) as (A & B & C & D1 & D2).
    destruct (write_output T (osyms T r) bufferLen []) as [[o'|]| |]; try discriminate. injection E as _ _ <- <- _. split; [|assumption].
    assert (CS : chain fl0 (set_ct f i) r) by (apply chain_set; assumption).
    eapply Nat.le_lt_trans; [apply (code_move fl0 f r i size CH); [lia|exact A]|].
    apply code_before; rewrite ?position_length; try (unfold digits; lia).
    + unfold position. cbn [fr_ct set_ct]. apply before_last. lia.
    + eapply chain_digits; eauto.
  - destruct r as [|g r]; [discriminate|].
    pose proof (chain_back T states word false Tsy Tst _ _ _ _ CH) as CB.
    apply (IH _ _ _ _ _ _ _ _ _ _ _ CB) in E; [|cbn [length] in SZ; lia]. destruct E as [E1 E2]. split; [|assumption].
    eapply Nat.lt_trans; [|exact E1]. eapply code_up; eauto. lia.
Qed.

Definition normal_output (i : nat) : bool :=
  match nth_error (wtransitions W) i with Some t => w_firstNormalChar W <=? w_symOut t | None => false end.
Definition outputs_of (l : list nat) : nat := length (filter normal_output l).

Lemma output_index_spec : forall l, Forall (fun i => exists t, nth_error (wtransitions W) i = Some t /\ 0 <= w_symOut t < 65536) l ->
  forall index outputs depth, exists k, output_index W (map Z.of_nat l) index outputs depth = Ok (index + k)%nat /\ (k <= length l)%nat /\
    ((k < length l)%nat -> (depth + 1 <= outputs + outputs_of (firstn k l))%nat).
Proof.
  induction 1 as [|i l (t & N & B) F IH]; intros index outputs depth; cbn [map output_index length].
  - exists 0%nat. rewrite Nat.add_0_r. split; [reflexivity|]. split; lia.
  - destruct (Nat.ltb_spec outputs (depth + 1)) as [LT|GE].
    + destruct (Z.ltb_spec (Z.of_nat i) 0); [lia|]. unfold rd. rewrite Nat2Z.id, N. cbn [bind]. rewrite Z.mod_small by lia.
      destruct (IH (S index) (if w_firstNormalChar W <=? w_symOut t then S outputs else outputs) depth) as (k & E & KL & KC).
      exists (S k). rewrite E. split; [f_equal; lia|]. split; [lia|]. intros L. specialize (KC ltac:(lia)).
      cbn [firstn]. unfold outputs_of in *. cbn [filter]. unfold normal_output at 1. rewrite N.
      destruct (w_firstNormalChar W <=? w_symOut t); cbn [length]; lia.
    + exists 0%nat. rewrite Nat.add_0_r. split; [reflexivity|]. split; [lia|]. intros _. cbn [firstn outputs_of filter length]. unfold outputs_of. cbn. lia.
Qed.

Lemma outputs_length : (forall i s, (1 <= i)%nat -> nth_error (w_symbolToString W) i = Some s -> s <> []) ->
  forall l strs, Forall2 (has_string T) (map (outsym T) l) strs -> (outputs_of l <= length (concat strs))%nat.
Proof.
  intros NE. induction l as [|i l IH]; intros strs F; cbn [map] in F; inversion F as [|a s b strs' HS F' E1 E2]; subst; [apply Nat.le_refl|].
  specialize (IH _ F'). cbn [concat]. rewrite app_length. unfold outputs_of in *. cbn [filter].
  destruct (normal_output i) eqn:NO; [|lia]. cbn [length]. enough (length s <> 0)%nat by lia.
  unfold normal_output in NO. destruct HS as [H1 H2]. unfold outsym in *. cbn [forget transitions] in *. rewrite nth_error_map in *.
  destruct (nth_error (wtransitions W) i) as [t|]; [|discriminate]. cbn [option_map] in *.
  cbn [forget_weight symOut] in *. change (firstNormalChar (forget W)) with (w_firstNormalChar W) in *. rewrite NO in *.
  intros Z. apply length_zero_iff_nil in Z. revert Z. eapply NE; [|exact H2]. lia.
Qed.

(** Without flags, going back by [backtrackToOutputDepth] is going back as in a
    lookup. *)
Lemma backtrack_up_step : forall n c c', w_firstNormalChar W = 1 -> wgo_up W c = Ok c' -> backtrack_up (S n) W c = backtrack_up n W c'.
Proof.
  intros n c c' N1 E. unfold wgo_up in E. cbn [backtrack_up]. destruct (wc_stackDepth c) as [|d]; [discriminate|].
  apply bind_ok in E. destruct E as (ct & E1 & E). apply bind_ok in E. destruct E as (t & E2 & E). cbn zeta in E.
  apply bind_ok in E. destruct E as (cts & E3 & E). rewrite E1. cbn [bind]. rewrite E2. cbn [bind]. rewrite E3. cbn [bind].
  rewrite N1 in *. pose proof (Z.mod_pos_bound (w_symIn t) 65536 ltac:(lia)) as MB.
  destruct (1 <=? w_symIn t mod 65536) eqn:L.
  - destruct (wc_inputDepth c) as [|i]; [discriminate|]. injection E as <-. reflexivity.
  - replace (w_symIn t mod 65536 =? 0) with true in E by lia. cbn [negb] in E. rewrite andb_false_r in E. injection E as <-. reflexivity.
Qed.

Fixpoint pops (n : nat) (f : frame) (r : list frame) : frame * list frame :=
  match n, r with
  | S n, g :: r => pops n (set_ct g (S (fr_ct g))) r
  | _, _ => (f, r)
  end.

Lemma backtrack_up_spec : forall n c fl0 f r (ord : Prop) D, w_firstNormalChar W = 1 -> wrepresents W states word c f r -> chain fl0 f r -> (n <= length r)%nat ->
  (ord -> covered fl0 f r D) ->
  (ord -> (0 < n)%nat -> forall p out k, p <> [] -> acc fl0 (rev (map fr_ct (skipn n r)) ++ p) out k -> D (rev (map fr_ct (skipn n r)) ++ p) out k) ->
  exists c' f' r', backtrack_up n W c = Ok c' /\ wc_size c' = wc_size c /\ wrepresents W states word c' f' r' /\ chain fl0 f' r' /\ (ord -> covered fl0 f' r' D) /\ (f', r') = pops n f r.
Proof.
  induction n as [|n IH]; intros c fl0 f r ord D N1 RP CH NL CO LV; [exists c, f, r; auto 10|].
  destruct r as [|g r]; [cbn in NL; lia|]. cbn [length skipn pops] in *.
  destruct (wup_sim W states word Wnormal Wsymbols Wstates c f g r RP) as (c1 & E & S1 & RP1).
  rewrite (backtrack_up_step _ _ _ N1 E).
  destruct (IH c1 fl0 (set_ct g (S (fr_ct g))) r ord D N1 RP1) as (c' & f' & r' & A & B & C & F & G & H).
  - apply (chain_back T states word false Tsy Tst _ _ _ _ CH).
  - lia.
  - intros OO. eapply covered_leave; [exact CH|auto|].
    intros p out k AC. cbn [map rev] in *.
    rewrite <- (firstn_skipn n r) in AC |- *. rewrite map_app, rev_app_distr, <- !app_assoc in AC |- *.
    apply (LV OO ltac:(lia)); [|exact AC]. intros X. apply app_eq_nil in X. destruct X as [_ X]. discriminate.
  - intros OO NP. apply (LV OO). lia.
  - exists c', f', r'. rewrite B, S1. auto 10.
Qed.

Lemma pops_code : forall n fl0 f r size, chain fl0 f r -> (length r < size)%nat ->
  (code digits size (position f r) <= code digits size (position (fst (pops n f r)) (snd (pops n f r))))%nat.
Proof.
  induction n as [|n IH]; intros fl0 f r size CH L; cbn [pops]; [destruct r; cbn; lia|]. destruct r as [|g r]; [cbn; lia|].
  pose proof (chain_back T states word false Tsy Tst _ _ _ _ CH) as CB. cbn [length] in L.
  specialize (IH fl0 _ r size CB ltac:(lia)). eapply Nat.le_trans; [|exact IH]. apply Nat.lt_le_incl. eapply code_up; eauto.
Qed.

Lemma chain_sub : forall fl0 l f r, chain fl0 f (l ++ r) -> exists f', chain fl0 f' r.
Proof.
  induction l as [|g l IH]; intros f r CH; [eauto|]. cbn [app] in CH. inversion CH; subst. eauto.
Qed.

Lemma osyms_map : forall r, osyms T r = map (outsym T) (rev (map fr_ct r)).
Proof. intros r. unfold osyms. now rewrite map_rev, map_map. Qed.

Lemma Forall2_firstn : forall A B (R : A -> B -> Prop) l1 l2 n, Forall2 R l1 l2 -> Forall2 R (firstn n l1) (firstn n l2).
Proof. intros A B R l1 l2 n F. revert n. induction F; intros [|n]; cbn [firstn]; constructor; auto. Qed.

(** How many levels it goes up. *)
Definition backs (r : list frame) (m : nat) : nat :=
  match output_index W (map Z.of_nat (rev (map fr_ct r))) 0 0 m with Ok k => (length r - k)%nat | _ => 0%nat end.

(** The paths that [backtrackToOutputDepth] skips write the first [m + 1]
    characters of the candidate [u]. *)
Lemma backtrack_spec : forall m c fl0 f r (ord : Prop) D strs, w_firstNormalChar W = 1 ->
  (forall i s, (1 <= i)%nat -> nth_error (w_symbolToString W) i = Some s -> s <> []) ->
  Forall (fun c => 0 <= w_symOut c < 65536) (wtransitions W) ->
  wrepresents W states word c f r -> chain fl0 f r -> Forall2 (has_string T) (osyms T r) strs ->
  (ord -> covered fl0 f r D) ->
  (ord -> forall p out k, (m < length (concat strs))%nat -> firstn (S m) out = firstn (S m) (concat strs) -> acc fl0 p out k -> D p out k) ->
  exists c' f' r', backtrackToOutputDepth W c m = Ok c' /\ wc_size c' = wc_size c /\ wrepresents W states word c' f' r' /\ chain fl0 f' r' /\ (ord -> covered fl0 f' r' D) /\
    (f', r') = pops (backs r m) f r.
Proof.
  intros m c fl0 f r ord D strs N1 NE SY RP CH ST CO LV. unfold backtrackToOutputDepth.
  pose proof RP as (SH & SD & ID & K). rewrite SD. rewrite (wcts_spec W states word Wsymbols Wstates _ _ _ _ _ _ _ K).
  set (l := rev (map fr_ct r)).
  assert (LL : length l = length r) by (unfold l; now rewrite rev_length, map_length).
  destruct (output_index_spec l) with (index := 0%nat) (outputs := 0%nat) (depth := m) as (k & E & KL & KC).
  { pose proof (wcts_cells W states word _ _ _ _ _ _ _ K) as F. eapply Forall_impl; [|exact F]. cbn beta. intros i (t & N). exists t. split; [assumption|].
    rewrite Forall_forall in SY. apply SY. eapply nth_error_In; eauto. }
  assert (BK : backs r m = (length r - k)%nat) by (unfold backs; fold l; now rewrite E). rewrite BK.
  rewrite E. cbn [bind Nat.add]. edestruct (backtrack_up_spec (length r - k) c fl0 f r ord D) as (c' & f' & r' & X1 & X2 & X3 & X4 & X5 & X6);
    [exact N1|exact RP|exact CH|lia|exact CO| |exists c', f', r'; eauto 10].
  intros OO NP p out j PN AC. specialize (KC ltac:(lia)).
  assert (SK : rev (map fr_ct (skipn (length r - k) r)) = firstn k l).
  { unfold l. transitivity (firstn k (rev (map fr_ct (firstn (length r - k) r ++ skipn (length r - k) r)))); [|now rewrite firstn_skipn]. rewrite map_app, rev_app_distr.
    rewrite firstn_app, rev_length, map_length, skipn_length. replace (k - (length r - (length r - k)))%nat with 0%nat by lia. cbn [firstn]. rewrite app_nil_r.
    rewrite firstn_all2; [reflexivity|]. rewrite rev_length, map_length, skipn_length. lia. }
  destruct (chain_sub fl0 (firstn (length r - k) r) f (skipn (length r - k) r)) as [f1 CH1]; [now rewrite firstn_skipn|].
  rewrite osyms_map in ST. fold l in ST.
  assert (ST1 : Forall2 (has_string T) (osyms T (skipn (length r - k) r)) (firstn k strs)).
  { rewrite osyms_map, SK. rewrite <- firstn_map. apply Forall2_firstn. exact ST. }
  destruct (path_split T states word false Wnormal Tsy Wunknown Wepsilon Tst fl0 f1 _ CH1 p out j (firstn k strs) (proj1 AC) PN ST1) as (out' & EO & _).
  assert (CN : (m + 1 <= length (concat (firstn k strs)))%nat).
  { etransitivity; [exact KC|]. cbn [Nat.add]. apply outputs_length; [assumption|]. rewrite osyms_map, SK in ST1. exact ST1. }
  assert (UE : concat strs = concat (firstn k strs) ++ concat (skipn k strs)) by (rewrite <- concat_app; now rewrite firstn_skipn).
  apply (LV OO); [| |exact AC].
  - rewrite UE, app_length. lia.
  - rewrite UE, EO. rewrite !firstn_app. replace (S m - length (concat (firstn k strs)))%nat with 0%nat by lia. reflexivity.
Qed.
End Model.

(** ** The dictionary *)
Lemma triple_eq : forall A B C (a d : A) (b e : B) (c f : C), (a, b, c) = (d, e, f) -> a = d.
Proof. intros. injection H. auto. Qed.

Lemma first_search_known : forall W word o fr m, known_prefix W word = word -> first_search W word = (o, fr, m) ->
  wasearch MAX_LOOP_COUNT W word BUFFER_SIZE BUFFER_SIZE (start (neutral (forget W))) [] 0%nat = (o, fr, m).
Proof. intros W word o fr m K. unfold first_search. rewrite K. auto. Qed.

Lemma acceptor_step : forall A ca u, good_weighted A -> wused A BUFFER_SIZE ca -> (length u <= BUFFER_SIZE)%nat ->
  exists known ca1 o ca2 m, wprepare A ca u = Ok (known, ca1) /\ wused A BUFFER_SIZE ca1 /\ (known = false -> ~ accepted A u) /\
    wnext A ca1 BUFFER_SIZE = Ok (o, ca2, m) /\ wused A BUFFER_SIZE ca2 /\
    (known = true -> match o with
     | WFound out w => exists q, waccepts A u q out /\ w = to_int16 (path_weight A q) /\ (in_file_order A /\ one_flag A -> first_weight A u w)
     | _ => in_file_order A /\ one_flag A -> ~ gives_up A u ->
         ~ accepted A u /\ forall u', (m < length u)%nat -> firstn (S m) u = firstn (S m) u' -> ~ accepted A u'
     end).
Proof.
  intros A ca u G U L. destruct (first_next A ca u G U L) as (kn & c1 & o & c2 & m & fr & P & K & U1 & N & U2 & FS).
  exists kn, c1, o, c2, m. split; [assumption|]. split; [assumption|]. split.
  { intros -> AC. apply (accepted_known A u (proj1 (proj2 G))) in AC. apply K in AC. discriminate. }
  split; [assumption|]. split; [assumption|]. intros ->.
  assert (OTHER : (forall out w, o <> WFound out w) -> in_file_order A /\ one_flag A -> ~ gives_up A u ->
         ~ accepted A u /\ forall u', (m < length u)%nat -> firstn (S m) u = firstn (S m) u' -> ~ accepted A u').
  { intros NF [O1 O2] GU.
    assert (NL : ~ limit o).
    { intros LO. apply GU. destruct (first_next A _ u G (wused_new _ _) L) as (kn' & d1 & o' & d2 & m' & fr' & P' & K' & _ & N' & _ & FS').
      rewrite FS in FS'. apply triple_eq in FS'. subst o'. exists d1, o, d2, m'. split; [|auto]. rewrite P'. f_equal. f_equal. apply K'. apply K. reflexivity. }
    assert (o = WEnd) by (destruct o; try reflexivity; exfalso; [eapply NF; reflexivity|apply NL; unfold limit; tauto..]). subst o. split.
    - intros (p & out & AC). destruct (C37_weighted_partial A _ ca u c1 BUFFER_SIZE [] c2 G O1 O2 buffer_two U L buffer_pos P) as (paths & X1 & _ & X3).
      + eapply wlookup_false; [exact N|discriminate].
      + destruct paths; [|discriminate]. apply X3 in AC. destruct AC.
    - intros u' LT EQ (p & out & AC). apply (first_search_known _ _ _ _ _ (proj1 K eq_refl)) in FS.
      destruct G as (A1 & A2 & A3 & A4 & states & A5 & A6).
      exact (prune A states A1 A2 A3 A4 A5 A6 O1 O2 _ _ _ _ _ _ buffer_pos FS u' LT EQ p out AC). }
  destruct o as [out w| | | |]; try (apply OTHER; intros; discriminate).
  destruct (wlookup_paths A _ ca u true c1 BUFFER_SIZE [(out, w)] None c2 G buffer_two U L buffer_pos P) as (_ & M & M1 & M2 & M3 & M4).
  { eapply wlookup_found; [exact N|constructor]. }
  rewrite (proj1 K eq_refl) in *. destruct M as [|[q out'] [|? ?]]; try discriminate. injection M1 as -> EW. subst w. exists q. split; [apply M3; now left|]. split; [reflexivity|].
  intros OO. destruct (M4 OO) as [X _]. exists q, out. split; [apply M3; now left|]. split; [reflexivity|]. intros q' out' AC B.
  destruct (X q out q' out' (or_introl eq_refl) AC B) as [Y|[]]. injection Y as <- _. exact (before_irrefl _ B).
Qed.

(** ** The table of weights *)
Lemma add_weight_in : forall ws u w v x, In (v, x) (add_weight ws u w) -> In (v, x) ws \/ (v = u /\ x = w).
Proof.
  induction ws as [|[v0 x0] ws IH]; intros u w v x H; cbn [add_weight] in H.
  - destruct H as [H|[]]. injection H as -> ->. auto.
  - destruct (zlist_eqb v0 u) eqn:E.
    + destruct H as [H|H]; [|left; now right]. injection H as -> <-. apply zlist_eqb_eq in E. subst. destruct (Z.min_spec x0 w) as [[_ ->]|[_ ->]]; [left; now left|auto].
    + destruct H as [H|H]; [left; now left|]. destruct (IH _ _ _ _ H) as [Y|Y]; [left; now right|auto].
Qed.

Lemma add_weight_new : forall ws u w, exists x, In (u, x) (add_weight ws u w) /\ x <= w.
Proof.
  induction ws as [|[v0 x0] ws IH]; intros u w; cbn [add_weight].
  - exists w. split; [now left|lia].
  - destruct (zlist_eqb v0 u) eqn:E.
    + apply zlist_eqb_eq in E. subst. exists (Z.min x0 w). split; [now left|lia].
    + destruct (IH u w) as (x & X1 & X2). exists x. split; [now right|assumption].
Qed.

Lemma add_weight_old : forall ws u w v y, In (v, y) ws -> exists x, In (v, x) (add_weight ws u w) /\ x <= y.
Proof.
  induction ws as [|[v0 x0] ws IH]; intros u w v y H; [destruct H|]. cbn [add_weight]. destruct H as [H|H].
  - injection H as -> ->. destruct (zlist_eqb v u); eexists; (split; [now left|lia]).
  - destruct (zlist_eqb v0 u); [exists y; split; [now right|lia]|]. destruct (IH u w v y H) as (x & X1 & X2). exists x. split; [now right|assumption].
Qed.

Lemma add_weight_keys : forall ws u w, NoDup (map fst ws) -> NoDup (map fst (add_weight ws u w)) /\
  forall v, In v (map fst (add_weight ws u w)) -> In v (map fst ws) \/ v = u.
Proof.
  induction ws as [|[v0 x0] ws IH]; intros u w H; cbn [add_weight].
  - cbn. split; [constructor; [intros []|constructor]|]. intros v [->|[]]. auto.
  - inversion H; subst. destruct (zlist_eqb v0 u) eqn:E; cbn [map fst].
    + split; [exact H|]. intros v [V|V]; [left; now left|left; now right].
    + destruct (IH u w H3) as [I1 I2]. split.
      * constructor; [|assumption]. intros X. destruct (I2 _ X) as [Y|Y]; [contradiction|]. subst. rewrite zlist_eqb_refl in E. discriminate.
      * intros v [V|V]; [left; now left|]. destruct (I2 _ V); [left; now right|auto].
Qed.

(** ** The loop *)
Section Loop.
Variables E A : wtransducer.
Variable word : list Z.
Hypothesis Egood : good_weighted E.
Hypothesis Eplain : plain_error_model E.
Hypothesis Agood : good_weighted A.

Definition exact_search : Prop := in_file_order E /\ in_file_order A /\ one_flag A /\ forall p u, waccepts E word p u -> ~ gives_up A u.

Definition handled (weights : list (list Z * Z)) (p : list nat) (u : list Z) (k : nat) : Prop :=
  accepted A u -> exists wa x, first_weight A u wa /\ In (u, x) weights /\ x <= wa + to_int16 (path_weight E p).

Definition sound_weights (weights : list (list Z * Z)) : Prop :=
  NoDup (map fst weights) /\
  forall u x, In (u, x) weights -> exists p q out, waccepts E word p u /\ waccepts A u q out /\
    x = to_int16 (path_weight A q) + to_int16 (path_weight E p) /\ (exact_search -> first_weight A u (to_int16 (path_weight A q))).

Lemma plain_one_flag : one_flag E.
Proof. destruct Eplain as [N1 _]. intros q i j a b _ _ FA _. lia. Qed.

Lemma handled_more : forall weights u w p v k, handled weights p v k -> handled (add_weight weights u w) p v k.
Proof.
  intros weights u w p v k H AC. destruct (H AC) as (wa & x & X1 & X2 & X3). destruct (add_weight_old weights u w v x X2) as (y & Y1 & Y2).
  exists wa, y. split; [assumption|]. split; [assumption|lia].
Qed.

Lemma covered_impl : forall T w prefix fl0 f r (D1 D2 : list nat -> list Z -> nat -> Prop), (forall p out k, D1 p out k -> D2 p out k) ->
  covered T w prefix fl0 f r D1 -> covered T w prefix fl0 f r D2.
Proof. intros T w prefix fl0 f r D1 D2 I C p out k X B. apply I. now apply C. Qed.

Lemma fuel_step : forall R (X : res R) (P : R -> Prop) a b c fuel, (a < b)%nat ->
  match X with Ok r => P r | UB => False | Fuel => (b + fuel < c)%nat end -> match X with Ok r => P r | UB => False | Fuel => (a + S fuel < c)%nat end.
Proof. intros R [r| |] P a b c fuel L H; [exact H|exact H|lia]. Qed.

Lemma loop_spec : forall states : nat -> Prop,
  states 0%nat -> (forall q, states q -> good_wstate E q /\
    forall i c, has_wtransition E q i c -> good_wtransition E c /\ (w_symIn c <> 0xFFFFFFFF -> states (Z.to_nat (w_target c)))) ->
  forall fuel ce ca weights f r,
  wrepresents E states word ce f r -> wc_size ce = BUFFER_SIZE -> chain (forget E) states word false (neutral (forget E)) f r ->
  wused A BUFFER_SIZE ca -> sound_weights weights ->
  (exact_search -> covered (forget E) word false (neutral (forget E)) f r (handled weights)) ->
  match candidates_loop fuel E A ce ca weights with
  | Ok (o, weights', (ce', ca')) => wsized E ce' /\ wc_size ce' = BUFFER_SIZE /\ wused A BUFFER_SIZE ca' /\ sound_weights weights' /\
      (forall u w, o <> WFound u w) /\
      (exact_search -> o = WEnd -> forall p u, waccepts E word p u -> handled weights' p u (length word))
  | UB => False
  | Fuel => (code (digits E) BUFFER_SIZE (position f r) + fuel < digits E ^ BUFFER_SIZE)%nat
  end.
Proof.
  intros states S0 SS. destruct Egood as (E1 & E2 & E3 & E4 & _). destruct Eplain as (N1 & N2 & N3).
  induction fuel as [|fuel IH]; intros ce ca weights f r RP SZ CH UA SW CO; cbn [candidates_loop].
  { rewrite Nat.add_0_r. apply code_bound; [apply (chain_digits E states word SS _ _ _ CH)|unfold digits; lia]. }
  destruct (wnext_spec E states E1 E2 E3 E4 SS word BUFFER_SIZE ce f r buffer_pos RP) as (o & f' & r' & n & c' & AS & NX & Z1 & Z2 & RP').
  rewrite NX. cbn [bind].
  pose proof (wasearch_covered E states word E1 E2 E3 E4 SS _ _ _ _ _ _ _ (handled weights) exact_search o f' r' n
    (fun OO => conj (proj1 OO) plain_one_flag) CH buffer_pos CO AS) as WC.
  destruct o as [u we| | | |].
  - destruct WC as (CH' & LU & p & strs & -> & AC & ST & UE & CO').
    specialize (RP' ltac:(discriminate)). rewrite SZ in AS.
    assert (SD : (length r + 2 <= BUFFER_SIZE)%nat) by (destruct RP as (SH & SD & _); destruct SH as (_ & SH & _); rewrite <- SD, <- SZ; exact SH).
    destruct (wasearch_code E states word E2 SS _ _ _ _ _ _ _ _ _ _ _ _ CH SD AS) as [PC SD'].
    assert (EU : waccepts E word p u) by (apply (acc_accepts _ _ _ _ _ _ AC)).
    destruct (acceptor_step A ca u Agood UA ltac:(lia)) as (kn & ca1 & oa & ca2 & m & P & U1 & KF & NA & U2 & KT).
    unfold try_candidate. rewrite P. cbn [bind]. destruct kn.
    + specialize (KT eq_refl). rewrite NA. cbn [bind].
      assert (FAIL : (exact_search -> ~ accepted A u /\ forall u', (m < length u)%nat -> firstn (S m) u = firstn (S m) u' -> ~ accepted A u') ->
        exists c2 f2 r2, backtrackToOutputDepth E c' m = Ok c2 /\ wc_size c2 = wc_size c' /\ wrepresents E states word c2 f2 r2 /\
          chain (forget E) states word false (neutral (forget E)) f2 r2 /\ (exact_search -> covered (forget E) word false (neutral (forget E)) f2 r2 (handled weights)) /\
          (code (digits E) BUFFER_SIZE (position f r) < code (digits E) BUFFER_SIZE (position f2 r2))%nat).
      { intros NO. edestruct (backtrack_spec E states word E1 E2 E3 E4 SS m c' (neutral (forget E)) f' r' exact_search (handled weights) strs) as (c2 & f2 & r2 & B1 & B2 & B3 & B4 & B5 & B6); auto.
        - intros OO. eapply covered_impl; [|exact (CO' OO)]. cbn beta. intros p' out' k [H|H]; [exact H|]. injection H as -> ->. intros X. now destruct (proj1 (NO OO)).
        - intros OO p' out' k LT EQ AC' X. rewrite <- UE in *. destruct (proj2 (NO OO) out' LT (eq_sym EQ)). exact X.
        - exists c2, f2, r2. repeat (split; [assumption|]). eapply Nat.lt_le_trans; [exact PC|].
          pose proof (pops_code E states word E2 SS (backs E r' m) _ f' r' BUFFER_SIZE CH' ltac:(lia)) as PO. rewrite <- B6 in PO. exact PO. }
      destruct oa as [oout wa| | | |].
      * destruct KT as (q & Q1 & Q2 & Q3). cbn [bind]. apply (fuel_step _ _ _ _ _ _ _ PC). eapply IH; [exact RP'|congruence|exact CH'|exact U2| |].
        -- destruct SW as [SW1 SW2]. split; [now apply add_weight_keys|]. intros v x IV. apply add_weight_in in IV. destruct IV as [IV|[-> ->]]; [auto|].
           exists p, q, oout. rewrite <- Q2. split; [assumption|]. split; [assumption|]. split; [reflexivity|]. intros OO. apply Q3. destruct OO as (_ & O1 & O2 & _). auto.
        -- intros OO. eapply covered_impl; [|exact (CO' OO)]. cbn beta. intros p' out' k [H|H]; [now apply handled_more|]. injection H as -> ->.
           intros _. destruct (add_weight_new weights u (wa + to_int16 (path_weight E p))) as (x & X1 & X2). exists wa, x. split; [|auto].
           apply Q3. destruct OO as (_ & O1 & O2 & _). auto.
      * destruct FAIL as (c2 & f2 & r2 & B1 & B2 & B3 & B4 & B5 & B6).
        { intros (O0 & O1 & O2 & O3). apply KT; [auto|]. eapply O3; eauto. }
        rewrite B1. cbn [bind]. apply (fuel_step _ _ _ _ _ _ _ B6). eapply IH; [exact B3|congruence|exact B4|exact U2|exact SW|exact B5].
      * destruct FAIL as (c2 & f2 & r2 & B1 & B2 & B3 & B4 & B5 & B6).
        { intros (O0 & O1 & O2 & O3). apply KT; [auto|]. eapply O3; eauto. }
        rewrite B1. cbn [bind]. apply (fuel_step _ _ _ _ _ _ _ B6). eapply IH; [exact B3|congruence|exact B4|exact U2|exact SW|exact B5].
      * destruct FAIL as (c2 & f2 & r2 & B1 & B2 & B3 & B4 & B5 & B6).
        { intros (O0 & O1 & O2 & O3). apply KT; [auto|]. eapply O3; eauto. }
        rewrite B1. cbn [bind]. apply (fuel_step _ _ _ _ _ _ _ B6). eapply IH; [exact B3|congruence|exact B4|exact U2|exact SW|exact B5].
      * destruct FAIL as (c2 & f2 & r2 & B1 & B2 & B3 & B4 & B5 & B6).
        { intros (O0 & O1 & O2 & O3). apply KT; [auto|]. eapply O3; eauto. }
        rewrite B1. cbn [bind]. apply (fuel_step _ _ _ _ _ _ _ B6). eapply IH; [exact B3|congruence|exact B4|exact U2|exact SW|exact B5].
    + cbn [bind]. apply (fuel_step _ _ _ _ _ _ _ PC). eapply IH; [exact RP'|congruence|exact CH'|exact U1|exact SW|].
      intros OO. eapply covered_impl; [|exact (CO' OO)]. cbn beta. intros p' out' k [H|H]; [exact H|]. injection H as -> ->. intros X. now destruct (KF eq_refl).
  - split; [assumption|]. split; [congruence|]. split; [assumption|]. split; [assumption|]. split; [discriminate|]. intros OO _ p u X. apply (WC OO). apply accepts_acc. split; [reflexivity|exact X].
  - split; [assumption|]. split; [congruence|]. split; [assumption|]. split; [assumption|]. split; [discriminate|]. discriminate.
  - split; [assumption|]. split; [congruence|]. split; [assumption|]. split; [assumption|]. split; [discriminate|]. discriminate.
  - split; [assumption|]. split; [congruence|]. split; [assumption|]. split; [assumption|]. split; [discriminate|]. discriminate.
Qed.

Lemma backtrack_state : forall (states : nat -> Prop),
  states 0%nat -> (forall q, states q -> good_wstate E q /\
    forall i c, has_wtransition E q i c -> good_wtransition E c /\ (w_symIn c <> 0xFFFFFFFF -> states (Z.to_nat (w_target c)))) ->
  forall m c f r, wrepresents E states word c f r -> chain (forget E) states word false (neutral (forget E)) f r ->
  exists c' f' r', backtrackToOutputDepth E c m = Ok c' /\ wc_size c' = wc_size c /\ wrepresents E states word c' f' r' /\
    chain (forget E) states word false (neutral (forget E)) f' r' /\ (f', r') = pops (backs E r m) f r.
Proof.
  intros states S0 SS m c f r RP CH. destruct Egood as (E1 & E2 & E3 & E4 & _). destruct Eplain as (N1 & N2 & N3).
  destruct (chain_strings (forget E) states word false E1 E4 (Tstates E states SS) _ _ _ CH) as [strs ST].
  destruct (backtrack_spec E states word E1 E2 E3 E4 SS m c (neutral (forget E)) f r False (fun _ _ _ => True) strs N1 N2 N3 RP CH ST) as (c' & f' & r' & X1 & X2 & X3 & X4 & _ & X6);
    [intros []|intros []|]. exists c', f', r'. auto 10.
Qed.

Lemma loop_found : forall fuel ce ca weights u we ce' n, wnext E ce BUFFER_SIZE = Ok (WFound u we, ce', n) ->
  candidates_loop (S fuel) E A ce ca weights =
    bind (try_candidate A (backtrackToOutputDepth E ce') ce' ca weights u we) (fun x => candidates_loop fuel E A (fst (fst x)) (snd (fst x)) (snd x)).
Proof.
  intros fuel ce ca weights u we ce' n H. cbn [candidates_loop]. rewrite H. cbn [bind].
  destruct (try_candidate A (backtrackToOutputDepth E ce') ce' ca weights u we) as [[[a b] c]| |]; reflexivity.
Qed.

Lemma loop_over : forall fuel ce ca weights o ce' n, wnext E ce BUFFER_SIZE = Ok (o, ce', n) -> (forall u we, o <> WFound u we) ->
  candidates_loop (S fuel) E A ce ca weights = Ok (o, weights, (ce', ca)).
Proof. intros fuel ce ca weights o ce' n H NF. cbn [candidates_loop]. rewrite H. cbn [bind]. destruct o; try reflexivity. exfalso. eapply NF. reflexivity. Qed.

Lemma try_unknown : forall back ce ca weights u we ca1, wprepare A ca u = Ok (false, ca1) -> try_candidate A back ce ca weights u we = Ok (ce, ca1, weights).
Proof. intros back ce ca weights u we ca1 H. unfold try_candidate. rewrite H. reflexivity. Qed.

Lemma try_found : forall back ce ca weights u we ca1 ca2 out wa n, wprepare A ca u = Ok (true, ca1) -> wnext A ca1 BUFFER_SIZE = Ok (WFound out wa, ca2, n) ->
  try_candidate A back ce ca weights u we = Ok (ce, ca2, add_weight weights u (wa + we)).
Proof. intros back ce ca weights u we ca1 ca2 out wa n H1 H2. unfold try_candidate. rewrite H1. cbn [bind]. rewrite H2. reflexivity. Qed.

Lemma try_failed : forall back ce ca weights u we ca1 ca2 o n ce2, wprepare A ca u = Ok (true, ca1) -> wnext A ca1 BUFFER_SIZE = Ok (o, ca2, n) ->
  (forall out wa, o <> WFound out wa) -> back n = Ok ce2 -> try_candidate A back ce ca weights u we = Ok (ce2, ca2, weights).
Proof.
  intros back ce ca weights u we ca1 ca2 o n ce2 H1 H2 NF H3. unfold try_candidate. rewrite H1. cbn [bind]. rewrite H2. cbn [bind].
  destruct o; try (rewrite H3; reflexivity). exfalso. eapply NF. reflexivity.
Qed.

(** The outcome of the loop does not depend on earlier words. *)
Lemma loop_same : forall (states : nat -> Prop),
  states 0%nat -> (forall q, states q -> good_wstate E q /\
    forall i c, has_wtransition E q i c -> good_wtransition E c /\ (w_symIn c <> 0xFFFFFFFF -> states (Z.to_nat (w_target c)))) ->
  forall fuel ce ca de da weights f r, wrepresents E states word ce f r -> wrepresents E states word de f r -> wc_size ce = BUFFER_SIZE -> wc_size de = BUFFER_SIZE ->
  chain (forget E) states word false (neutral (forget E)) f r -> wused A BUFFER_SIZE ca -> wused A BUFFER_SIZE da ->
  forall o ws cs, candidates_loop fuel E A ce ca weights = Ok (o, ws, cs) -> exists ds, candidates_loop fuel E A de da weights = Ok (o, ws, ds).
Proof.
  intros states S0 SS. destruct Egood as (E1 & E2 & E3 & E4 & _).
  induction fuel as [|fuel IH]; intros ce ca de da weights f r RC RD ZC ZD CH UC UD o ws cs L; [discriminate|].
  destruct (wnext_spec E states E1 E2 E3 E4 SS word BUFFER_SIZE ce f r buffer_pos RC) as (o1 & f1 & r1 & n1 & c' & A1 & X1 & Y1 & _ & RC').
  destruct (wnext_spec E states E1 E2 E3 E4 SS word BUFFER_SIZE de f r buffer_pos RD) as (o2 & f2 & r2 & n2 & d' & A2 & X2 & Y2 & _ & RD').
  rewrite ZC in A1. rewrite ZD, A1 in A2. injection A2 as <- <- <- <-.
  pose proof (wasearch_covered E states word E1 E2 E3 E4 SS _ _ _ _ _ _ _ (fun _ _ _ => True) False o1 f1 r1 n1 (fun x : False => match x with end) CH buffer_pos
    (fun x : False => match x with end) A1) as WC. clear A1.
  assert (OV : (forall u we, o1 <> WFound u we) -> exists ds, candidates_loop (S fuel) E A de da weights = Ok (o, ws, ds)).
  { intros NF. rewrite (loop_over _ _ _ _ _ _ _ X1 NF) in L. apply ok_triple in L. destruct L as (<- & <- & _). exists (d', da). apply (loop_over _ _ _ _ _ _ _ X2 NF). }
  destruct o1 as [u we| | | |]; try (apply OV; discriminate). clear OV.
  specialize (RC' ltac:(discriminate)). specialize (RD' ltac:(discriminate)). destruct WC as (CH' & LU & _).
  rewrite (loop_found _ _ _ _ _ _ _ _ X1) in L. rewrite (loop_found _ _ _ _ _ _ _ _ X2).
  destruct (first_next A ca u Agood UC ltac:(lia)) as (k1 & ca1 & p1 & ca2 & m1 & fr1 & P1 & K1 & V1 & N1 & W1 & F1).
  destruct (first_next A da u Agood UD ltac:(lia)) as (k2 & da1 & p2 & da2 & m2 & fr2 & P2 & K2 & V2 & N2 & W2 & F2).
  assert (k2 = k1) by (destruct k1, k2; try reflexivity; [apply K2, K1|symmetry; apply K1, K2]; reflexivity). subst k2.
  rewrite F1 in F2. clear F1. injection F2 as <- <- <-. clear fr1. destruct k1.
  - assert (FAIL : (forall out wa, p1 <> WFound out wa) ->
      exists ds, bind (try_candidate A (backtrackToOutputDepth E d') d' da weights u we) (fun x => candidates_loop fuel E A (fst (fst x)) (snd (fst x)) (snd x)) = Ok (o, ws, ds)).
    { intros NF.
      destruct (backtrack_state states S0 SS m1 c' f1 r1 RC' CH') as (c3 & f3 & r3 & B1 & B2 & B3 & B4 & B5).
      destruct (backtrack_state states S0 SS m1 d' f1 r1 RD' CH') as (d3 & f4 & r4 & D1 & D2 & D3 & D4 & D5).
      rewrite <- B5 in D5; injection D5 as -> ->.
      rewrite (try_failed _ _ _ _ _ _ _ _ _ _ _ P1 N1 NF B1) in L. rewrite (try_failed _ _ _ _ _ _ _ _ _ _ _ P2 N2 NF D1).
      cbn [bind fst snd] in L |- *. eapply IH; [exact B3|exact D3|congruence|congruence|exact B4|exact W1|exact W2|exact L]. }
    destruct p1 as [out wa| | | |]; try (apply FAIL; discriminate).
    rewrite (try_found _ _ _ _ _ _ _ _ _ _ _ P1 N1) in L. rewrite (try_found _ _ _ _ _ _ _ _ _ _ _ P2 N2).
    cbn [bind fst snd] in L |- *. eapply IH; [exact RC'|exact RD'|congruence|congruence|exact CH'|exact W1|exact W2|exact L].
  - rewrite (try_unknown _ _ _ _ _ _ _ P1) in L. rewrite (try_unknown _ _ _ _ _ _ _ P2).
    cbn [bind fst snd] in L |- *. eapply IH; [exact RC'|exact RD'|congruence|congruence|exact CH'|exact V1|exact V2|exact L].
Qed.
End Loop.
(** ** The whole of [generate] *)
Lemma loop_step : forall E A fuel ce ca ws, candidates_loop (S fuel) E A ce ca ws =
  bind (wnext E ce BUFFER_SIZE) (fun x => match fst (fst x) with
    | WFound u we => bind (try_candidate A (backtrackToOutputDepth E (snd (fst x))) (snd (fst x)) ca ws u we)
        (fun y => candidates_loop fuel E A (fst (fst y)) (snd (fst y)) (snd y))
    | o => Ok (o, ws, (snd (fst x), ca))
    end).
Proof.
  intros E A fuel ce ca ws. cbn [candidates_loop]. generalize (wnext E ce BUFFER_SIZE). intros [[[o c] n]| |]; try reflexivity. cbn [bind fst snd].
  destruct o as [u we| | | |]; try reflexivity. destruct (try_candidate A (backtrackToOutputDepth E c) c ca ws u we) as [[[x y] z]| |]; reflexivity.
Qed.

Lemma loop_more : forall E A fuel ce ca ws r, candidates_loop fuel E A ce ca ws = Ok r -> forall fuel', (fuel <= fuel')%nat -> candidates_loop fuel' E A ce ca ws = Ok r.
Proof.
  intros E A. induction fuel as [|fuel IH]; intros ce ca ws r L fuel' H; [discriminate|]. destruct fuel' as [|fuel']; [lia|].
  rewrite loop_step in *. revert L. generalize (wnext E ce BUFFER_SIZE). intros [[[o c] n]| |]; try discriminate. cbn [bind fst snd].
  destruct o as [u we| | | |]; try (intros L; exact L). destruct (try_candidate A (backtrackToOutputDepth E c) c ca ws u we) as [[[x y] z]| |]; try discriminate.
  cbn [bind fst snd]. intros L. apply (IH _ _ _ _ L). lia.
Qed.

Lemma loop_not_found : forall E A fuel ce ca ws u w ws' cs, candidates_loop fuel E A ce ca ws = Ok (WFound u w, ws', cs) -> False.
Proof.
  intros E A. induction fuel as [|fuel IH]; intros ce ca ws u w ws' cs L; [discriminate|].
  rewrite loop_step in L. revert L. generalize (wnext E ce BUFFER_SIZE). intros [[[o c] n]| |]; try discriminate. cbn [bind fst snd].
  destruct o as [v we| | | |]; try (intros L; apply ok_triple in L; destruct L as [L _]; discriminate L).
  destruct (try_candidate A (backtrackToOutputDepth E c) c ca ws v we) as [[[x y] z]| |]; try discriminate.
  cbn [bind fst snd]. intros L. apply (IH _ _ _ _ _ _ _ L).
Qed.

Lemma priced_length : forall l i, length (priced i l) = length l.
Proof. induction l as [|[u w] l IH]; intros i; cbn; [reflexivity|]. now rewrite IH. Qed.

Lemma ck_ok : forall x, -2147483648 <= x <= 2147483647 -> ck x = Ok x.
Proof. intros x H. unfold ck, in_range. change (- 2 ^ 31) with (-2147483648). change (2 ^ 31 - 1) with 2147483647. replace ((-2147483648 <=? x) && (x <=? 2147483647)) with true by lia. reflexivity. Qed.

Lemma add_suggestions_spec : forall l s, Z.of_nat (maxSuggestions s) <= 30000 -> (length (SuggestModel.found s) <= maxSuggestions s)%nat ->
  (forall u w, In (u, w) l -> -65536 <= w <= 65536) ->
  add_suggestions s l = Ok (mkStatus (sword s) (maxCost s) (maxSuggestions s)
    (SuggestModel.found s ++ priced (Z.of_nat (length (SuggestModel.found s))) (firstn (maxSuggestions s - length (SuggestModel.found s)) l)) (currentCost s) (lookups s)).
Proof.
  induction l as [|[u w] l IH]; intros s M F R; cbn [add_suggestions].
  - rewrite firstn_nil. cbn [priced]. rewrite app_nil_r. now destruct s.
  - unfold addSuggestion. destruct (length (SuggestModel.found s) <? maxSuggestions s)%nat eqn:L.
    + apply Nat.ltb_lt in L. pose proof (R u w (or_introl eq_refl)).
      assert (K : -2147483648 <= w * (Z.of_nat (length (SuggestModel.found s)) + 5) <= 2147483647) by nia.
      rewrite (ck_ok _ K). cbn [bind].
      rewrite IH; cbn [sword maxCost maxSuggestions SuggestModel.found currentCost lookups]; [|assumption|rewrite app_length; cbn [length]; lia|intros; eapply R; right; eassumption].
      rewrite app_length. cbn [length]. replace (maxSuggestions s - length (SuggestModel.found s))%nat with (S (maxSuggestions s - (length (SuggestModel.found s) + 1))) by lia.
      cbn [firstn priced]. rewrite <- app_assoc. cbn [app]. do 5 f_equal. lia.
    + apply Nat.ltb_ge in L. cbn [bind]. rewrite IH; [|assumption|assumption|intros; eapply R; right; eassumption].
      replace (maxSuggestions s - length (SuggestModel.found s))%nat with 0%nat by lia. reflexivity.
Qed.

Lemma int16_range : forall x, -32768 <= to_int16 x <= 32767.
Proof. intros x. unfold to_int16. pose proof (Z.mod_pos_bound x 65536 ltac:(lia)). destruct (x mod 65536 <? 32768) eqn:L; lia. Qed.

(** What one call leaves behind. *)
Definition ready (E A : wtransducer) (ce ca : wconfiguration) : Prop := wsized E ce /\ wc_size ce = BUFFER_SIZE /\ wused A BUFFER_SIZE ca.

Section Generate.
Variables E A : wtransducer.
Variable queue : list (list Z * Z) -> list (list Z * Z).
Hypothesis Egood : good_weighted E.
Hypothesis Eplain : plain_error_model E.
Hypothesis Agood : good_weighted A.
Hypothesis Queue : forall l, Permutation.Permutation (queue l) l.

Lemma new_ready : ready E A (new_wconfiguration (w_featureCount E) BUFFER_SIZE) (new_wconfiguration (w_featureCount A) BUFFER_SIZE).
Proof.
  destruct Egood as (_ & E2 & _ & _ & states & S0 & SS). split; [apply (new_wsized E states E2 SS _ buffer_two)|]. split; [reflexivity|constructor].
Qed.

(** The table of weights that the first part computes. *)
Definition weights_of (fuel : nat) (ce ca : wconfiguration) (word : list Z) (stop : bool) : res (woutcome * list (list Z * Z) * (wconfiguration * wconfiguration)) :=
  '(known, ce) <- wprepare E ce word ;;
  if (known : bool) && negb stop then candidates_loop fuel E A ce ca [] else Ok (WEnd, [], (ce, ca)).

Lemma generate_weights : forall fuel ce ca s, vfst_generate fuel queue E A ce ca s =
  ('(_, ws, (ce, ca)) <- weights_of fuel ce ca (sword s) (shouldAbort (setMaxCost s 100)) ;; s <- add_suggestions (setMaxCost s 100) (queue ws) ;; Ok (s, (ce, ca))).
Proof.
  intros fuel ce ca s. unfold vfst_generate, weights_of. cbn zeta. cbn [setMaxCost sword].
  destruct (wprepare E ce (sword s)) as [[known ce1]| |]; cbn [bind]; try reflexivity.
  destruct (known && negb (shouldAbort (setMaxCost s 100))); cbn [bind]; [|reflexivity].
  destruct (candidates_loop fuel E A ce1 ca []) as [[[o ws] [x y]]| |]; reflexivity.
Qed.

Lemma weights_spec : forall fuel ce ca word stop, ready E A ce ca -> (length word <= BUFFER_SIZE)%nat ->
  match weights_of fuel ce ca word stop with
  | Ok (o, ws, (ce', ca')) => ready E A ce' ca' /\ sound_weights E A word ws /\
      (forall d da, ready E A d da -> exists ds, weights_of fuel d da word stop = Ok (o, ws, ds)) /\
      (stop = false -> exact_search E A word -> o = WEnd -> forall p u, waccepts E word p u -> handled E A ws p u (length word))
  | UB => False
  | Fuel => (fuel < digits E ^ BUFFER_SIZE)%nat
  end.
Proof.
  intros fuel ce ca word stop (R1 & R2 & R3) L. pose proof Egood as (E1 & E2 & E3 & E4 & states & S0 & SS). unfold weights_of.
  destruct (wprepare_spec E states E2 S0 SS ce word R1 ltac:(lia)) as (kn & c1 & P1 & P2 & P3 & P4). rewrite P1. cbn [bind].
  assert (SW0 : sound_weights E A word []) by (split; [constructor|intros u x []]).
  assert (PREP : forall d da, ready E A d da -> exists d1, wprepare E d word = Ok (kn, d1) /\ wc_size d1 = BUFFER_SIZE /\
    wrepresents E states (known_prefix E word) d1 (start (neutral (forget E))) [] /\ wused A BUFFER_SIZE da).
  { intros d da (D1 & D2 & D3). destruct (wprepare_spec E states E2 S0 SS d word D1 ltac:(lia)) as (kn' & d1 & Q1 & Q2 & Q3 & Q4).
    exists d1. split; [|split; [congruence|split; assumption]]. rewrite Q1. do 2 f_equal. destruct kn, kn'; try reflexivity.
    - apply Q3, P3. reflexivity.
    - symmetry. apply P3, Q3. reflexivity. }
  destruct kn; cbn [andb].
  - destruct stop; cbn [negb].
    + split; [|split; [exact SW0|split; [|discriminate]]].
      * split; [exact (wshape_sized E _ _ (proj1 P4))|]. split; [congruence|assumption].
      * intros d da RD. destruct (PREP d da RD) as (d1 & -> & _). cbn [bind andb]. eauto.
    + rewrite (proj1 P3 eq_refl) in *.
      assert (CH : chain (forget E) states word false (neutral (forget E)) (start (neutral (forget E))) []) by (apply wchain_start; auto).
      pose proof (loop_spec E A word Egood Eplain Agood states S0 SS fuel c1 ca [] _ _ P4 ltac:(congruence) CH R3 SW0) as LS.
      assert (CO : exact_search E A word -> covered (forget E) word false (neutral (forget E)) (start (neutral (forget E))) [] (handled E A [])).
      { intros _ p out n AC B. apply (found_start (forget E) states (Tstates E states SS)) in AC; [destruct AC|exact B]. }
      specialize (LS CO). destruct (candidates_loop fuel E A c1 ca []) as [[[o ws] [ce' ca']]| |] eqn:LP; [|assumption|lia].
      destruct LS as (A1 & A2 & A3 & A4 & A5 & A6). split; [split; auto|]. split; [assumption|]. split; [|auto].
      intros d da RD. destruct (PREP d da RD) as (d1 & -> & Q1 & Q2 & Q3). cbn [bind andb negb].
      rewrite ?(proj1 P3 eq_refl) in Q2. exact (loop_same E A word Egood Eplain Agood states S0 SS fuel c1 ca d1 da [] _ _ P4 Q2 ltac:(congruence) Q1 CH R3 Q3 o ws _ LP).
  - split; [|split; [exact SW0|split]].
    + split; [exact (wshape_sized E _ _ (proj1 P4))|]. split; [congruence|assumption].
    + intros d da RD. destruct (PREP d da RD) as (d1 & -> & _). cbn [bind andb]. eauto.
    + intros _ _ _ p u X AC. exfalso. assert (accepted E word) by (exists p, u; exact X). pose proof (accepted_known E word E2 H).
      assert (false = true) by (apply P3; assumption). discriminate.
Qed.
End Generate.
