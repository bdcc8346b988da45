(** * The machine for base forms and the rule for names of places *)
From Verif Require Import Base BaseFacts CharModel AnalysisModel HyphModel FinModel FinSpec FinStructure FinTotal FinBaseform FinWordSpec FinHyphens FinWordBase FinNumeralSpec FinNumeralProofs FinNumeralBase FinPlaceSpec FinPlaceProofs.
From Coq Require Import Lia.

(** ** Without numerals *)

Fixpoint runq (l : list item) (pre w sy : list Z) (xp : option (nat * list Z)) (hx : nat) (cls ign de : bool) : list Z :=
  match l with
  | [] => match xp with Some (n, t) => firstn n w ++ symbols t | None => w end
  | x :: r =>
      let pre' := pre ++ render_item x in
      match x with
      | Letter c => runq r pre' (w ++ [cap sy c]) (tl sy) xp hx cls ign de
      | Colon => runq r pre' (w ++ [cap sy (ch ":")]) (tl sy) xp hx cls ign de
      | Hyphen =>
          match hx with
          | S h => runq r pre' (w ++ [cap sy (ch "-")]) (tl sy) xp h cls ign false
          | O => runq r pre' ((match xp with Some (n, t) => if de && negb (ends_is pre) && place r then firstn n w ++ titled t else w | None => w end) ++ [cap sy (ch "-")]) (tl sy) None 0 cls ign false
          end
      | Remark k t => if (k =? ch "p") || (k =? ch "j") then runq r pre' w sy (Some (length w, t)) (hyphens t) cls ign de else runq r pre' w sy xp hx cls ign de
      | Class k => if negb cls && String.eqb k "u" then runq r pre' w sy xp hx true ign de else runq r pre' w sy xp hx true (negb (adjective k)) false
      | Tag t => runq r pre' w sy xp hx cls ign (if zlist_eqb t (wstr "De") then negb ign else de)
      | _ => runq r pre' w sy xp hx cls ign de
      end
  end.

Lemma runp_runq : forall l pre w sy xp hx cls ign de,
  (cls = false -> forall a r, l = a ++ Class "u" :: r -> (forall x, In x a -> ~ is_class x) -> (3 <= length (render r))%nat /\ nrun r [] (digit_start r) false = None) ->
  runp l pre w sy xp hx cls ign de = optional (runq l pre w sy xp hx cls ign de).
Proof.
  induction l as [|x l IH]; intros pre w sy xp hx cls ign de N; [reflexivity|].
  assert (N' : (forall k, x <> Class k) -> cls = false -> forall a r, l = a ++ Class "u" :: r -> (forall x, In x a -> ~ is_class x) -> (3 <= length (render r))%nat /\ nrun r [] (digit_start r) false = None).
  { intros NC C a r -> M. apply (N C (x :: a) r eq_refl). intros y [<-|I]; [intros (k & E); now apply (NC k)|now apply M]. }
  destruct x as [c| | |k|k|p|k t|t]; cbn [runp runq]; cbv zeta; try (apply IH; apply N'; discriminate).
  - destruct hx; apply IH; apply N'; discriminate.
  - destruct cls; cbn [negb andb]; [apply IH; discriminate|]. destruct (String.eqb k "u") eqn:U; cbn [andb]; [|apply IH; discriminate].
    apply String.eqb_eq in U. subst k. destruct (N eq_refl [] l eq_refl ltac:(intros y [])) as [N1 N2]. replace (3 <=? length (render l))%nat with true by (symmetry; now apply Nat.leb_le).
    replace (nrun l w (digit_start l) false) with (@None (list Z)); [apply IH; discriminate|]. rewrite <- (app_nil_r w), nrun_prefix, N2. reflexivity.
  - destruct (_ || _); apply IH; apply N'; discriminate.
Qed.

(** ** Words that start names *)

Definition stq (st : bool * (bool * bool)) (x : item) : bool * (bool * bool) :=
  let '(cls, (ign, de)) := st in
  match x with
  | Hyphen => (cls, (ign, false))
  | Class k => if negb cls && String.eqb k "u" then (true, (ign, de)) else (true, (negb (adjective k), false))
  | Tag t => (cls, (ign, if zlist_eqb t (wstr "De") then negb ign else de))
  | _ => st
  end.
Definition std (st : bool * bool) (x : item) : bool * bool :=
  let '(ign, de) := st in
  match x with
  | Hyphen => (ign, false)
  | Class k => (negb (adjective k), false)
  | Tag t => (ign, if zlist_eqb t (wstr "De") then negb ign else de)
  | _ => st
  end.
Definition state_of (past : list item) : bool * (bool * bool) := fold_left stq past (false, (false, false)).

Lemma stq_seen : forall l i d, fold_left stq l (true, (i, d)) = (true, fold_left std l (i, d)).
Proof. induction l as [|x l IH]; intros i d; [reflexivity|]. cbn [fold_left]. destruct x; cbn [stq std negb andb]; apply IH. Qed.
Lemma stq_std : forall l i d, snd (fold_left stq l (false, (i, d))) = fold_left std (without_numeral l) (i, d).
Proof.
  induction l as [|x l IH]; intros i d; [reflexivity|]. destruct x as [c| | |k|k|p|k t|t]; cbn [fold_left stq without_numeral std negb andb]; try apply IH.
  destruct (String.eqb k "u") eqn:U; rewrite stq_seen; cbn [fold_left std snd]; reflexivity.
Qed.

Lemma adjective_eq : forall k, adjective k = true <-> k = "l"%string \/ k = "nl"%string.
Proof. intros k. unfold adjective. rewrite orb_true_iff, !String.eqb_eq. tauto. Qed.

Definition open_class (l : list item) : Prop := forall p k q, l = p ++ Class k :: q -> (forall z, In z q -> ~ is_class z) -> k = "l"%string \/ k = "nl"%string.

Lemma snoc_split : forall (l : list item) x a y b, l ++ [x] = a ++ y :: b -> (b = [] /\ x = y /\ l = a) \/ (exists b', b = b' ++ [x] /\ l = a ++ y :: b').
Proof.
  intros l x a y b E. destruct (exists_last (l := y :: b)) as (b0 & z & Q); [discriminate|]. rewrite Q, app_assoc in E. apply app_inj_tail in E. destruct E as [E ->]. destruct b0 as [|y' b'].
  - injection Q as <- ->. left. rewrite app_nil_r in E. auto.
  - injection Q as <- ->. right. exists b'. auto.
Qed.

Lemma std_starts_name : forall l, let st := fold_left std l (false, false) in (fst st = false <-> open_class l) /\ (snd st = true <-> starts_name l).
Proof.
  induction l as [|x l IH] using rev_ind.
  - split; [split; [intros _ p k q E; now destruct p|reflexivity]|]. split; [discriminate|]. intros (x & y & E & _). now destruct x.
  - cbv zeta in *. rewrite fold_left_app. cbn [fold_left]. destruct (fold_left std l (false, false)) as [ign de]. cbn [fst snd] in IH. destruct IH as [IH1 IH2].
    assert (OPEN : (forall k, x <> Class k) -> open_class (l ++ [x]) <-> open_class l).
    { intros NC. split.
      - intros O p k q E M. apply (O p k (q ++ [x])); [rewrite E, <- app_assoc; reflexivity|]. intros z I. apply in_app_or in I. destruct I as [I|[<-|[]]]; [now apply M|]. intros (k' & Q). now apply (NC k').
      - intros O p k q E M. apply snoc_split in E. destruct E as [(_ & Q & _)|(q' & -> & E)]; [now elim (NC k)|]. apply (O p k q' E). intros z I. apply M. apply in_or_app. now left. }
    assert (SAME : (forall k, x <> Class k) -> x <> Hyphen -> x <> Tag (wstr "De") -> starts_name (l ++ [x]) <-> starts_name l).
    { intros NC NH NT. split.
      - intros (a & b & E & M & O). apply snoc_split in E. destruct E as [(_ & Q & _)|(b' & -> & E)]; [now elim NT|]. exists a, b'. split; [exact E|]. split; [|exact O]. intros z I. apply M. apply in_or_app. now left.
      - intros (a & b & E & M & O). exists a, (b ++ [x]). split; [rewrite E, <- app_assoc; reflexivity|]. split; [|exact O]. intros z I. apply in_app_or in I. destruct I as [I|[<-|[]]]; [now apply M|]. split; [|exact NH]. intros (k & Q). now apply (NC k). }
    assert (NONE : is_class x \/ x = Hyphen -> ~ starts_name (l ++ [x])).
    { intros H (a & b & E & M & O). apply snoc_split in E. destruct E as [(_ & Q & _)|(b' & -> & E)].
      - subst x. destruct H as [(k & H)|H]; discriminate H.
      - destruct (M x) as [M1 M2]; [apply in_or_app; right; now left|]. destruct H; tauto. }
    destruct x as [c| | |k|k|p|k t|t]; cbn [std fst snd];
      try (split; [rewrite OPEN by discriminate; exact IH1|rewrite SAME by discriminate; exact IH2]).
    + split; [rewrite OPEN by discriminate; exact IH1|]. split; [discriminate|]. intros H. exfalso. apply NONE; [now right|exact H].
    + split; [|split; [discriminate|intros H; exfalso; apply NONE; [left; now exists k|exact H]]]. rewrite negb_false_iff, adjective_eq. split.
      * intros K p k' q E M. apply snoc_split in E. destruct E as [(_ & Q & _)|(q' & -> & E)]; [injection Q as <-; exact K|]. exfalso. apply (M (Class k)); [apply in_or_app; right; now left|now exists k].
      * intros O. apply (O l k []); [reflexivity|intros z []].
    + split; [rewrite OPEN by discriminate; exact IH1|]. destruct (zlist_eqb t (wstr "De")) eqn:D.
      * apply zlist_eqb_eq in D. subst t. rewrite negb_true_iff, IH1. split.
        -- intros O. exists l, []. split; [reflexivity|]. split; [intros z []|exact O].
        -- intros (a & b & E & M & O). apply snoc_split in E. destruct E as [(_ & _ & ->)|(b' & -> & ->)]; [exact O|]. intros p k q E N.
           (* the last class is in front of the earlier remark *)
           assert (Q : exists q', a = p ++ Class k :: q').
           { clear - E M. revert p E. induction a as [|y a IH]; intros [|z p] E; cbn [app] in E.
             - discriminate E.
             - injection E as _ E. exfalso. destruct (M (Class k)) as [M1 _]; [rewrite E; apply in_or_app; left; apply in_or_app; right; now left|]. apply M1. now exists k.
             - injection E as -> E. now exists a.
             - injection E as -> E. destruct (IH p E) as (q' & ->). now exists q'. }
           destruct Q as (q' & ->). apply (O p k q' eq_refl). intros z I. apply N. rewrite <- app_assoc in E. apply app_inv_head in E. injection E as <-. apply in_or_app. now left.
      * rewrite SAME; [exact IH2|discriminate|discriminate|]. intros Q. injection Q as ->. discriminate D.
Qed.

Lemma state_starts_name : forall past, snd (snd (state_of past)) = true <-> starts_name (without_numeral past).
Proof. intros past. unfold state_of. rewrite stq_std. apply std_starts_name. Qed.
Lemma state_snoc : forall past x, state_of (past ++ [x]) = stq (state_of past) x.
Proof. intros past x. unfold state_of. now rewrite fold_left_app. Qed.

(** ** Words that end in "is" *)

Lemma ends_two : forall u x y, ends_is (u ++ [x; y]) = (x =? ch "i") && (y =? ch "s").
Proof.
  intros u x y. unfold ends_is. rewrite app_length. cbn [length]. replace (length u + 2 - 2)%nat with (length u) by lia. rewrite skipn_app, skipn_all, Nat.sub_diag. cbn [app skipn]. change (wstr "is") with [ch "i"; ch "s"].
  cbn [zlist_eqb]. now rewrite andb_true_r.
Qed.
Lemma render_last : forall x, good_item x -> (exists c, x = Letter c) \/ exists u c, render_item x = u ++ [c] /\ c <> ch "i" /\ c <> ch "s".
Proof.
  intros x G. destruct x as [c| | |k|k|p|k t|t]; [left; now exists c|right..].
  - exists [], (ch "-"). split; [reflexivity|]. split; discriminate.
  - exists [], (ch ":"). split; [reflexivity|]. split; discriminate.
  - exists [ch "["; ch "B"; k], (ch "]"). split; [reflexivity|]. split; discriminate.
  - exists (wstr "[L" ++ wstr k), (ch "]"). split; [cbn [render_item]; now rewrite <- app_assoc|]. split; discriminate.
  - exists (wstr "[Xr]" ++ p ++ wstr "[X"), (ch "]"). split; [cbn [render_item]; now rewrite <- !app_assoc|]. split; discriminate.
  - exists (wstr "[X" ++ k :: wstr "]" ++ t ++ wstr "[X"), (ch "]"). split; [cbn [render_item]; rewrite <- app_assoc; cbn [app]; now rewrite <- !app_assoc|]. split; discriminate.
  - exists (wstr "[" ++ t), (ch "]"). split; [cbn [render_item]; now rewrite <- app_assoc|]. split; discriminate.
Qed.
Lemma ends_other : forall u c, c <> ch "s" -> ends_is (u ++ [c]) = false.
Proof.
  intros u c N. destruct u as [|x u] using rev_ind; [cbn; change (ch "i") with 105; now rewrite andb_false_r|]. rewrite <- app_assoc. cbn [app]. rewrite ends_two, (eqb_neq _ _ N). apply andb_false_r.
Qed.
Lemma ends_is_items : forall l, Forall good_item l -> (ends_is (render l) = true <-> exists l', l = l' ++ [Letter (ch "i"); Letter (ch "s")]).
Proof.
  intros l G. split.
  - intros E. destruct l as [|x l] using rev_ind; [discriminate E|]. clear IHl. apply Forall_app in G. destruct G as [G1 G2]. apply Forall_inv in G2. rewrite render_app in E.
    destruct (render_last x G2) as [(c & ->)|(u & c & Q & C1 & C2)].
    + destruct l as [|y l] using rev_ind; [change (render [] ++ render [Letter c]) with ([] ++ [c]) in E; destruct (Z.eq_dec c (ch "s")) as [->|N]; [discriminate E|now rewrite ends_other in E]|]. clear IHl.
      apply Forall_app in G1. destruct G1 as [_ G1]. apply Forall_inv in G1. rewrite render_app in E. destruct (render_last y G1) as [(d & ->)|(u & d & Q & C1 & C2)].
      * change (render [Letter d]) with [d] in E. change (render [Letter c]) with [c] in E. rewrite <- app_assoc in E. cbn [app] in E. rewrite ends_two in E. apply andb_true_iff in E. rewrite !Z.eqb_eq in E. destruct E as [-> ->].
        exists l. now rewrite <- app_assoc.
      * change (render [Letter c]) with [c] in E. replace (render [y]) with (u ++ [d]) in E by (rewrite render_cons, Q; cbn; now rewrite app_nil_r). rewrite <- !app_assoc in E. cbn [app] in E. rewrite app_assoc, ends_two, (eqb_neq _ _ C1) in E. discriminate E.
    + replace (render [x]) with (u ++ [c]) in E by (rewrite render_cons, Q; cbn; now rewrite app_nil_r). rewrite app_assoc, ends_other in E by exact C2. discriminate E.
  - intros (l' & ->). rewrite render_app. change (render [Letter (ch "i"); Letter (ch "s")]) with [ch "i"; ch "s"]. now rewrite ends_two.
Qed.

(** ** The hyphens to which the rule applies *)

Lemma split_same : forall (a c : list item) x y b d, a ++ x :: b = c ++ y :: d -> length b = length d -> a = c /\ x = y /\ b = d.
Proof.
  induction a as [|z a IH]; intros c x y b d E L.
  - destruct c as [|z c]; [injection E as -> ->; auto|]. exfalso. apply (f_equal (@length item)) in E. cbn [app length] in E. rewrite app_length in E. cbn [length] in E. lia.
  - destruct c as [|z' c]; [exfalso; apply (f_equal (@length item)) in E; cbn [app length] in E; rewrite app_length in E; cbn [length] in E; lia|]. injection E as -> E. destruct (IH c x y b d E L) as (-> & -> & ->). auto.
Qed.
Lemma last_base_same : forall a k t m a' k' t' m', a ++ Remark k t :: m = a' ++ Remark k' t' :: m' -> is_base (Remark k t) -> is_base (Remark k' t') -> no_base m -> no_base m' ->
  a = a' /\ k = k' /\ t = t' /\ m = m'.
Proof.
  induction a as [|x a IH]; intros k t m [|x' a'] k' t' m' E B B' N N'; cbn [app] in E.
  - injection E as -> -> ->. auto.
  - exfalso. injection E as _ E. unfold no_base in N. rewrite Forall_forall in N. apply (N (Remark k' t')); [rewrite E; apply in_or_app; right; now left|exact B'].
  - exfalso. injection E as _ E. unfold no_base in N'. rewrite Forall_forall in N'. apply (N' (Remark k t)); [rewrite <- E; apply in_or_app; right; now left|exact B].
  - injection E as -> E. destruct (IH k t m a' k' t' m' E B B' N N') as (-> & -> & -> & ->). auto.
Qed.
Lemma base_kind : forall k t, is_base (Remark k t) <-> (k =? ch "p") || (k =? ch "j") = true.
Proof. intros k t. rewrite orb_true_iff, !Z.eqb_eq. split; [intros (k' & t' & E & K); injection E as -> ->; exact K|intros K; exists k, t; auto]. Qed.

(** What is known of the last remark among the items [s]. *)
Definition since (s : list item) (n0 : nat) (xp : option (nat * list Z)) (hx : nat) : Prop :=
  match xp with
  | None => hx = 0%nat /\ forall a k t m, s = a ++ Remark k t :: m -> is_base (Remark k t) -> no_base m -> (hyphens t < hyphens (surface m))%nat
  | Some (n, t) => exists a k m, s = a ++ Remark k t :: m /\ is_base (Remark k t) /\ no_base m /\ (hyphens (surface m) + hx)%nat = hyphens t /\ n = (n0 + length (surface a))%nat
  end.

Lemma surface_app : forall a b, surface (a ++ b) = surface a ++ surface b.
Proof. induction a as [|x a IH]; intros b; [reflexivity|]. cbn [app]. now rewrite !surface_cons, IH, app_assoc. Qed.

Lemma since_more : forall s n0 xp hx x h, since s n0 xp hx -> ~ is_base x -> hyphens (surface_item x) = h -> (h <= hx)%nat \/ xp = None -> since (s ++ [x]) n0 xp (hx - h).
Proof.
  intros s n0 xp hx x h S NB H L. assert (SX : surface [x] = surface_item x) by (rewrite surface_cons; apply app_nil_r). destruct xp as [[n t]|]; cbn [since] in *.
  - destruct S as (a & k & m & -> & B & N & S1 & S2). destruct L as [L|L]; [|discriminate L]. exists a, k, (m ++ [x]). split; [now rewrite <- app_assoc|]. split; [exact B|]. split; [apply Forall_app; split; [exact N|constructor; [exact NB|constructor]]|].
    split; [|exact S2]. rewrite surface_app, hyphens_app, SX, H. lia.
  - destruct S as (-> & S). split; [reflexivity|]. intros a k t m E B N. apply snoc_split in E. destruct E as [(_ & -> & _)|(m' & -> & E)]; [now elim NB|]. apply Forall_app in N. rewrite surface_app, hyphens_app. specialize (S a k t m' E B (proj1 N)). lia.
Qed.
Lemma since_hyphen : forall s n0 xp, since s n0 xp 0 -> since (s ++ [Hyphen]) n0 None 0.
Proof.
  intros s n0 xp S. split; [reflexivity|]. intros a k t m E B N. apply snoc_split in E. destruct E as [(_ & E & _)|(m' & -> & E)]; [discriminate E|]. apply Forall_app in N. rewrite surface_app, hyphens_app. change (hyphens (surface [Hyphen])) with 1%nat.
  destruct xp as [[n t']|]; cbn [since] in S.
  - destruct S as (a' & k' & m'' & E' & B' & N' & S1 & _). rewrite E in E'. destruct (last_base_same _ _ _ _ _ _ _ _ E' B B' (proj1 N) N') as (_ & _ & -> & ->). lia.
  - destruct S as (_ & S). specialize (S a k t m' E B (proj1 N)). lia.
Qed.

Lemma cap_hyphen : forall sy, cap sy (ch "-") = ch "-".
Proof. intros [|y sy]; [reflexivity|]. cbn [cap]. destruct (_ || _); reflexivity. Qed.

Lemma written_app : forall u sy v, written sy (u ++ v) = written sy u ++ written (skipn (length u) sy) v.
Proof.
  induction u as [|c u IH]; intros sy v; [destruct sy; reflexivity|]. cbn [app]. rewrite !written_cons, IH. cbn [app length]. do 3 f_equal. destruct sy; [now rewrite skipn_nil|reflexivity].
Qed.
Lemma written_length : forall u sy, length (written sy u) = length u.
Proof. induction u as [|c u IH]; intros sy; [destruct sy; reflexivity|]. rewrite written_cons. cbn [length]. now rewrite IH. Qed.
Lemma skipn_tl : forall (sy : list Z) n, tl (skipn n sy) = skipn (n + 1) sy.
Proof. induction sy as [|y sy IH]; intros n; [now rewrite !skipn_nil|]. destruct n as [|n]; [reflexivity|]. cbn [skipn Nat.add]. apply IH. Qed.

Lemma place_step : forall P0 s x r a k t m b, place_hyphen P0 (s ++ x :: r) a k t m b -> (length b < length (x :: r))%nat -> (length b < length r)%nat \/ (x = Hyphen /\ b = r /\ s = a ++ Remark k t :: m).
Proof.
  intros P0 s x r a k t m b (E & _) L. cbn [length] in L. destruct (Nat.eq_dec (length b) (length r)) as [Q|Q]; [|left; lia]. right.
  change (Remark k t :: m ++ Hyphen :: b) with ((Remark k t :: m) ++ Hyphen :: b) in E. rewrite app_assoc in E. destruct (split_same _ _ _ _ _ _ E (eq_sym Q)) as (H1 & H2 & H3). auto.
Qed.

Definition found (P0 l0 : list item) (w0 sy0 : list Z) (v : list Z) : Prop :=
  exists a k t m b, place_hyphen P0 l0 a k t m b /\ (forall a' k' t' m' b', place_hyphen P0 l0 a' k' t' m' b' -> (length b' <= length b)%nat) /\
    let past := P0 ++ a ++ Remark k t :: m ++ [Hyphen] in
    let '(cls, (ign, de)) := state_of past in
    v = runq b (render past) (w0 ++ written sy0 (surface a) ++ titled t ++ wstr "-") (skipn (length (surface (a ++ m)) + 1) sy0) None 0 cls ign de.

Lemma runq_scan : forall l s P0 w0 sy0 xp hx cls ign de, Forall good_item (P0 ++ s ++ l) -> since s (length w0) xp hx -> state_of (P0 ++ s) = (cls, (ign, de)) ->
  (forall a k t m b, place_hyphen P0 (s ++ l) a k t m b -> (length b < length l)%nat) ->
  let v := runq l (render (P0 ++ s)) (w0 ++ written sy0 (surface s)) (skipn (length (surface s)) sy0) xp hx cls ign de in
  ((forall a k t m b, ~ place_hyphen P0 (s ++ l) a k t m b) /\ v = run l (w0 ++ written sy0 (surface s)) (skipn (length (surface s)) sy0) xp hx) \/ found P0 (s ++ l) w0 sy0 v.
Proof.
  induction l as [|x r IH]; intros s P0 w0 sy0 xp hx cls ign de G S ST NP; cbv zeta.
  - left. split; [|reflexivity]. intros a k t m b H. specialize (NP a k t m b H). cbn in NP. lia.
  - assert (GX : good_item x) by (rewrite Forall_forall in G; apply G; apply in_or_app; right; apply in_or_app; right; now left).
    assert (GP : Forall good_item (P0 ++ s)) by (rewrite app_assoc in G; now apply Forall_app in G).
    assert (EQ : forall y : list item, s ++ x :: r = (s ++ [x]) ++ r) by (intros _; now rewrite <- app_assoc).
    assert (NPR : (x = Hyphen -> forall a k t m, s = a ++ Remark k t :: m -> ~ place_hyphen P0 (s ++ x :: r) a k t m r) -> forall a k t m b, place_hyphen P0 ((s ++ [x]) ++ r) a k t m b -> (length b < length r)%nat).
    { intros NH a k t m b H. rewrite <- (EQ []) in H. destruct (place_step P0 s x r a k t m b H (NP a k t m b H)) as [H1|(H1 & -> & H2)]; [exact H1|]. exfalso. now apply (NH H1 a k t m H2). }
    assert (REN : render (P0 ++ s) ++ render_item x = render (P0 ++ s ++ [x])) by (rewrite app_assoc, (render_app (P0 ++ s)), (render_cons x []); change (render []) with (@nil Z); now rewrite app_nil_r).
    assert (STX : state_of (P0 ++ s ++ [x]) = stq (cls, (ign, de)) x) by (rewrite app_assoc, state_snoc, ST; reflexivity).
    (* items that add no text *)
    assert (NONE : forall xp' hx' cls' ign' de', surface_item x = [] -> x <> Hyphen -> since (s ++ [x]) (length w0) xp' hx' -> stq (cls, (ign, de)) x = (cls', (ign', de')) ->
      ((forall a k t m b, ~ place_hyphen P0 (s ++ x :: r) a k t m b) /\
        runq r (render (P0 ++ s) ++ render_item x) (w0 ++ written sy0 (surface s)) (skipn (length (surface s)) sy0) xp' hx' cls' ign' de' = run r (w0 ++ written sy0 (surface s)) (skipn (length (surface s)) sy0) xp' hx') \/
      found P0 (s ++ x :: r) w0 sy0 (runq r (render (P0 ++ s) ++ render_item x) (w0 ++ written sy0 (surface s)) (skipn (length (surface s)) sy0) xp' hx' cls' ign' de')).
    { intros xp' hx' cls' ign' de' SX NH S' Q. assert (SS : surface (s ++ [x]) = surface s) by (rewrite surface_app, surface_cons, SX; apply app_nil_r). rewrite REN, (EQ []), <- SS.
      apply IH; [rewrite <- app_assoc; exact G|exact S'|rewrite STX; exact Q|]. apply NPR. intros H. now elim NH. }
    assert (CHAR : forall c xp' hx' cls' ign' de', surface_item x = [c] -> (x = Hyphen -> forall a k t m, s = a ++ Remark k t :: m -> ~ place_hyphen P0 (s ++ x :: r) a k t m r) ->
      since (s ++ [x]) (length w0) xp' hx' -> stq (cls, (ign, de)) x = (cls', (ign', de')) ->
      ((forall a k t m b, ~ place_hyphen P0 (s ++ x :: r) a k t m b) /\
        runq r (render (P0 ++ s) ++ render_item x) ((w0 ++ written sy0 (surface s)) ++ [cap (skipn (length (surface s)) sy0) c]) (tl (skipn (length (surface s)) sy0)) xp' hx' cls' ign' de' =
        run r ((w0 ++ written sy0 (surface s)) ++ [cap (skipn (length (surface s)) sy0) c]) (tl (skipn (length (surface s)) sy0)) xp' hx') \/
      found P0 (s ++ x :: r) w0 sy0 (runq r (render (P0 ++ s) ++ render_item x) ((w0 ++ written sy0 (surface s)) ++ [cap (skipn (length (surface s)) sy0) c]) (tl (skipn (length (surface s)) sy0)) xp' hx' cls' ign' de')).
    { intros c xp' hx' cls' ign' de' SX NH S' Q. assert (SS : surface (s ++ [x]) = surface s ++ [c]) by (rewrite surface_app, surface_cons, SX; now rewrite app_nil_r).
      assert (W : (w0 ++ written sy0 (surface s)) ++ [cap (skipn (length (surface s)) sy0) c] = w0 ++ written sy0 (surface (s ++ [x]))).
      { rewrite SS, written_app, written_cons, <- app_assoc. do 3 f_equal. destruct (tl (skipn (length (surface s)) sy0)); reflexivity. }
      assert (T : tl (skipn (length (surface s)) sy0) = skipn (length (surface (s ++ [x]))) sy0) by (rewrite SS, app_length, skipn_tl; reflexivity).
      rewrite REN, (EQ []), W, T. apply IH; [rewrite <- app_assoc; exact G|exact S'|rewrite STX; exact Q|]. now apply NPR. }
    assert (KEEP : ~ is_base x -> hyphens (surface_item x) = 0%nat -> since (s ++ [x]) (length w0) xp hx).
    { intros NB H. replace hx with (hx - 0)%nat by lia. apply since_more with (hx := hx); [exact S|exact NB|exact H|left; lia]. }
    destruct x as [c| | |k|k|p|k t|t]; cbn [runq run]; cbv zeta.
    + apply CHAR; [reflexivity|discriminate| |reflexivity]. apply KEEP; [intros (k0 & t0 & E & _); discriminate E|]. cbn [surface_item good_item] in *. rewrite hyphens_cons, eqb_neq; [reflexivity|]. intros ->. apply GX. vm_compute. tauto.
    + destruct hx as [|hx].
      * (* may be the hyphen looked for *)
        assert (PLAIN : (forall a k t m, s = a ++ Remark k t :: m -> ~ place_hyphen P0 (s ++ Hyphen :: r) a k t m r) ->
          ((forall a k t m b, ~ place_hyphen P0 (s ++ Hyphen :: r) a k t m b) /\
          runq r (render (P0 ++ s) ++ render_item Hyphen) ((w0 ++ written sy0 (surface s)) ++ [cap (skipn (length (surface s)) sy0) (ch "-")]) (tl (skipn (length (surface s)) sy0)) None 0 cls ign false =
          run r ((w0 ++ written sy0 (surface s)) ++ [cap (skipn (length (surface s)) sy0) (ch "-")]) (tl (skipn (length (surface s)) sy0)) None (pred 0)) \/
          found P0 (s ++ Hyphen :: r) w0 sy0 (runq r (render (P0 ++ s) ++ render_item Hyphen) ((w0 ++ written sy0 (surface s)) ++ [cap (skipn (length (surface s)) sy0) (ch "-")]) (tl (skipn (length (surface s)) sy0)) None 0 cls ign false)).
        { intros NH. apply CHAR; [reflexivity|intros _; exact NH|now apply since_hyphen with (xp := xp)|reflexivity]. }
        destruct xp as [[n t]|].
        -- pose proof S as (a & k & m & E & B & N & S1 & S2). rewrite Nat.add_0_r in S1.
           assert (C1 : ends_is (render (P0 ++ s)) = false <-> forall m', m <> m' ++ [Letter (ch "i"); Letter (ch "s")]).
           { pose proof (ends_is_items (P0 ++ s) GP) as EI. destruct (ends_is (render (P0 ++ s))).
             - destruct (proj1 EI eq_refl) as (l' & Q). split; [discriminate|]. intros H. exfalso. rewrite E in Q. rewrite app_assoc in Q.
               destruct m as [|y1 m1 _] using rev_ind; [change (l' ++ [Letter (ch "i"); Letter (ch "s")]) with (l' ++ [Letter (ch "i")] ++ [Letter (ch "s")]) in Q; rewrite (app_assoc l') in Q; apply app_inj_tail in Q; destruct Q as [_ Q]; discriminate Q|].
               change (l' ++ [Letter (ch "i"); Letter (ch "s")]) with (l' ++ [Letter (ch "i")] ++ [Letter (ch "s")]) in Q. rewrite (app_assoc l') in Q. change (Remark k t :: m1 ++ [y1]) with ((Remark k t :: m1) ++ [y1]) in Q.
               rewrite app_assoc in Q. apply app_inj_tail in Q. destruct Q as [Q ->].
               destruct m1 as [|y2 m2 _] using rev_ind; [apply app_inj_tail in Q; destruct Q as [_ Q]; discriminate Q|]. change (Remark k t :: m2 ++ [y2]) with ((Remark k t :: m2) ++ [y2]) in Q. rewrite app_assoc in Q. apply app_inj_tail in Q. destruct Q as [_ ->].
               apply (H m2). now rewrite <- app_assoc.
             - split; [|reflexivity]. intros _ m' ->. assert (F : false = true); [|discriminate F]. apply EI. exists (P0 ++ a ++ Remark k t :: m'). rewrite E. rewrite <- !app_assoc. reflexivity. }
           assert (C2 : de = true <-> starts_name (without_numeral (P0 ++ a ++ Remark k t :: m))) by (rewrite <- E, <- state_starts_name, ST; reflexivity).
           destruct (de && negb (ends_is (render (P0 ++ s))) && place r) eqn:T.
           ++ apply andb_true_iff in T. destruct T as [T T3]. apply andb_true_iff in T. destruct T as [T1 T2]. apply negb_true_iff in T2. right. exists a, k, t, m, r.
              assert (PH : place_hyphen P0 (s ++ Hyphen :: r) a k t m r).
              { split; [rewrite E, <- app_assoc; reflexivity|]. split; [exact B|]. split; [exact N|]. split; [exact S1|]. split; [now apply C2|]. split; [now apply C1|]. now apply place_in. }
              split; [exact PH|]. split.
              ** intros a' k' t' m' b' H. specialize (NP a' k' t' m' b' H). cbn [length] in NP. lia.
              ** cbv zeta. assert (PA : P0 ++ a ++ Remark k t :: m ++ [Hyphen] = P0 ++ s ++ [Hyphen]) by (rewrite E, <- app_assoc; reflexivity). rewrite PA, STX. cbn [stq]. rewrite REN. subst n.
                 assert (LS : length (surface s) = length (surface (a ++ m))) by (rewrite E, !surface_app, surface_cons; cbn [surface_item app]; reflexivity).
                 rewrite cap_hyphen, skipn_tl, LS. f_equal.
                 assert (WS : w0 ++ written sy0 (surface s) = (w0 ++ written sy0 (surface a)) ++ written (skipn (length (surface a)) sy0) (surface m)).
                 { rewrite E, surface_app, surface_cons. cbn [surface_item app]. rewrite written_app, app_assoc. reflexivity. }
                 rewrite WS. replace (length w0 + length (surface a))%nat with (length (w0 ++ written sy0 (surface a))) by (rewrite app_length, written_length; reflexivity).
                 rewrite firstn_app, Nat.sub_diag, firstn_all, firstn_O, app_nil_r, <- !app_assoc. reflexivity.
           ++ apply PLAIN. intros a' k' t' m' E' (_ & B' & N' & H1 & H2 & H3 & H4). rewrite E in E'. destruct (last_base_same _ _ _ _ _ _ _ _ E' B B' N N') as (<- & <- & <- & <-).
              apply C2 in H2. apply C1 in H3. apply place_in in H4. rewrite H2, H3, H4 in T. discriminate T.
        -- apply PLAIN. intros a' k' t' m' E' (_ & B' & N' & H1 & _). destruct S as (_ & S). specialize (S a' k' t' m' E' B' N'). lia.
      * apply CHAR; [reflexivity| | |reflexivity].
        -- intros _ a' k' t' m' E' (_ & B' & N' & H1 & _). destruct xp as [[n t]|]; cbn [since] in S.
           ++ destruct S as (a & k & m & E & B & N & S1 & S2). rewrite E in E'. destruct (last_base_same _ _ _ _ _ _ _ _ E' B B' N N') as (<- & <- & <- & <-). lia.
           ++ destruct S as (S & _). discriminate S.
        -- replace hx with (Datatypes.S hx - 1)%nat by lia. apply since_more; [exact S|intros (k0 & t0 & E & _); discriminate E|reflexivity|left; lia].
    + apply CHAR; [reflexivity|discriminate| |reflexivity]. apply KEEP; [intros (k0 & t0 & E & _); discriminate E|reflexivity].
    + apply NONE; [reflexivity|discriminate| |reflexivity]. apply KEEP; [intros (k0 & t0 & E & _); discriminate E|reflexivity].
    + cbn [stq] in NONE. destruct (negb cls && String.eqb k "u"); (apply NONE; [reflexivity|discriminate| |reflexivity]; apply KEEP; [intros (k0 & t0 & E & _); discriminate E|reflexivity]).
    + apply NONE; [reflexivity|discriminate| |reflexivity]. apply KEEP; [intros (k0 & t0 & E & _); discriminate E|reflexivity].
    + destruct ((k =? ch "p") || (k =? ch "j")) eqn:K.
      * apply NONE; [reflexivity|discriminate| |reflexivity]. exists s, k, []. split; [reflexivity|]. split; [now apply base_kind|]. split; [constructor|]. split; [reflexivity|]. rewrite app_length, written_length. reflexivity.
      * apply NONE; [reflexivity|discriminate| |reflexivity]. apply KEEP; [|reflexivity]. intros B. apply base_kind in B. congruence.
    + apply NONE; [reflexivity|discriminate| |reflexivity]. apply KEEP; [intros (k0 & t0 & E & _); discriminate E|reflexivity].
Qed.

(** ** The form exists, and there is only one *)

Lemma run_last : forall l w sy, Forall good_item l -> last_form l w sy (run l w sy None 0).
Proof.
  intros l w sy G. unfold last_form. cbv zeta. assert (F : forall n, firstn (length w + n) (w ++ written sy (surface l)) = w ++ firstn n (written sy (surface l))) by (intros n; rewrite firstn_app, firstn_all2 by lia; do 2 f_equal; lia).
  destruct (run_outcome l w sy None 0 G ltac:(discriminate)) as [(a & k & t & b & H1 & H2 & H3 & H4 & ->)|[(N & ->)|(_ & H & ->)]].
  - left. exists a, k, t, b. unfold whole. rewrite F, <- app_assoc. auto 6.
  - right. split; [|reflexivity]. intros a k t b -> B _. exfalso. unfold no_base in N. rewrite Forall_forall in N. apply (N (Remark k t)); [apply in_or_app; right; now left|exact B].
  - right. auto.
Qed.

Lemma last_form_unique : forall l w sy v v', last_form l w sy v -> last_form l w sy v' -> v = v'.
Proof.
  intros l w sy v v' [(a & k & t & b & E & B & N & L & ->)|(F & ->)] [(a' & k' & t' & b' & E' & B' & N' & L' & ->)|(F' & ->)].
  - rewrite E in E'. destruct (last_base_same _ _ _ _ _ _ _ _ E' B B' N N') as (<- & <- & <- & <-). reflexivity.
  - specialize (F' a k t b E B N). lia.
  - specialize (F a' k' t' b' E' B' N'). lia.
  - reflexivity.
Qed.

Lemma runq_form : forall n l P w sy cls ign de, (length l <= n)%nat -> Forall good_item (P ++ l) -> state_of P = (cls, (ign, de)) -> places_form P l w sy (runq l (render P) w sy None 0 cls ign de).
Proof.
  induction n as [|n IH]; intros l P w sy cls ign de L G ST;
    (assert (S : since [] (length w) None 0) by (split; [reflexivity|]; intros a k t m E; now destruct a));
    pose proof (runq_scan l [] P w sy None 0 cls ign de G S) as H; rewrite app_nil_r in H; specialize (H ST); cbn [app length] in H; change (surface []) with (@nil Z) in H;
    replace (written sy []) with (@nil Z) in H by (destruct sy; reflexivity); rewrite app_nil_r in H; cbn [length skipn] in H;
    (assert (NP : forall a k t m b, place_hyphen P l a k t m b -> (length b < length l)%nat) by (intros a k t m b (-> & _); rewrite app_length; cbn [length]; rewrite app_length; cbn [length]; lia));
    destruct (H NP) as [(NO & ->)|(a & k & t & m & b & PH & FI & V)];
    try (apply pf_last; [exact NO|apply run_last; now apply Forall_app in G]).
  - specialize (NP a k t m b PH). lia.
  - cbv zeta in V. destruct (state_of (P ++ a ++ Remark k t :: m ++ [Hyphen])) as [cls' [ign' de']] eqn:ST'. rewrite V. apply (pf_place P l a k t m b w sy _ PH FI). apply IH; [specialize (NP a k t m b PH); lia| |exact ST'].
    destruct PH as (E & _). rewrite E in G. rewrite <- app_assoc. replace ((a ++ Remark k t :: m ++ [Hyphen]) ++ b) with (a ++ Remark k t :: m ++ Hyphen :: b); [exact G|]. rewrite <- app_assoc. cbn [app]. rewrite <- app_assoc. reflexivity.
Qed.

Lemma places_form_unique : forall P l w sy v v', places_form P l w sy v -> places_form P l w sy v' -> v = v'.
Proof.
  intros P l w sy v v' F. revert v'. induction F as [P l w sy v NO LF|P l a k t m b w sy v PH FI F IH]; intros v' F'.
  - inversion F' as [P1 l1 w1 sy1 v1 NO' LF'|P1 l1 a' k' t' m' b' w1 sy1 v1 PH' FI' F1]; subst.
    + exact (last_form_unique l w sy v v' LF LF').
    + now elim (NO a' k' t' m' b').
  - inversion F' as [P1 l1 w1 sy1 v1 NO' LF'|P1 l1 a' k' t' m' b' w1 sy1 v1 PH' FI' F1]; subst.
    + now elim (NO' a k t m b).
    + assert (LB : length b = length b') by (specialize (FI _ _ _ _ _ PH'); specialize (FI' _ _ _ _ _ PH); lia).
      pose proof PH as (E & B & N & _). pose proof PH' as (E' & B' & N' & _). rewrite E in E'. change (Remark k t :: m ++ Hyphen :: b) with ((Remark k t :: m) ++ Hyphen :: b) in E'. change (Remark k' t' :: m' ++ Hyphen :: b') with ((Remark k' t' :: m') ++ Hyphen :: b') in E'.
      rewrite !app_assoc in E'. destruct (split_same _ _ _ _ _ _ E' LB) as (E1 & _ & ->). destruct (last_base_same _ _ _ _ _ _ _ _ E1 B B' N N') as (-> & -> & -> & ->). now apply IH.
Qed.
