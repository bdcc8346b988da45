(** * Corrections of attributes, and names of organisations *)
From Verif Require Import Base BaseFacts CharModel AnalysisModel AnalysisProps FinModel FinSpec FinStructure FinTotal FinAttributes FinBaseform FinAnalyzer FinWordSpec FinHyphens FinWordBase FinAttrSpec FinAttrItems.
From Coq Require Import Lia.

(** ** Corrections *)

Lemma has_iff : forall v s, has v s = true <-> value_is v s.
Proof. intros [v|] s; unfold has, value_is; [rewrite is_iff; generalize (wstr s); intros z; split; congruence|split; discriminate]. Qed.
Lemma has_not : forall v s, has v s = false <-> ~ value_is v s.
Proof. intros v s. rewrite <- has_iff, not_true_iff_false. reflexivity. Qed.

Lemma remove_gone : forall a k, remove a k k = None.
Proof. intros a k. unfold remove. destruct (a k) eqn:E; [|exact E]. unfold set_key. destruct k; reflexivity. Qed.

Ltac destruct_all_ifs := repeat match goal with |- context [if ?c then _ else _] => destruct c end.
Ltac reduce_one := first [rewrite add_other by discriminate | rewrite remove_other by discriminate | rewrite remove_gone | rewrite add_same by (apply remove_gone)].

Lemma adjust_class : forall a, adjust a CLASS = if has (a PARTICIPLE) "past_passive" then Some (wstr "laatusana") else a CLASS.
Proof.
  intros a. unfold adjust. cbv zeta.
  assert (P : has (a PARTICIPLE) "past_passive" && (is_none (a CLASS) || negb (has (a PARTICIPLE) "laatusana")) = has (a PARTICIPLE) "past_passive").
  { destruct (has (a PARTICIPLE) "past_passive") eqn:H; [|reflexivity]. apply has_iff in H. unfold value_is in H. rewrite H. vm_compute. now destruct (a CLASS). }
  rewrite P. destruct (has (a PARTICIPLE) "past_passive"); destruct_all_ifs; repeat reduce_one; reflexivity.
Qed.

Lemma adjust_negative : forall a, adjust a NEGATIVE =
  if (negb (is_none (a CLASS)) && negb (has (a CLASS) "teonsana")) || (has (a MOOD) "MINEN-infinitive" || has (a MOOD) "E-infinitive" || has (a MOOD) "MA-infinitive") then None else a NEGATIVE.
Proof.
  intros a. unfold adjust. cbv zeta.
  set (g := (negb (is_none (a CLASS)) && negb (has (a CLASS) "teonsana")) || _).
  transitivity ((if negb (is_none (a NEGATIVE)) && g then remove a NEGATIVE else a) NEGATIVE).
  - destruct_all_ifs; repeat reduce_one; reflexivity.
  - destruct g; [|rewrite andb_false_r; reflexivity]. rewrite andb_true_r. destruct (a NEGATIVE) as [v|] eqn:E; cbn [is_none negb]; [apply remove_gone|exact E].
Qed.

Lemma adjust_number : forall a, adjust a NUMBER = if has (a SIJAMUOTO) "kerrontosti" then None else a NUMBER.
Proof.
  intros a. unfold adjust. cbv zeta.
  match goal with |- context [if negb (is_none (?A NUMBER)) && has (a SIJAMUOTO) _ then _ else _] => set (a2 := A) end.
  assert (N2 : a2 NUMBER = a NUMBER) by (unfold a2; destruct_all_ifs; repeat reduce_one; reflexivity).
  transitivity ((if negb (is_none (a2 NUMBER)) && has (a SIJAMUOTO) "kerrontosti" then remove a2 NUMBER else a2) NUMBER).
  - clearbody a2. match goal with |- context [if is_none (?A COMPARISON) then _ else _] => generalize A; intros a3 end. destruct_all_ifs; repeat reduce_one; reflexivity.
  - rewrite N2. destruct (has (a SIJAMUOTO) "kerrontosti"); [|rewrite andb_false_r; exact N2]. rewrite andb_true_r. destruct (a NUMBER) as [v|] eqn:E; cbn [is_none negb]; [apply remove_gone|exact N2].
Qed.

Lemma adjust_comparison : forall a, adjust a COMPARISON =
  match a COMPARISON with
  | None => if has (adjust a CLASS) "laatusana" || has (adjust a CLASS) "nimisana_laatusana" then Some (wstr "positive") else None
  | Some v => if has (adjust a CLASS) "nimisana" then None else Some v
  end.
Proof.
  intros a. rewrite adjust_class. unfold adjust. cbv zeta.
  assert (P : has (a PARTICIPLE) "past_passive" && (is_none (a CLASS) || negb (has (a PARTICIPLE) "laatusana")) = has (a PARTICIPLE) "past_passive").
  { destruct (has (a PARTICIPLE) "past_passive") eqn:H; [|reflexivity]. apply has_iff in H. unfold value_is in H. rewrite H. vm_compute. now destruct (a CLASS). }
  rewrite P. set (cl := if has (a PARTICIPLE) "past_passive" then Some (wstr "laatusana") else a CLASS).
  match goal with |- context [if is_none (?A COMPARISON) then _ else _] => set (a3 := A) end.
  assert (N3 : a3 COMPARISON = a COMPARISON) by (unfold a3; destruct_all_ifs; repeat reduce_one; reflexivity).
  clearbody a3 cl. rewrite N3. destruct (a COMPARISON) as [v|]; cbn [is_none].
  - destruct (has cl "nimisana"); [apply remove_gone|exact N3].
  - destruct (has cl "laatusana" || has cl "nimisana_laatusana"); [now apply add_same|exact N3].
Qed.

Lemma attributes_ok : forall l a st b, (forall k, said l k (a k)) -> (forall k, technical k = false -> b k = adjust (add a STRUCTURE st) k) -> attributes_of l b.
Proof.
  intros l a st b S B. set (a1 := add a STRUCTURE st) in *. assert (A1 : forall k, k <> STRUCTURE -> a1 k = a k) by (intros k N; apply add_other; congruence). clearbody a1. split.
  - intros k I. rewrite B by (cbn [In] in I; repeat (destruct I as [<-|I]; [reflexivity|]); destruct I). rewrite adjust_other by (cbn [In] in *; intuition (subst; discriminate)).
    rewrite A1 by (intros ->; cbn [In] in I; intuition discriminate). apply S.
  - exists (a CLASS), (a NUMBER), (a COMPARISON), (a NEGATIVE). do 4 (split; [apply S|]).
    assert (BC : b CLASS = adjust a1 CLASS) by now apply B. rewrite (B NEGATIVE), (B NUMBER), (B COMPARISON) by reflexivity. rewrite adjust_negative, adjust_number, adjust_comparison, BC.
    assert (C : adjust a1 CLASS = if has (a PARTICIPLE) "past_passive" then Some (wstr "laatusana") else a CLASS) by (rewrite adjust_class, !A1 by discriminate; reflexivity).
    rewrite (B PARTICIPLE), (B SIJAMUOTO), (B MOOD) by reflexivity. rewrite (adjust_other a1 PARTICIPLE), (adjust_other a1 SIJAMUOTO), (adjust_other a1 MOOD) by (cbn [In]; intuition discriminate).
    rewrite (A1 PARTICIPLE), (A1 SIJAMUOTO), (A1 MOOD), (A1 CLASS), (A1 NUMBER), (A1 NEGATIVE), (A1 COMPARISON) by discriminate.
    set (cl := adjust a1 CLASS) in *. clearbody cl. cbv zeta. unfold value_is in *. split; [|split; [|split; [|split; [|split]]]].
    + intros H. apply (has_iff (a PARTICIPLE) "past_passive") in H. rewrite H in C. exact C.
    + intros H. apply (has_not (a PARTICIPLE) "past_passive") in H. rewrite H in C. exact C.
    + intros H. apply (has_iff (a SIJAMUOTO) "kerrontosti") in H. now rewrite H.
    + intros H. apply (has_not (a SIJAMUOTO) "kerrontosti") in H. now rewrite H.
    + match goal with |- context [if ?g then None else a NEGATIVE] => assert (G : g = true <-> (a CLASS <> None /\ a CLASS <> Some (wstr "teonsana")) \/ a MOOD = Some (wstr "MINEN-infinitive") \/ a MOOD = Some (wstr "E-infinitive") \/ a MOOD = Some (wstr "MA-infinitive"));
        [|destruct g; split; intros H; try reflexivity; [exfalso; apply H; now apply G|apply G in H; discriminate H]] end.
      rewrite !orb_true_iff, andb_true_iff, !negb_true_iff, has_not, !has_iff. unfold value_is. rewrite <- not_true_iff_false, is_none_iff. clear. tauto.
    + split.
      * intros ->. match goal with |- context [if ?g then _ else None] => assert (G : g = true <-> cl = Some (wstr "laatusana") \/ cl = Some (wstr "nimisana_laatusana")) by (rewrite orb_true_iff, !has_iff; reflexivity) end.
        destruct (has cl "laatusana" || has cl "nimisana_laatusana"); split; intros H; try reflexivity; [exfalso; apply H; now apply G|apply G in H; discriminate H].
      * destruct (a COMPARISON) as [v|]; [intros _|congruence]. destruct (has cl "nimisana") eqn:H.
        -- split; [reflexivity|]. intros N. exfalso. apply N. now apply (has_iff cl "nimisana").
        -- split; [|reflexivity]. intros N. apply (has_iff cl "nimisana") in N. congruence.
Qed.

(** ** Where a remark stands *)

Fixpoint body_at (k : list Z) (l : list item) (i : nat) : bool :=
  match l with
  | [] => false
  | x :: l => if Nat.eqb i 0 then has_body k x else if (i <? length (render_item x))%nat then false else body_at k l (i - length (render_item x))
  end.

Lemma body_at_iff : forall k l i, body_at k l i = true <-> exists a x b, l = a ++ x :: b /\ has_body k x = true /\ length (render a) = i.
Proof.
  intros k. induction l as [|x l IH]; intros i; cbn [body_at].
  - split; [discriminate|]. intros (a & x & b & E & _). destruct a; discriminate E.
  - destruct (Nat.eqb i 0) eqn:E0.
    + apply Nat.eqb_eq in E0. subst i. split; [intros H; exists [], x, l; auto|]. intros (a & y & b & E & H & L). destruct a as [|z a]; [now injection E as -> ->|].
      rewrite render_cons, app_length in L. exfalso. pose proof (render_item_length z). lia.
    + apply Nat.eqb_neq in E0. destruct (i <? length (render_item x))%nat eqn:E1.
      * apply Nat.ltb_lt in E1. split; [discriminate|]. intros (a & y & b & E & H & L). destruct a as [|z a]; [cbn in L; lia|]. injection E as <- _. rewrite render_cons, app_length in L. lia.
      * apply Nat.ltb_ge in E1. rewrite IH. split.
        -- intros (a & y & b & -> & H & L). exists (x :: a), y, b. split; [reflexivity|]. split; [exact H|]. rewrite render_cons, app_length. lia.
        -- intros (a & y & b & E & H & L). destruct a as [|z a]; [cbn in L; lia|]. injection E as <- ->. exists a, y, b. split; [reflexivity|]. split; [exact H|]. rewrite render_cons, app_length in L. lia.
Qed.

Lemma no_open_here : forall k w i R, (exists c, nth_error w i = Some c /\ c <> ch "[") -> prefix_eq (ch "[" :: k) (skipn i (w ++ R)) = Ok false.
Proof.
  intros k w i R (c & E & N). revert i E. induction w as [|d w IH]; intros [|i] E; try discriminate E; cbn [nth_error app skipn] in *; [|now apply IH].
  injection E as ->. cbn [prefix_eq]. rewrite (proj2 (Z.eqb_neq _ _)); [reflexivity|congruence].
Qed.

Lemma tag_inside : forall k body i R, ~ In (ch "[") body -> (0 < i < length body + 2)%nat -> prefix_eq (ch "[" :: k) (skipn i ((ch "[" :: body ++ [ch "]"]) ++ R)) = Ok false.
Proof.
  intros k body i R N L. apply no_open_here. destruct i as [|i]; [lia|]. cbn [nth_error]. destruct (nth_error (body ++ [ch "]"]) i) as [c|] eqn:E; [|apply nth_error_None in E; rewrite app_length in E; cbn [length] in E; lia].
  exists c. split; [reflexivity|]. intros ->. apply nth_error_In, in_app_or in E. destruct E as [E|[E|[]]]; [now elim N|discriminate E].
Qed.

Lemma x_start : forall k u R, hd 0 k <> ch "X" -> k <> [] -> prefix_eq (ch "[" :: k ++ [ch "]"]) (ch "[" :: ch "X" :: u ++ R) = Ok false.
Proof.
  intros [|d k] u R H N; [congruence|]. cbn [prefix_eq app hd] in *. rewrite Z.eqb_refl. rewrite (proj2 (Z.eqb_neq _ _)); [reflexivity|congruence].
Qed.

Lemma x_inside : forall k u i R, hd 0 k <> ch "X" -> k <> [] -> ~ In (ch "[") u -> (0 < i < length u + 5)%nat ->
  prefix_eq (ch "[" :: k ++ [ch "]"]) (skipn i ((ch "[" :: ch "X" :: u ++ wstr "[X]") ++ R)) = Ok false.
Proof.
  intros k u i R H K N L. destruct (Nat.eq_dec i (length u + 2)) as [->|D].
  - change ((ch "[" :: ch "X" :: u ++ wstr "[X]") ++ R) with ((ch "[" :: ch "X" :: (u ++ wstr "[X]") ++ R)). rewrite <- app_assoc.
    replace (length u + 2)%nat with (S (S (length u))) by lia. cbn [skipn]. rewrite skipn_app_length. apply (x_start k [ch "]"] R H K).
  - apply no_open_here. destruct i as [|[|i]]; [lia|exists (ch "X"); split; [reflexivity|discriminate]|]. cbn [nth_error].
    destruct (Nat.ltb_spec i (length u)) as [Q|Q].
    + rewrite nth_error_app1 by exact Q. destruct (nth_error u i) as [c|] eqn:E; [|apply nth_error_None in E; lia]. exists c. split; [reflexivity|]. intros ->. apply N. now apply nth_error_In in E.
    + rewrite nth_error_app2 by exact Q. assert (I : (i - length u = 1 \/ i - length u = 2)%nat) by lia. destruct I as [-> | ->]; eexists; (split; [reflexivity|discriminate]).
Qed.

Lemma starts_item : forall k l i, Forall good_item l -> ~ In (ch "]") k -> hd 0 k <> ch "X" -> k <> [] -> (i <= length (render l))%nat ->
  prefix_eq (ch "[" :: k ++ [ch "]"]) (skipn i (render l ++ [0])) = Ok (body_at k l i).
Proof.
  intros k l i G K KX KN. revert i. induction G as [|x l G1 G2 IH]; intros i L.
  - cbn in L. replace i with 0%nat by lia. reflexivity.
  - rewrite render_cons, app_length in L. cbn [body_at]. rewrite render_cons, <- app_assoc. destruct (Nat.eqb i 0) eqn:E0.
    + apply Nat.eqb_eq in E0. subst i. cbn [skipn]. clear IH L.
      assert (ONE : forall c, c <> ch "[" -> prefix_eq (ch "[" :: k ++ [ch "]"]) ([c] ++ render l ++ [0]) = Ok false).
      { intros c N. cbn [prefix_eq app]. rewrite (proj2 (Z.eqb_neq _ _)); [reflexivity|congruence]. }
      assert (TAG : forall body, ~ In (ch "]") body -> prefix_eq (ch "[" :: k ++ [ch "]"]) ((ch "[" :: body ++ [ch "]"]) ++ render l ++ [0]) = Ok (zlist_eqb body k)).
      { intros body N. cbn [prefix_eq app]. rewrite Z.eqb_refl, <- app_assoc. apply (prefix_whole k body _ K N). }
      destruct x; cbn [has_body good_item] in *.
      * apply ONE. intros ->. apply G1. vm_compute. tauto.
      * apply ONE. discriminate.
      * apply ONE. discriminate.
      * apply (TAG [ch "B"; k0]). intros [H|[->|[]]]; [discriminate H|]. apply G1. vm_compute. tauto.
      * apply (TAG (ch "L" :: wstr k0)). intros [H|H]; [discriminate H|]. now apply class_letters in H.
      * change (render_item (Pattern p)) with (ch "[" :: ch "X" :: ch "r" :: ch "]" :: p ++ wstr "[X]"). apply (x_start k (ch "r" :: ch "]" :: p ++ wstr "[X]") (render l ++ [0]) KX KN).
      * change (render_item (Remark k0 t)) with (ch "[" :: ch "X" :: k0 :: ch "]" :: t ++ wstr "[X]"). apply (x_start k (k0 :: ch "]" :: t ++ wstr "[X]") (render l ++ [0]) KX KN).
      * apply TAG. apply G1.
    + apply Nat.eqb_neq in E0. destruct (i <? length (render_item x))%nat eqn:E1.
      * apply Nat.ltb_lt in E1. destruct x; cbn [good_item] in *; try (change (length (render_item _)) with 1%nat in E1; lia).
        -- apply (tag_inside (k ++ [ch "]"]) [ch "B"; k0] i (render l ++ [0])); [|cbn [length]; change (length (render_item (Boundary k0))) with 4%nat in E1; lia].
           intros [H|[->|[]]]; [discriminate H|]. apply G1. vm_compute. tauto.
        -- apply (tag_inside (k ++ [ch "]"]) (ch "L" :: wstr k0) i (render l ++ [0])); [intros [H|H]; [discriminate H|]; now apply class_letters in H|].
           cbn [length]. cbn [render_item] in E1. change (wstr "[L") with [ch "["; ch "L"] in E1. change (wstr "]") with [ch "]"] in E1. rewrite !app_length in E1. cbn [length] in E1. lia.
        -- change (render_item (Pattern p)) with (ch "[" :: ch "X" :: (ch "r" :: ch "]" :: p) ++ wstr "[X]") in *. apply x_inside; try assumption.
           ++ intros [H|[H|H]]; try discriminate H. apply G1 in H. vm_compute in H. intuition discriminate.
           ++ cbn [length] in *. rewrite app_length in E1. change (length (wstr "[X]")) with 3%nat in E1. cbn [length] in E1. lia.
        -- change (render_item (Remark k0 t)) with (ch "[" :: ch "X" :: (k0 :: ch "]" :: t) ++ wstr "[X]") in *. destruct G1 as (G3 & G4 & G5). apply x_inside; try assumption.
           ++ intros [H|[H|H]]; [subst k0; apply G3; vm_compute; tauto|discriminate H|now apply G5].
           ++ cbn [length] in *. rewrite app_length in E1. change (length (wstr "[X]")) with 3%nat in E1. cbn [length] in E1. lia.
        -- apply (tag_inside (k ++ [ch "]"]) t i (render l ++ [0])); [apply G1|]. cbn [render_item] in E1. change (wstr "[") with [ch "["] in E1. change (wstr "]") with [ch "]"] in E1. rewrite !app_length in E1. cbn [length] in E1. lia.
      * apply Nat.ltb_ge in E1. rewrite skipn_app, skipn_all2 by exact E1. cbn [app]. apply IH. lia.
Qed.

Lemma boundary_here : forall l i, Forall good_item l -> (i <= length (render l))%nat -> exists x, starts (render l ++ [0]) i "[Bc]" = Ok x /\
  (x = true <-> exists a b, l = a ++ Boundary (ch "c") :: b /\ length (render a) = i).
Proof.
  intros l i G L. exists (body_at (wstr "Bc") l i). split.
  - unfold starts. change (wstr "[Bc]") with (ch "[" :: wstr "Bc" ++ [ch "]"]). apply starts_item; try assumption; [vm_compute; intuition discriminate|discriminate|discriminate].
  - rewrite body_at_iff. split.
    + intros (a & x & b & -> & H & E). exists a, b. split; [|exact E]. f_equal. f_equal. apply Forall_app in G. destruct G as [_ G]. inversion G as [|? ? G1 _]; subst.
      destruct x; cbn [has_body] in H; try discriminate H; apply zlist_eqb_eq in H; [now injection H as ->|]. exfalso. subst t. destruct G1 as (_ & _ & _ & _ & _ & _ & G1). discriminate (G1 eq_refl eq_refl).
    + intros (a & b & -> & E). exists a, (Boundary (ch "c")), b. auto.
Qed.

Lemma ion_here : forall l i, Forall good_item l -> (i <= length (render l))%nat -> exists x, starts (render l ++ [0]) i "[Ion]" = Ok x /\
  (x = true <-> exists a b, l = a ++ Tag (wstr "Ion") :: b /\ length (render a) = i).
Proof.
  intros l i G L. exists (body_at (wstr "Ion") l i). split.
  - unfold starts. change (wstr "[Ion]") with (ch "[" :: wstr "Ion" ++ [ch "]"]). apply starts_item; try assumption; [vm_compute; intuition discriminate|discriminate|discriminate].
  - rewrite body_at_iff. split.
    + intros (a & x & b & -> & H & E). exists a, b. split; [|exact E]. f_equal. f_equal. destruct x; cbn [has_body] in H; try discriminate H; apply zlist_eqb_eq in H; now subst t.
    + intros (a & b & -> & E). exists a, (Tag (wstr "Ion")), b. auto.
Qed.

(** Two places in the output, compared by the characters before them. *)
Lemma split_same : forall a x b a' x' b', a ++ x :: b = a' ++ x' :: b' -> length (render a) = length (render a') -> a = a' /\ x = x' /\ b = b'.
Proof.
  induction a as [|y a IH]; intros x b a' x' b' E L; destruct a' as [|y' a']; cbn [app] in E.
  - injection E as -> ->. auto.
  - exfalso. rewrite render_cons, app_length in L. pose proof (render_item_length y'). cbn [render map concat length] in L. lia.
  - exfalso. rewrite render_cons, app_length in L. pose proof (render_item_length y). cbn [render map concat length] in L. lia.
  - injection E as -> E. rewrite !render_cons, !app_length in L. destruct (IH _ _ _ _ _ E ltac:(lia)) as (-> & -> & ->). auto.
Qed.
Lemma split_behind : forall a x b a' x' b', a ++ x :: b = a' ++ x' :: b' -> (length (render a) < length (render a'))%nat -> exists m, a' = a ++ x :: m /\ b = m ++ x' :: b'.
Proof.
  induction a as [|y a IH]; intros x b a' x' b' E L; destruct a' as [|y' a']; cbn [app] in E.
  - cbn in L. lia.
  - injection E as -> E. exists a'. auto.
  - cbn [render map concat length] in L. lia.
  - injection E as -> E. rewrite !render_cons, !app_length in L. destruct (IH _ _ _ _ _ E ltac:(lia)) as (m & -> & ->). exists m. auto.
Qed.

(** ** The search for an organisation *)

Lemma find_boundary_spec : forall l j, Forall good_item l -> (j <= length (render l))%nat -> exists x, find_boundary (render l ++ [0]) j = Ok x /\
  (x = true <-> exists a b, l = a ++ Boundary (ch "c") :: b /\ (4 <= length (render a) <= j)%nat).
Proof.
  intros l j G. induction j as [|j IH]; intros L.
  - exists false. split; [reflexivity|]. split; [discriminate|]. intros (a & b & _ & H). lia.
  - cbn [find_boundary]. destruct (S j <? 4)%nat eqn:Q.
    + exists false. split; [reflexivity|]. apply Nat.ltb_lt in Q. split; [discriminate|]. intros (a & b & _ & H). lia.
    + apply Nat.ltb_ge in Q. destruct (boundary_here l (S j) G L) as (x & -> & X). cbn [bind]. destruct x.
      * exists true. split; [reflexivity|]. split; [intros _|reflexivity]. destruct (proj1 X eq_refl) as (a & b & -> & E). exists a, b. split; [reflexivity|lia].
      * destruct (IH ltac:(lia)) as (y & E & Y). exists y. split; [exact E|]. rewrite Y. split; intros (a & b & EL & H); exists a, b; (split; [exact EL|]); [lia|].
        assert (length (render a) <> S j); [|lia]. intros E2. assert (false = true) by (apply X; eauto). discriminate.
Qed.

Lemma find_org_spec : forall l i, Forall good_item l -> (i <= length (render l))%nat -> exists x, find_org (render l ++ [0]) i = Ok x /\
  (x = true <-> exists a m b, l = a ++ Boundary (ch "c") :: m ++ Tag (wstr "Ion") :: b /\ (4 <= length (render a))%nat /\ (length (render (a ++ Boundary (ch "c") :: m)) <= i)%nat /\
     forall b1 b2, b = b1 ++ Boundary (ch "c") :: b2 -> (i < length (render (a ++ Boundary (ch "c") :: m ++ Tag (wstr "Ion") :: b1)))%nat).
Proof.
  intros l i G. induction i as [|i IH]; intros L.
  - exists false. split; [reflexivity|]. split; [discriminate|]. intros (a & m & b & _ & H & H1 & _). rewrite render_app, app_length in H1. lia.
  - cbn [find_org]. assert (B4 : forall m, (length (render (Boundary (ch "c") :: m)) = 4 + length (render m))%nat) by (intros m; rewrite render_cons, app_length; reflexivity).
    destruct (S i <? 8)%nat eqn:Q.
    + exists false. split; [reflexivity|]. apply Nat.ltb_lt in Q. split; [discriminate|]. intros (a & m & b & _ & H & H1 & _). rewrite render_app, app_length, B4 in H1. lia.
    + apply Nat.ltb_ge in Q. destruct (boundary_here l (S i) G L) as (x & -> & X). destruct (ion_here l (S i) G L) as (y & -> & Y). cbn [bind]. destruct x.
      * exists false. split; [reflexivity|]. split; [discriminate|]. intros (a & m & b & E & H1 & H2 & H3). exfalso. destruct (proj1 X eq_refl) as (a' & b' & E' & L').
        (* the boundary at [S i] is behind the remark *)
        assert (LA : (length (render (a ++ Boundary (ch "c") :: m)) < length (render a'))%nat).
        { assert (length (render (a ++ Boundary (ch "c") :: m)) <> length (render a')); [|lia]. intros EQ.
          rewrite E in E'. change (a ++ Boundary (ch "c") :: m ++ Tag (wstr "Ion") :: b) with (a ++ (Boundary (ch "c") :: m) ++ Tag (wstr "Ion") :: b) in E'. rewrite app_assoc in E'.
          destruct (split_same _ _ _ _ _ _ E' EQ) as (_ & E2 & _). discriminate E2. }
        rewrite E in E'. change (a ++ Boundary (ch "c") :: m ++ Tag (wstr "Ion") :: b) with (a ++ (Boundary (ch "c") :: m) ++ Tag (wstr "Ion") :: b) in E'. rewrite app_assoc in E'.
        destruct (split_behind _ _ _ _ _ _ E' LA) as (b1 & E2 & E3). specialize (H3 b1 b' E3). rewrite E2 in L'. rewrite <- app_assoc in L'. cbn [app] in L'. lia.
      * assert (NX : forall a b, l = a ++ Boundary (ch "c") :: b -> length (render a) <> S i) by (intros a b E1 E2; assert (false = true) by (apply X; eauto); discriminate).
        assert (STEP : forall a m b, l = a ++ Boundary (ch "c") :: m ++ Tag (wstr "Ion") :: b -> (forall b1 b2, b = b1 ++ Boundary (ch "c") :: b2 -> (i < length (render (a ++ Boundary (ch "c") :: m ++ Tag (wstr "Ion") :: b1)))%nat) ->
          forall b1 b2, b = b1 ++ Boundary (ch "c") :: b2 -> (S i < length (render (a ++ Boundary (ch "c") :: m ++ Tag (wstr "Ion") :: b1)))%nat).
        { intros a m b E H b1 b2 E2. specialize (H b1 b2 E2). assert (length (render (a ++ Boundary (ch "c") :: m ++ Tag (wstr "Ion") :: b1)) <> S i); [|lia].
          apply (NX _ b2). subst l b. repeat (rewrite <- app_assoc; cbn [app]). reflexivity. }
        assert (F : exists z, (if y then find_boundary (render l ++ [0]) (S i - 4) else Ok false) = Ok z /\
          (z = true <-> exists a m b, l = a ++ Boundary (ch "c") :: m ++ Tag (wstr "Ion") :: b /\ (4 <= length (render a))%nat /\ length (render (a ++ Boundary (ch "c") :: m)) = S i)).
        { destruct y.
          - destruct (find_boundary_spec l (S i - 4) G ltac:(lia)) as (z & E & Z). exists z. split; [exact E|]. rewrite Z. destruct (proj1 Y eq_refl) as (a' & b' & E' & L'). split.
            + intros (a & b & E1 & H1 & H2). assert (LA : (length (render a) < length (render a'))%nat) by lia. rewrite E1 in E'. destruct (split_behind _ _ _ _ _ _ E' LA) as (m & E2 & E3).
              exists a, m, b'. split; [now rewrite E1, E3|]. split; [exact H1|]. now rewrite <- E2.
            + intros (a & m & b & E1 & H1 & H2). exists a, (m ++ Tag (wstr "Ion") :: b). split; [exact E1|]. split; [exact H1|]. rewrite render_app, app_length, B4 in H2. lia.
          - exists false. split; [reflexivity|]. split; [discriminate|]. intros (a & m & b & E1 & H1 & H2). apply Y. exists (a ++ Boundary (ch "c") :: m), b. split; [|exact H2]. now rewrite E1, <- app_assoc. }
        destruct F as (z & -> & Z). cbn [bind]. destruct z.
        -- exists true. split; [reflexivity|]. split; [intros _|reflexivity]. destruct (proj1 Z eq_refl) as (a & m & b & E1 & H1 & H2). exists a, m, b. split; [exact E1|]. split; [exact H1|]. split; [lia|].
           intros b1 b2 E2. change (a ++ Boundary (ch "c") :: m ++ Tag (wstr "Ion") :: b1) with (a ++ (Boundary (ch "c") :: m) ++ Tag (wstr "Ion") :: b1). rewrite app_assoc, render_app, app_length, H2, render_cons, app_length.
           pose proof (render_item_length (Tag (wstr "Ion"))). lia.
        -- destruct (IH ltac:(lia)) as (w & E & W). exists w. split; [exact E|]. rewrite W. split; intros (a & m & b & E1 & H1 & H2 & H3); exists a, m, b; (split; [exact E1|split; [exact H1|split]]).
           ++ lia.
           ++ now apply STEP.
           ++ assert (length (render (a ++ Boundary (ch "c") :: m)) <> S i); [|lia]. intros E2. assert (false = true) by (apply Z; exists a, m, b; auto). discriminate.
           ++ intros b1 b2 E2. specialize (H3 b1 b2 E2). lia.
Qed.

Lemma first_hyphen : forall l, Forall good_item l -> l <> [] -> exists c, rd (render l ++ [0]) 0 = Ok c /\ (c = ch "-" <-> exists r, l = Hyphen :: r).
Proof.
  intros [|x l] G N; [congruence|]. inversion G as [|? ? G1 _]; subst. rewrite render_cons, <- app_assoc.
  destruct x; cbn [good_item] in G1; (eexists; split; [reflexivity|]); split; intros H; try discriminate H; try (now destruct H as [r H]); try (now exists l).
  exfalso. apply G1. rewrite H. vm_compute. tauto.
Qed.

Lemma first_abbreviation : forall l, Forall good_item l -> exists x, starts (render l ++ [0]) 0 "[La]" = Ok x /\ (x = true <-> exists r, l = Class "a" :: r).
Proof.
  intros l G. exists (body_at (wstr "La") l 0). split.
  - unfold starts. change (wstr "[La]") with (ch "[" :: wstr "La" ++ [ch "]"]). apply starts_item; try assumption; try discriminate; [vm_compute; intuition discriminate|lia].
  - destruct l as [|x l]; [split; [discriminate|intros [r H]; discriminate H]|]. cbn [body_at Nat.eqb]. inversion G as [|? ? G1 _]; subst. destruct x; cbn [has_body good_item] in *; try (split; [discriminate|intros [r H]; discriminate H]).
    + split; [|intros [r H]; now injection H as -> ->]. intros H. apply zlist_eqb_eq in H. change (wstr "La") with (ch "L" :: wstr "a") in H. injection H as H. apply (wstr_inj k "a") in H. subst k. eauto.
    + split; [|intros [r H]; discriminate H]. intros H. apply zlist_eqb_eq in H. subst t. exfalso. now apply (proj1 (proj2 (proj2 (proj2 (proj2 (proj2 G1)))))).
Qed.

Lemma organisation_search : forall l, Forall good_item l -> (5 <= length (render l))%nat ->
  ((exists a m b, l = a ++ Boundary (ch "c") :: m ++ Tag (wstr "Ion") :: b /\ (4 <= length (render a))%nat /\ (length (render (a ++ Boundary (ch "c") :: m)) <= length (render l) - 5)%nat /\
     forall b1 b2, b = b1 ++ Boundary (ch "c") :: b2 -> (length (render l) - 5 < length (render (a ++ Boundary (ch "c") :: m ++ Tag (wstr "Ion") :: b1)))%nat) <->
   exists a m b, l = a ++ Boundary (ch "c") :: m ++ Tag (wstr "Ion") :: b /\ (4 <= length (render a))%nat /\ forall b1 b2, b = b1 ++ Boundary (ch "c") :: b2 -> b2 = []).
Proof.
  intros l G L.
  assert (LEN : forall a m b, l = a ++ Boundary (ch "c") :: m ++ Tag (wstr "Ion") :: b -> length (render l) = (length (render (a ++ Boundary (ch "c") :: m)) + 5 + length (render b))%nat).
  { intros a m b ->. change (a ++ Boundary (ch "c") :: m ++ Tag (wstr "Ion") :: b) with (a ++ (Boundary (ch "c") :: m) ++ Tag (wstr "Ion") :: b). rewrite app_assoc, (render_app _ (Tag _ :: b)), app_length, render_cons, app_length.
    change (length (render_item (Tag (wstr "Ion")))) with 5%nat. lia. }
  assert (LB : forall a m b b1 b2, l = a ++ Boundary (ch "c") :: m ++ Tag (wstr "Ion") :: b -> b = b1 ++ Boundary (ch "c") :: b2 ->
    length (render l) = (length (render (a ++ Boundary (ch "c") :: m ++ Tag (wstr "Ion") :: b1)) + 4 + length (render b2))%nat).
  { intros a m b b1 b2 -> ->. replace (a ++ Boundary (ch "c") :: m ++ Tag (wstr "Ion") :: b1 ++ Boundary (ch "c") :: b2) with ((a ++ Boundary (ch "c") :: m ++ Tag (wstr "Ion") :: b1) ++ Boundary (ch "c") :: b2) by (repeat (rewrite <- app_assoc; cbn [app]); reflexivity).
    rewrite (render_app _ (Boundary _ :: b2)), app_length, render_cons, app_length. change (length (render_item (Boundary (ch "c")))) with 4%nat. lia. }
  split; intros (a & m & b & E & H).
  - destruct H as (H1 & _ & H3). exists a, m, b. split; [exact E|]. split; [exact H1|]. intros b1 b2 E2. specialize (H3 b1 b2 E2). pose proof (LB _ _ _ _ _ E E2) as LL.
    destruct b2 as [|x b2]; [reflexivity|]. rewrite render_cons, app_length in LL. pose proof (render_item_length x). lia.
  - destruct H as (H1 & H2). exists a, m, b. split; [exact E|]. split; [exact H1|]. pose proof (LEN _ _ _ E) as LL. split; [lia|].
    intros b1 b2 E2. pose proof (LB _ _ _ _ _ E E2) as L2. specialize (H2 b1 b2 E2). subst b2. cbn [render map concat length] in L2. lia.
Qed.

Lemma duplicate_spec : forall l a more, Forall good_item l -> l <> [] -> duplicateOrgName a (render l) = Ok more -> (more <> [] <-> value_is (a CLASS) "nimisana" /\ organisation l).
Proof.
  intros l a more G NE E. unfold duplicateOrgName in E. cbv zeta in E.
  assert (NO : ~ (value_is (a CLASS) "nimisana" /\ organisation l) -> more = [] -> (more <> [] <-> value_is (a CLASS) "nimisana" /\ organisation l)) by (intros N ->; split; [congruence|tauto]).
  destruct (a CLASS) as [c|] eqn:C; [|injection E as <-; apply NO; [intros [H _]; discriminate H|reflexivity]].
  destruct (is c "nimisana") eqn:N; cbn [negb] in E.
  2:{ injection E as <-. apply NO; [|reflexivity]. intros [H _]. apply (has_iff (Some c) "nimisana") in H. cbn [has] in H. congruence. }
  destruct (length (render l) <? 13)%nat eqn:L.
  { injection E as <-. apply NO; [|reflexivity]. intros (_ & _ & _ & a0 & m & b & -> & H & _). apply Nat.ltb_lt in L. rewrite render_app, app_length, render_cons, app_length, render_app, app_length, render_cons, app_length in L.
    change (length (render_item (Boundary (ch "c")))) with 4%nat in L. change (length (render_item (Tag (wstr "Ion")))) with 5%nat in L. lia. }
  apply Nat.ltb_ge in L. destruct (first_hyphen l G NE) as (c0 & R & C0). rewrite R in E. cbn [bind] in E. destruct (first_abbreviation l G) as (x & S & X). rewrite S in E. cbn [bind] in E.
  destruct ((c0 =? ch "-") || x) eqn:H.
  { injection E as <-. apply NO; [|reflexivity]. intros (_ & H1 & H2 & _). apply orb_true_iff in H. destruct H as [H|H].
    - apply Z.eqb_eq, C0 in H. destruct H as [r H]. now apply (H1 r).
    - apply X in H. destruct H as [r H]. now apply (H2 r). }
  apply orb_false_iff in H. destruct H as [H1 H2]. destruct (find_org_spec l (length (render l) - 5) G ltac:(lia)) as (y & F & Y). rewrite F in E. cbn [bind] in E.
  rewrite (organisation_search l G ltac:(lia)) in Y. destruct y.
  - apply bind_ok in E. destruct E as (a' & _ & E). injection E as <-. split; [intros _|discriminate]. split; [|split; [|split]].
    + apply (has_iff (Some c) "nimisana"). exact N.
    + intros r ->. apply Z.eqb_neq in H1. apply H1, C0. eauto.
    + intros r ->. assert (x = true) by (apply X; eauto). congruence.
    + now apply Y.
  - injection E as <-. apply NO; [|reflexivity]. intros (_ & _ & _ & O). apply Y in O. discriminate O.
Qed.

(** ** The analyses of an output *)

Lemma output_parts : forall o wlen full a more, output_analyses o wlen full = Ok (a :: more) ->
  exists a0 st, parseBasicAttributes no_attributes o = Ok a0 /\ duplicateOrgName (adjust (add a0 STRUCTURE st)) o = Ok more /\
    forall k, technical k = false -> a k = adjust (add a0 STRUCTURE st) k.
Proof.
  intros o wlen full a more E. unfold output_analyses in E. apply bind_ok in E. destruct E as (valid & _ & E). destruct valid; [|discriminate E].
  apply bind_ok in E. destruct E as (st0 & _ & E). apply bind_ok in E. destruct E as (a0 & B & E). apply bind_ok in E. destruct E as (st & _ & E). exists a0, st. split; [exact B|].
  set (a1 := adjust (add a0 STRUCTURE st)) in *. clearbody a1. apply bind_ok in E. destruct E as (more' & D & E). apply bind_ok in E. destruct E as (a2 & F & E). injection E as -> ->. split; [exact D|].
  destruct full; [|injection F as ->; reflexivity]. apply bind_ok in F. destruct F as (r & _ & F).
  destruct (FinDebug.parseDebugAttributes_ok (match r with Some v => add (add a1 FSTOUTPUT o) BASEFORM v | None => add a1 FSTOUTPUT o end) o) as (ids & bases & D2). rewrite D2 in F. injection F as <-.
  intros k T. rewrite add_other by (intros <-; discriminate T). assert (T1 : WORDIDS <> k) by (intros <-; discriminate T). assert (T2 : BASEFORM <> k) by (intros <-; discriminate T). assert (T3 : FSTOUTPUT <> k) by (intros <-; discriminate T).
  destruct ids, r; rewrite ?(add_other _ WORDIDS), ?(add_other _ BASEFORM), ?(add_other _ FSTOUTPUT) by assumption; reflexivity.
Qed.
