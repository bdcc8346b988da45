(** * The threads of voikkospell: invariant and termination. *)
From Verif Require Import Base BaseFacts ToolModel ToolSpec.

Local Open Scope nat_scope.
Local Ltac conjs := repeat match goal with |- _ /\ _ => split end.

Section Threads.
Variable H : Type.
Variable chk : H -> list Z -> res (list Z * H).
Variable fit : H -> Prop.
Variable ok : list Z -> Prop.
Variable ans : list Z -> list Z.
Variable n : nat.
Variable words : list (list Z).
Variable B : nat.
Hypothesis EB : WORDS_PER_BLOCK = B.
Hypothesis PB : (1 <= B)%nat.
Hypothesis A : answers chk fit ok ans.
Hypothesis N : (1 <= n)%nat.
Hypothesis OKW : Forall ok words.

Definition text (b : list (list Z)) : list Z := concat (map ans b).

Lemma text_app : forall a b, text (a ++ b) = text a ++ text b.
Proof. intros. unfold text. rewrite map_app, concat_app. auto. Qed.

Definition live (b : list (list Z)) (s : slot) : Prop :=
  match s with
  | SLOT_RUNNING todo out => exists done, b = done ++ todo /\ out = text done
  | SLOT_ENDED out => out = text b
  | _ => False
  end.

(** Where the main thread is and what it has done; [c] blocks have been handed
    out and [j] of them collected. *)
Definition place (m : machine H) (c j : nat) (len : nat) : Prop :=
  match at_ m with
  | AT_READ => (length (nextBlock m) < B)%nat /\ len = (B * c)%nat /\ nextThread m = c mod n /\ j = (c - n)%nat
  | AT_QUEUE last => (length (nextBlock m) <= B)%nat /\ (last = false -> length (nextBlock m) = B) /\ (last = true -> input m = []) /\
      len = (B * c)%nat /\ nextThread m = c mod n /\ j = (c - n)%nat
  | AT_CLEANUP last => (0 < length (nextBlock m) <= B)%nat /\ (last = false -> length (nextBlock m) = B) /\ (last = true -> input m = []) /\
      len = (B * c)%nat /\ nextThread m = c mod n /\ j = (c - n)%nat /\ (n <= c)%nat
  | AT_CREATE last => (0 < length (nextBlock m) <= B)%nat /\ (last = false -> length (nextBlock m) = B) /\ (last = true -> input m = []) /\
      len = (B * c)%nat /\ nextThread m = c mod n /\ j = (c + 1 - n)%nat
  | AT_FINISH => input m = [] /\ nextBlock m = [] /\ (B * c < len + B)%nat /\ (len <= B * c)%nat /\
      (((n <= c)%nat /\ nextThread m = j mod n) \/ ((c < n)%nat /\ j = 0%nat /\ nextThread m = c))
  | AT_FINISH_CLEANUP => input m = [] /\ nextBlock m = [] /\ (B * c < len + B)%nat /\ (len <= B * c)%nat /\ (j < c)%nat /\
      (((n <= c)%nat /\ nextThread m = j mod n) \/ ((c < n)%nat /\ j = 0%nat /\ nextThread m = c))
  | AT_END => input m = [] /\ nextBlock m = [] /\ (B * c < len + B)%nat /\ (len <= B * c)%nat /\ j = c /\ ((n <= c)%nat \/ c = 0%nat)
  | AT_FAULT => input m = [] /\ nextBlock m = [] /\ (B * c < len + B)%nat /\ (len <= B * c)%nat /\ (0 < c < n)%nat
  end.

Record good (m : machine H) (bs : list (list (list Z))) (j : nat) : Prop := {
  g_threads : length (threads m) = n;
  g_handles : length (handles m) = n;
  g_fit : Forall fit (handles m);
  g_words : words = concat bs ++ nextBlock m ++ input m;
  g_out : output m = concat (map text (firstn j bs));
  g_use : nThreadsInUse m = (length bs - j)%nat;
  g_j : (j <= length bs)%nat;
  g_c : (length bs <= j + n)%nat;
  g_live : forall i b, (j <= i)%nat -> nth_error bs i = Some b -> exists s, nth_error (threads m) (i mod n) = Some s /\ live b s;
  g_joined : forall i, (i < j)%nat -> (length bs <= i + n)%nat -> nth_error (threads m) (i mod n) = Some SLOT_JOINED;
  g_unused : forall i, (length bs <= i < n)%nat -> nth_error (threads m) i = Some SLOT_UNUSED;
  g_place : place m (length bs) j (length (concat bs))
}.

Lemma mod_close : forall a b, (a < b)%nat -> (b < a + n)%nat -> a mod n <> b mod n.
Proof.
  intros a b L1 L2 E.
  pose proof (Nat.div_mod a n ltac:(lia)). pose proof (Nat.div_mod b n ltac:(lia)).
  assert (b - a = n * (b / n - a / n))%nat by nia. assert (b / n - a / n = 0 \/ 1 <= b / n - a / n)%nat as [Q|Q] by lia; nia.
Qed.
Lemma mod_lt : forall a, (a mod n < n)%nat.
Proof. intros. apply Nat.mod_upper_bound. lia. Qed.
Lemma mod_next : forall a, ((a mod n + 1) mod n = (a + 1) mod n)%nat.
Proof. intros. rewrite Nat.add_mod_idemp_l by lia. auto. Qed.
Lemma mod_back : forall a, (n <= a)%nat -> (a mod n = (a - n) mod n)%nat.
Proof. intros a L. replace a with ((a - n) + 1 * n)%nat at 1 by lia. rewrite Nat.mod_add by lia. auto. Qed.

Lemma start_good : forall hs, length hs = n -> Forall fit hs -> good (start n hs words) [] 0.
Proof.
  intros hs L F. unfold start. split; cbn; auto; try lia.
  - apply repeat_length.
  - intros i b _ E. destruct i; discriminate.
  - intros i (_ & L'). rewrite nth_error_repeat; auto.
  - rewrite Nat.mod_0_l by lia. split; [lia|auto].
Qed.

Lemma app_nth : forall X (l : list X) x i y, nth_error (l ++ [x]) i = Some y -> nth_error l i = Some y \/ (i = length l /\ y = x).
Proof.
  intros X l x i y E. destruct (Nat.lt_ge_cases i (length l)).
  - rewrite nth_error_app1 in E; auto.
  - rewrite nth_error_app2 in E by auto. destruct (i - length l)%nat as [|k] eqn:Q; cbn in E; [|destruct k; discriminate].
    right. split; [lia|congruence].
Qed.

Lemma firstn_more : forall X (l : list X) j x, nth_error l j = Some x -> firstn (S j) l = firstn j l ++ [x].
Proof. induction l as [|y l IH]; intros [|j] x E; cbn in *; try discriminate. - congruence. - rewrite <- (IH j x E). reflexivity. Qed.

(** Collecting the oldest thread. *)
Lemma collect_good : forall m bs j out k p, good m bs j -> (j < length bs)%nat -> nextThread m = j mod n ->
  nth_error (threads m) (nextThread m) = Some (SLOT_ENDED out) ->
  (forall m0 : machine H, threads (k m0) = threads m0 /\ handles (k m0) = handles m0 /\ nextBlock (k m0) = nextBlock m0 /\ input (k m0) = input m0 /\
     output (k m0) = output m0 /\ nThreadsInUse (k m0) = nThreadsInUse m0) ->
  p = k (mk_machine (at_ m) (input m) (nextBlock m) (nextThread m) (nThreadsInUse m - 1)
                 (upd (threads m) (nextThread m) SLOT_JOINED) (handles m) (output m ++ out)) ->
  place p (length bs) (S j) (length (concat bs)) ->
  good p bs (S j).
Proof.
  intros m bs j out k p G L EN ES K -> PL.
  destruct (nth_error bs j) as [b|] eqn:EBS; [|apply nth_error_None in EBS; lia].
  destruct (K (mk_machine (at_ m) (input m) (nextBlock m) (nextThread m) (nThreadsInUse m - 1)
                 (upd (threads m) (nextThread m) SLOT_JOINED) (handles m) (output m ++ out))) as (K1 & K2 & K3 & K4 & K5 & K6).
  cbn [threads handles nextBlock input output nThreadsInUse] in *.
  pose proof (g_live _ _ _ G j b (le_n _) EBS) as (s & S1 & S2). rewrite <- EN, ES in S1. injection S1 as <-. cbn [live] in S2. subst out.
  pose proof (g_c _ _ _ G). pose proof (g_threads _ _ _ G).
  split; try rewrite K1; try rewrite K2; try rewrite K3; try rewrite K4; try rewrite K5; try rewrite K6; try (apply G); auto.
  - rewrite upd_length. auto.
  - rewrite (firstn_more _ _ _ _ EBS), map_app, concat_app, (g_out _ _ _ G). cbn. rewrite app_nil_r. auto.
  - rewrite (g_use _ _ _ G). lia.
  - lia.
  - intros i b' L1 E. destruct (g_live _ _ _ G i b') as (s & S1 & S2); [lia|auto|]. exists s. split; auto.
    rewrite upd_nth_other; auto. rewrite EN. apply mod_close; [lia|]. assert (i < length bs)%nat by (apply nth_error_Some; congruence). lia.
  - intros i L1 L2. rewrite EN. destruct (Nat.eq_dec i j) as [->|NE].
    + rewrite upd_nth_same; auto. rewrite H1. apply mod_lt.
    + rewrite upd_nth_other; [apply G; lia|]. intros E. symmetry in E. revert E. apply mod_close; lia.
  - intros i (L1 & L2). rewrite EN. rewrite upd_nth_other; [apply G; lia|]. rewrite Nat.mod_small by lia. lia.
Qed.

Lemma main_good : forall m bs j m', good m bs j -> main_step n m = Some m' -> exists bs' j', good m' bs' j'.
Proof.
  intros m bs j m' G E. pose proof (g_place _ _ _ G) as PL. unfold main_step in E. unfold place in PL.
  pose proof (g_use _ _ _ G) as GU. pose proof (g_j _ _ _ G) as GJ. pose proof (g_c _ _ _ G) as GC.
  destruct (at_ m) as [|last|last|last| | | |] eqn:AT.
  - (* read *) destruct PL as (P1 & P2 & P3 & P4). destruct (input m) as [|w r] eqn:IN.
    + injection E as <-. exists bs, j. split; try apply G. unfold place. cbn. rewrite IN. conjs; auto; try lia; discriminate.
    + injection E as <-. exists bs, j. split; try apply G; cbn.
      * rewrite (g_words _ _ _ G), IN, <- app_assoc. reflexivity.
      * rewrite EB. unfold place. cbn [at_]. rewrite app_length. cbn [length].
        destruct (Nat.eqb_spec (length (nextBlock m) + 1) B); cbn; rewrite app_length; cbn; conjs; auto; try lia; try discriminate.
  - (* queue *) destruct PL as (P1 & P2 & P3 & P4 & P5 & P6). destruct (Nat.eqb_spec (length (nextBlock m)) 0) as [Z0|Z0].
    + assert (nextBlock m = []) as NB by (destruct (nextBlock m); [auto|discriminate]).
      destruct last; [|specialize (P2 eq_refl); lia]. injection E as <-. exists bs, j. split; try apply G. unfold place. cbn.
      conjs; auto; try lia. subst j. destruct (Nat.le_gt_cases n (length bs)).
      * left. split; auto. rewrite P5. apply mod_back. auto.
      * right. split; [lia|]. split; [lia|]. rewrite P5. apply Nat.mod_small. lia.
    + destruct (Nat.eqb_spec (nThreadsInUse m) n) as [U|U].
      * injection E as <-. exists bs, j. split; try apply G. unfold place. cbn. conjs; auto; lia.
      * injection E as <-. exists bs, j. split; try apply G. unfold place. cbn. conjs; auto; lia.
  - (* cleanup *) destruct PL as (P1 & P2 & P3 & P4 & P5 & P6 & P7). unfold cleanupThread in E.
    assert (nextThread m = j mod n) as EN by (rewrite P5, P6; apply mod_back; auto).
    destruct (nth_error bs j) as [b|] eqn:EBS; [|apply nth_error_None in EBS; lia].
    destruct (g_live _ _ _ G j b (le_n _) EBS) as (s & S1 & S2). rewrite EN, S1 in E.
    destruct s as [|todo out|out|]; try contradiction; [discriminate|]. injection E as <-. rewrite <- EN. rewrite <- EN in S1. exists bs, (S j).
    eapply (collect_good m bs j out (fun m => go m (AT_CREATE last))); eauto; try lia.
    + intros m0. conjs; reflexivity.
    + unfold place. cbn. conjs; auto; lia.
  - (* create *) destruct PL as (P1 & P2 & P3 & P4 & P5 & P6).
    assert (nth_error (threads m) (nextThread m) = Some SLOT_UNUSED \/ nth_error (threads m) (nextThread m) = Some SLOT_JOINED) as SL.
    { destruct (Nat.lt_ge_cases (length bs) n).
      - left. rewrite P5, Nat.mod_small by lia. apply G. lia.
      - right. rewrite P5, mod_back by lia. apply G; lia. }
    assert (Some (mk_machine (if last then AT_FINISH else AT_READ) (input m) [] ((nextThread m + 1) mod n) (nThreadsInUse m + 1)
              (upd (threads m) (nextThread m) (SLOT_RUNNING (nextBlock m) [])) (handles m) (output m)) = Some m') as E'
      by (destruct SL as [SL|SL]; rewrite SL in E; exact E).
    injection E' as <-. clear E SL. exists (bs ++ [nextBlock m]), j. pose proof (g_threads _ _ _ G) as GT.
    assert (length (concat (bs ++ [nextBlock m])) = length (concat bs) + length (nextBlock m))%nat as LC by (rewrite concat_app, app_length; cbn; rewrite app_nil_r; auto).
    assert (forall a b : nat, (a <= b)%nat -> (b < a + n)%nat -> a mod n = b mod n -> a = b) as MC.
    { intros a b L1 L2 X. destruct (Nat.eq_dec a b); auto. exfalso. revert X. apply mod_close; lia. }
    split; cbn; try apply G; auto; rewrite ?app_length; cbn [length]; try lia.
    + rewrite upd_length. auto.
    + rewrite (g_words _ _ _ G), concat_app. cbn. rewrite app_nil_r, <- app_assoc. auto.
    + rewrite (g_out _ _ _ G). rewrite firstn_app. replace (j - length bs)%nat with 0%nat by lia. cbn. rewrite app_nil_r. auto.
    + intros i b L1 E. apply app_nth in E. rewrite P5. destruct E as [E|(-> & ->)].
      * destruct (g_live _ _ _ G i b L1 E) as (s & S1 & S2). exists s. split; auto. assert (i < length bs)%nat by (apply nth_error_Some; congruence).
        rewrite upd_nth_other; auto. intros X. symmetry in X. revert X. apply mod_close; lia.
      * eexists. rewrite upd_nth_same; [|rewrite GT; apply mod_lt]. split; [reflexivity|]. exists []. auto.
    + intros i (L1 & L2). rewrite P5, upd_nth_other; [apply G; lia|]. rewrite Nat.mod_small by lia. lia.
    + unfold place. rewrite LC. destruct last; cbn; rewrite P5, mod_next.
      * specialize (P3 eq_refl). conjs; auto; try lia. destruct (Nat.le_gt_cases n (length bs + 1)).
        -- left. split; auto. rewrite mod_back by lia. f_equal. lia.
        -- right. split; [lia|]. split; [lia|]. apply Nat.mod_small. lia.
      * specialize (P2 eq_refl). conjs; auto; lia.
  - (* finish *) destruct PL as (P1 & P2 & P3 & P4 & P5). destruct (Nat.ltb_spec 0 (nThreadsInUse m)); injection E as <-; exists bs, j.
    + split; try apply G. unfold place. cbn. conjs; auto; lia.
    + split; try apply G. unfold place. cbn. conjs; auto; lia.
  - (* finish cleanup *) destruct PL as (P1 & P2 & P3 & P4 & P5 & P6). unfold cleanupThread in E. destruct P6 as [(P6 & EN)|(P6 & P7 & EN)].
    + destruct (nth_error bs j) as [b|] eqn:EBS; [|apply nth_error_None in EBS; lia].
      destruct (g_live _ _ _ G j b (le_n _) EBS) as (s & S1 & S2). rewrite EN, S1 in E.
      destruct s as [|todo out|out|]; try contradiction; [discriminate|]. injection E as <-. rewrite <- EN. rewrite <- EN in S1. exists bs, (S j).
      eapply (collect_good m bs j out (fun m => go (advance n m) AT_FINISH)); eauto; try lia.
      * intros m0. conjs; reflexivity.
      * unfold place. cbn. conjs; auto; try lia. left. split; auto. rewrite EN, mod_next. f_equal. lia.
    + rewrite EN, (g_unused _ _ _ G (length bs)) in E by lia. injection E as <-. exists bs, j. split; try apply G. unfold place. cbn. conjs; auto; lia.
  - discriminate.
  - discriminate.
Qed.

Lemma ok_of_block : forall m bs j b w, good m bs j -> In b bs -> In w b -> ok w.
Proof.
  intros m bs j b w G I1 I2. rewrite Forall_forall in OKW. apply OKW. rewrite (g_words _ _ _ G). apply in_or_app. left.
  apply in_concat. eauto.
Qed.

Lemma slot_owner : forall m bs j i todo out, good m bs j -> nth_error (threads m) i = Some (SLOT_RUNNING todo out) ->
  exists k b, (j <= k)%nat /\ nth_error bs k = Some b /\ k mod n = i /\ live b (SLOT_RUNNING todo out).
Proof.
  intros m bs j i todo out G E. pose proof (g_threads _ _ _ G) as GT. pose proof (g_c _ _ _ G) as GC. pose proof (g_j _ _ _ G) as GJ.
  assert (i < n)%nat as L by (rewrite <- GT; apply nth_error_Some; congruence).
  assert (i < length bs)%nat as LB.
  { destruct (Nat.lt_ge_cases i (length bs)); auto. rewrite (g_unused _ _ _ G i) in E by lia. discriminate. }
  (* the last block with this slot *)
  assert (exists k, (k < length bs)%nat /\ (length bs <= k + n)%nat /\ k mod n = i) as (k & K1 & K2 & K3).
  { exists (i + n * ((length bs - 1 - i) / n))%nat. pose proof (Nat.div_mod (length bs - 1 - i) n ltac:(lia)).
    pose proof (Nat.mod_upper_bound (length bs - 1 - i) n ltac:(lia)). split; [lia|]. split; [lia|].
    rewrite Nat.mul_comm, Nat.mod_add by lia. apply Nat.mod_small. auto. }
  destruct (Nat.lt_ge_cases k j) as [KJ|KJ].
  { rewrite <- K3, (g_joined _ _ _ G k KJ K2) in E. discriminate. }
  destruct (nth_error bs k) as [b|] eqn:EBS; [|apply nth_error_None in EBS; lia].
  destruct (g_live _ _ _ G k b KJ EBS) as (s & S1 & S2). rewrite K3, E in S1. injection S1 as <-. eauto 8.
Qed.

Lemma thread_good : forall m bs j i m', good m bs j -> thread_step chk i m = Some m' -> good m' bs j.
Proof.
  intros m bs j i m' G E. unfold thread_step in E.
  assert (match nth_error (threads m) i with
      | Some (SLOT_RUNNING [] out) => Some (mk_machine (at_ m) (input m) (nextBlock m) (nextThread m) (nThreadsInUse m) (upd (threads m) i (SLOT_ENDED out)) (handles m) (output m))
      | Some (SLOT_RUNNING (w :: r) out) =>
          match nth_error (handles m) i with
          | None => Some (go m AT_FAULT)
          | Some h =>
              match chk h w with
              | Ok (o, h') => Some (mk_machine (at_ m) (input m) (nextBlock m) (nextThread m) (nThreadsInUse m) (upd (threads m) i (SLOT_RUNNING r (out ++ o))) (upd (handles m) i h') (output m))
              | _ => Some (go m AT_FAULT)
              end
          end
      | _ => None
      end = Some m') as E' by (destruct (at_ m); try exact E; discriminate).
  clear E. destruct (nth_error (threads m) i) as [[|todo out|out|]|] eqn:ES; try discriminate.
  pose proof (g_threads _ _ _ G) as GT. pose proof (g_handles _ _ _ G) as GH. pose proof (g_c _ _ _ G) as GC.
  assert (i < n)%nat as L by (rewrite <- GT; apply nth_error_Some; congruence).
  destruct (slot_owner m bs j i todo out G ES) as (k & b & K1 & K2 & K3 & K4).
  assert (forall s hs, live b s -> length hs = n -> Forall fit hs ->
    good (mk_machine (at_ m) (input m) (nextBlock m) (nextThread m) (nThreadsInUse m) (upd (threads m) i s) hs (output m)) bs j) as GOOD.
  { intros s hs LV LH FH. split; cbn; try apply G; auto.
    - rewrite upd_length. auto.
    - intros i' b' L1 E1. destruct (g_live _ _ _ G i' b' L1 E1) as (s' & S1 & S2).
      destruct (Nat.eq_dec i' k) as [->|NE].
      + rewrite K3, upd_nth_same by lia. exists s. split; auto. congruence.
      + exists s'. rewrite upd_nth_other; auto. rewrite <- K3. assert (i' < length bs)%nat by (apply nth_error_Some; congruence).
        assert (k < length bs)%nat by (apply nth_error_Some; congruence).
        intros X. destruct (Nat.lt_ge_cases k i'); [revert X; apply mod_close; lia|]. symmetry in X. revert X. apply mod_close; lia.
    - intros i' L1 L2. pose proof (g_joined _ _ _ G i' L1 L2) as X. rewrite upd_nth_other; auto. intros Y. rewrite <- Y in X. congruence.
    - intros i' L1. pose proof (g_unused _ _ _ G i' L1) as X. rewrite upd_nth_other; auto. intros Y. rewrite <- Y in X. congruence. }
  destruct K4 as (done & -> & ->). destruct todo as [|w r].
  - injection E' as <-. apply GOOD; auto; [|apply G]. cbn. rewrite app_nil_r. auto.
  - destruct (nth_error (handles m) i) as [h|] eqn:EH; [|apply nth_error_None in EH; lia].
    destruct (A h w) as (h' & E & F').
    { pose proof (g_fit _ _ _ G) as F. rewrite Forall_forall in F. apply F. eapply nth_error_In; eauto. }
    { eapply ok_of_block; [exact G|eapply nth_error_In; eauto|]. apply in_or_app. right. left. auto. }
    rewrite E in E'. injection E' as <-. apply GOOD.
    + cbn. exists (done ++ [w]). rewrite <- app_assoc. split; auto. rewrite text_app. cbn. rewrite app_nil_r. auto.
    + rewrite upd_length. auto.
    + pose proof (g_fit _ _ _ G) as F. rewrite Forall_forall in *. intros x Ix. apply In_nth_error in Ix. destruct Ix as (q & Q).
      destruct (Nat.eq_dec q i) as [->|NE].
      * rewrite upd_nth_same in Q by lia. congruence.
      * rewrite upd_nth_other in Q by auto. apply F. eapply nth_error_In; eauto.
Qed.

Lemma step_good : forall m bs j m', good m bs j -> step n chk m m' -> exists bs' j', good m' bs' j'.
Proof. intros m bs j m' G S. destruct S as [m m' E|i m m' E]; [eapply main_good; eauto|]. exists bs, j. eapply thread_good; eauto. Qed.

Lemma runs_good : forall hs k m, length hs = n -> Forall fit hs -> runs n chk k (start n hs words) m -> exists bs j, good m bs j.
Proof.
  intros hs k m L F R. remember (start n hs words) as a eqn:EA. induction R as [m|k a b c R IH S].
  - subst. exists [], 0%nat. apply start_good; auto.
  - subst. destruct IH as (bs & j & G); auto. eapply step_good; eauto.
Qed.

(** ** No thread waits in vain *)

Lemma progress : forall m bs j, good m bs j -> at_ m = AT_END \/ at_ m = AT_FAULT \/ exists m', step n chk m m'.
Proof.
  intros m bs j G. destruct (main_step n m) as [m'|] eqn:E.
  { right. right. exists m'. constructor. auto. }
  unfold main_step in E. destruct (at_ m) as [|last|last|last| | | |] eqn:AT; auto; try discriminate.
  1: destruct (input m); discriminate.
  1: destruct (Nat.eqb (length (nextBlock m)) 0); [discriminate|]; destruct (Nat.eqb (nThreadsInUse m) n); discriminate.
  2: destruct (nth_error (threads m) (nextThread m)) as [[| | |]|]; discriminate.
  2: destruct (0 <? nThreadsInUse m)%nat; discriminate.
  all: right; right; unfold cleanupThread in E; destruct (nth_error (threads m) (nextThread m)) as [[|todo out| |]|] eqn:ES; try discriminate.
  all: assert (exists m', thread_step chk (nextThread m) m = Some m') as (m' & S);
    [unfold thread_step; rewrite AT, ES; (destruct todo; [eexists; reflexivity|]);
     (destruct (nth_error (handles m) (nextThread m)); [|eexists; reflexivity]); destruct (chk h l) as [[o h']| |]; eexists; reflexivity
    |exists m'; eapply step_thread; eauto].
Qed.

Lemma final_stuck : forall m, at_ m = AT_END \/ at_ m = AT_FAULT -> forall m2, ~ step n chk m m2.
Proof.
  intros m AT m2 S. destruct S as [m m' E|i m m' E].
  - unfold main_step in E. destruct AT as [AT|AT]; rewrite AT in E; discriminate.
  - unfold thread_step in E. destruct AT as [AT|AT]; rewrite AT in E; discriminate.
Qed.

(** ** Nothing goes on forever *)

Definition weight_of (s : slot) : nat :=
  match s with SLOT_RUNNING todo _ => length todo + 4 | SLOT_ENDED _ => 3 | _ => 0 end.
Definition main_weight (p : position) : nat :=
  match p with
  | AT_READ => 12 | AT_QUEUE _ => 11 | AT_CLEANUP _ => 10 | AT_CREATE _ => 9 | AT_FINISH => 2 | AT_FINISH_CLEANUP => 1 | AT_END | AT_FAULT => 0
  end.
Definition weight (m : machine H) : nat :=
  (12 * length (input m) + 10 * length (nextBlock m) + list_sum (map weight_of (threads m)) + main_weight (at_ m))%nat.

Lemma sum_upd : forall l i s s', nth_error l i = Some s ->
  (list_sum (map weight_of (upd l i s')) + weight_of s = list_sum (map weight_of l) + weight_of s')%nat.
Proof.
  induction l as [|x l IH]; intros [|i] s s' E; cbn in *; try discriminate.
  - injection E as ->. lia.
  - specialize (IH i s s' E). unfold list_sum in *. lia.
Qed.

Lemma sum_upd_le : forall l i s, (list_sum (map weight_of (upd l i s)) <= list_sum (map weight_of l) + weight_of s)%nat.
Proof.
  induction l as [|x l IH]; intros [|i] s; cbn in *; try lia. specialize (IH i s). unfold list_sum in *. lia.
Qed.

Local Ltac fields := cbn [input nextBlock threads at_ handles go main_weight length weight_of advance nextThread nThreadsInUse output].

Lemma step_weight : forall m bs j m', good m bs j -> step n chk m m' -> (weight m' < weight m)%nat.
Proof.
  intros m bs j m' G S. pose proof (g_place _ _ _ G) as PL. unfold place in PL. destruct S as [m m' E|i m m' E].
  - unfold main_step in E. destruct (at_ m) as [|last|last|last| | | |] eqn:AT.
    + destruct (input m) as [|w r] eqn:IN; injection E as <-; unfold weight; fields; rewrite AT, IN.
      * fields. lia.
      * rewrite app_length. fields. rewrite EB. destruct (Nat.eqb (length (nextBlock m) + 1) B); fields; lia.
    + destruct (Nat.eqb_spec (length (nextBlock m)) 0) as [Z0|Z0].
      * destruct PL as (P1 & P2 & _). destruct last; [|specialize (P2 eq_refl); lia]. injection E as <-. unfold weight. fields. rewrite AT. fields. lia.
      * destruct (Nat.eqb (nThreadsInUse m) n); injection E as <-; unfold weight; fields; rewrite AT; fields; lia.
    + unfold cleanupThread in E. destruct (nth_error (threads m) (nextThread m)) as [[|todo out|out|]|] eqn:ES; try discriminate;
        injection E as <-; unfold weight; fields; rewrite AT; fields; try lia.
      pose proof (sum_upd _ _ _ SLOT_JOINED ES) as X. cbn [weight_of length] in X. lia.
    + assert (forall s, nth_error (threads m) (nextThread m) = Some s -> 0 < length (nextBlock m) ->
         (12 * length (input m) + 10 * 0 + list_sum (map weight_of (upd (threads m) (nextThread m) (SLOT_RUNNING (nextBlock m) []))) +
          main_weight (if last then AT_FINISH else AT_READ) < 12 * length (input m) + 10 * length (nextBlock m) + list_sum (map weight_of (threads m)) + 9))%nat as X.
      { intros s ES LB. pose proof (sum_upd_le (threads m) (nextThread m) (SLOT_RUNNING (nextBlock m) [])) as X. cbn [weight_of] in X.
        destruct last; cbn [main_weight]; lia. }
      destruct PL as ((P0 & _) & _).
      destruct (nth_error (threads m) (nextThread m)) as [[|todo out|out|]|] eqn:ES; injection E as <-; unfold weight; fields; rewrite ?AT; fields; try lia;
        specialize (X _ eq_refl P0); destruct last; cbn [main_weight length] in X |- *; lia.
    + destruct (0 <? nThreadsInUse m)%nat; injection E as <-; unfold weight; fields; rewrite AT; fields; lia.
    + unfold cleanupThread in E. destruct (nth_error (threads m) (nextThread m)) as [[|todo out|out|]|] eqn:ES; try discriminate;
        injection E as <-; unfold weight; fields; rewrite AT; fields; try lia.
      pose proof (sum_upd _ _ _ SLOT_JOINED ES) as X. cbn [weight_of length] in X. lia.
    + discriminate.
    + discriminate.
  - unfold thread_step in E.
    assert (0 < main_weight (at_ m))%nat as MW by (destruct (at_ m); try discriminate; cbn; lia).
    assert (match nth_error (threads m) i with
      | Some (SLOT_RUNNING [] out) => Some (mk_machine (at_ m) (input m) (nextBlock m) (nextThread m) (nThreadsInUse m) (upd (threads m) i (SLOT_ENDED out)) (handles m) (output m))
      | Some (SLOT_RUNNING (w :: r) out) =>
          match nth_error (handles m) i with
          | None => Some (go m AT_FAULT)
          | Some h =>
              match chk h w with
              | Ok (o, h') => Some (mk_machine (at_ m) (input m) (nextBlock m) (nextThread m) (nThreadsInUse m) (upd (threads m) i (SLOT_RUNNING r (out ++ o))) (upd (handles m) i h') (output m))
              | _ => Some (go m AT_FAULT)
              end
          end
      | _ => None
      end = Some m') as E' by (destruct (at_ m); try exact E; discriminate).
    clear E PL. destruct (nth_error (threads m) i) as [[|[|w r] out|out|]|] eqn:ES; try discriminate.
    + injection E' as <-. unfold weight. fields. pose proof (sum_upd _ _ _ (SLOT_ENDED out) ES) as X. cbn [weight_of length] in X. lia.
    + destruct (nth_error (handles m) i) as [h|]; [|injection E' as <-; unfold weight; fields; lia].
      destruct (chk h w) as [[o h']| |]; injection E' as <-; unfold weight; fields; try lia.
      pose proof (sum_upd _ _ _ (SLOT_RUNNING r (out ++ o)) ES) as X. cbn [weight_of length] in X. lia.
Qed.

Lemma sum_unused : forall k, list_sum (map weight_of (repeat SLOT_UNUSED k)) = 0.
Proof. induction k; cbn; auto. Qed.

Lemma runs_weight : forall hs k m, length hs = n -> Forall fit hs -> runs n chk k (start n hs words) m ->
  (k + weight m <= 12 * length words + 12)%nat.
Proof.
  intros hs k m L F R. remember (start n hs words) as a eqn:EA. revert EA. induction R as [m|k a b c R IH S]; intros EA.
  - rewrite EA. unfold weight, start. fields. rewrite sum_unused. lia.
  - subst a. specialize (IH eq_refl). destruct (runs_good hs k b L F R) as (bs & j & G). pose proof (step_weight b bs j c G S). lia.
Qed.

(** ** Results *)

Lemma few : forall m bs j, good m bs j -> at_ m = AT_FAULT -> (0 < length words <= B * (n - 1))%nat.
Proof.
  intros m bs j G AT. pose proof (g_place _ _ _ G) as PL. unfold place in PL. rewrite AT in PL. destruct PL as (P1 & P2 & P3 & P4 & P5).
  rewrite (g_words _ _ _ G), P1, P2, !app_nil_r. nia.
Qed.

Lemma enough : forall m bs j, good m bs j -> at_ m = AT_END ->
  (length words = 0 \/ B * (n - 1) < length words)%nat /\ output m = text words.
Proof.
  intros m bs j G AT. pose proof (g_place _ _ _ G) as PL. unfold place in PL. rewrite AT in PL. destruct PL as (P1 & P2 & P3 & P4 & P5 & P6).
  pose proof (g_words _ _ _ G) as W. rewrite P1, P2, !app_nil_r in W. split.
  - rewrite W. destruct P6; [right|left]; nia.
  - rewrite (g_out _ _ _ G), P5, firstn_all, W. unfold text. clear. induction bs as [|b bs IH]; cbn; auto.
    rewrite IH, map_app, concat_app. auto.
Qed.

Lemma all_runs : forall hs, length hs = n -> Forall fit hs ->
  ((length words = 0 \/ B * (n - 1) < length words)%nat ->
     always_ends n chk (start n hs words) (12 * length words + 12) (fun m => at_ m = AT_END /\ output m = text words)) /\
  ((0 < length words <= B * (n - 1))%nat ->
     always_ends n chk (start n hs words) (12 * length words + 12) (fun m => at_ m = AT_FAULT)).
Proof.
  intros hs L F. split; intros C k m R; pose proof (runs_weight hs k m L F R); destruct (runs_good hs k m L F R) as (bs & j & G);
    (split; [lia|]); split.
  - intros ST. destruct (progress m bs j G) as [E|[E|(m' & S)]].
    + split; auto. eapply enough; eauto.
    + pose proof (few m bs j G E). lia.
    + destruct (ST m' S).
  - intros (E & _). apply final_stuck. auto.
  - intros ST. destruct (progress m bs j G) as [E|[E|(m' & S)]]; auto.
    + destruct (enough m bs j G E) as (X & _). lia.
    + destruct (ST m' S).
  - intros E. apply final_stuck. auto.
Qed.
End Threads.
