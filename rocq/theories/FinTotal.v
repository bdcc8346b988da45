(** * The analyser for Finnish stays inside its buffers, for every output *)
From Verif Require Import Base BaseFacts CharModel AnalysisModel FinModel FinSpec FinStructure.
From Coq Require Import Lia.

(** ** Reading *)

Lemma rd_out : forall (o : list Z) i, (i <= length o)%nat -> exists c, rd (o ++ [0]) i = Ok c.
Proof.
  intros o i H. unfold rd. destruct (nth_error (o ++ [0]) i) eqn:E; [eauto|]. apply nth_error_None in E. rewrite app_length in E. cbn [length] in E. lia.
Qed.

Lemma prefix_ok : forall s t, ~ In 0 s -> exists x, prefix_eq s (t ++ [0]) = Ok x.
Proof.
  induction s as [|c s IH]; intros t H; cbn [prefix_eq]; [eauto|]. assert (C : c <> 0) by (intros ->; apply H; now left).
  destruct t as [|d t]; cbn [app].
  - replace (c =? 0) with false by (symmetry; now apply Z.eqb_neq). eauto.
  - destruct (c =? d); [|eauto]. apply IH. intros I. apply H. now right.
Qed.

Lemma starts_ok : forall o i s, (i <= length o)%nat -> ~ In 0 (wstr s) -> exists x, starts (o ++ [0]) i s = Ok x.
Proof.
  intros o i s H N. unfold starts. rewrite skipn_app. replace (i - length o)%nat with 0%nat by lia. cbn [skipn]. now apply prefix_ok.
Qed.

(** What a positive answer says. *)
Lemma prefix_true : forall s t, prefix_eq s t = Ok true -> firstn (length s) t = s.
Proof.
  induction s as [|c s IH]; intros t H; [reflexivity|]. cbn [prefix_eq] in H. destruct t as [|d t]; [discriminate|].
  destruct (c =? d) eqn:E; [|discriminate]. apply Z.eqb_eq in E. subst d. cbn [length firstn]. now rewrite IH.
Qed.

Lemma starts_length : forall o i s, starts (o ++ [0]) i s = Ok true -> ~ In 0 (wstr s) -> (i <= length o)%nat -> (i + length (wstr s) <= length o)%nat.
Proof.
  intros o i s H N P. unfold starts in H. apply prefix_true in H.
  destruct (le_lt_dec (i + length (wstr s)) (length o)) as [L|L]; [exact L|exfalso].
  apply N. rewrite <- H. rewrite skipn_app. replace (i - length o)%nat with 0%nat by lia. cbn [skipn]. rewrite firstn_app. apply in_or_app. right.
  rewrite skipn_length. destruct (length (wstr s) - (length o - i))%nat eqn:E; [lia|]. now left.
Qed.

Ltac nonul := let H := fresh in intros H; vm_compute in H; intuition discriminate.

(** ** The structure is fixed *)

Definition same_case (c d : Z) : Prop := c = d \/ (In c (wstr "ip") /\ In d (wstr "ip")).

Lemma same_refl : forall l, Forall2 same_case l l.
Proof. induction l; constructor; [now left|assumption]. Qed.
Lemma same_trans : forall a b c, Forall2 same_case a b -> Forall2 same_case b c -> Forall2 same_case a c.
Proof.
  intros a b c H. revert c. induction H as [|x y a b X _ IH]; intros c H2; inversion H2; subst; constructor; [|now apply IH].
  unfold same_case in *. destruct X as [->|[X1 X2]]; destruct H1 as [<-|[Y1 Y2]]; auto.
Qed.

Lemma lower_part_same : forall st n m, Forall2 same_case st (lower_part st n m).
Proof.
  induction st as [|c st IH]; intros n m; cbn [lower_part]; [constructor|]. destruct (c =? ch "i") eqn:E.
  - apply Z.eqb_eq in E. subst c. constructor; [|apply IH]. destruct (Nat.eqb n m); [right; split; vm_compute; tauto|now left].
  - destruct (c =? ch "-"); constructor; auto; now left.
Qed.
Lemma raise_first_same : forall st, Forall2 same_case st (raise_first st).
Proof.
  induction st as [|c st IH]; cbn [raise_first]; [constructor|]. destruct ((c =? ch "i") || (c =? ch "p")) eqn:E.
  - constructor; [|apply same_refl]. right. apply orb_true_iff in E. destruct E as [E|E]; apply Z.eqb_eq in E; subst c; split; vm_compute; tauto.
  - constructor; [now left|exact IH].
Qed.

Lemma find_place_name_ok : forall n o j up, (length o <= n + j)%nat -> exists j' up', find_place_name n (o ++ [0]) (length o) j up = Ok (j', up') /\ (j <= j')%nat.
Proof.
  induction n as [|n IH]; intros o j up H; cbn [find_place_name].
  - replace (j + 4 <? length o)%nat with false by lia. rewrite andb_false_r. eauto.
  - destruct (negb up && (j + 4 <? length o)%nat) eqn:Q; [|eauto]. apply andb_true_iff in Q. destruct Q as [_ Q].
    destruct (starts_ok o j "[Lep]") as [x ->]; [lia|nonul|]. cbn [bind]. destruct (IH o (S j) x) as (j' & up' & E & L); [lia|]. exists j', up'. split; [exact E|lia].
Qed.

Lemma fix_loop_ok : forall f o j st de hc, (length o <= f + j)%nat ->
  exists st', fix_loop f (o ++ [0]) (length o) j st de hc = Ok st' /\ Forall2 same_case st st'.
Proof.
  induction f as [|f IH]; intros o j st de hc H; cbn [fix_loop].
  - replace (j <? length o)%nat with false by lia. exists st. split; [reflexivity|apply same_refl].
  - destruct (j <? length o)%nat eqn:Q; [|exists st; split; [reflexivity|apply same_refl]].
    destruct (rd_out o j) as [c ->]; [lia|]. cbn [bind]. destruct ((j + 3 <? length o)%nat && (c =? ch "[")) eqn:Q1.
    + apply andb_true_iff in Q1. destruct Q1 as [Q1 _]. destruct (rd_out o (j + 1)) as [c1 ->]; [lia|]. destruct (rd_out o (j + 2)) as [c2 ->]; [lia|]. cbn [bind].
      destruct (c1 =? ch "D").
      * destruct (c2 =? ch "g"); [|destruct (c2 =? ch "e"); apply IH; lia].
        destruct (IH o (S j) (lower_part st 0 hc) de hc) as (st' & E & F); [lia|]. exists st'. split; [exact E|].
        eapply same_trans; [apply lower_part_same|exact F].
      * destruct (starts_ok o (j + 1) "Ln]") as [x ->]; [lia|nonul|]. cbn [bind]. apply IH. lia.
    + destruct (c =? ch "-"); [|apply IH; lia]. destruct de; [|apply IH; lia].
      destruct (find_place_name_ok (length o) o (S j) (Nat.eqb j (length o - 1))) as (j' & up & E & L); [lia|]. rewrite E. cbn [bind].
      destruct (up && has_letter st); [exists (raise_first st); split; [reflexivity|apply raise_first_same]|]. apply IH. lia.
Qed.

Lemma fixStructure_ok : forall st o, exists st', fixStructure st o = Ok st' /\ Forall2 same_case st st'.
Proof. intros st o. apply fix_loop_ok. lia. Qed.

Lemma same_symbols : forall a b, Forall2 same_case a b -> Forall2 same_case (symbols a) (symbols b).
Proof.
  intros a b H. induction H as [|x y a b X _ IH]; [constructor|]. unfold symbols in *. cbn [filter].
  assert (E : (y =? ch "=") = (x =? ch "=")).
  { destruct X as [->|[X1 X2]]; [reflexivity|]. cbn in X1, X2. destruct X1 as [<-|[<-|[]]]; destruct X2 as [<-|[<-|[]]]; reflexivity. }
  rewrite E. destruct (x =? ch "="); cbn [negb]; [exact IH|now constructor].
Qed.

Lemma same_borders : forall a b k, Forall2 same_case a b -> borders_from k a = borders_from k b.
Proof.
  intros a b k H. revert k. induction H as [|x y a b X _ IH]; intros k; [reflexivity|]. cbn [borders_from].
  assert (E : (y =? ch "=") = (x =? ch "=")).
  { destruct X as [->|[X1 X2]]; [reflexivity|]. cbn in X1, X2. destruct X1 as [<-|[<-|[]]]; destruct X2 as [<-|[<-|[]]]; reflexivity. }
  rewrite E. destruct (x =? ch "="); now rewrite IH.
Qed.

Lemma same_structure : forall w a b, Forall2 same_case a b -> structure_of w a -> structure_of w b.
Proof.
  intros w a b H [A B]. split.
  - apply same_symbols in H. revert w A. induction H as [|x y p q X _ IH]; intros w A; inversion A; subst; constructor; [|now apply IH].
    destruct X as [->|[X1 X2]]; [assumption|]. unfold symbol_for in *. cbn in X1, X2.
    destruct (x0 =? ch "-"); [subst x; vm_compute in X1; intuition discriminate|]. destruct (x0 =? ch ":"); [subst x; vm_compute in X1; intuition discriminate|].
    destruct X2 as [<-|[<-|[]]]; vm_compute; tauto.
  - inversion H as [|x y p q X Y E1 E2]; subst; [exact B|]. cbn [hd] in *. destruct X as [->|[X1 _]]; [exact B|].
    exfalso. cbn in X1. destruct X1 as [<-|[<-|[]]]; destruct B as [B|B]; vm_compute in B; discriminate.
Qed.

(** ** Hyphens are checked *)

Lemma skip_x_ok : forall n o i, (length o <= n + i)%nat -> exists j, skip_x n (o ++ [0]) (length o) i = Ok j /\ (i <= j)%nat.
Proof.
  induction n as [|n IH]; intros o i H; cbn [skip_x].
  - replace (i + 3 <? length o)%nat with false by lia. eauto.
  - destruct (i + 3 <? length o)%nat eqn:Q; [|eauto].
    destruct (rd_out o (S i)) as [c0 ->]; [lia|]. destruct (rd_out o (S i + 1)) as [c1 ->]; [lia|]. destruct (rd_out o (S i + 2)) as [c2 ->]; [lia|]. cbn [bind].
    destruct (_ && _); [exists (S i + 2)%nat; split; [reflexivity|lia]|]. destruct (IH o (S i)) as (j & E & L); [lia|]. exists j. split; [exact E|lia].
Qed.

Lemma skip_tag_ok : forall n o i, (length o < n + i)%nat -> (0 < n)%nat -> exists j, skip_tag n (o ++ [0]) (length o) i = Ok j /\ (i <= j)%nat.
Proof.
  induction n as [|n IH]; intros o i H P; cbn [skip_tag]; [lia|]. destruct (S i <? length o)%nat eqn:Q; [|eauto].
  destruct (rd_out o (S i)) as [c ->]; [lia|]. cbn [bind]. destruct (c =? ch "]"); [exists (S i); split; [reflexivity|lia]|].
  destruct (IH o (S i)) as (j & E & L); [lia|lia|]. exists j. split; [exact E|lia].
Qed.

Lemma valid_info_ok : forall o i s, exists s', valid_info (o ++ [0]) i (length o) s = Ok s'.
Proof.
  intros o i [bl l bp hp ha hj hr rm sp en]. unfold valid_info. destruct (i + 3 <? length o)%nat eqn:Q; [|eauto].
  destruct (rd_out o (i + 1)) as [c1 ->]; [lia|]. cbn [bind]. destruct (c1 =? ch "I").
  - destruct (starts_ok o (i + 2) "sf") as [x ->]; [lia|nonul|]. destruct (starts_ok o (i + 2) "cu") as [y ->]; [lia|nonul|].
    destruct (starts_ok o (i + 2) "ca") as [z ->]; [lia|nonul|]. cbn [bind]. eauto.
  - destruct (c1 =? ch "L").
    + destruct (rd_out o (i + 2)) as [c2 ->]; [lia|]. cbn [bind]. eauto.
    + destruct (starts_ok o (i + 1) "Dg") as [x ->]; [lia|nonul|]. cbn [bind]. eauto.
Qed.

Lemma valid_tag_ok : forall o i s, exists r, valid_tag (o ++ [0]) i (length o) s = Ok r /\ (forall j s', r = Some (j, s') -> (i <= j)%nat).
Proof.
  intros o i s. unfold valid_tag. destruct (length o <=? i + 2)%nat eqn:Q; [eexists; split; [reflexivity|discriminate]|].
  destruct (valid_info_ok o i s) as [s1 ->]. cbn [bind]. destruct (rd_out o (i + 1)) as [c1 ->]; [lia|]. cbn [bind]. destruct (c1 =? ch "X").
  - destruct (skip_x_ok (length o) o i) as (j & -> & L); [lia|]. cbn [bind]. eexists. split; [reflexivity|]. intros j' s' E. injection E as <- _. exact L.
  - destruct (starts_ok o (i + 1) "Bh") as [x ->]; [lia|nonul|]. cbn [bind]. destruct x.
    + destruct (requiredHyphenMissing s1); eexists; (split; [reflexivity|]); [discriminate|]. intros j' s' E. injection E as <- _. lia.
    + destruct (skip_tag_ok (S (length o)) o i) as (j & -> & L); [lia|lia|]. cbn [bind]. eexists. split; [reflexivity|]. intros j' s' E. injection E as <- _. exact L.
Qed.

Lemma valid_hyphen_ok : forall o i s, exists j s', valid_hyphen (o ++ [0]) i (length o) s = Ok (j, s') /\ (i <= j)%nat.
Proof.
  intros o i [bl l bp hp ha hj hr rm sp en]. unfold valid_hyphen. destruct (i + 5 <? length o)%nat eqn:Q.
  - destruct (starts_ok o (i + 1) "[Bh]") as [x ->]; [lia|nonul|]. cbn [bind]. destruct x; eexists _, _; (split; [reflexivity|lia]).
  - cbn [bind]. eexists _, _. split; [reflexivity|lia].
Qed.

Lemma valid_loop_ok : forall f o i s, (length o <= f + i)%nat -> exists x, valid_loop f (o ++ [0]) (length o) i s = Ok x.
Proof.
  induction f as [|f IH]; intros o i s H; cbn [valid_loop].
  - replace (i <? length o)%nat with false by lia. eauto.
  - destruct (i <? length o)%nat eqn:Q; [|eauto]. destruct (rd_out o i) as [c ->]; [lia|]. cbn [bind]. destruct (c =? ch "[").
    + destruct (valid_tag_ok o i s) as (r & -> & L). cbn [bind]. destruct r as [[j s']|]; [|eauto]. specialize (L j s' eq_refl). apply IH. lia.
    + destruct (c =? ch "-").
      * destruct (valid_hyphen_ok o i s) as (j & s' & -> & L). cbn [bind]. apply IH. lia.
      * destruct (valid_char c s); [apply IH; lia|eauto].
Qed.

Lemma isValidAnalysis_ok : forall o, exists x, isValidAnalysis o = Ok x.
Proof. intros o. apply valid_loop_ok. lia. Qed.
