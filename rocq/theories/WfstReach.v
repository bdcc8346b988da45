(** * How far a failed lookup went, and going back in a weighted transducer. *)
From Coq Require Import Sorted.
From Verif Require Import Base BaseFacts FstModel FstFileModel FstSpec FstProofs FstPaths FstLookup WfstModel WfstSpec WfstProofs WfstPaths WfstLookup.
From Verif Require FstProps.

(** ** Positions a search does not look at *)

Lemma wasearch_reached : forall n W word bufferLen size f r reached o fr m,
  wasearch n W word bufferLen size f r reached = (o, fr, m) -> (reached <= m)%nat.
Proof.
  induction n as [|n IH]; intros W word bufferLen size f r reached o fr m E; cbn [wasearch] in E; [injection E as _ _ <-; lia|].
  destruct (wtopscan W word f) as [[[i t] [[fl pos]|]]|].
  - destruct (Nat.eqb (length r + 2) size); [injection E as _ _ <-; lia|]. apply IH in E. destruct (Nat.eqb pos (fr_pos f)); lia.
  - destruct (write_output (forget W) (osyms (forget W) r) bufferLen []) as [[o'|]| |]; injection E as _ _ <-; lia.
  - destruct r; [injection E as _ _ <-; lia|]. eauto.
Qed.

Section Agree.
Variable W : wtransducer.
Variables w1 w2 : list Z.
Variable m : nat.
Hypothesis long : (m < length w1)%nat.
Hypothesis same : firstn (S m) w1 = firstn (S m) w2.

Lemma agree_nth : forall pos, (pos <= m)%nat -> nth_error w1 pos = nth_error w2 pos.
Proof. intros pos P. rewrite <- (nth_error_firstn_lt _ w1 (S m) pos) by lia. rewrite same. apply nth_error_firstn_lt. lia. Qed.

Lemma agree_long : (m < length w2)%nat.
Proof. apply (f_equal (@length Z)) in same. rewrite !firstn_length in same. lia. Qed.

Lemma agree_act : forall T fl pos t, (pos <= m)%nat -> act T w1 false fl pos t = act T w2 false fl pos t.
Proof.
  intros T fl pos t P. unfold act. pose proof agree_long. replace (Nat.eqb pos (length w1)) with false by (symmetry; apply Nat.eqb_neq; lia).
  replace (Nat.eqb pos (length w2)) with false by (symmetry; apply Nat.eqb_neq; lia). now rewrite agree_nth.
Qed.

Lemma agree_insym : forall pos, (pos <= m)%nat -> insym W w1 pos = insym W w2 pos.
Proof. intros pos P. unfold insym. now rewrite agree_nth. Qed.

Lemma agree_scan : forall k q last big fl pos i, (pos <= m)%nat -> wascan k W w1 q last big fl pos i = wascan k W w2 q last big fl pos i.
Proof.
  induction k as [|k IH]; intros q last big fl pos i P; cbn [wascan]; [reflexivity|].
  destruct (last <? i)%nat; [reflexivity|]. destruct (big && Nat.eqb i (q + 1)); [auto|].
  destruct (nth_error (wtransitions W) i) as [c|]; [|reflexivity]. rewrite agree_act by assumption.
  destruct (act (forget W) w2 false fl pos (forget_weight c)); [reflexivity|]. rewrite agree_insym by assumption.
  destruct (w_symIn c =? 4294967295); [auto|]. destruct (insym W w2 pos <? w_symIn c); [reflexivity|].
  destruct ((1 <=? i - q)%nat && (w_firstNormalChar W <=? w_symIn c) && (w_symIn c <? insym W w2 pos)); [|auto].
  destruct (wbinary (last - i) W i (insym W w2 pos) 0 (last - i)); auto.
Qed.

Lemma agree_act_pos : forall T fl pos t fl' pos', act T w1 false fl pos t = Some (Some (fl', pos')) -> (pos' = pos \/ pos' = S pos)%nat.
Proof.
  intros T fl pos t fl' pos' A. unfold act in A. destruct (symIn t =? FINAL); [destruct (Nat.eqb pos (length w1) || false); discriminate|].
  destruct (firstNormalChar T <=? symIn t).
  - destruct (nth_error w1 pos); [|discriminate]. destruct (input_symbol T z =? symIn t); [|discriminate]. injection A as _ <-. auto.
  - destruct (symIn t =? 0); [injection A as _ <-; auto|]. destruct (nth_error (symbolToDiacritic T) (Z.to_nat (symIn t))); [|discriminate].
    destruct (nth_error fl (ofv_feature o)); [|discriminate]. destruct (flag_operation o z) as [[]|]; try discriminate; injection A as _ <-; auto.
Qed.

(** A search that ends without getting beyond position [m] goes the same way for
    every word that has the same characters up to there. *)
Lemma agree_search : forall n bufferLen size f r reached fr, Forall (fun g => (fr_pos g <= reached)%nat) (f :: r) ->
  wasearch n W w1 bufferLen size f r reached = (WEnd, fr, m) -> wasearch n W w2 bufferLen size f r reached = (WEnd, fr, m).
Proof.
  induction n as [|n IH]; intros bufferLen size f r reached fr FA E; cbn [wasearch] in *; [discriminate|].
  assert (RM : (reached <= m)%nat) by (apply (wasearch_reached (S n) W w1 bufferLen size f r reached WEnd fr m); exact E).
  inversion FA as [|? ? F1 F2]; subst.
  assert (TS : wtopscan W w1 f = wtopscan W w2 f).
  { unfold wtopscan. destruct (extent (forget W) (fr_state f)) as [[last big]|]; [|reflexivity]. apply agree_scan. lia. }
  rewrite <- TS. destruct (wtopscan W w1 f) as [[[i t] [[fl pos]|]]|] eqn:ES.
  - destruct (Nat.eqb (length r + 2) size); [discriminate|].
    apply IH; [|exact E]. pose proof E as E'. apply wasearch_reached in E'. constructor; [|constructor].
    + cbn [fr_pos]. destruct (Nat.eqb_spec pos (fr_pos f)); lia.
    + cbn [fr_pos set_ct]. destruct (Nat.eqb pos (fr_pos f)); lia.
    + eapply Forall_impl; [|exact F2]. cbn beta. intros g G. destruct (Nat.eqb pos (fr_pos f)); lia.
  - destruct (write_output (forget W) (osyms (forget W) r) bufferLen []) as [[o'|]| |]; discriminate.
  - destruct r as [|g r]; [exact E|]. apply IH; [|exact E]. inversion F2; subst. constructor; assumption.
Qed.
End Agree.

(** A failed lookup that got as far as position [n] of [word], but not to its
    end, shows that no word with the same first [n + 1] characters is
    accepted. *)
Section Prune.
Variable W : wtransducer.
Variable states : nat -> Prop.
Local Notation T := (forget W).
Hypothesis Wnormal : 0 < w_firstNormalChar W < FINAL.
Hypothesis Wsymbols : forall c s, find_symbol (w_stringToSymbol W) c = Some s -> w_firstNormalChar W <= s < Z.of_nat (length (w_symbolToString W)).
Hypothesis Wunknown : w_firstNormalChar W <= Z.of_nat (length (w_symbolToString W)).
Hypothesis Wepsilon : nth_error (w_symbolToString W) 0 = Some [].
Hypothesis Winitial : states 0%nat.
Hypothesis Wstates : forall q, states q -> good_wstate W q /\
  forall i c, has_wtransition W q i c -> good_wtransition W c /\ (w_symIn c <> 0xFFFFFFFF -> states (Z.to_nat (w_target c))).
Hypothesis ordered : in_file_order W.
Hypothesis flags : one_flag W.

Lemma prune : forall n word len size fr m, (0 < len)%nat ->
  wasearch n W word len size (start (neutral T)) [] 0 = (WEnd, fr, m) ->
  forall word', (m < length word)%nat -> firstn (S m) word = firstn (S m) word' -> forall p out, ~ waccepts W word' p out.
Proof.
  intros n word len size fr m LEN E word' L S p out A.
  pose proof (agree_search W word word' m L S n len size _ _ _ fr ltac:(repeat constructor; cbn; lia) E) as E'. destruct fr as [f' r'].
  pose proof (wasearch_found W states word' Wnormal Wsymbols Wunknown Wepsilon Wstates _ _ _ _ _ _ _ [] _ _ _ _
    (wchain_start W states Wsymbols Winitial Wstates word') LEN (wfound_start W states Wstates word') ltac:(constructor) E') as (_ & _ & X).
  apply (X (conj ordered flags) p out (length word')). apply FstProps.accepts_acc. split; [reflexivity|exact A].
Qed.
End Prune.
