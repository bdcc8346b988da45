(** * Building the base form stays inside the buffer *)
From Verif Require Import Base BaseFacts CharModel AnalysisModel FinModel FinSpec FinStructure FinTotal.
From Coq Require Import Lia.

(** ** Numerals *)

Lemma numeral_tag_ok : forall o i s, (i < length o)%nat -> exists r, numeral_tag (o ++ [0]) (length o) i s = Ok r /\
  (forall k s', r = Some (k, s') -> length (n_baseform s') = length (n_baseform s) /\ n_pos s' = n_pos s).
Proof.
  intros o i s H. unfold numeral_tag.
  set (s1 := if n_isInDigitSequence s then _ else s).
  assert (E1 : n_baseform s1 = n_baseform s /\ n_pos s1 = n_pos s) by (unfold s1; destruct (n_isInDigitSequence s); auto).
  destruct s1 as [buf pos x1 x2 x3 x4 x5]. cbn [n_baseform n_pos] in E1. destruct E1 as [-> ->].
  destruct (length o <=? i + 2)%nat eqn:Q; [eexists; split; [reflexivity|discriminate]|].
  destruct (starts_ok o i "[Xp]") as [y1 ->]; [lia|nonul|]. destruct (starts_ok o i "[Xj]") as [y2 ->]; [lia|nonul|]. destruct (starts_ok o i "[Xr]") as [y3 ->]; [lia|nonul|].
  destruct (starts_ok o i "[Bc]") as [y4 ->]; [lia|nonul|]. destruct (starts_ok o i "[Ln]") as [y5 ->]; [lia|nonul|]. destruct (starts_ok o i "[Ll]") as [y6 ->]; [lia|nonul|].
  destruct (starts_ok o i "[Lnl]") as [y7 ->]; [lia|nonul|]. destruct (starts_ok o i "[X]") as [y8 ->]; [lia|nonul|]. cbn [bind].
  eexists. split; [reflexivity|]. intros k s' E.
  repeat match type of E with (if ?c then _ else _) = _ => destruct c end; try discriminate; injection E as <- <-; split; reflexivity.
Qed.

Lemma numeral_loop_ok : forall f o i s extra, (length o <= f + i)%nat -> (n_pos s + length o <= i + extra \/ (n_pos s + length o <= extra + length o /\ n_pos s <= extra))%nat ->
  (n_pos s + (length o - i) < length (n_baseform s))%nat ->
  exists ok s', numeral_loop f (o ++ [0]) (length o) i s = Ok (ok, s') /\ length (n_baseform s') = length (n_baseform s) /\ (n_pos s' < length (n_baseform s'))%nat.
Proof.
  induction f as [|f IH]; intros o i s extra F _ H; cbn [numeral_loop].
  - replace (i <? length o)%nat with false by lia. exists true, s. split; [reflexivity|]. split; [reflexivity|lia].
  - destruct (i <? length o)%nat eqn:Q; [|exists true, s; split; [reflexivity|]; split; [reflexivity|lia]].
    destruct (rd_out o i) as [c ->]; [lia|]. cbn [bind].
    set (s1 := if Nat.eqb i 0 && (isDigit c || (c =? ch "-")) then _ else s).
    assert (E1 : n_baseform s1 = n_baseform s /\ n_pos s1 = n_pos s) by (unfold s1; destruct (_ && _); auto).
    destruct E1 as [E1 E2]. clearbody s1. rewrite <- E1 in H |- *. rewrite <- E2 in H. clear E1 E2 s. rename s1 into s.
    assert (STEP : forall s' k, length (n_baseform s') = length (n_baseform s) -> n_pos s' = n_pos s ->
      exists ok s'', numeral_loop f (o ++ [0]) (length o) (S (i + k)) s' = Ok (ok, s'') /\ length (n_baseform s'') = length (n_baseform s) /\ (n_pos s'' < length (n_baseform s''))%nat).
    { intros s' k A B. rewrite <- A. apply (IH o (S (i + k)) s' (n_pos s')); [lia|right; lia|]. rewrite A, B. lia. }
    assert (STEP0 : forall s', length (n_baseform s') = length (n_baseform s) -> n_pos s' = n_pos s ->
      exists ok s'', numeral_loop f (o ++ [0]) (length o) (S i) s' = Ok (ok, s'') /\ length (n_baseform s'') = length (n_baseform s) /\ (n_pos s'' < length (n_baseform s''))%nat).
    { intros s' A B. rewrite <- (Nat.add_0_r i). now apply STEP. }
    destruct (c =? ch "[").
    + destruct (numeral_tag_ok o i s) as (r & -> & R); [lia|]. cbn [bind]. destruct r as [[k s']|].
      * destruct (R k s' eq_refl). now apply STEP.
      * exists false, s. split; [reflexivity|]. split; [reflexivity|lia].
    + destruct (n_isInXr s); [now apply STEP0|]. destruct (n_isInTag s); [destruct (c =? ch "]"); now apply STEP0|].
      destruct (_ || _ || _ || _); [|now apply STEP0]. unfold n_put, wr. replace (n_pos s <? length (n_baseform s))%nat with true by lia. cbn [bind].
      match goal with |- context [numeral_loop f _ _ (S i) ?s'] => destruct (IH o (S i) s' (n_pos s')) as (ok & s'' & E & A & B) end; [lia|right; lia|cbn [n_pos n_baseform]; rewrite upd_length; lia|].
      exists ok, s''. split; [exact E|]. cbn [n_baseform] in A. rewrite upd_length in A. split; [exact A|exact B].
Qed.

Lemma parseNumeralBaseform_ok : forall o buf pos, (pos + length o < length buf)%nat ->
  exists ok buf', parseNumeralBaseform o buf pos = Ok (ok, buf') /\ length buf' = length buf.
Proof.
  intros o buf pos H. unfold parseNumeralBaseform.
  destruct (numeral_loop_ok (length o) o 0 (mk_ns buf pos false false false false false) pos) as (ok & s & -> & A & B); [lia|right; cbn [n_pos]; lia|cbn [n_pos n_baseform]; lia|].
  cbn [bind]. cbn [n_baseform] in A. destruct ok.
  - unfold wr. replace (n_pos s <? length (n_baseform s))%nat with true by lia. cbn [bind]. eexists _, _. split; [reflexivity|]. rewrite upd_length. exact A.
  - eexists _, _. split; [reflexivity|]. exact A.
Qed.

(** ** Base forms *)

Lemma copy_xp_ok : forall n o i title s, (i + n <= length o)%nat -> (baseformPos s + n < length (baseform s))%nat ->
  exists s', copy_xp n (o ++ [0]) i title s = Ok s' /\ length (baseform s') = length (baseform s) /\ (baseformPos s' <= baseformPos s + n)%nat /\
    (forall q, (i <= q)%nat -> (q < i + n)%nat -> rd (o ++ [0]) q = Ok (ch "[") -> (baseformPos s' <= baseformPos s + (q - i))%nat) /\
    latestXpStartInFst s' = latestXpStartInFst s /\ latestXpStartInBaseform s' = latestXpStartInBaseform s /\ isInXp s' = isInXp s.
Proof.
  induction n as [|n IH]; intros o i title s I P; cbn [copy_xp].
  - exists s. split; [reflexivity|]. split; [reflexivity|]. split; [lia|]. split; [intros; lia|]. auto.
  - destruct (rd_out o i) as [c C]; [lia|]. rewrite C. cbn [bind]. destruct (c =? ch "[") eqn:Q.
    + exists s. split; [reflexivity|]. split; [reflexivity|]. split; [lia|]. split; [intros; lia|]. auto.
    + assert (PUT : exists s1, (if c =? ch "=" then Ok s else b_put s (if title && Nat.eqb i (latestXpStartInFst s) then upper c else c)) = Ok s1 /\
        length (baseform s1) = length (baseform s) /\ (baseformPos s1 <= S (baseformPos s))%nat /\
        latestXpStartInFst s1 = latestXpStartInFst s /\ latestXpStartInBaseform s1 = latestXpStartInBaseform s /\ isInXp s1 = isInXp s).
      { destruct (c =? ch "="); [exists s; auto 10|]. unfold b_put, wr. replace (baseformPos s <? length (baseform s))%nat with true by lia. cbn [bind].
        eexists. split; [reflexivity|]. cbn [baseform baseformPos latestXpStartInFst latestXpStartInBaseform isInXp]. rewrite upd_length. auto. }
      destruct PUT as (s1 & -> & A & B & C1 & C2 & C3). cbn [bind].
      destruct (IH o (S i) title s1) as (s' & E & D1 & D2 & D3 & D4 & D5 & D6); [lia|lia|].
      exists s'. split; [exact E|]. split; [congruence|]. split; [lia|]. split; [|repeat split; congruence].
      intros q Q1 Q2 Q3. destruct (Nat.eq_dec q i) as [->|NE].
      * rewrite C in Q3. injection Q3 as ->. rewrite Z.eqb_refl in Q. discriminate.
      * specialize (D3 q ltac:(lia) ltac:(lia) Q3). lia.
Qed.

Lemma place_name_follows_ok : forall n o j, (length o <= n + j)%nat -> exists x, place_name_follows n (o ++ [0]) (length o) j = Ok x.
Proof.
  induction n as [|n IH]; intros o j H; cbn [place_name_follows].
  - replace (j + 4 <? length o)%nat with false by lia. eauto.
  - destruct (j + 4 <? length o)%nat eqn:Q; [|eauto]. destruct (starts_ok o j "[Lep]") as [x ->]; [lia|nonul|]. cbn [bind]. destruct x; [eauto|]. apply IH. lia.
Qed.

Definition base_inv (o : list Z) (i : nat) (s : base_state) : Prop :=
  length (baseform s) = (length o + 1)%nat /\ (baseformPos s <= i)%nat /\ (baseformPos s <= length o)%nat /\
  (latestXpStartInFst s <> 0%nat -> (latestXpStartInBaseform s + 4 <= latestXpStartInFst s)%nat /\ (latestXpStartInFst s <= i)%nat /\ (latestXpStartInFst s <= length o)%nat /\
     (isInXp s = false -> exists q, (latestXpStartInFst s <= q)%nat /\ (q < i)%nat /\ (q < length o)%nat /\ rd (o ++ [0]) q = Ok (ch "["))).

Ltac fields := cbn [baseform baseformPos latestXpStartInFst latestXpStartInBaseform hyphensInLatestXp bstructurePos isInXp isInXr isInTag ignoreNextDe isDe classTagSeen] in *.

Lemma base_later : forall o i i' s s', (i <= i')%nat -> baseform s' = baseform s -> baseformPos s' = baseformPos s ->
  latestXpStartInFst s' = latestXpStartInFst s -> latestXpStartInBaseform s' = latestXpStartInBaseform s -> isInXp s' = isInXp s ->
  base_inv o i s -> base_inv o i' s'.
Proof.
  intros o i i' s s' H A B C D E (I1 & I2 & I3 & I4). unfold base_inv. rewrite A, B, C, D, E. split; [exact I1|]. split; [lia|]. split; [exact I3|].
  intros N. destruct (I4 N) as (J1 & J2 & J3 & J4). split; [exact J1|]. split; [lia|]. split; [exact J3|]. intros X. destruct (J4 X) as (q & Q1 & Q2 & Q3 & Q4). exists q. repeat split; [lia|lia|lia|exact Q4].
Qed.

Lemma base_tag_ok : forall o i s, (i < length o)%nat -> rd (o ++ [0]) i = Ok (ch "[") -> base_inv o i s ->
  exists r, base_tag (o ++ [0]) o (length o) i s = Ok r /\ (forall k s', r = inr (Some (k, s')) -> base_inv o (S (i + k)) s').
Proof.
  intros o i s L BR I. unfold base_tag. destruct s as [buf pos xf xb hx sp xp xr tag ign de cls].
  destruct (length o <=? i + 2)%nat eqn:Q; [eexists; split; [reflexivity|discriminate]|].
  destruct (rd_out o (i + 1)) as [c1 ->]; [lia|]. destruct (rd_out o (i + 2)) as [c2 ->]; [lia|]. cbn [bind].
  assert (SAME : forall k (r' : list Z + option (nat * base_state)), (forall k' s', r' = inr (Some (k', s')) -> k' = k /\ baseform s' = buf /\ baseformPos s' = pos /\ latestXpStartInFst s' = xf /\ latestXpStartInBaseform s' = xb /\ isInXp s' = xp) ->
    exists r, Ok r' = Ok r /\ (forall k s', r = inr (Some (k, s')) -> base_inv o (S (i + k)) s')).
  { intros k r' H. exists r'. split; [reflexivity|]. intros k' s' E. destruct (H k' s' E) as (-> & A & B & C & D & F). eapply base_later; [| | | | | |exact I]; fields; [lia|congruence..]. }
  destruct (c1 =? ch "X").
  - destruct (c2 =? ch "]").
    + eexists. split; [reflexivity|]. intros k s' E. injection E as <- <-. destruct I as (I1 & I2 & I3 & I4). fields. unfold base_inv. fields.
      split; [exact I1|]. split; [lia|]. split; [exact I3|]. intros N. destruct (I4 N) as (J1 & J2 & J3 & J4). split; [exact J1|]. split; [lia|]. split; [exact J3|].
      intros _. exists i. repeat split; [lia|lia|lia|exact BR].
    + destruct (i + 6 <? length o)%nat eqn:Q6.
      * destruct (rd_out o (i + 3)) as [c3 ->]; [lia|]. cbn [bind andb]. destruct (c3 =? ch "]").
        -- destruct ((c2 =? ch "p") || (c2 =? ch "j")).
           ++ eexists. split; [reflexivity|]. intros k s' E. injection E as <- <-. destruct I as (I1 & I2 & I3 & I4). fields. unfold base_inv. fields.
              split; [exact I1|]. split; [lia|]. split; [exact I3|]. intros _. split; [lia|]. split; [lia|]. split; [lia|]. discriminate.
           ++ destruct ((c2 =? ch "r") || (c2 =? ch "s")).
              ** apply (SAME 3%nat). intros k s' E. injection E as <- <-. repeat split.
              ** apply (SAME 0%nat). intros k s' E. injection E as <- <-. repeat split.
        -- apply (SAME 0%nat). intros k s' E. injection E as <- <-. repeat split.
      * cbn [bind andb]. apply (SAME 0%nat). intros k s' E. injection E as <- <-. repeat split.
  - destruct (starts_ok o (i + 1) "Lu]") as [lu ->]; [lia|nonul|]. cbn [bind]. destruct (negb cls && (i + 6 <? length o)%nat && lu) eqn:Q1.
    + destruct I as (I1 & I2 & I3 & I4). fields. destruct (parseNumeralBaseform_ok (skipn (i + 4) o) buf pos) as (ok & buf' & -> & LB); [rewrite skipn_length; lia|]. cbn [bind].
      eexists. split; [reflexivity|]. intros k s' E. destruct ok; [discriminate|]. injection E as <- <-. unfold base_inv. fields.
      split; [congruence|]. split; [lia|]. split; [exact I3|]. intros N. destruct (I4 N) as (J1 & J2 & J3 & J4). split; [exact J1|]. split; [lia|]. split; [exact J3|].
      intros X. destruct (J4 X) as (q & Q2 & Q3 & Q4 & Q5). exists q. repeat split; [lia|lia|lia|exact Q5].
    + destruct (starts_ok o (i + 1) "De]") as [dd ->]; [lia|nonul|]. cbn [bind]. destruct dd.
      * apply (SAME 3%nat). intros k s' E. injection E as <- <-. repeat split.
      * destruct (c1 =? ch "L").
        -- assert (NL : exists x, (if (length o <=? i + 3)%nat then Ok false else starts (o ++ [0]) (i + 2) "nl") = Ok x).
           { destruct (length o <=? i + 3)%nat eqn:Q3; [eauto|]. apply starts_ok; [lia|nonul]. }
           destruct NL as [x ->]. cbn [bind]. apply (SAME 0%nat). intros k s' E. injection E as <- <-. repeat split.
        -- apply (SAME 0%nat). intros k s' E. injection E as <- <-. repeat split.
Qed.

Lemma base_hyphen_ok : forall o i s, (i < length o)%nat -> base_inv o i s -> isInXp s = false ->
  exists s', base_hyphen (o ++ [0]) (length o) i s = Ok s' /\ base_inv o i s' /\ isInXp s' = false.
Proof.
  intros o i s L I X. unfold base_hyphen.
  assert (G : exists s1, (if (0 <? hyphensInLatestXp s)%nat then
          Ok (mk_base (baseform s) (baseformPos s) (latestXpStartInFst s) (latestXpStartInBaseform s) (hyphensInLatestXp s - 1)
                (bstructurePos s) (isInXp s) (isInXr s) (isInTag s) (ignoreNextDe s) (isDe s) (classTagSeen s))
        else
          s <- (if isDe s && negb (Nat.eqb (latestXpStartInFst s) 0) then
                  if (i <? 2)%nat then UB
                  else
                    after_is <- starts (o ++ [0]) (i - 2) "is" ;;
                    if (after_is : bool) then Ok s
                    else
                      place <- place_name_follows (length o) (o ++ [0]) (length o) i ;;
                      if (place : bool) then copy_xp (length o - latestXpStartInFst s) (o ++ [0]) (latestXpStartInFst s) true (b_rewind s)
                      else Ok s
                else Ok s) ;;
          Ok (mk_base (baseform s) (baseformPos s) 0 (latestXpStartInBaseform s) (hyphensInLatestXp s)
                (bstructurePos s) (isInXp s) (isInXr s) (isInTag s) (ignoreNextDe s) (isDe s) (classTagSeen s))) = Ok s1 /\ base_inv o i s1 /\ isInXp s1 = false).
  { destruct (0 <? hyphensInLatestXp s)%nat.
    - eexists. split; [reflexivity|]. split; [|exact X]. eapply base_later; [..|exact I]; fields; auto.
    - assert (G : exists s1, (if isDe s && negb (Nat.eqb (latestXpStartInFst s) 0) then
                  if (i <? 2)%nat then UB
                  else
                    after_is <- starts (o ++ [0]) (i - 2) "is" ;;
                    if (after_is : bool) then Ok s
                    else
                      place <- place_name_follows (length o) (o ++ [0]) (length o) i ;;
                      if (place : bool) then copy_xp (length o - latestXpStartInFst s) (o ++ [0]) (latestXpStartInFst s) true (b_rewind s)
                      else Ok s
                else Ok s) = Ok s1 /\ length (baseform s1) = (length o + 1)%nat /\ (baseformPos s1 <= i)%nat /\ (baseformPos s1 <= length o)%nat /\ isInXp s1 = false).
      { pose proof I as (I1 & I2 & I3 & I4).
        assert (ID : exists s1, Ok s = Ok s1 /\ length (baseform s1) = (length o + 1)%nat /\ (baseformPos s1 <= i)%nat /\ (baseformPos s1 <= length o)%nat /\ isInXp s1 = false) by (exists s; auto).
        destruct (isDe s && negb (Nat.eqb (latestXpStartInFst s) 0)) eqn:Q; [|exact ID]. apply andb_true_iff in Q. destruct Q as [_ Q]. apply negb_true_iff in Q. apply Nat.eqb_neq in Q.
        destruct (I4 Q) as (J1 & J2 & J3 & J4). destruct (J4 X) as (q & Q1 & Q2 & Q3 & Q4).
        replace (i <? 2)%nat with false by lia. destruct (starts_ok o (i - 2) "is") as [x ->]; [lia|nonul|]. cbn [bind]. destruct x; [exact ID|].
        destruct (place_name_follows_ok (length o) o i) as [y ->]; [lia|]. cbn [bind]. destruct y; [|exact ID].
        destruct (copy_xp_ok (length o - latestXpStartInFst s) o (latestXpStartInFst s) true (b_rewind s)) as (s' & E & D1 & D2 & D3 & D4 & D5 & D6); [lia|unfold b_rewind; fields; lia|].
        exists s'. split; [exact E|]. unfold b_rewind in *. fields. specialize (D3 q Q1 ltac:(lia) Q4). split; [congruence|]. split; [lia|]. split; [lia|]. congruence. }
      destruct G as (s1 & -> & A & B & C & D). cbn [bind]. eexists. split; [reflexivity|]. fields. split; [|exact D]. unfold base_inv. fields. split; [exact A|]. split; [exact B|]. split; [exact C|]. intros N. now elim N. }
  destruct G as (s1 & -> & I1 & X1). cbn [bind]. eexists. split; [reflexivity|]. fields. split; [|exact X1]. eapply base_later; [..|exact I1]; fields; auto.
Qed.

Lemma base_char_ok : forall o st i c s, (i < length o)%nat -> base_inv o i s -> isInXp s = false ->
  exists s', base_char (o ++ [0]) st (length o) i c s = Ok s' /\ base_inv o (S i) s'.
Proof.
  intros o st i c s L I X. unfold base_char.
  assert (G : exists s1, (if c =? ch "-" then base_hyphen (o ++ [0]) (length o) i s else Ok s) = Ok s1 /\ base_inv o i s1 /\ isInXp s1 = false).
  { destruct (c =? ch "-"); [now apply base_hyphen_ok|eauto]. }
  destruct G as (s1 & -> & (I1 & I2 & I3 & I4) & X1). cbn [bind]. destruct (pattern_char _ _) as [p t]. unfold b_put, wr. fields.
  replace (baseformPos s1 <? length (baseform s1))%nat with true by lia. cbn [bind]. eexists. split; [reflexivity|]. unfold base_inv. fields. rewrite upd_length.
  split; [exact I1|]. split; [lia|]. split; [lia|]. intros N. destruct (I4 N) as (J1 & J2 & J3 & J4). split; [exact J1|]. split; [lia|]. split; [exact J3|].
  intros _. destruct (J4 X1) as (q & Q1 & Q2 & Q3 & Q4). exists q. repeat split; [lia|lia|lia|exact Q4].
Qed.

Lemma base_loop_ok : forall f o st i s, (length o <= f + i)%nat -> base_inv o i s ->
  exists r, base_loop f (o ++ [0]) o st (length o) i s = Ok r /\ (forall s', r = inr (Some s') -> exists i', base_inv o i' s').
Proof.
  induction f as [|f IH]; intros o st i s F I; cbn [base_loop].
  - replace (i <? length o)%nat with false by lia. eexists. split; [reflexivity|]. intros s' E. injection E as <-. eauto.
  - destruct (i <? length o)%nat eqn:Q; [|eexists; split; [reflexivity|]; intros s' E; injection E as <-; eauto].
    destruct (rd_out o i) as [c C]; [lia|]. rewrite C. cbn [bind]. destruct (c =? ch "[") eqn:CB.
    + apply Z.eqb_eq in CB. subst c. destruct (base_tag_ok o i s) as (r & -> & R); [lia|exact C|exact I|]. cbn [bind]. destruct r as [buf|[[k s']|]].
      * eexists. split; [reflexivity|discriminate].
      * apply IH; [lia|]. now apply R.
      * eexists. split; [reflexivity|discriminate].
    + destruct (isInXr s); [apply IH; [lia|]; eapply base_later; [..|exact I]; auto|].
      destruct (isInTag s). { apply IH; [lia|]. destruct (c =? ch "]"); (eapply base_later; [..|exact I]; fields; auto). }
      destruct (isInXp s) eqn:X. { apply IH; [lia|]. destruct (c =? ch "-"); (eapply base_later; [..|exact I]; fields; auto). }
      destruct (base_char_ok o st i c s) as (s' & -> & I'); [lia|exact I|exact X|]. cbn [bind]. apply IH; [lia|exact I'].
Qed.

Lemma parseBaseform_ok : forall o st, exists r, parseBaseform o st = Ok r.
Proof.
  intros o st. unfold parseBaseform.
  destruct (base_loop_ok (length o) o st 0 (mk_base (repeat 0 (length o + 1)) 0 0 0 0 0 false false false false false false)) as (r & -> & R); [lia| |].
  { unfold base_inv. fields. rewrite repeat_length. repeat split; try lia; try congruence. }
  cbn [bind]. destruct r as [buf|[s|]]; [eauto| |eauto]. destruct (R s eq_refl) as (i & I1 & I2 & I3 & I4).
  assert (G : exists s1, (if Nat.eqb (latestXpStartInFst s) 0 then Ok s else copy_xp (length o - latestXpStartInFst s) (o ++ [0]) (latestXpStartInFst s) false (b_rewind s)) = Ok s1 /\
     length (baseform s1) = (length o + 1)%nat /\ (baseformPos s1 <= length o)%nat).
  { destruct (Nat.eqb (latestXpStartInFst s) 0) eqn:Q; [exists s; auto|]. apply Nat.eqb_neq in Q. destruct (I4 Q) as (J1 & J2 & J3 & J4).
    destruct (copy_xp_ok (length o - latestXpStartInFst s) o (latestXpStartInFst s) false (b_rewind s)) as (s' & E & D1 & D2 & _); [lia|unfold b_rewind; fields; lia|].
    exists s'. split; [exact E|]. unfold b_rewind in *. fields. split; [congruence|lia]. }
  destruct G as (s1 & -> & A & B). cbn [bind]. destruct (Nat.eqb (baseformPos s1) 0); [eauto|]. unfold wr. replace (baseformPos s1 <? length (baseform s1))%nat with true by lia. cbn [bind]. eauto.
Qed.
