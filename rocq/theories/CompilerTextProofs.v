(** * Proofs about the text form of transducers. *)
From Verif Require Import Base BaseFacts Utf8Spec FstModel FstFileModel CompilerModel CompilerSpec CompilerReading CompilerProofs CompilerTextModel CompilerTextSpec.

Lemma white_is : forall c, is_white c = true <-> white c \/ c = 10.
Proof. intros c. unfold is_white, white. rewrite orb_true_iff, andb_true_iff, Z.eqb_eq, !Z.leb_le. lia. Qed.
Lemma not_white : forall c, ~ white c -> c <> 10 -> is_white c = false.
Proof. intros c A B. destruct (is_white c) eqn:E; auto. apply white_is in E. tauto. Qed.
Lemma white_white : forall c, white c -> is_white c = true.
Proof. intros c A. apply white_is. auto. Qed.

(** Lines. *)
Lemma getlines_line : forall l acc r, ~ In 10 l -> getlines acc (l ++ [10] ++ r) = (acc ++ l) :: getlines [] r.
Proof.
  induction l as [|c l IH]; intros acc r N; cbn [app getlines].
  - rewrite Z.eqb_refl, app_nil_r. auto.
  - destruct (Z.eqb_spec c 10) as [->|X]; [exfalso; apply N; left; auto|]. cbn [app] in IH. rewrite IH; [|intros I; apply N; right; auto]. rewrite <- app_assoc. auto.
Qed.

(** What follows a field: the end of the line or white space. *)
Definition ends (r : list Z) : Prop := match r with [] => True | c :: _ => is_white c = true end.
Lemma ends_gap : forall g r, gap g -> ends (g ++ r).
Proof. intros [|c g] r [B N]; [congruence|]. inversion_clear B as [|? ? W X]. cbn. apply white_white. auto. Qed.

Lemma skip_blank : forall b r, blank b -> skip_white (b ++ r) = skip_white r.
Proof. induction b as [|c b IH]; intros r B; auto. inversion_clear B as [|? ? W X]. cbn [app skip_white]. rewrite (white_white c); auto. Qed.
Definition begins (l : list Z) : Prop := match l with [] => False | c :: _ => is_white c = false end.
Lemma skip_begins : forall l r, begins l -> skip_white (l ++ r) = l ++ r.
Proof. intros [|c l] r B; [destruct B|]. cbn in *. rewrite B. auto. Qed.
Lemma sentry_field : forall b l r, blank b -> begins l -> sentry (mk_stream (b ++ l ++ r) false false) = Some (l ++ r).
Proof. intros b l r B L. unfold sentry. cbn [s_eof s_fail s_rest orb]. rewrite skip_blank, skip_begins; auto. destruct l; [destruct L|]. auto. Qed.

(** Numbers. *)
Lemma digit_facts : forall d, (d < 10)%nat -> is_digit (48 + Z.of_nat d) = true /\ is_white (48 + Z.of_nat d) = false.
Proof. intros d D. unfold is_digit, is_white. split; [apply andb_true_iff; rewrite !Z.leb_le; lia|]. apply orb_false_iff, conj; [apply Z.eqb_neq; lia|]. apply andb_false_iff. rewrite !Z.leb_gt. lia. Qed.
Lemma digits_facts : forall q n, digits_of q n -> n <> [] /\ Forall (fun c => is_digit c = true /\ is_white c = false) n /\ fold_left (fun v d => 10 * v + (d - 48)) n 0 = Z.of_nat q.
Proof.
  induction 1 as [d D|q l d D (IH1 & IH2 & IH3) L].
  - conjs; [discriminate|constructor; [apply digit_facts; auto|constructor]|cbn [fold_left]; lia].
  - conjs; [destruct l; discriminate|apply Forall_app; split; auto; constructor; [apply digit_facts; auto|constructor]|]. rewrite fold_left_app, IH3. cbn [fold_left]. lia.
Qed.
Lemma white_digit : forall c, is_white c = true -> is_digit c = false.
Proof. intros c W. apply white_is in W. unfold white in W. unfold is_digit. apply andb_false_iff. rewrite !Z.leb_gt. lia. Qed.
Lemma take_digits_all : forall n r, Forall (fun c => is_digit c = true /\ is_white c = false) n -> ends r -> take_digits (n ++ r) = (n, r).
Proof.
  induction n as [|c n IH]; intros r D E.
  - destruct r as [|c r]; auto. cbn [app take_digits]. cbn in E. rewrite (white_digit c); auto.
  - inversion_clear D as [|? ? [D1 D2] D3]. cbn [app take_digits]. rewrite D1, IH; auto.
Qed.
Definition at_end (r : list Z) : bool := match r with [] => true | _ => false end.
Lemma read_unsigned_digits : forall b q n r old, blank b -> digits_of q n -> Z.of_nat q < 2 ^ 32 -> ends r ->
  read_unsigned (mk_stream (b ++ n ++ r) false false) old = (Z.of_nat q, mk_stream r (at_end r) false).
Proof.
  intros b q n r old B D L E. destruct (digits_facts q n D) as (N & F & V). unfold read_unsigned. rewrite sentry_field; auto; [|destruct n; [congruence|inversion_clear F; tauto]].
  destruct n as [|c n]; [congruence|]. cbn [app]. inversion F as [|? ? [F1 F2] F3]; subst. assert (48 <= c <= 57) by (unfold is_digit in F1; apply andb_true_iff in F1; rewrite !Z.leb_le in F1; lia).
  destruct (Z.eqb_spec c 0x2D); [lia|]. destruct (Z.eqb_spec c 0x2B); [lia|]. cbn [orb]. change (c :: n ++ r) with ((c :: n) ++ r). rewrite take_digits_all; auto. rewrite V.
  destruct (Z.ltb_spec (2 ^ 32 - 1) (Z.of_nat q)); [lia|]. rewrite Z.mod_small; [auto|lia].
Qed.

(** Words. *)
Lemma take_word_all : forall w r, Forall (fun c => ~ white c /\ c <> 10) w -> ends r -> take_word (w ++ r) = (w, r).
Proof.
  induction w as [|c w IH]; intros r D E.
  - destruct r as [|c r]; auto. cbn [app take_word]. cbn in E. rewrite E. auto.
  - inversion_clear D as [|? ? [D1 D2] D3]. cbn [app take_word]. rewrite (not_white c D1 D2), IH; auto.
Qed.
Lemma word_begins : forall w, a_word w -> begins w.
Proof. intros [|c w] [N F]; [congruence|]. inversion_clear F as [|? ? [A B] X]. cbn. apply not_white; auto. Qed.
Lemma read_string_word : forall b w r old, blank b -> a_word w -> ends r -> read_string (mk_stream (b ++ w ++ r) false false) old = (w, mk_stream r (at_end r) false).
Proof. intros b w r old B A E. unfold read_string. rewrite sentry_field; auto; [|apply word_begins; auto]. destruct A as [A1 A2]. rewrite take_word_all; auto. Qed.
Lemma digits_word : forall q n, digits_of q n -> a_word n.
Proof.
  intros q n D. destruct (digits_facts q n D) as (N & F & _). split; auto. eapply Forall_impl; [|exact F]. cbn. intros c [A B].
  split; [intros W; apply white_white in W; congruence|]. intros ->. discriminate.
Qed.

(** Lines without weights. *)
Definition field_ok (i : item) : Prop :=
  match i with
  | Final q => Z.of_nat q < 2 ^ 32
  | Arc q q' s o => Z.of_nat q < 2 ^ 32 /\ Z.of_nat q' < 2 ^ 32 /\ a_word (symbol_field s) /\ a_word (symbol_field o)
  end.
Lemma writable_items : forall A, writable A -> Forall field_ok A.
Proof.
  intros A [W N]. apply Forall_forall. intros i I. rewrite Forall_forall in N. specialize (N i I). destruct i as [q|q q' s o]; [auto|]. destruct N as [N1 N2]. rewrite Forall_forall in W.
  cbn. conjs; auto; apply W; unfold symbols_of; right; apply in_flat_map; eexists; split; [exact I|cbn; auto|exact I|cbn; auto].
Qed.
Lemma gap_blank : forall g, gap g -> blank g. Proof. intros g [G _]. auto. Qed.
Lemma not_at_end : forall g r, gap g -> at_end (g ++ r) = false. Proof. intros [|c g] r [B N]; [congruence|]. auto. Qed.

Lemma parse_line_text : forall i l, line_text i l -> field_ok i -> parse_line l = Some (line_of i).
Proof.
  intros i l H OK. destruct H as [q before n B D|q q' i o before n g1 n' g2 g3 after B D G1 D' G2 G3 AF N]; cbn [field_ok] in OK.
  - unfold parse_line, istringstream. rewrite <- (app_nil_r n), (read_unsigned_digits before q n []); auto; [|exact I]. cbn [at_end s_eof]. rewrite Nat2Z.id. auto.
  - destruct OK as (L1 & L2 & W1 & W2). unfold parse_line, istringstream.
    rewrite (read_unsigned_digits before q n); auto; [|apply ends_gap; auto]. rewrite not_at_end; auto. cbn [s_eof].
    rewrite (read_unsigned_digits g1 q' n'); auto; [|apply gap_blank; auto|apply ends_gap; auto]. rewrite not_at_end; auto.
    rewrite read_string_word; auto; [|apply gap_blank; auto|apply ends_gap; auto]. rewrite not_at_end; auto.
    rewrite read_string_word; auto; [|apply gap_blank; auto|destruct AF as [->|(c & more & -> & W)]; [exact I|apply white_white; auto]]. cbn [s_fail]. rewrite !Nat2Z.id. auto.
Qed.

Lemma blank_newline : forall b, blank b -> ~ In 10 b.
Proof. intros b B I. unfold blank in B. rewrite Forall_forall in B. specialize (B 10 I). unfold white in B. lia. Qed.
Lemma word_newline : forall w, a_word w -> ~ In 10 w.
Proof. intros w [_ B] I. rewrite Forall_forall in B. specialize (B 10 I). tauto. Qed.
Lemma app_newline : forall a b : list Z, ~ In 10 a -> ~ In 10 b -> ~ In 10 (a ++ b).
Proof. intros a b A B I. apply in_app_iff in I. tauto. Qed.
Lemma line_newline : forall i l, line_text i l -> field_ok i -> ~ In 10 l.
Proof.
  intros i l H OK. destruct H as [q before n B D|q q' i o before n g1 n' g2 g3 after B D G1 D' G2 G3 AF N]; cbn [field_ok] in OK.
  - apply app_newline; [apply blank_newline|apply word_newline, (digits_word q)]; auto.
  - destruct OK as (L1 & L2 & W1 & W2). repeat apply app_newline; auto; first [solve [apply blank_newline; auto; apply gap_blank; auto]|solve [apply word_newline; auto; eapply digits_word; eauto]].
Qed.

Lemma text_lines : forall A text, text_form A text -> Forall field_ok A -> exists lines, getlines [] text = lines /\ Forall2 (fun i l => parse_line l = Some (line_of i)) A lines.
Proof.
  induction 1 as [|i A l r H H2 IH]; intros F; [exists []; auto|]. inversion_clear F as [|? ? F1 F2]. destruct (IH F2) as (lines & E & P). exists (l :: lines). split.
  - rewrite getlines_line; [|eapply line_newline; eauto]. rewrite E. auto.
  - constructor; auto. apply parse_line_text; auto.
Qed.

Lemma read_input_lines : forall parse A lines syms states, Forall2 (fun i l => parse l = Ok (Some i)) A lines ->
  read_input parse lines syms states = Ok (read_lines A syms states).
Proof.
  intros parse A lines syms states H. revert syms states. induction H as [|[i z] l A lines P H IH]; intros syms states; auto. cbn [read_input read_lines]. rewrite P. cbn [bind].
  destruct (read_line i z syms states) as [[syms' states']|]; auto.
Qed.

Lemma text_same : forall A text b, text_form A text -> writable A -> voikkovfstc_text b text = Ok (voikkovfstc b (map line_of A)).
Proof.
  intros A text b H W. destruct (text_lines A text H (writable_items A W)) as (lines & E & P). unfold voikkovfstc_text, voikkovfstc, main_text, main_vfstc. rewrite E.
  rewrite (read_input_lines _ (map (fun line => (line, 0)) (map line_of A))).
  - cbn [bind]. destruct (read_lines _ _ _) as [[syms states]|]; auto.
  - clear - P. induction P as [|i l A lines P H IH]; constructor; auto. cbv beta. rewrite P. auto.
Qed.

(** Lines with weights. *)
Section WEIGHTED.
Variable weight_of_text : list Z -> option Z.
Variable weight_of_zero : Z.
Variable number : Z -> list Z -> Prop.
Hypothesis number_weight : forall z w, number z w -> a_word w /\ weight_of_text w = Some z.

Lemma sentry_word : forall w, a_word w -> sentry (istringstream w) = Some w.
Proof. intros w W. pose proof (sentry_field [] w [] (Forall_nil _) (word_begins w W)) as X. cbn [app] in X. rewrite app_nil_r in X. auto. Qed.
Lemma parse_weighted_text : forall x l, weighted_line_text number x l -> field_ok (fst x) -> parse_weighted_line weight_of_text weight_of_zero l = Ok (Some (weighted_line x)).
Proof.
  intros x l H OK. destruct H as [q before n B D|q before n g1 w z B D G1 NU|q q' i o z before n g1 n' g2 g3 g4 w B D G1 D' G2 G3 G4 NU]; cbn [field_ok fst] in OK.
  - unfold parse_weighted_line, istringstream. rewrite <- (app_nil_r n), (read_unsigned_digits before q n []); auto; [|exact I]. cbn [at_end s_eof]. rewrite Nat2Z.id. auto.
  - destruct (number_weight z w NU) as [W1 W2]. unfold parse_weighted_line. change (istringstream (before ++ n ++ g1 ++ w)) with (mk_stream (before ++ n ++ g1 ++ w) false false).
    rewrite (read_unsigned_digits before q n); auto; [|apply ends_gap; auto]. rewrite not_at_end; auto. cbn [s_eof].
    rewrite <- (app_nil_r w). rewrite read_string_word; auto; [|apply gap_blank; auto|exact I]. cbn [s_eof at_end]. rewrite sentry_word, W2, Nat2Z.id; auto.
  - destruct OK as (L1 & L2 & W1 & W2). destruct (number_weight z w NU) as [W3 W4]. unfold parse_weighted_line.
    change (istringstream (before ++ n ++ g1 ++ n' ++ g2 ++ symbol_field i ++ g3 ++ symbol_field o ++ g4 ++ w)) with (mk_stream (before ++ n ++ g1 ++ n' ++ g2 ++ symbol_field i ++ g3 ++ symbol_field o ++ g4 ++ w) false false).
    rewrite (read_unsigned_digits before q n); auto; [|apply ends_gap; auto]. rewrite not_at_end; auto. cbn [s_eof].
    rewrite read_string_word; auto; [|apply gap_blank; auto|eapply digits_word; eauto|apply ends_gap; auto]. rewrite not_at_end; auto. cbn [s_eof].
    pose proof (read_unsigned_digits [] q' n' [] 0 (Forall_nil _) D' L2 I) as R. cbn [app] in R. rewrite app_nil_r in R. unfold istringstream. rewrite R.
    rewrite read_string_word; auto; [|apply gap_blank; auto|apply ends_gap; auto]. rewrite not_at_end; auto.
    rewrite read_string_word; auto; [|apply gap_blank; auto|apply ends_gap; auto]. rewrite not_at_end; auto. cbn [s_fail s_eof].
    pose proof (sentry_field g4 w [] (gap_blank _ G4) (word_begins w W3)) as X. rewrite app_nil_r in X. rewrite X, W4, !Nat2Z.id. auto.
Qed.
Lemma weighted_line_newline : forall x l, weighted_line_text number x l -> field_ok (fst x) -> ~ In 10 l.
Proof.
  intros x l H OK. destruct H as [q before n B D|q before n g1 w z B D G1 NU|q q' i o z before n g1 n' g2 g3 g4 w B D G1 D' G2 G3 G4 NU]; cbn [field_ok fst] in OK.
  - apply app_newline; [apply blank_newline|apply word_newline, (digits_word q)]; auto.
  - destruct (number_weight z w NU) as [W1 W2]. repeat apply app_newline; auto; first [solve [apply blank_newline; auto; apply gap_blank; auto]|solve [apply word_newline; auto; eapply digits_word; eauto]].
  - destruct OK as (L1 & L2 & W1 & W2). destruct (number_weight z w NU) as [W3 W4]. repeat apply app_newline; auto; first [solve [apply blank_newline; auto; apply gap_blank; auto]|solve [apply word_newline; auto; eapply digits_word; eauto]].
Qed.
Lemma weighted_text_same : forall A text b, weighted_text_form number A text -> writable (map fst A) ->
  voikkovfstc_w_text weight_of_text weight_of_zero b text = Ok (voikkovfstc_w b (map weighted_line A)).
Proof.
  intros A text b H W. apply writable_items in W. unfold voikkovfstc_w_text, voikkovfstc_w, main_text, main_vfstc.
  rewrite (read_input_lines _ (map weighted_line A)).
  - cbn [bind]. destruct (read_lines _ _ _) as [[syms states]|]; auto.
  - induction H as [|x A l r H H2 IH]; [constructor|]. inversion_clear W as [|? ? W1 W2]. rewrite getlines_line; [|eapply weighted_line_newline; eauto]. cbn [map]. constructor; auto. apply parse_weighted_text; auto.
Qed.
End WEIGHTED.

(** What lines are accepted. *)
Lemma digits_made : forall n, n <> [] -> Forall (fun c => is_digit c = true) n -> digits_of (Z.to_nat (fold_left (fun v d => 10 * v + (d - 48)) n 0)) n /\ 0 <= fold_left (fun v d => 10 * v + (d - 48)) n 0.
Proof.
  induction n as [|c n IH] using rev_ind; [congruence|]. intros _ F. apply Forall_app in F. destruct F as [F1 F2]. inversion_clear F2 as [|? ? C _]. unfold is_digit in C. apply andb_true_iff in C. rewrite !Z.leb_le in C.
  rewrite fold_left_app. cbn [fold_left]. replace [c] with [48 + Z.of_nat (Z.to_nat (c - 48))] by (f_equal; lia). destruct n as [|d n].
  - cbn [fold_left app]. split; [|lia]. replace (Z.to_nat (10 * 0 + (c - 48))) with (Z.to_nat (c - 48)) by lia. constructor. lia.
  - destruct IH as [IH1 IH2]; [discriminate|auto|]. split; [|lia].
    set (x := fold_left _ (d :: n) 0) in *. replace (Z.to_nat (10 * x + (c - 48))) with (10 * Z.to_nat x + Z.to_nat (c - 48))%nat by lia.
    constructor; auto. lia.
Qed.
Lemma skip_split : forall l, ~ In 10 l -> exists b, blank b /\ l = b ++ skip_white l.
Proof.
  induction l as [|c l IH]; intros N; [exists []; split; [constructor|auto]|]. cbn [skip_white]. destruct (is_white c) eqn:W; [|exists []; split; [constructor|auto]].
  destruct IH as (b & B & E); [intros I; apply N; right; auto|]. exists (c :: b). split; [constructor; auto; apply white_is in W; destruct W as [W| ->]; auto; exfalso; apply N; left; auto|]. cbn [app]. rewrite <- E. auto.
Qed.
Lemma take_digits_split : forall l n r, take_digits l = (n, r) -> l = n ++ r /\ Forall (fun c => is_digit c = true) n.
Proof.
  induction l as [|c l IH]; intros n r E; cbn [take_digits] in E; [injection E as <- <-; auto|]. destruct (is_digit c) eqn:D; [|injection E as <- <-; auto].
  destruct (take_digits l) as [n0 r0] eqn:T. injection E as <- <-. destruct (IH _ _ eq_refl) as [-> F]. split; auto.
Qed.
Lemma take_word_split : forall l n r, ~ In 10 l -> take_word l = (n, r) -> l = n ++ r /\ Forall (fun c => ~ white c /\ c <> 10) n /\ ends r.
Proof.
  induction l as [|c l IH]; intros n r N E; cbn [take_word] in E; [injection E as <- <-; cbn; auto|]. destruct (is_white c) eqn:D; [injection E as <- <-; cbn; auto|].
  destruct (take_word l) as [n0 r0] eqn:T. injection E as <- <-. destruct (IH n0 r0) as (-> & F & EN); auto; [intros I; apply N; right; auto|]. conjs; auto. constructor; auto. split; [intros W; apply white_white in W; congruence|].
  intros ->. apply N. left. auto.
Qed.

(** What reading a number tells about the text before what is left. *)
Lemma read_unsigned_ok : forall s old v s', ~ In 10 (s_rest s) -> read_unsigned s old = (v, s') -> s_fail s' = false ->
  exists b n, s_rest s = b ++ n ++ s_rest s' /\ blank b /\ signed v n /\ s_eof s' = at_end (s_rest s').
Proof.
  intros s old v s' N E F. unfold read_unsigned in E. destruct (sentry s) as [l|] eqn:SE.
  2:{ injection E as <- <-. unfold nothing_read in F. destruct (s_eof s || s_fail s); discriminate. }
  unfold sentry in SE. destruct (s_eof s || s_fail s); [discriminate|]. destruct (skip_split (s_rest s) N) as (b & B & EQ). rewrite EQ. exists b.
  destruct (skip_white (s_rest s)) as [|c l0] eqn:SK; [discriminate|]. injection SE as <-. cbv beta iota zeta in E.
  set (l := if (c =? 0x2D) || (c =? 0x2B) then l0 else c :: l0) in *. set (minus := c =? 0x2D) in *. destruct (take_digits l) as [digits r] eqn:T. destruct (take_digits_split _ _ _ T) as [EL FD].
  destruct digits as [|d ds] eqn:DS; [injection E as <- <-; discriminate|]. rewrite <- DS in *. assert (digits <> []) as NE by (subst; discriminate).
  destruct (digits_made digits NE FD) as [DO NN]. set (x := fold_left (fun v d => 10 * v + (d - 48)) digits 0) in *.
  destruct (Z.ltb_spec (2 ^ 32 - 1) x) as [L|L]; [injection E as <- <-; discriminate|].
  assert (v = (if minus then - x else x) mod 2 ^ 32 /\ s' = mk_stream r (at_end r) false) as [-> ->] by (injection E as <- <-; auto). cbn [s_rest s_eof].
  unfold l, minus in *. destruct (Z.eqb_spec c 0x2D) as [->|C1]; cbn [orb] in *.
  - exists (0x2D :: digits). conjs; auto; [rewrite EL; auto|]. exists (Z.to_nat x), digits. conjs; auto; [lia|]. right. split; auto. rewrite Z2Nat.id; auto.
    rewrite <- (Z.mod_add (- x) 1 (2 ^ 32)); [|lia]. f_equal. lia.
  - destruct (Z.eqb_spec c 0x2B) as [->|C2].
    + exists (0x2B :: digits). conjs; auto; [rewrite EL; auto|]. exists (Z.to_nat x), digits. conjs; auto; [lia|]. left. split; auto. rewrite Z2Nat.id; auto. apply Z.mod_small. lia.
    + exists digits. conjs; auto; [rewrite <- EL; auto|]. exists (Z.to_nat x), digits. conjs; auto; [lia|]. left. split; auto. rewrite Z2Nat.id; auto. apply Z.mod_small. lia.
Qed.
Lemma read_unsigned_fails : forall s old v s', s_fail s = true -> read_unsigned s old = (v, s') -> s_fail s' = true.
Proof. intros s old v s' F E. unfold read_unsigned, sentry in E. rewrite F, orb_true_r in E. injection E as _ <-. unfold nothing_read. rewrite F, orb_true_r. auto. Qed.
Lemma read_string_fails : forall s old v s', s_fail s = true -> read_string s old = (v, s') -> s_fail s' = true.
Proof. intros s old v s' F E. unfold read_string, sentry in E. rewrite F, orb_true_r in E. injection E as _ <-. unfold nothing_read. rewrite F, orb_true_r. auto. Qed.
Lemma read_string_ok : forall s old w s', ~ In 10 (s_rest s) -> read_string s old = (w, s') -> s_fail s' = false ->
  exists b, s_rest s = b ++ w ++ s_rest s' /\ blank b /\ a_word w /\ ends (s_rest s') /\ s_eof s' = at_end (s_rest s') /\ s_eof s = false /\ s_fail s = false.
Proof.
  intros s old w s' N E F. unfold read_string in E. destruct (sentry s) as [l|] eqn:SE.
  2:{ injection E as <- <-. unfold nothing_read in F. destruct (s_eof s || s_fail s); discriminate. }
  unfold sentry in SE. destruct (s_eof s || s_fail s) eqn:EF; [discriminate|]. apply orb_false_iff in EF. destruct (skip_split (s_rest s) N) as (b & B & EQ).
  assert (l = skip_white (s_rest s)) as -> by (destruct (skip_white (s_rest s)); [discriminate|congruence]).
  destruct (take_word (skip_white (s_rest s))) as [w0 r] eqn:T. injection E as <- <-. cbn [s_rest s_eof]. exists b.
  assert (~ In 10 (skip_white (s_rest s))) as N' by (intros J; apply N; rewrite EQ; apply in_app_iff; right; exact J).
  destruct (take_word_split _ w0 r N' T) as (E1 & E2 & E3). conjs; auto; try tauto; [rewrite <- E1; auto|]. split; auto.
  intros ->. cbn [app] in E1. destruct (skip_white (s_rest s)) as [|c l1] eqn:SK; [discriminate|]. rewrite <- E1 in E3. cbn in E3.
  assert (forall l, match skip_white l with c :: _ => is_white c = false | [] => True end) as X. { clear. induction l as [|c l IH]; cbn [skip_white]; auto. destruct (is_white c) eqn:W; auto. }
  specialize (X (s_rest s)). rewrite SK in X. congruence.
Qed.

(** A line that is taken for a transition has two numbers and two words. *)
Lemma transition_line : forall l q q' i o, ~ In 10 l -> parse_line l = Some (ATT_TRANSITION q q' i o) ->
  exists b1 n1 b2 n2 b3 b4 after, l = b1 ++ n1 ++ b2 ++ n2 ++ b3 ++ i ++ b4 ++ o ++ after /\ blank b1 /\ signed (Z.of_nat q) n1 /\ blank b2 /\ signed (Z.of_nat q') n2 /\ blank b3 /\ a_word i /\ gap b4 /\ a_word o /\ ends after.
Proof.
  intros l q q' i o N E. unfold parse_line in E. destruct (read_unsigned (istringstream l) 0) as [source s1] eqn:E1. destruct (s_eof s1) eqn:EOF; [discriminate|].
  destruct (read_unsigned s1 0) as [target s2] eqn:E2. destruct (read_string s2 []) as [w1 s3] eqn:E3. destruct (read_string s3 []) as [w2 s4] eqn:E4. destruct (s_fail s4) eqn:F4; [discriminate|].
  assert (Z.to_nat source = q /\ Z.to_nat target = q' /\ w1 = i /\ w2 = o) as (<- & <- & -> & ->) by (injection E; auto).
  assert (s_fail s3 = false) as F3 by (destruct (s_fail s3) eqn:F; auto; rewrite (read_string_fails _ _ _ _ F E4) in F4; discriminate).
  assert (s_fail s2 = false) as F2 by (destruct (s_fail s2) eqn:F; auto; rewrite (read_string_fails _ _ _ _ F E3) in F3; discriminate).
  assert (s_fail s1 = false) as F1 by (destruct (s_fail s1) eqn:F; auto; rewrite (read_unsigned_fails _ _ _ _ F E2) in F2; discriminate).
  assert (forall v n, signed v n -> Z.of_nat (Z.to_nat v) = v) as POS. { intros v n (x & y & _ & L & [[_ ->]|[_ ->]]); [lia|]. rewrite Z2Nat.id; auto. apply Z.mod_pos_bound. lia. }
  destruct (read_unsigned_ok (istringstream l) _ _ _ N E1 F1) as (b1 & n1 & X1 & B1 & S1 & _). cbn [s_rest istringstream] in X1. subst l.
  assert (~ In 10 (s_rest s1)) as N1 by (intros I; apply N; rewrite !in_app_iff; auto).
  destruct (read_unsigned_ok _ _ _ _ N1 E2 F2) as (b2 & n2 & X2 & B2 & S2 & _). assert (~ In 10 (s_rest s2)) as N2 by (intros I; apply N1; rewrite X2, !in_app_iff; auto).
  destruct (read_string_ok _ _ _ _ N2 E3 F3) as (b3 & X3 & B3 & W3 & EN3 & EOF3 & _). assert (~ In 10 (s_rest s3)) as N3 by (intros I; apply N2; rewrite X3, !in_app_iff; auto).
  destruct (read_string_ok _ _ _ _ N3 E4 F4) as (b4 & X4 & B4 & W4 & EN4 & EOF4 & NEOF & _).
  exists b1, n1, b2, n2, b3, b4, (s_rest s4). rewrite (POS _ _ S1), (POS _ _ S2). conjs; auto; [rewrite X2, X3, X4; auto|]. split; auto. intros ->. cbn [app] in X4. rewrite X4 in EN3. pose proof (word_begins _ W4) as BG.
  destruct o as [|c o]; [destruct BG|]. cbn in *. congruence.
Qed.

(** A line that is taken for a final state. *)
Lemma final_line : forall l q, ~ In 10 l -> parse_line l = Some (ATT_FINAL q) ->
  exists b n, l = b ++ n /\ blank b /\ (signed (Z.of_nat q) n \/ q = 0%nat /\ (n = [] \/ n = [0x2B] \/ n = [0x2D]) \/ Z.of_nat q = 2 ^ 32 - 1).
Proof.
  intros l q N E. unfold parse_line in E. destruct (read_unsigned (istringstream l) 0) as [source s1] eqn:E1. destruct (s_eof s1) eqn:EOF.
  2:{ destruct (read_unsigned s1 0) as [target s2]. destruct (read_string s2 []) as [w1 s3]. destruct (read_string s3 []) as [w2 s4]. destruct (s_fail s4); discriminate. }
  assert (Z.to_nat source = q) as <- by (injection E; auto). clear E. destruct (s_fail s1) eqn:F1.
  - unfold read_unsigned in E1. destruct (sentry (istringstream l)) as [l'|] eqn:SE.
    + unfold sentry in SE. cbn [s_eof s_fail s_rest istringstream orb] in SE. destruct (skip_split l N) as (b & B & EQ). destruct (skip_white l) as [|c l0] eqn:SK; [discriminate|]. injection SE as <-. exists b, (c :: l0). conjs; auto. cbv beta iota zeta in E1.
      set (l1 := if (c =? 0x2D) || (c =? 0x2B) then l0 else c :: l0) in *. destruct (take_digits l1) as [digits r] eqn:T. destruct (take_digits_split _ _ _ T) as [EL _]. destruct digits as [|d ds].
      * assert (source = 0 /\ s1 = mk_stream r (at_end r) true) as [-> ->] by (injection E1 as <- <-; auto). cbn [s_eof] in EOF. destruct r; [|discriminate]. right. left. split; auto. right. cbn [app] in EL. unfold l1 in EL.
        destruct (Z.eqb_spec c 0x2D) as [->|C1]; cbn [orb] in EL; [subst; auto|]. destruct (Z.eqb_spec c 0x2B) as [->|C2]; [subst; auto|discriminate].
      * destruct (2 ^ 32 - 1 <? _) eqn:V; [|injection E1 as _ <-; discriminate]. assert (source = 2 ^ 32 - 1) as -> by (injection E1; auto). right. right. rewrite Z2Nat.id; lia.
    + injection E1 as <- <-. unfold sentry in SE. cbn [s_eof s_fail s_rest istringstream orb] in SE. destruct (skip_split l N) as (b & B & EQ). destruct (skip_white l) as [|c l0] eqn:SK; [|discriminate]. exists b, []. conjs; auto.
  - destruct (read_unsigned_ok (istringstream l) _ _ _ N E1 F1) as (b & n & EQ & B & SG & X). rewrite EOF in X. destruct (s_rest s1); [|discriminate]. cbn [s_rest istringstream] in EQ. rewrite app_nil_r in EQ. exists b, n. conjs; auto. left.
    destruct SG as (x & y & D & L & R). exists x, y. conjs; auto. rewrite Z2Nat.id; auto. destruct R as [[_ ->]|[_ ->]]; [lia|]. apply Z.mod_pos_bound. lia.
Qed.
