(** * The analyses of one output, and of a word *)
From Verif Require Import Base BaseFacts CharModel CharProofs CharProps AnalysisModel FstModel FstSpec FstProofs FstLookup FstProps FinModel FinSpec FinStructure FinTotal FinAttributes FinBaseform FinDebug.
From Coq Require Import Lia.

(** ** Names of organisations *)

Lemma find_boundary_ok : forall j o, (j <= length o)%nat -> exists x, find_boundary (o ++ [0]) j = Ok x.
Proof.
  induction j as [|j IH]; intros o H; [exists false; reflexivity|]; cbn [find_boundary]. destruct (S j <? 4)%nat; [eauto|].
  destruct (starts_ok o (S j) "[Bc]") as [x ->]; [lia|nonul|]. cbn [bind]. destruct x; [eauto|]. apply IH. lia.
Qed.
Lemma find_org_ok : forall i o, (i <= length o)%nat -> exists x, find_org (o ++ [0]) i = Ok x.
Proof.
  induction i as [|i IH]; intros o H; [exists false; reflexivity|]; cbn [find_org]. destruct (S i <? 8)%nat; [eauto|].
  destruct (starts_ok o (S i) "[Bc]") as [x ->]; [lia|nonul|]. destruct (starts_ok o (S i) "[Ion]") as [y ->]; [lia|nonul|]. cbn [bind].
  destruct x; [eauto|]. assert (F : exists z, (if y then find_boundary (o ++ [0]) (S i - 4) else Ok false) = Ok z) by (destruct y; [apply find_boundary_ok; lia|eauto]).
  destruct F as [z ->]. cbn [bind]. destruct z; [eauto|]. apply IH. lia.
Qed.

Definition technical (k : Key) : bool := match k with BASEFORM | FSTOUTPUT | WORDIDS | WORDBASES => true | _ => false end.
Definition bare (a : analysis) : Prop := forall k, technical k = true -> a k = None.

Lemma org_analysis_ok : forall a o, bare a -> a CLASS = Some (wstr "nimisana") -> exists a', org_analysis a o = Ok a' /\ as_name a a'.
Proof.
  intros a o B C. unfold org_analysis.
  set (s := match a STRUCTURE with Some st => if (2 <=? length st)%nat then Some (upd st 1 (ch "i")) else None | None => None end).
  set (copy := fun k : Key => match k with CLASS => match a CLASS with Some _ => Some (wstr "nimi") | None => None end | STRUCTURE => s | POSSIBLE_GEOGRAPHICAL_NAME => None | _ => a k end).
  assert (A : forall a', (forall k, k <> BASEFORM -> a' k = copy k) -> as_name a a').
  { intros a' H. unfold as_name. split; [exact C|].
    rewrite (H CLASS), (H POSSIBLE_GEOGRAPHICAL_NAME), (H FSTOUTPUT), (H WORDIDS), (H WORDBASES) by discriminate. unfold copy. rewrite C. split; [reflexivity|]. split; [reflexivity|].
    split; [now apply B|]. split; [now apply B|]. split; [now apply B|]. split.
    - intros st E L. rewrite (H STRUCTURE) by discriminate. unfold copy, s. rewrite E. replace (2 <=? length st)%nat with true by lia. reflexivity.
    - intros k N. rewrite (H k) by (intros ->; apply N; cbn; tauto). unfold copy. destruct k; try reflexivity; exfalso; apply N; cbn; tauto. }
  destruct s as [st|] eqn:S.
  - destruct (parseBaseform_ok o st) as [r ->]. cbn [bind]. eexists. split; [reflexivity|]. apply A. intros k N. destruct r; [apply add_other; congruence|reflexivity].
  - eexists. split; [reflexivity|]. apply A. reflexivity.
Qed.

Lemma duplicateOrgName_ok : forall a o, bare a -> exists l, duplicateOrgName a o = Ok l /\ (l = [] \/ exists a', l = [a'] /\ as_name a a').
Proof.
  intros a o B. unfold duplicateOrgName. destruct (a CLASS) as [c|] eqn:C; [|eauto]. destruct (is c "nimisana") eqn:N; cbn [negb]; [|eauto].
  destruct (length o <? 13)%nat eqn:L; [eauto|]. destruct (rd_out o 0) as [c0 ->]; [lia|]. destruct (starts_ok o 0 "[La]") as [x ->]; [lia|nonul|]. cbn [bind].
  destruct ((c0 =? ch "-") || x); [eauto|]. destruct (find_org_ok (length o - 5) o) as [y ->]; [lia|]. cbn [bind]. destruct y; [|eauto].
  destruct (org_analysis_ok a o B) as (a' & -> & A).
  { rewrite C. f_equal. unfold is in N. now apply zlist_eqb_eq in N. }
  cbn [bind]. eexists. split; [reflexivity|]. eauto.
Qed.

Lemma as_name_technical : forall a b a', (forall k, technical k = false -> b k = a k) -> as_name a a' -> as_name b a'.
Proof.
  intros a b a' H (A & B & C & D & E & F & G & I). unfold as_name. rewrite (H CLASS) by reflexivity. split; [exact A|]. split; [exact B|]. split; [exact C|]. split; [exact D|]. split; [exact E|]. split; [exact F|].
  rewrite (H STRUCTURE) by reflexivity. split; [exact G|]. intros k N. rewrite (I k N). symmetry. apply H. destruct k; try reflexivity; exfalso; apply N; cbn; tauto.
Qed.

(** ** Corrections *)

Lemma remove_if_some : forall a (x : bool) k k' v, (if x then remove a k else a) k' = Some v -> a k' = Some v.
Proof.
  intros a x k k' v H. destruct x; [|exact H]. unfold remove in H. destruct (a k) eqn:E; [|exact H].
  unfold set_key in H. destruct (key_eqb k k'); [discriminate|exact H].
Qed.
Lemma add_some : forall a k w k' v, add a k w k' = Some v -> a k' = Some v \/ (k = k' /\ v = w).
Proof.
  intros a k w k' v H. unfold add in H. destruct (a k) eqn:E; [now left|]. unfold set_key in H. destruct (key_eqb k k') eqn:Q; [|now left].
  right. injection H as ->. split; [|reflexivity]. destruct k, k'; try reflexivity; discriminate Q.
Qed.

Lemma adjust_some : forall a k v, adjust a k = Some v -> a k = Some v \/ (k = CLASS /\ v = wstr "laatusana") \/ (k = COMPARISON /\ v = wstr "positive").
Proof.
  intros a k v H. unfold adjust in H. cbv zeta in H.
  match type of H with context [if is_none (?A COMPARISON) then _ else _] => set (a3 := A) in H end.
  assert (H3 : a3 k = Some v \/ (k = COMPARISON /\ v = wstr "positive")).
  { destruct (is_none (a3 COMPARISON)).
    - match type of H with (if ?c then _ else _) _ = _ => destruct c end; [|now left]. apply add_some in H. destruct H as [H|[<- ->]]; auto.
    - left. eapply remove_if_some. exact H. }
  destruct H3 as [H3|H3]; [|now auto]. clear H. unfold a3 in H3. apply remove_if_some in H3.
  match type of H3 with (if ?c then _ else _) _ = _ => destruct c end.
  - apply add_some in H3. destruct H3 as [H3|[<- ->]]; [|now auto]. apply (remove_if_some _ true) in H3. apply remove_if_some in H3. now left.
  - apply remove_if_some in H3. now left.
Qed.

Lemma remove_if_other : forall a (x : bool) k k', k <> k' -> (if x then remove a k else a) k' = a k'.
Proof. intros a x k k' N. destruct x; [now apply remove_other|reflexivity]. Qed.
Lemma adjust_other : forall a k, ~ In k [NEGATIVE; CLASS; NUMBER; COMPARISON] -> adjust a k = a k.
Proof.
  intros a k N. unfold adjust. cbv zeta.
  assert (N1 : NEGATIVE <> k) by (intros <-; apply N; cbn; tauto). assert (N2 : CLASS <> k) by (intros <-; apply N; cbn; tauto).
  assert (N3 : NUMBER <> k) by (intros <-; apply N; cbn; tauto). assert (N4 : COMPARISON <> k) by (intros <-; apply N; cbn; tauto).
  match goal with |- context [if is_none (?A COMPARISON) then _ else _] => set (a3 := A) end.
  assert (H3 : a3 k = a k).
  { unfold a3. rewrite remove_if_other by exact N3. match goal with |- (if ?c then _ else _) _ = _ => destruct c end.
    - rewrite add_other, remove_other by exact N2. now apply remove_if_other.
    - now apply remove_if_other. }
  rewrite <- H3. destruct (is_none (a3 COMPARISON)).
  - match goal with |- (if ?c then _ else _) _ = _ => destruct c end; [|reflexivity]. now apply add_other.
  - now apply remove_if_other.
Qed.

(** ** One output *)

Lemma not_enumerated : forall k, In k [STRUCTURE; BASEFORM; FSTOUTPUT; WORDIDS; WORDBASES] -> voikkoGetAttributeValues (Some (key_name k)) = None.
Proof. intros k H. cbn [In] in H. repeat (destruct H as [<-|H]; [reflexivity|]). now elim H. Qed.

Lemma structure_long : forall w st, w <> [] -> structure_of w st -> st <> [].
Proof. intros w st N [A B] ->. inversion A. congruence. Qed.

Lemma analysis_values : forall a st k v, sound a -> adjust (add a STRUCTURE st) k = Some v -> listed k v \/ (k = COMPARISON /\ v = wstr "positive").
Proof.
  intros a st k v S H. apply adjust_some in H. destruct H as [H|[[-> ->]|H]]; [|left|now right].
  - apply add_some in H. destruct H as [H|[<- ->]]; left; [now apply among_listed, S|now apply not_listed_name].
  - apply among_listed, listed_class. vm_compute. tauto.
Qed.

Lemma output_ok : forall l full, well_formed l -> exists la, output_analyses (render l) (length (surface l)) full = Ok la /\ analyses_of l full la.
Proof.
  intros l full W. unfold output_analyses. destruct (isValidAnalysis_ok (render l)) as [valid V]. rewrite V. cbn [bind].
  destruct valid; [|exists []; split; [reflexivity|left; split; [exact V|reflexivity]]].
  destruct (parseStructure_shape l W) as (st0 & -> & SO & _ & BO). cbn [bind].
  assert (NE : render l <> []).
  { intros E. destruct W as (_ & _ & W & _). apply W. clear - E. unfold render, surface in *. induction l as [|x l IH]; [reflexivity|]. cbn [map concat] in *. apply app_eq_nil in E. destruct E as [E1 E2].
    rewrite (IH E2). destruct x; try reflexivity; discriminate E1. }
  destruct (parseBasicAttributes_ok (render l) NE) as (a & -> & SA). cbn [bind]. destruct (fixStructure_ok st0 (render l)) as (st & -> & SC). cbn [bind].
  apply (same_structure _ _ _ SC) in SO. assert (BO' : forall n, In n (borders st) <-> border_at l n) by (intros n; rewrite <- BO; unfold borders; now rewrite (same_borders _ _ 0 SC)).
  clear SC BO st0. set (a1 := adjust (add a STRUCTURE st)).
  assert (UN : forall k, In k [STRUCTURE; BASEFORM; FSTOUTPUT; WORDIDS; WORDBASES] -> a k = None) by (intros k I; apply sound_untouched; [exact SA|now apply not_enumerated]).
  assert (ST : a1 STRUCTURE = Some st).
  { unfold a1. rewrite adjust_other by (cbn; intuition discriminate). apply add_same, UN. cbn. tauto. }
  assert (BA : bare a1).
  { intros k T. unfold a1. rewrite adjust_other by (intros I; cbn in I; intuition (subst k; discriminate T)). rewrite add_other by (intros <-; discriminate T). apply UN. destruct k; try discriminate T; cbn; tauto. }
  assert (VA : forall k v, a1 k = Some v -> listed k v \/ (k = COMPARISON /\ v = wstr "positive")) by (intros k v H; eapply analysis_values; [exact SA|exact H]).
  clearbody a1. destruct (duplicateOrgName_ok a1 (render l) BA) as (more & -> & M). cbn [bind].
  destruct full.
  - destruct (parseBaseform_ok (render l) st) as [r PB]. rewrite PB. cbn [bind].
    set (a2 := match r with Some v => add (add a1 FSTOUTPUT (render l)) BASEFORM v | None => add a1 FSTOUTPUT (render l) end).
    assert (T2 : forall k, k <> FSTOUTPUT -> k <> BASEFORM -> a2 k = a1 k) by (intros k N1 N2; unfold a2; destruct r; rewrite ?add_other by congruence; reflexivity).
    assert (F2 : a2 FSTOUTPUT = Some (render l)) by (unfold a2; destruct r; rewrite ?(add_other _ BASEFORM) by discriminate; apply add_same, BA; reflexivity).
    destruct (parseDebugAttributes_ok a2 (render l)) as (ids & bases & ->). cbn [bind].
    set (a3 := match ids with Some v => add a2 WORDIDS v | None => a2 end).
    assert (T3 : forall k, k <> WORDIDS -> a3 k = a2 k) by (intros k N1; unfold a3; destruct ids; rewrite ?add_other by congruence; reflexivity).
    set (a4 := add a3 WORDBASES bases). assert (T4 : forall k, k <> WORDBASES -> a4 k = a3 k) by (intros k N1; unfold a4; rewrite add_other by congruence; reflexivity).
    assert (TT : forall k, technical k = false -> a4 k = a1 k).
    { intros k T. rewrite T4, T3, T2 by (intros ->; discriminate T). reflexivity. }
    assert (V4 : a4 WORDBASES <> None) by (unfold a4; destruct (add_has a3 WORDBASES bases) as [v ->]; discriminate).
    assert (F4 : a4 FSTOUTPUT = Some (render l)) by (rewrite T4, T3 by discriminate; exact F2).
    assert (B4 : a4 BASEFORM = r).
    { rewrite T4, T3 by discriminate. unfold a2. destruct r; [rewrite add_same; [reflexivity|]; rewrite add_other by discriminate; apply BA; reflexivity|]. rewrite add_other by discriminate. apply BA. reflexivity. }
    clearbody a4. eexists. split; [reflexivity|]. right. split; [exact V|]. exists a4, more. split; [reflexivity|]. split.
    + split; [|split; [exact F4|split; [intros _; exact V4|split; [discriminate|]]]].
      * exists st. rewrite TT by reflexivity. rewrite B4. auto.
      * intros k v H. destruct (technical k) eqn:T; [left; apply not_listed_name, not_enumerated; destruct k; try discriminate T; cbn; tauto|]. rewrite TT in H by exact T. now apply VA.
    + destruct M as [->|(a' & -> & M)]; [now left|right]. exists a'. split; [reflexivity|]. eapply as_name_technical; [exact TT|exact M].
  - cbn [bind]. eexists. split; [reflexivity|]. right. split; [exact V|]. exists a1, more. split; [reflexivity|]. split; [|exact M].
    split; [exists st; split; [exact ST|]; split; [exact SO|]; split; [exact BO'|discriminate]|]. split; [now apply BA|]. split; [discriminate|]. split; [intros _; repeat split; now apply BA|exact VA].
Qed.

(** ** A word *)

Lemma next_step : forall T c, next T c BUFFER_SIZE = step T false BUFFER_SIZE c.
Proof. intros T c. unfold step. exact eq_refl. Qed.
Lemma fin_analyses_S : forall T n wlen full c, fin_analyses T (S n) wlen full c =
  bind (step T false BUFFER_SIZE c) (fun '(r, c) => match r with
      | Found o _ => l <- output_analyses o wlen full ;; '(more, c) <- fin_analyses T n wlen full c ;; Ok (l ++ more, c)
      | _ => Ok ([], c)
      end).
Proof. intros T n wlen full c. rewrite <- next_step. cbn [fin_analyses]. reflexivity. Qed.

Lemma fin_lookup : forall T n wlen full c l c', fin_analyses T n wlen full c = Ok (l, c') ->
  exists results e lists, lookup T false BUFFER_SIZE c results e c' /\ (e = None -> length results = n) /\ (e <> None -> (length results < n)%nat) /\
    Forall2 (fun r la => output_analyses (fst r) wlen full = Ok la) results lists /\ l = concat lists.
Proof.
  intros T. induction n as [|n IH]; intros wlen full c l c' E; [|rewrite fin_analyses_S in E].
  - injection E as <- <-. exists [], None, []. split; [constructor|]. split; [reflexivity|]. split; [congruence|]. split; [constructor|reflexivity].
  - apply bind_ok in E. destruct E as ([o c1] & S & E). destruct o as [out k| | | |].
    { apply bind_ok in E. destruct E as (la & O1 & E). apply bind_ok in E. destruct E as ([l1 c2] & R & E). injection E as <- <-.
      destruct (IH _ _ _ _ _ R) as (results & e & lists & A & B & C & D & ->).
      exists ((out, k) :: results), e, (la :: lists). split; [econstructor; eassumption|]. cbn [length]. split; [intros X; now rewrite B|]. split; [intros X; specialize (C X); lia|].
      split; [constructor; assumption|reflexivity]. }
    all: injection E as <- <-; eexists [], _, []; split; [eapply lookup_false; [exact S|discriminate]|]; cbn [length concat]; split; [discriminate|split; [lia|split; [constructor|reflexivity]]].
Qed.

Lemma fin_total : forall T n wlen full c,
  (forall results c2, lookup T false BUFFER_SIZE c results None c2 -> exists o c3, step T false BUFFER_SIZE c2 = Ok (o, c3)) ->
  (forall results e c2, lookup T false BUFFER_SIZE c results e c2 -> forall out k, In (out, k) results -> exists la, output_analyses out wlen full = Ok la) ->
  exists l c', fin_analyses T n wlen full c = Ok (l, c').
Proof.
  intros T. induction n as [|n IH]; intros wlen full c H O; [cbn [fin_analyses]; eauto|rewrite fin_analyses_S].
  destruct (H [] c (lookup_stop _ _ _ _)) as (o & c3 & N). rewrite N. cbn [bind]. destruct o as [out k| | | |]; eauto.
  destruct (O [(out, k)] None c3) with (out := out) (k := k) as [la ->]; [econstructor; [exact N|constructor]|now left|]. cbn [bind].
  destruct (IH wlen full c3) as (l & c' & E).
  - intros results c2 L. apply (H ((out, k) :: results)). econstructor; eassumption.
  - intros results e c2 L out' k' I. apply (O ((out, k) :: results) e c2) with (k := k'); [econstructor; eassumption|now right].
  - rewrite E. cbn [bind]. eauto.
Qed.

Lemma lookup_fin : forall T wlen full c results e c', lookup T false BUFFER_SIZE c results e c' ->
  forall n lists, (e = None -> length results = n) -> (e <> None -> (length results < n)%nat) ->
  Forall2 (fun r la => output_analyses (fst r) wlen full = Ok la) results lists ->
  fin_analyses T n wlen full c = Ok (concat lists, c').
Proof.
  intros T wlen full. induction 1; intros m lists N M O.
  - cbn [length] in N. rewrite <- N by reflexivity. inversion O; subst. reflexivity.
  - destruct m as [|m]; [exfalso; destruct e; [specialize (M ltac:(discriminate)); lia|specialize (N eq_refl); discriminate]|].
    rewrite fin_analyses_S, H. cbn [bind]. inversion O; subst. cbn [fst] in *.
    match goal with X : output_analyses out _ _ = Ok _ |- _ => rewrite X end. cbn [bind]. erewrite IHlookup; [reflexivity| | |eassumption].
    + intros X. specialize (N X). cbn in N. lia.
    + intros X. specialize (M X). cbn in M. lia.
  - specialize (M ltac:(discriminate)). destruct m as [|m]; [cbn in M; lia|]. inversion O; subst.
    rewrite fin_analyses_S, H. cbn [bind]. destruct e; try reflexivity. exfalso. eapply H0. reflexivity.
Qed.

Lemma fin_buffer_two : (2 <= BUFFER_SIZE)%nat.
Proof. apply Nat.leb_le. vm_compute. reflexivity. Qed.
Lemma fin_buffer_word : (HyphModel.LIBVOIKKO_MAX_WORD_CHARS <= BUFFER_SIZE)%nat.
Proof. apply Nat.leb_le. vm_compute. reflexivity. Qed.
Lemma fin_buffer_pos : (0 < BUFFER_SIZE)%nat.
Proof. pose proof fin_buffer_two. lia. Qed.

Definition fresh_analyzer (T : transducer) : configuration := new_configuration (flagDiacriticFeatureCount T) BUFFER_SIZE.

Lemma maximum : (MAX_ANALYSIS_COUNT - 1 = 99)%nat.
Proof. reflexivity. Qed.

(** Everything about one word, on a transducer that earlier words left clean. *)
Lemma fin_analyze_spec : forall T c word full, finnish_dictionary T ->
  exhausted T BUFFER_SIZE c \/ (used T BUFFER_SIZE c /\ flagDiacriticFeatureCount T = 0%nat) ->
  exists l c', fin_analyze T c word full = Ok (l, c') /\ used T BUFFER_SIZE c' /\ (exists d', fin_analyze T (fresh_analyzer T) word full = Ok (l, d')) /\
    let low := voikko_set_case CT_ALL_LOWER word in
    ((l = [] /\ c' = c /\ (HyphModel.LIBVOIKKO_MAX_WORD_CHARS < length word)%nat) \/
     (l = [] /\ (length word <= HyphModel.LIBVOIKKO_MAX_WORD_CHARS)%nat /\ prepare T c low = Ok (false, c')) \/
     (exists c1 results e lists, (length word <= HyphModel.LIBVOIKKO_MAX_WORD_CHARS)%nat /\ prepare T c low = Ok (true, c1) /\ lookup T false BUFFER_SIZE c1 results e c' /\
        (exists d1 d2, prepare T (fresh_analyzer T) low = Ok (true, d1) /\ lookup T false BUFFER_SIZE d1 results e d2) /\
        (e = None -> length results = 99)%nat /\ (e <> None -> length results < 99)%nat /\
        Forall2 (fun r la => output_analyses (fst r) (length word) full = Ok la) results lists /\ l = concat lists)).
Proof.
  intros T c word full [G D] H. unfold fin_analyze. destruct (HyphModel.LIBVOIKKO_MAX_WORD_CHARS <? length word)%nat eqn:L.
  { apply Nat.ltb_lt in L. exists [], c. split; [reflexivity|]. split; [destruct H as [H|[H _]]; [eapply exhausted_used; exact H|exact H]|]. split; [eauto|]. cbv zeta. left. auto. }
  apply Nat.ltb_ge in L. pose proof fin_buffer_word as BW. cbv zeta. set (low := voikko_set_case CT_ALL_LOWER word).
  assert (LL : (length low <= BUFFER_SIZE)%nat) by (unfold low; rewrite set_case_length; lia).
  assert (U : used T BUFFER_SIZE c) by (destruct H as [H|[H _]]; [eapply exhausted_used; exact H|exact H]).
  destruct (C39_no_overflow T _ c low false BUFFER_SIZE G fin_buffer_two U LL fin_buffer_pos) as (kn & c1 & P & NO). rewrite P. cbn [bind].
  destruct kn.
  - destruct (fin_total T (MAX_ANALYSIS_COUNT - 1)%nat (length word) full c1) as (l & c' & E).
    { intros results c2 LK. destruct (NO _ _ _ LK) as [_ X]. auto. }
    { intros results e c2 LK out k I. destruct (C36_sound T _ c low true c1 false BUFFER_SIZE results e c2 out k G fin_buffer_two H LL fin_buffer_pos P LK I) as (p & K & A).
      destruct (D low p out A) as (it & W & -> & S). destruct (output_ok it full W) as (la & O & _). exists la. rewrite <- O. f_equal. rewrite S. unfold low. now rewrite set_case_length. }
    exists l, c'. split; [exact E|]. destruct (fin_lookup _ _ _ _ _ _ _ E) as (results & e & lists & A & B & C & X & Y). rewrite maximum in B, C.
    split; [eapply used_lookup; [exact U|exact LL|exact fin_buffer_pos|exact P|exact A]|].
    destruct (C38_history T _ c low true c1 false BUFFER_SIZE results e c' G fin_buffer_two H LL fin_buffer_pos P A) as (d3 & d4 & X1 & X2). split.
    + exists d4. unfold fresh_analyzer. rewrite X1. cbn [bind]. rewrite Y. eapply lookup_fin; [exact X2| | |exact X]; rewrite maximum; assumption.
    + right. right. exists c1, results, e, lists. split; [exact L|]. split; [reflexivity|]. split; [exact A|]. split; [exists d3, d4; auto|]. auto.
  - exists [], c1. split; [reflexivity|]. split; [eapply used_lookup with (prefix := false); [exact U|exact LL|exact fin_buffer_pos|exact P|constructor]|].
    destruct (C38_history T _ c low false c1 false BUFFER_SIZE [] None c1 G fin_buffer_two H LL fin_buffer_pos P (lookup_stop _ _ _ _)) as (d3 & d4 & X1 & X2). split.
    + exists d3. unfold fresh_analyzer. rewrite X1. reflexivity.
    + right. left. auto.
Qed.

Lemma clean_exhausted : forall T c, finnish_dictionary T -> clean_history T c -> exhausted T BUFFER_SIZE c \/ (used T BUFFER_SIZE c /\ flagDiacriticFeatureCount T = 0%nat).
Proof.
  intros T c D [H|[H Z]].
  - left. induction H as [|c word full l c' H IH NB E]; [constructor|].
    destruct (fin_analyze_spec T c word full D (or_introl IH)) as (l2 & c2 & E2 & _ & _ & S). rewrite E in E2. apply ok_pair in E2. destruct E2 as [<- <-]. cbv zeta in S.
    pose proof fin_buffer_word as BW.
    destruct S as [(_ & -> & _)|[(_ & L & P)|(c1 & results & e & lists & L & P & LK & (d1 & d2 & X1 & X2) & N1 & N2 & _)]].
    + exact IH.
    + eapply exhausted_prepare; [exact IH| |exact P]. rewrite set_case_length. lia.
    + assert (e = Some End) as ->.
      { destruct e as [o|].
        - destruct o; try reflexivity; exfalso; apply NB; exists d1, results; eexists _, d2; (split; [exact X1|split; [exact X2|right; eexists; split; [reflexivity|discriminate]]]).
        - exfalso. apply NB. exists d1, results, None, d2. split; [exact X1|]. split; [exact X2|]. left. now apply N1. }
      eapply exhausted_lookup; [exact IH| |exact fin_buffer_pos|exact P|exact LK]. rewrite set_case_length. lia.
  - right. split; [|exact Z]. induction H as [|c word full l c' H IH E]; [constructor|].
    destruct (fin_analyze_spec T c word full D (or_intror (conj IH Z))) as (l2 & c2 & E2 & U & _). rewrite E in E2. apply ok_pair in E2. destruct E2 as [_ <-]. exact U.
Qed.
