(** * The life of a handle: proofs *)
From Verif Require Import Base SetupModel SetupProofs LifeModel LifeSpec.
From Coq Require Import Permutation.

(** ** Acquiring *)

(** [m] acquires [own a]; if it throws it has a message, and keeps nothing if
    [clean]; it does not throw if [quiet]. *)
Definition acquires {A} (m : io A) (own : A -> list nat) (clean quiet : Prop) (P : A -> Prop) : Prop := forall h,
  match m h with
  | Ret a h' => Permutation (live h') (own a ++ live h) /\ P a
  | Throw e h' => ~ quiet /\ e <> [] /\ exists lost, Permutation (live h') (lost ++ live h) /\ (clean -> lost = [])
  | Undefined => False
  end.

Lemma acq_weaken : forall A (m : io A) own c q P (own' : A -> list nat) (c' q' : Prop) (P' : A -> Prop), acquires m own c q P ->
  (forall a, P a -> Permutation (own a) (own' a) /\ P' a) -> (c' -> c) -> (q' -> q) -> acquires m own' c' q' P'.
Proof.
  intros A m own c q P own' c' q' P' H O C Q h. specialize (H h). destruct (m h) as [a h'|e h'|]; auto.
  - destruct H as (H & R). destruct (O a R) as (O' & R'). split; auto. rewrite H. apply Permutation_app_tail. exact O'.
  - destruct H as (N & E & lost & L & K). split; [tauto|]. split; auto. exists lost. split; auto.
Qed.
Lemma acq_ret : forall A (a : A) own (P : A -> Prop), own a = [] -> P a -> acquires (ret a) own True True P.
Proof. intros A a own P E H h. cbn [ret]. rewrite E. split; auto. Qed.
Lemma acq_throw : forall A e (own : A -> list nat) (c q : Prop) P, e <> [] -> ~ q -> acquires (throw e) own c q P.
Proof. intros A e own c q P E Q h. cbn. split; auto. split; auto. exists []. split; auto. Qed.
(** [m] throws in any case. *)
Definition fails {A} (m : io A) : Prop := forall h,
  match m h with Throw e h' => e <> [] /\ exists lost, Permutation (live h') (lost ++ live h) | _ => False end.
Lemma fails_throw : forall A e, e <> [] -> fails (@throw A e).
Proof. intros A e E h. cbn. split; auto. exists []. auto. Qed.
Lemma fails_bind : forall A B (m : io A) (k : A -> io B) own c q P, acquires m own c q P -> (forall a, fails (k a)) -> fails (bindio m k).
Proof.
  intros A B m k own c q P H K h. unfold bindio. specialize (H h). destruct (m h) as [a h1|e h1|]; auto.
  - destruct H as (H & _). specialize (K a h1). destruct (k a h1) as [|e h2|]; auto. destruct K as (E & lost & L). split; auto. exists (lost ++ own a). rewrite L, H, app_assoc. reflexivity.
  - destruct H as (_ & E & lost & L & _). split; auto. exists lost. exact L.
Qed.
Lemma acq_fails : forall A (m : io A) own (c q : Prop) P, fails m -> ~ c -> ~ q -> acquires m own c q P.
Proof.
  intros A m own c q P H C Q h. specialize (H h). destruct (m h) as [|e h'|]; try contradiction. destruct H as (E & lost & L). split; auto. split; auto. exists lost. split; auto. tauto.
Qed.
Lemma acq_new : acquires new (fun o => [o]) True True (fun _ => True).
Proof. intros h. cbn. split; auto. Qed.

Lemma acq_bind : forall A B (m : io A) (k : A -> io B) own1 c1 q1 P1 own2 (c2 q2 : Prop) P2 (own : B -> list nat),
  acquires m own1 c1 q1 P1 ->
  (forall a, P1 a -> acquires (k a) (fun b => own2 a b) c2 q2 (fun b => P2 b /\ Permutation (own2 a b ++ own1 a) (own b))) ->
  acquires (bindio m k) own (c1 /\ q2) (q1 /\ q2) P2.
Proof.
  intros A B m k own1 c1 q1 P1 own2 c2 q2 P2 own H K h. unfold bindio. specialize (H h). destruct (m h) as [a h1|e h1|]; auto.
  - destruct H as (H & R). specialize (K a R h1). destruct (k a h1) as [b h2|e h2|]; auto.
    + destruct K as (K & R2 & O). split; auto. rewrite K, H, app_assoc. apply Permutation_app_tail. exact O.
    + destruct K as (N & E & lost & L & _). split; [tauto|]. split; auto. exists (lost ++ own1 a). split; [rewrite L, H, app_assoc; reflexivity|tauto].
  - destruct H as (N & E & lost & L & C). split; [tauto|]. split; auto. exists lost. split; auto. tauto.
Qed.
(** The same where the second part cannot throw. *)
Lemma acq_then : forall A B (m : io A) (k : A -> io B) own1 c1 q1 P1 own2 P2 (own : B -> list nat),
  acquires m own1 c1 q1 P1 ->
  (forall a, P1 a -> acquires (k a) (fun b => own2 a b) True True (fun b => P2 b /\ Permutation (own2 a b ++ own1 a) (own b))) ->
  acquires (bindio m k) own c1 q1 P2.
Proof.
  intros A B m k own1 c1 q1 P1 own2 P2 own H K. eapply acq_weaken; [eapply acq_bind; eauto|intros b R; split; [reflexivity|exact R]|tauto|tauto].
Qed.
(** [ret] at the end. *)
Lemma acq_map : forall A B (m : io A) (f : A -> B) own1 c q P1 (P2 : B -> Prop) (own : B -> list nat),
  acquires m own1 c q P1 -> (forall a, P1 a -> P2 (f a) /\ Permutation (own1 a) (own (f a))) -> acquires (a <~ m ;; ret (f a)) own c q P2.
Proof.
  intros A B m f own1 c q P1 P2 own H K. eapply (acq_then _ _ _ _ _ _ _ _ (fun _ _ => [])); [exact H|]. intros a R. destruct (K a R) as (R2 & O).
  apply acq_ret; auto.
Qed.

Lemma remove_perm : forall i l r, Permutation l (i :: r) -> exists l', remove_one i l = Some l' /\ Permutation l' r.
Proof.
  intros i. induction l as [|x l IH]; intros r H; [apply Permutation_nil in H; discriminate|]. cbn [remove_one]. destruct (Nat.eqb x i) eqn:E.
  - apply Nat.eqb_eq in E. subst x. exists l. split; auto. eapply Permutation_cons_inv; eauto.
  - apply Nat.eqb_neq in E. assert (I : In i l).
    { assert (I : In i (x :: l)) by (eapply Permutation_in; [symmetry; exact H|left; auto]). destruct I; [contradiction|auto]. }
    apply in_split in I as (a & b & ->). assert (R : Permutation (i :: a ++ b) (a ++ i :: b)) by apply Permutation_middle.
    destruct (IH (a ++ b) (Permutation_sym R)) as (l' & -> & L). cbn [option_map]. exists (x :: l'). split; auto.
    apply (Permutation_cons_inv (a := i)). rewrite <- H, perm_swap. apply perm_skip. rewrite L. exact R.
Qed.

Lemma acq_construct : forall A (m : io A) own c q P, acquires m own c q P ->
  acquires (construct m) (fun x => fst x :: own (snd x)) c q (fun x => P (snd x)).
Proof.
  intros A m own c q P H h. unfold construct, bindio, attempt. cbn [new]. specialize (H (mkHeap (fresh h :: live h) (S (fresh h)))).
  destruct (m (mkHeap (fresh h :: live h) (S (fresh h)))) as [a h'|e h'|]; auto.
  - destruct H as (H & R). cbn [ret fst snd]. split; auto. rewrite H. cbn [live]. rewrite <- Permutation_middle. reflexivity.
  - destruct H as (N & E & lost & L & C). cbn [live] in L. rewrite <- Permutation_middle in L. destruct (remove_perm _ _ _ L) as (l' & D & L').
    unfold delete. rewrite D. cbn [throw]. split; auto. split; auto. exists lost. split; auto.
Qed.

Lemma acq_news : forall n, acquires (news n) (fun l => l) True True (fun l => length l = n).
Proof.
  induction n as [|n IH]; [apply acq_ret; auto|]. cbn [news]. eapply (acq_then _ _ _ _ _ _ _ _ (fun _ b => tl b)); [apply acq_new|]. intros x _.
  eapply acq_map; [exact IH|]. intros l L. cbn [tl length]. split; [split; [congruence|]|reflexivity]. rewrite Permutation_app_comm. reflexivity.
Qed.

(** ** Releasing *)

Definition releases (m : io unit) (ids : list nat) : Prop := forall h rest, Permutation (live h) (ids ++ rest) ->
  exists h', m h = Ret tt h' /\ Permutation (live h') rest.
Lemma rel_ret : releases (ret tt) [].
Proof. intros h rest H. exists h. auto. Qed.
Lemma rel_delete : forall i, releases (delete i) [i].
Proof.
  intros i h rest H. cbn [app] in H. destruct (remove_perm _ _ _ H) as (l & E & L). unfold delete. rewrite E. eexists. split; [reflexivity|exact L].
Qed.
Lemma rel_seq : forall m k a b, releases m a -> releases k b -> releases (m ;~ k) (a ++ b).
Proof.
  intros m k a b M K h rest H. rewrite <- app_assoc in H. destruct (M h _ H) as (h1 & E & L). destruct (K h1 rest L) as (h2 & E2 & L2).
  exists h2. unfold bindio. rewrite E. auto.
Qed.
Lemma rel_perm : forall m a b, releases m a -> Permutation a b -> releases m b.
Proof. intros m a b M P h rest H. apply M. rewrite H. apply Permutation_app_tail. symmetry. exact P. Qed.
Lemma rel_deletes : forall l, releases (deletes l) l.
Proof. induction l as [|x l IH]; [apply rel_ret|]. cbn [deletes]. apply (rel_seq _ _ [x] l); [apply rel_delete|exact IH]. Qed.

(** ** Lists up to order *)

Definition times (i x : nat) : nat := if Nat.eq_dec i x then 1%nat else 0%nat.
Lemma count_cons : forall i l x, count_occ Nat.eq_dec (i :: l) x = (times i x + count_occ Nat.eq_dec l x)%nat.
Proof. intros i l x. cbn [count_occ]. unfold times. destruct (Nat.eq_dec i x); reflexivity. Qed.
Lemma count_nil : forall x, count_occ Nat.eq_dec [] x = 0%nat. Proof. reflexivity. Qed.
Ltac perm := apply (Permutation_count_occ Nat.eq_dec); let z := fresh "z" in intros z;
  repeat first [rewrite count_occ_app|rewrite count_cons|rewrite count_nil]; lia.

(** ** The components *)

Definition loads (x : vfst_file) : Prop := match x with Good _ _ => True | _ => False end.

(** The mapped file, perhaps replaced by a copy. *)
Lemma acq_map_file : forall sw, acquires (map <~ new ;; swap_map sw map) (fun m => [m]) True True (fun _ => True).
Proof.
  intros sw h. unfold bindio, swap_map, new, delete. destruct sw; cbn [bindio].
  - unfold bindio, delete, ret. cbn [live remove_one]. destruct (Nat.eqb (S (fresh h)) (fresh h)) eqn:E; [apply Nat.eqb_eq in E; lia|].
    cbn [fresh live]. rewrite E. cbn [remove_one]. rewrite Nat.eqb_refl. cbn [option_map live]. split; auto.
  - cbn [ret live]. split; auto.
Qed.
Lemma bind_assoc : forall A B C (m : io A) (k : A -> io B) (j : B -> io C) h, bindio (bindio m k) j h = bindio m (fun a => bindio (k a) j) h.
Proof. intros. unfold bindio. destruct (m h); auto. Qed.
Lemma acq_ext : forall A (m m' : io A) own c q P, (forall h, m h = m' h) -> acquires m own c q P -> acquires m' own c q P.
Proof. intros A m m' own c q P E H h. rewrite <- E. apply H. Qed.

Lemma acq_transducer_constructor : forall w f, f <> Empty ->
  acquires (transducer_constructor w f) (fun x => fst x :: snd x) (absent_or_good f) (loads f) (fun _ => True).
Proof.
  intros w f N. destruct f as [| | | |sw n|sw n]; cbn [transducer_constructor absent_or_good loads].
  - apply acq_throw; [destruct w; discriminate|tauto].
  - congruence.
  - apply acq_fails; [|tauto|tauto]. eapply fails_bind; [apply acq_new|]. intros _. apply fails_throw. discriminate.
  - apply acq_fails; [|tauto|tauto]. eapply fails_bind; [apply acq_new|]. intros _. apply fails_throw. destruct w; discriminate.
  - eapply acq_ext; [intros h; apply bind_assoc|]. apply acq_fails; [|tauto|tauto]. eapply fails_bind; [apply acq_map_file|]. intros _.
    eapply fails_bind; [apply acq_news|]. intros _. apply fails_throw. discriminate.
  - eapply acq_ext; [intros h; apply bind_assoc|].
    apply (acq_weaken _ _ (fun x => fst x :: snd x) True True (fun _ => True)); [|auto|auto|auto].
    eapply (acq_then _ _ _ _ _ _ _ _ (fun _ x => snd x) (fun _ => True)); [apply acq_map_file|].
    intros m _. eapply acq_map; [apply acq_news|]. intros l _. cbn [fst snd]. split; [split; [exact I|]|reflexivity]. perm.
Qed.
Lemma acq_new_transducer : forall w f, f <> Empty -> acquires (new_transducer w f) of_transducer (absent_or_good f) (loads f) (fun _ => True).
Proof.
  intros w f N. unfold new_transducer. eapply acq_map; [apply acq_construct; apply acq_transducer_constructor; exact N|].
  intros (o & m & l) _. cbn [fst snd]. split; [exact I|reflexivity].
Qed.
(** A transducer with two blocks. *)
Lemma acq_two : forall w f, f <> Empty ->
  acquires (t <~ new_transducer w f ;; c <~ new ;; b <~ new ;; ret (t, c, b)) (fun x => of_transducer (fst (fst x)) ++ [snd (fst x); snd x]) (absent_or_good f) (loads f) (fun _ => True).
Proof.
  intros w f N. eapply (acq_then _ _ _ _ _ _ _ _ (fun _ x => [snd (fst x); snd x]) (fun _ => True)); [apply acq_new_transducer; exact N|]. intros t _.
  eapply (acq_then _ _ _ _ _ _ _ _ (fun _ x => [snd x])); [apply acq_new|]. intros c _. eapply acq_map; [apply acq_new|]. intros b _. cbn [fst snd].
  split; [split; [split; [exact I|]|]|]; perm.
Qed.
Lemma rel_transducer : forall t, releases (terminate_transducer t ;~ delete_transducer t) (of_transducer t).
Proof.
  intros t. unfold terminate_transducer, delete_transducer, of_transducer. eapply rel_perm; [apply rel_seq; [apply rel_delete|apply rel_seq; [apply rel_deletes|apply rel_delete]]|]. perm.
Qed.
Lemma rel_two : forall t c b, releases (delete b ;~ delete c ;~ terminate_transducer t ;~ delete_transducer t) (of_transducer t ++ [c; b]).
Proof.
  intros t c b. eapply rel_perm; [apply rel_seq; [apply rel_delete|apply rel_seq; [apply rel_delete|apply rel_transducer]]|]. perm.
Qed.

Lemma acq_new_vfst_analyzer : forall w f, f_mor f <> Empty ->
  acquires (new_vfst_analyzer w f) of_analyzer (absent_or_good (f_mor f)) (loads (f_mor f)) (fun _ => True).
Proof.
  intros w f N. unfold new_vfst_analyzer.
  apply (acq_ext _ (x <~ construct (t <~ new_transducer w (f_mor f) ;; c <~ new ;; b <~ new ;; ret (t, c, b)) ;; ret (VfstAnalyzer (fst x) (fst (fst (snd x))) (snd (fst (snd x))) (snd (snd x))))).
  { intros h. unfold bindio at 1 5. destruct (construct _ h) as [[o [[t c] b]] h'| |]; reflexivity. }
  eapply acq_map; [apply acq_construct; apply acq_two; exact N|]. intros (o & (t & c) & b) _. cbn [fst snd of_analyzer]. split; auto.
Qed.
Lemma acq_analyzer : forall b d f, f_mor f <> Empty -> morBackend d <> wstr "hfst" ->
  acquires (getAnalyzer b d f) of_analyzer (absent_or_good (f_mor f)) False (fun _ => True).
Proof.
  intros b d f N H. unfold getAnalyzer. destruct (zlist_eqb (morBackend d) (wstr "null")).
  { eapply acq_weaken; [eapply (acq_map _ _ _ _ _ _ _ _ (fun _ => True) of_analyzer); [apply acq_new|intros o _; split; [exact I|reflexivity]]|auto|auto|tauto]. }
  destruct (have_experimental b && zlist_eqb (morBackend d) (wstr "vfst")).
  { eapply acq_weaken; [apply acq_new_vfst_analyzer; exact N|auto|auto|tauto]. }
  destruct (zlist_eqb (morBackend d) (wstr "finnishVfst")).
  { eapply acq_weaken; [apply acq_new_vfst_analyzer; exact N|auto|auto|tauto]. }
  apply zlist_eqb_neq in H. rewrite H, andb_false_r. apply acq_throw; [discriminate|tauto].
Qed.
Lemma rel_analyzer : forall a, releases (terminate_analyzer a ;~ delete_analyzer a) (of_analyzer a).
Proof.
  intros [o|o t c b]; unfold delete_analyzer; cbn [terminate_analyzer analyzer_object of_analyzer].
  - eapply rel_perm; [apply rel_seq; [apply rel_ret|apply rel_delete]|reflexivity].
  - eapply rel_perm; [apply rel_seq; [apply rel_two|apply rel_delete]|]. perm.
Qed.

Definition speller_refers (a : analyzer) (s : speller) : Prop :=
  match s with AnalyzerSpeller _ u | TweaksWrapper _ _ _ u => u = analyzer_object a | _ => True end.
Lemma acq_speller : forall b d f a, f_spl f <> Empty ->
  acquires (getSpeller b d f a) of_speller (absent_or_good (f_spl f) /\ f_zhfst f = true) False (speller_refers a).
Proof.
  intros b d f a N. unfold getSpeller. destruct (zlist_eqb (spellBackend d) _).
  { eapply acq_weaken; [eapply (acq_map _ _ _ _ _ _ _ _ (speller_refers a) of_speller); [apply acq_new|intros o _; split; [reflexivity|reflexivity]]|auto|auto|tauto]. }
  destruct (zlist_eqb (spellBackend d) _).
  { eapply acq_weaken; [eapply (acq_then _ _ _ _ _ _ _ _ (fun _ s => match s with TweaksWrapper o _ y _ => [o; y] | _ => [] end) (speller_refers a) of_speller); [apply acq_new|]|auto|auto|tauto].
    intros i _. eapply acq_map; [apply acq_construct; apply acq_new|]. intros (o & y) _. cbn [fst snd]. split; [split; [reflexivity|cbn [of_speller]; perm]|reflexivity]. }
  destruct (zlist_eqb (spellBackend d) (wstr "AllOk")).
  { eapply acq_weaken; [eapply (acq_map _ _ _ _ _ _ _ _ (speller_refers a) of_speller); [apply acq_new|intros o _; split; [exact I|reflexivity]]|auto|auto|tauto]. }
  destruct (zlist_eqb (spellBackend d) (wstr "AllError")).
  { eapply acq_weaken; [eapply (acq_map _ _ _ _ _ _ _ _ (speller_refers a) of_speller); [apply acq_new|intros o _; split; [exact I|reflexivity]]|auto|auto|tauto]. }
  destruct (have_hfst b && zlist_eqb (spellBackend d) (wstr "hfst")).
  { eapply (acq_map _ _ _ _ _ _ _ (fun _ => True) (speller_refers a) of_speller).
    - apply (acq_construct _ _ (fun l => [l]) _ _ (fun _ => True)). destruct (f_zhfst f).
      + eapply acq_weaken; [eapply (acq_map _ _ _ (fun l => l) _ _ _ _ (fun _ => True) (fun l => [l])); [apply acq_new|auto]|auto|auto|tauto].
      + apply acq_fails; [|intros (_ & X); discriminate|tauto]. eapply fails_bind; [apply acq_new|]. intros _. apply fails_throw. discriminate.
    - intros (o & l) _. split; [exact I|reflexivity]. }
  destruct (have_experimental b && zlist_eqb (spellBackend d) (wstr "vfst")).
  { apply (acq_ext _ (x <~ construct (t <~ new_transducer true (f_spl f) ;; c <~ new ;; b <~ new ;; ret (t, c, b)) ;; ret (VfstSpeller (fst x) (fst (fst (snd x))) (snd (fst (snd x))) (snd (snd x))))).
    { intros h. unfold bindio at 1 5. destruct (construct _ h) as [[o [[t c] b']] h'| |]; reflexivity. }
    eapply acq_weaken; [eapply (acq_map _ _ _ _ _ _ _ _ (speller_refers a) of_speller); [apply acq_construct; apply acq_two; exact N|]|auto|tauto|tauto].
    intros (o & (t & c) & b') _. cbn [fst snd of_speller]. split; [exact I|reflexivity]. }
  apply acq_throw; [discriminate|tauto].
Qed.
Lemma rel_speller : forall s, releases (terminate_speller s ;~ delete_speller s) (of_speller s).
Proof.
  intros [o u|o i y u|o|o l|o t c b]; cbn [terminate_speller delete_speller of_speller].
  - eapply rel_perm; [apply rel_seq; [apply rel_ret|apply rel_delete]|reflexivity].
  - eapply rel_perm; [apply rel_seq; [apply rel_seq; apply rel_delete|apply rel_delete]|]. perm.
  - eapply rel_perm; [apply rel_seq; [apply rel_ret|apply rel_delete]|reflexivity].
  - eapply rel_perm; [apply rel_seq; apply rel_delete|]. perm.
  - eapply rel_perm; [apply rel_seq; [apply rel_two|apply rel_delete]|]. perm.
Qed.

(** A suggestion generator and what it needs of the other components. *)
Definition suggestion_refers (a : analyzer) (s : speller) (g : suggestion) : Prop :=
  match g with
  | Strategy _ _ _ u => u = analyzer_object a
  | HfstSuggestion _ u => exists o, s = HfstSpeller o u
  | NullGenerator _ => True
  | VfstSuggestion _ _ _ _ _ _ _ => False
  end.
(** The speller fits the suggestions. *)
Definition suits (b : build) (d : dictionary) (s : speller) : Prop :=
  suggestionBackend d = wstr "FinnishSuggestionStrategy(currentAnalyzer)" \/ suggestionBackend d = wstr "null" \/
  (have_hfst b = true /\ suggestionBackend d = wstr "hfst" /\ exists o l, s = HfstSpeller o l).
Lemma acq_suggestion : forall b d f a s ocr, suggestionBackend d <> wstr "vfst" ->
  acquires (getSuggestionGenerator b d f a s ocr) of_suggestion True (suits b d s) (fun g => suggestion_refers a s g /\ suits b d s).
Proof.
  intros b d f a s ocr V. unfold getSuggestionGenerator.
  destruct (zlist_eqb (suggestionBackend d) (wstr "FinnishSuggestionStrategy(currentAnalyzer)")) eqn:E1.
  { apply zlist_eqb_eq in E1. apply (acq_weaken _ _ of_suggestion True True (fun g => suggestion_refers a s g /\ suits b d s)); [|auto|auto|auto].
    eapply (acq_map _ _ _ _ _ _ _ (fun _ => True)).
    - apply (acq_construct _ _ (fun x => fst x ++ snd x) True True (fun _ => True)).
      eapply (acq_then _ _ _ _ _ _ _ _ (fun _ x => snd x)); [apply acq_news|]. intros p _. eapply acq_map; [apply acq_news|]. intros g _. cbn [fst snd].
      split; [split; [exact I|perm]|reflexivity].
    - intros (o & p & g) _. cbn [fst snd]. split; [split; [reflexivity|left; exact E1]|]. cbn [of_suggestion]. reflexivity. }
  destruct (zlist_eqb (suggestionBackend d) (wstr "null")) eqn:E2.
  { apply zlist_eqb_eq in E2. eapply acq_weaken; [eapply (acq_map _ _ _ _ _ _ _ _ (fun g => suggestion_refers a s g /\ suits b d s) of_suggestion); [apply acq_new|]|auto|auto|auto].
    intros o _. split; [split; [exact I|right; left; exact E2]|reflexivity]. }
  apply zlist_eqb_neq in E1, E2. assert (No : forall s', (forall o l, s' <> HfstSpeller o l) -> ~ suits b d s').
  { intros s' W [X|[X|(_ & _ & o & l & X)]]; [contradiction|contradiction|exact (W o l X)]. }
  destruct (have_hfst b) eqn:B; cbn [andb].
  - destruct (zlist_eqb (suggestionBackend d) (wstr "hfst")) eqn:E3.
    + apply zlist_eqb_eq in E3. destruct s as [o u|o i y u|o|o l|o t c b']; try (apply acq_throw; [discriminate|apply No; discriminate]).
      eapply acq_weaken; [eapply (acq_map _ _ _ _ _ _ _ _ (fun g => suggestion_refers a (HfstSpeller o l) g /\ suits b d (HfstSpeller o l)) of_suggestion); [apply acq_new|]|auto|auto|auto].
      intros n _. split; [split; [exists o; reflexivity|right; right; split; [exact B|split; [exact E3|eauto]]]|reflexivity].
    + apply zlist_eqb_neq in E3. apply zlist_eqb_neq in V. rewrite V, andb_false_r. apply acq_throw; [discriminate|]. intros [X|[X|(_ & X & _)]]; contradiction.
  - apply zlist_eqb_neq in V. rewrite V, andb_false_r. apply acq_throw; [discriminate|]. intros [X|[X|(X & _)]]; try contradiction. congruence.
Qed.
Definition plain_suggestion (g : suggestion) : Prop := match g with VfstSuggestion _ _ _ _ _ _ _ => False | _ => True end.
Lemma rel_suggestion : forall g, plain_suggestion g -> releases (delete_suggestion g) (of_suggestion g).
Proof.
  intros [o p l u|o|o u|] H; cbn [delete_suggestion of_suggestion]; try apply rel_delete; [|destruct H].
  eapply rel_perm; [apply rel_seq; [apply rel_deletes|apply rel_seq; [apply rel_deletes|apply rel_delete]]|]. perm.
Qed.
Lemma terminate_plain : forall g h, plain_suggestion g -> terminate_suggestion g h = Ret tt h.
Proof. intros [o p l u|o|o u|] h H; try reflexivity. destruct H. Qed.

Lemma acq_hyphenator : forall b d a, hyphenatorBackend d <> wstr "hfst" ->
  acquires (getHyphenator b d a) (fun y => [hy_object y]) True False (fun y => hy_uses y = analyzer_object a).
Proof.
  intros b d a H. unfold getHyphenator. destruct (zlist_eqb (hyphenatorBackend d) (wstr "AnalyzerToFinnishHyphenatorAdapter(currentAnalyzer)")).
  - eapply acq_weaken; [eapply (acq_map _ _ _ _ _ _ _ _ (fun y => hy_uses y = analyzer_object a) (fun y => [hy_object y])); [apply acq_new|intros o _; split; reflexivity]|auto|auto|tauto].
  - apply zlist_eqb_neq in H. rewrite H, andb_false_r. apply acq_throw; [discriminate|tauto].
Qed.
Lemma rel_hyphenator : forall y, releases (terminate_hyphenator y ;~ delete_hyphenator y) [hy_object y].
Proof. intros y. eapply rel_perm; [apply rel_seq; [apply rel_ret|apply rel_delete]|reflexivity]. Qed.

Lemma plain_checks : forall l, flat_map of_check (map PlainCheck l) = l.
Proof. induction l as [|x l IH]; cbn; congruence. Qed.
Lemma acq_rule_engine : forall d f, f_autocorr f <> Empty ->
  acquires (rule_engine_constructor d f) (fun l => flat_map of_check l) (loads (f_autocorr f)) (loads (f_autocorr f)) (fun _ => True).
Proof.
  intros d f N. unfold rule_engine_constructor.
  eapply (acq_weaken _ _ (fun l => flat_map of_check l) (True /\ loads (f_autocorr f)) (True /\ loads (f_autocorr f)) (fun _ => True)); [|auto|auto|auto].
  destruct (zlist_eqb (grammarBackend d) (wstr "finnishVfst")).
  - eapply (acq_bind _ _ _ _ _ _ _ _ (fun p l => match last l (PlainCheck 0) with AutocorrectCheck o t c i b => of_check (AutocorrectCheck o t c i b) | _ => [] end) (absent_or_good (f_autocorr f))); [apply acq_news|].
    intros p _.
    apply (acq_ext _ (x <~ construct (t <~ new_transducer false (f_autocorr f) ;; c <~ new ;; i <~ new ;; o <~ new ;; ret (t, c, i, o)) ;;
       ret (map PlainCheck p ++ [AutocorrectCheck (fst x) (fst (fst (fst (snd x)))) (snd (fst (fst (snd x)))) (snd (fst (snd x))) (snd (snd x))]))).
    { intros h. unfold bindio at 1 6. destruct (construct _ h) as [[o [[[t c] i] b']] h'| |]; reflexivity. }
    eapply (acq_map _ _ _ _ _ _ _ (fun _ => True)).
    + apply (acq_construct _ _ (fun x => of_transducer (fst (fst (fst x))) ++ [snd (fst (fst x)); snd (fst x); snd x]) _ _ (fun _ => True)).
      eapply (acq_then _ _ _ _ _ _ _ _ (fun _ x => [snd (fst (fst x)); snd (fst x); snd x])); [apply acq_new_transducer; exact N|]. intros t _.
      eapply (acq_then _ _ _ _ _ _ _ _ (fun _ x => [snd (fst x); snd x])); [apply acq_new|]. intros c _.
      eapply (acq_then _ _ _ _ _ _ _ _ (fun _ x => [snd x])); [apply acq_new|]. intros i _. eapply acq_map; [apply acq_new|]. intros o _. cbn [fst snd].
      split; [split; [split; [split; [exact I|]|]|]|]; perm.
    + intros (o & (((t & c) & i) & b')) _. cbn [fst snd]. rewrite last_last. split; [split; [exact I|]|cbn [of_check]; reflexivity].
      rewrite flat_map_app, plain_checks. cbn [flat_map]. perm.
  - eapply acq_weaken; [eapply (acq_map _ _ _ _ _ _ _ _ (fun _ => True) (fun l => flat_map of_check l)); [apply acq_news|]|auto|auto|auto].
    intros l _. rewrite plain_checks. split; auto.
Qed.
Lemma acq_grammar : forall d f, f_autocorr f <> Empty ->
  acquires (getGrammarChecker d f) of_grammar (loads (f_autocorr f)) False (fun _ => True).
Proof.
  intros d f N. unfold getGrammarChecker. destruct (zlist_eqb (grammarBackend d) (wstr "null")).
  { apply (acq_weaken _ _ of_grammar True True (fun _ => True)); [|auto|auto|tauto]. eapply (acq_map _ _ _ _ _ _ _ (fun _ => True)).
    - apply (acq_construct _ _ (fun x => [fst x; snd x]) True True (fun _ => True)). eapply (acq_then _ _ _ _ _ _ _ _ (fun _ x => [snd x])); [apply acq_new|]. intros e _.
      eapply acq_map; [apply acq_new|]. intros a _. cbn [fst snd]. split; [split; [exact I|perm]|reflexivity].
    - intros (o & e & a) _. split; [exact I|reflexivity]. }
  destruct (zlist_eqb (grammarBackend d) (wstr "finnish") || zlist_eqb (grammarBackend d) (wstr "finnishVfst")).
  { apply (acq_ext _ (x <~ construct (e <~ construct (rule_engine_constructor d f) ;; a <~ new ;; ret (e, a)) ;;
       ret (mkGrammar (fst x) (fst (fst (snd x))) (snd (fst (snd x))) (snd (snd x))))).
    { intros h. unfold bindio at 1 4. destruct (construct _ h) as [[o [[e l] a]] h'| |]; reflexivity. }
    apply (acq_weaken _ _ of_grammar (loads (f_autocorr f)) (loads (f_autocorr f)) (fun _ => True)); [|auto|auto|tauto]. eapply (acq_map _ _ _ _ _ _ _ (fun _ => True)).
    - apply (acq_construct _ _ (fun x => fst (fst x) :: flat_map of_check (snd (fst x)) ++ [snd x]) (loads (f_autocorr f)) (loads (f_autocorr f)) (fun _ => True)).
      eapply (acq_then _ _ _ _ _ _ _ _ (fun _ x => [snd x])); [apply acq_construct; apply acq_rule_engine; exact N|]. intros (e & l) _.
      eapply acq_map; [apply acq_new|]. intros a _. cbn [fst snd]. split; [split; [exact I|perm]|reflexivity].
    - intros (o & (e & l) & a) _. split; [exact I|]. cbn [fst snd]. unfold of_grammar. cbn [g_object g_engine g_checks g_analyser]. reflexivity. }
  apply acq_throw; [discriminate|tauto].
Qed.
Lemma rel_check : forall c, releases (delete_check c) (of_check c).
Proof.
  intros [o|obj t c i o]; cbn [delete_check of_check]; [apply rel_delete|].
  eapply rel_perm; [apply rel_seq; [apply rel_delete|apply rel_seq; [apply rel_delete|apply rel_seq; [apply rel_delete|
    apply rel_seq; [apply rel_delete|apply rel_seq; [apply rel_seq; [apply rel_deletes|apply rel_delete]|apply rel_delete]]]]]|].
  unfold of_transducer. perm.
Qed.
Lemma rel_checks : forall l, releases (delete_checks l) (flat_map of_check l).
Proof. induction l as [|c l IH]; cbn [delete_checks flat_map]; [apply rel_ret|]. apply rel_seq; [apply rel_check|exact IH]. Qed.
Lemma rel_grammar : forall g, releases (delete_grammar g) (of_grammar g).
Proof.
  intros g. unfold delete_grammar, of_grammar. eapply rel_perm; [apply rel_seq; [apply rel_delete|apply rel_seq; [apply rel_checks|apply rel_seq; apply rel_delete]]|]. perm.
Qed.

Lemma acq_cache : forall n, acquires (new_cache n) (fun c => of_cache (Some c)) True True (fun _ => True).
Proof.
  intros n. unfold new_cache. eapply (acq_map _ _ _ _ _ _ _ (fun _ => True)).
  - apply (acq_construct _ _ (fun x => [fst x; snd x]) True True (fun _ => True)). eapply (acq_then _ _ _ _ _ _ _ _ (fun _ x => [snd x])); [apply acq_new|]. intros e _.
    eapply acq_map; [apply acq_new|]. intros a _. cbn [fst snd]. split; [split; [exact I|perm]|reflexivity].
  - intros (o & e & a) _. split; [exact I|reflexivity].
Qed.
Lemma rel_cache : forall c, releases (if_set c delete_cache) (of_cache c).
Proof.
  intros [c|]; cbn [if_set of_cache]; [|apply rel_ret]. unfold delete_cache. eapply rel_perm; [apply rel_seq; [apply rel_delete|apply rel_seq; apply rel_delete]|]. perm.
Qed.
