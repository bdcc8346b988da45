(** * C77: what one call of the library does to the heap *)
From Verif Require Import Base SetupModel SetupProofs LifeModel LifeSpec LifeProofs.
From Coq Require Import Permutation.

(** ** The handle *)

(** The components fit each other. *)
Definition fitting (b : build) (v : vhandle) : Prop :=
  speller_refers (v_analyzer v) (v_speller v) /\ suggestion_refers (v_analyzer v) (v_speller v) (v_suggestion v) /\
  hy_uses (v_hyphenator v) = analyzer_object (v_analyzer v) /\ suits b (v_dictionary v) (v_speller v) /\
  suggestionBackend (v_dictionary v) <> wstr "vfst".
Lemma refers_plain : forall a s g, suggestion_refers a s g -> plain_suggestion g.
Proof. intros a s [| | |] H; cbn in *; auto. Qed.

Lemma rel_if : forall A (o : option A) k own, (forall a, releases (k a) (own a)) -> releases (if_set o k) (match o with Some a => own a | None => [] end).
Proof. intros A [a|] k own H; cbn [if_set]; [apply H|apply rel_ret]. Qed.

Definition opt {A} (own : A -> list nat) (o : option A) : list nat := match o with Some a => own a | None => [] end.
Lemma give_up_spec : forall object a s g y e h lost rest,
  opt (fun g => if match g with VfstSuggestion _ _ _ _ _ _ _ => true | _ => false end then [0%nat] else []) g = [] ->
  Permutation (live h) (lost ++ (object :: opt of_analyzer a ++ opt of_speller s ++ opt of_suggestion g ++ opt (fun y => [hy_object y]) y) ++ rest) ->
  exists h', give_up object a s g y e h = Ret (inr e) h' /\ Permutation (live h') (lost ++ rest).
Proof.
  intros object a s g y e h lost rest G H.
  assert (R : releases (if_set y (fun y => terminate_hyphenator y ;~ delete_hyphenator y) ;~ if_set g delete_suggestion ;~
     if_set s (fun s => terminate_speller s ;~ delete_speller s) ;~ if_set a (fun a => terminate_analyzer a ;~ delete_analyzer a) ;~ delete object)
     (opt (fun y => [hy_object y]) y ++ opt of_suggestion g ++ opt of_speller s ++ opt of_analyzer a ++ [object])).
  { apply rel_seq; [apply (rel_if _ y _ (fun y => [hy_object y])); intros; apply rel_hyphenator|].
    apply rel_seq; [destruct g as [g|]; cbn [if_set opt]; [apply rel_suggestion; destruct g; cbn in *; auto; discriminate|apply rel_ret]|].
    apply rel_seq; [apply (rel_if _ s _ of_speller); intros; apply rel_speller|].
    apply rel_seq; [apply (rel_if _ a _ of_analyzer); intros; apply rel_analyzer|apply rel_delete]. }
  destruct (R h (lost ++ rest)) as (h' & E & L); [rewrite H; perm|]. exists h'. split; [|exact L].
  unfold give_up. unfold bindio in *. destruct (if_set y _ h) as [u1 h1| |]; try discriminate. destruct (if_set g _ h1) as [u2 h2| |]; try discriminate.
  destruct (if_set s _ h2) as [u3 h3| |]; try discriminate. destruct (if_set a _ h3) as [u4 h4| |]; try discriminate. rewrite E. reflexivity.
Qed.

(** What [voikkoInit] gives. *)
Lemma init_spec : forall b loaded f h, ordinary loaded -> mappable f ->
  match voikkoInit b loaded f h with
  | Ret (inl v) h' => fitting b v /\ (exists d, loaded = inl d /\ v_dictionary v = d) /\ Permutation (live h') (of_handle v ++ live h)
  | Ret (inr e) h' => e <> [] /\ exists lost, Permutation (live h') (lost ++ live h) /\ (undamaged f -> lost = [])
  | _ => False
  end.
Proof.
  intros b loaded f h O M. unfold voikkoInit. unfold bindio at 1. cbn [new]. set (h1 := mkHeap (fresh h :: live h) (S (fresh h))).
  assert (L1 : live h1 = fresh h :: live h) by reflexivity. set (object := fresh h) in *.
  assert (Give : forall a s g y e h2 lost, e <> [] ->
     opt (fun g => if match g with VfstSuggestion _ _ _ _ _ _ _ => true | _ => false end then [0%nat] else []) g = [] ->
     Permutation (live h2) (lost ++ opt (fun y => [hy_object y]) y ++ opt of_suggestion g ++ opt of_speller s ++ opt of_analyzer a ++ live h1) ->
     (undamaged f -> lost = []) ->
     match give_up object a s g y e h2 with
     | Ret (inl v) h' => fitting b v /\ (exists d, loaded = inl d /\ v_dictionary v = d) /\ Permutation (live h') (of_handle v ++ live h)
     | Ret (inr e) h' => e <> [] /\ exists lost, Permutation (live h') (lost ++ live h) /\ (undamaged f -> lost = [])
     | _ => False
     end).
  { intros a s g y e h2 lost E G P U. destruct (give_up_spec object a s g y e h2 lost (live h) G) as (h' & -> & L); [rewrite P, L1; perm|]. split; auto. exists lost. auto. }
  destruct loaded as [d|e]; [|apply (Give None None None None e h1 []); cbn [opt app]; auto].
  destruct O as (Om & Oh & Os). destruct M as (Mm & Ma & Ms). unfold attempt.
  pose proof (acq_analyzer b d f Mm Om h1) as A. destruct (getAnalyzer b d f h1) as [a h2|e h2|]; [|destruct A as (_ & E & lost & L & C)|exact A].
  2:{ apply (Give None None None None e h2 lost); cbn [opt app]; auto. intros U. apply C. apply U. }
  destruct A as (A & _).
  pose proof (acq_speller b d f a Ms h2) as S1. destruct (getSpeller b d f a h2) as [s h3|e h3|]; [|destruct S1 as (_ & E & lost & L & C)|exact S1].
  2:{ apply (Give (Some a) None None None e h3 lost); cbn [opt app]; auto; [rewrite L, A; reflexivity|]. intros (_ & U2 & _ & U4). auto. }
  destruct S1 as (S1 & Rs).
  pose proof (acq_suggestion b d f a s false Os h3) as G. destruct (getSuggestionGenerator b d f a s false h3) as [g h4|e h4|]; [|destruct G as (_ & E & lost & L & C)|exact G].
  2:{ apply (Give (Some a) (Some s) None None e h4 lost); cbn [opt app]; auto. rewrite L, S1, A. reflexivity. }
  destruct G as (G & Rg & Su). assert (Pg : opt (fun g => if match g with VfstSuggestion _ _ _ _ _ _ _ => true | _ => false end then [0%nat] else []) (Some g) = []).
  { apply refers_plain in Rg. destruct g; cbn in *; tauto. }
  pose proof (acq_hyphenator b d a Oh h4) as Y. destruct (getHyphenator b d a h4) as [y h5|e h5|]; [|destruct Y as (_ & E & lost & L & C)|exact Y].
  2:{ apply (Give (Some a) (Some s) (Some g) None e h5 lost); auto. cbn [opt app]. rewrite L, G, S1, A. reflexivity. }
  destruct Y as (Y & Ry).
  pose proof (acq_grammar d f Ma h5) as K. destruct (getGrammarChecker d f h5) as [c h6|e h6|]; [|destruct K as (_ & E & lost & L & C)|exact K].
  2:{ apply (Give (Some a) (Some s) (Some g) (Some y) e h6 lost); auto; [cbn [opt app]; rewrite L, Y, G, S1, A; reflexivity|]. intros (_ & _ & U & _). apply C. destruct (f_autocorr f); try contradiction. exact I. }
  destruct K as (K & _). unfold bindio. pose proof (acq_cache 0 h6) as Q. destruct (new_cache 0 h6) as [q h7|e h7|]; [|tauto|exact Q]. destruct Q as (Q & _). cbn [ret].
  split; [split; [exact Rs|split; [exact Rg|split; [exact Ry|split; [exact Su|exact Os]]]]|]. split; [eauto|]. rewrite Q, K, Y, G, S1, A, L1.
  unfold of_handle. cbn [v_object v_analyzer v_speller v_suggestion v_hyphenator v_grammar v_cache]. perm.
Qed.

(** ** Options *)
Lemma set_spec : forall b v s h rest, fitting b v -> Permutation (live h) (of_handle v ++ rest) ->
  exists v' h', set_option b v s h = Ret v' h' /\ fitting b v' /\ Permutation (live h') (of_handle v' ++ rest).
Proof.
  intros b v s h rest F P. destruct F as (F1 & F2 & F3 & F4 & F5). destruct s as [value f|value]; cbn [set_option].
  - unfold set_ocr, bindio. destruct (rel_suggestion (v_suggestion v) (refers_plain _ _ _ F2) h
      (v_object v :: of_analyzer (v_analyzer v) ++ of_speller (v_speller v) ++ [hy_object (v_hyphenator v)] ++ of_grammar (v_grammar v) ++ of_cache (v_cache v) ++ rest)) as (h1 & -> & L).
    { rewrite P. unfold of_handle. perm. }
    pose proof (acq_suggestion b (v_dictionary v) f (v_analyzer v) (v_speller v) value F5 h1) as G.
    destruct (getSuggestionGenerator b (v_dictionary v) f (v_analyzer v) (v_speller v) value h1) as [g h2|e h2|]; [|tauto|destruct G].
    destruct G as (G & R & _). eexists. exists h2. split; [reflexivity|]. split; [repeat split; auto|].
    rewrite G, L. unfold of_handle. cbn [v_object v_analyzer v_speller v_suggestion v_hyphenator v_grammar v_cache]. perm.
  - unfold set_cache_size. destruct (v_cache v) as [c|] eqn:Ec.
    + destruct (negb (c_size c =? value)); [|exists v, h; repeat split; auto].
      unfold bindio at 1. destruct (rel_cache (v_cache v) h
        (v_object v :: of_analyzer (v_analyzer v) ++ of_speller (v_speller v) ++ of_suggestion (v_suggestion v) ++ [hy_object (v_hyphenator v)] ++ of_grammar (v_grammar v) ++ rest)) as (h1 & E & L).
      { rewrite P. unfold of_handle. perm. }
      rewrite Ec in E. cbn [if_set] in E. rewrite E. destruct (value >=? 0).
      * unfold bindio. pose proof (acq_cache value h1) as Q. destruct (new_cache value h1) as [q h2|e h2|]; [|tauto|destruct Q]. destruct Q as (Q & _).
        eexists. exists h2. split; [reflexivity|]. split; [repeat split; auto|]. rewrite Q, L. unfold of_handle. cbn [v_object v_analyzer v_speller v_suggestion v_hyphenator v_grammar v_cache]. perm.
      * eexists. exists h1. split; [reflexivity|]. split; [repeat split; auto|]. rewrite L. unfold of_handle. cbn [v_object v_analyzer v_speller v_suggestion v_hyphenator v_grammar v_cache of_cache]. perm.
    + destruct (value >=? 0); [|exists v, h; repeat split; auto].
      unfold bindio. pose proof (acq_cache value h) as Q. destruct (new_cache value h) as [q h2|e h2|]; [|tauto|destruct Q]. destruct Q as (Q & _).
      eexists. exists h2. split; [reflexivity|]. split; [repeat split; auto|]. rewrite Q, P. unfold of_handle. rewrite Ec. cbn [v_object v_analyzer v_speller v_suggestion v_hyphenator v_grammar v_cache of_cache]. perm.
Qed.

(** ** Termination *)
Lemma terminate_spec : forall b v, fitting b v -> releases (voikkoTerminate v) (of_handle v).
Proof.
  intros b v (_ & F2 & _). apply refers_plain in F2. unfold voikkoTerminate.
  assert (T : releases (terminate_suggestion (v_suggestion v)) []) by (intros h rest H; exists h; split; [apply terminate_plain; exact F2|exact H]).
  assert (Split : forall (m k j : io unit) x y, releases (m ;~ k) x -> releases j y -> releases (m ;~ k ;~ j) (x ++ y)).
  { intros m k j x y A B h rest H. destruct (rel_seq _ _ _ _ A B h rest H) as (h' & E & L). exists h'. split; [|exact L]. unfold bindio in *. destruct (m h) as [[] h1| |]; auto. }
  eapply rel_perm.
  - apply rel_seq; [apply rel_grammar|]. apply Split; [apply rel_hyphenator|]. apply rel_seq; [exact T|]. apply rel_seq; [apply rel_suggestion; exact F2|].
    apply Split; [apply rel_speller|]. apply Split; [apply rel_analyzer|]. apply rel_seq; [apply rel_cache|apply rel_delete].
  - unfold of_handle. perm.
Qed.

(** ** Names *)
Definition keeps {A} (m : io A) : Prop := forall h, sound h -> match m h with Ret _ h' | Throw _ h' => sound h' | Undefined => True end.
Lemma keeps_ret : forall A (a : A), keeps (ret a). Proof. intros A a h H. exact H. Qed.
Lemma keeps_throw : forall A e, keeps (@throw A e). Proof. intros A e h H. exact H. Qed.
Lemma keeps_undefined : forall A, keeps (@undefined A). Proof. intros A h H. exact I. Qed.
Lemma keeps_bind : forall A B (m : io A) (k : A -> io B), keeps m -> (forall a, keeps (k a)) -> keeps (bindio m k).
Proof. intros A B m k H K h S0. unfold bindio. specialize (H h S0). destruct (m h) as [a h1|e h1|]; auto. apply K. exact H. Qed.
Lemma keeps_attempt : forall A B (m : io A) (k : A -> io B) c, keeps m -> (forall a, keeps (k a)) -> (forall e, keeps (c e)) -> keeps (attempt m k c).
Proof. intros A B m k c H K C h S0. unfold attempt. specialize (H h S0). destruct (m h) as [a h1|e h1|]; auto; [apply K|apply C]; exact H. Qed.
Lemma keeps_new : keeps new.
Proof.
  intros h (N & F). cbn [new]. split; cbn [live fresh].
  - constructor; auto. intros I. rewrite Forall_forall in F. specialize (F _ I). lia.
  - constructor; [lia|]. eapply Forall_impl; [|exact F]. cbn. intros; lia.
Qed.
Lemma keeps_delete : forall i, keeps (delete i).
Proof.
  intros i h (N & F). unfold delete. destruct (remove_one i (live h)) as [l|] eqn:E; auto.
  assert (P : Permutation (live h) (i :: l)).
  { clear - E. revert l E. induction (live h) as [|x r IH]; intros l E; cbn [remove_one] in E; [discriminate|].
    destruct (Nat.eqb_spec x i) as [->|]; [injection E as ->; reflexivity|]. destruct (remove_one i r) as [l'|]; [|discriminate]. injection E as <-.
    rewrite (IH l' eq_refl). constructor. }
  split; cbn [live fresh].
  - apply (Permutation_NoDup P) in N. inversion N; auto.
  - apply (Permutation_Forall P) in F. inversion F; auto.
Qed.
Lemma keeps_news : forall n, keeps (news n).
Proof. induction n; cbn [news]; [apply keeps_ret|]. apply keeps_bind; [apply keeps_new|]. intros a. apply keeps_bind; [exact IHn|]. intros. apply keeps_ret. Qed.
Lemma keeps_deletes : forall l, keeps (deletes l).
Proof. induction l; cbn [deletes]; [apply keeps_ret|]. apply keeps_bind; [apply keeps_delete|]. intros. exact IHl. Qed.
Ltac keep := repeat match goal with
  | |- keeps (ret _) => apply keeps_ret
  | |- keeps (throw _) => apply keeps_throw
  | |- keeps undefined => apply keeps_undefined
  | |- keeps new => apply keeps_new
  | |- keeps (delete _) => apply keeps_delete
  | |- keeps (news _) => apply keeps_news
  | |- keeps (deletes _) => apply keeps_deletes
  | |- keeps (bindio _ _) => apply keeps_bind; [|intros]
  | |- keeps (attempt _ _ _) => apply keeps_attempt; [|intros|intros]
  | |- keeps (construct _) => unfold construct
  | |- keeps (if ?x then _ else _) => destruct x
  | |- keeps (match ?x with _ => _ end) => destruct x
  end.
Lemma keeps_transducer : forall w f, keeps (new_transducer w f).
Proof. intros w f. unfold new_transducer, transducer_constructor, swap_map. keep. Qed.
Lemma keeps_terminate_transducer : forall t, keeps (terminate_transducer t).
Proof. intros t. unfold terminate_transducer. keep. Qed.
Lemma keeps_delete_transducer : forall t, keeps (delete_transducer t).
Proof. intros t. unfold delete_transducer. keep. Qed.
Ltac keep2 := repeat (keep; try first [apply keeps_transducer|apply keeps_terminate_transducer|apply keeps_delete_transducer]).
Lemma keeps_getAnalyzer : forall b d f, keeps (getAnalyzer b d f).
Proof. intros. unfold getAnalyzer, new_vfst_analyzer. keep2. Qed.
Lemma keeps_getSpeller : forall b d f a, keeps (getSpeller b d f a).
Proof. intros. unfold getSpeller. keep2. Qed.
Lemma keeps_getSuggestion : forall b d f a s o, keeps (getSuggestionGenerator b d f a s o).
Proof. intros. unfold getSuggestionGenerator. keep2. Qed.
Lemma keeps_getHyphenator : forall b d a, keeps (getHyphenator b d a).
Proof. intros. unfold getHyphenator. keep2. Qed.
Lemma keeps_getGrammar : forall d f, keeps (getGrammarChecker d f).
Proof. intros. unfold getGrammarChecker, rule_engine_constructor. keep2. Qed.
Lemma keeps_new_cache : forall n, keeps (new_cache n).
Proof. intros. unfold new_cache. keep2. Qed.
Lemma keeps_terminate_analyzer : forall a, keeps (terminate_analyzer a).
Proof. intros. unfold terminate_analyzer. keep2. Qed.
Lemma keeps_terminate_speller : forall s, keeps (terminate_speller s).
Proof. intros. unfold terminate_speller. keep2. Qed.
Lemma keeps_terminate_suggestion : forall g, keeps (terminate_suggestion g).
Proof. intros. unfold terminate_suggestion. keep2. Qed.
Lemma keeps_delete_suggestion : forall g, keeps (delete_suggestion g).
Proof. intros. unfold delete_suggestion. keep2. Qed.
Lemma keeps_delete_speller : forall s, keeps (delete_speller s).
Proof. intros. unfold delete_speller. keep2. Qed.
Lemma keeps_checks : forall l, keeps (delete_checks l).
Proof. induction l as [|c l IH]; cbn [delete_checks]; keep2; auto. unfold delete_check. keep2. Qed.
Lemma keeps_delete_cache : forall c, keeps (delete_cache c).
Proof. intros. unfold delete_cache. keep2. Qed.
Ltac keep3 := repeat (keep2; try first [apply keeps_getAnalyzer|apply keeps_getSpeller|apply keeps_getSuggestion|apply keeps_getHyphenator
  |apply keeps_getGrammar|apply keeps_new_cache|apply keeps_terminate_analyzer|apply keeps_terminate_speller|apply keeps_terminate_suggestion
  |apply keeps_delete_suggestion|apply keeps_delete_speller|apply keeps_checks|apply keeps_delete_cache]).
Lemma keeps_give_up : forall o a s g y e, keeps (give_up o a s g y e).
Proof. intros. unfold give_up, if_set, terminate_hyphenator, delete_hyphenator, delete_analyzer. keep3. Qed.
Lemma keeps_init : forall b l f, keeps (voikkoInit b l f).
Proof. intros. unfold voikkoInit. keep3; try apply keeps_give_up. Qed.
Lemma keeps_set : forall b v s, keeps (set_option b v s).
Proof. intros. unfold set_option, set_ocr, set_cache_size. keep3. Qed.
Lemma keeps_terminate : forall v, keeps (voikkoTerminate v).
Proof. intros. unfold voikkoTerminate, delete_grammar, if_set, terminate_hyphenator, delete_hyphenator, delete_analyzer. keep3. Qed.

(** ** Histories *)
Lemma undamaged_mappable : forall f, undamaged f -> mappable f.
Proof. intros f (A & B & C & D). unfold mappable. repeat split; intros E; [rewrite E in A|rewrite E in C|rewrite E in B]; contradiction. Qed.
Lemma history_inv : forall b h0 vs h, history b h0 vs h ->
  Forall (fitting b) vs /\ Permutation (live h) (flat_map of_handle vs ++ live h0).
Proof.
  intros b h0 vs h H. induction H as [|vs h loaded f v h' H IH O M E|vs h loaded f e h' H IH O U E|vs ws v h s v' h' H IH E|vs ws v h h' H IH E].
  - split; [constructor|reflexivity].
  - destruct IH as (F & P). pose proof (init_spec b loaded f h O M) as I. rewrite E in I. destruct I as (F' & _ & P').
    split; [constructor; auto|]. cbn [flat_map]. rewrite P', P, app_assoc. reflexivity.
  - destruct IH as (F & P). pose proof (init_spec b loaded f h O (undamaged_mappable f U)) as I. rewrite E in I. destruct I as (_ & lost & P' & L).
    rewrite (L U) in P'. split; auto. rewrite P'. exact P.
  - destruct IH as (F & P). assert (Fv : fitting b v) by (rewrite Forall_forall in F; apply F, in_elt).
    destruct (set_spec b v s h (flat_map of_handle vs ++ flat_map of_handle ws ++ live h0) Fv) as (v2 & h2 & E2 & F2 & P2).
    { rewrite P, flat_map_app. cbn [flat_map]. perm. }
    rewrite E in E2. injection E2 as <- <-. split.
    + apply Forall_app in F. destruct F as (F3 & F4). inversion F4; subst. apply Forall_app. split; auto.
    + rewrite P2, flat_map_app. cbn [flat_map]. perm.
  - destruct IH as (F & P). assert (Fv : fitting b v) by (rewrite Forall_forall in F; apply F, in_elt).
    destruct (terminate_spec b v Fv h (flat_map of_handle vs ++ flat_map of_handle ws ++ live h0)) as (h2 & E2 & P2).
    { rewrite P, flat_map_app. cbn [flat_map]. perm. }
    rewrite E in E2. injection E2 as <-. split.
    + apply Forall_app in F. destruct F as (F3 & F4). inversion F4; subst. apply Forall_app. split; auto.
    + rewrite P2, flat_map_app. perm.
Qed.
Lemma history_sound : forall b h0 vs h, sound h0 -> history b h0 vs h -> sound h.
Proof.
  intros b h0 vs h S0 H. induction H as [|vs h loaded f v h' H IH O M E|vs h loaded f e h' H IH O U E|vs ws v h s v' h' H IH E|vs ws v h h' H IH E]; auto.
  - pose proof (keeps_init b loaded f h IH) as K. rewrite E in K. exact K.
  - pose proof (keeps_init b loaded f h IH) as K. rewrite E in K. exact K.
  - pose proof (keeps_set b v s h IH) as K. rewrite E in K. exact K.
  - pose proof (keeps_terminate v h IH) as K. rewrite E in K. exact K.
Qed.
Lemma fitting_refers : forall b v x, fitting b v -> In x (referred v) -> In x (of_handle v).
Proof.
  intros b v x (A & B & C & _) H. assert (O : In (analyzer_object (v_analyzer v)) (of_analyzer (v_analyzer v))) by (destruct (v_analyzer v); left; reflexivity).
  unfold referred in H. unfold of_handle. right. rewrite !in_app_iff in H. rewrite !in_app_iff.
  destruct H as [H|[H|H]].
  - destruct (v_speller v) as [o u|o i hh u|o|o l|o t c bb]; cbn in A, H; try contradiction; destruct H as [H|[]]; subst; auto.
  - destruct (v_suggestion v) as [o p l u|o|o u|]; cbn in B, H; try contradiction; destruct H as [H|[]].
    + subst. auto.
    + destruct B as (o' & B). rewrite B, <- H. right. left. cbn. auto.
  - destruct H as [H|[]]. rewrite <- H, C. auto.
Qed.
