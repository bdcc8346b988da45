(** * Properties of the option setters (C27). *)
From Verif Require Import Base BaseFacts CharModel SpellerBase CacheModel CacheProofs GcCacheModel HandleModel SpellModel SpellSpec.

(** The two copies of IGNORE_DOT agree, and the cache has a supported size. *)
Definition settled (h : handle) : Prop := hyphIgnoreDot h = ignore_dot h.

Lemma bool_value_unknown : forall h o, ~ In o boolean_options -> bool_value h o = None.
Proof.
  intros h o N. unfold bool_value. destruct o as [|p|p]; [elim N; cbn; auto| |reflexivity].
  do 5 (try (destruct p as [p|p|]; try reflexivity; try (exfalso; apply N; cbn; tauto))).
Qed.

Lemma set_unknown : forall h o b, ~ In o boolean_options -> voikkoSetBooleanOption h o b = (0, h).
Proof.
  intros h o b N. unfold voikkoSetBooleanOption. destruct o as [|p|p]; [elim N; cbn; auto| |reflexivity].
  do 5 (try (destruct p as [p|p|]; try reflexivity; try (exfalso; apply N; cbn; tauto))).
Qed.

Lemma grammar_value : forall v old g, fst (setGrammarOption v old g) = v.
Proof. intros [] [] g; reflexivity. Qed.
Lemma grammar_memory : forall v old g, snd (setGrammarOption v old g) = if negb (Bool.eqb old v) then gc_empty else g.
Proof. intros [] [] g; reflexivity. Qed.

(** Known options. *)
Lemma set_known : forall h o b, In o boolean_options -> let h' := snd (voikkoSetBooleanOption h o b) in
  fst (voikkoSetBooleanOption h o b) = 1 /\
  (settled h -> settled h') /\
  bool_value h' o = Some b /\
  (forall o', In o' boolean_options -> o' <> o -> bool_value h' o' = bool_value h o') /\
  hyphMinLength h' = hyphMinLength h /\ spellerCache h' = spellerCache h /\
  gcCache h' = (if (mem o [13; 14; 16]) && negb (match bool_value h o with Some v => Bool.eqb v b | None => true end)
                then gc_empty else gcCache h).
Proof.
  intros h o b I h'. subst h'. destruct h. unfold boolean_options in *. cbn [In] in I.
  repeat match goal with H : _ \/ _ |- _ => destruct H as [<-|I] end; [..|elim I];
  cbn [voikkoSetBooleanOption];
  try match goal with |- context [setGrammarOption ?v ?o ?g] =>
    pose proof (grammar_value v o g) as GV; pose proof (grammar_memory v o g) as GM;
    destruct (setGrammarOption v o g) as [nv ng]; cbn [fst snd] in GV, GM; subst nv ng end;
  cbn [fst snd];
  (split; [reflexivity|]);
  (split; [unfold settled; cbn; auto|]);
  (split; [cbn; rewrite ?Bool.eqb_reflx, ?Bool.negb_involutive; reflexivity|]);
  (split; [intros o' I' NE; cbn [In] in I'; repeat match goal with H : _ \/ _ |- _ => destruct H as [<-|I'] end; [..|elim I']; try (exfalso; apply NE; reflexivity); reflexivity|]);
  (split; [reflexivity|]); (split; [reflexivity|]); reflexivity.
Qed.

(** Effect of one call: the return value tells whether the option exists; if it
    does, its value becomes the one given; every other boolean and integer
    option keeps its value; an unknown option changes nothing at all.  The
    grammar checker's memory is dropped exactly when a grammar option (13, 14,
    16) changes value, and otherwise untouched. *)
Theorem C27_set_boolean : forall h o b r h', settled h -> voikkoSetBooleanOption h o b = (r, h') ->
  settled h' /\
  (r = 1 <-> In o boolean_options) /\ (r = 0 <-> ~ In o boolean_options) /\
  (In o boolean_options -> bool_value h' o = Some b) /\
  (forall o', o' <> o -> bool_value h' o' = bool_value h o') /\
  (forall o', int_value h' o' = int_value h o') /\
  (~ In o boolean_options -> h' = h) /\
  spellerCache h' = spellerCache h /\
  gcCache h' = (if (mem o [13; 14; 16]) && negb (match bool_value h o with Some v => Bool.eqb v b | None => true end)
                then gc_empty else gcCache h).
Proof.
  intros h o b r h' ST E.
  destruct (in_dec Z.eq_dec o boolean_options) as [I|N].
  - destruct (set_known h o b I) as (A1 & A2 & A3 & A4 & A5 & A6 & A7). rewrite E in *. cbn [fst snd] in *. subst r.
    split; [auto|]. split; [tauto|]. split; [split; [lia|tauto]|]. split; [auto|].
    split. { intros o' NE. destruct (in_dec Z.eq_dec o' boolean_options) as [I'|N']; [auto|]. rewrite !bool_value_unknown; auto. }
    split. { intros o'. unfold int_value. rewrite A5, A6. reflexivity. }
    split; [tauto|]. split; auto.
  - rewrite (set_unknown h o b N) in E. injection E as <- <-.
    split; [auto|]. split; [split; [lia|tauto]|]. split; [tauto|]. split; [tauto|]. repeat (split; [auto|]).
    assert (mem o [13; 14; 16] = false) as ->; [|reflexivity].
    apply mem_false. intros I. apply N. cbn in *. tauto.
Qed.
Print Assumptions C27_set_boolean.
Example C27_set_boolean_ex : exists h, voikkoInit = Ok h /\ settled h /\
  map (bool_value h) boolean_options = map Some [false; false; false; false; true; true; false; true; false; false; false; false; true; false] /\
  fst (voikkoSetBooleanOption h 2 true) = 0 /\ fst (voikkoSetBooleanOption h 9 true) = 0 /\ fst (voikkoSetBooleanOption h (-1) true) = 0.
Proof. eexists. split; [reflexivity|]. repeat split. Qed.

(** The integer options, for cache sizes up to 18. *)
Theorem C27_set_integer : forall h o v, (o = 17 -> v <= 18) ->
  (match spellerCache h with Some c => 0 <= sizeParam c | None => True end) ->
  exists r h', voikkoSetIntegerOption h o v = Ok (r, h') /\
  (r = 1 <-> In o integer_options) /\ (r = 0 <-> ~ In o integer_options) /\
  (In o integer_options -> int_value h' o = Some (effective o v)) /\
  (forall o', o' <> o -> int_value h' o' = int_value h o') /\
  (forall o', bool_value h' o' = bool_value h o') /\
  (~ In o integer_options -> h' = h) /\ gcCache h' = gcCache h.
Proof.
  intros h o v L SP.
  assert (o = 9 \/ o = 17 \/ (o <> 9 /\ o <> 17)) as [-> |[-> |(O1 & O2)]] by lia.
  - exists 1, (with_hyph h (hyphUgly h) (hyphUnknown h) v). split; [reflexivity|]. repeat split; auto; cbn; try tauto; try lia.
    intros o' NE. destruct o' as [|p|p]; try reflexivity. do 5 (try (destruct p as [p|p|]; try reflexivity; try lia)).
  - specialize (L eq_refl).
    assert (exists c', voikkoSetIntegerOption h 17 v = Ok (1, with_spellerCache h c') /\
              match c' with Some c => sizeParam c | None => -1 end = effective 17 v) as (c' & E & EF).
    { unfold voikkoSetIntegerOption, effective. cbn [Z.eqb Pos.eqb andb].
      destruct (spellerCache h) as [c|] eqn:SC.
      - destruct (Z.eqb_spec (sizeParam c) v) as [EQ|NE]; cbn [negb].
        + exists (Some c). split; [do 2 f_equal; destruct h; cbn in *; rewrite <- SC; reflexivity|]. destruct (Z.ltb_spec v 0); lia.
        + destruct (Z.leb_spec 0 v).
          * destruct (new_cache_ok v) as (c' & N & _ & S1 & _); [lia|]. rewrite N. cbn [bind]. exists (Some c'). split; auto.
            rewrite (proj2 (Z.ltb_ge v 0)); auto.
          * exists None. split; auto. rewrite (proj2 (Z.ltb_lt v 0)); auto.
      - destruct (Z.leb_spec 0 v).
        + destruct (new_cache_ok v) as (c' & N & _ & S1 & _); [lia|]. rewrite N. cbn [bind]. exists (Some c'). split; auto.
          rewrite (proj2 (Z.ltb_ge v 0)); auto.
        + exists None. split; [do 2 f_equal; destruct h; cbn in *; rewrite <- SC; reflexivity|]. rewrite (proj2 (Z.ltb_lt v 0)); auto. }
    exists 1, (with_spellerCache h c'). split; auto. split; [cbn; tauto|]. split; [cbn; split; [lia|tauto]|].
    split. { intros _. cbn. rewrite EF. reflexivity. }
    split. { intros o' NE. destruct o' as [|p|p]; try reflexivity. do 5 (try (destruct p as [p|p|]; try reflexivity; try lia)). }
    split; [reflexivity|]. split; [cbn; tauto|reflexivity].
  - exists 0, h. split. { unfold voikkoSetIntegerOption. destruct o as [|p|p]; try reflexivity. do 5 (try (destruct p as [p|p|]; try reflexivity; try lia)). }
    unfold integer_options. cbn [In]. repeat split; auto; try lia; intros; exfalso; lia.
Qed.
Print Assumptions C27_set_integer.
Example C27_set_integer_ex : exists h, voikkoInit = Ok h /\ int_value h 9 = Some 2 /\ int_value h 17 = Some 0 /\
  (exists h', voikkoSetIntegerOption h 17 (-5) = Ok (1, h') /\ int_value h' 17 = Some (-1)) /\ voikkoSetIntegerOption h 8 1 = Ok (0, h).
Proof. eexists. split; [reflexivity|]. repeat split. eexists. split; reflexivity. Qed.

Fixpoint set_all (h : handle) (l : list (Z * bool)) : handle :=
  match l with [] => h | (o, b) :: r => set_all (snd (voikkoSetBooleanOption h o b)) r end.

(** After any sequence of calls every option has the last value written to it,
    or its old value when it was not written. *)
Theorem C27_last_write_wins : forall l h o, settled h -> In o boolean_options ->
  bool_value (set_all h l) o = match last_written o l with Some b => Some b | None => bool_value h o end.
Proof.
  induction l as [|[o' b] l IH]; intros h o ST I; [reflexivity|]. cbn [set_all last_written].
  destruct (voikkoSetBooleanOption h o' b) as [r h'] eqn:E. cbn [snd].
  destruct (C27_set_boolean h o' b r h' ST E) as (ST' & _ & _ & V & F & _).
  rewrite IH by auto. destruct (last_written o l); [reflexivity|].
  destruct (Z.eqb_spec o o') as [->|NE]; [apply V; auto|apply F; auto].
Qed.
Print Assumptions C27_last_write_wins.
Example C27_last_write_wins_ex : exists h, voikkoInit = Ok h /\
  map (bool_value (set_all h [(0, true); (4, true); (0, false); (77, true); (4, true); (0, true)])) [0; 4; 13] = [Some true; Some true; Some false].
Proof. eexists. split; reflexivity. Qed.
