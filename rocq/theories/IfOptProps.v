(** * Properties of the setters of the interfaces (C96). *)
From Verif Require Import Base BaseFacts SpellerBase CacheModel GcCacheModel HandleModel IfOptModel.

(** What a setting means for the library: the field that its functions look at.
    Dots are ignored in two places. *)
Definition has_value (h : handle) (s : setting) (b : bool) : Prop :=
  match s with
  | IgnoreDot => ignore_dot h = b /\ hyphIgnoreDot h = b
  | IgnoreNumbers => ignore_numbers h = b
  | IgnoreUppercase => ignore_uppercase h = b
  | AcceptFirstUppercase => accept_first_uppercase h = b
  | AcceptAllUppercase => accept_all_uppercase h = b
  | IgnoreNonwords => ignore_nonwords h = b
  | AcceptExtraHyphens => accept_extra_hyphens h = b
  | AcceptMissingHyphens => accept_missing_hyphens h = b
  | AcceptTitlesInGc => accept_titles_in_gc h = b
  | AcceptUnfinishedParagraphsInGc => accept_unfinished_paragraphs_in_gc h = b
  | AcceptBulletedListsInGc => accept_bulleted_lists_in_gc h = b
  | NoUglyHyphenation => hyphUgly h = negb b
  | HyphenateUnknownWords => hyphUnknown h = b
  | SuggestionStrategyOcr => ocrSuggestions h = b
  end.

(** The defaults that the comments on the setters name. *)
Definition documented_default (s : setting) : bool :=
  match s with
  | AcceptFirstUppercase | AcceptAllUppercase | IgnoreNonwords | HyphenateUnknownWords => true
  | _ => false
  end.

(** [last_set s l b]: [b] is the value in the last call for [s]; [never_set]: there
    is none. *)
Definition never_set (s : setting) (l : list call) : Prop := forall b, ~ In (Set_ s b) l.
Definition last_set (s : setting) (l : list call) (b : bool) : Prop := exists l1 l2, l = l1 ++ Set_ s b :: l2 /\ never_set s l2.
Definition last_length (l : list call) (v : Z) : Prop :=
  exists l1 l2, l = l1 ++ SetMinHyphenatedWordLength v :: l2 /\ forall x, ~ In (SetMinHyphenatedWordLength x) l2.

Lemma grammar_value : forall v o g, fst (setGrammarOption v o g) = v.
Proof. intros [] [] g; reflexivity. Qed.

Lemma set_ok : forall h s v, exists h', run_call h (Set_ s v) = Ok h' /\ has_value h' s v /\
  (forall s' b, s' <> s -> has_value h s' b -> has_value h' s' b) /\ hyphMinLength h' = hyphMinLength h.
Proof.
  intros h s v.
  destruct s; cbn [run_call option_number]; unfold setBoolOption, voikkoSetBooleanOption;
    try (destruct (setGrammarOption v _ (gcCache h)) as (o & g) eqn:G; apply (f_equal fst) in G; rewrite grammar_value in G; cbn [fst] in G; subst o);
    (eexists; split; [reflexivity|]; split; [cbn; auto|split; [|reflexivity]]; intros s' b N; destruct s'; cbn; auto; congruence).
Qed.
Lemma length_ok : forall h v, exists h', run_call h (SetMinHyphenatedWordLength v) = Ok h' /\ hyphMinLength h' = v /\
  (forall s b, has_value h s b -> has_value h' s b).
Proof. intros h v. eexists. split; [reflexivity|]. split; [reflexivity|]. intros [] b; cbn; auto. Qed.

Lemma run_app : forall l1 l2 h, run_calls h (l1 ++ l2) = (h' <- run_calls h l1 ;; run_calls h' l2).
Proof.
  induction l1 as [|c l1 IH]; intros l2 h; cbn [run_calls app bind]; [reflexivity|]. destruct (run_call h c); cbn [bind]; auto.
Qed.
Lemma run_total : forall l h, exists h', run_calls h l = Ok h'.
Proof.
  induction l as [|[s v|v] l IH]; intros h; cbn [run_calls]; [eauto| |].
  - destruct (set_ok h s v) as (h' & -> & _). cbn [bind]. apply IH.
  - destruct (length_ok h v) as (h' & -> & _). cbn [bind]. apply IH.
Qed.
Lemma run_keeps : forall l h h' s b, run_calls h l = Ok h' -> never_set s l -> has_value h s b -> has_value h' s b.
Proof.
  induction l as [|[s' v|v] l IH]; intros h h' s b E N V; cbn [run_calls] in E; [now injection E as <-| |].
  - destruct (set_ok h s' v) as (h1 & E1 & _ & K & _). rewrite E1 in E. cbn [bind] in E. apply (IH h1 h' s b E).
    + intros x I. apply (N x). now right.
    + apply K; [|auto]. intros ->. apply (N v). now left.
  - destruct (length_ok h v) as (h1 & E1 & _ & K). rewrite E1 in E. cbn [bind] in E. apply (IH h1 h' s b E); [|auto].
    intros x I. apply (N x). now right.
Qed.
Lemma run_keeps_length : forall l h h', run_calls h l = Ok h' -> (forall x, ~ In (SetMinHyphenatedWordLength x) l) -> hyphMinLength h' = hyphMinLength h.
Proof.
  induction l as [|[s v|v] l IH]; intros h h' E N; cbn [run_calls] in E; [now injection E as <-| |].
  - destruct (set_ok h s v) as (h1 & E1 & _ & _ & K). rewrite E1 in E. cbn [bind] in E. rewrite (IH h1 h' E); [auto|].
    intros x I. apply (N x). now right.
  - elim (N v). now left.
Qed.

(** However setters are called, none throws an exception, and afterwards each
    setting has the value that was set last, or the one it had before. *)
Theorem C96_setters : forall h l, exists h', run_calls h l = Ok h' /\
  (forall s b, last_set s l b -> has_value h' s b) /\
  (forall s b, never_set s l -> has_value h s b -> has_value h' s b) /\
  (forall v, last_length l v -> hyphMinLength h' = v) /\
  ((forall x, ~ In (SetMinHyphenatedWordLength x) l) -> hyphMinLength h' = hyphMinLength h).
Proof.
  intros h l. destruct (run_total l h) as (h' & E). exists h'. split; [auto|]. split; [|split; [|split]].
  - intros s b (l1 & l2 & -> & N). rewrite run_app in E. destruct (run_total l1 h) as (h1 & E1). rewrite E1 in E. cbn [bind run_calls] in E.
    destruct (set_ok h1 s b) as (h2 & E2 & V & _). rewrite E2 in E. cbn [bind] in E. eapply run_keeps; eauto.
  - intros s b N V. eapply run_keeps; eauto.
  - intros v (l1 & l2 & -> & N). rewrite run_app in E. destruct (run_total l1 h) as (h1 & E1). rewrite E1 in E. cbn [bind run_calls] in E.
    destruct (length_ok h1 v) as (h2 & E2 & V & _). rewrite E2 in E. cbn [bind] in E. rewrite <- V. eapply run_keeps_length; eauto.
  - intros N. eapply run_keeps_length; eauto.
Qed.
Print Assumptions C96_setters.

(** A new handle has the defaults that the comments on the setters name. *)
Theorem C96_defaults : forall h, voikkoInit = Ok h -> (forall s, has_value h s (documented_default s)) /\ hyphMinLength h = 2.
Proof.
  intros h E. unfold voikkoInit in E. destruct (new_cache 0); cbn [bind] in E; try discriminate. injection E as <-.
  split; [|reflexivity]. intros []; cbn; auto.
Qed.
Print Assumptions C96_defaults.

Example C96_ex : let l := [Set_ IgnoreDot true; Set_ NoUglyHyphenation true; Set_ AcceptTitlesInGc true; SetMinHyphenatedWordLength 6; Set_ IgnoreDot false] in
  last_set IgnoreDot l false /\ last_set NoUglyHyphenation l true /\ never_set IgnoreNonwords l /\ last_length l 6 /\
  exists h h', voikkoInit = Ok h /\ run_calls h l = Ok h' /\ (ignore_dot h', hyphUgly h', ignore_nonwords h', accept_titles_in_gc h', hyphMinLength h') = (false, false, true, true, 6).
Proof.
  cbv zeta. split; [|split; [|split; [|split]]].
  - exists [Set_ IgnoreDot true; Set_ NoUglyHyphenation true; Set_ AcceptTitlesInGc true; SetMinHyphenatedWordLength 6], []. split; [reflexivity|]. intros b [].
  - exists [Set_ IgnoreDot true], [Set_ AcceptTitlesInGc true; SetMinHyphenatedWordLength 6; Set_ IgnoreDot false]. split; [reflexivity|].
    intros b I. cbn [In] in I. intuition discriminate.
  - intros b I. cbn [In] in I. intuition discriminate.
  - exists [Set_ IgnoreDot true; Set_ NoUglyHyphenation true; Set_ AcceptTitlesInGc true], [Set_ IgnoreDot false]. split; [reflexivity|].
    intros x I. cbn [In] in I. intuition discriminate.
  - eexists. eexists. split; [reflexivity|]. split; reflexivity.
Qed.
