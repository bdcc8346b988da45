(** * The dictionary compiler: property C69. *)
From Coq Require Import Permutation Sorted.
From Verif Require Import Base BaseFacts Utf8Model Utf8Spec Utf8Proofs FstModel FstSpec FstProps FstFileModel FstFileProofs FstFileProps
  CompilerModel CompilerSpec CompilerSymbols CompilerReading CompilerLoading CompilerTable CompilerProofs.

(** What the compiler has made of a transducer can be loaded on machines of both
    byte orders, and it then accepts the same words with the same outputs. *)
Theorem C69_compiled : forall A (otherByteOrder : bool) file, fitting A -> voikkovfstc otherByteOrder (map line_of A) = Some file ->
  exists T, load file = Ok (Loaded T) /\ good_transducer T /\ forall w out, (exists p, accepts T w p out) <-> accepted A w out.
Proof.
  intros A [|] file FIT E; [|apply compiled; auto].
  unfold voikkovfstc, main_vfstc in E. rewrite unweighted_lines in E. destruct (read_lines (map wline (unweighted A)) [[]] []) as [[syms states]|] eqn:R; [|discriminate].
  pose proof R as R'. assert (Forall proper_symbol (symbols_of A)) as PR by apply FIT.
  apply (read_lines_ok (unweighted A) [] _ _ _ _ was_read_start) in R'; [|rewrite unweighted_items; inversion PR; auto]. cbn [app] in R'.
  pose proof (wr_syms _ _ _ R') as WS. rewrite unweighted_items in WS.
  destruct (sorted_symbols A syms FIT (wr_nodup _ _ _ R') WS) as (SM & F & L & G & ED & PD & _). cbv zeta in E.
  destruct (C40_byte_order (map snd (sort_symbols (with_codes syms))) (map (map (renumber (sort_symbols (with_codes syms)))) states)) as [_ X].
  { unfold fits. rewrite map_length, <- (Permutation_length (sort_perm (with_codes syms))), with_codes_length. conjs; auto.
    - rewrite ED. apply Forall_map. apply Forall_forall. intros s I. apply proper_bytes. destruct I as [<-|I]; [exact Logic.I|]. rewrite Forall_forall in PD. auto.
    - apply Forall_map. apply Forall_forall. intros ts I. rewrite map_length. assert (length ts <= length A)%nat.
      { rewrite <- (unweighted_items A), map_length. rewrite <- (wr_total _ _ _ R'). apply in_split in I. destruct I as (l1 & l2 & ->). rewrite concat_app. cbn [concat]. rewrite !app_length. lia. }
      destruct FIT as (_ & _ & _ & SIZE). lia. }
  destruct (X file E) as (f & C & LD). rewrite LD. apply compiled; auto. unfold voikkovfstc, main_vfstc. rewrite unweighted_lines, R. auto.
Qed.
Print Assumptions C69_compiled.

(** Looking up a word in the compiled dictionary finds the outputs of the
    transducer and nothing else. *)
Theorem C69_lookup : forall A otherByteOrder file, fitting A -> voikkovfstc otherByteOrder (map line_of A) = Some file ->
  exists T, load file = Ok (Loaded T) /\
    forall size word known c1 len results c2, (2 <= size)%nat -> (length word <= size)%nat -> (0 < len)%nat ->
      prepare T (new_configuration (flagDiacriticFeatureCount T) size) word = Ok (known, c1) -> lookup T false len c1 results (Some End) c2 ->
      forall out, In out (map fst results) <-> accepted A word out.
Proof.
  intros A b file FIT E. destruct (C69_compiled A b file FIT E) as (T & LD & G & SAME). exists T. split; auto.
  intros size word known c1 len results c2 S W L P K out.
  destruct (C37_complete T size _ word known c1 false len results c2 G S (or_introl (exhausted_new T size)) W L P K) as (paths & <- & _ & ALL).
  rewrite <- SAME, map_map. split.
  - intros I. apply in_map_iff in I. destruct I as ([[p o] k] & <- & I). apply ALL in I. destruct I as [_ I]. exists p. exact I.
  - intros (p & I). apply in_map_iff. exists (p, out, length word). split; auto. apply ALL. auto.
Qed.
Print Assumptions C69_lookup.

(** The compiler accepts transducers whose states are numbered in the order in
    which they first occur and whose transitions all lead to states that occur. *)
Theorem C69_accepts_input : forall A otherByteOrder, fitting A -> in_order 0 A ->
  (forall q q' s o, In (Arc q q' s o) A -> exists i, In i A /\ match i with Final q => q | Arc q _ _ _ => q end = q') ->
  exists file, voikkovfstc otherByteOrder (map line_of A) = Some file.
Proof.
  intros A b FIT ORD TARGETS. unfold voikkovfstc, main_vfstc. rewrite unweighted_lines. assert (Forall proper_symbol (symbols_of A)) as PR by apply FIT. assert (Forall proper_symbol (flat_map item_symbols A)) as PR' by (inversion PR; auto).
  rewrite <- (unweighted_items A) in PR', ORD. destruct (read_lines_accepts (unweighted A) [] [[]] [] was_read_start PR' ORD) as (syms & states & R). rewrite R.
  apply (read_lines_ok (unweighted A) [] _ _ _ _ was_read_start PR') in R. cbn [app] in R.
  pose proof (wr_syms _ _ _ R) as WS. rewrite unweighted_items in WS.
  destruct (sorted_symbols A syms FIT (wr_nodup _ _ _ R) WS) as (SM & F & L & G & ED & PD & _). cbv zeta.
  set (sorted := sort_symbols (with_codes syms)) in *. set (states' := map (map (renumber sorted)) states).
  unfold compile. cbv zeta iota. set (offsets := state_offsets 0 states').
  assert (length offsets = length states) as LO by (unfold offsets, states'; rewrite state_offsets_length, map_length; auto).
  assert (exists i0, In i0 A) as (i0 & I0) by (destruct FIT as (_ & (c & C) & _); destruct A as [|i A]; [destruct C as [C|[]]; discriminate|exists i; left; auto]).
  assert (forall ts a more, In ts states' -> In a ts -> exists c, to_cell offsets more a = Some c) as CELL.
  { intros ts a more I J. unfold to_cell. assert (a_state a < length offsets)%nat as B.
    { unfold states' in I. apply in_map_iff in I. destruct I as (old & <- & I). apply In_nth_error in I. destruct I as (q & Q). rewrite (wr_states _ _ _ R q old Q), map_map in J.
      apply in_map_iff in J. destruct J as (it & <- & J). apply filter_In in J. destruct J as [J _]. rewrite LO.
      assert (Forall proper_symbol (Epsilon :: F ++ L ++ G)) as PD' by (constructor; [exact Logic.I|auto]).
      pose proof (renumbered (unweighted A) syms states (Epsilon :: F ++ L ++ G) it) as X. rewrite unweighted_items in X. specialize (X FIT R SM ED PD' J). cbv zeta in X. fold sorted in X.
      unfold unweighted in J. apply in_map_iff in J. destruct J as (it' & <- & J). cbn [fst snd] in X. destruct it' as [q0|q0 q' s o].
      - rewrite X. cbn [a_state]. pose proof (wr_sources _ _ _ R (i0, 0) (in_map _ _ _ I0)). lia.
      - destruct X as (ks & ko & _ & _ & ->). cbn [a_state]. destruct (TARGETS _ _ _ _ J) as (i & I1 & I2). pose proof (wr_sources _ _ _ R (i, 0) (in_map _ _ _ I1)) as Y. unfold wsource, source in Y. cbn [fst] in Y. rewrite I2 in Y. auto. }
    destruct (nth_error offsets (a_state a)) eqn:E; eauto. apply nth_error_None in E. lia. }
  assert (forall l ts, In ts states' -> incl l ts -> exists bytes, write_all (fun t => option_map (write_cell b) (to_cell offsets 0 t)) l = Some bytes) as ALL.
  { intros l ts I. induction l as [|a l IH]; intros J; cbn [write_all]; [eauto|]. destruct (CELL ts a 0 I (J a (or_introl eq_refl))) as (c & ->). cbn [option_map].
    destruct IH as (bytes & ->); [intros x X; apply J; right; auto|]. eauto. }
  assert (forall l, incl l states' -> exists bytes, write_all (write_state b offsets) l = Some bytes) as STATES.
  { induction l as [|ts l IH]; intros J; cbn [write_all]; [eauto|].
    assert (exists x, write_state b offsets ts = Some x) as (x & ->).
    { assert (In ts states') as I by (apply J; left; auto). unfold write_state. destruct (sort_transitions ts) as [|t rest] eqn:S.
      - exfalso. pose proof (sort_length ts) as X. rewrite S in X. destruct ts; [|discriminate]. unfold states' in I. apply in_map_iff in I. destruct I as (old & Y & I).
        pose proof (wr_nonempty _ _ _ R) as NE. rewrite Forall_forall in NE. specialize (NE old I). destruct old; [congruence|discriminate].
      - cbv zeta. assert (forall u, In u (t :: rest) -> In u ts) as SUB by (intros u U; rewrite <- S in U; apply sort_in; auto).
        destruct (CELL ts t (if 255 <? Z.of_nat (length ts) then 255 else Z.of_nat (length ts) - 1) I (SUB t (or_introl eq_refl))) as (c & ->).
        destruct (ALL rest ts I) as (bytes & ->); [intros y Y; apply SUB; right; auto|]. eauto. }
    destruct IH as (bytes & ->); [intros y Y; apply J; right; auto|]. eauto. }
  destruct (STATES states' (incl_refl _)) as (bytes & ->). eauto.
Qed.
Print Assumptions C69_accepts_input.

(** Not every symbol that the compiler accepts works.  A file with the symbol "@"
    cannot be loaded, and a symbol of two letters that is not a tag stands for
    its first letter. *)
Definition two_states (symbol : list Z) : list att_line := [ATT_TRANSITION 0 1 symbol (wstr "x"); ATT_FINAL 1].
Theorem C69_other_symbols :
  (exists file, voikkovfstc false (two_states (wstr "@")) = Some file /\ load file = Ok Exception) /\
  (exists file T p, voikkovfstc false (two_states (wstr "ab")) = Some file /\ load file = Ok (Loaded T) /\ accepts T (wstr "a") p (wstr "x")).
Proof.
  split.
  - eexists. split; [vm_compute; reflexivity|]. vm_compute. reflexivity.
  - eexists. eexists. exists [0; 1]%nat. split; [vm_compute; reflexivity|]. split; [vm_compute; reflexivity|].
    change (wstr "x") with (wstr "x" ++ []). unfold accepts. eapply path_read.
    + exists 0%nat, false. conjs; [reflexivity|lia|lia|discriminate|reflexivity].
    + discriminate.
    + reflexivity.
    + reflexivity.
    + eapply path_final; [exists 1%nat, false; conjs; [reflexivity|cbn; lia|cbn; lia|discriminate|reflexivity]|reflexivity].
Qed.
Print Assumptions C69_other_symbols.

(** ** A transducer *)

(** It reads "a" or "ä" any number of times and then, if there was an "ä", "b";
    "ä" is written as a tag. *)
Definition VOWEL := wstr "V".
Definition small_lexicon : list item :=
  [ Arc 0 0 (Letter 0x61) (Letter 0x61);
    Arc 0 1 (Flag Operation_P VOWEL (Some (wstr "front"))) Epsilon;
    Arc 0 2 (Flag Operation_R VOWEL (Some (wstr "front"))) (Flag Operation_D VOWEL None);
    Arc 1 0 (Letter 0xE4) (Tag (wstr "A]"));
    Final 2;
    Arc 2 2 (Letter 0x62) (Letter 0x20) ].

Example small_lexicon_fits : fitting small_lexicon.
Proof.
  unfold fitting. conjs.
  - repeat constructor; try discriminate; unfold encodable; cbn; try lia; intuition discriminate.
  - exists 0x61. cbn. auto.
  - intros l N I. apply NoDup_incl_length in I; auto. cbn in I. lia.
  - vm_compute. discriminate.
Qed.

Example small_lexicon_in_order : in_order 0 small_lexicon /\
  forall q q' s o, In (Arc q q' s o) small_lexicon -> exists i, In i small_lexicon /\ match i with Final q => q | Arc q _ _ _ => q end = q'.
Proof.
  split.
  - apply in_order_new; [reflexivity|]. apply in_order_old; [cbn; lia|]. apply in_order_old; [cbn; lia|]. apply in_order_new; [reflexivity|]. apply in_order_new; [reflexivity|].
    apply in_order_old; [cbn; lia|]. constructor.
  - intros q q' s o I. repeat (destruct I as [I|I]; [first [discriminate|injection I as <- <- <- <-]|]); try contradiction.
    all: first [exists (Arc 0 0 (Letter 0x61) (Letter 0x61)); split; [cbn; auto|reflexivity]|exists (Arc 1 0 (Letter 0xE4) (Tag (wstr "A]"))); split; [cbn; auto|reflexivity]|exists (Final 2); split; [cbn; tauto|reflexivity]].
Qed.

Example small_lexicon_accepts : accepted small_lexicon [0x61; 0xE4; 0x62] (wstr "a" ++ wstr "[A]" ++ wstr " ").
Proof.
  unfold accepted. change (wstr "a" ++ wstr "[A]" ++ wstr " ") with (written (Letter 0x61) ++ written Epsilon ++ written (Tag (wstr "A]")) ++ written (Flag Operation_D VOWEL None) ++ written (Letter 0x20) ++ []).
  eapply run_letter; [cbn; auto|]. eapply run_flag; [cbn; auto|apply rule_P|]. eapply run_letter; [cbn; tauto|].
  eapply run_flag; [cbn; tauto|apply rule_R; reflexivity|]. eapply run_letter; [cbn; tauto|]. apply run_final. cbn. tauto.
Qed.

(** The file, with the symbols in their new order. *)
Example small_lexicon_file : exists file T, voikkovfstc true (map line_of small_lexicon) = Some file /\ load file = Ok (Loaded T) /\ length file = 112%nat /\
  symbolToString T = [[]; wstr "@D.V@"; wstr "@P.V.front@"; wstr "@R.V.front@"; wstr " "; wstr "a"; wstr "b"; [0xE4]; wstr "[A]"].
Proof. eexists. eexists. split; [vm_compute; reflexivity|]. split; [vm_compute; reflexivity|]. split; reflexivity. Qed.

Example small_lexicon_lookup : exists file T c0 c1 c2, voikkovfstc false (map line_of small_lexicon) = Some file /\ load file = Ok (Loaded T) /\
  c0 = new_configuration (flagDiacriticFeatureCount T) 100 /\
  prepare T c0 [0x61; 0xE4; 0x62] = Ok (true, c1) /\ lookup T false 50 c1 [(wstr "a[A] ", 3%nat)] (Some End) c2.
Proof.
  do 5 eexists. split; [vm_compute; reflexivity|]. split; [vm_compute; reflexivity|]. split; [reflexivity|]. split; [vm_compute; reflexivity|].
  apply (collect_lookup 5); vm_compute; reflexivity.
Qed.
