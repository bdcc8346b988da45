(** * A dictionary for Finnish, for the examples *)
From Verif Require Import Base BaseFacts CharModel AnalysisModel FstModel FstSpec FstProofs FstProps FinModel FinSpec.
From Coq Require Import Lia.

(** ** All words of a transducer without loops

    Flags are ignored, so there may be words the transducer does not accept. *)
Definition extended (x : list Z) (s : list Z) (l : list (list Z * list Z)) : list (list Z * list Z) := map (fun '(w, out) => (x ++ w, s ++ out)) l.

Definition written (T : transducer) (t : cell) : list Z :=
  if firstNormalChar T <=? symOut t then nth (Z.to_nat (symOut t)) (symbolToString T) [] else [].

Fixpoint words_from (n : nat) (T : transducer) (q : nat) : option (list (list Z * list Z)) :=
  match n with
  | O => None
  | S n =>
      fold_right (fun t acc =>
        match acc, (if symIn t =? FINAL then Some [] else words_from n T (Z.to_nat (targetState t))) with
        | Some l, Some m =>
            Some ((if symIn t =? FINAL then [([], [])] else []) ++
                  (if symIn t <? firstNormalChar T then extended [] (written T t) m else []) ++
                  flat_map (fun '(c, s) => if s =? symIn t then extended [c] (written T t) m else []) (stringToSymbol T) ++ l)
        | _, _ => None
        end) (Some []) (cells_of T q)
  end.

Lemma writes_written : forall T t s, writes T t s -> s = written T t.
Proof.
  intros T t s H. unfold writes in H. unfold written. destruct (firstNormalChar T <=? symOut t); [|exact H].
  symmetry. now apply nth_error_nth.
Qed.

Lemma find_symbol_in : forall l c s, find_symbol l c = Some s -> In (c, s) l.
Proof.
  induction l as [|[k v] l IH]; intros c s H; [discriminate|]. cbn [find_symbol] in H. destruct (k =? c) eqn:E; [|right; now apply IH].
  apply Z.eqb_eq in E. injection H as ->. subst k. now left.
Qed.

Lemma in_extended : forall x s l w out, In (w, out) l -> In (x ++ w, s ++ out) (extended x s l).
Proof. intros x s l w out H. unfold extended. apply in_map_iff. exists (w, out). auto. Qed.

Lemma words_complete : forall T q fl w p out rest, path T q fl w p out rest -> rest = [] ->
  0 < firstNormalChar T <= FINAL ->
  forall n l, words_from n T q = Some l -> In (w, out) l.
Proof.
  intros T q fl w p out rest H R F. revert R.
  assert (STEP : forall q i t n l, has_transition T q i t -> words_from (S n) T q = Some l ->
    exists m, (if symIn t =? FINAL then Some [] else words_from n T (Z.to_nat (targetState t))) = Some m /\
      (forall x, In x ((if symIn t =? FINAL then [([], [])] else []) ++ (if symIn t <? firstNormalChar T then extended [] (written T t) m else []) ++
                  flat_map (fun '(c, s) => if s =? symIn t then extended [c] (written T t) m else []) (stringToSymbol T)) -> In x l)).
  { clear. intros q i t n l HT E. apply cells_of_in in HT. cbn [words_from] in E. revert l E. induction (cells_of T q) as [|u cs IH]; intros l E; [now elim HT|].
    cbn [fold_right] in E. destruct (fold_right _ _ cs) as [l1|] eqn:E1; [|discriminate].
    destruct (if symIn u =? FINAL then Some [] else words_from n T (Z.to_nat (targetState u))) as [m|] eqn:E2; [|discriminate]. injection E as <-.
    destruct HT as [->|HT].
    - exists m. split; [exact E2|]. intros x I. rewrite !app_assoc in *. apply in_or_app. left. exact I.
    - destruct (IH HT l1 eq_refl) as (m' & A & B). exists m'. split; [exact A|]. intros x I. specialize (B x I). rewrite !app_assoc. apply in_or_app. now right. }
  induction H as [q fl w i t HT FI|q fl c w i t p s out rest HT NF SY WR _ IH|q fl w i t p s out rest HT EP WR _ IH|q fl fl' w i t o p s out rest HT BD _ _ WR _ IH]; intros R n l E.
  - subst w. destruct n as [|n]; [discriminate|]. destruct (STEP _ _ _ _ _ HT E) as (m & _ & B). apply B. rewrite FI, Z.eqb_refl. now left.
  - destruct n as [|n]; [discriminate|]. destruct (STEP _ _ _ _ _ HT E) as (m & A & B). apply B. replace (symIn t =? FINAL) with false in A by lia.
    apply in_or_app. right. apply in_or_app. right. apply in_flat_map. exists (c, symIn t). split; [now apply find_symbol_in|]. rewrite Z.eqb_refl.
    rewrite (writes_written _ _ _ WR). change (c :: w) with ([c] ++ w). apply in_extended. now apply (IH R n).
  - destruct n as [|n]; [discriminate|]. destruct (STEP _ _ _ _ _ HT E) as (m & A & B). apply B. rewrite EP in A. change (0 =? FINAL) with false in A.
    apply in_or_app. right. apply in_or_app. left. replace (symIn t <? firstNormalChar T) with true by lia. rewrite (writes_written _ _ _ WR). change w with ([] ++ w). apply in_extended. now apply (IH R n).
  - destruct n as [|n]; [discriminate|]. destruct (STEP _ _ _ _ _ HT E) as (m & A & B). apply B.
    destruct (symIn t =? FINAL) eqn:Q. { exfalso. assert (symIn t = FINAL) as X by lia. lia. }
    apply in_or_app. right. apply in_or_app. left. replace (symIn t <? firstNormalChar T) with true by lia. rewrite (writes_written _ _ _ WR). change w with ([] ++ w). apply in_extended. now apply (IH R n).
Qed.

Lemma dictionary_by_words : forall T states n l, good_transducerb T states = true -> words_from n T 0 = Some l ->
  (forall w out, In (w, out) l -> exists it, well_formed it /\ out = render it /\ surface it = w) -> finnish_dictionary T.
Proof.
  intros T states n l G E H. apply good_transducerb_good in G. split; [exact G|]. intros word p out A. apply H.
  eapply words_complete; [exact A|reflexivity| |exact E]. destruct G as (G & _). lia.
Qed.

(** ** The dictionary

    "kala" (a fish), its partitive "kalaa" and the compound "kala-ahven". *)
Definition let_ (c : Z) : Z := 1 + (c - 97).
Fixpoint spell_cells (w : list Z) (next : Z) : list cell :=
  match w with
  | [] => []
  | c :: w => mk_cell (let_ c) (let_ c) next 0 :: spell_cells w (next + 1)
  end.

(** Symbols: 1-26 letters, 27 the hyphen, 28-32 remarks. *)
Definition fish : transducer := mk_fst
  ([mk_cell 0 28 1 0] ++ spell_cells (wstr "kala") 2 ++                                  (* 0-4 *)
   [mk_cell 0 29 8 2; mk_cell 0 30 9 0; mk_cell 27 31 10 0;                             (* 5-7 *)
    mk_cell FINAL 0 0 0;                                                                (* 8 *)
    mk_cell (let_ 97) (let_ 97) 8 0] ++                                                 (* 9 *)
   spell_cells (wstr "ahve") 11 ++ [mk_cell (let_ 110) (let_ 110) 15 0; mk_cell 0 29 8 0]) (* 10-15 *)
  (map (fun i => (97 + Z.of_nat i, 1 + Z.of_nat i)) (seq 0 26) ++ [(45, 27)])
  ([] :: map (fun i => [97 + Z.of_nat i]) (seq 0 26) ++
   [wstr "-"; wstr "[Ln][Xp]kala[X]"; wstr "[Sn][Ny]"; wstr "[Sp][Ny]"; wstr "-[Bh][Bc][Ln][Xp]ahven[X]"; wstr ""])
  [] 0 1 33.

Definition letters (s : string) : list item := map Letter (wstr s).
Definition fish_items : list (list item) :=
  [[Class "n"; Remark (ch "p") (wstr "kala")] ++ letters "kala" ++ [Tag (wstr "Sn"); Tag (wstr "Ny")];
   [Class "n"; Remark (ch "p") (wstr "kala")] ++ letters "kala" ++ [Tag (wstr "Sp"); Tag (wstr "Ny")] ++ letters "a";
   [Class "n"; Remark (ch "p") (wstr "kala")] ++ letters "kala" ++
     [Hyphen; Tag (wstr "Bh"); Boundary (ch "c"); Class "n"; Remark (ch "p") (wstr "ahven")] ++ letters "ahven" ++ [Tag (wstr "Sn"); Tag (wstr "Ny")]].

Ltac item_good := cbn [good_item]; repeat split; try (let H := fresh in intros H; vm_compute in H; intuition discriminate);
  try (vm_compute; intuition discriminate); try (vm_compute; tauto);
  try (apply Nat.leb_le; vm_compute; reflexivity).
Ltac items_good := repeat (apply Forall_cons; [item_good|]); try apply Forall_nil.

Lemma fish_well_formed : Forall well_formed fish_items.
Proof.
  unfold fish_items, letters. change (map Letter (wstr "kala")) with [Letter 107; Letter 97; Letter 108; Letter 97]. change (map Letter (wstr "a")) with [Letter 97].
  change (map Letter (wstr "ahven")) with [Letter 97; Letter 104; Letter 118; Letter 101; Letter 110]. cbn [app].
  repeat (apply Forall_cons || apply Forall_nil); (split; [items_good|split; [|split; [discriminate|split; discriminate]]]);
    cbn [fits_together]; repeat split; try discriminate; try reflexivity; right; discriminate.
Qed.

Lemma fish_dictionary : finnish_dictionary fish.
Proof.
  apply (dictionary_by_words fish [0;1;2;3;4;5;8;9;10;11;12;13;14;15]%nat 30 (map (fun it => (surface it, render it)) fish_items)).
  - vm_compute. reflexivity.
  - vm_compute. reflexivity.
  - intros w out I. apply in_map_iff in I. destruct I as (it & X & I). injection X as <- <-. exists it. split; [|auto]. pose proof fish_well_formed as W. rewrite Forall_forall in W. now apply W.
Qed.
