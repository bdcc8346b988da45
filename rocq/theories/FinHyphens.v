(** * The check of the hyphens *)
From Verif Require Import Base BaseFacts CharModel AnalysisModel HyphModel FinModel FinSpec FinStructure FinTotal FinWordSpec.
From Coq Require Import Lia.

(** ** The check on items *)

Definition is_mark (x : item) : bool := match x with Tag t => zlist_eqb t (wstr "Bh") | _ => false end.
Lemma is_mark_iff : forall x, is_mark x = true <-> x = mark.
Proof.
  intros x. unfold mark. split.
  - destruct x; cbn [is_mark]; try discriminate. intros H. apply zlist_eqb_eq in H. now subst t.
  - intros ->. reflexivity.
Qed.

Definition joint_okb (bl l : Z) (hyphen : bool) (c : Z) : bool :=
  let ha := (l =? 0) || ((bl =? ch "i") && (l =? ch "s")) in
  let required := ((l =? c) && wcschr VOIKKO_VOWELS l) || in_range (ch "0") (ch "9") l in
  (ha && hyphen) || Bool.eqb required hyphen.

Definition begins (t : string) (x : item) : bool :=
  match x with Tag u => zlist_eqb (firstn (length (wstr t)) u) (wstr t) | _ => false end.
Definition name_class (x : item) : bool := match x with Class k => existsb (String.eqb k) ["ee"; "es"; "ep"; "em"]%string | _ => false end.
Definition noun_class (x : item) : bool := match x with Class k => existsb (String.eqb k) ["n"; "nl"]%string | _ => false end.
Definition is_hyphen (x : item) : bool := match x with Hyphen => true | _ => false end.

Definition name_step (x : item) (sp : bool) : bool := if is_hyphen x || begins "Dg" x then false else if name_class x then true else sp.
Definition noun_step (x : item) (en : bool) : bool :=
  if is_hyphen x || begins "Ica" x || name_class x then false else if noun_class x then true else en.

(** [pend]: a joint, with or without a hyphen, waits for the next character;
    [hy]: the last item was a hyphen. *)
Fixpoint check (l : list item) (bl lc : Z) (pend : option bool) (hy : bool) (sp en : bool) : bool :=
  match l with
  | [] => negb (sp && en)
  | x :: r =>
      let sp := name_step x sp in
      let en := noun_step x en in
      match character x with
      | Some c => (match pend with Some h => joint_okb bl lc h c | None => true end) && check r lc c None false sp en
      | None => check r bl lc (if is_mark x then Some hy else pend) (is_hyphen x) sp en
      end
  end.

(** The state of the analyser. *)
Definition state_of (s : valid_state) (bl lc : Z) (pend : option bool) (sp en : bool) : Prop :=
  exists hp, s = mk_vs bl lc (match pend with Some _ => true | None => false end) hp false false false false sp en /\
    (forall h, pend = Some h -> h = hp).

Lemma valid_loop_step : forall f b len i s, (i < len)%nat -> valid_loop (S f) b len i s =
  (c <- rd b i ;;
   if c =? ch "[" then r <- valid_tag b i len s ;; match r with None => Ok false | Some (j, s) => valid_loop f b len (S j) s end
   else if c =? ch "-" then '(j, s) <- valid_hyphen b i len s ;; valid_loop f b len (S j) s
   else match valid_char c s with None => Ok false | Some s => valid_loop f b len (S i) s end).
Proof. intros f b len i s H. cbn [valid_loop]. replace (i <? len)%nat with true by (symmetry; now apply Nat.ltb_lt). reflexivity. Qed.

Lemma valid_char_spec : forall c s bl lc pend sp en, lower c = c -> lower lc = lc -> c <> 0 -> state_of s bl lc pend sp en ->
  match valid_char c s with
  | Some s' => match pend with Some h => joint_okb bl lc h c | None => true end = true /\ state_of s' lc c None sp en
  | None => match pend with Some h => joint_okb bl lc h c | None => true end = false
  end.
Proof.
  intros c s bl lc pend sp en LC LL NZ (hp & -> & HP). unfold valid_char. destruct pend as [h|].
  - specialize (HP h eq_refl). subst hp. unfold joint_okb. rewrite LC, LL. replace (if (lc =? 0) || (bl =? ch "i") && (lc =? ch "s") then true else false) with ((lc =? 0) || (bl =? ch "i") && (lc =? ch "s")) by (destruct ((lc =? 0) || (bl =? ch "i") && (lc =? ch "s")); reflexivity).
    set (ha := (lc =? 0) || (bl =? ch "i") && (lc =? ch "s")). set (rq := (lc =? c) && wcschr VOIKKO_VOWELS lc || in_range (ch "0") (ch "9") lc).
    replace (if ha && h then lc else lc) with lc by (destruct (ha && h); reflexivity). fold rq.
    destruct (ha && h) eqn:A, (Bool.eqb rq h) eqn:B; cbn [negb andb orb]; try reflexivity; (split; [reflexivity|]); exists h; (split; [reflexivity|discriminate]).
  - split; [reflexivity|]. exists hp. split; [reflexivity|discriminate].
Qed.

(** ** Remarks *)

Lemma prefix_body : forall s u rest, ~ In (ch "]") s -> prefix_eq s (u ++ ch "]" :: rest) = Ok (zlist_eqb (firstn (length s) u) s).
Proof.
  induction s as [|c s IH]; intros u rest N; cbn [prefix_eq length]; [destruct u; reflexivity|].
  destruct u as [|d u]; cbn [app firstn].
  - replace (c =? ch "]") with false by (symmetry; apply Z.eqb_neq; intros ->; apply N; now left). reflexivity.
  - cbn [zlist_eqb]. destruct (c =? d) eqn:E.
    + replace (d =? c) with true by lia. cbn [andb]. apply IH. intros I. apply N. now right.
    + replace (d =? c) with false by lia. reflexivity.
Qed.

Lemma skip_tag_spec : forall u n pre rest len i, ~ In (ch "]") u -> i = length pre -> (length u < n)%nat -> (S i + length u < len)%nat ->
  skip_tag n (pre ++ ch "[" :: u ++ ch "]" :: rest) len i = Ok (S i + length u)%nat.
Proof.
  assert (G : forall u n pre rest len i, ~ In (ch "]") u -> S i = length pre -> (length u < n)%nat -> (S i + length u < len)%nat ->
    skip_tag n (pre ++ u ++ ch "]" :: rest) len i = Ok (S i + length u)%nat).
  { induction u as [|c u IH]; intros n pre rest len i N L F E; (destruct n as [|n]; [cbn in F; lia|]); cbn [skip_tag].
    - replace (S i <? len)%nat with true by (symmetry; apply Nat.ltb_lt; cbn in E; lia). rewrite L. cbn [app]. rewrite rd_app0. cbn [bind]. rewrite Z.eqb_refl. f_equal. cbn. lia.
    - replace (S i <? len)%nat with true by (symmetry; apply Nat.ltb_lt; cbn in E; lia). rewrite L at 1. cbn [app]. rewrite rd_app0. cbn [bind].
      replace (c =? ch "]") with false by (symmetry; apply Z.eqb_neq; intros ->; apply N; now left).
      change (pre ++ c :: u ++ ch "]" :: rest) with (pre ++ [c] ++ u ++ ch "]" :: rest). rewrite app_assoc.
      rewrite IH; [f_equal; cbn; lia|intros I; apply N; now right|rewrite app_length; cbn; lia|cbn in F; lia|cbn in E; lia]. }
  intros u n pre rest len i N -> F E. change (pre ++ ch "[" :: u ++ ch "]" :: rest) with (pre ++ [ch "["] ++ u ++ ch "]" :: rest). rewrite app_assoc.
  apply G; [exact N|rewrite app_length; cbn; lia|exact F|exact E].
Qed.

Definition info (body : list Z) (s : valid_state) : valid_state :=
  let '(mk_vs bl l bp hp ha hj hr rm sp en) := s in
  match body with
  | [] => s
  | c :: u =>
      if c =? ch "I" then
        (if zlist_eqb (firstn 2 u) (wstr "sf") then mk_vs bl l bp hp true true hr rm sp en
         else if zlist_eqb (firstn 2 u) (wstr "cu") then mk_vs bl l false hp true hj true rm sp en
         else if zlist_eqb (firstn 2 u) (wstr "ca") then mk_vs bl l bp hp ha hj hr false sp false else s)
      else if c =? ch "L" then
        (if hd 0 u =? ch "e" then mk_vs bl l bp hp ha hj hr rm true false
         else if hd 0 u =? ch "n" then mk_vs bl l bp hp ha hj hr rm sp true else s)
      else if zlist_eqb (firstn 2 body) (wstr "Dg") then mk_vs bl l bp hp ha hj hr rm false en else s
  end.

Lemma starts_body : forall pre body post s k, (k <= length body)%nat -> ~ In (ch "]") (wstr s) ->
  starts (pre ++ ch "[" :: body ++ ch "]" :: post) (length pre + S k) s = Ok (zlist_eqb (firstn (length (wstr s)) (skipn k body)) (wstr s)).
Proof.
  intros pre body post s k L N. unfold starts. rewrite skipn_app_more. cbn [skipn]. rewrite skipn_app. replace (k - length body)%nat with 0%nat by lia. cbn [skipn]. now apply prefix_body.
Qed.

Lemma valid_info_spec : forall pre body post s len, (2 <= length body)%nat -> (length pre + 3 < len)%nat ->
  valid_info (pre ++ ch "[" :: body ++ ch "]" :: post) (length pre) len s = Ok (info body s).
Proof.
  intros pre body post s len L M. unfold valid_info, info. destruct s. replace (length pre + 3 <? len)%nat with true by (symmetry; now apply Nat.ltb_lt).
  destruct body as [|c [|d u]]; [cbn in L; lia|cbn in L; lia|]. rewrite (rd_app _ pre _ c 1) by reflexivity. rewrite (rd_app _ pre _ d 2) by reflexivity. cbn [bind hd].
  rewrite (starts_body pre (c :: d :: u) post "sf" 1), (starts_body pre (c :: d :: u) post "cu" 1), (starts_body pre (c :: d :: u) post "ca" 1), (starts_body pre (c :: d :: u) post "Dg" 0) by (cbn; solve [lia|intuition discriminate]).
  cbn [bind skipn]. change (length (wstr "sf")) with 2%nat. change (length (wstr "cu")) with 2%nat. change (length (wstr "ca")) with 2%nat. change (length (wstr "Dg")) with 2%nat.
  destruct (c =? ch "I"); [|destruct (c =? ch "L")]; reflexivity.
Qed.

Lemma valid_tag_spec : forall pre body post s len, (2 <= length body)%nat -> (length pre + length body + 2 <= len)%nat -> ~ In (ch "]") body -> hd 0 body <> ch "X" ->
  valid_tag (pre ++ ch "[" :: body ++ ch "]" :: post) (length pre) len s =
  if zlist_eqb (firstn 2 body) (wstr "Bh") then
    (let s := info body s in if requiredHyphenMissing s then Ok None else
      Ok (Some ((length pre + 3)%nat, mk_vs (beforeLastChar s) (lastChar s) true false (hyphenUnconditionallyAllowed s)
                  (hyphenUnconditionallyAllowedJustSet s) (hyphenRequired s)
                  (if hyphenRequired s then true else requiredHyphenMissing s)
                  (startsWithProperNoun s) (endsWithNonIcaNoun s))))
  else Ok (Some ((length pre + 1 + length body)%nat, info body s)).
Proof.
  intros pre body post s len L M N X. unfold valid_tag. replace (len <=? length pre + 2)%nat with false by (symmetry; apply Nat.leb_gt; lia).
  rewrite valid_info_spec by lia. cbn [bind]. destruct body as [|c u]; [cbn in L; lia|]. rewrite (rd_app _ pre _ c 1) by reflexivity. cbn [bind hd] in *.
  replace (c =? ch "X") with false by (symmetry; now apply Z.eqb_neq). rewrite (starts_body pre (c :: u) post "Bh" 0) by (cbn; solve [lia|intuition discriminate]).
  cbn [bind skipn]. change (length (wstr "Bh")) with 2%nat. destruct (zlist_eqb (firstn 2 (c :: u)) (wstr "Bh")); [reflexivity|].
  rewrite skip_tag_spec; [cbn [bind]; do 3 f_equal; cbn; lia|exact N|reflexivity|cbn in *; lia|cbn in *; lia].
Qed.

Lemma rd_at : forall (pre : list Z) x post n, n = length pre -> rd (pre ++ x :: post) n = Ok x.
Proof. intros pre x post n ->. apply rd_app0. Qed.

(** [[X.]...[X]] *)
Lemma skip_x_spec : forall u n pre rest len i, ~ In (ch "[") u -> S i = length pre -> (length u < n)%nat -> (i + length u + 3 < len)%nat ->
  skip_x n (pre ++ u ++ wstr "[X]" ++ rest) len i = Ok (i + length u + 3)%nat.
Proof.
  induction u as [|c u IH]; intros n pre rest len i N L F E; (destruct n as [|n]; [cbn in F; lia|]); cbn [skip_x].
  - replace (i + 3 <? len)%nat with true by (symmetry; apply Nat.ltb_lt; cbn in E; lia). rewrite L. cbn [app].
    change (wstr "[X]" ++ rest) with (ch "[" :: ch "X" :: ch "]" :: rest). rewrite rd_app0. rewrite (rd_app _ pre _ (ch "X") 1), (rd_app _ pre _ (ch "]") 2) by reflexivity.
    cbn [bind]. rewrite !Z.eqb_refl. cbn [andb]. f_equal. cbn. lia.
  - replace (i + 3 <? len)%nat with true by (symmetry; apply Nat.ltb_lt; cbn in E; lia). cbv zeta. cbn [app]. rewrite (rd_at pre _ _ _ L). cbn [bind].
    assert (X : forall k, (k <= 2)%nat -> exists d, rd (pre ++ c :: u ++ wstr "[X]" ++ rest) (length pre + k) = Ok d).
    { intros k K. unfold rd. destruct (nth_error (pre ++ c :: u ++ wstr "[X]" ++ rest) (length pre + k)) eqn:Q; [eauto|]. apply nth_error_None in Q. rewrite app_length in Q. cbn [length] in Q. rewrite !app_length in Q. cbn in Q. lia. }
    rewrite <- L in X. destruct (X 1%nat) as [d1 D1]; [lia|]. destruct (X 2%nat) as [d2 D2]; [lia|]. rewrite D1, D2. cbn [bind].
    replace (c =? ch "[") with false by (symmetry; apply Z.eqb_neq; intros ->; apply N; now left). cbn [andb].
    change (pre ++ c :: u ++ wstr "[X]" ++ rest) with (pre ++ [c] ++ u ++ wstr "[X]" ++ rest). rewrite app_assoc.
    rewrite IH; [f_equal; cbn; lia|intros I; apply N; now right|rewrite app_length; cbn; lia|cbn in F; lia|cbn in E; lia].
Qed.

Lemma valid_x_spec : forall pre k u post s len, ~ In (ch "[") u -> k <> ch "[" -> (length pre + length u + 7 <= len)%nat ->
  valid_tag (pre ++ wstr "[X" ++ k :: wstr "]" ++ u ++ wstr "[X]" ++ post) (length pre) len s = Ok (Some ((length pre + length u + 6)%nat, s)).
Proof.
  intros pre k u post s len N K L. unfold valid_tag. replace (len <=? length pre + 2)%nat with false by (symmetry; apply Nat.leb_gt; lia).
  replace (pre ++ wstr "[X" ++ k :: wstr "]" ++ u ++ wstr "[X]" ++ post) with (pre ++ ch "[" :: [ch "X"; k] ++ ch "]" :: u ++ wstr "[X]" ++ post) by reflexivity.
  rewrite valid_info_spec by (cbn; lia). cbn [bind]. rewrite (rd_app _ pre _ (ch "X") 1) by reflexivity. cbn [bind]. rewrite Z.eqb_refl.
  replace (pre ++ ch "[" :: [ch "X"; k] ++ ch "]" :: u ++ wstr "[X]" ++ post) with ((pre ++ wstr "[") ++ (ch "X" :: k :: ch "]" :: u) ++ wstr "[X]" ++ post) by (rewrite <- app_assoc; reflexivity).
  rewrite skip_x_spec.
  - cbn [bind]. replace (info [ch "X"; k] s) with s; [do 3 f_equal; cbn; lia|]. destruct s. reflexivity.
  - intros [I|[I|[I|I]]]; [discriminate I|congruence|discriminate I|exact (N I)].
  - rewrite app_length. cbn. lia.
  - cbn. lia.
  - cbn. lia.
Qed.

(** ** The loop *)

Lemma begins_iff : forall t x, begins t x = true <-> remark_is t x.
Proof.
  intros t x. unfold begins, remark_is. split.
  - destruct x; try discriminate. intros H. apply zlist_eqb_eq in H. exists (skipn (length (wstr t)) t0). f_equal. rewrite <- H at 1. symmetry. apply firstn_skipn.
  - intros [u ->]. rewrite firstn_app, Nat.sub_diag, firstn_all. cbn [firstn]. rewrite app_nil_r. apply zlist_eqb_refl.
Qed.

(** What [ordinary] says about each item. *)
Definition plain (x : item) : Prop :=
  good_item x /\ begins "Isf" x = false /\ begins "Icu" x = false /\ (begins "Bh" x = true -> is_mark x = true) /\
  (forall c, character x = Some c -> lower c = c /\ c <> 0 /\ c <> ch "[" /\ c <> ch "-").

Lemma ordinary_plain : forall l, ordinary l -> Forall plain l.
Proof.
  intros l (G & R & C). apply Forall_forall. intros x I. rewrite Forall_forall in G. specialize (G x I). destruct (R x I) as (R1 & R2 & R3). split; [exact G|].
  split; [destruct (begins "Isf" x) eqn:E; [exfalso; apply R1; now apply begins_iff|reflexivity]|].
  split; [destruct (begins "Icu" x) eqn:E; [exfalso; apply R2; now apply begins_iff|reflexivity]|].
  split; [intros E; apply is_mark_iff, R3; now apply begins_iff|].
  intros c E. split.
  - apply C. unfold characters. apply in_concat. exists [c]. split; [|now left]. apply in_map_iff. exists x. now rewrite E.
  - destruct x; try discriminate E; injection E as <-; [|repeat split; discriminate]. cbn [good_item] in G. cbn in G. repeat split; intros ->; apply G; vm_compute; tauto.
Qed.

Lemma check_hy : forall l bl lc pend hy sp en, (forall r, l <> mark :: r) -> check l bl lc pend hy sp en = check l bl lc pend false sp en.
Proof.
  intros [|x r] bl lc pend hy sp en H; [reflexivity|]. cbn [check]. destruct (character x); [reflexivity|]. destruct (is_mark x) eqn:M; [|reflexivity].
  apply is_mark_iff in M. subst x. now elim (H r).
Qed.

(** Remarks and the state. *)
Lemma info_state : forall body s bl lc pend sp en, state_of s bl lc pend sp en -> begins "Isf" (Tag body) = false -> begins "Icu" (Tag body) = false ->
  hd 0 body <> ch "L" -> (2 <= length body)%nat -> state_of (info body s) bl lc pend (name_step (Tag body) sp) (noun_step (Tag body) en).
Proof.
  intros body s bl lc pend sp en (hp & -> & HP) N1 N2 NL L. destruct body as [|c u]; [cbn in L; lia|]. unfold info, name_step, noun_step. cbn [is_hyphen name_class noun_class orb].
  cbn [hd] in NL. replace (c =? ch "L") with false by (symmetry; now apply Z.eqb_neq).
  assert (B : forall a b, begins (String "I" (String a (String b ""))) (Tag (c :: u)) = (c =? ch "I") && zlist_eqb (firstn 2 u) (wstr (String a (String b "")))).
  { intros a b. unfold begins. change (length (wstr (String "I" (String a (String b ""))))) with 3%nat. cbn [firstn]. change (wstr (String "I" (String a (String b "")))) with (ch "I" :: wstr (String a (String b ""))). reflexivity. }
  rewrite (B "s"%char "f"%char) in N1. rewrite (B "c"%char "u"%char) in N2. rewrite (B "c"%char "a"%char). unfold begins. change (length (wstr "Dg")) with 2%nat.
  destruct (c =? ch "I") eqn:CI; cbn [andb] in *.
  - rewrite N1, N2. apply Z.eqb_eq in CI. subst c. replace (zlist_eqb (firstn 2 (ch "I" :: u)) (wstr "Dg")) with false by reflexivity.
    destruct (zlist_eqb (firstn 2 u) (wstr "ca")); exists hp; auto.
  - destruct (zlist_eqb (firstn 2 (c :: u)) (wstr "Dg")); exists hp; auto.
Qed.

Lemma plain_body : forall x pre post s bl lc pend sp en len, plain x -> is_mark x = false -> character x = None -> x <> Hyphen ->
  state_of s bl lc pend sp en -> (length pre + length (render_item x) <= len)%nat ->
  exists j s', valid_tag (pre ++ render_item x ++ post) (length pre) len s = Ok (Some (j, s')) /\ S j = (length pre + length (render_item x))%nat /\
    state_of s' bl lc pend (name_step x sp) (noun_step x en) /\ nth_error (render_item x) 0 = Some (ch "[").
Proof.
  intros x pre post s bl lc pend sp en len (G & N1 & N2 & B & _) M C H ST L. destruct x as [c| | |k|k|p|k t|t]; try discriminate C; [congruence| | | | |].
  - (* a boundary *)
    replace (pre ++ render_item (Boundary k) ++ post) with (pre ++ ch "[" :: [ch "B"; k] ++ ch "]" :: post) by reflexivity. cbn [good_item] in G.
    rewrite valid_tag_spec; [|cbn; lia|cbn in L; cbn; lia| |cbn; discriminate].
    + replace (zlist_eqb (firstn 2 [ch "B"; k]) (wstr "Bh")) with false; [do 2 eexists; split; [reflexivity|]; split; [cbn; lia|]; split; [|reflexivity]|].
      * destruct s. exact ST.
      * symmetry. change (zlist_eqb (firstn 2 [ch "B"; k]) (wstr "Bh")) with ((k =? ch "h") && true). rewrite andb_true_r. apply Z.eqb_neq. intros ->. apply G. vm_compute. tauto.
    + intros [I|[I|[]]]; [discriminate I|]. apply G. subst k. vm_compute. tauto.
  - (* a class *)
    replace (pre ++ render_item (Class k) ++ post) with (pre ++ ch "[" :: (ch "L" :: wstr k) ++ ch "]" :: post) by (cbn [render_item]; rewrite <- !app_assoc; reflexivity).
    cbn [good_item] in G. cbn [render_item] in *. rewrite !app_length in *. change (length (wstr "[L")) with 2%nat in *. change (length (wstr "]")) with 1%nat in *.
    rewrite valid_tag_spec; [| |cbn [length]; lia| |cbn; discriminate].
    + assert (Q : zlist_eqb (firstn 2 (ch "L" :: wstr k)) (wstr "Bh") = false) by reflexivity. rewrite Q. do 2 eexists. split; [reflexivity|]. split; [cbn [length]; lia|]. split; [|reflexivity].
      destruct ST as (hp & -> & HP). unfold info, name_step, noun_step. cbn [is_hyphen begins orb].
      unfold class_names in G. cbn [In] in G. repeat (destruct G as [<-|G]; [exists hp; auto|]). destruct G.
    + unfold class_names in G. cbn [In] in G. repeat (destruct G as [<-|G]; [cbn; lia|]). destruct G.
    + unfold class_names in G. cbn [In] in G. intros I. repeat (destruct G as [<-|G]; [vm_compute in I; intuition discriminate|]). destruct G.
  - (* a pattern *)
    replace (pre ++ render_item (Pattern p) ++ post) with (pre ++ wstr "[X" ++ ch "r" :: wstr "]" ++ p ++ wstr "[X]" ++ post) by (cbn [render_item]; rewrite <- !app_assoc; reflexivity).
    cbn [good_item render_item] in *. rewrite !app_length in *. change (length (wstr "[Xr]")) with 4%nat in *. change (length (wstr "[X]")) with 3%nat in *.
    rewrite valid_x_spec; [do 2 eexists; split; [reflexivity|]; split; [lia|]; split; [|reflexivity]; exact ST| |discriminate|lia].
    intros I. destruct G as (G & _). specialize (G _ I). vm_compute in G. intuition discriminate.
  - (* another remark *)
    replace (pre ++ render_item (Remark k t) ++ post) with (pre ++ wstr "[X" ++ k :: wstr "]" ++ t ++ wstr "[X]" ++ post) by (cbn [render_item]; rewrite <- !app_assoc; cbn [app]; rewrite <- !app_assoc; reflexivity).
    cbn [good_item render_item] in *. rewrite !app_length in *. cbn [length] in *. rewrite !app_length in *. change (length (wstr "[X")) with 2%nat in *. change (length (wstr "]")) with 1%nat in *. change (length (wstr "[X]")) with 3%nat in *.
    rewrite valid_x_spec; [do 2 eexists; split; [reflexivity|]; split; [lia|]; split; [|reflexivity]; exact ST|tauto| |lia].
    intros ->. apply (proj1 G). vm_compute. tauto.
  - (* a tag *)
    replace (pre ++ render_item (Tag t) ++ post) with (pre ++ ch "[" :: t ++ ch "]" :: post) by (cbn [render_item]; rewrite <- !app_assoc; reflexivity).
    cbn [good_item render_item] in *. rewrite !app_length in *. change (length (wstr "[")) with 1%nat in *. change (length (wstr "]")) with 1%nat in *.
    destruct G as (_ & G2 & G3 & G4 & G5 & G6 & _). rewrite valid_tag_spec; [|exact G4|lia|exact G3|exact G5].
    replace (zlist_eqb (firstn 2 t) (wstr "Bh")) with false.
    + do 2 eexists. split; [reflexivity|]. split; [lia|]. split; [|reflexivity]. now apply info_state.
    + symmetry. destruct (zlist_eqb (firstn 2 t) (wstr "Bh")) eqn:E; [|reflexivity]. exfalso. cbn [is_mark] in B, M. rewrite B in M; [discriminate M|]. exact E.
Qed.

Lemma mark_step : forall pre post s bl lc pend sp en len, state_of s bl lc pend sp en -> (length pre + 4 <= len)%nat ->
  exists s', valid_tag (pre ++ render_item mark ++ post) (length pre) len s = Ok (Some ((length pre + 3)%nat, s')) /\ state_of s' bl lc (Some false) sp en.
Proof.
  intros pre post s bl lc pend sp en len (hp & -> & _) L. replace (pre ++ render_item mark ++ post) with (pre ++ ch "[" :: wstr "Bh" ++ ch "]" :: post) by reflexivity.
  rewrite valid_tag_spec; [|cbn; lia|cbn; lia|vm_compute; intuition discriminate|discriminate].
  replace (zlist_eqb (firstn 2 (wstr "Bh")) (wstr "Bh")) with true by reflexivity.
  replace (info (wstr "Bh") (mk_vs bl lc (match pend with Some _ => true | None => false end) hp false false false false sp en))
    with (mk_vs bl lc (match pend with Some _ => true | None => false end) hp false false false false sp en) by reflexivity.
  cbv zeta. cbn [requiredHyphenMissing beforeLastChar lastChar hyphenUnconditionallyAllowed hyphenUnconditionallyAllowedJustSet hyphenRequired startsWithProperNoun endsWithNonIcaNoun].
  eexists. split; [reflexivity|]. exists false. split; [reflexivity|]. intros h E. now injection E as <-.
Qed.

Lemma prefix_mark : forall r, Forall plain r -> (forall r', r <> mark :: r') -> (4 < length (render r))%nat -> prefix_eq (wstr "[Bh]") (render r ++ [0]) = Ok false.
Proof.
  intros r P M L. destruct r as [|x r]; [cbn in L; lia|]. apply Forall_inv in P. destruct P as (G & _ & _ & B & C). rewrite render_cons, <- app_assoc.
  change (wstr "[Bh]") with [ch "["; ch "B"; ch "h"; ch "]"].
  destruct x as [c| | |k|k|p|k t|t].
  - destruct (C c eq_refl) as (_ & _ & C1 & _). cbn [render_item app prefix_eq]. replace (ch "[" =? c) with false by (symmetry; apply Z.eqb_neq; congruence). reflexivity.
  - reflexivity.
  - reflexivity.
  - change (render_item (Boundary k) ++ render r ++ [0]) with (ch "[" :: ch "B" :: k :: ch "]" :: render r ++ [0]). cbn [prefix_eq]. rewrite !Z.eqb_refl.
    replace (ch "h" =? k) with false; [reflexivity|]. symmetry. apply Z.eqb_neq. intros <-. cbn [good_item] in G. apply G. vm_compute. tauto.
  - change (render_item (Class k) ++ render r ++ [0]) with (ch "[" :: ch "L" :: (wstr k ++ wstr "]") ++ render r ++ [0]). reflexivity.
  - change (render_item (Pattern p) ++ render r ++ [0]) with (ch "[" :: ch "X" :: (ch "r" :: ch "]" :: p ++ wstr "[X]") ++ render r ++ [0]). reflexivity.
  - change (render_item (Remark k t) ++ render r ++ [0]) with (ch "[" :: ch "X" :: (k :: wstr "]" ++ t ++ wstr "[X]") ++ render r ++ [0]). reflexivity.
  - change (render_item (Tag t) ++ render r ++ [0]) with (ch "[" :: (t ++ wstr "]") ++ render r ++ [0]). cbn [prefix_eq]. rewrite Z.eqb_refl.
    destruct G as (_ & _ & _ & G4 & _). destruct t as [|c [|d u]]; [cbn in G4; lia|cbn in G4; lia|]. cbn [app prefix_eq].
    destruct (ch "B" =? c) eqn:E1; [|reflexivity]. destruct (ch "h" =? d) eqn:E2; [|reflexivity]. exfalso.
    apply Z.eqb_eq in E1. apply Z.eqb_eq in E2. subst c d. specialize (B eq_refl). apply is_mark_iff in B. now apply (M r); rewrite <- B.
Qed.

Lemma lookahead : forall pre r, starts ((pre ++ wstr "-") ++ render r ++ [0]) (length pre + 1) "[Bh]" = prefix_eq (wstr "[Bh]") (render r ++ [0]).
Proof.
  intros pre r. unfold starts. f_equal. replace (length pre + 1)%nat with (length (pre ++ wstr "-")) by (rewrite app_length; reflexivity). apply skipn_app_length.
Qed.

Lemma loop_check : forall n l pre s bl lc pend sp en f, (length l <= n)%nat -> Forall plain l -> lower lc = lc -> state_of s bl lc pend sp en -> (length (render l) <= f)%nat ->
  valid_loop f (pre ++ render l ++ [0]) (length pre + length (render l)) (length pre) s = Ok (check l bl lc pend false sp en).
Proof.
  induction n as [|n IH]; intros l pre s bl lc pend sp en f LN P LC ST LF.
  { destruct l; [|cbn in LN; lia]. destruct f; cbn [valid_loop check render map concat length]; rewrite Nat.add_0_r, Nat.ltb_irrefl; destruct ST as (hp & -> & _); cbn; destruct sp, en; reflexivity. }
  destruct l as [|x r].
  { destruct f; cbn [valid_loop check render map concat length]; rewrite Nat.add_0_r, Nat.ltb_irrefl; destruct ST as (hp & -> & _); cbn; destruct sp, en; reflexivity. }
  cbn [length] in LN. pose proof (Forall_inv P) as PX. pose proof (Forall_inv_tail P) as PR. pose proof (render_item_length x) as RL.
  rewrite render_cons in *. rewrite app_length in *. destruct f as [|f]; [lia|]. rewrite valid_loop_step by lia.
  assert (REST : forall s' bl' lc' pend' sp' en', lower lc' = lc' -> state_of s' bl' lc' pend' sp' en' ->
    valid_loop f (pre ++ (render_item x ++ render r) ++ [0]) (length pre + (length (render_item x) + length (render r))) (length pre + length (render_item x)) s' = Ok (check r bl' lc' pend' false sp' en')).
  { intros s' bl' lc' pend' sp' en' LC' ST'. replace (pre ++ (render_item x ++ render r) ++ [0]) with ((pre ++ render_item x) ++ render r ++ [0]) by (rewrite <- !app_assoc; reflexivity).
    rewrite Nat.add_assoc, <- (app_length pre (render_item x)). apply IH; [lia|exact PR|exact LC'|exact ST'|]. lia. }
  destruct (character x) as [c|] eqn:CX.
  - (* a character *)
    assert (RX : render_item x = [c]) by (destruct x; try discriminate CX; injection CX as <-; reflexivity).
    destruct PX as (_ & _ & _ & _ & PC). destruct (PC c CX) as (C1 & C2 & C3 & C4). rewrite RX in *. cbn [app]. rewrite rd_app0. cbn [bind].
    replace (c =? ch "[") with false by (symmetry; now apply Z.eqb_neq). replace (c =? ch "-") with false by (symmetry; now apply Z.eqb_neq).
    cbn [check]. rewrite CX. replace (name_step x sp) with sp by (destruct x; try discriminate CX; reflexivity). replace (noun_step x en) with en by (destruct x; try discriminate CX; reflexivity).
    pose proof (valid_char_spec c s bl lc pend sp en C1 LC C2 ST) as V. destruct (valid_char c s) as [s'|].
    + destruct V as [-> V]. cbn [andb]. specialize (REST s' lc c None sp en C1 V). cbn [app length] in REST. rewrite Nat.add_1_r in REST. exact REST.
    + rewrite V. reflexivity.
  - destruct (is_mark x) eqn:MX.
    + (* a joint *)
      apply is_mark_iff in MX. subst x. replace (pre ++ (render_item mark ++ render r) ++ [0]) with (pre ++ render_item mark ++ (render r ++ [0])) in * by (rewrite <- !app_assoc; reflexivity).
      change (pre ++ render_item mark ++ render r ++ [0]) with (pre ++ ch "[" :: (wstr "Bh]") ++ render r ++ [0]) at 1. rewrite rd_app0. cbn [bind]. rewrite Z.eqb_refl.
      change (length (render_item mark)) with 4%nat in *. destruct (mark_step pre (render r ++ [0]) s bl lc pend sp en (length pre + (4 + length (render r)))%nat ST ltac:(lia)) as (s' & -> & ST').
      cbn [bind]. cbn [check]. cbn [character mark is_mark]. change (zlist_eqb (wstr "Bh") (wstr "Bh")) with true. cbn [is_hyphen].
      change (name_step (Tag (wstr "Bh")) sp) with sp. change (noun_step (Tag (wstr "Bh")) en) with en.
      specialize (REST s' bl lc (Some false) sp en LC ST'). replace (S (length pre + 3)) with (length pre + 4)%nat by lia. exact REST.
    + destruct (is_hyphen x) eqn:HX.
      * (* a hyphen *)
        destruct x; try discriminate HX. clear CX MX HX. cbn [check character is_mark is_hyphen name_step noun_step orb].
        replace (pre ++ (render_item Hyphen ++ render r) ++ [0]) with ((pre ++ wstr "-") ++ render r ++ [0]) in * by (rewrite <- !app_assoc; reflexivity).
        replace (rd ((pre ++ wstr "-") ++ render r ++ [0]) (length pre)) with (Ok (ch "-")) by (rewrite <- app_assoc; symmetry; apply rd_app0).
        cbn [bind]. replace (ch "-" =? ch "[") with false by reflexivity. rewrite Z.eqb_refl. change (length (render_item Hyphen)) with 1%nat in *.
        unfold valid_hyphen. destruct ST as (hp & -> & HP). rewrite lookahead.
        assert (ALONE : (forall r', r = mark :: r' -> r' = []) -> valid_loop f ((pre ++ wstr "-") ++ render r ++ [0]) (length pre + (1 + length (render r))) (S (length pre))
           (mk_vs bl lc (match pend with Some _ => true | None => false end) hp false false false false false false) = Ok (check r bl lc pend true false false)).
        { intros NM. specialize (REST (mk_vs bl lc (match pend with Some _ => true | None => false end) hp false false false false false false) bl lc pend false false LC (ex_intro _ hp (conj eq_refl HP))).
          rewrite Nat.add_1_r in REST. rewrite REST. f_equal. destruct r as [|y r]; [reflexivity|]. destruct (is_mark y) eqn:MY; [apply is_mark_iff in MY; subst y; rewrite (NM r eq_refl); reflexivity|].
          symmetry. apply check_hy. intros r' E. injection E as -> _. discriminate MY. }
        destruct (length pre + 5 <? length pre + (1 + length (render r)))%nat eqn:LR.
        -- apply Nat.ltb_lt in LR. destruct r as [|y r]; [cbn in LR; lia|]. destruct (is_mark y) eqn:MY.
           ++ apply is_mark_iff in MY. subst y. rewrite render_cons. replace (prefix_eq (wstr "[Bh]") ((render_item mark ++ render r) ++ [0])) with (Ok true : res bool) by reflexivity. cbn [bind].
              cbn [check character mark is_mark]. change (zlist_eqb (wstr "Bh") (wstr "Bh")) with true. cbn [is_hyphen].
              change (name_step (Tag (wstr "Bh")) false) with false. change (noun_step (Tag (wstr "Bh")) false) with false.
              replace ((pre ++ wstr "-") ++ (render_item mark ++ render r) ++ [0]) with ((pre ++ wstr "-" ++ render_item mark) ++ render r ++ [0]) by (rewrite <- !app_assoc; reflexivity).
              rewrite render_cons in *. rewrite app_length in *. change (length (render_item mark)) with 4%nat in *.
              replace (length pre + (1 + (4 + length (render r))))%nat with (length (pre ++ wstr "-" ++ render_item mark) + length (render r))%nat by (rewrite app_length; change (length (wstr "-" ++ render_item mark)) with 5%nat; lia).
              replace (S (length pre + 4)) with (length (pre ++ wstr "-" ++ render_item mark)) by (rewrite app_length; change (length (wstr "-" ++ render_item mark)) with 5%nat; lia).
              cbn [length] in LN. apply IH; [lia|exact (Forall_inv_tail PR)|exact LC| |lia]. exists true. split; [reflexivity|]. intros h E. now injection E as <-.
           ++ rewrite prefix_mark; [cbn [bind]|exact PR|intros r' E; injection E as -> _; discriminate MY|lia]. apply ALONE. intros r' E. injection E as -> _. discriminate MY.
        -- apply Nat.ltb_ge in LR. cbn [bind]. apply ALONE. intros r' ->. rewrite render_cons, app_length in LR. change (length (render_item mark)) with 4%nat in LR.
           destruct r' as [|y r']; [reflexivity|]. rewrite render_cons, app_length in LR. pose proof (render_item_length y). lia.
      * (* other remarks *)
        assert (NH : x <> Hyphen) by (intros ->; discriminate HX).
        destruct (plain_body x pre (render r ++ [0]) s bl lc pend sp en (length pre + (length (render_item x) + length (render r)))%nat PX MX CX NH ST ltac:(lia)) as (j & s' & V & J & ST' & NE).
        replace (pre ++ (render_item x ++ render r) ++ [0]) with (pre ++ render_item x ++ render r ++ [0]) in * by (rewrite <- !app_assoc; reflexivity).
        replace (rd (pre ++ render_item x ++ render r ++ [0]) (length pre)) with (Ok (ch "[")).
        2:{ destruct (render_item x) as [|c0 o]; [discriminate NE|]. injection NE as ->. symmetry. apply rd_app0. }
        cbn [bind]. rewrite Z.eqb_refl, V. cbn [bind]. rewrite J. cbn [check]. rewrite CX, MX, HX. now apply REST.
Qed.

Lemma lower_nul : lower 0 = 0.
Proof. reflexivity. Qed.

Lemma valid_check : forall l, ordinary l -> isValidAnalysis (render l) = Ok (check l 0 0 None false false false).
Proof.
  intros l O. unfold isValidAnalysis. apply (loop_check (length l) l [] valid_start); [lia|now apply ordinary_plain|exact lower_nul| |lia]. exists false. split; [reflexivity|discriminate].
Qed.

(** ** The joints *)

Fixpoint joints (l : list item) (pre : list Z) (pend : option bool) (hy : bool) : list (list Z * bool * Z) :=
  match l with
  | [] => []
  | x :: r =>
      match character x with
      | Some c => (match pend with Some h => [(pre, h, c)] | None => [] end) ++ joints r (pre ++ [c]) None false
      | None => joints r pre (if is_mark x then Some hy else pend) (is_hyphen x)
      end
  end.

Definition quiet (m : list item) : Prop := forall y, In y m -> character y = None /\ y <> mark.

Lemma characters_cons : forall x a, characters (x :: a) = (match character x with Some c => [c] | None => [] end) ++ characters a.
Proof. reflexivity. Qed.

Definition place (l : list item) (pre : list Z) (pend : option bool) (hy : bool) (bf : list Z) (h : bool) (c : Z) : Prop :=
  (pend = Some h /\ bf = pre /\ exists m x b, l = m ++ x :: b /\ quiet m /\ character x = Some c) \/
  (hy = true /\ h = true /\ bf = pre /\ exists m x b, l = mark :: m ++ x :: b /\ quiet m /\ character x = Some c) \/
  (exists a m x b, l = a ++ (if h then [Hyphen] else []) ++ mark :: m ++ x :: b /\ (h = false -> (forall a', a <> a' ++ [Hyphen]) /\ (a = [] -> hy = false)) /\
     bf = pre ++ characters a /\ quiet m /\ character x = Some c).

Lemma joints_place : forall l pre pend hy bf h c, In (bf, h, c) (joints l pre pend hy) -> place l pre pend hy bf h c.
Proof.
  induction l as [|x r IH]; intros pre pend hy bf h c I; [destruct I|]. cbn [joints] in I. destruct (character x) as [c0|] eqn:CX.
  - apply in_app_or in I. destruct I as [I|I].
    + left. destruct pend as [h0|]; [|destruct I]. destruct I as [I|[]]. injection I as <- <- <-. split; [reflexivity|]. split; [reflexivity|]. exists [], x, r. split; [reflexivity|]. split; [intros y []|exact CX].
    + right. right. destruct (IH _ _ _ _ _ _ I) as [(X & _)|[(X & _)|(a & m & z & b & -> & H & -> & Q & CZ)]]; [discriminate X|discriminate X|].
      exists (x :: a), m, z, b. split; [reflexivity|]. split; [|split; [rewrite characters_cons, CX, <- app_assoc; reflexivity|auto]].
      intros ->. destruct (H eq_refl) as [H1 _]. split; [|discriminate]. intros [|y a'] E; [injection E as -> _; discriminate CX|]. injection E as -> ->. now apply (H1 a').
  - destruct (IH _ _ _ _ _ _ I) as [(X & -> & m & z & b & -> & Q & CZ)|[(X & -> & -> & m & z & b & -> & Q & CZ)|(a & m & z & b & -> & H & -> & Q & CZ)]].
    + destruct (is_mark x) eqn:MX.
      * injection X as ->. apply is_mark_iff in MX. subst x. destruct h.
        -- right. left. repeat split. exists m, z, b. auto.
        -- right. right. exists [], m, z, b. split; [reflexivity|]. split; [intros _; split; [intros [|y a'] E; discriminate E|reflexivity]|]. split; [symmetry; apply app_nil_r|auto].
      * left. split; [exact X|]. split; [reflexivity|]. exists (x :: m), z, b. split; [reflexivity|]. split; [|exact CZ]. intros y [<-|J]; [|now apply Q]. split; [exact CX|]. intros ->. discriminate MX.
    + right. right. destruct x; try discriminate X. exists [], m, z, b. split; [reflexivity|]. split; [discriminate|]. split; [symmetry; apply app_nil_r|auto].
    + right. right. exists (x :: a), m, z, b. split; [reflexivity|]. split; [|split; [rewrite characters_cons, CX; reflexivity|auto]].
      intros ->. destruct (H eq_refl) as [H1 H2]. split; [|discriminate]. intros [|y a'] E; [injection E as -> ->; now specialize (H2 eq_refl)|]. injection E as -> ->. now apply (H1 a').
Qed.

Lemma place_joints : forall l pre pend hy bf h c, place l pre pend hy bf h c -> In (bf, h, c) (joints l pre pend hy).
Proof.
  induction l as [|x r IH]; intros pre pend hy bf h c P.
  { destruct P as [(_ & _ & m & x & b & E & _)|[(_ & _ & _ & m & x & b & E & _)|(a & m & x & b & E & _)]]; [destruct m; discriminate E|discriminate E|destruct a, h; discriminate E]. }
  cbn [joints]. destruct P as [(-> & -> & m & z & b & E & Q & CZ)|[(-> & -> & -> & m & z & b & E & Q & CZ)|(a & m & z & b & E & H & -> & Q & CZ)]].
  - destruct m as [|y m]; injection E as -> ->; [rewrite CZ; now left|]. destruct (Q y (or_introl eq_refl)) as [CY MY]. rewrite CY.
    destruct (is_mark y) eqn:MB; [apply is_mark_iff in MB; congruence|]. apply IH. left. split; [reflexivity|]. split; [reflexivity|]. exists m, z, b. split; [reflexivity|]. split; [intros w J; apply Q; now right|exact CZ].
  - injection E as -> ->. cbn [character mark is_mark]. change (zlist_eqb (wstr "Bh") (wstr "Bh")) with true. apply IH. left. split; [reflexivity|]. split; [reflexivity|]. eauto 6.
  - destruct a as [|y a].
    + rewrite app_nil_r in *. destruct h; cbn [app] in E; injection E as -> ->.
      * cbn [character is_mark is_hyphen]. apply IH. right. left. repeat split. eauto 6.
      * cbn [character mark is_mark]. change (zlist_eqb (wstr "Bh") (wstr "Bh")) with true. destruct (H eq_refl) as [_ H2]. rewrite (H2 eq_refl). apply IH. left. split; [reflexivity|]. split; [reflexivity|]. eauto 6.
    + cbn [app] in E. injection E as -> ->. rewrite characters_cons. destruct (character y) as [c0|] eqn:CY.
      * apply in_or_app. right. apply IH. right. right. exists a, m, z, b. split; [reflexivity|]. split; [|split; [rewrite <- app_assoc; reflexivity|auto]].
        intros ->. destruct (H eq_refl) as [H1 _]. split; [|reflexivity]. intros a' ->. now apply (H1 (y :: a')).
      * apply IH. right. right. exists a, m, z, b. split; [reflexivity|]. split; [|split; [reflexivity|auto]].
        intros ->. destruct (H eq_refl) as [H1 _]. split; [intros a' ->; now apply (H1 (y :: a'))|]. intros ->. destruct y; try reflexivity. exfalso. now apply (H1 []).
Qed.

Lemma joints_joint : forall l bf h c, In (bf, h, c) (joints l [] None false) <-> joint l bf h c.
Proof.
  intros l bf h c. split.
  - intros I. destruct (joints_place _ _ _ _ _ _ _ I) as [(X & _)|[(X & _)|(a & m & x & b & E & H & B & Q & C)]]; [discriminate X|discriminate X|].
    exists a, m, x, b. split; [exact E|]. split; [intros X; now apply H|auto].
  - intros (a & m & x & b & E & H & B & Q & C). apply place_joints. right. right. exists a, m, x, b. split; [exact E|]. split; [intros X; split; [now apply H|reflexivity]|auto].
Qed.

(** ** Names and nouns *)

Lemma name_class_iff : forall x, name_class x = true <-> is_name x.
Proof.
  intros x. split.
  - destruct x; try discriminate. cbn [name_class]. intros H. exists k. split; [reflexivity|]. apply existsb_exists in H. destruct H as (y & I & E). apply String.eqb_eq in E. now subst y.
  - intros (k & -> & I). cbn [name_class]. apply existsb_exists. exists k. split; [exact I|apply String.eqb_refl].
Qed.

Definition name_end (l : list item) (sp : bool) : bool := fold_left (fun sp x => name_step x sp) l sp.
Definition noun_end (l : list item) (en : bool) : bool := fold_left (fun en x => noun_step x en) l en.

Lemma fold_open : forall (stop set : item -> bool) l v,
  fold_left (fun v x => if stop x then false else if set x then true else v) l v = true <->
  (exists a x b, l = a ++ x :: b /\ set x = true /\ stop x = false /\ forall y, In y b -> stop y = false) \/ (v = true /\ forall y, In y l -> stop y = false).
Proof.
  intros stop set. induction l as [|x l IH]; intros v.
  - cbn [fold_left]. split.
    + intros ->. right. split; [reflexivity|]. intros y [].
    + intros [(a & y & b & E & _)|[-> _]]; [destruct a; discriminate E|reflexivity].
  - cbn [fold_left]. rewrite IH. split.
    + intros [(a & y & b & -> & S1 & S2 & S3)|[V S]].
      * left. exists (x :: a), y, b. auto.
      * destruct (stop x) eqn:SX; [discriminate V|]. destruct (set x) eqn:TX.
        -- left. exists [], x, l. auto.
        -- right. split; [exact V|]. intros y [<-|I]; [exact SX|now apply S].
    + intros [(a & y & b & E & S1 & S2 & S3)|[-> S]].
      * destruct a as [|z a]; injection E as -> ->; [right; rewrite S2, S1; auto|left; exists a, y, b; auto].
      * right. rewrite (S x (or_introl eq_refl)). split; [destruct (set x); reflexivity|]. intros y I. apply S. now right.
Qed.

Lemma begins_false : forall t x, begins t x = false <-> ~ remark_is t x.
Proof. intros t x. rewrite <- begins_iff. destruct (begins t x); intuition congruence. Qed.
Lemma is_hyphen_false : forall x, is_hyphen x = false <-> x <> Hyphen.
Proof. intros x. destruct x; cbn; intuition congruence. Qed.
Lemma name_class_false : forall x, name_class x = false <-> ~ is_name x.
Proof. intros x. rewrite <- name_class_iff. destruct (name_class x); intuition congruence. Qed.

Lemma name_end_open : forall l, name_end l false = true <-> name_open l.
Proof.
  intros l. unfold name_end, name_step. rewrite (fold_open (fun x => is_hyphen x || begins "Dg" x) name_class). unfold name_open. split.
  - intros [(a & x & b & E & S1 & S2 & S3)|[X _]]; [|discriminate X]. exists a, x, b. split; [exact E|]. split; [now apply name_class_iff|].
    intros y I. specialize (S3 y I). apply orb_false_iff in S3. destruct S3 as [S3 S4]. split; [now apply is_hyphen_false|now apply begins_false].
  - intros (a & x & b & E & S1 & S2). left. exists a, x, b. split; [exact E|]. split; [now apply name_class_iff|]. split; [destruct S1 as (k & -> & _); reflexivity|].
    intros y I. destruct (S2 y I) as [S3 S4]. apply orb_false_iff. split; [now apply is_hyphen_false|now apply begins_false].
Qed.

Lemma noun_end_open : forall l, noun_end l false = true <-> noun_open l.
Proof.
  intros l. unfold noun_end, noun_step. rewrite (fold_open (fun x => is_hyphen x || begins "Ica" x || name_class x) noun_class). unfold noun_open. split.
  - intros [(a & x & b & E & S1 & S2 & S3)|[X _]]; [|discriminate X]. destruct x; try discriminate S1. exists a, k, b. split; [exact E|]. split.
    + cbn [noun_class] in S1. apply existsb_exists in S1. destruct S1 as (y & I & Q). apply String.eqb_eq in Q. subst y. cbn [In] in I. intuition.
    + intros y I. specialize (S3 y I). apply orb_false_iff in S3. destruct S3 as [S3 S5]. apply orb_false_iff in S3. destruct S3 as [S3 S4].
      split; [now apply is_hyphen_false|]. split; [now apply name_class_false|now apply begins_false].
  - intros (a & k & b & E & S1 & S2). left. exists a, (Class k), b. split; [exact E|]. split; [destruct S1 as [->| ->]; reflexivity|]. split; [destruct S1 as [->| ->]; reflexivity|].
    intros y I. destruct (S2 y I) as (S3 & S4 & S5). apply orb_false_iff. split; [apply orb_false_iff; split; [now apply is_hyphen_false|now apply begins_false]|now apply name_class_false].
Qed.

(** ** The check says what the rules say *)

Lemma joint_okb_correct : forall pre h c, c <> 0 -> ~ In 0 pre -> (joint_okb (hd 0 (tl (rev pre))) (hd 0 (rev pre)) h c = true <-> correct_joint pre h c).
Proof.
  intros pre h c C N. unfold joint_okb, correct_joint. rewrite (in_rev pre) in N. destruct (rev pre) as [|p q]; cbn [hd tl].
  - split; [auto|]. intros _. change (0 =? 0) with true. cbn [orb andb]. replace (0 =? c) with false by (symmetry; now apply Z.eqb_neq, not_eq_sym). change (in_range (ch "0") (ch "9") 0) with false. destruct h; reflexivity.
  - assert (P : p <> 0) by (intros ->; apply N; now left). replace (p =? 0) with false by (symmetry; now apply Z.eqb_neq). cbn [orb].
    assert (R : (p =? c) && wcschr VOIKKO_VOWELS p || in_range (ch "0") (ch "9") p = true <-> (p = c /\ In p VOIKKO_VOWELS) \/ ch "0" <= p <= ch "9").
    { unfold wcschr. replace (p =? 0) with false by (symmetry; now apply Z.eqb_neq). cbn [orb]. rewrite orb_true_iff, andb_true_iff, mem_In, Z.eqb_eq. unfold in_range. rewrite andb_true_iff, !Z.leb_le. tauto. }
    set (rq := (p =? c) && wcschr VOIKKO_VOWELS p || in_range (ch "0") (ch "9") p) in *. destruct h.
    + rewrite andb_true_r, orb_true_iff, andb_true_iff, !Z.eqb_eq. replace (Bool.eqb rq true) with rq by (destruct rq; reflexivity). rewrite R. tauto.
    + rewrite andb_false_r. cbn [orb]. rewrite <- R. destruct rq; cbn; intuition congruence.
Qed.

Lemma check_joints : forall l pre pend hy sp en, Forall plain l -> ~ In 0 pre ->
  (check l (hd 0 (tl (rev pre))) (hd 0 (rev pre)) pend hy sp en = true <->
   (forall bf h c, In (bf, h, c) (joints l pre pend hy) -> correct_joint bf h c) /\ name_end l sp && noun_end l en = false).
Proof.
  induction l as [|x r IH]; intros pre pend hy sp en P N.
  - cbn [check joints name_end noun_end fold_left]. rewrite negb_true_iff. split; [intros H; split; [intros bf h c []|exact H]|tauto].
  - cbn [check joints]. pose proof (Forall_inv P) as PX. apply Forall_inv_tail in P. change (name_end (x :: r) sp) with (name_end r (name_step x sp)). change (noun_end (x :: r) en) with (noun_end r (noun_step x en)).
    destruct (character x) as [c0|] eqn:CX.
    + destruct PX as (_ & _ & _ & _ & PC). destruct (PC c0 CX) as (_ & C0 & _).
      assert (N' : ~ In 0 (pre ++ [c0])) by (intros I; apply in_app_or in I; destruct I as [I|[I|[]]]; [now apply N|congruence]).
      specialize (IH (pre ++ [c0]) None false (name_step x sp) (noun_step x en) P N'). rewrite rev_app_distr in IH. cbn [rev app hd tl] in IH. rewrite andb_true_iff, IH. clear IH.
      destruct pend as [h0|].
      * rewrite joint_okb_correct by assumption. split.
        -- intros (A & B & C). split; [|exact C]. intros bf h c I. cbn [app] in I. destruct I as [I|I]; [injection I as <- <- <-; exact A|now apply B].
        -- intros (A & B). split; [apply A; now left|]. split; [intros bf h c I; apply A; now right|exact B].
      * cbn [app]. tauto.
    + apply (IH pre); assumption.
Qed.

Lemma valid_iff : forall l, ordinary l -> (isValidAnalysis (render l) = Ok true <->
  (forall before hyphen c, joint l before hyphen c -> correct_joint before hyphen c) /\ ~ (name_open l /\ noun_open l)).
Proof.
  intros l O. rewrite valid_check by exact O. pose proof (check_joints l [] None false false false (ordinary_plain l O) (fun H => H)) as C. cbn [rev hd tl] in C.
  rewrite <- name_end_open, <- noun_end_open. split.
  - intros H. injection H as H. apply C in H. destruct H as [A B]. split; [intros bf h c J; apply A; now apply joints_joint|]. intros [H1 H2]. rewrite H1, H2 in B. discriminate B.
  - intros [A B]. f_equal. apply C. split; [intros bf h c J; apply A; now apply joints_joint|]. destruct (name_end l false), (noun_end l false); try reflexivity. exfalso. now apply B.
Qed.
