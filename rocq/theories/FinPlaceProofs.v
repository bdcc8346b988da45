(** * The base form of all outputs, with names of places *)
From Verif Require Import Base BaseFacts CharModel AnalysisModel HyphModel FinModel FinSpec FinStructure FinTotal FinBaseform FinWordSpec FinHyphens FinWordBase FinNumeralSpec FinNumeralProofs FinNumeralBase FinPlaceSpec.
From Coq Require Import Lia.

Definition place (l : list item) : bool := existsb (fun x => match x with Class k => String.eqb k "ep" | _ => false end) l.
Definition ends_is (pre : list Z) : bool := zlist_eqb (skipn (length pre - 2) pre) (wstr "is").
Definition adjective (k : string) : bool := String.eqb k "l" || String.eqb k "nl".

Fixpoint runp (l : list item) (pre w sy : list Z) (xp : option (nat * list Z)) (hx : nat) (cls ign de : bool) : option (list Z) :=
  match l with
  | [] => optional (match xp with Some (n, t) => firstn n w ++ symbols t | None => w end)
  | x :: r =>
      let pre' := pre ++ render_item x in
      match x with
      | Letter c => runp r pre' (w ++ [cap sy c]) (tl sy) xp hx cls ign de
      | Colon => runp r pre' (w ++ [cap sy (ch ":")]) (tl sy) xp hx cls ign de
      | Hyphen =>
          match hx with
          | S h => runp r pre' (w ++ [cap sy (ch "-")]) (tl sy) xp h cls ign false
          | O => runp r pre' ((match xp with Some (n, t) => if de && negb (ends_is pre) && place r then firstn n w ++ titled t else w | None => w end) ++ [cap sy (ch "-")]) (tl sy) None 0 cls ign false
          end
      | Remark k t => if (k =? ch "p") || (k =? ch "j") then runp r pre' w sy (Some (length w, t)) (hyphens t) cls ign de else runp r pre' w sy xp hx cls ign de
      | Class k =>
          if negb cls && String.eqb k "u" && (3 <=? length (render r))%nat then
            match nrun r w (digit_start r) false with Some v => Some v | None => runp r pre' w sy xp hx true ign de end
          else runp r pre' w sy xp hx true (negb (adjective k)) false
      | Tag t => runp r pre' w sy xp hx cls ign (if zlist_eqb t (wstr "De") then negb ign else de)
      | _ => runp r pre' w sy xp hx cls ign de
      end
  end.

Lemma other_tag2 : forall pre body post f o st buf pos xf xb hx sp ign de cls len, o ++ [0] = pre ++ ch "[" :: body ++ ch "]" :: post -> ~ In (ch "[") body -> ~ In (ch "]") body ->
  (2 <= length body)%nat -> hd 0 body <> ch "X" -> (body = wstr "Lu" -> cls = true) -> (length pre + length body + 2 <= len)%nat -> len = length o -> (length body + 2 <= f)%nat ->
  (hd 0 body = ch "L" -> exists k, In k class_names /\ body = ch "L" :: wstr k) ->
  exists f' ign' de', (f <= f' + (length body + 2))%nat /\
  (if hd 0 body =? ch "L" then de' = false /\ forall k, In k class_names -> body = ch "L" :: wstr k -> ign' = negb (adjective k) else ign' = ign /\ de' = if zlist_eqb body (wstr "De") then negb ign else de) /\
  base_loop f (o ++ [0]) o st len (length pre) (mk_base buf pos xf xb hx sp false false false ign de cls) =
  base_loop f' (o ++ [0]) o st len (length pre + (length body + 2)) (mk_base buf pos xf xb hx sp false false false ign' de' (cls || (hd 0 body =? ch "L"))).
Proof.
  intros pre body post f o st buf pos xf xb hx sp ign de cls len E N1 N2 L2 X LU L LE F CN. destruct f as [|f]; [lia|]. rewrite base_loop_step by lia. rewrite E, rd_app0. cbn [bind]. rewrite Z.eqb_refl.
  unfold base_tag. replace (len <=? length pre + 2)%nat with false by (symmetry; apply Nat.leb_gt; lia). destruct body as [|c [|d u]]; [cbn in L2; lia|cbn in L2; lia|]. cbn [hd] in *.
  rewrite (rd_app _ pre _ c 1), (rd_app _ pre _ d 2) by reflexivity. cbn [bind]. rewrite (eqb_neq _ _ X).
  rewrite (starts_whole pre (c :: d :: u) post "Lu]" (wstr "Lu")) by solve [exact N2|vm_compute; intuition discriminate|reflexivity].
  rewrite (starts_whole pre (c :: d :: u) post "De]" (wstr "De")) by solve [exact N2|vm_compute; intuition discriminate|reflexivity]. cbn [bind].
  replace (negb cls && (length pre + 6 <? len)%nat && zlist_eqb (c :: d :: u) (wstr "Lu")) with false.
  2: { symmetry. destruct (zlist_eqb (c :: d :: u) (wstr "Lu")) eqn:Q; [|apply andb_false_r]. apply zlist_eqb_eq in Q. rewrite (LU Q). reflexivity. }
  assert (REST : forall ign' de' cls', base_loop f (pre ++ ch "[" :: (c :: d :: u) ++ ch "]" :: post) o st len (S (length pre + 0)) (mk_base buf pos xf xb hx sp false false true ign' de' cls') =
    base_loop (f - S (length (c :: d :: u))) (pre ++ ch "[" :: (c :: d :: u) ++ ch "]" :: post) o st len (length pre + (length (c :: d :: u) + 2)) (mk_base buf pos xf xb hx sp false false false ign' de' cls')).
  { intros ign' de' cls'. change (pre ++ ch "[" :: (c :: d :: u) ++ ch "]" :: post) with (pre ++ [ch "["] ++ (c :: d :: u) ++ ch "]" :: post). rewrite app_assoc.
    replace (S (length pre + 0)) with (length (pre ++ [ch "["])) by (rewrite app_length; cbn; lia). rewrite in_tag_loop; [|exact N1|exact N2|rewrite app_length; cbn [length] in *; lia|cbn [length] in *; lia].
    f_equal. rewrite app_length. cbn [length]. lia. }
  destruct (zlist_eqb (c :: d :: u) (wstr "De")) eqn:DE.
  - apply zlist_eqb_eq in DE. replace (c =? ch "L") with false by (replace c with (ch "D") by (change (wstr "De") with [ch "D"; ch "e"] in DE; congruence); reflexivity).
    exists f, ign, (negb ign). split; [cbn [length] in *; lia|]. split; [auto|]. rewrite orb_false_r. cbn [bind]. f_equal. rewrite DE. cbn. lia.
  - destruct (c =? ch "L") eqn:CL.
    + replace (len <=? length pre + 3)%nat with false by (symmetry; apply Nat.leb_gt; cbn [length] in *; lia).
      assert (NL : exists nl, starts (pre ++ ch "[" :: (c :: d :: u) ++ ch "]" :: post) (length pre + 2) "nl" = Ok nl /\ forall k, In k class_names -> c :: d :: u = ch "L" :: wstr k -> negb (d =? ch "l") && negb nl = negb (adjective k)).
      { change 2%nat with (S 1). rewrite starts_body; [|cbn; lia|vm_compute; intuition discriminate]. eexists. split; [reflexivity|]. intros k I Q. injection Q as _ Q. unfold class_names in I. cbn [In] in I.
        repeat (destruct I as [<-|I]; [vm_compute in Q; first [injection Q as -> ->|injection Q as ->]; reflexivity|]). destruct I. }
      destruct NL as (nl & -> & NL). cbn [bind]. rewrite REST. do 3 eexists. split; [|split; [|rewrite orb_true_r; reflexivity]]; [cbn [length] in *; lia|]. split; [reflexivity|]. intros k I Q. cbn [orb]. now apply NL.
    + cbn [bind]. rewrite REST. do 3 eexists. split; [|split; [|rewrite orb_false_r; reflexivity]]; [cbn [length] in *; lia|auto].
Qed.

(** ** The hyphen *)

Lemma copy_plain : forall n b i s, (latestXpStartInFst s < i)%nat -> copy_xp n b i true s = copy_xp n b i false s.
Proof.
  induction n as [|n IH]; intros b i s L; [reflexivity|]. cbn [copy_xp]. destruct (rd b i) as [c| |]; cbn [bind]; try reflexivity. destruct (c =? ch "["); [reflexivity|].
  replace (Nat.eqb i (latestXpStartInFst s)) with false by (symmetry; apply Nat.eqb_neq; lia). cbn [andb].
  destruct (c =? ch "="); cbn [bind]; [apply IH; lia|]. unfold b_put. destruct (wr (baseform s) (baseformPos s) c); cbn [bind]; try reflexivity. apply IH. cbn. lia.
Qed.

Lemma copy_frame : forall n b i title s s', copy_xp n b i title s = Ok s' ->
  length (baseform s') = length (baseform s) /\ latestXpStartInFst s' = latestXpStartInFst s /\ latestXpStartInBaseform s' = latestXpStartInBaseform s /\ hyphensInLatestXp s' = hyphensInLatestXp s /\ bstructurePos s' = bstructurePos s /\
  isInXp s' = isInXp s /\ isInXr s' = isInXr s /\ isInTag s' = isInTag s /\ ignoreNextDe s' = ignoreNextDe s /\ isDe s' = isDe s /\ classTagSeen s' = classTagSeen s.
Proof.
  induction n as [|n IH]; intros b i title s s' E; cbn [copy_xp] in E; [injection E as <-; repeat split|]. destruct (rd b i) as [c| |]; cbn [bind] in E; try discriminate E.
  destruct (c =? ch "["); [injection E as <-; repeat split|]. destruct (c =? ch "="); cbn [bind] in E; [now apply IH in E|]. unfold b_put in E.
  match type of E with context [wr ?a ?b ?c] => destruct (wr a b c) as [buf| |] eqn:W; cbn [bind] in E; try discriminate E end.
  apply IH in E. cbn in E. assert (LB : length buf = length (baseform s)).
  { apply wr_ok in W. destruct W as [_ W]. subst buf. apply upd_length. }
  rewrite LB in E. exact E.
Qed.

Lemma copy_titled : forall t n p1 p2 s w junk, ~ In (ch "[") t -> (length t < n)%nat -> baseform s = w ++ junk -> baseformPos s = length w -> (length t < length junk)%nat -> latestXpStartInFst s = length p1 ->
  exists s' junk', copy_xp n (p1 ++ t ++ ch "[" :: p2) (length p1) true s = Ok s' /\ baseform s' = (w ++ titled t) ++ junk' /\ baseformPos s' = length (w ++ titled t) /\ junk' <> [].
Proof.
  intros [|c t] n p1 p2 s w junk N L B P J X; (destruct n as [|n]; [lia|]); cbn [copy_xp app length] in *; rewrite rd_app0; cbn [bind].
  - rewrite Z.eqb_refl. exists s, junk. cbn [titled]. rewrite app_nil_r. repeat split; try assumption. intros ->. cbn in J. lia.
  - rewrite eqb_neq by (intros ->; apply N; now left). change (p1 ++ c :: t ++ ch "[" :: p2) with (p1 ++ [c] ++ t ++ ch "[" :: p2). rewrite app_assoc.
    rewrite X, Nat.eqb_refl. cbn [andb titled]. destruct (c =? ch "=") eqn:E; cbn [bind].
    + rewrite copy_plain by lia. replace (S (length p1)) with (length (p1 ++ [c])) by (rewrite app_length; cbn; lia). apply (copy_content t n _ p2 s w junk); [intros I; apply N; now right|lia|exact B|exact P|lia].
    + unfold b_put. destruct junk as [|j junk]; [cbn in J; lia|]. rewrite B, P, wr_end. cbn [bind]. rewrite copy_plain by (cbn; lia). replace (S (length p1)) with (length (p1 ++ [c])) by (rewrite app_length; cbn; lia).
      destruct (copy_content t n (p1 ++ [c]) p2 (mk_base (w ++ upper c :: junk) (S (length w)) (latestXpStartInFst s) (latestXpStartInBaseform s) (hyphensInLatestXp s) (bstructurePos s)
        (isInXp s) (isInXr s) (isInTag s) (ignoreNextDe s) (isDe s) (classTagSeen s)) (w ++ [upper c]) junk) as (s' & junk' & E1 & E2 & E3 & E4);
        [intros I; apply N; now right|lia|sfields; now rewrite <- app_assoc|sfields; rewrite app_length; cbn; lia|cbn [length] in J; lia|].
      exists s', junk'. replace (w ++ upper c :: symbols t) with ((w ++ [upper c]) ++ symbols t) by (rewrite <- app_assoc; reflexivity). auto.
Qed.

Lemma place_yes : forall n o j k, starts (o ++ [0]) k "[Lep]" = Ok true -> (k + 4 < length o)%nat -> (j <= k)%nat -> (length o <= n + j)%nat -> place_name_follows n (o ++ [0]) (length o) j = Ok true.
Proof.
  induction n as [|n IH]; intros o j k S K J L; cbn [place_name_follows]; (replace (j + 4 <? length o)%nat with true by (symmetry; apply Nat.ltb_lt; lia)); [lia|].
  destruct (starts_ok o j "[Lep]") as [y Y]; [lia|nonul|]. rewrite Y. cbn [bind]. destruct y; [reflexivity|]. apply (IH o (Datatypes.S j) k); try assumption; [|lia].
  destruct (Nat.eq_dec j k) as [->|D]; [congruence|lia].
Qed.

Lemma render_app : forall a b, render (a ++ b) = render a ++ render b.
Proof. induction a as [|x a IH]; intros b; [reflexivity|]. cbn [app]. now rewrite !render_cons, IH, app_assoc. Qed.
Lemma place_in : forall l, place l = true <-> In (Class "ep") l.
Proof.
  intros l. unfold place. rewrite existsb_exists. split.
  - intros (x & I & X). destruct x; try discriminate X. apply String.eqb_eq in X. now subst.
  - intros I. exists (Class "ep"). split; [exact I|reflexivity].
Qed.

Lemma place_spec : forall l pre c, Forall good_item l -> c <> ch "[" ->
  place_name_follows (length (pre ++ c :: render l)) ((pre ++ c :: render l) ++ [0]) (length (pre ++ c :: render l)) (length pre) = Ok (place l).
Proof.
  intros l pre c G C. destruct (place l) eqn:P.
  - apply place_in in P. apply in_split in P. destruct P as (a & b & ->). apply (place_yes _ _ _ (length (pre ++ c :: render a))).
    + unfold starts. rewrite render_app, render_cons. change (c :: render a ++ render_item (Class "ep") ++ render b) with ((c :: render a) ++ render_item (Class "ep") ++ render b). rewrite (app_assoc pre), <- app_assoc.
      rewrite skipn_app, skipn_all, Nat.sub_diag. reflexivity.
    + rewrite render_app, render_cons. change (c :: render a ++ render_item (Class "ep") ++ render b) with ((c :: render a) ++ render_item (Class "ep") ++ render b). rewrite (app_assoc pre), (app_length (pre ++ c :: render a)).
      change (length (render_item (Class "ep") ++ render b)) with (5 + length (render b))%nat. lia.
    + rewrite app_length. lia.
    + lia.
  - assert (NP : ~ In (Class "ep") l) by (intros I; apply place_in in I; congruence). apply no_place; [|lia]. intros k K1 K2. unfold starts. rewrite <- app_assoc. replace k with (length pre + (k - length pre))%nat by lia. rewrite skipn_app_more.
    rewrite app_length in K2. change (c :: render l) with ([c] ++ render l) in *. apply (safe_app [c] (render l)); [apply safe_text; intros [I|[]]; congruence|now apply safe_items|lia].
Qed.

Lemma after_is : forall pre rest, (2 <= length pre)%nat -> starts (pre ++ rest) (length pre - 2) "is" = Ok (ends_is pre).
Proof.
  intros pre rest L. unfold starts, ends_is. rewrite skipn_app. replace (length pre - 2 - length pre)%nat with 0%nat by lia. cbn [skipn].
  assert (Q : length (skipn (length pre - 2) pre) = 2%nat) by (rewrite skipn_length; lia). destruct (skipn (length pre - 2) pre) as [|x [|y [|z u]]]; try discriminate Q. change (wstr "is") with [ch "i"; ch "s"].
  cbn [app prefix_eq zlist_eqb]. rewrite (Z.eqb_sym x), (Z.eqb_sym y). destruct (ch "i" =? x); [|reflexivity]. cbn [andb]. now destruct (ch "s" =? y).
Qed.

Definition hyphen_text (c : Z) (pre w : list Z) (l : list item) (xp : option (nat * list Z)) (hx : nat) (de : bool) : list Z :=
  if (c =? ch "-") && Nat.eqb hx 0 then match xp with Some (n, t) => if de && negb (ends_is pre) && place l then firstn n w ++ titled t else w | None => w end else w.

Lemma titled_length : forall t, (length (titled t) <= length t)%nat.
Proof.
  assert (S : forall t, (length (symbols t) <= length t)%nat) by (induction t as [|c t IH]; [cbn; lia|]; unfold symbols in *; cbn [filter]; destruct (negb _); cbn [length]; lia).
  intros [|c t]; [cbn; lia|]. cbn [titled length]. specialize (S t). destruct (c =? ch "="); cbn [length]; lia.
Qed.
Lemma titled_nonzero : forall t, ~ In 0 t -> ~ In 0 (titled t).
Proof.
  intros [|c t] N; [exact N|]. cbn [titled]. assert (S : ~ In 0 (symbols t)) by (intros I; apply filter_In in I; apply N; right; apply I).
  destruct (c =? ch "="); [exact S|]. intros [I|I]; [|now apply S]. apply (upper_nonzero c); [intros ->; apply N; now left|exact I].
Qed.

Lemma base_char_place : forall c pre l o st w j junk xf xb hx sp sy ign de cls xp,
  o = pre ++ c :: render l -> c <> 0 -> Forall good_item l -> length (w ++ j :: junk) = (length o + 1)%nat -> (length w <= length pre)%nat -> ~ In 0 w ->
  symbols (skipn sp st) = sy -> xp_state pre w xp xf xb -> c <> ch "[" ->
  exists junk' xf' sp', base_char (o ++ [0]) st (length o) (length pre) c (mk_base (w ++ j :: junk) (length w) xf xb hx sp false false false ign de cls) =
    Ok (mk_base ((hyphen_text c pre w l xp hx de ++ [cap sy c]) ++ junk') (length (hyphen_text c pre w l xp hx de ++ [cap sy c])) xf' xb (if c =? ch "-" then pred hx else hx) sp' false false false ign (if c =? ch "-" then false else de) cls) /\
    symbols (skipn sp' st) = tl sy /\ length ((hyphen_text c pre w l xp hx de ++ [cap sy c]) ++ junk') = length (w ++ j :: junk) /\
    (length (hyphen_text c pre w l xp hx de) <= length pre)%nat /\ ~ In 0 (hyphen_text c pre w l xp hx de) /\
    xp_state pre (hyphen_text c pre w l xp hx de) (if c =? ch "-" then match hx with O => None | S _ => xp end else xp) xf' xb.
Proof.
  intros c pre l o st w j junk xf xb hx sp sy ign de cls xp E NZ G LB LW N0 SY XP NB. unfold base_char.
  assert (H : exists xf' j' junk', (if c =? ch "-" then base_hyphen (o ++ [0]) (length o) (length pre) (mk_base (w ++ j :: junk) (length w) xf xb hx sp false false false ign de cls)
      else Ok (mk_base (w ++ j :: junk) (length w) xf xb hx sp false false false ign de cls)) =
    Ok (mk_base (hyphen_text c pre w l xp hx de ++ j' :: junk') (length (hyphen_text c pre w l xp hx de)) xf' xb (if c =? ch "-" then pred hx else hx) sp false false false ign (if c =? ch "-" then false else de) cls) /\
    length (hyphen_text c pre w l xp hx de ++ j' :: junk') = length (w ++ j :: junk) /\
    (length (hyphen_text c pre w l xp hx de) <= length pre)%nat /\ ~ In 0 (hyphen_text c pre w l xp hx de) /\
    xp_state pre (hyphen_text c pre w l xp hx de) (if c =? ch "-" then match hx with O => None | S _ => xp end else xp) xf' xb).
  { unfold hyphen_text. destruct (c =? ch "-") eqn:C; [|exists xf, j, junk; cbn [andb]; auto 8]. cbn [andb]. apply Z.eqb_eq in C. unfold base_hyphen. sfields. destruct hx as [|hx].
    - change (0 <? 0)%nat with false. change (Nat.eqb 0 0) with true. cbv iota. cbn [pred].
      assert (KEEP : exists xf' j' junk', Ok (mk_base (w ++ j :: junk) (length w) 0 xb 0 sp false false false ign false cls) = Ok (mk_base (w ++ j' :: junk') (length w) xf' xb 0 sp false false false ign false cls) /\
        length (w ++ j' :: junk') = length (w ++ j :: junk) /\ (length w <= length pre)%nat /\ ~ In 0 w /\ xp_state pre w None xf' xb) by (exists 0%nat, j, junk; split; [reflexivity|]; split; [reflexivity|]; split; [exact LW|]; split; [exact N0|reflexivity]).
      destruct xp as [[n t]|]; [|cbn [xp_state] in XP; subst xf; change (Nat.eqb 0 0) with true; cbn [negb]; rewrite andb_false_r; cbn [bind]; sfields; exact KEEP].
      pose proof XP as (X0 & X1 & X2 & X3 & p1 & p2 & X4 & X5 & X6 & X7). replace (Nat.eqb xf 0) with false by (symmetry; apply Nat.eqb_neq; lia). cbn [negb]. rewrite andb_true_r. destruct de; cbn [andb]; [|cbn [bind]; sfields; exact KEEP].
      assert (LP : length pre = (length p1 + (length t + S (length p2)))%nat) by (rewrite X4, !app_length; reflexivity).
      replace (length pre <? 2)%nat with false by (symmetry; apply Nat.ltb_ge; lia).
      assert (AI : starts (o ++ [0]) (length pre - 2) "is" = Ok (ends_is pre)) by (rewrite E, <- app_assoc; apply after_is; lia). rewrite AI. cbn [bind].
      destruct (ends_is pre); cbn [negb andb]; [cbn [bind]; sfields; exact KEEP|].
      assert (PL : place_name_follows (length o) (o ++ [0]) (length o) (length pre) = Ok (place l)) by (rewrite E; now apply place_spec). rewrite PL. cbn [bind]. destruct (place l); [|cbn [bind]; sfields; exact KEEP].
      subst n. assert (WS : w ++ j :: junk = firstn xb w ++ (skipn xb w ++ j :: junk)) by (rewrite app_assoc, firstn_skipn; reflexivity).
      assert (LF : length (firstn xb w) = xb) by (rewrite firstn_length; lia).
      assert (LO : length o = (length pre + S (length (render l)))%nat) by (rewrite E, app_length; reflexivity).
      assert (BO : o ++ [0] = p1 ++ t ++ ch "[" :: (p2 ++ c :: render l ++ [0])) by (rewrite E, X4, <- !app_assoc; cbn [app]; rewrite <- ?app_assoc; reflexivity).
      rewrite BO. rewrite <- X5.
      destruct (copy_titled t (length o - length p1) p1 (p2 ++ c :: render l ++ [0]) (b_rewind (mk_base (w ++ j :: junk) (length w) (length p1) xb 0 sp false false false ign true cls)) (firstn xb w) (skipn xb w ++ j :: junk)) as (s' & junk' & C1 & C2 & C3 & C4).
      + exact X3.
      + lia.
      + unfold b_rewind. sfields. exact WS.
      + unfold b_rewind. sfields. now rewrite LF.
      + rewrite app_length in LB |- *. rewrite skipn_length. cbn [length] in *. lia.
      + unfold b_rewind. now sfields.
      + rewrite C1. cbn [bind]. destruct (copy_frame _ _ _ _ _ _ C1) as (F0 & F1 & F2 & F3 & F4 & F5 & F6 & F7 & F8 & F9 & F10). unfold b_rewind in *. sfields. rewrite C2, C3, F2, F3, F4, F5, F6, F7, F8, F10.
        destruct junk' as [|j' junk']; [congruence|]. exists 0%nat, j', junk'. split; [reflexivity|]. rewrite C2 in F0. split; [exact F0|]. split; [|split; [|reflexivity]].
        * rewrite app_length, LF. pose proof (titled_length t) as TL. clear - LP X5 X7 TL. lia.
        * intros I. apply in_app_or in I. destruct I as [I|I]; [apply N0; rewrite <- (firstn_skipn xb w); apply in_or_app; now left|]. now apply (titled_nonzero t X2).
    - change (0 <? S hx)%nat with true. change (Nat.eqb (S hx) 0) with false. cbn [bind]. sfields. exists xf, j, junk. replace (S hx - 1)%nat with hx by lia. auto 6. }
  destruct H as (xf' & j' & junk' & -> & H1 & H2 & H3 & H4). cbn [bind]. sfields. destruct (pattern_char_at st sp sy SY) as (sp' & title & -> & S1 & S2). unfold b_put. sfields. rewrite S2, wr_end. cbn [bind].
  exists junk', xf', sp'. split; [do 2 f_equal; [now rewrite <- app_assoc|rewrite app_length; cbn; lia]|]. split; [exact S1|]. split; [|auto]. rewrite <- H1, !app_length. cbn [length]. lia.
Qed.

(** ** The machine *)

Lemma base_runp : forall l pre f st w junk sp sy xp xf xb hx ign de cls,
  Forall good_item l -> (forall k t, In (Remark k t) l -> In k (wstr "pjs")) ->
  (forall a b, l = a ++ Class "u" :: b -> (3 <= length (render b))%nat) ->
  ~ In 0 w -> (length w <= length pre)%nat -> (length (w ++ junk) = length pre + length (render l) + 1)%nat -> symbols (skipn sp st) = sy ->
  xp_state pre w xp xf xb -> (length (render l) <= f)%nat ->
  bind (base_loop f ((pre ++ render l) ++ [0]) (pre ++ render l) st (length (pre ++ render l)) (length pre) (mk_base (w ++ junk) (length w) xf xb hx sp false false false ign de cls))
    (fin_form (pre ++ render l)) = Ok (runp l pre w sy xp hx cls ign de).
Proof.
  induction l as [|x r IH]; intros pre f st w junk sp sy xp xf xb hx ign de cls G RK LU NZ LW LB SY XP LF.
  - change (render []) with (@nil Z) in *. rewrite app_nil_r in *. cbn [length] in *. rewrite Nat.add_0_r in LB. rewrite app_length in LB.
    replace (base_loop f (pre ++ [0]) pre st (length pre) (length pre) (mk_base (w ++ junk) (length w) xf xb hx sp false false false ign de cls))
      with (@Ok (list Z + option base_state) (inr (Some (mk_base (w ++ junk) (length w) xf xb hx sp false false false ign de cls)))) by (destruct f; cbn [base_loop]; now rewrite Nat.ltb_irrefl).
    cbn [bind runp]. destruct xp as [[n t]|].
    + destruct XP as (-> & X1 & X2 & X3 & p1 & p2 & X4 & X5 & X6 & X7). subst xf. assert (LP : length pre = (length p1 + (length t + S (length p2)))%nat) by (rewrite X4, !app_length; reflexivity).
      rewrite X4. apply fin_some; try assumption; [destruct p1; [cbn in X6; lia|discriminate]|rewrite app_length; lia].
    + cbn [xp_state] in XP. subst xf. apply fin_none; [exact NZ|]. intros ->. cbn in LB. lia.
  - pose proof (Forall_inv G) as GX. pose proof (Forall_inv_tail G) as GR. pose proof (render_item_length x) as RL. rewrite render_cons in *. rewrite (app_length (render_item x)) in LB, LF.
    assert (RKR : forall k t, In (Remark k t) r -> In k (wstr "pjs")) by (intros k t I; apply (RK k t); now right).
    assert (LUR : forall a b, r = a ++ Class "u" :: b -> (3 <= length (render b))%nat) by (intros a b ->; exact (LU (x :: a) b eq_refl)).
    (* the rest, after the item has been read *)
    assert (REST : forall f' w' junk' sp' sy' xp' xf' xb' hx' ign' de' cls', (length (render r) <= f')%nat ->
      ~ In 0 w' -> (length w' <= length pre + length (render_item x))%nat -> length (w' ++ junk') = length (w ++ junk) -> symbols (skipn sp' st) = sy' -> xp_state (pre ++ render_item x) w' xp' xf' xb' ->
      bind (base_loop f' ((pre ++ render_item x ++ render r) ++ [0]) (pre ++ render_item x ++ render r) st (length (pre ++ render_item x ++ render r)) (length pre + length (render_item x))
        (mk_base (w' ++ junk') (length w') xf' xb' hx' sp' false false false ign' de' cls')) (fin_form (pre ++ render_item x ++ render r)) = Ok (runp r (pre ++ render_item x) w' sy' xp' hx' cls' ign' de')).
    { intros f' w' junk' sp' sy' xp' xf' xb' hx' ign' de' cls' H1 H4 H5 H6 H7 H8. rewrite (app_assoc pre). rewrite <- app_length.
      apply IH; [exact GR|exact RKR|exact LUR|exact H4|rewrite app_length; exact H5|rewrite H6, (app_length pre); lia|exact H7|exact H8|exact H1]. }
    assert (CHAR : forall c, render_item x = [c] -> c <> 0 -> c <> ch "[" ->
      bind (base_loop f ((pre ++ render_item x ++ render r) ++ [0]) (pre ++ render_item x ++ render r) st (length (pre ++ render_item x ++ render r)) (length pre)
        (mk_base (w ++ junk) (length w) xf xb hx sp false false false ign de cls)) (fin_form (pre ++ render_item x ++ render r)) =
      Ok (runp r (pre ++ render_item x) (hyphen_text c pre w r xp hx de ++ [cap sy c]) (tl sy) (if c =? ch "-" then match hx with O => None | S _ => xp end else xp) (if c =? ch "-" then pred hx else hx) cls ign (if c =? ch "-" then false else de))).
    { intros c RX C0 CB. rewrite RX in *. cbn [length app] in *. destruct f as [|f]; [lia|]. rewrite base_loop_step by (rewrite app_length; cbn; lia).
      rewrite (rd_end pre c (render r ++ [0])) by (rewrite <- app_assoc; reflexivity). cbn [bind]. rewrite (eqb_neq _ _ CB). sfields.
      destruct junk as [|j junk]; [rewrite app_nil_r in LB; lia|].
      destruct (base_char_place c pre r (pre ++ c :: render r) st w j junk xf xb hx sp sy ign de cls xp eq_refl C0 GR) as (junk' & xf' & sp' & -> & B1 & B2 & B3 & B4 & B5); [rewrite LB, app_length; cbn [length]; lia|exact LW|exact NZ|exact SY|exact XP|exact CB|].
      cbn [bind]. replace (S (length pre)) with (length pre + 1)%nat by lia. apply REST; [lia| |rewrite app_length; cbn [length]; lia|exact B2|exact B1|].
      - intros I. apply in_app_or in I. destruct I as [I|[I|[]]]; [now apply B4|]. revert I. now apply cap_nonzero.
      - apply xp_state_more. exact B5. }
    assert (TAG : forall body, render_item x = ch "[" :: body ++ [ch "]"] -> ~ In (ch "[") body -> ~ In (ch "]") body -> (2 <= length body)%nat -> hd 0 body <> ch "X" ->
      (body = wstr "Lu" -> cls = true) -> (hd 0 body = ch "L" -> exists k, In k class_names /\ body = ch "L" :: wstr k) ->
      exists ign' de', (if hd 0 body =? ch "L" then de' = false /\ forall k, In k class_names -> body = ch "L" :: wstr k -> ign' = negb (adjective k) else ign' = ign /\ de' = if zlist_eqb body (wstr "De") then negb ign else de) /\
      bind (base_loop f ((pre ++ render_item x ++ render r) ++ [0]) (pre ++ render_item x ++ render r) st (length (pre ++ render_item x ++ render r)) (length pre)
        (mk_base (w ++ junk) (length w) xf xb hx sp false false false ign de cls)) (fin_form (pre ++ render_item x ++ render r)) = Ok (runp r (pre ++ render_item x) w sy xp hx (cls || (hd 0 body =? ch "L")) ign' de')).
    { intros body RX N1 N2 L2 NX BU BD. rewrite RX in RL, LF. cbn [length] in RL, LF. rewrite app_length in LF. cbn [length] in LF.
      assert (LX : length (render_item x) = (length body + 2)%nat) by (rewrite RX; cbn [length]; rewrite app_length; cbn; lia).
      destruct (other_tag2 pre body (render r ++ [0]) f (pre ++ render_item x ++ render r) st (w ++ junk) (length w) xf xb hx sp ign de cls (length (pre ++ render_item x ++ render r)))
        as (f' & ign' & de' & F1 & F2 & F4).
      - rewrite RX, <- !app_assoc. cbn [app]. rewrite <- !app_assoc. reflexivity.
      - exact N1.
      - exact N2.
      - exact L2.
      - exact NX.
      - exact BU.
      - rewrite !app_length. lia.
      - reflexivity.
      - lia.
      - exact BD.
      - exists ign', de'. split; [exact F2|]. rewrite F4. rewrite <- LX. apply REST; [lia|exact NZ|lia|reflexivity|exact SY|].
        rewrite <- (app_nil_r w). now apply xp_state_more. }
    assert (REM : forall k t, render_item x = wstr "[X" ++ k :: wstr "]" ++ t ++ wstr "[X]" -> ~ In (ch "[") t -> ~ In 0 t -> In k (wstr "pjsr") ->
      bind (base_loop f ((pre ++ render_item x ++ render r) ++ [0]) (pre ++ render_item x ++ render r) st (length (pre ++ render_item x ++ render r)) (length pre)
        (mk_base (w ++ junk) (length w) xf xb hx sp false false false ign de cls)) (fin_form (pre ++ render_item x ++ render r)) =
      Ok (if (k =? ch "p") || (k =? ch "j") then runp r (pre ++ render_item x) w sy (Some (length w, t)) (hyphens t) cls ign de else runp r (pre ++ render_item x) w sy xp hx cls ign de)).
    { intros k t RX N1 N2 K. assert (LX : length (render_item x) = (length t + 7)%nat) by (rewrite RX, app_length; cbn [length]; rewrite !app_length; cbn; lia).
      destruct (x_remark pre k t (render r ++ [0]) f (pre ++ render_item x ++ render r) st (w ++ junk) (length w) xf xb hx sp ign de cls (length (pre ++ render_item x ++ render r)) N1 K) as (f' & F1 & F2).
      - rewrite !app_length. lia.
      - lia.
      - rewrite <- RX in F2. replace (pre ++ render_item x ++ render r ++ [0]) with ((pre ++ render_item x ++ render r) ++ [0]) in F2 by (rewrite <- !app_assoc; reflexivity). rewrite F2, <- LX.
        destruct ((k =? ch "p") || (k =? ch "j")).
        + apply REST; [lia|exact NZ|lia|reflexivity|exact SY|]. cbn [xp_state]. split; [reflexivity|]. split; [lia|]. split; [exact N2|]. split; [exact N1|].
          exists (pre ++ wstr "[X" ++ k :: wstr "]"), (wstr "X]"). split; [rewrite RX, <- !app_assoc; cbn [app]; rewrite <- ?app_assoc; reflexivity|]. rewrite app_length. cbn. lia.
        + apply REST; [lia|exact NZ|lia|reflexivity|exact SY|]. rewrite <- (app_nil_r w). now apply xp_state_more. }
    destruct x as [c| | |k|k|p|k t|t]; cbn [runp]; cbv zeta; cbn [good_item] in GX.
    + assert (C1 : c <> 0) by (intros ->; apply GX; now left). assert (C2 : c <> ch "[") by (intros ->; apply GX; vm_compute; tauto). assert (C3 : c <> ch "-") by (intros ->; apply GX; vm_compute; tauto).
      specialize (CHAR c eq_refl C1 C2). unfold hyphen_text in CHAR. rewrite (eqb_neq _ _ C3) in CHAR. exact CHAR.
    + rewrite (CHAR (ch "-") eq_refl ltac:(discriminate) ltac:(discriminate)). f_equal. rewrite Z.eqb_refl. unfold hyphen_text. rewrite Z.eqb_refl. cbn [andb]. destruct hx; reflexivity.
    + exact (CHAR (ch ":") eq_refl ltac:(discriminate) ltac:(discriminate)).
    + destruct (TAG [ch "B"; k]) as (ign' & de' & H1 & H2); [reflexivity| | |cbn; lia|discriminate|discriminate|discriminate|].
      * intros [I|[I|[]]]; [discriminate I|]. subst k. apply GX. vm_compute. tauto.
      * intros [I|[I|[]]]; [discriminate I|]. subst k. apply GX. vm_compute. tauto.
      * rewrite H2. change (hd 0 [ch "B"; k]) with (ch "B") in *. change (ch "B" =? ch "L") with false in *. destruct H1 as [-> ->]. now rewrite orb_false_r.
    + assert (OTHER : (ch "L" :: wstr k = wstr "Lu" -> cls = true) ->
        bind (base_loop f ((pre ++ render_item (Class k) ++ render r) ++ [0]) (pre ++ render_item (Class k) ++ render r) st (length (pre ++ render_item (Class k) ++ render r)) (length pre)
          (mk_base (w ++ junk) (length w) xf xb hx sp false false false ign de cls)) (fin_form (pre ++ render_item (Class k) ++ render r)) = Ok (runp r (pre ++ render_item (Class k)) w sy xp hx true (negb (adjective k)) false)).
      { intros CU. destruct (TAG (ch "L" :: wstr k)) as (ign' & de' & H1 & H2).
        * reflexivity.
        * unfold class_names in GX. cbn [In] in GX. intros I. repeat (destruct GX as [<-|GX]; [vm_compute in I; intuition discriminate|]). destruct GX.
        * unfold class_names in GX. cbn [In] in GX. intros I. repeat (destruct GX as [<-|GX]; [vm_compute in I; intuition discriminate|]). destruct GX.
        * unfold class_names in GX. cbn [In] in GX. repeat (destruct GX as [<-|GX]; [cbn; lia|]). destruct GX.
        * discriminate.
        * exact CU.
        * intros _. exists k. auto.
        * rewrite H2. cbn [hd] in H1 |- *. change (ch "L" =? ch "L") with true in *. cbv iota in H1. destruct H1 as [-> H1]. rewrite (H1 k GX eq_refl). now rewrite orb_true_r. }
      clear TAG. destruct cls; [cbn [negb andb]; now apply OTHER|]. destruct (String.eqb k "u") eqn:KU; cbn [negb andb].
      * clear OTHER. apply String.eqb_eq in KU. subst k. specialize (LU [] r eq_refl). replace (3 <=? length (render r))%nat with true by (symmetry; now apply Nat.leb_le).
        cbn [render_item] in *. change (wstr "[L" ++ wstr "u" ++ wstr "]") with (wstr "[Lu]") in *.
        assert (LX : length (wstr "[Lu]") = 4%nat) by reflexivity.
        destruct f as [|f]; [lia|]. rewrite base_loop_step by (rewrite !app_length; lia).
        set (b := (pre ++ wstr "[Lu]" ++ render r) ++ [0]). assert (EB : b = pre ++ ch "[" :: wstr "Lu" ++ ch "]" :: (render r ++ [0])) by (unfold b; rewrite <- app_assoc; reflexivity).
        assert (RB : rd b (length pre) = Ok (ch "[")) by (rewrite EB; apply rd_app0). rewrite RB. cbn [bind]. rewrite Z.eqb_refl. unfold base_tag.
        replace (length (pre ++ wstr "[Lu]" ++ render r) <=? length pre + 2)%nat with false by (symmetry; apply Nat.leb_gt; rewrite !app_length; lia).
        assert (R1 : rd b (length pre + 1) = Ok (ch "L")) by (rewrite EB; now apply rd_app). assert (R2 : rd b (length pre + 2) = Ok (ch "u")) by (rewrite EB; now apply rd_app). rewrite R1, R2. cbn [bind].
        change (ch "L" =? ch "X") with false. cbv iota.
        assert (SL : starts b (length pre + 1) "Lu]" = Ok true) by (rewrite EB; rewrite (starts_whole pre (wstr "Lu") (render r ++ [0]) "Lu]" (wstr "Lu")) by solve [vm_compute; intuition discriminate|reflexivity]; reflexivity).
        rewrite SL. cbn [bind negb andb]. replace (length pre + 6 <? length (pre ++ wstr "[Lu]" ++ render r))%nat with true by (symmetry; apply Nat.ltb_lt; rewrite !app_length; lia). cbn [andb].
        replace (skipn (length pre + 4) (pre ++ wstr "[Lu]" ++ render r)) with (render r) by (rewrite skipn_app_more; reflexivity).
        unfold parseNumeralBaseform.
        destruct (numeral_start r w junk (length (render r)) GR NZ (le_n _)) as (ok & v & junk' & dig' & pas' & N1 & N2 & (more & N3) & N4 & N5 & N6); [rewrite app_length in LB; lia|].
        rewrite N1. cbn [bind]. rewrite N6. destruct ok.
        -- nfields. destruct junk' as [|j junk']; [congruence|]. rewrite wr_end. cbn [bind]. unfold fin_form. do 2 f_equal. now apply cstr_end.
        -- nfields. cbn [bind]. subst v. rewrite <- app_assoc in N2. rewrite <- (app_assoc w more junk'). replace (S (length pre + 3)) with (length pre + length (wstr "[Lu]"))%nat by lia.
           apply REST; [lia|exact NZ|lia|exact N2|exact SY|]. rewrite <- (app_nil_r w). now apply xp_state_more.
      * apply OTHER. intros E. exfalso. unfold class_names in GX. cbn [In] in GX. repeat (destruct GX as [<-|GX]; [vm_compute in E, KU; solve [discriminate E|discriminate KU]|]). destruct GX.
    + specialize (REM (ch "r") p eq_refl). change ((ch "r" =? ch "p") || (ch "r" =? ch "j")) with false in REM. apply REM; [| |vm_compute; tauto].
      * intros I. destruct GX as (GX & _). specialize (GX _ I). vm_compute in GX. intuition discriminate.
      * intros I. destruct GX as (GX & _). specialize (GX _ I). vm_compute in GX. intuition discriminate.
    + apply (REM k t eq_refl); [tauto|tauto|]. specialize (RK k t (or_introl eq_refl)). change (wstr "pjsr") with (wstr "pjs" ++ wstr "r"). apply in_or_app. now left.
    + destruct GX as (_ & G2 & G3 & G4 & G5 & G6 & _). destruct (TAG t) as (ign' & de' & H1 & H2); [reflexivity|exact G2|exact G3|exact G4|exact G5| |now intros H|].
      * intros ->. now elim G6.
      * rewrite H2. rewrite (eqb_neq _ _ G6) in *. destruct H1 as [-> ->]. now rewrite orb_false_r.
Qed.

Lemma parse_runp : forall l st, base_items l -> parseBaseform (render l) st = Ok (runp l [] [] (symbols st) None 0 false false false).
Proof.
  intros l st (G & R & RK). assert (LU : forall a b, l = a ++ Class "u" :: b -> (3 <= length (render b))%nat).
  { intros a b E. apply (R a (Class "u") b E); [apply in_or_app; right; now left|]. right. exists "u"%string. split; [reflexivity|]. now left. }
  pose proof (base_runp l [] (length (render l)) st [] (repeat 0 (length (render l) + 1)) 0 (symbols st) None 0 0 0 false false false G RK LU) as H.
  cbn [app] in H. unfold parseBaseform. rewrite <- H; [reflexivity|intros []|cbn; lia|rewrite repeat_length; cbn; lia|reflexivity|reflexivity|lia].
Qed.
