(** * The content of base forms *)
From Verif Require Import Base BaseFacts CharModel AnalysisModel HyphModel FinModel FinSpec FinStructure FinTotal FinBaseform FinWordSpec FinHyphens.
From Coq Require Import Lia.

(** ** The loop, step by step *)

Lemma base_loop_step : forall f b o st len i s, (i < len)%nat -> base_loop (S f) b o st len i s =
  (c <- rd b i ;;
   if c =? ch "[" then
     r <- base_tag b o len i s ;;
     match r with
     | inl buf => Ok (inl buf)
     | inr None => Ok (inr None)
     | inr (Some (k, s)) => base_loop f b o st len (S (i + k)) s
     end
   else if isInXr s then base_loop f b o st len (S i) s
   else if isInTag s then
     base_loop f b o st len (S i)
       (if c =? ch "]" then
          mk_base (baseform s) (baseformPos s) (latestXpStartInFst s) (latestXpStartInBaseform s) (hyphensInLatestXp s)
            (bstructurePos s) (isInXp s) (isInXr s) false (ignoreNextDe s) (isDe s) (classTagSeen s)
        else s)
   else if isInXp s then
     base_loop f b o st len (S i)
       (if c =? ch "-" then
          mk_base (baseform s) (baseformPos s) (latestXpStartInFst s) (latestXpStartInBaseform s) (S (hyphensInLatestXp s))
            (bstructurePos s) (isInXp s) (isInXr s) (isInTag s) (ignoreNextDe s) (isDe s) (classTagSeen s)
        else s)
   else
     s <- base_char b st len i c s ;;
     base_loop f b o st len (S i) s).
Proof. intros f b o st len i s H. cbn [base_loop]. replace (i <? len)%nat with true by (symmetry; now apply Nat.ltb_lt). reflexivity. Qed.

Ltac sfields := cbn [baseform baseformPos latestXpStartInFst latestXpStartInBaseform hyphensInLatestXp bstructurePos isInXp isInXr isInTag ignoreNextDe isDe classTagSeen].

Lemma eqb_neq : forall c d, c <> d -> (c =? d) = false.
Proof. intros. now apply Z.eqb_neq. Qed.

(** The rest of a tag. *)
Lemma in_tag_loop : forall u pre post f o st len buf pos xf xb hx sp ign de cls, ~ In (ch "[") u -> ~ In (ch "]") u -> (length pre + length u < len)%nat -> (length u < f)%nat ->
  base_loop f (pre ++ u ++ ch "]" :: post) o st len (length pre) (mk_base buf pos xf xb hx sp false false true ign de cls) =
  base_loop (f - S (length u)) (pre ++ u ++ ch "]" :: post) o st len (length pre + length u + 1) (mk_base buf pos xf xb hx sp false false false ign de cls).
Proof.
  induction u as [|c u IH]; intros pre post f o st len buf pos xf xb hx sp ign de cls N1 N2 L F; cbn [length] in *; (destruct f as [|f]; [lia|]); rewrite base_loop_step by lia.
  - cbn [app]. rewrite rd_app0. cbn [bind]. change (ch "]" =? ch "[") with false. cbv iota. sfields. rewrite Z.eqb_refl. replace (S f - 1)%nat with f by lia. replace (length pre + 0 + 1)%nat with (S (length pre)) by lia. reflexivity.
  - cbn [app]. rewrite rd_app0. cbn [bind]. rewrite eqb_neq by (intros ->; apply N1; now left). sfields. rewrite eqb_neq by (intros ->; apply N2; now left).
    change (pre ++ c :: u ++ ch "]" :: post) with (pre ++ [c] ++ u ++ ch "]" :: post). rewrite app_assoc. replace (S (length pre)) with (length (pre ++ [c])) by (rewrite app_length; cbn; lia).
    rewrite IH; [|intros I; apply N1; now right|intros I; apply N2; now right|rewrite app_length; cbn; lia|lia].
    rewrite app_length. cbn [length]. replace (S f - S (S (length u)))%nat with (f - S (length u))%nat by lia. f_equal. lia.
Qed.

(** The text of a remark. *)
Lemma in_xr_loop : forall u pre post f o st len buf pos xf xb hx sp ign de cls, ~ In (ch "[") u -> (length pre + length u <= len)%nat -> (length u <= f)%nat ->
  base_loop f (pre ++ u ++ post) o st len (length pre) (mk_base buf pos xf xb hx sp false true false ign de cls) =
  base_loop (f - length u) (pre ++ u ++ post) o st len (length pre + length u) (mk_base buf pos xf xb hx sp false true false ign de cls).
Proof.
  induction u as [|c u IH]; intros pre post f o st len buf pos xf xb hx sp ign de cls N L F; cbn [length] in *.
  - rewrite Nat.add_0_r, Nat.sub_0_r. reflexivity.
  - destruct f as [|f]; [lia|]. rewrite base_loop_step by lia. cbn [app]. rewrite rd_app0. cbn [bind]. rewrite eqb_neq by (intros ->; apply N; now left). sfields.
    change (pre ++ c :: u ++ post) with (pre ++ [c] ++ u ++ post). rewrite app_assoc. replace (S (length pre)) with (length (pre ++ [c])) by (rewrite app_length; cbn; lia).
    rewrite IH; [|intros I; apply N; now right|rewrite app_length; cbn; lia|lia].
    rewrite app_length. cbn [length]. replace (S f - S (length u))%nat with (f - length u)%nat by lia. f_equal. lia.
Qed.

Lemma hyphens_cons : forall c u, hyphens (c :: u) = ((if (c =? ch "-")%Z then 1 else 0) + hyphens u)%nat.
Proof. intros c u. unfold hyphens. cbn [filter]. destruct (c =? ch "-"); reflexivity. Qed.

Lemma in_xp_loop : forall u pre post f o st len buf pos xf xb hx sp ign de cls, ~ In (ch "[") u -> (length pre + length u <= len)%nat -> (length u <= f)%nat ->
  base_loop f (pre ++ u ++ post) o st len (length pre) (mk_base buf pos xf xb hx sp true false false ign de cls) =
  base_loop (f - length u) (pre ++ u ++ post) o st len (length pre + length u) (mk_base buf pos xf xb (hx + hyphens u) sp true false false ign de cls).
Proof.
  induction u as [|c u IH]; intros pre post f o st len buf pos xf xb hx sp ign de cls N L F; cbn [length] in *.
  - change (hyphens []) with 0%nat. rewrite !Nat.add_0_r, Nat.sub_0_r. reflexivity.
  - destruct f as [|f]; [lia|]. rewrite base_loop_step by lia. cbn [app]. rewrite rd_app0. cbn [bind]. rewrite eqb_neq by (intros ->; apply N; now left). sfields.
    change (pre ++ c :: u ++ post) with (pre ++ [c] ++ u ++ post). rewrite app_assoc. replace (S (length pre)) with (length (pre ++ [c])) by (rewrite app_length; cbn; lia).
    replace (if c =? ch "-" then mk_base buf pos xf xb (S hx) sp true false false ign de cls else mk_base buf pos xf xb hx sp true false false ign de cls)
      with (mk_base buf pos xf xb (hx + (if c =? ch "-" then 1 else 0)) sp true false false ign de cls) by (destruct (c =? ch "-"); f_equal; lia).
    rewrite IH; [|intros I; apply N; now right|rewrite app_length; cbn; lia|lia].
    rewrite app_length, hyphens_cons. cbn [length]. replace (S f - S (length u))%nat with (f - length u)%nat by lia. f_equal; [lia|]. f_equal. lia.
Qed.

Lemma x_end : forall pre post f o st len buf pos xf xb hx sp xp xr ign de cls, (length pre + 2 < len)%nat -> (1 <= f)%nat ->
  base_loop f (pre ++ wstr "[X]" ++ post) o st len (length pre) (mk_base buf pos xf xb hx sp xp xr false ign de cls) =
  base_loop (f - 1) (pre ++ wstr "[X]" ++ post) o st len (length pre + 3) (mk_base buf pos xf xb hx sp false false false ign de cls).
Proof.
  intros. destruct f as [|f]; [lia|]. rewrite base_loop_step by lia. change (pre ++ wstr "[X]" ++ post) with (pre ++ ch "[" :: ch "X" :: ch "]" :: post).
  rewrite rd_app0. cbn [bind]. rewrite Z.eqb_refl. unfold base_tag. replace (len <=? length pre + 2)%nat with false by (symmetry; apply Nat.leb_gt; lia).
  rewrite (rd_app _ pre _ (ch "X") 1), (rd_app _ pre _ (ch "]") 2) by reflexivity. cbn [bind]. rewrite !Z.eqb_refl. cbn [bind]. replace (S f - 1)%nat with f by lia. f_equal. lia.
Qed.

(** A remark with a base form or a pattern. *)
Lemma x_remark : forall pre k t post f o st buf pos xf xb hx sp ign de cls len, ~ In (ch "[") t -> In k (wstr "pjsr") -> (length pre + length t + 7 <= len)%nat ->
  (length t + 7 <= f)%nat ->
  exists f', (f <= f' + (length t + 7))%nat /\
  base_loop f (pre ++ (wstr "[X" ++ k :: wstr "]" ++ t ++ wstr "[X]") ++ post) o st len (length pre) (mk_base buf pos xf xb hx sp false false false ign de cls) =
  base_loop f' (pre ++ (wstr "[X" ++ k :: wstr "]" ++ t ++ wstr "[X]") ++ post) o st len (length pre + (length t + 7))
    (if (k =? ch "p") || (k =? ch "j") then mk_base buf pos (length pre + 4) pos (hyphens t) sp false false false ign de cls
     else mk_base buf pos xf xb hx sp false false false ign de cls).
Proof.
  intros pre k t post f o st buf pos xf xb hx sp ign de cls len N K L F. destruct f as [|f]; [lia|]. rewrite base_loop_step by lia.
  replace (pre ++ (wstr "[X" ++ k :: wstr "]" ++ t ++ wstr "[X]") ++ post) with (pre ++ ch "[" :: ch "X" :: k :: ch "]" :: t ++ wstr "[X]" ++ post)
    by (rewrite <- !app_assoc; cbn [app]; rewrite <- !app_assoc; reflexivity).
  rewrite rd_app0. cbn [bind]. rewrite Z.eqb_refl. unfold base_tag. replace (len <=? length pre + 2)%nat with false by (symmetry; apply Nat.leb_gt; lia).
  rewrite (rd_app _ pre _ (ch "X") 1), (rd_app _ pre _ k 2), (rd_app _ pre _ (ch "]") 3) by reflexivity. cbn [bind]. rewrite Z.eqb_refl.
  assert (KB : k <> ch "]") by (intros ->; vm_compute in K; intuition discriminate). rewrite (eqb_neq _ _ KB).
  replace (length pre + 6 <? len)%nat with true by (symmetry; apply Nat.ltb_lt; lia). cbn [bind]. rewrite Z.eqb_refl. cbn [andb].
  exists (f - length t - 1)%nat. split; [lia|].
  replace (pre ++ ch "[" :: ch "X" :: k :: ch "]" :: t ++ wstr "[X]" ++ post) with ((pre ++ [ch "["; ch "X"; k; ch "]"]) ++ t ++ wstr "[X]" ++ post) by (rewrite <- app_assoc; reflexivity).
  replace (S (length pre + 3)) with (length (pre ++ [ch "["; ch "X"; k; ch "]"])) by (rewrite app_length; cbn; lia).
  destruct ((k =? ch "p") || (k =? ch "j")) eqn:P.
  - cbn [bind]. replace (S (length pre + 3)) with (length (pre ++ [ch "["; ch "X"; k; ch "]"])) by (rewrite app_length; cbn; lia). rewrite in_xp_loop; [|exact N|rewrite app_length; cbn; lia|lia]. rewrite (app_assoc _ t). rewrite <- app_length. rewrite x_end; [|rewrite !app_length; cbn; lia|lia].
    f_equal. rewrite !app_length. cbn. lia.
  - replace ((k =? ch "r") || (k =? ch "s")) with true.
    + cbn [bind]. replace (S (length pre + 3)) with (length (pre ++ [ch "["; ch "X"; k; ch "]"])) by (rewrite app_length; cbn; lia). rewrite in_xr_loop; [|exact N|rewrite app_length; cbn; lia|lia]. rewrite (app_assoc _ t). rewrite <- app_length. rewrite x_end; [|rewrite !app_length; cbn; lia|lia].
      f_equal. rewrite !app_length. cbn. lia.
    + symmetry. apply orb_false_iff in P. destruct P as [P1 P2]. apply Z.eqb_neq in P1. apply Z.eqb_neq in P2. apply orb_true_iff. rewrite !Z.eqb_eq. change (wstr "pjsr") with [ch "p"; ch "j"; ch "s"; ch "r"] in K. cbn [In] in K. intuition congruence.
Qed.

(** Another tag. *)
Lemma prefix_whole : forall s u rest, ~ In (ch "]") s -> ~ In (ch "]") u -> prefix_eq (s ++ [ch "]"]) (u ++ ch "]" :: rest) = Ok (zlist_eqb u s).
Proof.
  induction s as [|c s IH]; intros u rest N M; destruct u as [|d u]; cbn [app prefix_eq zlist_eqb].
  - rewrite Z.eqb_refl. destruct rest; reflexivity.
  - rewrite eqb_neq; [reflexivity|]. intros <-. apply M. now left.
  - rewrite eqb_neq; [reflexivity|]. intros ->. apply N. now left.
  - rewrite (Z.eqb_sym d c). destruct (c =? d); [|reflexivity]. apply IH; [intros I; apply N; now right|intros I; apply M; now right].
Qed.

Lemma starts_whole : forall pre body post s k, ~ In (ch "]") body -> ~ In (ch "]") k -> wstr s = k ++ [ch "]"] ->
  starts (pre ++ ch "[" :: body ++ ch "]" :: post) (length pre + 1) s = Ok (zlist_eqb body k).
Proof. intros pre body post s k N M E. unfold starts. rewrite skipn_app_more. cbn [skipn]. rewrite E. now apply prefix_whole. Qed.

Lemma other_tag : forall pre body post f o st buf pos xf xb hx sp ign de cls len, o ++ [0] = pre ++ ch "[" :: body ++ ch "]" :: post -> ~ In (ch "[") body -> ~ In (ch "]") body ->
  (2 <= length body)%nat -> hd 0 body <> ch "X" -> (body = wstr "Lu" -> cls = true) -> (length pre + length body + 2 <= len)%nat -> len = length o -> (length body + 2 <= f)%nat ->
  exists f' ign' de' cls', (f <= f' + (length body + 2))%nat /\ (de' = true -> body = wstr "De" \/ de = true) /\ cls' = (cls || (hd 0 body =? ch "L")) /\
  base_loop f (o ++ [0]) o st len (length pre) (mk_base buf pos xf xb hx sp false false false ign de cls) =
  base_loop f' (o ++ [0]) o st len (length pre + (length body + 2)) (mk_base buf pos xf xb hx sp false false false ign' de' cls').
Proof.
  intros pre body post f o st buf pos xf xb hx sp ign de cls len E N1 N2 L2 X LU L LE F. destruct f as [|f]; [lia|]. rewrite base_loop_step by lia. rewrite E, rd_app0. cbn [bind]. rewrite Z.eqb_refl.
  unfold base_tag. replace (len <=? length pre + 2)%nat with false by (symmetry; apply Nat.leb_gt; lia). destruct body as [|c [|d u]]; [cbn in L2; lia|cbn in L2; lia|]. cbn [hd] in *.
  rewrite (rd_app _ pre _ c 1), (rd_app _ pre _ d 2) by reflexivity. cbn [bind]. rewrite (eqb_neq _ _ X).
  rewrite (starts_whole pre (c :: d :: u) post "Lu]" (wstr "Lu")) by solve [exact N2|vm_compute; intuition discriminate|reflexivity].
  rewrite (starts_whole pre (c :: d :: u) post "De]" (wstr "De")) by solve [exact N2|vm_compute; intuition discriminate|reflexivity]. cbn [bind].
  replace (negb cls && (length pre + 6 <? len)%nat && zlist_eqb (c :: d :: u) (wstr "Lu")) with false.
  2: { symmetry. destruct (zlist_eqb (c :: d :: u) (wstr "Lu")) eqn:Q; [|apply andb_false_r]. apply zlist_eqb_eq in Q. rewrite (LU Q). reflexivity. }
  assert (REST : forall ign' de' cls', base_loop f (pre ++ ch "[" :: (c :: d :: u) ++ ch "]" :: post) o st len (S (length pre + 0)) (mk_base buf pos xf xb hx sp false false true ign' de' cls') =
    base_loop (f - S (length (c :: d :: u))) (pre ++ ch "[" :: (c :: d :: u) ++ ch "]" :: post) o st len (length pre + (length (c :: d :: u) + 2)) (mk_base buf pos xf xb hx sp false false false ign' de' cls')).
  { intros ign' de' cls'. change (pre ++ ch "[" :: (c :: d :: u) ++ ch "]" :: post) with (pre ++ [ch "["] ++ (c :: d :: u) ++ ch "]" :: post). rewrite app_assoc.
    replace (S (length pre + 0)) with (length (pre ++ [ch "["])) by (rewrite app_length; cbn; lia). rewrite in_tag_loop; [|exact N1|exact N2|rewrite app_length; cbn [length] in *; lia|cbn [length] in *; lia].
    f_equal. rewrite app_length. cbn [length]. lia. }
  destruct (zlist_eqb (c :: d :: u) (wstr "De")) eqn:DE.
  - apply zlist_eqb_eq in DE. exists f, ign, (negb ign), cls. split; [cbn [length] in *; lia|]. split; [intros _; now left|].
    split; [replace c with (ch "D") by (change (wstr "De") with [ch "D"; ch "e"] in DE; congruence); now rewrite orb_false_r|]. cbn [bind]. f_equal. rewrite DE. cbn. lia.
  - destruct (c =? ch "L") eqn:CL.
    + assert (NL : exists nl, (if (len <=? length pre + 3)%nat then Ok false else starts (pre ++ ch "[" :: (c :: d :: u) ++ ch "]" :: post) (length pre + 2) "nl") = Ok nl).
      { destruct (len <=? length pre + 3)%nat; [eauto|]. change 2%nat with (S 1). rewrite starts_body; [eauto|cbn; lia|vm_compute; intuition discriminate]. }
      destruct NL as [nl ->]. cbn [bind]. rewrite REST. do 4 eexists. split; [|split; [|split; [|reflexivity]]]; [cbn [length] in *; lia|discriminate|now rewrite orb_true_r].
    + cbn [bind]. rewrite REST. do 4 eexists. split; [|split; [|split; [|reflexivity]]]; [cbn [length] in *; lia|now right|now rewrite orb_false_r].
Qed.

(** ** Names of places *)

Definition safe (s : list Z) : Prop := forall k rest, (k < length s)%nat -> prefix_eq (wstr "[Lep]") (skipn k (s ++ rest)) = Ok false.

Lemma prefix_lep : forall r, prefix_eq (wstr "[Lep]") r = match r with [] => UB | c :: r => if ch "[" =? c then prefix_eq (wstr "Lep]") r else Ok false end.
Proof. intros [|c r]; reflexivity. Qed.

Lemma safe_app : forall a b, safe a -> safe b -> safe (a ++ b).
Proof.
  intros a b A B k rest L. rewrite <- app_assoc. destruct (le_lt_dec (length a) k) as [H|H]; [|now apply A].
  rewrite app_length in L. replace k with (length a + (k - length a))%nat by lia. rewrite skipn_app_more. apply B. lia.
Qed.

Lemma safe_text : forall t, ~ In (ch "[") t -> safe t.
Proof.
  induction t as [|c t IH]; intros N k rest L; [cbn in L; lia|]. cbn [length] in L. destruct k as [|k]; cbn [app skipn].
  - rewrite prefix_lep, eqb_neq; [reflexivity|]. intros <-. apply N. now left.
  - apply IH; [intros I; apply N; now right|lia].
Qed.

Lemma safe_pair : forall d, d <> ch "[" -> d <> ch "L" -> safe [ch "["; d].
Proof.
  intros d N1 N2 k rest L. cbn [length] in L. destruct k as [|[|k]]; [| |lia]; cbn [app skipn]; rewrite prefix_lep.
  - rewrite Z.eqb_refl. change (wstr "Lep]") with (ch "L" :: wstr "ep]"). cbn [prefix_eq]. rewrite eqb_neq by congruence. reflexivity.
  - rewrite eqb_neq by congruence. reflexivity.
Qed.

Lemma safe_item : forall x, good_item x -> x <> Class "ep" -> safe (render_item x).
Proof.
  intros x G N. destruct x as [c| | |k|k|p|k t|t]; cbn [render_item good_item] in *.
  - apply safe_text. intros [I|[]]. subst c. apply G. vm_compute. tauto.
  - apply safe_text. vm_compute. intuition discriminate.
  - apply safe_text. vm_compute. intuition discriminate.
  - change (wstr "[B" ++ k :: wstr "]") with ([ch "["; ch "B"] ++ [k; ch "]"]). apply safe_app; [apply safe_pair; discriminate|]. apply safe_text. intros [I|[I|[]]]; [|discriminate I]. subst k. apply G. vm_compute. tauto.
  - unfold class_names in G. cbn [In] in G. repeat (destruct G as [<-|G]; [first [now elim N|intros j rest L; cbn in L; repeat (destruct j as [|j]; [reflexivity|]); lia]|]). destruct G.
  - change (wstr "[Xr]") with ([ch "["; ch "X"] ++ [ch "r"; ch "]"]). rewrite <- app_assoc. apply safe_app; [apply safe_pair; discriminate|]. apply safe_app; [apply safe_text; vm_compute; intuition discriminate|].
    apply safe_app; [apply safe_text; intros I; destruct G as (G & _); specialize (G _ I); vm_compute in G; intuition discriminate|].
    change (wstr "[X]") with ([ch "["; ch "X"] ++ [ch "]"]). apply safe_app; [apply safe_pair; discriminate|apply safe_text; vm_compute; intuition discriminate].
  - change (wstr "[X" ++ k :: wstr "]" ++ t ++ wstr "[X]") with ([ch "["; ch "X"] ++ [k; ch "]"] ++ t ++ wstr "[X]"). destruct G as (G1 & G2 & G3). apply safe_app; [apply safe_pair; discriminate|].
    apply safe_app; [apply safe_text; intros [I|[I|[]]]; [|discriminate I]; subst k; apply G1; vm_compute; tauto|]. apply safe_app; [now apply safe_text|].
    change (wstr "[X]") with ([ch "["; ch "X"] ++ [ch "]"]). apply safe_app; [apply safe_pair; discriminate|apply safe_text; vm_compute; intuition discriminate].
  - destruct G as (G1 & G2 & G3 & G4 & G5 & G6 & _). destruct t as [|c t]; [cbn in G4; lia|]. cbn [hd] in *. change (wstr "[" ++ (c :: t) ++ wstr "]") with ([ch "["; c] ++ t ++ wstr "]").
    apply safe_app; [apply safe_pair; [intros ->; apply G2; now left|exact G6]|]. apply safe_app; [apply safe_text; intros I; apply G2; now right|apply safe_text; vm_compute; intuition discriminate].
Qed.

Lemma safe_items : forall l, Forall good_item l -> ~ In (Class "ep") l -> safe (render l).
Proof.
  induction l as [|x l IH]; intros G N; [intros k rest L; cbn in L; lia|]. rewrite render_cons. apply safe_app.
  - apply safe_item; [exact (Forall_inv G)|]. intros ->. apply N. now left.
  - apply IH; [exact (Forall_inv_tail G)|]. intros I. apply N. now right.
Qed.

Lemma no_place : forall n b len j, (forall k, (j <= k)%nat -> (k < len)%nat -> starts b k "[Lep]" = Ok false) -> (len <= n + j)%nat -> place_name_follows n b len j = Ok false.
Proof.
  induction n as [|n IH]; intros b len j H L; cbn [place_name_follows]; destruct (j + 4 <? len)%nat eqn:Q; try reflexivity; apply Nat.ltb_lt in Q; [lia|].
  rewrite (H j) by lia. cbn [bind]. apply IH; [|lia]. intros k K1 K2. apply H; lia.
Qed.

(** ** The machine on items *)

Definition cap (sy : list Z) (c : Z) : Z := match sy with y :: _ => if (y =? ch "i") || (y =? ch "j") then upper c else c | [] => c end.

Fixpoint run (l : list item) (w sy : list Z) (xp : option (nat * list Z)) (hx : nat) : list Z :=
  match l with
  | [] => match xp with Some (n, t) => firstn n w ++ symbols t | None => w end
  | x :: r =>
      match x with
      | Letter c => run r (w ++ [cap sy c]) (tl sy) xp hx
      | Colon => run r (w ++ [cap sy (ch ":")]) (tl sy) xp hx
      | Hyphen => run r (w ++ [cap sy (ch "-")]) (tl sy) (match hx with O => None | S _ => xp end) (pred hx)
      | Remark k t => if (k =? ch "p") || (k =? ch "j") then run r w sy (Some (length w, t)) (hyphens t) else run r w sy xp hx
      | _ => run r w sy xp hx
      end
  end.

Lemma pattern_char_spec : forall r p, exists k, (k <= length r)%nat /\ fst (pattern_char r p) = (p + k)%nat /\ symbols (skipn k r) = tl (symbols r) /\
  forall c, (if snd (pattern_char r p) then upper c else c) = cap (symbols r) c.
Proof.
  induction r as [|y r IH]; intros p; cbn [pattern_char].
  - exists 0%nat. cbn. split; [lia|]. split; [lia|]. auto.
  - unfold symbols. cbn [filter]. destruct (y =? ch "=") eqn:E; cbn [negb].
    + destruct (IH (S p)) as (k & K1 & K2 & K3 & K4). exists (S k). cbn [length skipn]. split; [lia|]. split; [lia|]. auto.
    + exists 1%nat. cbn [length skipn fst snd tl cap]. split; [lia|]. split; [lia|]. auto.
Qed.

Lemma pattern_char_at : forall st p sy, symbols (skipn p st) = sy -> exists p' title, pattern_char (skipn p st) p = (p', title) /\ symbols (skipn p' st) = tl sy /\
  forall c, (if title : bool then upper c else c) = cap sy c.
Proof.
  intros st p sy <-. destruct (pattern_char_spec (skipn p st) p) as (k & K1 & K2 & K3 & K4). destruct (pattern_char (skipn p st) p) as [p' title] eqn:E. cbn [fst snd] in *. subst p'.
  exists (p + k)%nat, title. split; [reflexivity|]. split; [|exact K4]. rewrite <- K3. f_equal. rewrite skipn_skipn. f_equal; lia.
Qed.

Lemma upper_nonzero : forall c, c <> 0 -> upper c <> 0.
Proof.
  intros c N. unfold upper. repeat match goal with |- context [if ?b then _ else _] => destruct b eqn:?H end; try exact N; try discriminate;
    unfold in_range in *; repeat match goal with H : _ && _ = true |- _ => apply andb_true_iff in H; destruct H end; lia.
Qed.
Lemma cap_nonzero : forall sy c, c <> 0 -> cap sy c <> 0.
Proof. intros [|y sy] c N; cbn [cap]; [exact N|]. destruct ((y =? ch "i") || (y =? ch "j")); [now apply upper_nonzero|exact N]. Qed.

Definition fin_form (o : list Z) (r : list Z + option base_state) : res (option (list Z)) :=
  match r with
  | inl buf => Ok (Some (cstr buf))
  | inr None => Ok None
  | inr (Some s) =>
      s <- (if Nat.eqb (latestXpStartInFst s) 0 then Ok s
            else copy_xp (length o - latestXpStartInFst s) (o ++ [0]) (latestXpStartInFst s) false (b_rewind s)) ;;
      if Nat.eqb (baseformPos s) 0 then Ok None
      else buf <- wr (baseform s) (baseformPos s) 0 ;; Ok (Some (cstr buf))
  end.

Definition optional (v : list Z) : option (list Z) := match v with [] => None | _ => Some v end.

Lemma wr_end : forall (w : list Z) j junk c, wr (w ++ j :: junk) (length w) c = Ok (w ++ c :: junk).
Proof.
  intros w j junk c. apply wr_ok. split; [rewrite app_length; cbn; lia|]. induction w as [|x w IH]; [reflexivity|]. cbn [app length upd]. now rewrite <- IH.
Qed.

Lemma copy_content : forall t n p1 p2 s w junk, ~ In (ch "[") t -> (length t < n)%nat -> baseform s = w ++ junk -> baseformPos s = length w -> (length t < length junk)%nat ->
  exists s' junk', copy_xp n (p1 ++ t ++ ch "[" :: p2) (length p1) false s = Ok s' /\ baseform s' = (w ++ symbols t) ++ junk' /\ baseformPos s' = length (w ++ symbols t) /\ junk' <> [].
Proof.
  induction t as [|c t IH]; intros n p1 p2 s w junk N L B P J; (destruct n as [|n]; [lia|]); cbn [copy_xp app length] in *; rewrite rd_app0; cbn [bind].
  - rewrite Z.eqb_refl. exists s, junk. change (symbols []) with (@nil Z). rewrite app_nil_r. repeat split; try assumption. intros ->. cbn in J. lia.
  - rewrite eqb_neq by (intros ->; apply N; now left). change (p1 ++ c :: t ++ ch "[" :: p2) with (p1 ++ [c] ++ t ++ ch "[" :: p2). rewrite app_assoc.
    replace (S (length p1)) with (length (p1 ++ [c])) by (rewrite app_length; cbn; lia). unfold symbols. cbn [filter andb]. fold (symbols t). destruct (c =? ch "=") eqn:E; cbn [negb bind].
    + apply (IH n _ p2 s w junk); [intros I; apply N; now right|lia|exact B|exact P|lia].
    + unfold b_put. destruct junk as [|j junk]; [cbn in J; lia|]. rewrite B, P, wr_end. cbn [bind].
      destruct (IH n (p1 ++ [c]) p2 (mk_base (w ++ c :: junk) (S (length w)) (latestXpStartInFst s) (latestXpStartInBaseform s) (hyphensInLatestXp s) (bstructurePos s)
        (isInXp s) (isInXr s) (isInTag s) (ignoreNextDe s) (isDe s) (classTagSeen s)) (w ++ [c]) junk) as (s' & junk' & E1 & E2 & E3 & E4);
        [intros I; apply N; now right|lia|sfields; now rewrite <- app_assoc|sfields; rewrite app_length; cbn; lia|cbn [length] in J; lia|].
      exists s', junk'. replace (w ++ c :: symbols t) with ((w ++ [c]) ++ symbols t) by (rewrite <- app_assoc; reflexivity). auto.
Qed.

Lemma fin_none : forall o w junk xb hx sp ign de cls, ~ In 0 w -> junk <> [] ->
  fin_form o (inr (Some (mk_base (w ++ junk) (length w) 0 xb hx sp false false false ign de cls))) = Ok (optional w).
Proof.
  intros o w junk xb hx sp ign de cls N J. unfold fin_form. sfields. change (Nat.eqb 0 0) with true. cbn [bind]. sfields. destruct w as [|c w]; [reflexivity|]. change (Nat.eqb (length (c :: w)) 0) with false. cbn [bind].
  destruct junk as [|j junk]; [congruence|]. rewrite wr_end. cbn [bind optional]. do 2 f_equal.
  assert (G : forall u rest, ~ In 0 u -> cstr (u ++ 0 :: rest) = u).
  { induction u as [|x u IH]; intros rest M; cbn [app cstr]; [reflexivity|]. rewrite eqb_neq by (intros ->; apply M; now left). f_equal. apply IH. intros I. apply M. now right. }
  apply G. exact N.
Qed.

Lemma firstn_In' : forall A n (l : list A) x, In x (firstn n l) -> In x l.
Proof. intros A n l x H. rewrite <- (firstn_skipn n l). apply in_or_app; auto. Qed.

Lemma fin_some : forall p1 t p2 w junk xb hx sp ign de cls, ~ In 0 w -> ~ In 0 t -> ~ In (ch "[") t -> (xb <= length w)%nat -> p1 <> [] ->
  (xb + length t < length (w ++ junk))%nat ->
  fin_form (p1 ++ t ++ ch "[" :: p2) (inr (Some (mk_base (w ++ junk) (length w) (length p1) xb hx sp false false false ign de cls))) = Ok (optional (firstn xb w ++ symbols t)).
Proof.
  intros p1 t p2 w junk xb hx sp ign de cls N NT NB X P1 L. unfold fin_form. sfields. replace (Nat.eqb (length p1) 0) with false by (destruct p1; [congruence|reflexivity]).
  set (s0 := b_rewind _). assert (B : baseform s0 = firstn xb w ++ (skipn xb w ++ junk)) by (unfold s0, b_rewind; sfields; now rewrite app_assoc, firstn_skipn).
  assert (P : baseformPos s0 = length (firstn xb w)) by (unfold s0, b_rewind; sfields; rewrite firstn_length; lia). clearbody s0.
  destruct (copy_content t (length (p1 ++ t ++ ch "[" :: p2) - length p1) p1 (p2 ++ [0]) s0 (firstn xb w) (skipn xb w ++ junk)) as (s' & junk' & E1 & E2 & E3 & E4).
  - exact NB.
  - rewrite !app_length. cbn [length]. lia.
  - exact B.
  - exact P.
  - rewrite app_length, skipn_length. rewrite app_length in L. lia.
  - replace ((p1 ++ t ++ ch "[" :: p2) ++ [0]) with (p1 ++ t ++ ch "[" :: p2 ++ [0]) by (rewrite <- !app_assoc; reflexivity). rewrite E1. cbn [bind]. rewrite E2, E3.
    set (v := firstn xb w ++ symbols t) in *. assert (NV : ~ In 0 v).
    { unfold v. intros I. apply in_app_or in I. destruct I as [I|I]; [apply N; eapply firstn_In'; exact I|]. apply NT. unfold symbols in I. apply filter_In in I. tauto. }
    clearbody v. destruct v as [|c v]; [reflexivity|]. change (Nat.eqb (length (c :: v)) 0) with false. destruct junk' as [|j junk']; [congruence|]. rewrite wr_end. cbn [bind optional]. do 2 f_equal.
    assert (G : forall u rest, ~ In 0 u -> cstr (u ++ 0 :: rest) = u).
    { induction u as [|x u IH]; intros rest M; cbn [app cstr]; [reflexivity|]. rewrite eqb_neq by (intros ->; apply M; now left). f_equal. apply IH. intros I. apply M. now right. }
    apply G. exact NV.
Qed.

Definition xp_state (pre w : list Z) (xp : option (nat * list Z)) (xf xb : nat) : Prop :=
  match xp with
  | None => xf = 0%nat
  | Some (n, t) => n = xb /\ (xb <= length w)%nat /\ ~ In 0 t /\ ~ In (ch "[") t /\
      exists p1 p2, pre = p1 ++ t ++ ch "[" :: p2 /\ length p1 = xf /\ (2 <= xf)%nat /\ (xb <= xf)%nat
  end.

Lemma xp_state_more : forall pre w xp xf xb more v, xp_state pre w xp xf xb -> xp_state (pre ++ more) (w ++ v) xp xf xb.
Proof.
  intros pre w [[n t]|] xf xb more v H; [|exact H]. destruct H as (H1 & H2 & H3 & H4 & p1 & p2 & H5 & H6). split; [exact H1|]. split; [rewrite app_length; lia|]. split; [exact H3|]. split; [exact H4|].
  exists p1, (p2 ++ more). split; [|exact H6]. rewrite H5, <- !app_assoc. reflexivity.
Qed.

Lemma rd_end : forall (pre : list Z) x post o, o ++ [0] = pre ++ x :: post -> rd (o ++ [0]) (length pre) = Ok x.
Proof. intros pre x post o ->. apply rd_app0. Qed.

(** A character of the word. *)
Lemma base_char_spec : forall c pre l o st w j junk xf xb hx sp sy ign de cls xp,
  o = pre ++ c :: render l -> c <> 0 -> Forall good_item l -> (de = true -> ~ In (Class "ep") l) ->
  symbols (skipn sp st) = sy -> xp_state pre w xp xf xb -> c <> ch "[" ->
  exists xf' sp' de', base_char (o ++ [0]) st (length o) (length pre) c (mk_base (w ++ j :: junk) (length w) xf xb hx sp false false false ign de cls) =
    Ok (mk_base ((w ++ [cap sy c]) ++ junk) (length (w ++ [cap sy c])) xf' xb (if c =? ch "-" then pred hx else hx) sp' false false false ign de' cls) /\
    symbols (skipn sp' st) = tl sy /\ (de' = true -> de = true) /\
    xp_state pre w (if c =? ch "-" then match hx with O => None | S _ => xp end else xp) xf' xb.
Proof.
  intros c pre l o st w j junk xf xb hx sp sy ign de cls xp E NZ G DE SY XP NB. unfold base_char.
  assert (H : exists xf' de', (if c =? ch "-" then base_hyphen (o ++ [0]) (length o) (length pre) (mk_base (w ++ j :: junk) (length w) xf xb hx sp false false false ign de cls)
      else Ok (mk_base (w ++ j :: junk) (length w) xf xb hx sp false false false ign de cls)) =
    Ok (mk_base (w ++ j :: junk) (length w) xf' xb (if c =? ch "-" then pred hx else hx) sp false false false ign de' cls) /\ (de' = true -> de = true) /\
    xp_state pre w (if c =? ch "-" then match hx with O => None | S _ => xp end else xp) xf' xb).
  { destruct (c =? ch "-") eqn:C; [|exists xf, de; auto]. apply Z.eqb_eq in C. unfold base_hyphen. sfields. destruct hx as [|hx].
    - change (0 <? 0)%nat with false. cbv iota.
      assert (Q : (if de && negb (Nat.eqb xf 0) then
                  if (length pre <? 2)%nat then UB
                  else
                    after_is <- starts (o ++ [0]) (length pre - 2) "is" ;;
                    if (after_is : bool) then Ok (mk_base (w ++ j :: junk) (length w) xf xb 0 sp false false false ign de cls)
                    else
                      place <- place_name_follows (length o) (o ++ [0]) (length o) (length pre) ;;
                      if (place : bool) then copy_xp (length o - xf) (o ++ [0]) xf true (b_rewind (mk_base (w ++ j :: junk) (length w) xf xb 0 sp false false false ign de cls))
                      else Ok (mk_base (w ++ j :: junk) (length w) xf xb 0 sp false false false ign de cls)
                else Ok (mk_base (w ++ j :: junk) (length w) xf xb 0 sp false false false ign de cls)) = Ok (mk_base (w ++ j :: junk) (length w) xf xb 0 sp false false false ign de cls)).
      { destruct (de && negb (Nat.eqb xf 0)) eqn:D; [|reflexivity]. apply andb_true_iff in D. destruct D as [D1 D2]. apply negb_true_iff, Nat.eqb_neq in D2.
        destruct xp as [[n t]|]; [|elim D2; exact XP]. destruct XP as (_ & _ & _ & _ & p1 & p2 & X1 & X2 & X3 & _).
        replace (length pre <? 2)%nat with false by (symmetry; apply Nat.ltb_ge; rewrite X1, app_length; lia).
        destruct (starts_ok o (length pre - 2) "is") as [y ->]; [rewrite E, app_length; lia|nonul|]. cbn [bind]. destruct y; [reflexivity|].
        rewrite no_place; [reflexivity| |lia]. intros k K1 K2. unfold starts. rewrite E, <- app_assoc. replace k with (length pre + (k - length pre))%nat by lia. rewrite skipn_app_more.
        rewrite E, app_length in K2. change (c :: render l) with ([c] ++ render l) in *. apply (safe_app [c] (render l)); [apply safe_text; intros [I|[]]; congruence|now apply safe_items; auto|lia]. }
      rewrite Q. cbn [bind]. sfields. exists 0%nat, false. split; [reflexivity|]. split; [discriminate|reflexivity].
    - change (0 <? S hx)%nat with true. cbn [bind]. sfields. exists xf, false. replace (S hx - 1)%nat with hx by lia. split; [reflexivity|]. split; [discriminate|exact XP]. }
  destruct H as (xf' & de' & -> & D & X). cbn [bind]. sfields. destruct (pattern_char_at st sp sy SY) as (sp' & title & -> & S1 & S2). unfold b_put. sfields. rewrite S2, wr_end. cbn [bind].
  exists xf', sp', de'. split; [|auto]. do 2 f_equal; [now rewrite <- app_assoc|rewrite app_length; cbn; lia].
Qed.

Lemma base_run : forall l pre f st w junk sp sy xp xf xb hx ign de cls,
  Forall good_item l -> (forall k t, In (Remark k t) l -> In k (wstr "pjs")) ->
  (cls = false -> forall a b, l = a ++ Class "u" :: b -> exists k, In (Class k) a) ->
  (forall a b, l = a ++ Tag (wstr "De") :: b -> ~ In (Class "ep") b) -> (de = true -> ~ In (Class "ep") l) ->
  ~ In 0 w -> (length w <= length pre)%nat -> (length (w ++ junk) = length pre + length (render l) + 1)%nat -> symbols (skipn sp st) = sy ->
  xp_state pre w xp xf xb -> (length (render l) <= f)%nat ->
  bind (base_loop f ((pre ++ render l) ++ [0]) (pre ++ render l) st (length (pre ++ render l)) (length pre) (mk_base (w ++ junk) (length w) xf xb hx sp false false false ign de cls))
    (fin_form (pre ++ render l)) = Ok (optional (run l w sy xp hx)).
Proof.
  induction l as [|x r IH]; intros pre f st w junk sp sy xp xf xb hx ign de cls G RK LU DE DE' NZ LW LB SY XP LF.
  - change (render []) with (@nil Z) in *. rewrite app_nil_r in *. cbn [length] in *. rewrite Nat.add_0_r in LB. rewrite app_length in LB.
    replace (base_loop f (pre ++ [0]) pre st (length pre) (length pre) (mk_base (w ++ junk) (length w) xf xb hx sp false false false ign de cls))
      with (@Ok (list Z + option base_state) (inr (Some (mk_base (w ++ junk) (length w) xf xb hx sp false false false ign de cls)))) by (destruct f; cbn [base_loop]; now rewrite Nat.ltb_irrefl).
    cbn [bind run]. destruct xp as [[n t]|].
    + destruct XP as (-> & X1 & X2 & X3 & p1 & p2 & X4 & X5 & X6 & X7). subst xf. assert (LP : length pre = (length p1 + (length t + S (length p2)))%nat) by (rewrite X4, !app_length; reflexivity).
      rewrite X4. apply fin_some; try assumption; [destruct p1; [cbn in X6; lia|discriminate]|rewrite app_length; lia].
    + cbn [xp_state] in XP. subst xf. apply fin_none; [exact NZ|]. intros ->. cbn in LB. lia.
  - pose proof (Forall_inv G) as GX. pose proof (Forall_inv_tail G) as GR. pose proof (render_item_length x) as RL. rewrite render_cons in *. rewrite (app_length (render_item x)) in LB, LF.
    assert (RKR : forall k t, In (Remark k t) r -> In k (wstr "pjs")) by (intros k t I; apply (RK k t); now right).
    assert (DER : forall a b, r = a ++ Tag (wstr "De") :: b -> ~ In (Class "ep") b) by (intros a b ->; exact (DE (x :: a) b eq_refl)).
    assert (DE2 : forall de', (de' = true -> x = Tag (wstr "De") \/ de = true) -> de' = true -> ~ In (Class "ep") r).
    { intros de' H1 H2 I. destruct (H1 H2) as [->|H3]; [exact (DE [] r eq_refl I)|]. apply (DE' H3). now right. }
    assert (LUR : forall cls', (cls' = false -> cls = false /\ forall k, x <> Class k) -> cls' = false -> forall a b, r = a ++ Class "u" :: b -> exists k, In (Class k) a).
    { intros cls' H1 H2 a b ->. destruct (H1 H2) as [H3 H4]. destruct (LU H3 (x :: a) b eq_refl) as [k [K|K]]; [now elim (H4 k)|now exists k]. }
    (* the rest, after the item has been read *)
    assert (REST : forall f' w' junk' sp' sy' xp' xf' xb' hx' ign' de' cls', (length (render r) <= f')%nat -> (de' = true -> x = Tag (wstr "De") \/ de = true) -> (cls' = false -> cls = false /\ forall k, x <> Class k) ->
      ~ In 0 w' -> (length w' <= length pre + length (render_item x))%nat -> length (w' ++ junk') = length (w ++ junk) -> symbols (skipn sp' st) = sy' -> xp_state (pre ++ render_item x) w' xp' xf' xb' ->
      bind (base_loop f' ((pre ++ render_item x ++ render r) ++ [0]) (pre ++ render_item x ++ render r) st (length (pre ++ render_item x ++ render r)) (length pre + length (render_item x))
        (mk_base (w' ++ junk') (length w') xf' xb' hx' sp' false false false ign' de' cls')) (fin_form (pre ++ render_item x ++ render r)) = Ok (optional (run r w' sy' xp' hx'))).
    { intros f' w' junk' sp' sy' xp' xf' xb' hx' ign' de' cls' H1 H2 H3 H4 H5 H6 H7 H8. rewrite (app_assoc pre). rewrite <- app_length.
      apply IH; [exact GR|exact RKR|exact (LUR cls' H3)|exact DER|exact (DE2 de' H2)|exact H4|rewrite app_length; exact H5|rewrite H6, (app_length pre); lia|exact H7|exact H8|exact H1]. }
    assert (CHAR : forall c, render_item x = [c] -> c <> 0 -> c <> ch "[" -> (forall k, x <> Class k) ->
      bind (base_loop f ((pre ++ render_item x ++ render r) ++ [0]) (pre ++ render_item x ++ render r) st (length (pre ++ render_item x ++ render r)) (length pre)
        (mk_base (w ++ junk) (length w) xf xb hx sp false false false ign de cls)) (fin_form (pre ++ render_item x ++ render r)) =
      Ok (optional (run r (w ++ [cap sy c]) (tl sy) (if c =? ch "-" then match hx with O => None | S _ => xp end else xp) (if c =? ch "-" then pred hx else hx)))).
    { intros c RX C0 CB NC. rewrite RX in *. cbn [length app] in *. destruct f as [|f]; [lia|]. rewrite base_loop_step by (rewrite app_length; cbn; lia).
      rewrite (rd_end pre c (render r ++ [0])) by (rewrite <- app_assoc; reflexivity). cbn [bind]. rewrite (eqb_neq _ _ CB). sfields.
      destruct junk as [|j junk]; [rewrite app_nil_r in LB; lia|].
      destruct (base_char_spec c pre r (pre ++ c :: render r) st w j junk xf xb hx sp sy ign de cls xp eq_refl C0 GR) as (xf' & sp' & de' & -> & B1 & B2 & B3); [intros D I; apply (DE' D); now right|exact SY|exact XP|exact CB|].
      cbn [bind]. replace (S (length pre)) with (length pre + 1)%nat by lia. apply REST; [lia|intros D; right; now apply B2|auto| |rewrite app_length; cbn; lia|rewrite !app_length; cbn; lia|exact B1|].
      - intros I. apply in_app_or in I. destruct I as [I|[I|[]]]; [now apply NZ|]. revert I. now apply cap_nonzero.
      - apply xp_state_more. exact B3. }
    assert (TAG : forall body, render_item x = ch "[" :: body ++ [ch "]"] -> ~ In (ch "[") body -> ~ In (ch "]") body -> (2 <= length body)%nat -> hd 0 body <> ch "X" ->
      (body = wstr "Lu" -> x = Class "u") -> (body = wstr "De" -> x = Tag (wstr "De")) -> ((hd 0 body =? ch "L") = false -> forall k, x <> Class k) ->
      bind (base_loop f ((pre ++ render_item x ++ render r) ++ [0]) (pre ++ render_item x ++ render r) st (length (pre ++ render_item x ++ render r)) (length pre)
        (mk_base (w ++ junk) (length w) xf xb hx sp false false false ign de cls)) (fin_form (pre ++ render_item x ++ render r)) = Ok (optional (run r w sy xp hx))).
    { intros body RX N1 N2 L2 NX BU BD BL. rewrite RX in RL, LF. cbn [length] in RL, LF. rewrite app_length in LF. cbn [length] in LF.
      assert (LX : length (render_item x) = (length body + 2)%nat) by (rewrite RX; cbn [length]; rewrite app_length; cbn; lia).
      destruct (other_tag pre body (render r ++ [0]) f (pre ++ render_item x ++ render r) st (w ++ junk) (length w) xf xb hx sp ign de cls (length (pre ++ render_item x ++ render r)))
        as (f' & ign' & de' & cls' & F1 & F2 & F3 & F4).
      - rewrite RX, <- !app_assoc. cbn [app]. rewrite <- !app_assoc. reflexivity.
      - exact N1.
      - exact N2.
      - exact L2.
      - exact NX.
      - intros B. destruct cls; [reflexivity|]. specialize (BU B). subst x. destruct (LU eq_refl [] r eq_refl) as [k []].
      - rewrite !app_length. lia.
      - reflexivity.
      - lia.
      - rewrite F4. rewrite <- LX. apply REST; [lia|intros D; destruct (F2 D) as [D1|D1]; [left; now apply BD|now right]| |exact NZ|lia|reflexivity|exact SY|].
        + intros C. rewrite C in F3. symmetry in F3. apply orb_false_iff in F3. destruct F3 as [-> F3]. split; [reflexivity|]. now apply BL.
        + rewrite <- (app_nil_r w). now apply xp_state_more. }
    assert (REM : forall k t, render_item x = wstr "[X" ++ k :: wstr "]" ++ t ++ wstr "[X]" -> ~ In (ch "[") t -> ~ In 0 t -> In k (wstr "pjsr") -> (forall k, x <> Class k) ->
      bind (base_loop f ((pre ++ render_item x ++ render r) ++ [0]) (pre ++ render_item x ++ render r) st (length (pre ++ render_item x ++ render r)) (length pre)
        (mk_base (w ++ junk) (length w) xf xb hx sp false false false ign de cls)) (fin_form (pre ++ render_item x ++ render r)) =
      Ok (optional (if (k =? ch "p") || (k =? ch "j") then run r w sy (Some (length w, t)) (hyphens t) else run r w sy xp hx))).
    { intros k t RX N1 N2 K NC. assert (LX : length (render_item x) = (length t + 7)%nat) by (rewrite RX, app_length; cbn [length]; rewrite !app_length; cbn; lia).
      destruct (x_remark pre k t (render r ++ [0]) f (pre ++ render_item x ++ render r) st (w ++ junk) (length w) xf xb hx sp ign de cls (length (pre ++ render_item x ++ render r)) N1 K) as (f' & F1 & F2).
      - rewrite !app_length. lia.
      - lia.
      - rewrite <- RX in F2. replace (pre ++ render_item x ++ render r ++ [0]) with ((pre ++ render_item x ++ render r) ++ [0]) in F2 by (rewrite <- !app_assoc; reflexivity). rewrite F2, <- LX.
        destruct ((k =? ch "p") || (k =? ch "j")).
        + apply REST; [lia|now right|auto|exact NZ|lia|reflexivity|exact SY|]. cbn [xp_state]. split; [reflexivity|]. split; [lia|]. split; [exact N2|]. split; [exact N1|].
          exists (pre ++ wstr "[X" ++ k :: wstr "]"), (wstr "X]"). split; [rewrite RX, <- !app_assoc; cbn [app]; rewrite <- ?app_assoc; reflexivity|]. rewrite app_length. cbn. lia.
        + apply REST; [lia|now right|auto|exact NZ|lia|reflexivity|exact SY|]. rewrite <- (app_nil_r w). now apply xp_state_more. }
    destruct x as [c| | |k|k|p|k t|t]; cbn [run]; cbn [good_item] in GX.
    + assert (C1 : c <> 0) by (intros ->; apply GX; now left). assert (C2 : c <> ch "[") by (intros ->; apply GX; vm_compute; tauto). assert (C3 : c <> ch "-") by (intros ->; apply GX; vm_compute; tauto).
      specialize (CHAR c eq_refl C1 C2 ltac:(discriminate)). rewrite (eqb_neq _ _ C3) in CHAR. exact CHAR.
    + exact (CHAR (ch "-") eq_refl ltac:(discriminate) ltac:(discriminate) ltac:(discriminate)).
    + exact (CHAR (ch ":") eq_refl ltac:(discriminate) ltac:(discriminate) ltac:(discriminate)).
    + apply (TAG [ch "B"; k]); [reflexivity| | |cbn; lia|discriminate|discriminate|discriminate|discriminate].
      * intros [I|[I|[]]]; [discriminate I|]. subst k. apply GX. vm_compute. tauto.
      * intros [I|[I|[]]]; [discriminate I|]. subst k. apply GX. vm_compute. tauto.
    + apply (TAG (ch "L" :: wstr k)).
      * reflexivity.
      * unfold class_names in GX. cbn [In] in GX. intros I. repeat (destruct GX as [<-|GX]; [vm_compute in I; intuition discriminate|]). destruct GX.
      * unfold class_names in GX. cbn [In] in GX. intros I. repeat (destruct GX as [<-|GX]; [vm_compute in I; intuition discriminate|]). destruct GX.
      * unfold class_names in GX. cbn [In] in GX. repeat (destruct GX as [<-|GX]; [cbn; lia|]). destruct GX.
      * discriminate.
      * unfold class_names in GX. cbn [In] in GX. intros I. repeat (destruct GX as [<-|GX]; [first [reflexivity|vm_compute in I; discriminate I]|]). destruct GX.
      * discriminate.
      * discriminate.
    + specialize (REM (ch "r") p eq_refl). change ((ch "r" =? ch "p") || (ch "r" =? ch "j")) with false in REM. apply REM; [| |vm_compute; tauto|discriminate].
      * intros I. destruct GX as (GX & _). specialize (GX _ I). vm_compute in GX. intuition discriminate.
      * intros I. destruct GX as (GX & _). specialize (GX _ I). vm_compute in GX. intuition discriminate.
    + apply (REM k t eq_refl); [tauto|tauto| |discriminate]. specialize (RK k t (or_introl eq_refl)). change (wstr "pjsr") with (wstr "pjs" ++ wstr "r"). apply in_or_app. now left.
    + destruct GX as (_ & G2 & G3 & G4 & G5 & G6 & _). apply (TAG t); [reflexivity|exact G2|exact G3|exact G4|exact G5| |now intros ->|discriminate].
      intros ->. now elim G6.
Qed.

Lemma parse_run : forall l st, simple_base l -> parseBaseform (render l) st = Ok (optional (run l [] (symbols st) None 0)).
Proof.
  intros l st (G & RK & LU & DE). pose proof (base_run l [] (length (render l)) st [] (repeat 0 (length (render l) + 1)) 0 (symbols st) None 0 0 0 false false false G RK (fun _ => LU) DE) as H.
  cbn [app] in H. unfold parseBaseform. rewrite <- H; [reflexivity|discriminate|intros []|cbn; lia|rewrite repeat_length; cbn; lia|reflexivity|reflexivity|lia].
Qed.

(** ** The machine and the rule *)

Lemma written_cons : forall sy c w, written sy (c :: w) = cap sy c :: written (tl sy) w.
Proof. intros [|y sy] c w; cbn [written cap tl]; [destruct w; reflexivity|reflexivity]. Qed.

Definition no_base (l : list item) : Prop := Forall (fun y => ~ is_base y) l.
Definition whole (w sy : list Z) (l : list item) : list Z := w ++ written sy (surface l).

Definition outcome (l : list item) (w sy : list Z) (xp : option (nat * list Z)) (hx : nat) (v : list Z) : Prop :=
  (exists a k t b, l = a ++ Remark k t :: b /\ is_base (Remark k t) /\ no_base b /\ (hyphens (surface b) <= hyphens t)%nat /\
     v = firstn (length w + length (surface a)) (whole w sy l) ++ symbols t) \/
  (no_base l /\ v = match xp with
                    | Some (n, t) => if (hyphens (surface l) <=? hx)%nat then firstn n (whole w sy l) ++ symbols t else whole w sy l
                    | None => whole w sy l
                    end) \/
  (Exists is_base l /\ (forall a k t b, l = a ++ Remark k t :: b -> is_base (Remark k t) -> no_base b -> (hyphens t < hyphens (surface b))%nat) /\ v = whole w sy l).

Lemma hyphens_app : forall a b, hyphens (a ++ b) = (hyphens a + hyphens b)%nat.
Proof. intros a b. unfold hyphens. rewrite filter_app, app_length. reflexivity. Qed.

(** An item that is not a remark with a base form. *)
Lemma outcome_step : forall x r w sy xp hx w' sy' xp' hx' v, ~ is_base x -> whole w' sy' r = whole w sy (x :: r) -> length w' = (length w + length (surface_item x))%nat ->
  (forall n t, xp' = Some (n, t) -> xp = Some (n, t) /\ (hyphens (surface_item x) <= hx)%nat /\ hx' = (hx - hyphens (surface_item x))%nat) ->
  (xp' = None -> xp = None \/ (hx < hyphens (surface_item x))%nat) ->
  outcome r w' sy' xp' hx' v -> outcome (x :: r) w sy xp hx v.
Proof.
  intros x r w sy xp hx w' sy' xp' hx' v NB W LW X1 X2 O. destruct O as [(a & k & t & b & E & B & N & H & ->)|[(N & ->)|(EX & F & ->)]].
  - left. exists (x :: a), k, t, b. split; [now rewrite E|]. split; [exact B|]. split; [exact N|]. split; [exact H|]. rewrite W, LW, surface_cons, app_length. do 2 f_equal. lia.
  - right. left. split; [constructor; assumption|]. rewrite surface_cons, hyphens_app. destruct xp' as [[n t]|].
    + destruct (X1 n t eq_refl) as (-> & X3 & ->). rewrite W. destruct (hyphens (surface r) <=? hx - hyphens (surface_item x))%nat eqn:Q.
      * apply Nat.leb_le in Q. replace (hyphens (surface_item x) + hyphens (surface r) <=? hx)%nat with true by (symmetry; apply Nat.leb_le; lia). reflexivity.
      * apply Nat.leb_gt in Q. replace (hyphens (surface_item x) + hyphens (surface r) <=? hx)%nat with false by (symmetry; apply Nat.leb_gt; lia). reflexivity.
    + rewrite W. destruct (X2 eq_refl) as [->|X3]; [reflexivity|]. destruct xp as [[n t]|]; [|reflexivity].
      replace (hyphens (surface_item x) + hyphens (surface r) <=? hx)%nat with false by (symmetry; apply Nat.leb_gt; lia). reflexivity.
  - right. right. split; [now apply Exists_cons_tl|]. split; [|exact W]. intros a k t b E B N. destruct a as [|y a]; injection E as -> ->; [now elim NB|]. now apply (F a k t b).
Qed.

Lemma whole_char : forall w sy c x r, surface_item x = [c] -> whole (w ++ [cap sy c]) (tl sy) r = whole w sy (x :: r).
Proof. intros w sy c x r E. unfold whole. rewrite surface_cons, E. cbn [app]. rewrite written_cons, <- app_assoc. reflexivity. Qed.
Lemma whole_none : forall w sy x r, surface_item x = [] -> whole w sy r = whole w sy (x :: r).
Proof. intros w sy x r E. unfold whole. now rewrite surface_cons, E. Qed.

Lemma run_outcome : forall l w sy xp hx, Forall good_item l -> (forall n t, xp = Some (n, t) -> (n <= length w)%nat) -> outcome l w sy xp hx (run l w sy xp hx).
Proof.
  induction l as [|x r IH]; intros w sy xp hx G XN.
  - right. left. split; [constructor|]. cbn [run]. unfold whole. change (surface []) with (@nil Z). replace (written sy []) with (@nil Z) by (destruct sy; reflexivity). rewrite app_nil_r. destruct xp as [[n t]|]; [|reflexivity].
    change (hyphens []) with 0%nat. reflexivity.
  - pose proof (Forall_inv G) as GX. pose proof (Forall_inv_tail G) as GR. specialize (fun w sy xp hx => IH w sy xp hx GR).
    assert (PASS : ~ is_base x -> surface_item x = [] -> outcome (x :: r) w sy xp hx (run r w sy xp hx)).
    { intros NB SX. apply (outcome_step x r w sy xp hx w sy xp hx); [exact NB|now apply whole_none|rewrite SX; cbn; lia| |now left|now apply IH].
      intros n t E. split; [exact E|]. rewrite SX. change (hyphens []) with 0%nat. lia. }
    assert (CHAR : forall c, surface_item x = [c] -> ~ is_base x -> c <> ch "-" -> outcome (x :: r) w sy xp hx (run r (w ++ [cap sy c]) (tl sy) xp hx)).
    { intros c SX NB NH. apply (outcome_step x r w sy xp hx (w ++ [cap sy c]) (tl sy) xp hx); [exact NB|now apply whole_char|rewrite SX, app_length; reflexivity| |now left|].
      - intros n t E. split; [exact E|]. rewrite SX, hyphens_cons, (eqb_neq _ _ NH). change (hyphens []) with 0%nat. lia.
      - apply IH. intros n t E. rewrite app_length. specialize (XN n t E). lia. }
    destruct x as [c| | |k|k|p|k t|t]; cbn [run]; try (apply PASS; [intros (k0 & t0 & E & _); discriminate E|reflexivity]).
    + apply CHAR; [reflexivity|intros (k0 & t0 & E & _); discriminate E|]. intros ->. cbn [good_item] in GX. apply GX. vm_compute. tauto.
    + apply (outcome_step Hyphen r w sy xp hx (w ++ [cap sy (ch "-")]) (tl sy) (match hx with O => None | S _ => xp end) (pred hx)).
      * intros (k0 & t0 & E & _). discriminate E.
      * now apply whole_char.
      * rewrite app_length. reflexivity.
      * change (hyphens (surface_item Hyphen)) with 1%nat. intros n t E. destruct hx as [|hx]; [discriminate E|]. split; [exact E|]. lia.
      * change (hyphens (surface_item Hyphen)) with 1%nat. destruct hx as [|hx]; [right; lia|]. now left.
      * apply IH. intros n t E. rewrite app_length. destruct hx as [|hx]; [discriminate E|]. specialize (XN n t E). lia.
    + apply CHAR; [reflexivity|intros (k0 & t0 & E & _); discriminate E|discriminate].
    + destruct ((k =? ch "p") || (k =? ch "j")) eqn:K.
      * assert (B : is_base (Remark k t)) by (exists k, t; split; [reflexivity|]; apply orb_true_iff in K; rewrite !Z.eqb_eq in K; exact K).
        assert (W : whole w sy (Remark k t :: r) = whole w sy r) by (symmetry; now apply whole_none).
        destruct (IH w sy (Some (length w, t)) (hyphens t)) as [(a & k' & t' & b & -> & B' & N & H & V)|[(N & V)|(EX & F & V)]]; [intros n t' E; injection E as <- <-; lia| | |]; cbv zeta in V; rewrite V, <- W.
        -- left. exists (Remark k t :: a), k', t', b. rewrite surface_cons. auto.
        -- destruct (hyphens (surface r) <=? hyphens t)%nat eqn:Q.
           ++ left. exists [], k, t, r. apply Nat.leb_le in Q. rewrite Nat.add_0_r. auto.
           ++ right. right. apply Nat.leb_gt in Q. split; [now apply Exists_cons_hd|]. split; [|reflexivity]. intros a k' t' b E B' N'. destruct a as [|y a]; cbn [app] in E; [injection E as <- <- <-; exact Q|injection E as E1 E2].
              exfalso. unfold no_base in N. rewrite Forall_forall in N. apply (N (Remark k' t')); [rewrite E2; apply in_or_app; right; now left|exact B'].
        -- right. right. split; [now apply Exists_cons_tl|]. split; [|reflexivity]. intros a k' t' b E B' N'. destruct a as [|y a]; cbn [app] in E; [injection E as <- <- <-|injection E as E1 E2; now apply (F a k' t' b)].
           exfalso. apply Exists_exists in EX. destruct EX as (y & I & Y). unfold no_base in N'. rewrite Forall_forall in N'. exact (N' y I Y).
      * apply PASS; [|reflexivity]. intros (k0 & t0 & E & D). injection E as <- <-. apply orb_false_iff in K. destruct K as [K1 K2]. apply Z.eqb_neq in K1. apply Z.eqb_neq in K2. tauto.
Qed.

Lemma baseform_content : forall l st, simple_base l -> exists v, base_form l st v /\ parseBaseform (render l) st = Ok (optional v).
Proof.
  intros l st S. eexists. split; [|apply parse_run; exact S]. destruct S as (G & _). unfold base_form.
  destruct (run_outcome l [] (symbols st) None 0 G ltac:(discriminate)) as [H|[(N & H)|(_ & F & H)]].
  - left. exact H.
  - right. rewrite H. split; [|reflexivity]. intros a k t b -> B _. exfalso. unfold no_base in N. rewrite Forall_forall in N. apply (N (Remark k t)); [apply in_or_app; right; now left|exact B].
  - right. auto.
Qed.

(** There is one base form only. *)
Lemma last_base_unique : forall l a k t b a' k' t' b', l = a ++ Remark k t :: b -> l = a' ++ Remark k' t' :: b' -> is_base (Remark k t) -> is_base (Remark k' t') -> no_base b -> no_base b' ->
  a = a' /\ k = k' /\ t = t' /\ b = b'.
Proof.
  induction l as [|x l IH]; intros a k t b a' k' t' b' E E' B B' N N'; [destruct a; discriminate E|]. unfold no_base in N, N'. rewrite Forall_forall in N, N'.
  destruct a as [|y a], a' as [|y' a']; cbn [app] in E, E'; injection E as E1 E2; injection E' as E3 E4.
  - rewrite E1 in E3. injection E3 as -> ->. subst. auto.
  - exfalso. apply (N (Remark k' t')); [rewrite <- E2, E4; apply in_or_app; right; now left|exact B'].
  - exfalso. apply (N' (Remark k t)); [rewrite <- E4, E2; apply in_or_app; right; now left|exact B].
  - rewrite <- Forall_forall in N, N'. destruct (IH a k t b a' k' t' b' E2 E4 B B' N N') as (-> & -> & -> & ->). subst. auto.
Qed.

Lemma base_form_unique : forall l st v v', base_form l st v -> base_form l st v' -> v = v'.
Proof.
  intros l st v v' [(a & k & t & b & E & B & N & H & ->)|[F ->]] [(a' & k' & t' & b' & E' & B' & N' & H' & ->)|[F' ->]].
  - destruct (last_base_unique l a k t b a' k' t' b' E E' B B' N N') as (-> & -> & -> & ->). reflexivity.
  - specialize (F' a k t b E B N). lia.
  - specialize (F a' k' t' b' E' B' N'). lia.
  - reflexivity.
Qed.
