(** * Proofs about the base forms of numerals *)
From Verif Require Import Base BaseFacts CharModel AnalysisModel HyphModel FinModel FinSpec FinStructure FinTotal FinBaseform FinWordSpec FinHyphens FinWordBase FinNumeralSpec.
From Coq Require Import Lia.

(** ** The loop, step by step *)

Definition first_set (i : nat) (c : Z) (s : numeral_state) : numeral_state :=
  if Nat.eqb i 0 && (isDigit c || (c =? ch "-"))
  then mk_ns (n_baseform s) (n_pos s) (n_isInXp s) (n_isInXr s) (n_isInTag s) true (n_xpPassed s) else s.

Lemma numeral_loop_step : forall f b len i s, (i < len)%nat -> numeral_loop (S f) b len i s =
  (c <- rd b i ;;
   let s := first_set i c s in
   if c =? ch "[" then
     r <- numeral_tag b len i s ;;
     match r with
     | None => Ok (false, s)
     | Some (k, s) => numeral_loop f b len (S (i + k)) s
     end
   else if n_isInXr s then numeral_loop f b len (S i) s
   else if n_isInTag s then
     numeral_loop f b len (S i)
       (if c =? ch "]" then mk_ns (n_baseform s) (n_pos s) (n_isInXp s) (n_isInXr s) false (n_isInDigitSequence s) (n_xpPassed s)
        else s)
   else if n_isInXp s || n_isInDigitSequence s || negb (n_xpPassed s) || (c =? ch "-") then
     s <- n_put s c ;;
     numeral_loop f b len (S i) s
   else numeral_loop f b len (S i) s).
Proof. intros f b len i s H. cbn [numeral_loop]. replace (i <? len)%nat with true by (symmetry; now apply Nat.ltb_lt). reflexivity. Qed.

Ltac nfields := cbn [n_baseform n_pos n_isInXp n_isInXr n_isInTag n_isInDigitSequence n_xpPassed].

Lemma first_later : forall i c s, (0 < i)%nat -> first_set i c s = s.
Proof. intros [|i] c s H; [lia|reflexivity]. Qed.

(** The rest of a tag. *)
Lemma n_in_tag : forall u pre post f len buf pos dig pas, pre <> [] -> ~ In (ch "[") u -> ~ In (ch "]") u -> (length pre + length u < len)%nat -> (length u < f)%nat ->
  numeral_loop f (pre ++ u ++ ch "]" :: post) len (length pre) (mk_ns buf pos false false true dig pas) =
  numeral_loop (f - S (length u)) (pre ++ u ++ ch "]" :: post) len (length pre + length u + 1) (mk_ns buf pos false false false dig pas).
Proof.
  induction u as [|c u IH]; intros pre post f len buf pos dig pas NP N1 N2 L F; cbn [length] in *; (destruct f as [|f]; [lia|]); rewrite numeral_loop_step by lia;
    (assert (0 < length pre)%nat by (destruct pre; [congruence|cbn; lia])).
  - cbn [app]. rewrite rd_app0. cbn [bind]. cbv zeta. rewrite first_later by assumption. change (ch "]" =? ch "[") with false. cbv iota. nfields. rewrite Z.eqb_refl. replace (S f - 1)%nat with f by lia. replace (length pre + 0 + 1)%nat with (S (length pre)) by lia. reflexivity.
  - cbn [app]. rewrite rd_app0. cbn [bind]. cbv zeta. rewrite first_later by assumption. rewrite eqb_neq by (intros ->; apply N1; now left). nfields. rewrite eqb_neq by (intros ->; apply N2; now left).
    change (pre ++ c :: u ++ ch "]" :: post) with (pre ++ [c] ++ u ++ ch "]" :: post). rewrite app_assoc. replace (S (length pre)) with (length (pre ++ [c])) by (rewrite app_length; cbn; lia).
    rewrite IH; [|destruct pre; discriminate|intros I; apply N1; now right|intros I; apply N2; now right|rewrite app_length; cbn; lia|lia].
    rewrite app_length. cbn [length]. replace (S f - S (S (length u)))%nat with (f - S (length u))%nat by lia. f_equal. lia.
Qed.

(** The text of a pattern. *)
Lemma n_in_xr : forall u pre post f len buf pos dig pas, pre <> [] -> ~ In (ch "[") u -> (length pre + length u <= len)%nat -> (length u <= f)%nat ->
  numeral_loop f (pre ++ u ++ post) len (length pre) (mk_ns buf pos false true false dig pas) =
  numeral_loop (f - length u) (pre ++ u ++ post) len (length pre + length u) (mk_ns buf pos false true false dig pas).
Proof.
  induction u as [|c u IH]; intros pre post f len buf pos dig pas NP N L F; cbn [length] in *.
  - rewrite Nat.add_0_r, Nat.sub_0_r. reflexivity.
  - assert (0 < length pre)%nat by (destruct pre; [congruence|cbn; lia]).
    destruct f as [|f]; [lia|]. rewrite numeral_loop_step by lia. cbn [app]. rewrite rd_app0. cbn [bind]. cbv zeta. rewrite first_later by assumption. rewrite eqb_neq by (intros ->; apply N; now left). nfields.
    change (pre ++ c :: u ++ post) with (pre ++ [c] ++ u ++ post). rewrite app_assoc. replace (S (length pre)) with (length (pre ++ [c])) by (rewrite app_length; cbn; lia).
    rewrite IH; [|destruct pre; discriminate|intros I; apply N; now right|rewrite app_length; cbn; lia|lia].
    rewrite app_length. cbn [length]. replace (S f - S (length u))%nat with (f - length u)%nat by lia. f_equal. lia.
Qed.

(** Text that is not part of a tag. *)
Definition keeps (xp dig pas : bool) (c : Z) : bool := xp || dig || negb pas || (c =? ch "-").

Lemma n_text : forall u pre post f len out junk xp dig pas, pre <> [] -> ~ In (ch "[") u -> (length pre + length u <= len)%nat -> (length u <= f)%nat -> (length u <= length junk)%nat ->
  exists junk', length (out ++ filter (keeps xp dig pas) u ++ junk') = length (out ++ junk) /\
  numeral_loop f (pre ++ u ++ post) len (length pre) (mk_ns (out ++ junk) (length out) xp false false dig pas) =
  numeral_loop (f - length u) (pre ++ u ++ post) len (length pre + length u) (mk_ns ((out ++ filter (keeps xp dig pas) u) ++ junk') (length (out ++ filter (keeps xp dig pas) u)) xp false false dig pas).
Proof.
  induction u as [|c u IH]; intros pre post f len out junk xp dig pas NP N L F J; cbn [length] in *.
  - exists junk. cbn [filter]. rewrite Nat.add_0_r, Nat.sub_0_r, app_nil_r. auto.
  - assert (0 < length pre)%nat by (destruct pre; [congruence|cbn; lia]).
    destruct f as [|f]; [lia|]. rewrite numeral_loop_step by lia. cbn [app]. rewrite rd_app0. cbn [bind]. cbv zeta. rewrite first_later by assumption. rewrite eqb_neq by (intros ->; apply N; now left). nfields.
    change (pre ++ c :: u ++ post) with (pre ++ [c] ++ u ++ post). rewrite app_assoc. replace (S (length pre)) with (length (pre ++ [c])) by (rewrite app_length; cbn; lia).
    cbn [filter]. fold (keeps xp dig pas c). destruct (keeps xp dig pas c).
    + destruct junk as [|j junk]; [cbn in J; lia|]. unfold n_put. nfields. rewrite wr_end. cbn [bind].
      destruct (IH (pre ++ [c]) post f len (out ++ [c]) junk xp dig pas) as (junk' & J1 & J2); [destruct pre; discriminate|intros I; apply N; now right|rewrite app_length; cbn; lia|lia|cbn [length] in J; lia|].
      exists junk'. split; [rewrite !app_length in *; cbn [length] in *; lia|].
      rewrite <- !app_assoc in J2. cbn [app] in J2. rewrite !app_length in J2. cbn [length] in J2. rewrite <- !app_assoc. cbn [app].
      replace (S (length out)) with (length out + 1)%nat by lia. rewrite !app_length. cbn [length].
      replace (length pre + S (length u))%nat with (length pre + 1 + length u)%nat by lia. replace (S f - S (length u))%nat with (f - length u)%nat by lia. exact J2.
    + destruct (IH (pre ++ [c]) post f len out junk xp dig pas) as (junk' & J1 & J2); [destruct pre; discriminate|intros I; apply N; now right|rewrite app_length; cbn; lia|lia|lia|].
      exists junk'. split; [exact J1|]. rewrite J2. rewrite app_length. cbn [length]. replace (S f - S (length u))%nat with (f - length u)%nat by lia. f_equal. lia.
Qed.

(** ** Tags *)

Lemma starts_tag : forall pre body post s k, ~ In (ch "]") body -> ~ In (ch "]") k -> wstr s = ch "[" :: k ++ [ch "]"] ->
  starts (pre ++ ch "[" :: body ++ ch "]" :: post) (length pre) s = Ok (zlist_eqb body k).
Proof.
  intros pre body post s k N M E. unfold starts. replace (length pre) with (length pre + 0)%nat by lia. rewrite skipn_app_more. cbn [skipn]. rewrite E. cbn [prefix_eq]. rewrite Z.eqb_refl. now apply prefix_whole.
Qed.

Definition is_body (body : list Z) (s : string) : bool := zlist_eqb body (wstr s).

Lemma numeral_tag_eval : forall pre body post len buf pos xp xr dig pas, ~ In (ch "]") body -> (length pre + 2 < len)%nat ->
  numeral_tag (pre ++ ch "[" :: body ++ ch "]" :: post) len (length pre) (mk_ns buf pos xp xr false dig pas) =
  Ok (let longer := (length pre + 6 <? len)%nat in let passed := dig || pas in
      if longer && (is_body body "Xp" || is_body body "Xj") then Some (3%nat, mk_ns buf pos true xr false false passed)
      else if longer && is_body body "Xr" then Some (3%nat, mk_ns buf pos xp true false false passed)
      else if Nat.eqb (length pre + 4) len && is_body body "Bc" then None
      else if longer && is_body body "Bc" then Some (3%nat, mk_ns buf pos xp xr false false false)
      else if longer && (is_body body "Ln" || is_body body "Ll" || is_body body "Lnl") then None
      else if is_body body "X" then Some (2%nat, mk_ns buf pos false false false false (if xp then true else passed))
      else Some (0%nat, mk_ns buf pos xp xr true false passed)).
Proof.
  intros pre body post len buf pos xp xr dig pas N L. unfold numeral_tag. nfields.
  assert (S : forall s, ~ In (ch "]") (wstr s) -> starts (pre ++ ch "[" :: body ++ ch "]" :: post) (length pre) (String "[" (s ++ "]")) = Ok (is_body body s)).
  { intros s M. apply starts_tag; [exact N|exact M|]. clear. cbn [wstr]. f_equal. induction s as [|c s IH]; [reflexivity|]. cbn [wstr String.append]. now rewrite IH. }
  replace (len <=? length pre + 2)%nat with false by (symmetry; apply Nat.leb_gt; lia).
  pose proof (S "Xp" ltac:(vm_compute; intuition discriminate))%string as S1. pose proof (S "Xj" ltac:(vm_compute; intuition discriminate))%string as S2. pose proof (S "Xr" ltac:(vm_compute; intuition discriminate))%string as S3.
  pose proof (S "Bc" ltac:(vm_compute; intuition discriminate))%string as S4. pose proof (S "Ln" ltac:(vm_compute; intuition discriminate))%string as S5. pose proof (S "Ll" ltac:(vm_compute; intuition discriminate))%string as S6.
  pose proof (S "Lnl" ltac:(vm_compute; intuition discriminate))%string as S7. pose proof (S "X" ltac:(vm_compute; intuition discriminate))%string as S8.
  cbn [String.append] in S1, S2, S3, S4, S5, S6, S7, S8.
  destruct dig; rewrite S1, S2, S3, S4, S5, S6, S7, S8; cbn [bind orb]; reflexivity.
Qed.

Lemma n_x_end : forall pre post f len buf pos xp xr dig pas, pre <> [] -> (length pre + 2 < len)%nat -> (1 <= f)%nat ->
  numeral_loop f (pre ++ wstr "[X]" ++ post) len (length pre) (mk_ns buf pos xp xr false dig pas) =
  numeral_loop (f - 1) (pre ++ wstr "[X]" ++ post) len (length pre + 3) (mk_ns buf pos false false false false (if xp then true else dig || pas)).
Proof.
  intros pre post f len buf pos xp xr dig pas NP L F. destruct f as [|f]; [lia|]. rewrite numeral_loop_step by lia. change (pre ++ wstr "[X]" ++ post) with (pre ++ ch "[" :: [ch "X"] ++ ch "]" :: post).
  rewrite rd_app0. cbn [bind]. cbv zeta. rewrite first_later by (destruct pre; [congruence|cbn; lia]). rewrite Z.eqb_refl. rewrite numeral_tag_eval by solve [vm_compute; intuition discriminate|lia]. cbv zeta.
  change (is_body [ch "X"] "Xp") with false. change (is_body [ch "X"] "Xj") with false. change (is_body [ch "X"] "Xr") with false. change (is_body [ch "X"] "Bc") with false.
  change (is_body [ch "X"] "Ln") with false. change (is_body [ch "X"] "Ll") with false. change (is_body [ch "X"] "Lnl") with false. change (is_body [ch "X"] "X") with true. cbn [orb]. rewrite !andb_false_r. cbn [bind].
  replace (S f - 1)%nat with f by lia. f_equal. lia.
Qed.

(** ** The machine on items *)

Fixpoint nrun (l : list item) (out : list Z) (dig pas : bool) : option (list Z) :=
  match l with
  | [] => Some out
  | x :: r =>
      match x with
      | Letter c => nrun r (out ++ filter (keeps false dig pas) [c]) dig pas
      | Hyphen => nrun r (out ++ filter (keeps false dig pas) (wstr "-")) dig pas
      | Colon => nrun r (out ++ filter (keeps false dig pas) (wstr ":")) dig pas
      | Remark k t =>
          if (k =? ch "p") || (k =? ch "j") then nrun r (out ++ t) false true
          else nrun r (out ++ filter (keeps false false (dig || pas)) t) false (dig || pas)
      | Boundary k =>
          if k =? ch "c" then
            match render r with
            | [] => None
            | _ => nrun r out false (if (3 <=? length (render r))%nat then false else dig || pas)
            end
          else nrun r out false (dig || pas)
      | Class k =>
          if (((String.eqb k "n" || String.eqb k "l") && (3 <=? length (render r))) || (String.eqb k "nl" && (2 <=? length (render r))))%nat then None
          else nrun r out false (dig || pas)
      | _ => nrun r out false (dig || pas)
      end
  end.

(** A tag that is skipped. *)
Lemma n_other : forall pre body post f len buf pos dig pas, ~ In (ch "[") body -> ~ In (ch "]") body -> (2 <= length body)%nat -> (length pre + length body + 2 <= len)%nat -> (length body + 2 <= f)%nat ->
  let b := pre ++ ch "[" :: body ++ ch "]" :: post in
  (is_body body "Xp" || is_body body "Xj" || is_body body "Xr" = false) -> is_body body "Bc" && (Nat.eqb (length pre + 4) len || (length pre + 6 <? len)%nat) = false ->
  (length pre + 6 <? len)%nat && (is_body body "Ln" || is_body body "Ll" || is_body body "Lnl") = false ->
  numeral_loop f b len (length pre) (mk_ns buf pos false false false dig pas) =
  numeral_loop (f - length body - 2) b len (length pre + (length body + 2)) (mk_ns buf pos false false false false (dig || pas)).
Proof.
  intros pre body post f len buf pos dig pas N1 N2 L2 L F b X B C. destruct f as [|f]; [lia|]. rewrite numeral_loop_step by lia. unfold b. rewrite rd_app0. cbn [bind]. cbv zeta.
  assert (FS : forall s, first_set (length pre) (ch "[") s = s) by (intros s; unfold first_set; change (isDigit (ch "[") || (ch "[" =? ch "-")) with false; now rewrite andb_false_r). rewrite FS, Z.eqb_refl.
  rewrite numeral_tag_eval by solve [exact N2|lia]. cbv zeta. apply orb_false_iff in X. destruct X as [X1 X2]. rewrite X1, X2, C. rewrite !andb_false_r.
  replace (Nat.eqb (length pre + 4) len && is_body body "Bc") with false by (destruct (is_body body "Bc"); [|now rewrite andb_false_r]; cbn [andb] in B; apply orb_false_iff in B; now rewrite (proj1 B)).
  replace ((length pre + 6 <? len)%nat && is_body body "Bc") with false by (destruct (is_body body "Bc"); [|now rewrite andb_false_r]; cbn [andb] in B; apply orb_false_iff in B; now rewrite (proj2 B)).
  replace (is_body body "X") with false by (symmetry; destruct body as [|c [|d u]]; [cbn in L2; lia|cbn in L2; lia|]; unfold is_body; change (wstr "X") with [ch "X"]; cbn [zlist_eqb]; now rewrite andb_false_r).
  cbn [bind]. change (pre ++ ch "[" :: body ++ ch "]" :: post) with (pre ++ [ch "["] ++ body ++ ch "]" :: post). rewrite app_assoc.
  replace (S (length pre + 0)) with (length (pre ++ [ch "["])) by (rewrite app_length; cbn; lia). rewrite n_in_tag; [|destruct pre; discriminate|exact N1|exact N2|rewrite app_length; cbn [length]; lia|lia].
  rewrite app_length. cbn [length]. replace (S f - length body - 2)%nat with (f - S (length body))%nat by lia. f_equal. lia.
Qed.

Lemma filter_all : forall (p : Z -> bool) u, (forall c, p c = true) -> filter p u = u.
Proof. intros p u H. induction u as [|c u IH]; [reflexivity|]. cbn [filter]. now rewrite H, IH. Qed.

Lemma filter_shorter : forall (p : Z -> bool) u, (length (filter p u) <= length u)%nat.
Proof. intros p u. induction u as [|c u IH]; [reflexivity|]. cbn [filter]. destruct (p c); cbn [length]; lia. Qed.

Lemma n_run : forall l pre f out junk dig pas, Forall good_item l -> (pre = [] -> forall c r, render l = c :: r -> isDigit c || (c =? ch "-") = true -> dig = true) ->
  ~ In 0 out -> (length (render l) <= f)%nat -> (length (render l) < length junk)%nat ->
  exists ok v junk' dig' pas', numeral_loop f ((pre ++ render l) ++ [0]) (length (pre ++ render l)) (length pre) (mk_ns (out ++ junk) (length out) false false false dig pas) =
      Ok (ok, mk_ns (v ++ junk') (length v) false false false dig' pas') /\
    length (v ++ junk') = length (out ++ junk) /\ (exists more, v = out ++ more) /\ junk' <> [] /\ ~ In 0 v /\ nrun l out dig pas = (if ok : bool then Some v else None).
Proof.
  induction l as [|x r IH]; intros pre f out junk dig pas G DG NZ LF LJ.
  - change (render []) with (@nil Z) in *. rewrite app_nil_r. exists true, out, junk, dig, pas. split; [destruct f; cbn [numeral_loop]; now rewrite Nat.ltb_irrefl|]. split; [reflexivity|].
    split; [exists []; now rewrite app_nil_r|]. split; [intros ->; cbn in LJ; lia|]. split; [exact NZ|reflexivity].
  - pose proof (Forall_inv G) as GX. pose proof (Forall_inv_tail G) as GR. pose proof (render_item_length x) as RL. rewrite render_cons in *. rewrite app_length in LF, LJ.
    set (b := (pre ++ render_item x ++ render r) ++ [0]). set (len := length (pre ++ render_item x ++ render r)).
    assert (LEN : len = (length pre + length (render_item x) + length (render r))%nat) by (unfold len; rewrite !app_length; lia).
    (* the rest, after the item has been read *)
    assert (REST : forall f' out' junk' dig' pas' N, (length (render r) <= f')%nat -> length (out' ++ junk') = length (out ++ junk) -> (exists more, out' = out ++ more /\ (length more <= length (render_item x))%nat /\ ~ In 0 more) ->
      nrun r out' dig' pas' = N ->
      exists ok v junk'' dig'' pas'', numeral_loop f' b len (length pre + length (render_item x)) (mk_ns (out' ++ junk') (length out') false false false dig' pas') =
        Ok (ok, mk_ns (v ++ junk'') (length v) false false false dig'' pas'') /\
      length (v ++ junk'') = length (out ++ junk) /\ (exists more, v = out ++ more) /\ junk'' <> [] /\ ~ In 0 v /\ N = (if ok : bool then Some v else None)).
    { intros f' out' junk' dig' pas' N H1 H2 (more & -> & H4 & H5) <-. unfold b, len. rewrite (app_assoc pre). rewrite <- app_length.
      destruct (IH (pre ++ render_item x) f' (out ++ more) junk' dig' pas') as (ok & v & junk'' & dig'' & pas'' & E1 & E2 & (m2 & E3) & E4 & E5 & E6); [exact GR| | |exact H1| |].
      - intros Q. exfalso. apply app_eq_nil in Q. destruct Q as [_ Q]. rewrite Q in RL. cbn in RL. lia.
      - intros I. apply in_app_or in I. tauto.
      - rewrite !app_length in H2. lia.
      - exists ok, v, junk'', dig'', pas''. split; [exact E1|]. split; [congruence|]. split; [exists (more ++ m2); now rewrite E3, app_assoc|]. auto. }
    assert (CHAR : forall c, render_item x = [c] -> c <> 0 -> c <> ch "[" ->
      exists ok v junk'' dig'' pas'', numeral_loop f b len (length pre) (mk_ns (out ++ junk) (length out) false false false dig pas) = Ok (ok, mk_ns (v ++ junk'') (length v) false false false dig'' pas'') /\
      length (v ++ junk'') = length (out ++ junk) /\ (exists more, v = out ++ more) /\ junk'' <> [] /\ ~ In 0 v /\ nrun r (out ++ filter (keeps false dig pas) [c]) dig pas = (if ok : bool then Some v else None)).
    { intros c RX C0 CB. rewrite RX in *. cbn [length] in *. destruct f as [|f]; [lia|]. rewrite numeral_loop_step by lia.
      assert (RB : rd b (length pre) = Ok c) by (unfold b; rewrite RX, <- app_assoc; cbn [app]; apply rd_app0). rewrite RB. cbn [bind]. cbv zeta.
      assert (FS : first_set (length pre) c (mk_ns (out ++ junk) (length out) false false false dig pas) = mk_ns (out ++ junk) (length out) false false false dig pas).
      { unfold first_set. destruct (Nat.eqb (length pre) 0) eqn:Q; [|reflexivity]. apply Nat.eqb_eq, length_zero_iff_nil in Q. cbn [andb]. destruct (isDigit c || (c =? ch "-")) eqn:D; [|reflexivity].
        rewrite (DG Q c (render r) eq_refl D). reflexivity. }
      rewrite FS, (eqb_neq _ _ CB). nfields. fold (keeps false dig pas c). cbn [filter]. replace (S (length pre)) with (length pre + 1)%nat by lia. destruct (keeps false dig pas c).
      - destruct junk as [|j junk]; [cbn in LJ; lia|]. unfold n_put. nfields. rewrite wr_end. cbn [bind].
        replace (out ++ c :: junk) with ((out ++ [c]) ++ junk) by (rewrite <- app_assoc; reflexivity). replace (S (length out)) with (length (out ++ [c])) by (rewrite app_length; cbn; lia).
        apply REST; [lia|rewrite !app_length; cbn; lia| |reflexivity]. exists [c]. split; [reflexivity|]. split; [cbn; lia|]. intros [I|[]]; congruence.
      - rewrite app_nil_r. apply REST; [lia|reflexivity| |reflexivity]. exists []. rewrite app_nil_r. split; [reflexivity|]. split; [cbn; lia|]. intros []. }
    assert (TAG : forall body, render_item x = ch "[" :: body ++ [ch "]"] -> ~ In (ch "[") body -> ~ In (ch "]") body -> (2 <= length body)%nat ->
      (is_body body "Xp" || is_body body "Xj" || is_body body "Xr" = false) -> is_body body "Bc" && (Nat.eqb (length pre + 4) len || (length pre + 6 <? len)%nat) = false ->
      (length pre + 6 <? len)%nat && (is_body body "Ln" || is_body body "Ll" || is_body body "Lnl") = false ->
      exists ok v junk'' dig'' pas'', numeral_loop f b len (length pre) (mk_ns (out ++ junk) (length out) false false false dig pas) = Ok (ok, mk_ns (v ++ junk'') (length v) false false false dig'' pas'') /\
      length (v ++ junk'') = length (out ++ junk) /\ (exists more, v = out ++ more) /\ junk'' <> [] /\ ~ In 0 v /\ nrun r out false (dig || pas) = (if ok : bool then Some v else None)).
    { intros body RX N1 N2 L2 X B C. assert (LX : length (render_item x) = (length body + 2)%nat) by (rewrite RX; cbn [length]; rewrite app_length; cbn; lia).
      assert (EB : b = pre ++ ch "[" :: body ++ ch "]" :: render r ++ [0]) by (unfold b; rewrite RX, <- !app_assoc; cbn [app]; rewrite <- !app_assoc; reflexivity).
      rewrite EB. rewrite n_other; [|exact N1|exact N2|exact L2|lia|lia|exact X|exact B|exact C]. rewrite <- EB, <- LX. apply REST; [lia|reflexivity| |reflexivity]. exists []. rewrite app_nil_r. split; [reflexivity|]. split; [cbn; lia|]. intros []. }
    assert (RB : forall body post, b = pre ++ ch "[" :: body ++ ch "]" :: post -> ~ In (ch "]") body -> (length pre + 2 < len)%nat ->
      numeral_loop f b len (length pre) (mk_ns (out ++ junk) (length out) false false false dig pas) =
      match (let longer := (length pre + 6 <? len)%nat in let passed := dig || pas in let buf := out ++ junk in let pos := length out in
      if longer && (is_body body "Xp" || is_body body "Xj") then Some (3%nat, mk_ns buf pos true false false false passed)
      else if longer && is_body body "Xr" then Some (3%nat, mk_ns buf pos false true false false passed)
      else if Nat.eqb (length pre + 4) len && is_body body "Bc" then None
      else if longer && is_body body "Bc" then Some (3%nat, mk_ns buf pos false false false false false)
      else if longer && (is_body body "Ln" || is_body body "Ll" || is_body body "Lnl") then None
      else if is_body body "X" then Some (2%nat, mk_ns buf pos false false false false passed)
      else Some (0%nat, mk_ns buf pos false false true false passed)) with
      | None => Ok (false, mk_ns (out ++ junk) (length out) false false false dig pas)
      | Some (k, s) => numeral_loop (pred f) b len (S (length pre + k)) s
      end).
    { intros body post EB N2 L. destruct f as [|f]; [lia|]. rewrite numeral_loop_step by lia. assert (RB : rd b (length pre) = Ok (ch "[")) by (rewrite EB; apply rd_app0). rewrite RB. cbn [bind]. cbv zeta.
      assert (FS : forall s, first_set (length pre) (ch "[") s = s) by (intros s; unfold first_set; change (isDigit (ch "[") || (ch "[" =? ch "-")) with false; now rewrite andb_false_r). rewrite FS, Z.eqb_refl.
      rewrite EB. rewrite numeral_tag_eval by solve [exact N2|lia]. cbn [bind pred]. reflexivity. }
    assert (REM : forall k t, render_item x = wstr "[X" ++ k :: wstr "]" ++ t ++ wstr "[X]" -> ~ In (ch "[") t -> ~ In 0 t -> ~ In k (wstr "[]") ->
      exists ok v junk'' dig'' pas'', numeral_loop f b len (length pre) (mk_ns (out ++ junk) (length out) false false false dig pas) = Ok (ok, mk_ns (v ++ junk'') (length v) false false false dig'' pas'') /\
      length (v ++ junk'') = length (out ++ junk) /\ (exists more, v = out ++ more) /\ junk'' <> [] /\ ~ In 0 v /\
      (if (k =? ch "p") || (k =? ch "j") then nrun r (out ++ t) false true else if k =? ch "r" then nrun r out false (dig || pas)
          else nrun r (out ++ filter (keeps false false (dig || pas)) t) false (dig || pas)) = (if ok : bool then Some v else None)).
    { intros k t RX N1 N2 K. assert (LX : length (render_item x) = (length t + 7)%nat) by (rewrite RX, app_length; cbn [length]; rewrite !app_length; cbn; lia).
      assert (EB : b = pre ++ ch "[" :: [ch "X"; k] ++ ch "]" :: t ++ wstr "[X]" ++ render r ++ [0]) by (unfold b; rewrite RX, <- !app_assoc; cbn [app]; rewrite <- !app_assoc; reflexivity).
      assert (KB : k <> ch "]") by (intros ->; apply K; vm_compute; tauto). assert (KO : k <> ch "[") by (intros ->; apply K; vm_compute; tauto).
      set (q := pre ++ [ch "["; ch "X"; k; ch "]"]). assert (EQ : b = q ++ t ++ wstr "[X]" ++ render r ++ [0]) by (unfold q; rewrite EB, <- app_assoc; reflexivity).
      assert (LQ : length q = (length pre + 4)%nat) by (unfold q; rewrite app_length; reflexivity). assert (NQ : q <> []) by (unfold q; destruct pre; discriminate).
      assert (XP : is_body [ch "X"; k] "Xp" = (k =? ch "p")) by (unfold is_body; change (wstr "Xp") with [ch "X"; ch "p"]; cbn [zlist_eqb]; rewrite Z.eqb_refl; cbn [andb]; apply andb_true_r).
      assert (XJ : is_body [ch "X"; k] "Xj" = (k =? ch "j")) by (unfold is_body; change (wstr "Xj") with [ch "X"; ch "j"]; cbn [zlist_eqb]; rewrite Z.eqb_refl; cbn [andb]; apply andb_true_r).
      assert (XR : is_body [ch "X"; k] "Xr" = (k =? ch "r")) by (unfold is_body; change (wstr "Xr") with [ch "X"; ch "r"]; cbn [zlist_eqb]; rewrite Z.eqb_refl; cbn [andb]; apply andb_true_r).
      assert (LG : (length pre + 6 <? len)%nat = true) by (apply Nat.ltb_lt; lia).
      (* the end of the remark *)
      assert (FIN : forall f' out' junk' xp xr pas' N, (length (render r) + 1 <= f')%nat -> length (out' ++ junk') = length (out ++ junk) -> (exists more, out' = out ++ more /\ (length more <= length (render_item x))%nat /\ ~ In 0 more) ->
        nrun r out' false (if xp : bool then true else pas') = N ->
        exists ok v junk'' dig'' pas'', numeral_loop f' b len (length q + length t) (mk_ns (out' ++ junk') (length out') xp xr false false pas') =
          Ok (ok, mk_ns (v ++ junk'') (length v) false false false dig'' pas'') /\
        length (v ++ junk'') = length (out ++ junk) /\ (exists more, v = out ++ more) /\ junk'' <> [] /\ ~ In 0 v /\ N = (if ok : bool then Some v else None)).
      { intros f' out' junk' xp xr pas' N H1 H2 H3 H4. rewrite EQ, (app_assoc q t). rewrite <- app_length. rewrite n_x_end; [|destruct q; [congruence|discriminate]|rewrite app_length; lia|lia].
        rewrite <- (app_assoc q t), <- EQ. cbn [orb]. replace (length (q ++ t) + 3)%nat with (length pre + length (render_item x))%nat by (rewrite app_length; lia). apply REST; [lia|exact H2|exact H3|exact H4]. }
      destruct ((k =? ch "p") || (k =? ch "j")) eqn:PJ.
      - rewrite (RB _ _ EB) by solve [intros [I|[I|[]]]; [discriminate I|congruence]|lia]. cbv zeta. rewrite XP, XJ, LG, PJ. cbn [andb].
        replace (S (length pre + 3)) with (length q) by lia. rewrite EQ.
        destruct (n_text t q (wstr "[X]" ++ render r ++ [0]) (pred f) len out junk true false (dig || pas)) as (junk' & J1 & J2); [exact NQ|exact N1|lia|lia|lia|].
        rewrite J2, <- EQ. rewrite (filter_all (keeps true false (dig || pas))) in * by reflexivity. apply FIN; [lia|rewrite <- app_assoc; exact J1| |reflexivity].
        exists t. split; [reflexivity|]. split; [lia|exact N2].
      - destruct (k =? ch "r") eqn:KR.
        + rewrite (RB _ _ EB) by solve [intros [I|[I|[]]]; [discriminate I|congruence]|lia]. cbv zeta. rewrite XP, XJ, XR, LG, PJ. cbn [andb].
          replace (S (length pre + 3)) with (length q) by lia. rewrite EQ. rewrite n_in_xr; [|exact NQ|exact N1|lia|lia]. rewrite <- EQ. apply FIN; [lia|reflexivity| |reflexivity]. exists []. rewrite app_nil_r. split; [reflexivity|]. split; [cbn; lia|]. intros [].
        + assert (OT : numeral_loop f b len (length pre) (mk_ns (out ++ junk) (length out) false false false dig pas) = numeral_loop (f - 2 - 2) b len (length q) (mk_ns (out ++ junk) (length out) false false false false (dig || pas))).
          { rewrite EB. rewrite n_other; [|intros [I|[I|[]]]; [discriminate I|congruence]|intros [I|[I|[]]]; [discriminate I|congruence]|cbn; lia|cbn [length]; lia|cbn [length]; lia| | |].
            - cbn [length]. rewrite LQ. reflexivity.
            - rewrite XP, XJ, XR, PJ. reflexivity.
            - reflexivity.
            - apply andb_false_r. }
          rewrite OT, EQ. destruct (n_text t q (wstr "[X]" ++ render r ++ [0]) (f - 2 - 2) len out junk false false (dig || pas)) as (junk' & J1 & J2); [exact NQ|exact N1|lia|lia|lia|].
          rewrite J2, <- EQ. apply FIN; [lia|rewrite <- app_assoc; exact J1| |reflexivity].
          exists (filter (keeps false false (dig || pas)) t). split; [reflexivity|]. split; [pose proof (filter_shorter (keeps false false (dig || pas)) t); lia|]. intros I. apply filter_In in I. tauto. }
    destruct x as [c| | |k|k|p|k t|t]; cbn [nrun]; cbn [good_item] in GX.
    + apply (CHAR c eq_refl); intros ->; apply GX; vm_compute; tauto.
    + apply (CHAR (ch "-") eq_refl); discriminate.
    + apply (CHAR (ch ":") eq_refl); discriminate.
    + assert (KB : k <> ch "]") by (intros ->; apply GX; vm_compute; tauto). assert (KO : k <> ch "[") by (intros ->; apply GX; vm_compute; tauto).
      assert (BC : is_body [ch "B"; k] "Bc" = (k =? ch "c")) by (unfold is_body; change (wstr "Bc") with [ch "B"; ch "c"]; cbn [zlist_eqb]; rewrite Z.eqb_refl; cbn [andb]; apply andb_true_r).
      assert (LX : length (render_item (Boundary k)) = 4%nat) by reflexivity. rewrite LX in *.
      assert (SAME : (Nat.eqb (length pre + 4) len || (length pre + 6 <? len)%nat) = false \/ (k =? ch "c") = false ->
        exists ok v junk'' dig'' pas'', numeral_loop f b len (length pre) (mk_ns (out ++ junk) (length out) false false false dig pas) = Ok (ok, mk_ns (v ++ junk'') (length v) false false false dig'' pas'') /\
        length (v ++ junk'') = length (out ++ junk) /\ (exists more, v = out ++ more) /\ junk'' <> [] /\ ~ In 0 v /\ nrun r out false (dig || pas) = (if ok : bool then Some v else None)).
      { intros H. apply (TAG [ch "B"; k]); [reflexivity| | |cbn; lia|reflexivity| |].
        - intros [I|[I|[]]]; [discriminate I|congruence].
        - intros [I|[I|[]]]; [discriminate I|congruence].
        - rewrite BC. destruct H as [-> | ->]; [apply andb_false_r|reflexivity].
        - apply andb_false_r. }
      destruct (k =? ch "c") eqn:KC; [|apply SAME; now right]. assert (MB : forall A (y z : A), match render r with [] => y | _ => z end = if Nat.eqb (length (render r)) 0 then y else z) by (intros; destruct (render r); reflexivity).
      rewrite MB. destruct (Nat.eqb (length (render r)) 0) eqn:ER; [apply Nat.eqb_eq in ER|apply Nat.eqb_neq in ER].
      * rewrite (RB [ch "B"; k] (render r ++ [0])) by solve [unfold b; rewrite <- !app_assoc; reflexivity|intros [I|[I|[]]]; [discriminate I|congruence]|lia]. cbv zeta. rewrite BC.
        change (is_body [ch "B"; k] "Xp") with false. change (is_body [ch "B"; k] "Xj") with false. change (is_body [ch "B"; k] "Xr") with false. cbn [orb]. rewrite !andb_false_r.
        replace (Nat.eqb (length pre + 4) len) with true by (symmetry; apply Nat.eqb_eq; lia). cbn [andb].
        exists false, out, junk, dig, pas. split; [reflexivity|]. split; [reflexivity|]. split; [exists []; now rewrite app_nil_r|]. split; [intros ->; cbn in LJ; lia|]. auto.
      * destruct (3 <=? length (render r))%nat eqn:L3.
        -- apply Nat.leb_le in L3. rewrite (RB [ch "B"; k] (render r ++ [0])) by solve [unfold b; rewrite <- !app_assoc; reflexivity|intros [I|[I|[]]]; [discriminate I|congruence]|lia]. cbv zeta. rewrite BC.
           change (is_body [ch "B"; k] "Xp") with false. change (is_body [ch "B"; k] "Xj") with false. change (is_body [ch "B"; k] "Xr") with false. cbn [orb]. rewrite !andb_false_r.
           replace (Nat.eqb (length pre + 4) len) with false by (symmetry; apply Nat.eqb_neq; lia). replace (length pre + 6 <? len)%nat with true by (symmetry; apply Nat.ltb_lt; lia). cbn [andb].
           replace (S (length pre + 3)) with (length pre + 4)%nat by lia. apply REST; [lia|reflexivity| |reflexivity]. exists []. rewrite app_nil_r. split; [reflexivity|]. split; [cbn; lia|]. intros [].
        -- apply Nat.leb_gt in L3. apply SAME. left. apply orb_false_iff. split; [apply Nat.eqb_neq; lia|apply Nat.ltb_ge; lia].
    + assert (NB : ~ In (ch "[") (ch "L" :: wstr k) /\ ~ In (ch "]") (ch "L" :: wstr k) /\ (2 <= length (ch "L" :: wstr k))%nat /\ length (render_item (Class k)) = (length (wstr k) + 3)%nat /\ is_body (ch "L" :: wstr k) "Bc" = false /\
        is_body (ch "L" :: wstr k) "Ln" = String.eqb k "n" /\ is_body (ch "L" :: wstr k) "Ll" = String.eqb k "l" /\ is_body (ch "L" :: wstr k) "Lnl" = String.eqb k "nl" /\
        (String.eqb k "n" || String.eqb k "l" = true -> length (wstr k) = 1%nat) /\ (String.eqb k "nl" = true -> length (wstr k) = 2%nat)).
      { unfold class_names in GX. cbn [In] in GX. repeat (destruct GX as [<-|GX]; [repeat match goal with |- _ /\ _ => split end; first [vm_compute; intuition discriminate|cbn; lia|reflexivity|intros H; vm_compute in H; first [discriminate H|reflexivity]]|]). destruct GX. }
      destruct NB as (N1 & N2 & L2 & LX & B0 & B1 & B2 & B3 & L4 & L5). rewrite LX in *.
      destruct (((String.eqb k "n" || String.eqb k "l") && (3 <=? length (render r))) || (String.eqb k "nl" && (2 <=? length (render r))))%nat eqn:AB.
      * assert (LG : (length pre + 6 <? len)%nat = true).
        { apply Nat.ltb_lt. apply orb_true_iff in AB. destruct AB as [AB|AB]; apply andb_true_iff in AB; destruct AB as [A1 A2]; apply Nat.leb_le in A2; [specialize (L4 A1)|specialize (L5 A1)]; lia. }
        rewrite (RB (ch "L" :: wstr k) (render r ++ [0])) by solve [unfold b; cbn [render_item]; rewrite <- !app_assoc; cbn [app]; rewrite <- ?app_assoc; reflexivity|exact N2|lia]. cbv zeta. rewrite B0, B1, B2, B3, LG.
        change (is_body (ch "L" :: wstr k) "Xp") with false. change (is_body (ch "L" :: wstr k) "Xj") with false. change (is_body (ch "L" :: wstr k) "Xr") with false. cbn [orb andb]. rewrite !andb_false_r.
        replace (String.eqb k "n" || String.eqb k "l" || String.eqb k "nl") with true.
        -- exists false, out, junk, dig, pas. split; [reflexivity|]. split; [reflexivity|]. split; [exists []; now rewrite app_nil_r|]. split; [intros ->; cbn in LJ; lia|]. auto.
        -- symmetry. apply orb_true_iff in AB. destruct AB as [AB|AB]; apply andb_true_iff in AB; destruct AB as [A1 A2]; rewrite A1; [reflexivity|apply orb_true_r].
      * apply (TAG (ch "L" :: wstr k)); [reflexivity|exact N1|exact N2|exact L2|reflexivity|now rewrite B0|]. rewrite B1, B2, B3. destruct (length pre + 6 <? len)%nat eqn:LG; [|reflexivity]. cbn [andb]. apply Nat.ltb_lt in LG.
        apply orb_false_iff in AB. destruct AB as [A1 A2]. apply orb_false_iff. split.
        -- destruct (String.eqb k "n" || String.eqb k "l"); [|reflexivity]. specialize (L4 eq_refl). cbn [andb] in A1. apply Nat.leb_gt in A1. lia.
        -- destruct (String.eqb k "nl"); [|reflexivity]. specialize (L5 eq_refl). cbn [andb] in A2. apply Nat.leb_gt in A2. lia.
    + specialize (REM (ch "r") p eq_refl). change ((ch "r" =? ch "p") || (ch "r" =? ch "j")) with false in REM. change (ch "r" =? ch "r") with true in REM. cbv iota in REM. apply REM.
      * intros I. destruct GX as (GX & _). specialize (GX _ I). vm_compute in GX. intuition discriminate.
      * intros I. destruct GX as (GX & _). specialize (GX _ I). vm_compute in GX. intuition discriminate.
      * vm_compute. intuition discriminate.
    + destruct GX as (G1 & G2 & G3). specialize (REM k t eq_refl G3 G2). assert (KR : (k =? ch "r") = false) by (apply eqb_neq; intros ->; apply G1; vm_compute; tauto). rewrite KR in REM. apply REM. intros I. apply G1. vm_compute in I |- *. tauto.
    + destruct GX as (G1 & G2 & G3 & G4 & G5 & G6 & G7). assert (HX : forall s, hd 0 (wstr s) = ch "X" \/ hd 0 (wstr s) = ch "L" -> is_body t s = false).
      { intros s H. unfold is_body. destruct (zlist_eqb t (wstr s)) eqn:Q; [|reflexivity]. apply zlist_eqb_eq in Q. subst t. tauto. }
      apply (TAG t); [reflexivity|exact G2|exact G3|exact G4| | |].
      * rewrite !HX by (left; reflexivity). reflexivity.
      * unfold is_body. destruct (zlist_eqb t (wstr "Bc")) eqn:Q; [|reflexivity]. apply zlist_eqb_eq in Q. exfalso. subst t. specialize (G7 eq_refl eq_refl). discriminate G7.
      * rewrite !HX by (right; reflexivity). apply andb_false_r.
Qed.
