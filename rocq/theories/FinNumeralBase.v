(** * The base form of all outputs, with numerals *)
From Verif Require Import Base BaseFacts CharModel AnalysisModel HyphModel FinModel FinSpec FinStructure FinTotal FinBaseform FinWordSpec FinHyphens FinWordBase FinNumeralSpec FinNumeralProofs.
From Coq Require Import Lia.

Definition digit_start (r : list item) : bool := match render r with c :: _ => isDigit c || (c =? ch "-") | [] => false end.

Lemma numeral_start : forall r w junk f, Forall good_item r -> ~ In 0 w -> (length (render r) <= f)%nat -> (length (render r) < length junk)%nat ->
  exists ok v junk' dig' pas', numeral_loop f (render r ++ [0]) (length (render r)) 0 (mk_ns (w ++ junk) (length w) false false false false false) =
      Ok (ok, mk_ns (v ++ junk') (length v) false false false dig' pas') /\
    length (v ++ junk') = length (w ++ junk) /\ (exists more, v = w ++ more) /\ junk' <> [] /\ ~ In 0 v /\ nrun r w (digit_start r) false = (if ok : bool then Some v else None).
Proof.
  intros r w junk f G NZ LF LJ.
  destruct (n_run r [] f w junk (digit_start r) false G) as (ok & v & junk' & dig' & pas' & H1 & H2); [|exact NZ|exact LF|exact LJ|].
  - intros _ c r' E D. unfold digit_start. rewrite E. exact D.
  - exists ok, v, junk', dig', pas'. split; [|exact H2]. rewrite <- H1. cbn [app length]. clear H1 H2. destruct (render r) as [|c u] eqn:E.
    + unfold digit_start. rewrite E. reflexivity.
    + destruct f as [|f]; [cbn in LF; lia|]. cbn [app]. rewrite !numeral_loop_step by (cbn; lia). cbn [rd nth_error bind]. cbv zeta. unfold rd. cbn [nth_error bind].
      assert (FS : first_set 0 c (mk_ns (w ++ junk) (length w) false false false (digit_start r) false) = first_set 0 c (mk_ns (w ++ junk) (length w) false false false false false)).
      { unfold first_set, digit_start. rewrite E. nfields. cbn [Nat.eqb andb]. destruct (isDigit c || (c =? ch "-")); reflexivity. }
      rewrite FS. reflexivity.
Qed.

Lemma cstr_end : forall u rest, ~ In 0 u -> cstr (u ++ 0 :: rest) = u.
Proof.
  induction u as [|x u IH]; intros rest M; cbn [app cstr]; [reflexivity|]. rewrite eqb_neq by (intros ->; apply M; now left). f_equal. apply IH. intros I. apply M. now right.
Qed.

Fixpoint runn (l : list item) (w sy : list Z) (xp : option (nat * list Z)) (hx : nat) (cls : bool) : option (list Z) :=
  match l with
  | [] => optional (match xp with Some (n, t) => firstn n w ++ symbols t | None => w end)
  | x :: r =>
      match x with
      | Letter c => runn r (w ++ [cap sy c]) (tl sy) xp hx cls
      | Colon => runn r (w ++ [cap sy (ch ":")]) (tl sy) xp hx cls
      | Hyphen => runn r (w ++ [cap sy (ch "-")]) (tl sy) (match hx with O => None | S _ => xp end) (pred hx) cls
      | Remark k t => if (k =? ch "p") || (k =? ch "j") then runn r w sy (Some (length w, t)) (hyphens t) cls else runn r w sy xp hx cls
      | Class k =>
          if negb cls && String.eqb k "u" && (3 <=? length (render r))%nat then
            match nrun r w (digit_start r) false with Some v => Some v | None => runn r w sy xp hx true end
          else runn r w sy xp hx true
      | _ => runn r w sy xp hx cls
      end
  end.

Lemma base_runn : forall l pre f st w junk sp sy xp xf xb hx ign de cls,
  Forall good_item l -> (forall k t, In (Remark k t) l -> In k (wstr "pjs")) ->
  (forall a b, l = a ++ Class "u" :: b -> (3 <= length (render b))%nat) ->
  (forall a b, l = a ++ Tag (wstr "De") :: b -> ~ In (Class "ep") b) -> (de = true -> ~ In (Class "ep") l) ->
  ~ In 0 w -> (length w <= length pre)%nat -> (length (w ++ junk) = length pre + length (render l) + 1)%nat -> symbols (skipn sp st) = sy ->
  xp_state pre w xp xf xb -> (length (render l) <= f)%nat ->
  bind (base_loop f ((pre ++ render l) ++ [0]) (pre ++ render l) st (length (pre ++ render l)) (length pre) (mk_base (w ++ junk) (length w) xf xb hx sp false false false ign de cls))
    (fin_form (pre ++ render l)) = Ok (runn l w sy xp hx cls).
Proof.
  induction l as [|x r IH]; intros pre f st w junk sp sy xp xf xb hx ign de cls G RK LU DE DE' NZ LW LB SY XP LF.
  - change (render []) with (@nil Z) in *. rewrite app_nil_r in *. cbn [length] in *. rewrite Nat.add_0_r in LB. rewrite app_length in LB.
    replace (base_loop f (pre ++ [0]) pre st (length pre) (length pre) (mk_base (w ++ junk) (length w) xf xb hx sp false false false ign de cls))
      with (@Ok (list Z + option base_state) (inr (Some (mk_base (w ++ junk) (length w) xf xb hx sp false false false ign de cls)))) by (destruct f; cbn [base_loop]; now rewrite Nat.ltb_irrefl).
    cbn [bind runn]. destruct xp as [[n t]|].
    + destruct XP as (-> & X1 & X2 & X3 & p1 & p2 & X4 & X5 & X6 & X7). subst xf. assert (LP : length pre = (length p1 + (length t + S (length p2)))%nat) by (rewrite X4, !app_length; reflexivity).
      rewrite X4. apply fin_some; try assumption; [destruct p1; [cbn in X6; lia|discriminate]|rewrite app_length; lia].
    + cbn [xp_state] in XP. subst xf. apply fin_none; [exact NZ|]. intros ->. cbn in LB. lia.
  - pose proof (Forall_inv G) as GX. pose proof (Forall_inv_tail G) as GR. pose proof (render_item_length x) as RL. rewrite render_cons in *. rewrite (app_length (render_item x)) in LB, LF.
    assert (RKR : forall k t, In (Remark k t) r -> In k (wstr "pjs")) by (intros k t I; apply (RK k t); now right).
    assert (DER : forall a b, r = a ++ Tag (wstr "De") :: b -> ~ In (Class "ep") b) by (intros a b ->; exact (DE (x :: a) b eq_refl)).
    assert (DE2 : forall de', (de' = true -> x = Tag (wstr "De") \/ de = true) -> de' = true -> ~ In (Class "ep") r).
    { intros de' H1 H2 I. destruct (H1 H2) as [->|H3]; [exact (DE [] r eq_refl I)|]. apply (DE' H3). now right. }
    assert (LUR : forall a b, r = a ++ Class "u" :: b -> (3 <= length (render b))%nat) by (intros a b ->; exact (LU (x :: a) b eq_refl)).
    (* the rest, after the item has been read *)
    assert (REST : forall f' w' junk' sp' sy' xp' xf' xb' hx' ign' de' cls', (length (render r) <= f')%nat -> (de' = true -> x = Tag (wstr "De") \/ de = true) ->
      ~ In 0 w' -> (length w' <= length pre + length (render_item x))%nat -> length (w' ++ junk') = length (w ++ junk) -> symbols (skipn sp' st) = sy' -> xp_state (pre ++ render_item x) w' xp' xf' xb' ->
      bind (base_loop f' ((pre ++ render_item x ++ render r) ++ [0]) (pre ++ render_item x ++ render r) st (length (pre ++ render_item x ++ render r)) (length pre + length (render_item x))
        (mk_base (w' ++ junk') (length w') xf' xb' hx' sp' false false false ign' de' cls')) (fin_form (pre ++ render_item x ++ render r)) = Ok (runn r w' sy' xp' hx' cls')).
    { intros f' w' junk' sp' sy' xp' xf' xb' hx' ign' de' cls' H1 H2 H4 H5 H6 H7 H8. rewrite (app_assoc pre). rewrite <- app_length.
      apply IH; [exact GR|exact RKR|exact LUR|exact DER|exact (DE2 de' H2)|exact H4|rewrite app_length; exact H5|rewrite H6, (app_length pre); lia|exact H7|exact H8|exact H1]. }
    assert (CHAR : forall c, render_item x = [c] -> c <> 0 -> c <> ch "[" -> (forall k, x <> Class k) ->
      bind (base_loop f ((pre ++ render_item x ++ render r) ++ [0]) (pre ++ render_item x ++ render r) st (length (pre ++ render_item x ++ render r)) (length pre)
        (mk_base (w ++ junk) (length w) xf xb hx sp false false false ign de cls)) (fin_form (pre ++ render_item x ++ render r)) =
      Ok (runn r (w ++ [cap sy c]) (tl sy) (if c =? ch "-" then match hx with O => None | S _ => xp end else xp) (if c =? ch "-" then pred hx else hx) cls)).
    { intros c RX C0 CB NC. rewrite RX in *. cbn [length app] in *. destruct f as [|f]; [lia|]. rewrite base_loop_step by (rewrite app_length; cbn; lia).
      rewrite (rd_end pre c (render r ++ [0])) by (rewrite <- app_assoc; reflexivity). cbn [bind]. rewrite (eqb_neq _ _ CB). sfields.
      destruct junk as [|j junk]; [rewrite app_nil_r in LB; lia|].
      destruct (base_char_spec c pre r (pre ++ c :: render r) st w j junk xf xb hx sp sy ign de cls xp eq_refl C0 GR) as (xf' & sp' & de' & -> & B1 & B2 & B3); [intros D I; apply (DE' D); now right|exact SY|exact XP|exact CB|].
      cbn [bind]. replace (S (length pre)) with (length pre + 1)%nat by lia. apply REST; [lia|intros D; right; now apply B2| |rewrite app_length; cbn; lia|rewrite !app_length; cbn; lia|exact B1|].
      - intros I. apply in_app_or in I. destruct I as [I|[I|[]]]; [now apply NZ|]. revert I. now apply cap_nonzero.
      - apply xp_state_more. exact B3. }
    assert (TAG : forall body, render_item x = ch "[" :: body ++ [ch "]"] -> ~ In (ch "[") body -> ~ In (ch "]") body -> (2 <= length body)%nat -> hd 0 body <> ch "X" ->
      (body = wstr "Lu" -> cls = true) -> (body = wstr "De" -> x = Tag (wstr "De")) ->
      bind (base_loop f ((pre ++ render_item x ++ render r) ++ [0]) (pre ++ render_item x ++ render r) st (length (pre ++ render_item x ++ render r)) (length pre)
        (mk_base (w ++ junk) (length w) xf xb hx sp false false false ign de cls)) (fin_form (pre ++ render_item x ++ render r)) = Ok (runn r w sy xp hx (cls || (hd 0 body =? ch "L")))).
    { intros body RX N1 N2 L2 NX BU BD. rewrite RX in RL, LF. cbn [length] in RL, LF. rewrite app_length in LF. cbn [length] in LF.
      assert (LX : length (render_item x) = (length body + 2)%nat) by (rewrite RX; cbn [length]; rewrite app_length; cbn; lia).
      destruct (other_tag pre body (render r ++ [0]) f (pre ++ render_item x ++ render r) st (w ++ junk) (length w) xf xb hx sp ign de cls (length (pre ++ render_item x ++ render r)))
        as (f' & ign' & de' & cls' & F1 & F2 & F3 & F4).
      - rewrite RX, <- !app_assoc. cbn [app]. rewrite <- !app_assoc. reflexivity.
      - exact N1.
      - exact N2.
      - exact L2.
      - exact NX.
      - exact BU.
      - rewrite !app_length. lia.
      - reflexivity.
      - lia.
      - rewrite F4. rewrite <- LX, <- F3. apply REST; [lia|intros D; destruct (F2 D) as [D1|D1]; [left; now apply BD|now right]|exact NZ|lia|reflexivity|exact SY|].
        rewrite <- (app_nil_r w). now apply xp_state_more. }
    assert (REM : forall k t, render_item x = wstr "[X" ++ k :: wstr "]" ++ t ++ wstr "[X]" -> ~ In (ch "[") t -> ~ In 0 t -> In k (wstr "pjsr") -> (forall k, x <> Class k) ->
      bind (base_loop f ((pre ++ render_item x ++ render r) ++ [0]) (pre ++ render_item x ++ render r) st (length (pre ++ render_item x ++ render r)) (length pre)
        (mk_base (w ++ junk) (length w) xf xb hx sp false false false ign de cls)) (fin_form (pre ++ render_item x ++ render r)) =
      Ok (if (k =? ch "p") || (k =? ch "j") then runn r w sy (Some (length w, t)) (hyphens t) cls else runn r w sy xp hx cls)).
    { intros k t RX N1 N2 K NC. assert (LX : length (render_item x) = (length t + 7)%nat) by (rewrite RX, app_length; cbn [length]; rewrite !app_length; cbn; lia).
      destruct (x_remark pre k t (render r ++ [0]) f (pre ++ render_item x ++ render r) st (w ++ junk) (length w) xf xb hx sp ign de cls (length (pre ++ render_item x ++ render r)) N1 K) as (f' & F1 & F2).
      - rewrite !app_length. lia.
      - lia.
      - rewrite <- RX in F2. replace (pre ++ render_item x ++ render r ++ [0]) with ((pre ++ render_item x ++ render r) ++ [0]) in F2 by (rewrite <- !app_assoc; reflexivity). rewrite F2, <- LX.
        destruct ((k =? ch "p") || (k =? ch "j")).
        + apply REST; [lia|now right|exact NZ|lia|reflexivity|exact SY|]. cbn [xp_state]. split; [reflexivity|]. split; [lia|]. split; [exact N2|]. split; [exact N1|].
          exists (pre ++ wstr "[X" ++ k :: wstr "]"), (wstr "X]"). split; [rewrite RX, <- !app_assoc; cbn [app]; rewrite <- ?app_assoc; reflexivity|]. rewrite app_length. cbn. lia.
        + apply REST; [lia|now right|exact NZ|lia|reflexivity|exact SY|]. rewrite <- (app_nil_r w). now apply xp_state_more. }
    destruct x as [c| | |k|k|p|k t|t]; cbn [runn]; cbn [good_item] in GX.
    + assert (C1 : c <> 0) by (intros ->; apply GX; now left). assert (C2 : c <> ch "[") by (intros ->; apply GX; vm_compute; tauto). assert (C3 : c <> ch "-") by (intros ->; apply GX; vm_compute; tauto).
      specialize (CHAR c eq_refl C1 C2 ltac:(discriminate)). rewrite (eqb_neq _ _ C3) in CHAR. exact CHAR.
    + exact (CHAR (ch "-") eq_refl ltac:(discriminate) ltac:(discriminate) ltac:(discriminate)).
    + exact (CHAR (ch ":") eq_refl ltac:(discriminate) ltac:(discriminate) ltac:(discriminate)).
    + specialize (TAG [ch "B"; k]). replace (cls || (hd 0 [ch "B"; k] =? ch "L")) with cls in TAG by (symmetry; apply orb_false_r). apply TAG; [reflexivity| | |cbn; lia|discriminate|discriminate|discriminate].
      * intros [I|[I|[]]]; [discriminate I|]. subst k. apply GX. vm_compute. tauto.
      * intros [I|[I|[]]]; [discriminate I|]. subst k. apply GX. vm_compute. tauto.
    + specialize (TAG (ch "L" :: wstr k)). replace (cls || (hd 0 (ch "L" :: wstr k) =? ch "L")) with true in TAG by (symmetry; apply orb_true_r).
      assert (OTHER : (ch "L" :: wstr k = wstr "Lu" -> cls = true) ->
        bind (base_loop f ((pre ++ render_item (Class k) ++ render r) ++ [0]) (pre ++ render_item (Class k) ++ render r) st (length (pre ++ render_item (Class k) ++ render r)) (length pre)
          (mk_base (w ++ junk) (length w) xf xb hx sp false false false ign de cls)) (fin_form (pre ++ render_item (Class k) ++ render r)) = Ok (runn r w sy xp hx true)).
      { intros CU. apply TAG.
        * reflexivity.
        * unfold class_names in GX. cbn [In] in GX. intros I. repeat (destruct GX as [<-|GX]; [vm_compute in I; intuition discriminate|]). destruct GX.
        * unfold class_names in GX. cbn [In] in GX. intros I. repeat (destruct GX as [<-|GX]; [vm_compute in I; intuition discriminate|]). destruct GX.
        * unfold class_names in GX. cbn [In] in GX. repeat (destruct GX as [<-|GX]; [cbn; lia|]). destruct GX.
        * discriminate.
        * exact CU.
        * discriminate. }
      clear TAG. destruct cls; [cbn [negb andb]; now apply OTHER|]. destruct (String.eqb k "u") eqn:KU; cbn [negb andb].
      * clear OTHER. apply String.eqb_eq in KU. subst k. specialize (LU [] r eq_refl). replace (3 <=? length (render r))%nat with true by (symmetry; now apply Nat.leb_le).
        cbn [render_item] in *. change (wstr "[L" ++ wstr "u" ++ wstr "]") with (wstr "[Lu]") in *.
        assert (LX : length (wstr "[Lu]") = 4%nat) by reflexivity.
        destruct f as [|f]; [lia|]. rewrite base_loop_step by (rewrite !app_length; lia).
        set (b := (pre ++ wstr "[Lu]" ++ render r) ++ [0]). assert (EB : b = pre ++ ch "[" :: wstr "Lu" ++ ch "]" :: (render r ++ [0])) by (unfold b; rewrite <- app_assoc; reflexivity).
        assert (RB : rd b (length pre) = Ok (ch "[")) by (rewrite EB; apply rd_app0). rewrite RB. cbn [bind]. rewrite Z.eqb_refl. unfold base_tag.
        replace (length (pre ++ wstr "[Lu]" ++ render r) <=? length pre + 2)%nat with false by (symmetry; apply Nat.leb_gt; rewrite !app_length; lia).
        assert (R1 : rd b (length pre + 1) = Ok (ch "L")) by (rewrite EB; now apply rd_app). assert (R2 : rd b (length pre + 2) = Ok (ch "u")) by (rewrite EB; now apply rd_app). rewrite R1, R2. cbn [bind].
        change (ch "L" =? ch "X") with false. cbv iota.
        assert (SL : starts b (length pre + 1) "Lu]" = Ok true) by (rewrite EB; rewrite (starts_whole pre (wstr "Lu") (render r ++ [0]) "Lu]" (wstr "Lu")) by solve [vm_compute; intuition discriminate|reflexivity]; reflexivity).
        rewrite SL. cbn [bind negb andb]. replace (length pre + 6 <? length (pre ++ wstr "[Lu]" ++ render r))%nat with true by (symmetry; apply Nat.ltb_lt; rewrite !app_length; lia). cbn [andb].
        replace (skipn (length pre + 4) (pre ++ wstr "[Lu]" ++ render r)) with (render r) by (rewrite skipn_app_more; reflexivity).
        unfold parseNumeralBaseform.
        destruct (numeral_start r w junk (length (render r)) GR NZ (le_n _)) as (ok & v & junk' & dig' & pas' & N1 & N2 & (more & N3) & N4 & N5 & N6); [rewrite app_length in LB; lia|].
        rewrite N1. cbn [bind]. rewrite N6. destruct ok.
        -- nfields. destruct junk' as [|j junk']; [congruence|]. rewrite wr_end. cbn [bind]. unfold fin_form. do 2 f_equal. now apply cstr_end.
        -- nfields. cbn [bind]. subst v. rewrite <- app_assoc in N2. rewrite <- (app_assoc w more junk'). replace (S (length pre + 3)) with (length pre + length (wstr "[Lu]"))%nat by lia.
           apply REST; [lia|now right|exact NZ|lia|exact N2|exact SY|]. rewrite <- (app_nil_r w). now apply xp_state_more.
      * apply OTHER. intros E. exfalso. unfold class_names in GX. cbn [In] in GX. repeat (destruct GX as [<-|GX]; [vm_compute in E, KU; solve [discriminate E|discriminate KU]|]). destruct GX.
    + specialize (REM (ch "r") p eq_refl). change ((ch "r" =? ch "p") || (ch "r" =? ch "j")) with false in REM. apply REM; [| |vm_compute; tauto|discriminate].
      * intros I. destruct GX as (GX & _). specialize (GX _ I). vm_compute in GX. intuition discriminate.
      * intros I. destruct GX as (GX & _). specialize (GX _ I). vm_compute in GX. intuition discriminate.
    + apply (REM k t eq_refl); [tauto|tauto| |discriminate]. specialize (RK k t (or_introl eq_refl)). change (wstr "pjsr") with (wstr "pjs" ++ wstr "r"). apply in_or_app. now left.
    + destruct GX as (_ & G2 & G3 & G4 & G5 & G6 & _). specialize (TAG t). replace (cls || (hd 0 t =? ch "L")) with cls in TAG by (rewrite (eqb_neq _ _ G6); symmetry; apply orb_false_r).
      apply TAG; [reflexivity|exact G2|exact G3|exact G4|exact G5| |now intros ->]. intros ->. now elim G6.
Qed.

Lemma parse_runn : forall l st, Forall good_item l -> (forall k t, In (Remark k t) l -> In k (wstr "pjs")) -> (forall a b, l = a ++ Class "u" :: b -> (3 <= length (render b))%nat) ->
  (forall a b, l = a ++ Tag (wstr "De") :: b -> ~ In (Class "ep") b) -> parseBaseform (render l) st = Ok (runn l [] (symbols st) None 0 false).
Proof.
  intros l st G RK LU DE. pose proof (base_runn l [] (length (render l)) st [] (repeat 0 (length (render l) + 1)) 0 (symbols st) None 0 0 0 false false false G RK LU DE) as H.
  cbn [app] in H. unfold parseBaseform. rewrite <- H; [reflexivity|discriminate|intros []|cbn; lia|rewrite repeat_length; cbn; lia|reflexivity|reflexivity|lia].
Qed.

(** ** The machine and the rule for numerals *)

Lemma nrun_prefix : forall r w out dig pas, nrun r (w ++ out) dig pas = option_map (app w) (nrun r out dig pas).
Proof.
  induction r as [|x r IH]; intros w out dig pas; [reflexivity|]. destruct x as [c| | |k|k|p|k t|t]; cbn [nrun]; rewrite <- ?app_assoc; try apply IH.
  - destruct (k =? ch "c"); [|apply IH]. destruct (render r); [reflexivity|apply IH].
  - destruct (_ || _); [reflexivity|apply IH].
  - destruct (_ || _); apply IH.
Qed.

Lemma runn_seen : forall l w sy xp hx, runn l w sy xp hx true = optional (run l w sy xp hx).
Proof. induction l as [|x r IH]; intros w sy xp hx; [reflexivity|]. destruct x as [c| | |k|k|p|k t|t]; cbn [runn run negb andb]; try apply IH. destruct (_ || _); apply IH. Qed.

Lemma runn_numeral : forall a r w sy xp hx, (forall x, In x a -> ~ is_class x) -> (3 <= length (render r))%nat ->
  runn (a ++ Class "u" :: r) w sy xp hx false =
  match nrun r [] (digit_start r) false with Some v => Some ((w ++ written sy (surface a)) ++ v) | None => optional (run (a ++ Class "u" :: r) w sy xp hx) end.
Proof.
  induction a as [|x a IH]; intros r w sy xp hx N L.
  - cbn [app runn run negb andb String.eqb]. change (String.eqb "u" "u") with true. replace (3 <=? length (render r))%nat with true by (symmetry; now apply Nat.leb_le). cbn [andb].
    change (surface []) with (@nil Z). replace (written sy []) with (@nil Z) by (destruct sy; reflexivity). rewrite app_nil_r. rewrite <- (app_nil_r w) at 1. rewrite nrun_prefix.
    destruct (nrun r [] (digit_start r) false); [reflexivity|]. cbn [option_map]. apply runn_seen.
  - specialize (fun w sy xp hx => IH r w sy xp hx (fun y I => N y (or_intror I)) L). rewrite surface_cons.
    assert (CHAR : forall c xp' hx', surface_item x = [c] -> runn (a ++ Class "u" :: r) (w ++ [cap sy c]) (tl sy) xp' hx' false =
      match nrun r [] (digit_start r) false with Some v => Some ((w ++ written sy (surface_item x ++ surface a)) ++ v) | None => optional (run (a ++ Class "u" :: r) (w ++ [cap sy c]) (tl sy) xp' hx') end).
    { intros c xp' hx' E. rewrite E. cbn [app]. rewrite written_cons. rewrite IH. rewrite <- !app_assoc. reflexivity. }
    destruct x as [c| | |k|k|p|k t|t]; cbn [app runn run]; try (apply CHAR; reflexivity); cbn [surface_item app]; try apply IH.
    + exfalso. apply (N (Class k)); [now left|now exists k].
    + destruct (_ || _); apply IH.
Qed.

Lemma runn_other : forall l w sy xp hx, (forall a r, l = a ++ Class "u" :: r -> (forall x, In x a -> ~ is_class x) -> False) -> runn l w sy xp hx false = optional (run l w sy xp hx).
Proof.
  induction l as [|x l IH]; intros w sy xp hx N; [reflexivity|].
  assert (N' : (forall k, x <> Class k) -> forall a r, l = a ++ Class "u" :: r -> (forall x, In x a -> ~ is_class x) -> False).
  { intros NC a r -> M. apply (N (x :: a) r eq_refl). intros y [<-|I]; [intros (k & E); now apply (NC k)|now apply M]. }
  destruct x as [c| | |k|k|p|k t|t]; cbn [runn run]; try (apply IH; apply N'; discriminate).
  - destruct (String.eqb k "u") eqn:U.
    + apply String.eqb_eq in U. subst k. exfalso. apply (N [] l eq_refl). intros y [].
    + cbn [negb andb]. apply runn_seen.
  - destruct (_ || _); apply IH; apply N'; discriminate.
Qed.

(** A noun or an adjective among the parts. *)
Lemma nrun_none : forall r out dig pas, (exists k, In (Class k) r /\ In k ["n"; "l"; "nl"]%string) ->
  (forall a k b, r = a ++ Class k :: b -> In k ["n"; "l"; "nl"]%string -> (3 <= length (render b))%nat) -> nrun r out dig pas = None.
Proof.
  induction r as [|x r IH]; intros out dig pas (k & I & K) R; [destruct I|].
  assert (R' : forall a k b, r = a ++ Class k :: b -> In k ["n"; "l"; "nl"]%string -> (3 <= length (render b))%nat) by (intros a k' b ->; exact (R (x :: a) k' b eq_refl)).
  destruct I as [-> | I].
  - cbn [nrun]. specialize (R [] k r eq_refl K). replace (3 <=? length (render r))%nat with true by (symmetry; now apply Nat.leb_le). replace (2 <=? length (render r))%nat with true by (symmetry; apply Nat.leb_le; lia).
    cbn [In] in K. destruct K as [<-|[<-|[<-|[]]]]; reflexivity.
  - assert (E : exists k, In (Class k) r /\ In k ["n"; "l"; "nl"]%string) by eauto. destruct x as [c| | |k'|k'|p|k' t|t]; cbn [nrun]; try (apply IH; assumption).
    + destruct (k' =? ch "c"); [|now apply IH]. destruct (render r); [reflexivity|now apply IH].
    + destruct (_ || _); [reflexivity|now apply IH].
    + destruct (_ || _); now apply IH.
Qed.

Definition fine (x : item) : Prop := good_item x /\ (forall k, x = Class k -> ~ In k ["n"; "l"; "nl"]%string) /\ (forall k t, x = Remark k t -> is_base x) /\ x <> new_part.

Lemma fine_class : forall k r, fine (Class k) -> (((String.eqb k "n" || String.eqb k "l") && (3 <=? length (render r))) || (String.eqb k "nl" && (2 <=? length (render r))))%nat = false.
Proof.
  intros k r (_ & H & _). specialize (H k eq_refl). cbn [In] in H. replace (String.eqb k "n") with false by (symmetry; apply String.eqb_neq; intros ->; tauto).
  replace (String.eqb k "l") with false by (symmetry; apply String.eqb_neq; intros ->; tauto). replace (String.eqb k "nl") with false by (symmetry; apply String.eqb_neq; intros ->; tauto). reflexivity.
Qed.
Lemma fine_boundary : forall k, fine (Boundary k) -> (k =? ch "c") = false.
Proof. intros k (_ & _ & _ & H). apply eqb_neq. intros ->. now apply H. Qed.
Lemma base_pj : forall k t, is_base (Remark k t) -> (k =? ch "p") || (k =? ch "j") = true.
Proof. intros k t (k' & t' & E & H). injection E as <- <-. apply orb_true_iff. rewrite !Z.eqb_eq. exact H. Qed.
Lemma fine_remark : forall k t, fine (Remark k t) -> (k =? ch "p") || (k =? ch "j") = true.
Proof. intros k t (_ & _ & H & _). exact (base_pj k t (H k t eq_refl)). Qed.

(** The three phases of a part. *)
Lemma nrun_late : forall p rest out, Forall fine p -> nrun (p ++ rest) out false true = nrun rest (out ++ left_over p) false true.
Proof.
  induction p as [|x p IH]; intros rest out F; [cbn [app]; change (left_over []) with (@nil Z); now rewrite app_nil_r|]. pose proof (Forall_inv F) as FX. apply Forall_inv_tail in F.
  change (left_over (x :: p)) with ((match x with Hyphen => wstr "-" | Remark _ t => t | _ => [] end) ++ left_over p).
  destruct x as [c| | |k|k|q|k t|t]; cbn [app nrun].
  - assert (C : c <> ch "-") by (intros ->; destruct FX as (G & _); apply G; vm_compute; tauto). cbn [filter]. unfold keeps at 1. rewrite (eqb_neq _ _ C). cbn [orb negb]. rewrite app_nil_r. now apply IH.
  - change (filter (keeps false false true) (wstr "-")) with (wstr "-"). rewrite IH by exact F. now rewrite <- ?app_assoc.
  - change (filter (keeps false false true) (wstr ":")) with (@nil Z). rewrite app_nil_r. now apply IH.
  - rewrite (fine_boundary k FX). now apply IH.
  - rewrite (fine_class k _ FX). now apply IH.
  - now apply IH.
  - rewrite (fine_remark k t FX). rewrite IH by exact F. now rewrite <- ?app_assoc.
  - now apply IH.
Qed.

Lemma nrun_early : forall p rest out, Forall fine p -> Forall (fun x => ~ is_base x) p -> nrun (p ++ rest) out false false = nrun rest (out ++ surface p) false false.
Proof.
  induction p as [|x p IH]; intros rest out F B; [cbn [app]; change (surface []) with (@nil Z); now rewrite app_nil_r|]. pose proof (Forall_inv F) as FX. apply Forall_inv_tail in F. pose proof (Forall_inv B) as BX. apply Forall_inv_tail in B.
  rewrite surface_cons. destruct x as [c| | |k|k|q|k t|t]; cbn [app nrun surface_item filter]; try (now apply IH).
  - change (keeps false false false c) with true. rewrite IH by assumption. now rewrite <- app_assoc.
  - change (filter (keeps false false false) (wstr "-")) with (wstr "-"). rewrite IH by assumption. now rewrite <- app_assoc.
  - change (filter (keeps false false false) (wstr ":")) with (wstr ":"). rewrite IH by assumption. now rewrite <- app_assoc.
  - rewrite (fine_boundary k FX). now apply IH.
  - rewrite (fine_class k _ FX). now apply IH.
  - elim BX. exact (proj1 (proj2 (proj2 FX)) k t eq_refl).
Qed.

Lemma nrun_digits : forall p rest out, Forall plain p -> nrun (p ++ rest) out true false = nrun rest (out ++ surface p) true false.
Proof.
  induction p as [|x p IH]; intros rest out F; [cbn [app]; change (surface []) with (@nil Z); now rewrite app_nil_r|]. pose proof (Forall_inv F) as FX. apply Forall_inv_tail in F.
  rewrite surface_cons. destruct x as [c| | |k|k|q|k t|t]; try now elim FX; cbn [app nrun surface_item filter].
  - cbn [app nrun surface_item filter]. change (keeps false true false c) with true. rewrite IH by assumption. now rewrite <- app_assoc.
  - cbn [app nrun surface_item]. change (filter (keeps false true false) (wstr "-")) with (wstr "-"). rewrite IH by assumption. now rewrite <- app_assoc.
  - cbn [app nrun surface_item]. change (filter (keeps false true false) (wstr ":")) with (wstr ":"). rewrite IH by assumption. now rewrite <- app_assoc.
Qed.

(** A whole part; behind it, the numeral ends or the next part begins. *)
Definition goes_on (rest : list item) (k : list Z -> option (list Z)) : Prop := forall out dig pas, nrun rest out dig pas = k out.

Lemma nrun_part : forall p v rest k out, Forall fine p -> part_form p v -> goes_on rest k -> nrun (p ++ rest) out false false = k (out ++ v).
Proof.
  intros p v rest k out F [[B ->]|(a & c & t & b & -> & B & R & ->)] K.
  - rewrite nrun_early by assumption. apply K.
  - apply Forall_app in F. destruct F as [F1 F2]. rewrite <- app_assoc. rewrite nrun_early by assumption. cbn [app nrun]. rewrite (base_pj _ _ R). rewrite nrun_late by exact (Forall_inv_tail F2). rewrite K. now rewrite <- !app_assoc.
Qed.

Lemma nrun_digit_part : forall p v rest k out, Forall fine p -> digits_form p v -> goes_on rest k -> nrun (p ++ rest) out true false = k (out ++ v).
Proof.
  intros p v rest k out F (a & b & -> & P & B & ->) K. apply Forall_app in F. destruct F as [_ F]. rewrite <- app_assoc, nrun_digits by exact P. destruct B as [-> |(x & b' & -> & NP)].
  - cbn [app]. rewrite K. change (left_over []) with (@nil Z). now rewrite app_nil_r.
  - assert (S : nrun ((x :: b') ++ rest) (out ++ surface a) true false = nrun ((x :: b') ++ rest) (out ++ surface a) false true).
    { pose proof (Forall_inv F) as FX. destruct x as [c| | |k'|k'|q|k' t|t]; try (elim NP; exact I); cbn [app nrun orb]; reflexivity. }
    rewrite S, nrun_late by exact F. rewrite K. now rewrite <- app_assoc.
Qed.

Lemma joined_cons : forall p q ps, joined (p :: q :: ps) = p ++ new_part :: joined (q :: ps).
Proof. reflexivity. Qed.

Lemma parts_fine : forall ps q, Forall good_item (joined ps) -> (forall k, In (Class k) (joined ps) -> ~ In k ["n"; "l"; "nl"]%string) -> (forall k t, In (Remark k t) (joined ps) -> is_base (Remark k t)) ->
  (forall q, In q ps -> ~ In new_part q) -> In q ps -> Forall fine q.
Proof.
  intros ps q G C R N I. assert (S : forall x, In x q -> In x (joined ps)).
  { clear - I. revert I. induction ps as [|p ps IH]; intros I x X; [destruct I|]. destruct ps as [|p' ps]; [destruct I as [<-|[]]; exact X|]. rewrite joined_cons. apply in_or_app. destruct I as [<-|I]; [now left|right; right; now apply IH]. }
  apply Forall_forall. intros x X. rewrite Forall_forall in G. split; [exact (G x (S x X))|]. split; [intros k ->; apply C; now apply S|]. split; [intros k t ->; apply R; now apply S|]. intros ->. exact (N q I X).
Qed.

Lemma nrun_joined : forall ps fs p f first out, (forall q, In q (p :: ps) -> Forall fine q) -> (forall a b, joined (p :: ps) = a ++ new_part :: b -> (3 <= length (render b))%nat) ->
  Forall2 part_form ps fs -> (if first : bool then digits_form p f else part_form p f) -> nrun (joined (p :: ps)) out first false = Some (out ++ f ++ concat fs).
Proof.
  induction ps as [|q ps IH]; intros fs p f first out F R PF P.
  - inversion PF. subst. cbn [joined concat]. rewrite app_nil_r. rewrite <- (app_nil_r p). destruct first.
    + rewrite (nrun_digit_part p f [] Some out); [reflexivity|apply F; now left|exact P|intros ? ? ?; reflexivity].
    + rewrite (nrun_part p f [] Some out); [reflexivity|apply F; now left|exact P|intros ? ? ?; reflexivity].
  - inversion PF as [|? g ? gs PQ PF']. subst. rewrite joined_cons in *.
    assert (K : goes_on (new_part :: joined (q :: ps)) (fun out => Some (out ++ g ++ concat gs))).
    { intros o d b. pose proof R as R0. specialize (R p (joined (q :: ps)) eq_refl). change new_part with (Boundary (ch "c")). cbn [nrun]. rewrite Z.eqb_refl. replace (3 <=? length (render (joined (q :: ps))))%nat with true by (symmetry; now apply Nat.leb_le).
      destruct (render (joined (q :: ps))) eqn:E; [cbn in R; lia|]. rewrite (IH gs q g false o); [reflexivity| | |exact PF'|exact PQ].
      - intros q' I. apply F. now right.
      - intros a b' E'. rewrite E' in *. apply (R0 (p ++ new_part :: a) b'). now rewrite <- app_assoc. }
    cbn [concat]. destruct first.
    + rewrite (nrun_digit_part p f _ _ out ltac:(apply F; now left) P K). cbv beta. now rewrite <- app_assoc.
    + rewrite (nrun_part p f _ _ out ltac:(apply F; now left) P K). cbv beta. now rewrite <- app_assoc.
Qed.

(** There is one base form. *)
Lemma split_parts : forall r, exists p ps, r = joined (p :: ps) /\ forall q, In q (p :: ps) -> ~ In new_part q.
Proof.
  induction r as [|x r (p & ps & -> & N)].
  - exists [], []. split; [reflexivity|]. intros q [<-|[]] [].
  - assert (D : x = new_part \/ x <> new_part).
    { destruct x as [c| | |k|k|q|k t|t]; try (right; discriminate). destruct (Z.eq_dec k (ch "c")) as [->|K]; [now left|]. right. intros E. injection E as E. now apply K. }
    destruct D as [->|D].
    + exists [], (p :: ps). split; [reflexivity|]. intros q [<-|I]; [intros []|now apply N].
    + exists (x :: p), ps. split; [destruct ps; reflexivity|]. intros q [<-|I]; [|apply N; now right]. intros [E|E]; [congruence|]. apply (N p (or_introl eq_refl) E).
Qed.

Lemma base_or_not : forall x, is_base x \/ ~ is_base x.
Proof.
  intros x. destruct x as [c| | |k|k|q|k t|t]; try (right; intros (k0 & t0 & E & _); discriminate E). destruct (Z.eq_dec k (ch "p")) as [->|K]; [left; exists (ch "p"), t; auto|].
  destruct (Z.eq_dec k (ch "j")) as [->|K']; [left; exists (ch "j"), t; auto|]. right. intros (k0 & t0 & E & D). injection E as <- <-. tauto.
Qed.

Lemma part_exists : forall p, exists v, part_form p v.
Proof.
  intros p. assert (H : Forall (fun x => ~ is_base x) p \/ exists a k t b, p = a ++ Remark k t :: b /\ Forall (fun x => ~ is_base x) a /\ is_base (Remark k t)).
  { induction p as [|x p IH]; [left; constructor|]. destruct (base_or_not x) as [B|B].
    - right. destruct B as (k & t & -> & D). exists [], k, t, p. split; [reflexivity|]. split; [constructor|]. exists k, t. auto.
    - destruct IH as [IH|(a & k & t & b & -> & F & D)]; [left; constructor; assumption|]. right. exists (x :: a), k, t, b. split; [reflexivity|]. split; [constructor; assumption|exact D]. }
  destruct H as [H|(a & k & t & b & E & F & D)]; [exists (surface p); now left|]. exists (surface a ++ t ++ left_over b). right. exists a, k, t, b. auto.
Qed.

Lemma digits_exists : forall p, exists v, digits_form p v.
Proof.
  intros p. assert (H : exists a b, p = a ++ b /\ Forall plain a /\ (b = [] \/ exists x b', b = x :: b' /\ ~ plain x)).
  { induction p as [|x p (a & b & -> & P & B)]; [exists [], []; split; [reflexivity|]; split; [constructor|now left]|].
    assert (D : plain x \/ ~ plain x) by (destruct x; cbn [plain]; tauto). destruct D as [D|D]; [exists (x :: a), b; split; [reflexivity|]; split; [constructor; assumption|exact B]|].
    exists [], (x :: a ++ b). split; [reflexivity|]. split; [constructor|]. right. now exists x, (a ++ b). }
  destruct H as (a & b & E & P & B). exists (surface a ++ left_over b), a, b. auto.
Qed.

Lemma in_digits_dec : forall p, in_digits p \/ ~ in_digits p.
Proof. intros [|[c| | |k|k|q|k t|t] p]; cbn [in_digits]; try tauto. destruct (isDigit c); [now left|right; discriminate]. Qed.

Lemma form_exists : forall r, exists v, numeral_form r v.
Proof.
  intros r. destruct (split_parts r) as (p & ps & E & N). assert (FS : exists fs, Forall2 part_form ps fs).
  { clear. induction ps as [|q ps (fs & IH)]; [exists []; constructor|]. destruct (part_exists q) as [v V]. exists (v :: fs). now constructor. }
  destruct FS as [fs FS]. destruct (in_digits_dec p) as [D|D].
  - destruct (digits_exists p) as [f F]. exists (f ++ concat fs), p, ps, f, fs. split; [exact E|]. split; [exact N|]. tauto.
  - destruct (part_exists p) as [f F]. exists (f ++ concat fs), p, ps, f, fs. split; [exact E|]. split; [exact N|]. tauto.
Qed.

Lemma digit_start_parts : forall p ps, Forall good_item (joined (p :: ps)) -> (digit_start (joined (p :: ps)) = true <-> in_digits p).
Proof.
  intros [|x p] ps G.
  - split; [|intros []]. destruct ps as [|q ps]; [discriminate|]. rewrite joined_cons. cbn [app]. unfold digit_start. rewrite render_cons. vm_compute. discriminate.
  - assert (E : exists r, joined ((x :: p) :: ps) = x :: r) by (destruct ps as [|q ps]; [now exists p|]; rewrite joined_cons; now eexists). destruct E as [r E]. rewrite E in *. unfold digit_start. rewrite render_cons. apply Forall_inv in G.
    destruct x as [c| | |k|k|q|k t|t]; cbn [render_item in_digits]; try (split; [vm_compute; discriminate|intros []]).
    + cbn [app good_item] in *. rewrite (eqb_neq c (ch "-")), orb_false_r; [reflexivity|]. intros ->. apply G. vm_compute. tauto.
    + split; [intros _; exact I|reflexivity].
Qed.

Lemma form_found : forall r v, Forall good_item r -> (forall k, In (Class k) r -> ~ In k ["n"; "l"; "nl"]%string) -> (forall k t, In (Remark k t) r -> is_base (Remark k t)) ->
  (forall a b, r = a ++ new_part :: b -> (3 <= length (render b))%nat) -> numeral_form r v -> nrun r [] (digit_start r) false = Some v.
Proof.
  intros r v G C K R (p & ps & f & fs & -> & N & D1 & D2 & FS & ->). pose proof (digit_start_parts p ps G) as DS.
  rewrite (nrun_joined ps fs p f (digit_start (joined (p :: ps))) []); [reflexivity| |exact R|exact FS|].
  - intros q I. exact (parts_fine (p :: ps) q G C K N I).
  - destruct (digit_start (joined (p :: ps))); [apply D1; now apply DS|]. apply D2. intros I. apply DS in I. discriminate I.
Qed.
