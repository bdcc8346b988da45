(** * How the symbols that the dictionary compiler wrote are loaded. *)
From Coq Require Import Permutation.
From Verif Require Import Base BaseFacts Utf8Model Utf8Spec Utf8Proofs FstModel FstFileModel FstFileProofs CompilerModel CompilerSpec CompilerSymbols CompilerReading.

(** The characters of the text of a symbol. *)
Definition characters (s : symbol) : list Z := match s with Epsilon => [] | Flag _ _ _ => text s | Letter c => [c] | Tag t => 0x5B :: t end.

Lemma ascii_text : forall l, Forall (fun c => 0 < c < 128) l -> utf8_text l = l /\ Forall encodable l.
Proof.
  induction l as [|c l IH]; intros F; [split; [reflexivity|constructor]|]. inversion F; subst. destruct IH as [I1 I2]; auto. split.
  - unfold utf8_text in *. cbn [map concat]. rewrite I1. unfold rfc3629. destruct (Z.ltb_spec c 128); [reflexivity|lia].
  - constructor; auto. unfold encodable. lia.
Qed.

Lemma flag_ascii : forall op f v, proper_symbol (Flag op f v) -> Forall (fun c => 0 < c < 128) (text (Flag op f v)).
Proof.
  intros op f v ((_ & F) & _ & V). cbn [text app]. constructor; [lia|]. constructor; [destruct op; cbn; lia|]. constructor; [lia|].
  apply Forall_app. split; auto. destruct v as [x|]; cbn [app]; [|repeat constructor; lia]. destruct V as ((_ & X) & _).
  constructor; [lia|]. apply Forall_app. split; auto. repeat constructor; lia.
Qed.

Lemma characters_ok : forall s, proper_symbol s -> ucs4FromUtf8 (text s) = Ok (Some (characters s)).
Proof.
  intros s P.
  assert (text s = utf8_text (characters s) /\ Forall encodable (characters s)) as [E F].
  { destruct s as [|op f v|c|t]; cbn [characters].
    - split; [reflexivity|constructor].
    - destruct (ascii_text _ (flag_ascii op f v P)). auto.
    - unfold utf8_text. cbn [text map concat]. rewrite app_nil_r. split; auto. constructor; [|constructor]. apply P.
    - cbn [text]. unfold utf8_text. cbn [map concat]. split; [reflexivity|]. constructor; [unfold encodable; lia|]. apply P. }
  rewrite E. apply ucs4FromUtf8_encoded. auto.
Qed.

(** ** Flag diacritics *)

Lemma split_at_in : forall c a b, ~ In c a -> split_at c (a ++ c :: b) = Some (a, b).
Proof.
  induction a as [|x a IH]; intros b N; cbn [app split_at]; [rewrite Z.eqb_refl; reflexivity|].
  destruct (Z.eqb_spec x c) as [->|]; [elim N; left; auto|]. rewrite IH; auto. intros X. apply N. right. auto.
Qed.
Lemma split_at_none : forall c a, ~ In c a -> split_at c a = None.
Proof.
  induction a as [|x a IH]; intros N; cbn [split_at]; [reflexivity|].
  destruct (Z.eqb_spec x c) as [->|]; [elim N; left; auto|]. rewrite IH; auto. intros X. apply N. right. auto.
Qed.

(** Numbers of names. *)
Definition extend (l : list (list Z)) (s : list Z) : nat * list (list Z) :=
  match index_of l s with Some i => (i, l) | None => (length l, l ++ [s]) end.
Lemma extend_ok : forall l s, exists m, snd (extend l s) = l ++ m /\ index_of (snd (extend l s)) s = Some (fst (extend l s)).
Proof.
  intros l s. unfold extend. destruct (index_of l s) eqn:E; cbn [fst snd].
  - exists []. rewrite app_nil_r. auto.
  - exists [s]. split; auto. apply index_of_app_new. apply index_of_none. auto.
Qed.

Lemma diacritic_ok : forall op f v features values, proper_symbol (Flag op f v) -> exists fi vi mf mv,
  getDiacriticOperation (text (Flag op f v)) features values = Some (mk_ofv op fi (Z.of_nat vi), features ++ mf, values ++ mv) /\
  index_of (features ++ mf) f = Some fi /\ index_of (values ++ mv) (flag_value v) = Some vi.
Proof.
  intros op f v features values ((NE & F) & ND & V).
  set (body := f ++ match v with Some x => 0x2E :: x | None => [] end).
  assert (text (Flag op f v) = 0x40 :: op_letter op :: 0x2E :: body ++ [0x40]) as T.
  { cbn [text app]. unfold body. rewrite <- app_assoc. reflexivity. }
  assert (length body <> 0%nat) as LB by (unfold body; destruct f; [congruence|discriminate]).
  unfold getDiacriticOperation. rewrite T.
  assert (length (0x40 :: op_letter op :: 0x2E :: body ++ [0x40]) = (4 + length body)%nat) as -> by (cbn [length]; rewrite app_length; cbn; lia).
  destruct (Nat.leb_spec (4 + length body) 4); [lia|].
  replace (4 + length body - 4)%nat with (length body) by lia. cbn [skipn].
  rewrite firstn_app, firstn_all, Nat.sub_diag, firstn_O, app_nil_r.
  assert (match split_at 0x2E body with Some (f, v) => (f, v) | None => (body, wstr "@") end = (f, flag_value v)) as ->.
  { unfold body. destruct v as [x|]; [rewrite split_at_in by auto; reflexivity|rewrite app_nil_r, split_at_none by auto; reflexivity]. }
  destruct (extend_ok features f) as (mf & X1 & X2). destruct (extend_ok values (flag_value v)) as (mv & Y1 & Y2).
  fold (extend features f). destruct (extend features f) as [fi fs]. fold (extend values (flag_value v)). destruct (extend values (flag_value v)) as [vi vs].
  cbn [fst snd] in *. subst fs vs. exists fi, vi, mf, mv. split; auto. cbn [nth_error]. destruct op; reflexivity.
Qed.

(** ** The three parts of the list of symbols *)

Lemma load_one : forall s n i rest st, proper_symbol s -> (i =? 0) = false ->
  load_symbols (S n) i (head_body [text s] ++ rest) st =
    (o <- load_symbol i (text s) (Some (characters s)) st ;; match o with None => Ok None | Some st => load_symbols n (i + 1) rest st end).
Proof.
  intros s n i rest st P I. cbn [load_symbols]. unfold head_body. cbn [flat_map]. rewrite app_nil_r, <- app_assoc. cbn [app].
  rewrite take_string_text by (apply proper_bytes; auto). cbn [bind]. rewrite characters_ok by auto. cbn [bind]. rewrite I. reflexivity.
Qed.

Definition grows {A} (a b : list A) : Prop := exists m, b = a ++ m.
Lemma grows_index : forall a b s i, grows a b -> index_of a s = Some i -> index_of b s = Some i.
Proof. intros a b s i (m & ->). apply index_of_app. Qed.
Lemma grows_trans : forall A (a b c : list A), grows a b -> grows b c -> grows a c.
Proof. intros A a b c (m & ->) (n & ->). exists (m ++ n). rewrite app_assoc. auto. Qed.
Lemma grows_refl : forall A (a : list A), grows a a.
Proof. intros. exists []. rewrite app_nil_r. auto. Qed.

Definition is_flag (s : symbol) : Prop := match s with Flag _ _ _ => True | _ => False end.
Definition is_letter (s : symbol) : Prop := match s with Letter _ => True | _ => False end.
Definition is_tag (s : symbol) : Prop := match s with Tag _ => True | _ => False end.

Definition flag_known (fs vs : list (list Z)) (s : symbol) (o : OpFeatureValue) : Prop :=
  match s with
  | Flag op f v => exists fi vi, o = mk_ofv op fi (Z.of_nat vi) /\ index_of fs f = Some fi /\ index_of vs (flag_value v) = Some vi
  | _ => True
  end.
Lemma flag_known_grows : forall fs vs fs' vs' s o, grows fs fs' -> grows vs vs' -> flag_known fs vs s o -> flag_known fs' vs' s o.
Proof.
  intros fs vs fs' vs' [|op f v|c|t] o A B; cbn; auto. intros (fi & vi & -> & X & Y). exists fi, vi. conjs; auto; eapply grows_index; eauto.
Qed.

Lemma load_flags : forall F n i rest st, Forall proper_symbol F -> Forall is_flag F -> 0 < i -> st_firstNormal st = 0 -> st_firstMulti st = 0 ->
  exists O fs vs,
    load_symbols (length F + n) i (head_body (map text F) ++ rest) st =
      load_symbols n (i + Z.of_nat (length F)) rest
        (mk_symtab (st_strings st ++ map characters F) (st_diacritics st ++ O) fs vs (st_chars st) 0 0) /\
    grows (st_features st) fs /\ grows (st_values st) vs /\ Forall2 (flag_known fs vs) F O.
Proof.
  induction F as [|s F IH]; intros n i rest st P C I N M.
  - exists [], (st_features st), (st_values st). cbn [length map]. rewrite !app_nil_r, Z.add_0_r. cbn [head_body flat_map app].
    destruct st; cbn in *; subst. conjs; auto using grows_refl. 
  - inversion P as [|? ? P1 P2]; subst. inversion C as [|? ? C1 C2]; subst. destruct s as [|op f v| |]; try contradiction C1. clear C1.
    cbn [length plus map]. change (head_body (text (Flag op f v) :: map text F)) with (head_body ([text (Flag op f v)] ++ map text F)).
    unfold head_body at 1. rewrite flat_map_app. fold (head_body [text (Flag op f v)]). fold (head_body (map text F)). rewrite <- app_assoc.
    rewrite load_one; auto; [|apply Z.eqb_neq; lia].
    destruct (diacritic_ok op f v (st_features st) (st_values st) P1) as (fi & vi & mf & mv & D & X & Y).
    unfold load_symbol. rewrite N, M. change (match text (Flag op f v) with c :: _ => c =? 0x40 | [] => false end) with true. cbn [andb Z.eqb]. rewrite D. cbn [option_map].
    cbn [Z.ltb Z.compare andb bind].
    match goal with |- context [load_symbols _ (i + 1) _ ?x] => set (st1 := x) end.
    destruct (IH n (i + 1) rest st1) as (O & fs & vs & E & G1 & G2 & K); auto; [lia|].
    exists (mk_ofv op fi (Z.of_nat vi) :: O), fs, vs. rewrite E. subst st1. cbn [st_strings st_diacritics st_features st_values st_chars] in *. conjs.
    + rewrite <- !app_assoc. cbn [app]. f_equal. lia.
    + eapply grows_trans; [|exact G1]. eexists; eauto.
    + eapply grows_trans; [|exact G2]. eexists; eauto.
    + constructor; auto. cbn [flag_known]. exists fi, vi. conjs; auto; eapply grows_index; eauto.
Qed.

(** The map from characters to symbols. *)
Fixpoint letter_map (L : list symbol) (i : Z) : list (Z * Z) :=
  match L with
  | Letter c :: r => (c, i) :: letter_map r (i + 1)
  | _ => []
  end.
Lemma find_app : forall a b c, find_symbol (a ++ b) c = match find_symbol a c with Some k => Some k | None => find_symbol b c end.
Proof. induction a as [|[k v] a IH]; intros b c; cbn [app find_symbol]; auto. destruct (k =? c); auto. Qed.

Lemma letter_head : forall c, proper_symbol (Letter c) -> exists b r, text (Letter c) = b :: r /\ (b =? 0x40) = false /\ (b =? 0x5B) = false.
Proof.
  intros c (E & _ & N1 & N2). destruct (byte_of_letter c E) as (b & r & B & X & Y & _). exists b, r. cbn [text]. conjs; auto; apply Z.eqb_neq; tauto.
Qed.

Lemma load_letters : forall L n i rest st, Forall proper_symbol L -> Forall is_letter L -> NoDup L -> 0 < i -> st_firstMulti st = 0 ->
  0 <= st_firstNormal st -> (forall c, In (Letter c) L -> find_symbol (st_chars st) c = None) ->
  load_symbols (length L + n) i (head_body (map text L) ++ rest) st =
    load_symbols n (i + Z.of_nat (length L)) rest
      (mk_symtab (st_strings st ++ map characters L) (st_diacritics st) (st_features st) (st_values st) (st_chars st ++ letter_map L i)
        (if (0 <? st_firstNormal st) then st_firstNormal st else match L with [] => 0 | _ => i end) 0).
Proof.
  induction L as [|s L IH]; intros n i rest st P C ND I M N U.
  - cbn [length map letter_map]. rewrite !app_nil_r, Z.add_0_r. cbn [head_body flat_map app plus]. destruct st; cbn in *; subst.
    destruct (Z.ltb_spec 0 st_firstNormal); [auto|]. replace st_firstNormal with 0 by lia. auto.
  - inversion P as [|? ? P1 P2]; subst. inversion C as [|? ? C1 C2]; subst. inversion ND as [|? ? N1 N2]; subst. destruct s as [| |c|]; try contradiction C1. clear C1.
    cbn [length plus map]. change (head_body (text (Letter c) :: map text L)) with (head_body ([text (Letter c)] ++ map text L)).
    unfold head_body at 1. rewrite flat_map_app. fold (head_body [text (Letter c)]). fold (head_body (map text L)). rewrite <- app_assoc.
    rewrite load_one; auto; [|apply Z.eqb_neq; lia].
    unfold load_symbol. rewrite M. destruct (letter_head c P1) as (b & r & -> & Q1 & Q2). rewrite Q1, Q2. rewrite !andb_false_r.
    assert ((if st_firstNormal st =? 0 then (i, 0) else (st_firstNormal st, 0)) = (if 0 <? st_firstNormal st then st_firstNormal st else i, 0)) as Q3.
    { destruct (Z.eqb_spec (st_firstNormal st) 0), (Z.ltb_spec 0 (st_firstNormal st)); auto; lia. }
    rewrite Q3. change (0 =? 0) with true. set (fn := if 0 <? st_firstNormal st then st_firstNormal st else i).
    assert ((0 <? fn) = true) as Q4 by (unfold fn; destruct (Z.ltb_spec 0 (st_firstNormal st)); apply Z.ltb_lt; lia).
    rewrite Q4. cbn [andb characters]. rewrite (U c) by (left; auto). cbn [bind].
    rewrite IH; auto; try lia.
    + cbn [st_strings st_diacritics st_features st_values st_chars st_firstNormal letter_map]. rewrite Q4. rewrite <- !app_assoc. cbn [app].
      replace (i + Z.of_nat (S (length L))) with (i + 1 + Z.of_nat (length L)) by lia. reflexivity.
    + cbn. apply Z.ltb_lt in Q4. lia.
    + intros c' I'. cbn [st_chars]. rewrite find_app, U by (right; auto). cbn [find_symbol]. destruct (Z.eqb_spec c c'); auto. subst c'. contradiction.
Qed.

Lemma load_tags : forall G n i rest st, Forall proper_symbol G -> Forall is_tag G -> 0 < i -> 0 < st_firstNormal st -> 0 <= st_firstMulti st ->
  exists fm, load_symbols (length G + n) i (head_body (map text G) ++ rest) st =
    load_symbols n (i + Z.of_nat (length G)) rest
      (mk_symtab (st_strings st ++ map characters G) (st_diacritics st) (st_features st) (st_values st) (st_chars st) (st_firstNormal st) fm).
Proof.
  induction G as [|s G IH]; intros n i rest st P C I N M.
  - exists (st_firstMulti st). cbn [length map]. rewrite !app_nil_r, Z.add_0_r. cbn [head_body flat_map app plus]. destruct st; cbn in *; auto.
  - inversion P as [|? ? P1 P2]; subst. inversion C as [|? ? C1 C2]; subst. destruct s as [| | |t]; try contradiction C1. clear C1.
    cbn [length plus map]. change (head_body (text (Tag t) :: map text G)) with (head_body ([text (Tag t)] ++ map text G)).
    unfold head_body at 1. rewrite flat_map_app. fold (head_body [text (Tag t)]). fold (head_body (map text G)). rewrite <- app_assoc.
    setoid_rewrite load_one; auto; [|apply Z.eqb_neq; lia].
    unfold load_symbol. change (match text (Tag t) with c :: _ => c =? 0x40 | [] => false end) with false.
    change (match text (Tag t) with c :: _ => c =? 0x5B | [] => false end) with true.
    destruct (Z.eqb_spec (st_firstNormal st) 0); [lia|]. cbn [andb]. rewrite andb_true_r.
    set (fm := if st_firstMulti st =? 0 then i else st_firstMulti st).
    assert ((if st_firstMulti st =? 0 then (st_firstNormal st, i) else (st_firstNormal st, st_firstMulti st)) = (st_firstNormal st, fm)) as -> by (unfold fm; destruct (st_firstMulti st =? 0); auto).
    assert (0 < fm) by (unfold fm; destruct (Z.eqb_spec (st_firstMulti st) 0); lia).
    destruct (Z.eqb_spec fm 0); [lia|]. rewrite andb_false_r. cbn [bind].
    match goal with |- context [load_symbols _ (i + 1) _ ?x] => set (st1 := x) end.
    destruct (IH n (i + 1) rest st1) as (fm' & E); auto; try lia. { cbn. lia. }
    exists fm'. rewrite E. subst st1. cbn [st_strings st_diacritics st_features st_values st_chars st_firstNormal]. rewrite <- !app_assoc. cbn [app]. f_equal. lia.
Qed.

(** ** The whole list *)

Lemma tables_whole : forall (weighted : bool) F L G cells, Forall proper_symbol (F ++ L ++ G) -> Forall is_flag F -> Forall is_letter L -> Forall is_tag G -> L <> [] -> NoDup L ->
  Z.of_nat (length (Epsilon :: F ++ L ++ G)) < 65536 ->
  exists O fs vs, Forall2 (flag_known fs vs) F O /\ grows [[]; wstr "@"] vs /\
    exists fm, load_tables weighted (write_head weighted false (map text (Epsilon :: F ++ L ++ G)) ++ cells) =
      Ok (Loaded (mk_symtab (map characters (Epsilon :: F ++ L ++ G)) (mk_ofv Operation_P 0 0 :: O) fs vs
        (letter_map L (1 + Z.of_nat (length F))) (1 + Z.of_nat (length F)) fm, cells)).
Proof.
  intros weighted F L G cells P CF CL CG NL ND LEN. apply Forall_app in P. destruct P as [PF P]. apply Forall_app in P. destruct P as [PL PG].
  set (symbols := map text (Epsilon :: F ++ L ++ G)).
  assert (Z.of_nat (length symbols) < 65536) as Hn by (unfold symbols; rewrite map_length; auto).
  assert (length symbols = S (length F + (length L + (length G + 0)))) as LS by (unfold symbols; rewrite map_length; cbn [length]; rewrite !app_length; lia).
  set (rest := head_padding weighted symbols ++ cells).
  set (st0 := mk_symtab [[]] [mk_ofv Operation_P 0 0] [] [[]; wstr "@"] [] 0 0).
  destruct (load_flags F (length L + (length G + 0)) 1 (head_body (map text L) ++ head_body (map text G) ++ rest) st0) as (O & fs & vs & EF & G1 & G2 & K); auto; [lia|].
  exists O, fs, vs. conjs; auto.
  assert (exists fm, load_symbols (length symbols) 0 (head_body symbols ++ rest) empty_symtab =
    Ok (Some (mk_symtab (map characters (Epsilon :: F ++ L ++ G)) (mk_ofv Operation_P 0 0 :: O) fs vs (letter_map L (1 + Z.of_nat (length F))) (1 + Z.of_nat (length F)) fm, rest))) as (fm & ES).
  { rewrite LS. set (m := (length F + (length L + (length G + 0)))%nat) in *.
    assert (load_symbols (S m) 0 (head_body symbols ++ rest) empty_symtab = load_symbols m 1 (head_body (map text (F ++ L ++ G)) ++ rest) st0) as ->.
    { unfold symbols. cbn [map head_body flat_map text app load_symbols take_string Z.eqb bind skipn Z.add]. reflexivity. }
    unfold m in *. rewrite !map_app. unfold head_body in EF. unfold head_body at 1. rewrite !flat_map_app, <- !app_assoc. rewrite EF.
    fold (head_body (map text L)). fold (head_body (map text G)).
    rewrite load_letters; auto; cbn [st_firstMulti st_firstNormal st_chars st_strings st_diacritics st_features st_values]; try lia.
    change (0 <? 0) with false. destruct L as [|l L]; [congruence|].
    match goal with |- context [load_symbols _ ?i _ ?x] => destruct (load_tags G 0 i rest x) as (fm & EG) end; auto; cbn [st_firstMulti st_firstNormal]; try lia.
    exists fm. rewrite EG. cbn [load_symbols st_firstMulti st_firstNormal st_chars st_strings st_diacritics st_features st_values]. subst st0. cbn [st_strings st_diacritics st_chars app].
    rewrite <- !app_assoc. cbn [map characters]. rewrite !map_app. cbn [map app]. rewrite ?map_app. reflexivity. }
  exists fm. unfold load_tables.
  assert (checkNeedForByteSwapping (write_head weighted false symbols ++ cells) = Ok (Some false)) as ->.
  { rewrite write_head_eq by exact Hn. unfold checkNeedForByteSwapping. rewrite <- app_assoc. reflexivity. }
  cbn [bind].
  assert (rd (write_head weighted false symbols ++ cells) 8 = Ok (if weighted then 1 else 0)) as -> by (rewrite write_head_eq by exact Hn; destruct weighted; reflexivity).
  cbn [bind]. replace (xorb weighted ((if weighted then 1 else 0) =? 1)) with false by (destruct weighted; reflexivity). cbv iota.
  set (file := write_head weighted false symbols ++ cells).
  assert (file = head_start weighted false ++ le16 (Z.of_nat (length symbols)) ++ head_body symbols ++ rest) as EFILE.
  { unfold file, rest. rewrite write_head_eq by exact Hn. rewrite <- !app_assoc. reflexivity. }
  assert (length file = (18 + length (head_body symbols) + length rest)%nat) as LF.
  { rewrite EFILE. rewrite !app_length, head_start_length. cbn [le16 length]. lia. }
  rewrite EFILE at 1. rewrite skip_head. unfold le16. cbn [app]. rewrite of_le16_bytes, Z.mod_small, Nat2Z.id by lia.
  rewrite ES. cbn [bind]. cbv zeta. set (size := if weighted then 16%nat else 8%nat).
  assert ((if (0 <? (length file - length rest) mod size)%nat then skipn (size - (length file - length rest) mod size) rest else rest) = cells) as ->.
  { rewrite LF. replace (18 + length (head_body symbols) + length rest - length rest)%nat with (18 + length (head_body symbols))%nat by lia.
    unfold rest, head_padding. fold size. destruct (Nat.ltb_spec 0 ((18 + length (head_body symbols)) mod size)); [|reflexivity].
    rewrite skipn_app, skipn_all2 by (rewrite repeat_length; lia). rewrite repeat_length, Nat.sub_diag. reflexivity. }
  reflexivity.
Qed.

Lemma load_whole : forall F L G cells, Forall proper_symbol (F ++ L ++ G) -> Forall is_flag F -> Forall is_letter L -> Forall is_tag G -> L <> [] -> NoDup L ->
  Z.of_nat (length (Epsilon :: F ++ L ++ G)) < 65536 ->
  exists O fs vs, Forall2 (flag_known fs vs) F O /\ grows [[]; wstr "@"] vs /\
    load (write_head false false (map text (Epsilon :: F ++ L ++ G)) ++ cells) =
      Ok (Loaded (mk_fst (bytes_cells cells) (letter_map L (1 + Z.of_nat (length F))) (map characters (Epsilon :: F ++ L ++ G))
        (mk_ofv Operation_P 0 0 :: O) (length fs) (1 + Z.of_nat (length F)) (Z.of_nat (length (Epsilon :: F ++ L ++ G))))).
Proof.
  intros F L G cells P CF CL CG NL ND LEN. destruct (tables_whole false F L G cells P CF CL CG NL ND LEN) as (O & fs & vs & K & GR & fm & E).
  exists O, fs, vs. conjs; auto. unfold load. rewrite E. cbn [bind st_firstNormal st_chars st_strings st_diacritics st_features]. rewrite map_length. reflexivity.
Qed.

Lemma load_weighted_whole : forall F L G cells, Forall proper_symbol (F ++ L ++ G) -> Forall is_flag F -> Forall is_letter L -> Forall is_tag G -> L <> [] -> NoDup L ->
  Z.of_nat (length (Epsilon :: F ++ L ++ G)) < 65536 ->
  exists O fs vs, Forall2 (flag_known fs vs) F O /\ grows [[]; wstr "@"] vs /\
    load_weighted (write_head true false (map text (Epsilon :: F ++ L ++ G)) ++ cells) =
      Ok (Loaded (mk_wfst (bytes_wcells cells) (letter_map L (1 + Z.of_nat (length F))) (map characters (Epsilon :: F ++ L ++ G))
        (mk_ofv Operation_P 0 0 :: O) (length fs) (1 + Z.of_nat (length F)))).
Proof.
  intros F L G cells P CF CL CG NL ND LEN. destruct (tables_whole true F L G cells P CF CL CG NL ND LEN) as (O & fs & vs & K & GR & fm & E).
  exists O, fs, vs. conjs; auto. unfold load_weighted. rewrite E. reflexivity.
Qed.
