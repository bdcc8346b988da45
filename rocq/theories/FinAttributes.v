(** * The attributes set from the tags of an output *)
From Verif Require Import Base BaseFacts CharModel AnalysisModel AnalysisProps FinModel FinSpec FinStructure FinTotal.
From Coq Require Import Lia.

Lemma unique_in : forall l v, In v l -> In v (unique l).
Proof.
  induction l as [|x l IH]; intros v H; [exact H|]. destruct l as [|y l]; [exact H|].
  change (In v (if zlist_eqb x y then unique (y :: l) else x :: unique (y :: l))). destruct (zlist_eqb x y) eqn:E.
  - apply zlist_eqb_eq in E. subst y. apply IH. destruct H as [<-|H]; [now left|exact H].
  - destruct H as [<-|H]; [now left|]. right. now apply IH.
Qed.

Lemma wmap_find_in : forall m k v, wmap_find m k = Some v -> In v (valuesFromMap m).
Proof.
  intros m k v H. apply unique_in. induction m as [|[k' v'] m IH]; [discriminate|]. cbn [wmap_find map snd] in *.
  destruct (zlist_eqb k' k); [injection H as ->; now left|right; auto].
Qed.

Definition key_name (k : Key) : string := nth (key_int k) KEY_TO_STRING EmptyString.

Lemma key_name_unique : forall n k, In (n, k) STRING_TO_KEY -> n = key_name k.
Proof.
  intros n k I. unfold STRING_TO_KEY in I. cbn [In] in I. repeat (destruct I as [I|I]; [injection I as <- <-; reflexivity|]). now elim I.
Qed.

Lemma listed_by_name : forall k l v, voikkoGetAttributeValues (Some (key_name k)) = Some l -> In v l -> listed k v.
Proof. intros k l v E H n I l' E'. apply key_name_unique in I. subst n. rewrite E in E'. injection E' as <-. exact H. Qed.

Lemma not_listed_name : forall k v, voikkoGetAttributeValues (Some (key_name k)) = None -> listed k v.
Proof. intros k v E n I l' E'. apply key_name_unique in I. subst n. rewrite E in E'. discriminate. Qed.

Definition key_table (k : Key) (m : wmap) : Prop := voikkoGetAttributeValues (Some (key_name k)) = Some (valuesFromMap m).

(** The value is one of those enumerated for the attribute. *)
Definition among (k : Key) (v : list Z) : Prop := exists l, voikkoGetAttributeValues (Some (key_name k)) = Some l /\ In v l.

Lemma among_by_name : forall k l v, voikkoGetAttributeValues (Some (key_name k)) = Some l -> In v l -> among k v.
Proof. intros k l v E H. exists l. auto. Qed.
Lemma among_listed : forall k v, among k v -> listed k v.
Proof. intros k v (l & E & H). eapply listed_by_name; eassumption. Qed.

Definition sound (a : analysis) : Prop := forall k v, a k = Some v -> among k v.

Lemma sound_none : sound no_attributes.
Proof. intros k v H. discriminate. Qed.
Lemma sound_add : forall a k v, sound a -> among k v -> sound (add a k v).
Proof.
  intros a k v S L k' v' H. unfold add in H. destruct (a k) eqn:E; [now apply S|].
  destruct (key_eqb k k') eqn:K.
  - apply key_eqb_eq in K. subst k'. rewrite set_key_same in H. injection H as <-. exact L.
  - rewrite set_key_other in H; [now apply S|]. intros ->. rewrite key_eqb_refl in K. discriminate.
Qed.
Lemma sound_remove : forall a k, sound a -> sound (remove a k).
Proof.
  intros a k S k' v' H. unfold remove in H. destruct (a k) eqn:E; [|now apply S].
  destruct (key_eqb k k') eqn:K.
  - apply key_eqb_eq in K. subst k'. rewrite set_key_same in H. discriminate.
  - rewrite set_key_other in H; [now apply S|]. intros ->. rewrite key_eqb_refl in K. discriminate.
Qed.

Lemma add_other : forall a k v k', k <> k' -> add a k v k' = a k'.
Proof. intros a k v k' N. unfold add. destruct (a k); [reflexivity|]. now apply set_key_other. Qed.
Lemma add_same : forall a k v, a k = None -> add a k v k = Some v.
Proof. intros a k v E. unfold add. rewrite E. apply set_key_same. Qed.
Lemma add_has : forall a k v, exists v', add a k v k = Some v'.
Proof. intros a k v. unfold add. destruct (a k) eqn:E; [eauto|]. rewrite set_key_same. eauto. Qed.
Lemma remove_other : forall a k k', k <> k' -> remove a k k' = a k'.
Proof. intros a k k' N. unfold remove. destruct (a k); [now apply set_key_other|reflexivity]. Qed.
Lemma remove_same : forall a k, remove a k k = None.
Proof. intros a k. unfold remove. destruct (a k) eqn:E; [apply set_key_same|exact E]. Qed.

Lemma parseBasicAttribute_ok : forall a b i j key m, (j + 2 <= i)%nat -> sound a -> key_table key m ->
  exists a', parseBasicAttribute a b i j key m = Ok a' /\ sound a' /\ (forall k, k <> key -> a' k = a k).
Proof.
  intros a b i j key m H S T. unfold parseBasicAttribute. destruct (a key) eqn:E; [exists a; auto|].
  replace (i <? j + 2)%nat with false by lia. destruct (wmap_find m _) as [v|] eqn:F; [|exists a; auto].
  exists (add a key v). split; [reflexivity|]. split; [|intros k N; apply add_other; congruence].
  apply sound_add; [exact S|]. eapply among_by_name; [exact T|]. now apply wmap_find_in in F.
Qed.

Lemma addInfoFlag_ok : forall a o p, (p <= length o)%nat -> sound a ->
  exists a', addInfoFlag a (o ++ [0]) p = Ok a' /\ sound a' /\ a' CLASS = a CLASS.
Proof.
  intros a o p H S. unfold addInfoFlag. destruct (starts_ok o p "vj") as [x ->]; [lia|nonul|]. destruct (starts_ok o p "ca") as [y ->]; [lia|nonul|]. cbn [bind].
  destruct x.
  - destruct (rd_out o 0) as [c ->]; [lia|]. cbn [bind]. eexists. split; [reflexivity|].
    destruct (c =? ch "-"); [auto|]. split; [|now rewrite add_other by discriminate].
    apply sound_add; [exact S|]. eapply among_by_name; [reflexivity|]. now left.
  - destruct y.
    + eexists. split; [reflexivity|]. destruct (_ && _); [|auto]. split; [|now rewrite add_other by discriminate].
      apply sound_add; [exact S|]. eapply among_by_name; [reflexivity|]. now left.
    + destruct (starts_ok o p "ra") as [z ->]; [lia|nonul|]. destruct (starts_ok o p "rm") as [t ->]; [lia|nonul|]. cbn [bind].
      eexists. split; [reflexivity|]. destruct (_ && _); [|auto]. destruct z; [|destruct t; [|auto]].
      * split; [|now rewrite add_other by discriminate]. apply sound_add; [exact S|]. eapply among_by_name; [reflexivity|]. now left.
      * split; [|now rewrite add_other by discriminate]. apply sound_add; [exact S|]. eapply among_by_name; [reflexivity|]. right. now left.
Qed.

Definition good_basic (fstLen : nat) (s : basic_state) : Prop := sound (battributes s) /\ (battributes s CLASS <> None -> (4 <= fstLen)%nat).

Lemma listed_class : forall v, In v (valuesFromMap classMap) -> among CLASS v.
Proof. intros v H. eapply among_by_name; [reflexivity|exact H]. Qed.

Lemma basic_class_ok : forall o i j s, (j + 2 <= i)%nat -> (i < length o)%nat -> good_basic (length o) s ->
  exists s', basic_class (o ++ [0]) i j s = Ok s' /\ good_basic (length o) s'.
Proof.
  intros o i j s J I [S C]. unfold basic_class. destruct (rd_out o (j + 2)) as [c2 E2]; [lia|]. rewrite E2. cbn [bind].
  destruct (negb (classSet s) || (c2 =? ch "]")); [|exists s; split; [reflexivity|split; assumption]].
  destruct (starts_ok o (j + 2) "nl") as [x E]; [lia|nonul|]. rewrite E. cbn [bind]. destruct x.
  - destruct (starts_ok o 0 "[Lu]") as [y ->]; [lia|nonul|]. cbn [bind]. eexists. split; [reflexivity|]. split; cbn [battributes].
    + apply sound_add; [exact S|]. destruct (_ || _); apply listed_class; vm_compute; tauto.
    + intros _. apply starts_length in E; [|nonul|lia]. change (length (wstr "nl")) with 2%nat in E. lia.
  - assert (T : key_table CLASS classMap) by reflexivity.
    unfold parseBasicAttribute. destruct (battributes s CLASS) as [v|] eqn:CL.
    + cbn [bind]. eexists. split; [reflexivity|]. split; cbn [battributes]; [exact S|]. intros _. apply C. discriminate.
    + replace (i <? j + 2)%nat with false by lia. destruct (wmap_find classMap _) as [v|] eqn:F; cbn [bind]; eexists; (split; [reflexivity|]); split; cbn [battributes].
      * apply sound_add; [exact S|]. apply listed_class. now apply wmap_find_in in F.
      * intros _. destruct (Nat.eq_dec i (j + 2)) as [->|NE]; [|lia]. exfalso. replace (j + 2 - j - 2)%nat with 0%nat in F by lia. cbn [firstn] in F. vm_compute in F. discriminate.
      * exact S.
      * rewrite CL. congruence.
Qed.

Lemma basic_tag_ok : forall o i j s, (j < i)%nat -> (i < length o)%nat -> rd (o ++ [0]) i = Ok (ch "]") -> good_basic (length o) s ->
  exists s', basic_tag (o ++ [0]) (length o) i j s = Ok s' /\ good_basic (length o) s'.
Proof.
  intros o i j s J I E G. unfold basic_tag. destruct (rd_out o (j + 1)) as [c1 E1]; [lia|]. rewrite E1. cbn [bind].
  destruct (Nat.eq_dec i (j + 1)) as [->|NE].
  - rewrite E in E1. injection E1 as <-.
    repeat match goal with |- context [ch "]" =? ch ?c] => change (ch "]" =? ch c) with false end. eauto.
  - assert (J2 : (j + 2 <= i)%nat) by lia. clear NE. pose proof G as [S C].
    assert (AT : forall key m, key_table key m -> key <> CLASS ->
      exists s', (a <- parseBasicAttribute (battributes s) (o ++ [0]) i j key m ;; Ok (set_attributes s a)) = Ok s' /\ good_basic (length o) s').
    { intros key m T N. destruct (parseBasicAttribute_ok (battributes s) (o ++ [0]) i j key m J2 S T) as (a' & -> & S' & O). cbn [bind].
      eexists. split; [reflexivity|]. split; cbn [set_attributes battributes]; [exact S'|]. rewrite O by congruence. exact C. }
    assert (ID : exists s', Ok s = Ok s' /\ good_basic (length o) s') by eauto.
    destruct (c1 =? ch "L"); [now apply basic_class_ok|].
    destruct (c1 =? ch "N"); [destruct (takes_number _); [apply AT; [reflexivity|discriminate]|exact ID]|].
    destruct (c1 =? ch "P"); [apply AT; [reflexivity|discriminate]|].
    destruct (c1 =? ch "S").
    { destruct (takes_number _); [|exact ID]. destruct (AT SIJAMUOTO sijamuotoMap) as (s1 & -> & G1); [reflexivity|discriminate|]. cbn [bind].
      destruct (j + 5 <? length o)%nat.
      - destruct (starts_ok o (j + 2) "sti") as [x ->]; [lia|nonul|]. cbn [bind]. eexists. split; [reflexivity|]. destruct x; [|exact G1]. destruct G1. now split.
      - cbn [bind]. eexists. split; [reflexivity|]. exact G1. }
    destruct (c1 =? ch "T"); [destruct (is_none _); [apply AT; [reflexivity|discriminate]|exact ID]|].
    destruct (c1 =? ch "A"); [apply AT; [reflexivity|discriminate]|].
    destruct (c1 =? ch "F").
    { destruct (starts_ok o (j + 2) "ko") as [x ->]; [lia|nonul|]. cbn [bind]. destruct x; [|apply AT; [reflexivity|discriminate]].
      eexists. split; [reflexivity|]. split; cbn [set_attributes battributes]; [|now rewrite add_other by discriminate].
      apply sound_add; [exact S|]. eapply among_by_name; [reflexivity|]. now left. }
    destruct (c1 =? ch "O"); [apply AT; [reflexivity|discriminate]|].
    destruct (c1 =? ch "C"); [destruct (is_none _); [apply AT; [reflexivity|discriminate]|exact ID]|].
    destruct (c1 =? ch "E"); [apply AT; [reflexivity|discriminate]|].
    destruct (c1 =? ch "R").
    { destruct (bcPassed s); [exact ID|].
      assert (AL : exists x, (match battributes s CLASS with None => Ok true | Some v => if is v "laatusana" then Ok true else if (length o <? 4)%nat then UB else Ok (zlist_eqb (cstr (skipn (length o - 4) (o ++ [0]))) (wstr "[Ln]")) end) = Ok x).
      { destruct (battributes s CLASS) as [v|]; [|eauto]. destruct (is v "laatusana"); [eauto|]. replace (length o <? 4)%nat with false; [eauto|]. symmetry. apply Nat.ltb_ge. apply C. discriminate. }
      destruct AL as [x ->]. cbn [bind]. destruct x; [|exact ID]. apply AT; [reflexivity|discriminate]. }
    destruct (c1 =? ch "I").
    { destruct (addInfoFlag_ok (battributes s) o (j + 2)) as (a' & -> & S' & O); [lia|exact S|]. cbn [bind]. eexists. split; [reflexivity|]. split; cbn [set_attributes battributes]; [exact S'|]. now rewrite O. }
    destruct (c1 =? ch "B"); [|exact ID].
    destruct (rd_out o (j + 2)) as [c2 ->]; [lia|]. cbn [bind]. destruct ((5 <=? j)%nat && (c2 =? ch "c")) eqn:Q; [|exact ID].
    apply andb_true_iff in Q. destruct Q as [Q _].
    assert (HY : exists x, (if negb (classSet s) && is_none (battributes s CLASS) then c <- rd (o ++ [0]) (j - 1) ;; bh <- starts (o ++ [0]) (j - 5) "-[Bh]" ;; Ok ((c =? ch "-") || bh) else Ok false) = Ok x).
    { destruct (negb _ && _); [|eauto]. destruct (rd_out o (j - 1)) as [c ->]; [lia|]. destruct (starts_ok o (j - 5) "-[Bh]") as [y ->]; [lia|nonul|]. cbn [bind]. eauto. }
    destruct HY as [x ->]. cbn [bind]. eexists. split; [reflexivity|]. destruct x; split; cbn [battributes]; try assumption.
    + apply sound_add; [exact S|]. apply listed_class. vm_compute. tauto.
    + intros _. lia.
Qed.

Lemma open_bracket_ok : forall o i, (i <= S (length o))%nat -> exists j x, open_bracket (o ++ [0]) i = Ok (j, x) /\ (j < i \/ i = 0 /\ j = 0 /\ x = false)%nat.
Proof.
  intros o. induction i as [|i IH]; intros H; cbn [open_bracket].
  - exists 0%nat, false. split; [reflexivity|right; auto].
  - destruct (rd_out o i) as [c ->]; [lia|]. cbn [bind]. destruct (c =? ch "["); [exists i, true; split; [reflexivity|lia]|].
    destruct IH as (j & x & E & L); [lia|]. exists j, x. split; [exact E|lia].
Qed.

Lemma basic_loop_ok : forall f o i s, (i < length o)%nat -> (i <= f)%nat -> good_basic (length o) s ->
  exists s', basic_loop f (o ++ [0]) (length o) i s = Ok s' /\ good_basic (length o) s'.
Proof.
  induction f as [|f IH]; intros o i s I F G; cbn [basic_loop].
  - replace (i <? 2)%nat with true by lia. eauto.
  - destruct (i <? 2)%nat eqn:Q; [eauto|]. destruct (rd_out o i) as [c E]; [lia|]. rewrite E. cbn [bind]. destruct (c =? ch "]") eqn:C; [|apply IH; [lia|lia|exact G]].
    apply Z.eqb_eq in C. subst c. destruct (open_bracket_ok o i) as (j & x & -> & L); [lia|]. cbn [bind].
    assert (B : exists s', (if x : bool then basic_tag (o ++ [0]) (length o) i j s else Ok s) = Ok s' /\ good_basic (length o) s').
    { destruct x; [|eauto]. apply basic_tag_ok; [lia|exact I|exact E|exact G]. }
    destruct B as (s' & -> & G'). cbn [bind]. destruct (j <? 3)%nat eqn:Q3; [eauto|]. apply IH; [lia|lia|exact G'].
Qed.

Lemma parseBasicAttributes_ok : forall o, o <> [] -> exists a, parseBasicAttributes no_attributes o = Ok a /\ sound a.
Proof.
  intros o N. unfold parseBasicAttributes. destruct o as [|c o]; [congruence|].
  destruct (basic_loop_ok (length (c :: o)) (c :: o) (length (c :: o) - 1) (mk_bs no_attributes false false false)) as (s & -> & S & _);
    [cbn [length]; lia|lia|split; cbn [battributes]; [apply sound_none|intros X; now elim X]|].
  cbn [bind]. eauto.
Qed.

Lemma sound_untouched : forall a k, sound a -> voikkoGetAttributeValues (Some (key_name k)) = None -> a k = None.
Proof. intros a k S E. destruct (a k) as [v|] eqn:A; [|reflexivity]. apply S in A. destruct A as (l & X & _). congruence. Qed.
