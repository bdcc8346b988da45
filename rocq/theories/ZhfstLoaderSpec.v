(** * Dictionaries of both formats: specification *)
From Verif Require Import Base SetupModel SetupSpec ZhfstLoaderModel.

(** The name ends with ".zhfst". *)
Definition zhfst_name (n : list Z) : Prop := exists a, n = a ++ wstr ".zhfst".
(** A name for which that is easily seen: ".zhfst" occurs at most once and at the
    end, and the name does not have five characters.  (The length of a name is
    limited by the file system, certainly to less than [2^64].) *)
Definition plain_name (n : list Z) : Prop :=
  length n <> 5%nat /\ Z.of_nat (length n) < 2 ^ 64 /\ forall a b, n = a ++ wstr ".zhfst" ++ b -> b = [].

(** The archives of the location, in the order of the directory. *)
Inductive archives (contents : list Z -> archive) (mainPath : list Z) : list (list Z) -> list dictionary -> Prop :=
| ar_nil : archives contents mainPath [] []
| ar_other : forall n r ds, ~ zhfst_name n -> archives contents mainPath r ds -> archives contents mainPath (n :: r) ds
| ar_broken : forall n r ds, zhfst_name n -> contents (mainPath ++ wstr "/" ++ n) = Unreadable ->
    archives contents mainPath r ds -> archives contents mainPath (n :: r) ds
| ar_good : forall n r ds bcp t, zhfst_name n -> contents (mainPath ++ wstr "/" ++ n) = Locale bcp -> reads bcp t ->
    archives contents mainPath r ds -> archives contents mainPath (n :: r) (zhfst_dictionary (mainPath ++ wstr "/" ++ n) t :: ds).

(** What there is to be found in the locations: in each the dictionaries of
    version 5 and then the archives. *)
Inductive present (directory file : list Z -> list (list Z)) (contents : list Z -> archive) : list (list Z) -> list dictionary -> Prop :=
| pt_nil : present directory file contents [] []
| pt_cons : forall l ls a b ds,
    discovered directory file [l] a ->
    archives contents (l ++ wstr "/3") (directory (l ++ wstr "/3")) b ->
    present directory file contents ls ds -> present directory file contents (l :: ls) (a ++ b ++ ds).

(** Nothing unusual in the location: plain names, and no archive throws. *)
Definition usual (directory : list Z -> list (list Z)) (contents : list Z -> archive) (l : list Z) : Prop :=
  forall n, In n (directory (l ++ wstr "/3")) -> plain_name n /\ contents ((l ++ wstr "/3") ++ wstr "/" ++ n) <> Throws.
