(** Property C47 (structural hashing). *)
From Coq Require Import String.
From Coq Require Import List Bool Arith ZArith Lia Permutation.
From Verif Require Import ModelHash SpecHash ProofsHash.
Import ListNotations.
Local Open Scope string_scope.
Local Open Scope nat_scope.
Local Open Scope list_scope.

(** Order-insensitive at any depth. *)
Theorem C47_order : forall obj_str obj_type obj_lt hnone hnan hstr htuple a b,
  texts obj_str -> good obj_str a -> same a b ->
  hash_dict obj_str obj_type obj_lt hnone hnan hstr htuple a = hash_dict obj_str obj_type obj_lt hnone hnan hstr htuple b.
Proof. intros. unfold hash_dict. f_equal. now apply same_represent. Qed.
Print Assumptions C47_order.

(** What is hashed determines plain data up to order, and nothing more. *)
Theorem C47_exact : forall obj_str obj_type obj_lt a b, texts obj_str -> plain a -> plain b ->
  (represent obj_str obj_type obj_lt a = represent obj_str obj_type obj_lt b <-> same a b).
Proof. intros. split; [now apply represent_same|]. intros. apply same_represent; auto. now apply plain_good. Qed.
Print Assumptions C47_exact.

(** The conditions are needed.  {1: v} and {'1': v} collide. *)
Definition nostr (_ : hv) : string := EmptyString.
Definition nolt (_ _ : hv) : option bool := None.
Definition int_ z := HPrim (PInt z).
Definition str_ s := HPrim (PStr s).
Theorem C47_key_types_refuted : forall obj_str obj_type obj_lt hnone hnan hstr htuple v,
  hash_dict obj_str obj_type obj_lt hnone hnan hstr htuple (HDict [(int_ 1, v)]) =
  hash_dict obj_str obj_type obj_lt hnone hnan hstr htuple (HDict [(str_ "1", v)]).
Proof. reflexivity. Qed.
Print Assumptions C47_key_types_refuted.
(** So do {None: v} and {'None': v}, {True: v} and {'True': v}, {False: v} and {'False': v}. *)
Theorem C47_key_texts_refuted : forall obj_str obj_type obj_lt hnone hnan hstr htuple p s v,
  In (p, s) [(PNone, "None"); (PBool true, "True"); (PBool false, "False")]%string ->
  hash_dict obj_str obj_type obj_lt hnone hnan hstr htuple (HDict [(HPrim p, v)]) =
  hash_dict obj_str obj_type obj_lt hnone hnan hstr htuple (HDict [(str_ s, v)]).
Proof. intros * [[= <- <-]|[[= <- <-]|[[= <- <-]|[]]]]; reflexivity. Qed.
Print Assumptions C47_key_texts_refuted.
(** {1: 0, '1': 2} depends on its insertion order. *)
Theorem C47_order_any_keys_refuted : forall obj_str obj_type obj_lt,
  represent obj_str obj_type obj_lt (HDict [(int_ 1, int_ 0); (str_ "1", int_ 2)]) <>
  represent obj_str obj_type obj_lt (HDict [(str_ "1", int_ 2); (int_ 1, int_ 0)]).
Proof. intros. vm_compute. discriminate. Qed.
Print Assumptions C47_order_any_keys_refuted.
(** Equal dicts {1: 0} == {True: 0} are hashed differently. *)
Theorem C47_equal_keys_refuted : forall obj_str obj_type obj_lt,
  prim_eq (PInt 1) (PBool true) /\
  represent obj_str obj_type obj_lt (HDict [(int_ 1, int_ 0)]) <> represent obj_str obj_type obj_lt (HDict [(HPrim (PBool true), int_ 0)]).
Proof. intros. split; [eexists; split; reflexivity|vm_compute; discriminate]. Qed.
Print Assumptions C47_equal_keys_refuted.
(** Equal sets {True, 0, 'a'} == {1, 0, 'a'} are hashed differently. *)
Theorem C47_equal_sets_refuted : forall obj_str obj_type obj_lt,
  represent obj_str obj_type obj_lt (HSet [HPrim (PBool true); int_ 0; str_ "a"]) <>
  represent obj_str obj_type obj_lt (HSet [int_ 1; int_ 0; str_ "a"]).
Proof. intros. vm_compute. discriminate. Qed.
Print Assumptions C47_equal_sets_refuted.
(** Sets of frozensets: < is the subset order, sorting leaves incomparable elements in
    iteration order. *)
Definition ints (x : hv) : option (list Z) :=
  match x with
  | HFrozen l => fold_right (fun e r => match e, r with HPrim (PInt z), Some r => Some (z :: r) | _, _ => None end) (Some []) l
  | _ => None
  end.
Definition subset_lt (x y : hv) : option bool :=
  match ints x, ints y with
  | Some a, Some b => Some (forallb (fun z => existsb (Z.eqb z) b) a && negb (forallb (fun z => existsb (Z.eqb z) a) b))
  | _, _ => None
  end.
Theorem C47_nested_sets_refuted : forall obj_str obj_type,
  represent obj_str obj_type subset_lt (HSet [HFrozen [int_ 1]; HFrozen [int_ 2]]) <>
  represent obj_str obj_type subset_lt (HSet [HFrozen [int_ 2]; HFrozen [int_ 1]]).
Proof. intros. vm_compute. discriminate. Qed.
Print Assumptions C47_nested_sets_refuted.
(** A custom object collides with its text. *)
Theorem C47_objects_refuted : forall obj_str obj_type obj_lt hnone hnan hstr htuple t,
  hash_dict obj_str obj_type obj_lt hnone hnan hstr htuple (HOther t) = hash_dict obj_str obj_type obj_lt hnone hnan hstr htuple (str_ t).
Proof. reflexivity. Qed.
Print Assumptions C47_objects_refuted.
(** -1 and -2 collide everywhere, whatever the seed of the string hash. *)
Theorem C47_minus_one_refuted : forall obj_str obj_type obj_lt hnone hnan hstr htuple k,
  hash_dict obj_str obj_type obj_lt hnone hnan hstr htuple (HDict [(str_ k, int_ (-1))]) =
  hash_dict obj_str obj_type obj_lt hnone hnan hstr htuple (HDict [(str_ k, int_ (-2))]).
Proof. reflexivity. Qed.
Print Assumptions C47_minus_one_refuted.

(** So do numbers that differ by the modulus of CPython's integer hash. *)
Theorem C47_modulus_refuted : forall obj_str obj_type obj_lt hnone hnan hstr htuple k n, (0 <= n)%Z ->
  hash_dict obj_str obj_type obj_lt hnone hnan hstr htuple (HDict [(str_ k, int_ n)]) =
  hash_dict obj_str obj_type obj_lt hnone hnan hstr htuple (HDict [(str_ k, int_ (n + 2305843009213693951))]).
Proof.
  intros. unfold hash_dict. unfold hash_dict.
  assert (E : hash_int n = hash_int (n + 2305843009213693951)).
  { unfold hash_int, hash_frac. change ((2 ^ 60) ^ Z.of_nat 0)%Z with 1%Z. rewrite !Z.mul_1_r. rewrite !Z.abs_eq by lia. change (2 ^ 61 - 1)%Z with 2305843009213693951%Z.
    replace (n + 2305843009213693951)%Z with (n + 1 * 2305843009213693951)%Z by lia. rewrite Z.mod_add by lia.
    destruct (Z.eq_dec n 0) as [->|N]; [reflexivity|]. rewrite !Z.sgn_pos by lia. reflexivity. }
  change (htuple [hash_int 0; htuple [htuple [hstr k; hash_int n]]] = htuple [hash_int 0; htuple [htuple [hstr k; hash_int (n + 2305843009213693951)]]]).
  rewrite E. reflexivity.
Qed.
Print Assumptions C47_modulus_refuted.

(** Floats.  Equal numbers are hashed alike as values, not as keys; two NaNs never are
    (their hash is that of the object); a set with a NaN depends on its iteration order;
    0.5 collides with 2^60. *)
Definition float_ f := HPrim (PFloat f).
Theorem C47_float_values : forall obj_str obj_type obj_lt hnone hnan hstr htuple k z,
  hash_dict obj_str obj_type obj_lt hnone hnan hstr htuple (HDict [(str_ k, float_ (FInt z))]) =
  hash_dict obj_str obj_type obj_lt hnone hnan hstr htuple (HDict [(str_ k, int_ z)]).
Proof. reflexivity. Qed.
Print Assumptions C47_float_values.
Theorem C47_zeros : forall obj_str obj_type obj_lt hnone hnan hstr htuple k,
  hash_dict obj_str obj_type obj_lt hnone hnan hstr htuple (HDict [(str_ k, float_ FNeg0)]) =
  hash_dict obj_str obj_type obj_lt hnone hnan hstr htuple (HDict [(str_ k, float_ (FInt 0))]).
Proof. reflexivity. Qed.
Print Assumptions C47_zeros.
Theorem C47_float_keys_refuted : forall obj_str obj_type obj_lt v, obj_str (float_ (FInt 1)) = "1.0" ->
  represent obj_str obj_type obj_lt (HDict [(float_ (FInt 1), v)]) <> represent obj_str obj_type obj_lt (HDict [(int_ 1, v)]).
Proof. intros * E. cbn. fold (float_ (FInt 1)). rewrite E. intros [=]. Qed.
Print Assumptions C47_float_keys_refuted.
Theorem C47_nan_refuted : forall obj_str obj_type obj_lt k i j, i <> j ->
  represent obj_str obj_type obj_lt (HDict [(str_ k, float_ (FNaN i))]) <> represent obj_str obj_type obj_lt (HDict [(str_ k, float_ (FNaN j))]).
Proof. intros * N. cbn. intros [= H]. auto. Qed.
Print Assumptions C47_nan_refuted.
Theorem C47_nan_set_refuted : forall obj_str obj_type obj_lt i z,
  represent obj_str obj_type obj_lt (HSet [float_ (FNaN i); int_ z]) <> represent obj_str obj_type obj_lt (HSet [int_ z; float_ (FNaN i)]).
Proof. intros. vm_compute. discriminate. Qed.
Print Assumptions C47_nan_set_refuted.
Theorem C47_half_refuted : forall obj_str obj_type obj_lt hnone hnan hstr htuple k,
  hash_dict obj_str obj_type obj_lt hnone hnan hstr htuple (HDict [(str_ k, float_ (FFrac 0 0))]) =
  hash_dict obj_str obj_type obj_lt hnone hnan hstr htuple (HDict [(str_ k, int_ (2 ^ 60))]).
Proof. reflexivity. Qed.
Print Assumptions C47_half_refuted.
(** Every fraction collides with a whole number below the modulus. *)
Theorem C47_fractions_refuted : forall obj_str obj_type obj_lt hnone hnan hstr htuple k f, (exists m e, f = FFrac m e) -> exists z,
  (Z.abs z < 2 ^ 61 - 1)%Z /\
  hash_dict obj_str obj_type obj_lt hnone hnan hstr htuple (HDict [(str_ k, float_ f)]) =
  hash_dict obj_str obj_type obj_lt hnone hnan hstr htuple (HDict [(str_ k, int_ z)]).
Proof.
  intros * (m & e & ->).
  set (n := (2 * m + 1)%Z). set (h := (Z.sgn n * ((Z.abs n * (2 ^ 60) ^ Z.of_nat (S e)) mod (2 ^ 61 - 1)))%Z).
  set (x := ((Z.abs n * (2 ^ 60) ^ Z.of_nat (S e)) mod (2 ^ 61 - 1))%Z) in *.
  assert (X : (0 <= x < 2 ^ 61 - 1)%Z) by (apply Z.mod_pos_bound; lia).
  assert (S1 : (Z.sgn n = 1 \/ Z.sgn n = -1)%Z) by (assert (n <> 0)%Z by (unfold n; lia); destruct n; cbn; auto; congruence).
  exists h. split; [unfold h; destruct S1 as [-> | ->]; lia|].
  assert (E : hash_frac n (S e) = hash_int h).
  { unfold hash_int. unfold hash_frac at 1. fold x. fold h. unfold hash_frac. change ((2 ^ 60) ^ Z.of_nat 0)%Z with 1%Z. rewrite Z.mul_1_r.
    assert (G : (Z.sgn h * (Z.abs h mod (2 ^ 61 - 1)))%Z = h); [|now rewrite G].
    rewrite Z.mod_small by (unfold h; destruct S1 as [-> | ->]; lia). rewrite Z.mul_comm. apply Z.abs_sgn. }
  change (htuple [hash_int 0; htuple [htuple [hstr k; hash_frac n (S e)]]] = htuple [hash_int 0; htuple [htuple [hstr k; hash_int h]]]).
  now rewrite E.
Qed.
Print Assumptions C47_fractions_refuted.
(** A set of numbers is taken in the order of their values: -inf, -0.5, 0.25, True, 1.5, 2. *)
Example C47_float_example :
  represent nostr nostr nolt (HSet [int_ 2; float_ (FFrac 0 1); float_ (FInf true); HPrim (PBool true); float_ (FFrac (-1) 0); float_ (FFrac 1 0)]) =
  RT [RNum 3; RT [RInf true; RFrac (-1) 1; RFrac 1 2; RNum 1; RFrac 3 1; RNum 2]] /\
  plain (HSet [float_ (FFrac 0 1); int_ 1; float_ (FInf false)]) /\
  same (HList [float_ FNeg0; float_ (FInt 1)]) (HList [HPrim (PBool false); HPrim (PBool true)]) /\
  hash_frac (-1) 1 = (- 2 ^ 60)%Z /\ hash_frac 3 1 = (2 ^ 60 + 1)%Z.
Proof.
  repeat apply conj; try reflexivity.
  - apply (pl_set _ [PFloat (FFrac 0 1); PInt 1; PFloat (FInf false)]); [reflexivity| |].
    + split; repeat constructor; try (intros (z & A & B); cbn in *; congruence); intros (i & [=]).
    + repeat constructor; intros [(b0 & [=])|[(z & [=])|[=]]].
  - repeat constructor; eexists; split; reflexivity.
Qed.

(** {'b': [1, 2], 'a': {3, 1}} in two orders, and as what it is hashed; list, tuple,
    set, frozenset and model of the same items stay apart. *)
Example C47_example :
  let a := HDict [(str_ "b", HList [int_ 1; int_ 2]); (str_ "a", HSet [int_ 3; int_ 1])] in
  let b := HDict [(str_ "a", HSet [int_ 1; int_ 3]); (str_ "b", HList [int_ 1; int_ 2])] in
  plain a /\ plain b /\ same a b /\
  represent nostr nostr nolt a = RT [RNum 0; RT [RT [RStr "a"; RT [RNum 3; RT [RNum 1; RNum 3]]]; RT [RStr "b"; RT [RNum 1; RT [RNum 1; RNum 2]]]]] /\
  represent nostr nostr nolt b = represent nostr nostr nolt a /\
  NoDup (map (represent nostr nostr nolt) [HList [int_ 1]; HTuple [int_ 1]; HSet [int_ 1]; HFrozen [int_ 1]; HModel (int_ 1); HDict [(int_ 1, int_ 1)]]) /\
  represent nostr nostr nolt (HSet [str_ "a"; int_ 10; HPrim PNone; int_ 9]) = RT [RNum 3; RT [RNone; RNum 10; RNum 9; RStr "a"]].
Proof.
  set (a := HDict _). set (b := HDict _). cbn zeta.
  assert (S1 : forall x y, x <> y -> distinct [PInt x; PInt y]).
  { intros x y N. split; repeat constructor; try (intros (i & [=])). intros (z & A & B). cbn in *. congruence. }
  assert (W : forall x y, Forall (fun p => ~ whole p) [PInt x; PInt y]) by (intros; repeat constructor; intros [(b0 & [=])|[(z & [=])|[=]]]).
  repeat apply conj; try reflexivity.
  - apply (pl_dict _ ["b"; "a"]); [reflexivity|repeat constructor; simpl; intuition discriminate|]. repeat constructor.
    apply (pl_set _ [PInt 3; PInt 1]); [reflexivity|apply S1; discriminate|apply W].
  - apply (pl_dict _ ["a"; "b"]); [reflexivity|repeat constructor; simpl; intuition discriminate|]. repeat constructor.
    apply (pl_set _ [PInt 1; PInt 3]); [reflexivity|apply S1; discriminate|apply W].
  - eapply sm_dict; [apply perm_swap|]. repeat constructor; try (eexists; split; reflexivity).
  - vm_compute. repeat constructor; simpl; intuition discriminate.
Qed.
