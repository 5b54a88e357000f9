(** C112: equality and hashing of Meta, Spec, parameter objects, dataclasses and elements. *)
From Coq Require Import List Bool Arith ZArith Lia.
From Verif Require Import PyBase ModelEquality.
Import ListNotations.
Local Open Scope Z_scope.

(** Python's contract for values: what is the same object is the same value, equal values that
    have a hash have the same one. *)
Record lawful {V} (W : world V) : Prop := {
  law_is : forall v w, is_ W v w = true -> v = w;
  law_hash : forall v w h k, same W v w = true -> vhash W v = Some h -> vhash W w = Some k -> h = k
}.

Section Values.
Variable V : Type.
Variable W : world V.

(** ** Meta *)

(** Two Metas are equal if they have one key and are one callable, or have equal values that are
    not both callable. *)
Theorem C112_meta_eq m n : meta_eq V W m n = true <->
  m_key V m = m_key V n /\
  (can_call W (m_val V m) = true /\ can_call W (m_val V n) = true /\ ident W (m_val V m) = ident W (m_val V n)
   \/ ~ (can_call W (m_val V m) = true /\ can_call W (m_val V n) = true) /\ same W (m_val V m) (m_val V n) = true).
Proof.
  unfold meta_eq. destruct (Nat.eqb_spec (m_key V m) (m_key V n)) as [E|E]; cbn [negb].
  - destruct (can_call W (m_val V m)), (can_call W (m_val V n)); cbn [andb]; rewrite ?Z.eqb_eq; intuition congruence.
  - intuition congruence.
Qed.

(** Values for which the hash of a Meta is taken the same way. *)
Definition alike (v w : V) : Prop :=
  can_call W v = can_call W w /\
  (can_call W v = false ->
     (exists h k, vhash W v = Some h /\ vhash W w = Some k)
     \/ vhash W v = None /\ vhash W w = None /\ shown W v = shown W w).

(** Equal Metas have the same hash if their values are both callable, both hashable, or neither
    and print the same. *)
Theorem C112_meta_hash m n : lawful W -> meta_eq V W m n = true -> alike (m_val V m) (m_val V n) ->
  meta_hash V W m = meta_hash V W n.
Proof.
  intros L E [C A]. apply C112_meta_eq in E as [K E]. unfold meta_hash. rewrite <- C, <- K.
  destruct (can_call W (m_val V m)).
  - destruct E as [(_ & _ & E)|(E & _)]; [rewrite E; reflexivity|]. exfalso. apply E. auto.
  - destruct E as [(E & _)|(_ & E)]; [discriminate|].
    destruct (A eq_refl) as [(h & k & H1 & H2)|(H1 & H2 & H3)]; rewrite H1, H2.
    + rewrite (law_hash W L _ _ _ _ E H1 H2). reflexivity.
    + rewrite H3. reflexivity.
Qed.

(** ** Spec *)

Lemma metas_hash l : forall l', lawful W -> metas_eq V W l l' = true ->
  (forall m, In m l -> forall n, In n l' -> m_ref V m = m_ref V n -> m = n) ->
  Forall2 (fun m n => alike (m_val V m) (m_val V n)) l l' -> map (meta_hash V W) l = map (meta_hash V W) l'.
Proof.
  induction l as [|m l IH]; intros [|n l'] L E U F; cbn in *; try discriminate; [reflexivity|].
  inversion F as [|? ? ? ? F1 F2]; subst. apply andb_true_iff in E as [E1 E2]. f_equal.
  - apply orb_true_iff in E1 as [E1|E1]; [|now apply C112_meta_hash].
    apply Nat.eqb_eq in E1. rewrite (U m (or_introl eq_refl) n (or_introl eq_refl) E1). reflexivity.
  - apply IH; auto.
Qed.

(** A spec is hashable exactly if its type is; equal specs have equal hashes if the values of
    their metadata are alike. *)
Theorem C112_spec s t :
  (spec_hash V W s = Raise TypeError <-> vhash W (s_type V s) = None)
  /\ (lawful W -> spec_eq V W s t = true ->
      (forall m, In m (s_metas V s) -> forall n, In n (s_metas V t) -> m_ref V m = m_ref V n -> m = n) ->
      Forall2 (fun m n => alike (m_val V m) (m_val V n)) (s_metas V s) (s_metas V t) ->
      forall h k, spec_hash V W s = Ret h -> spec_hash V W t = Ret k -> h = k).
Proof.
  unfold spec_hash, hash_tuple. cbn [hashes bind]. split.
  - destruct (vhash W (s_type V s)); cbn; split; congruence.
  - intros L E U F h k Hs Ht. unfold spec_eq in E. apply andb_true_iff in E as [E1 E2].
    rewrite (metas_hash _ _ L E2 U F) in Hs.
    destruct (vhash W (s_type V s)) as [a|] eqn:A; cbn in Hs; [|discriminate].
    destruct (vhash W (s_type V t)) as [b|] eqn:B; cbn in Ht; [|discriminate].
    assert (a = b) as ->; [|congruence]. unfold item_eq in E1. apply orb_true_iff in E1 as [E1|E1].
    + apply (law_is W L) in E1. congruence.
    + exact (law_hash W L _ _ _ _ E1 A B).
Qed.

(** ** Params and DataClass *)
Variable sentinel : V -> bool.
Variable digest : list (nat * V) -> Z.

(** Classes as users write them: the bodies define neither method, @dataclass with the default
    eq; frozen for Params only, or else the definition fails. *)
Definition plain (b : base) (mro : list class) : Prop :=
  definable b mro = true /\
  Forall (fun c => c_eq c = false /\ c_hash c = false /\ forall e f, c_dec c = Some (e, f) -> e = true) mro.
(** Some class below the base is decorated. *)
Definition decorated (mro : list class) : Prop := Exists (fun c => c_dec c <> None) mro.

Lemma methods b mro : plain b mro ->
  (decorated mro -> eq_of mro = ByFields /\ hash_of mro = match b with Params => HFields | DataClass => HNone end)
  /\ (~ decorated mro -> eq_of mro = ByContent /\ hash_of mro = HContent /\ fields mro = []).
Proof.
  intros [D P]. induction P as [|c r (E & H & S) P IH].
  - split; [intros X; inversion X|auto].
  - cbn in D. apply andb_true_iff in D as [D1 D2]. specialize (IH D2). cbn [eq_of hash_of fields]. rewrite E, H.
    unfold decorates in D1. destruct (c_dec c) as [[e f]|] eqn:C.
    + rewrite (S e f eq_refl). apply eqb_prop in D1. subst f. split.
      * intros _. split; [reflexivity|]. destruct b; reflexivity.
      * intros N. exfalso. apply N. left. congruence.
    + destruct IH as [I1 I2]. split.
      * intros X. apply I1. inversion X as [? ? X1|? ? X1]; subst; [congruence|assumption].
      * intros N. apply I2. intros X. apply N. now right.
Qed.

Definition one_class (o p : obj V) : Prop := o_class V o = o_class V p.
(** Each value the same object or equal *)
Definition pairwise (l l' : list V) : Prop := Forall2 (fun v w => is_ W v w = true \/ same W v w = true) l l'.

Lemma items_pairwise l : forall l', items_eq V W l l' = true <-> pairwise l l'.
Proof.
  induction l as [|v l IH]; intros [|w l']; cbn [items_eq].
  - split; [constructor|reflexivity].
  - split; [discriminate|intros H; inversion H].
  - split; [discriminate|intros H; inversion H].
  - unfold item_eq. rewrite andb_true_iff, orb_true_iff, IH. split.
    + intros [H1 H2]. now constructor.
    + intros H. inversion H; subst. auto.
Qed.

(** Objects of decorated classes, of Params or of DataClass, are equal exactly if they are of one
    class and agree in every field (given that one class has one list of bases). *)
Theorem C112_eq b (i : bool) (o p : obj V) :
  plain b (o_mro V o) -> plain b (o_mro V p) -> decorated (o_mro V o) -> decorated (o_mro V p) ->
  (one_class o p -> o_mro V o = o_mro V p) -> (i = true -> o = p) ->
  exists r, equal V W sentinel digest i o p = Ret r /\
    (r = true <-> one_class o p /\ pairwise (values V o) (values V p)).
Proof.
  intros Po Pp Do Dp U I. destruct (proj1 (methods b _ Po) Do) as [Eo _]. destruct (proj1 (methods b _ Pp) Dp) as [Ep _].
  unfold equal, try_eq. rewrite Eo, Ep. cbn [bind]. unfold fields_eq, one_class in *.
  assert (X : i = true -> o_class V o = o_class V p) by (intros H; rewrite (I H); reflexivity).
  destruct (o_class V o) as [c|], (o_class V p) as [d|]; cbn [bind].
  - destruct (Nat.eqb_spec c d) as [->|N]; cbn [bind].
    + eexists. split; [reflexivity|]. rewrite items_pairwise. tauto.
    + destruct (Nat.eqb_spec d c); [congruence|]. cbn [bind]. exists i. split; [reflexivity|].
      split; [intros H; specialize (X H); congruence|intros [H _]; congruence].
  - exists i. split; [reflexivity|]. split; [intros H; specialize (X H); congruence|intros [H _]; congruence].
  - exists i. split; [reflexivity|]. split; [intros H; specialize (X H); congruence|intros [H _]; congruence].
  - eexists. split; [reflexivity|]. rewrite items_pairwise. tauto.
Qed.

Lemma hashes_none l : In None l <-> hashes l = Raise TypeError.
Proof.
  induction l as [|[h|] l IH]; cbn.
  - split; [intros []|discriminate].
  - destruct (hashes l) as [r|e]; cbn [bind].
    + split; [|discriminate]. intros [H|H]; [discriminate|]. apply IH in H. discriminate.
    + rewrite <- IH. split; [intros [H|H]; [discriminate|exact H]|auto].
  - tauto.
Qed.
Lemma hashes_error l e : hashes l = Raise e -> e = TypeError.
Proof.
  induction l as [|[h|] l IH]; cbn; [discriminate| |congruence].
  destruct (hashes l) as [r|x]; cbn [bind]; [discriminate|]. intros H. injection H as <-. now apply IH.
Qed.
Lemma hashes_pairwise l : lawful W -> forall l' r r', pairwise l l' ->
  hashes (map (vhash W) l) = Ret r -> hashes (map (vhash W) l') = Ret r' -> r = r'.
Proof.
  intros L. induction l as [|v l IH]; intros l' r r' P; inversion P as [|? w ? l2 P1 P2]; subst; cbn; [congruence|].
  destruct (vhash W v) as [h|] eqn:Hv; [|discriminate]. destruct (vhash W w) as [k|] eqn:Hw; [|discriminate].
  destruct (hashes (map (vhash W) l)) as [t|] eqn:H1; cbn; [|discriminate].
  destruct (hashes (map (vhash W) l2)) as [t'|] eqn:H2; cbn; [|discriminate].
  intros A B. injection A as <-. injection B as <-. rewrite (IH _ _ _ P2 eq_refl H2). f_equal.
  destruct P1 as [Q|Q]; [apply (law_is W L) in Q; congruence|exact (law_hash W L _ _ _ _ Q Hv Hw)].
Qed.

(** The hash of a parameter object of a decorated class: TypeError exactly if some field holds
    an unhashable value, sentinels included; no other exception; equal objects that have one
    have the same. *)
Theorem C112_params_hash (o p : obj V) :
  plain Params (o_mro V o) -> plain Params (o_mro V p) -> decorated (o_mro V o) -> decorated (o_mro V p) ->
  let h := hash V W sentinel digest in
  (forall e, h o = Raise e -> e = TypeError)
  /\ (h o = Raise TypeError <-> exists k, In k (fields (o_mro V o)) /\ vhash W (o_val V o k) = None)
  /\ (lawful W -> one_class o p -> pairwise (values V o) (values V p) ->
      forall x y, h o = Ret x -> h p = Ret y -> x = y).
Proof.
  intros Po Pp Do Dp h. unfold h, hash.
  destruct (proj1 (methods _ _ Po) Do) as [_ ->]. destruct (proj1 (methods _ _ Pp) Dp) as [_ ->].
  unfold hash_tuple. split; [|split].
  - intros e H. destruct (hashes (map (vhash W) (values V o))) as [r|x] eqn:E; cbn in H; [discriminate|].
    apply hashes_error in E. congruence.
  - pose proof (hashes_none (map (vhash W) (values V o))) as N.
    assert (In None (map (vhash W) (values V o)) <-> exists k, In k (fields (o_mro V o)) /\ vhash W (o_val V o k) = None) as <-.
    { unfold values. rewrite map_map, in_map_iff. split; intros (k & A & B); eauto. }
    rewrite N. destruct (hashes _); cbn; split; congruence.
  - intros L _ P x y Hx Hy.
    destruct (hashes (map (vhash W) (values V o))) as [r|] eqn:E1; cbn in Hx; [|discriminate].
    destruct (hashes (map (vhash W) (values V p))) as [r'|] eqn:E2; cbn in Hy; [|discriminate].
    rewrite (hashes_pairwise _ L _ _ _ P E1 E2) in Hx. congruence.
Qed.

(** Objects of decorated subclasses of DataClass have no hash. *)
Theorem C112_dataclass_hash (o : obj V) : plain DataClass (o_mro V o) -> decorated (o_mro V o) ->
  hash V W sentinel digest o = Raise TypeError.
Proof. intros P D. unfold hash. destruct (proj1 (methods _ _ P) D) as [_ ->]. reflexivity. Qed.

(** Equality and hash by content are those of classes without fields only: there all objects are
    equal and have one hash. *)
Theorem C112_no_fields b (i : bool) (o p : obj V) :
  plain b (o_mro V o) -> plain b (o_mro V p) -> ~ decorated (o_mro V o) -> ~ decorated (o_mro V p) ->
  content V sentinel o = [] /\ hash V W sentinel digest o = hash V W sentinel digest p
  /\ equal V W sentinel digest i o p = Ret true.
Proof.
  intros Po Pp Do Dp. destruct (proj2 (methods _ _ Po) Do) as (E1 & H1 & F1). destruct (proj2 (methods _ _ Pp) Dp) as (E2 & H2 & F2).
  assert (content V sentinel o = [] /\ content V sentinel p = []) as [C1 C2]
    by (unfold content; rewrite F1, F2; auto).
  unfold equal, try_eq, content_eq, hash. rewrite E1, H1, H2, C1, C2. cbn. rewrite Z.eqb_refl. auto.
Qed.
End Values.

(** ** Element *)

(** Elements are equal exactly if they have one id, whatever their classes and fields; this is an
    equivalence, and equal ones have the same hash. *)
Theorem C112_element uuid_hash :
  (forall x y, element_eq x y = true <-> e_uuid x = e_uuid y)
  /\ (forall x y, element_eq x y = true -> element_hash uuid_hash x = element_hash uuid_hash y)
  /\ (forall x, element_eq x x = true) /\ (forall x y, element_eq x y = element_eq y x)
  /\ (forall x y z, element_eq x y = true -> element_eq y z = true -> element_eq x z = true).
Proof.
  unfold element_eq, element_hash. repeat split; intros.
  - now apply Nat.eqb_eq.
  - now apply Nat.eqb_eq.
  - apply Nat.eqb_eq in H. congruence.
  - apply Nat.eqb_refl.
  - apply Nat.eqb_sym.
  - apply Nat.eqb_eq in H, H0. apply Nat.eqb_eq. congruence.
Qed.

Print Assumptions C112_meta_eq.
Print Assumptions C112_meta_hash.
Print Assumptions C112_spec.
Print Assumptions C112_eq.
Print Assumptions C112_params_hash.
Print Assumptions C112_dataclass_hash.
Print Assumptions C112_no_fields.
Print Assumptions C112_element.

(** ** Examples and refutations *)

(** Some values: ints, floats, dicts with their order, functions, callables that equal a number,
    None, Unset *)
Inductive val := Int (n : Z) | Float (n : Z) | Dict (l : list Z) | Fun (n : Z) | Equals (n i : Z) | NoneV | UnsetV.
Definition py_same (v w : val) : bool :=
  match v, w with
  | (Int n | Float n | Equals n _), (Int m | Float m | Equals m _) => n =? m
  | Dict l, Dict k => forallb (fun x => existsb (Z.eqb x) k) l && forallb (fun x => existsb (Z.eqb x) l) k
  | Fun n, Fun m => n =? m
  | NoneV, NoneV | UnsetV, UnsetV => true
  | _, _ => false
  end.
Definition py : world val := {|
  same := py_same;
  is_ := fun v w => match v, w with NoneV, NoneV | UnsetV, UnsetV => true | Fun n, Fun m => n =? m | _, _ => false end;
  ident := fun v => match v with Fun n => 100 + n | Equals _ i => 200 + i | _ => 0 end;
  can_call := fun v => match v with Fun _ | Equals _ _ => true | _ => false end;
  vhash := fun v => match v with Int n | Float n | Equals n _ => Some n | Fun n => Some (100 + n)
                    | Dict _ => None | NoneV => Some 7 | UnsetV => Some 8 end;
  shown := fun v => match v with Dict l => Z.to_nat (fold_left (fun a x => 10 * a + x) l 0) | _ => 0%nat end;
  text_hash := Z.of_nat;
  int_hash := fun n => n;
  tuple_hash := fold_right (fun h a => h + 1000 * a) 0
|}.

Lemma py_lawful : lawful py.
Proof.
  split; cbn.
  - intros [] []; try discriminate; try reflexivity. intros H. apply Z.eqb_eq in H. congruence.
  - intros [] [] h k; cbn; intros H; try discriminate; intros H1 H2; try discriminate;
      injection H1 as <-; injection H2 as <-; try (apply Z.eqb_eq in H; subst); reflexivity.
Qed.

Definition m (k : nat) (v : val) : meta val := Meta val 0 k v.

Example C112_meta_ex :
  meta_eq _ py (m 1 (Int 1)) (m 1 (Float 1)) = true
  /\ meta_hash _ py (m 1 (Int 1)) = meta_hash _ py (m 1 (Float 1))
  /\ meta_eq _ py (m 1 (Fun 1)) (m 1 (Fun 1)) = true
  /\ meta_eq _ py (m 1 (Fun 1)) (m 1 (Fun 2)) = false
  /\ meta_eq _ py (m 1 (Int 1)) (m 2 (Int 1)) = false.
Proof. repeat split. Qed.

(** Equal Metas can have different hashes: dicts in another order, a callable that equals a
    number. *)
Theorem C112_meta_hash_refuted :
  ~ (forall x y, meta_eq _ py x y = true -> meta_hash _ py x = meta_hash _ py y)
  /\ meta_eq _ py (m 1 (Dict [1; 2])) (m 1 (Dict [2; 1])) = true
  /\ meta_hash _ py (m 1 (Dict [1; 2])) <> meta_hash _ py (m 1 (Dict [2; 1]))
  /\ meta_eq _ py (m 1 (Equals 3 0)) (m 1 (Int 3)) = true
  /\ meta_hash _ py (m 1 (Equals 3 0)) <> meta_hash _ py (m 1 (Int 3)).
Proof.
  split; [|repeat split; discriminate]. intros H.
  specialize (H (m 1 (Dict [1; 2])) (m 1 (Dict [2; 1])) eq_refl). discriminate.
Qed.
Print Assumptions C112_meta_hash_refuted.

(** Equality of Metas is not transitive: two callables that equal one number *)
Theorem C112_transitive_refuted :
  ~ (forall x y z, meta_eq _ py x y = true -> meta_eq _ py y z = true -> meta_eq _ py x z = true).
Proof.
  intros H. specialize (H (m 1 (Equals 3 0)) (m 1 (Int 3)) (m 1 (Equals 3 1)) eq_refl eq_refl). discriminate.
Qed.
Print Assumptions C112_transitive_refuted.

(** Such Metas in a spec: equal specs with different hashes. *)
Theorem C112_spec_hash_refuted :
  exists s t h k, spec_eq _ py s t = true /\ spec_hash _ py s = Ret h /\ spec_hash _ py t = Ret k /\ h <> k.
Proof.
  exists (Spec val (Fun 1) [Meta val 1 1 (Dict [1; 2])]), (Spec val (Fun 1) [Meta val 2 1 (Dict [2; 1])]).
  do 2 eexists. split; [reflexivity|]. split; [reflexivity|]. split; [reflexivity|]. discriminate.
Qed.
Print Assumptions C112_spec_hash_refuted.

(** A class with fields 0 and 1, another one with the same fields, and a subclass of the first
    that adds field 2; a dataclass. *)
Definition A := [Class 0 (Some (true, true)) false false [0; 1]%nat].
Definition B := [Class 1 (Some (true, true)) false false [0; 1]%nat].
Definition C := Class 2 (Some (true, true)) false false [1; 2]%nat :: A.
Definition D := [Class 3 (Some (true, false)) false false [0; 1]%nat].
Definition ob (c : list class) (x y : val) : obj val :=
  Obj val c (fun k => match k with 0%nat => x | 1%nat => y | _ => UnsetV end).
Definition unset (v : val) : bool := match v with NoneV | UnsetV => true | _ => false end.
Notation eq_ := (equal val py unset (fun _ => 0) false).
Notation hash_ := (hash val py unset (fun _ => 0)).

Example C112_params_ex :
  fields C = [0; 1; 2]%nat /\ definable Params C = true /\ definable DataClass C = false
  /\ eq_ (ob A (Int 1) UnsetV) (ob A (Float 1) UnsetV) = Ret true
  /\ eq_ (ob A (Int 1) UnsetV) (ob A (Int 2) UnsetV) = Ret false
  /\ hash_ (ob A (Int 1) UnsetV) = hash_ (ob A (Float 1) UnsetV)
  /\ hash_ (ob C (Int 1) (Int 2)) = Ret 8002001
  /\ eq_ (ob D (Dict [1]) NoneV) (ob D (Dict [1]) NoneV) = Ret true
  /\ hash_ (ob D (Int 1) NoneV) = Raise TypeError.
Proof. repeat split. Qed.

(** A subclass without @dataclass takes over the methods and fields. *)
Definition U := Class 4 None false false [5]%nat :: A.
Example C112_undecorated_ex : plain Params U /\ decorated U /\ fields U = [0; 1]%nat
  /\ eq_ (ob U (Int 1) UnsetV) (ob U (Float 1) UnsetV) = Ret true.
Proof.
  split; [|split; [|repeat split]].
  - split; [reflexivity|]. repeat constructor; cbn; congruence.
  - right. left. discriminate.
Qed.

(** Objects with the same content need not be equal: None and Unset where both count as absent;
    two classes. *)
Theorem C112_content_refuted :
  ~ (forall o p, content val unset o = content val unset p -> eq_ o p = Ret true)
  /\ content val unset (ob A (Int 1) NoneV) = content val unset (ob A (Int 1) UnsetV)
  /\ eq_ (ob A (Int 1) NoneV) (ob A (Int 1) UnsetV) = Ret false
  /\ content val unset (ob A (Int 1) (Int 2)) = content val unset (ob B (Int 1) (Int 2))
  /\ eq_ (ob A (Int 1) (Int 2)) (ob B (Int 1) (Int 2)) = Ret false.
Proof.
  split; [|repeat split]. intros H. specialize (H (ob A (Int 1) NoneV) (ob A (Int 1) UnsetV) eq_refl). discriminate.
Qed.
Print Assumptions C112_content_refuted.

(** Parameter objects are not always hashable: AlcallParams(kw={...}) is not. *)
Theorem C112_hashable_refuted : exists o, plain Params (o_mro val o) /\ hash_ o = Raise TypeError.
Proof.
  exists (ob A (Int 1) (Dict [1])). split; [|reflexivity]. split; [reflexivity|].
  repeat constructor. intros e f H. injection H as <- <-. reflexivity.
Qed.
Print Assumptions C112_hashable_refuted.
