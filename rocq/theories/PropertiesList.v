(** Property C46 (to_list). *)
From Coq Require Import List Bool Arith ZArith Lia Sorted.
From Verif Require Import PyBase ModelList SpecList ProofsList.
Import ListNotations.
Local Open Scope list_scope.

(** What to_list starts from: a container's own items, [] for None/undefined, the
    value itself otherwise (without use_values). *)
Definition start (v : val) : list val :=
  match v with
  | VNone | VUndef => []
  | _ => match contents true v with Some l => l | None => [v] end
  end.
Lemma start_initial v : initial false v = start v.
Proof. destruct v as [| | | |[] l| | | |]; reflexivity. Qed.

(** flatten: exactly the leaves, from left to right. *)
Theorem C46_flatten : forall hash eqv hdict v dropna tuples,
  exists out pts,
    to_list hash eqv hdict v true dropna false false tuples = Ret out /\ map snd pts = out /\
    StronglySorted path_lt (map fst pts) /\
    forall p w, In (p, w) pts <-> found tuples (start v) p w /\ leaf tuples w /\ ~ (dropna = true /\ na w).
Proof.
  intros hash eqv hdict v dropna tuples. unfold to_list. cbn [andb negb]. rewrite start_initial.
  destruct (flatten_points dropna tuples _ (start v) (le_n _)) as (pts & (S & P) & E).
  exists (process true dropna tuples (start v)), pts. auto.
Qed.
Print Assumptions C46_flatten.

(** Without flatten: every container becomes a list, leaves stay at their positions. *)
Theorem C46_shape : forall hash eqv hdict v dropna tuples out,
  to_list hash eqv hdict v false dropna false false tuples = Ret out ->
  (forall p w, found tuples out p w -> (leaf tuples w /\ ~ (dropna = true /\ na w)) \/ exists l, w = VSeq KList l) /\
  (dropna = false -> forall p w, leaf tuples w -> (found tuples out p w <-> found tuples (start v) p w)) /\
  to_list hash eqv hdict (VSeq KList out) true dropna false false tuples = to_list hash eqv hdict v true dropna false false tuples.
Proof.
  intros hash eqv hdict v dropna tuples out. unfold to_list. cbn [andb negb]. rewrite !start_initial. intros [= <-]. split; [|split].
  - intros p w. apply shape_kept.
  - intros D p w. now apply shape_found.
  - f_equal. eapply reflatten. apply le_n.
Qed.
Print Assumptions C46_shape.

Theorem C46_idempotent : forall hash eqv hdict v dropna tuples out,
  to_list hash eqv hdict v true dropna false false tuples = Ret out ->
  to_list hash eqv hdict (VSeq KList out) true dropna false false tuples = Ret out.
Proof.
  intros hash eqv hdict v dropna tuples out. unfold to_list. cbn [andb negb]. intros [= <-]. f_equal. eapply flatten_idem. apply le_n.
Qed.
Print Assumptions C46_idempotent.

(** use_values: of a mapping and an Enum class the values, of a text its characters. *)
Theorem C46_use_values : forall hash eqv hdict flatten dropna unique tuples,
  (forall kv, to_list hash eqv hdict (VMap kv) flatten dropna unique true tuples =
              to_list hash eqv hdict (VSeq KList (map snd kv)) flatten dropna unique true tuples) /\
  (forall ms, to_list hash eqv hdict (VEnumClass ms) flatten dropna unique true tuples =
              to_list hash eqv hdict (VSeq KList (map snd ms)) flatten dropna unique true tuples) /\
  (forall s, to_list hash eqv hdict (VText s) flatten dropna unique true tuples =
             to_list hash eqv hdict (VSeq KList (map (fun c => VText [c]) s)) flatten dropna unique true tuples).
Proof. intros. repeat split. Qed.
Print Assumptions C46_use_values.

(** unique on hashable items: the first occurrences, in order. *)
Theorem C46_unique : forall hash eqv hdict v dropna use_values tuples all,
  (forall a, eqv a a = true) ->
  (forall a b c, eqv a b = true -> eqv b c = true -> eqv a c = true) ->
  to_list hash eqv hdict v true dropna false use_values tuples = Ret all ->
  (forall x, In x all -> hash x <> None) ->
  exists out idx, to_list hash eqv hdict v true dropna true use_values tuples = Ret out /\
    StronglySorted lt idx /\ map (nth_error all) idx = map Some out /\ (forall i, In i idx <-> first_at eqv all i).
Proof.
  intros hash eqv hdict v dropna uv tuples all R T H HH. unfold to_list in *. cbn [andb negb] in *. injection H as H.
  rewrite H. destruct (direct_some hash eqv all [] HH) as (out & D).
  destruct (direct_spec hash eqv hdict R T all [] [] out HH) as (idx & A & B & C); auto.
  - exists []. split; [constructor|]. split; auto. intros i. split; [contradiction|]. intros (x & N & _). destruct i; discriminate.
  - simpl in *. exists out, idx. rewrite D. auto.
Qed.
Print Assumptions C46_unique.

(** With an unhashable item that is no set, values are compared by their hashes. *)
Theorem C46_fallback : forall hash eqv hdict v dropna use_values tuples all x,
  to_list hash eqv hdict v true dropna false use_values tuples = Ret all ->
  In x all -> hash x = None -> (forall l, x <> VSeq KSet l) ->
  let key y := match hash y with Some h => h | None => hdict y end in
  match to_list hash eqv hdict v true dropna true use_values tuples with
  | Raise e => e = ValueError /\ exists y, In y all /\ hash y = None /\ is_map y = false
  | Ret out => (forall y, In y all -> hash y = None -> is_map y = true) /\
      exists idx, StronglySorted lt idx /\ map (nth_error all) idx = map Some out /\
        forall i, In i idx <-> exists y, nth_error all i = Some y /\
          forall j w, j < i -> nth_error all j = Some w -> key w <> key y
  end.
Proof.
  intros hash eqv hdict v dropna uv tuples all x H I HX NS key. unfold to_list in *. cbn [andb negb] in *. injection H as H.
  rewrite H, (direct_unhashable hash eqv all [] x I HX NS).
  pose proof (by_hash_spec hash hdict all []) as B. destruct (by_hash hash hdict all []) as [out|e]; auto.
  destruct B as (A & idx & S & M & P). split; auto. exists idx. split; auto. split; auto. intros i. rewrite P. simpl.
  split; [intros (y & N & _ & F)|intros (y & N & F)]; exists y; auto.
Qed.
Print Assumptions C46_fallback.
Theorem C46_errors : forall hash eqv hdict v flatten dropna use_values tuples unique,
  (unique = true -> flatten = false -> to_list hash eqv hdict v flatten dropna unique use_values tuples = Raise ValueError) /\
  (unique = false -> exists out, to_list hash eqv hdict v flatten dropna unique use_values tuples = Ret out) /\
  (forall e, flatten = true -> to_list hash eqv hdict v flatten dropna unique use_values tuples = Raise e ->
     e = ValueError /\ exists all x, to_list hash eqv hdict v true dropna false use_values tuples = Ret all /\
       In x all /\ hash x = None /\ is_map x = false).
Proof.
  intros hash eqv hdict v flatten dropna uv tuples unique. split; [intros -> ->; reflexivity|]. split; [intros ->; unfold to_list; cbn; eauto|].
  intros e -> H. unfold to_list in *. rewrite andb_false_r in H. cbn [negb andb] in *.
  destruct unique; [|discriminate].
  destruct (direct hash eqv (process true dropna tuples (initial uv v)) []) eqn:D; [discriminate|].
  pose proof (by_hash_spec hash hdict (process true dropna tuples (initial uv v)) []) as B. rewrite H in B.
  destruct B as (-> & x & X). split; auto. exists (process true dropna tuples (initial uv v)), x. tauto.
Qed.
Print Assumptions C46_errors.

(** CPython: hash(-1) == hash(-2) == -2; ints hash to themselves otherwise (below
    2^61-1); dicts, lists and sets are unhashable. *)
Definition py_hash (v : val) : option Z :=
  match v with
  | VNone => Some 77%Z | VUndef => Some 78%Z
  | VAtom a => Some (if (a =? -1)%Z then (-2)%Z else a)
  | VSeq KFrozen _ => Some 99%Z
  | VText s => Some (1000 + Z.of_nat (length s))%Z
  | _ => None
  end.
Definition py_eq (a b : val) : bool :=
  match a, b with
  | VNone, VNone | VUndef, VUndef => true
  | VAtom x, VAtom y => (x =? y)%Z
  | VSeq KSet [], VSeq KSet [] | VSeq KFrozen [], VSeq KFrozen []
  | VSeq KSet [], VSeq KFrozen [] | VSeq KFrozen [], VSeq KSet [] => true
  | VMap [], VMap [] => true
  | _, _ => false
  end.
(** [-1, -2, {}]: -2 is dropped though it occurs once. *)
Theorem C46_distinct_kept_refuted :
  exists out, to_list py_hash py_eq (fun _ => 5%Z) (VSeq KList [VAtom (-1); VAtom (-2); VMap []]) true false true false false = Ret out /\
    ~ In (VAtom (-2)) out.
Proof. eexists. split; [vm_compute; reflexivity|]. intros [H|[H|[]]]; discriminate. Qed.
Print Assumptions C46_distinct_kept_refuted.
(** [frozenset(), set()] is accepted, [set(), frozenset()] is refused. *)
Theorem C46_order_independent_error_refuted :
  to_list py_hash py_eq (fun _ => 5%Z) (VSeq KList [VSeq KFrozen []; VSeq KSet []]) true false true false false = Ret [VSeq KFrozen []] /\
  to_list py_hash py_eq (fun _ => 5%Z) (VSeq KList [VSeq KSet []; VSeq KFrozen []]) true false true false false = Raise ValueError.
Proof. split; reflexivity. Qed.
Print Assumptions C46_order_independent_error_refuted.
Example C46_example :
  to_list py_hash py_eq (fun _ => 5%Z)
    (VSeq KList [VAtom 1; VSeq KList [VNone; VAtom 2; VSeq KIter [VAtom 1]]; VSeq KTuple [VAtom 3]]) true true true false true
    = Ret [VAtom 1; VAtom 2; VAtom 3] /\
  to_list py_hash py_eq (fun _ => 5%Z)
    (VSeq KList [VAtom 1; VSeq KList [VNone; VAtom 2; VSeq KIter [VAtom 1]]; VSeq KTuple [VAtom 3]]) false true false false false
    = Ret [VAtom 1; VSeq KList [VAtom 2; VSeq KList [VAtom 1]]; VSeq KTuple [VAtom 3]] /\
  to_list py_hash py_eq (fun _ => 5%Z) VNone true true true true true = Ret [] /\
  to_list py_hash py_eq (fun _ => 5%Z) (VEnumClass [(1, VAtom 10); (2, VAtom 20)]%Z) false false false true false = Ret [VAtom 10; VAtom 20].
Proof. repeat split; reflexivity. Qed.
