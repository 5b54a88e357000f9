(** Properties C05-C08, C11, C12: the pile, sequentially.  [sub] is an arbitrary
    subclass relation, so every statement ranges over all class hierarchies. *)
From Coq Require Import List ZArith Bool Arith Permutation.
From Verif Require Import PyBase ModelProgression SpecProgression ModelPile SpecPile ProofsPile.
Import ListNotations.

(** Concrete data for the examples: class 1 is a subclass of class 0. *)
Definition ex_sub (a b : cls) : bool := (a =? b) || ((a =? 1) && (b =? 0)).
Definition ex_a := Item 10 0 7.
Definition ex_b := Item 11 1 8.
Definition ex_c := Item 12 2 9.
Definition ex_p0 := Pile [(10, ex_a); (11, ex_b)] [11; 10] (Some [0]) false.

Example ex_p0_new :
  pile_new ex_sub (Some [0]) false [OElem ex_a; OElem ex_b] [11; 10] = Ret ex_p0.
Proof. reflexivity. Qed.

Example ex_reachable :
  reachable ex_sub (pile_run ex_sub ex_p0 [PRemove (RId 10); PAdd (OElem ex_a)]).
Proof.
  exists (Some [0]), false, [OElem ex_a; OElem ex_b], [11; 10], ex_p0,
    [PRemove (RId 10); PAdd (OElem ex_a)].
  split; [reflexivity|]. split; [right; apply perm_swap | reflexivity].
Qed.

(** C05 *)
Theorem C05_stores_never_drift : forall sub p, reachable sub p -> coherent p.
Proof. exact reachable_coherent. Qed.
Print Assumptions C05_stores_never_drift.

Example C05_ex : pile_iter (pile_run ex_sub ex_p0 [PRemove (RId 10); PAdd (OElem ex_a)]) =
                 Ret [ex_b; ex_a].
Proof. reflexivity. Qed.

(** C06: every answer of every history agrees with the plain ordered list. *)
Theorem C06_pile_is_ordered_map : forall sub ty st os ord p0 ops,
  pile_new sub ty st os ord = Ret p0 ->
  ord = [] \/ Permutation ord (arg_ids os) ->
  exists l0, Permutation (map OElem l0) os /\ (ord = [] -> map OElem l0 = os) /\
    (ord <> [] -> map iid l0 = ord) /\
    Forall2 (fun v s => agrees v s ty st) (pile_outs sub p0 ops) (souts sub ty st l0 ops) /\
    pile_iter (pile_run sub p0 ops) = Ret (srun sub ty st l0 ops).
Proof. exact history_refines. Qed.
Print Assumptions C06_pile_is_ordered_map.

Example C06_ex : pile_outs ex_sub ex_p0
    [PAdd (OElem ex_c); PUpdate (OElem (Item 11 0 5)); PAt (-2)%Z; PRemove (RId 99); PPop (RId 10) false; PLen]
  = [Raise TypeError; Ret VUnit; Ret (VItem (Item 11 0 5)); Raise NotFoundError;
     Ret (VItem ex_a); Ret (VNat 1)].
Proof. reflexivity. Qed.

(** C07 *)
Theorem C07_failing_ops_change_nothing : forall sub p o e, reachable sub p ->
  snd (pile_step sub p o) = Raise e -> fst (pile_step sub p o) = p.
Proof. exact reachable_raise_unchanged. Qed.
Print Assumptions C07_failing_ops_change_nothing.

Example C07_ex : snd (pile_step ex_sub ex_p0 (PAdd (OElem ex_a))) = Raise ExistsError.
Proof. reflexivity. Qed.

(** C08 *)
Theorem C08_type_constraint_invariant : forall sub p l x, reachable sub p ->
  pile_iter p = Ret l -> In x l -> allowed sub (p_types p) (p_strict p) x.
Proof. exact reachable_allowed. Qed.
Print Assumptions C08_type_constraint_invariant.

Theorem C08_stored_items_allowed : forall sub p u x d, reachable sub p ->
  pile_get p (RId u) d = Ret (VItem x) -> iid x = u /\ allowed sub (p_types p) (p_strict p) x.
Proof. exact stored_allowed. Qed.
Print Assumptions C08_stored_items_allowed.

Theorem C08_config_never_changes : forall sub p ops,
  p_types (pile_run sub p ops) = p_types p /\ p_strict (pile_run sub p ops) = p_strict p.
Proof. exact config_stable. Qed.
Print Assumptions C08_config_never_changes.

Theorem C08_disallowed_rejected : forall sub p x,
  ~ allowed sub (p_types p) (p_strict p) x ->
  pile_step sub p (PAdd (OElem x)) = (p, Raise TypeError) /\
  pile_step sub p (PUpdate (OElem x)) = (p, Raise TypeError) /\
  fst (pile_step sub p (PInclude (OElem x))) = p.
Proof. exact disallowed_rejected. Qed.
Print Assumptions C08_disallowed_rejected.

Example C08_ex : allowed ex_sub (Some [0]) false ex_b /\ ~ allowed ex_sub (Some [0]) false ex_c
                 /\ ~ allowed ex_sub (Some [0]) true ex_b.
Proof.
  repeat split.
  - exists 0; split; [left|]; reflexivity.
  - intros [t [[<-|[]] H]]; discriminate.
  - intros [H|[]]; discriminate.
Qed.

(** C11: the [order] argument.  The claim is false ... *)
Theorem C11_order_keeps_coherent_refuted : exists sub ty st os ord p,
  pile_new sub ty st os ord = Ret p /\ ~ coherent p.
Proof.
  exists ex_sub, None, false, [OElem ex_a; OElem ex_b], [10; 10],
    (Pile [(10, ex_a); (11, ex_b)] [10; 10] None false).
  split; [reflexivity|]. intros H.
  apply (order_coherent_iff ex_sub None false [OElem ex_a; OElem ex_b] [10; 10]) in H;
    [|reflexivity].
  destruct H as [H|H]; [discriminate|].
  apply Permutation_sym in H. apply (Permutation_in 11) in H.
  - destruct H as [H|[H|[]]]; discriminate.
  - right; left; reflexivity.
Qed.
Print Assumptions C11_order_keeps_coherent_refuted.

(** ... and an omitted id makes [remove] raise after the item is already gone. *)
Theorem C11_remove_not_atomic_refuted : exists sub ty st os ord p u x,
  pile_new sub ty st os ord = Ret p /\ pile_get p (RId u) false = Ret (VItem x) /\
  snd (pile_step sub p (PRemove (RId u))) = Raise ValueError /\
  pile_contains (fst (pile_step sub p (PRemove (RId u)))) (RId u) = false.
Proof.
  exists ex_sub, None, false, [OElem ex_a; OElem ex_b], [11],
    (Pile [(10, ex_a); (11, ex_b)] [11] None false), 10, ex_a.
  repeat split; reflexivity.
Qed.
Print Assumptions C11_remove_not_atomic_refuted.

(** Exactly the permutations (and the empty order) are safe. *)
Theorem C11_order_coherent_iff : forall sub ty st os ord p,
  pile_new sub ty st os ord = Ret p ->
  (coherent p <-> ord = [] \/ Permutation ord (arg_ids os)).
Proof. exact order_coherent_iff. Qed.
Print Assumptions C11_order_coherent_iff.

Theorem C11_unknown_order_rejected : forall sub ty st os ord p0 u,
  pile_new sub ty st os [] = Ret p0 -> In u ord -> ~ In u (arg_ids os) ->
  pile_new sub ty st os ord = Raise NotFoundError.
Proof. exact order_unknown_rejected. Qed.
Print Assumptions C11_unknown_order_rejected.

Example C11_ex : pile_new ex_sub None false [OElem ex_a] [10; 99] = Raise NotFoundError /\
  exists p, pile_new ex_sub None false [OElem ex_a; OElem ex_b] [11; 10] = Ret p.
Proof. split; [reflexivity | eexists; reflexivity]. Qed.

(** C12 *)
Theorem C12_filter_exact : forall sub p l f, reachable sub p -> pile_iter p = Ret l ->
  exists q, snd (pile_step sub p (PByFun f)) = Ret (VPile q) /\ new_pile_over p q (filter f l).
Proof. exact q_fun. Qed.
Print Assumptions C12_filter_exact.

Theorem C12_slice_exact : forall sub p l a b c s, reachable sub p -> pile_iter p = Ret l ->
  s = match c with None => 1%Z | Some z => z end -> s <> 0%Z ->
  exists q ps, snd (pile_step sub p (PSlice a b c)) = Ret (VPile q) /\
    new_pile_over p q (select l ps) /\
    (forall k, In k ps <-> slice_selects (Z.of_nat (length l)) a b s (Z.of_nat k)) /\
    Sorted.StronglySorted (fun x y => if (0 <? s)%Z then x < y else y < x) ps.
Proof. exact q_slice. Qed.
Print Assumptions C12_slice_exact.

Theorem C12_ids_exact : forall sub p l us, reachable sub p -> pile_iter p = Ret l -> us <> [] ->
  (forall xs, Forall2 (fun u x => In x l /\ iid x = u) us xs -> NoDup us ->
     exists q, snd (pile_step sub p (PByList (map (fun u => LId (RId u)) us))) = Ret (VPile q) /\
               new_pile_over p q xs) /\
  (~ incl us (map iid l) ->
     snd (pile_step sub p (PByList (map (fun u => LId (RId u)) us))) = Raise NotFoundError) /\
  (incl us (map iid l) -> ~ NoDup us ->
     snd (pile_step sub p (PByList (map (fun u => LId (RId u)) us))) = Raise ExistsError).
Proof. exact q_keys_ids. Qed.
Print Assumptions C12_ids_exact.

Theorem C12_progression_exact : forall sub p l us, reachable sub p -> pile_iter p = Ret l ->
  (forall xs, Forall2 (fun u x => In x l /\ iid x = u) us xs -> NoDup us ->
     exists q, snd (pile_step sub p (PByProg us)) = Ret (VPile q) /\ new_pile_over p q xs) /\
  (~ incl us (map iid l) -> snd (pile_step sub p (PByProg us)) = Raise NotFoundError) /\
  (incl us (map iid l) -> ~ NoDup us -> snd (pile_step sub p (PByProg us)) = Raise ExistsError).
Proof. exact q_prog. Qed.
Print Assumptions C12_progression_exact.

Theorem C12_ints_exact : forall sub p l zs xs, reachable sub p -> pile_iter p = Ret l -> zs <> [] ->
  Forall2 (fun z x => exists k, denotes (length l) z k /\ nth_error l k = Some x) zs xs ->
  (NoDup xs -> exists q, snd (pile_step sub p (PByList (map LInt zs))) = Ret (VPile q) /\
                         new_pile_over p q xs) /\
  (~ NoDup xs -> snd (pile_step sub p (PByList (map LInt zs))) = Raise ExistsError).
Proof. exact q_keys_ints. Qed.
Print Assumptions C12_ints_exact.

Theorem C12_type_exact : forall sub p l ts ys, reachable sub p -> pile_iter p = Ret l ->
  ys = filter (fun x => existsb (fun t => sub (icls x) t) ts) l ->
  type_query_ok sub (p_types p) (p_strict p) ts = true ->
  (ys <> [] -> exists q, snd (pile_step sub p (PByType ts)) = Ret (VPile q) /\ new_pile_over p q ys) /\
  (ys = [] -> snd (pile_step sub p (PByType ts)) = Raise NotFoundError).
Proof. exact q_type. Qed.
Print Assumptions C12_type_exact.

Theorem C12_queries_pure : forall sub p o,
  match o with PSlice _ _ _ | PByProg _ | PByList _ | PByFun _ | PByType _
             | PGet _ _ | PContains _ | PLen | PIter | PKeys | PAt _ | PEmpty => True
             | _ => False end ->
  fst (pile_step sub p o) = p.
Proof. exact q_pure. Qed.
Print Assumptions C12_queries_pure.

Example C12_ex :
  snd (pile_step ex_sub ex_p0 (PByList [LInt (-1)%Z; LInt 0%Z])) =
    Ret (VPile (Pile [(10, ex_a); (11, ex_b)] [10; 11] (Some [0]) false)) /\
  snd (pile_step ex_sub ex_p0 (PByType [1])) =
    Ret (VPile (Pile [(11, ex_b)] [11] (Some [0]) false)) /\
  snd (pile_step ex_sub ex_p0 (PSlice None None (Some (-1)%Z))) =
    Ret (VPile (Pile [(10, ex_a); (11, ex_b)] [10; 11] (Some [0]) false)).
Proof. repeat split; reflexivity. Qed.
