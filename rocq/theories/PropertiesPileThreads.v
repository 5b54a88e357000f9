(** Properties C09, C10, C13: the pile shared by threads. *)
From Coq Require Import List ZArith Bool Arith Permutation.
From Verif Require Import PyBase ModelProgression SpecProgression ModelPile SpecPile
  ModelPileThreads SpecPileThreads ProofsPileThreads PropertiesPile.
Import ListNotations.

(** C09: for every schedule of any number of threads, the locked methods answer
    as if executed one after the other on a plain ordered list, in the order in
    which they return; and whenever no method is between its two writes the
    pile is coherent and holds exactly that list. *)
Theorem C09_linearizable : forall sub p0 s c es l0,
  treach sub p0 s c es -> pile_iter p0 = Ret l0 ->
  Forall2 (fun v x => agrees v x (p_types p0) (p_strict p0)) (done_vals es)
          (souts sub (p_types p0) (p_strict p0) l0 (done_ops es)) /\
  (quiet c -> coherent (c_pile c) /\
     pile_iter (c_pile c) = Ret (srun sub (p_types p0) (p_strict p0) l0 (done_ops es))).
Proof. exact linearizable. Qed.
Print Assumptions C09_linearizable.

Theorem C09_mutual_exclusion : forall sub p0 s c es t1 t2, treach sub p0 s c es ->
  mid_write (c_pcs c t1) = true -> mid_write (c_pcs c t2) = true -> t1 = t2.
Proof. exact mutex. Qed.
Print Assumptions C09_mutual_exclusion.

(** The thread holding the lock is never blocked: two of its steps release it. *)
Theorem C09_holder_releases : forall sub p0 s c es t a b,
  treach sub p0 s c es -> c_lock c = Some t ->
  c_lock (fst (tstep sub c t a)) = None \/
  c_lock (fst (tstep sub (fst (tstep sub c t a)) t b)) = None.
Proof. exact holder_releases. Qed.
Print Assumptions C09_holder_releases.

Lemma ex_p0_reachable : reachable ex_sub ex_p0.
Proof.
  exists (Some [0]), false, [OElem ex_a; OElem ex_b], [11; 10], ex_p0, [].
  split; [reflexivity|]. split; [right; apply perm_swap | reflexivity].
Qed.

Definition ex_d := Item 13 0 1.
(** Two threads race: 1 adds, 2 removes. *)
Definition ex_sched : list (tid * call) :=
  [(1, CLocked (PAdd (OElem ex_d))); (2, CLocked (PRemove (RId 10)));
   (1, CIter); (2, CIter); (1, CIter); (1, CIter); (2, CIter); (2, CIter); (2, CIter)].

Example C09_ex :
  treach ex_sub ex_p0 ex_sched (fst (trun ex_sub (tinit ex_p0) ex_sched))
    [EOp 1 (PAdd (OElem ex_d)) (Ret VUnit); EOp 2 (PRemove (RId 10)) (Ret (VItem ex_a))] /\
  pile_iter (c_pile (fst (trun ex_sub (tinit ex_p0) ex_sched))) = Ret [ex_b; ex_d].
Proof. split; [split; [exact ex_p0_reachable | reflexivity] | reflexivity]. Qed.

(** C10: what the booleans mean, at the step that produces them. *)
Theorem C10_include_true_means_present : forall sub p0 s c es t a t' o,
  treach sub p0 s c es -> In (EInc t' o true) (snd (tstep sub c t a)) ->
  exists u, oid_of o = Some u /\
            pile_contains (c_pile (fst (tstep sub c t a))) (RId u) = true.
Proof. exact include_true. Qed.
Print Assumptions C10_include_true_means_present.

Theorem C10_include_false_means_invalid_or_present : forall sub p0 s c es t a t' x,
  treach sub p0 s c es -> In (EInc t' (OElem x) false) (snd (tstep sub c t a)) ->
  ~ allowed sub (p_types (c_pile c)) (p_strict (c_pile c)) x \/
  pile_contains (c_pile (fst (tstep sub c t a))) (RId (iid x)) = true.
Proof. exact include_false. Qed.
Print Assumptions C10_include_false_means_invalid_or_present.

(** exclude of a valid id: whatever it returns, the id is absent. *)
Theorem C10_exclude_means_absent : forall sub p0 s c es t a t' u b,
  treach sub p0 s c es -> In (EExc t' (Some u) b) (snd (tstep sub c t a)) ->
  pile_contains (c_pile (fst (tstep sub c t a))) (RId u) = false.
Proof. exact exclude_any. Qed.
Print Assumptions C10_exclude_means_absent.

(** The documented "False only if validation fails" is false. *)
Definition race_inc : list (tid * call) :=
  [(1, CInclude (OElem ex_d)); (2, CInclude (OElem ex_d)); (1, CIter); (2, CIter);
   (1, CIter); (1, CIter); (1, CIter); (2, CIter)].

Theorem C10_include_false_only_if_invalid_refuted : exists sub p0 s c es t a x,
  treach sub p0 s c es /\ In (EInc t (OElem x) false) (snd (tstep sub c t a)) /\
  allowed sub (p_types p0) (p_strict p0) x.
Proof.
  exists ex_sub, ex_p0, race_inc, (fst (trun ex_sub (tinit ex_p0) race_inc)),
    (snd (trun ex_sub (tinit ex_p0) race_inc)), 2, CIter, ex_d.
  split; [split; [exact ex_p0_reachable | reflexivity]|].
  split; [vm_compute; right; left; reflexivity|].
  exists 0; split; [left; reflexivity | reflexivity].
Qed.
Print Assumptions C10_include_false_only_if_invalid_refuted.

Definition race_exc : list (tid * call) :=
  [(1, CExclude (RId 10)); (2, CExclude (RId 10)); (1, CIter); (2, CIter);
   (1, CIter); (1, CIter); (1, CIter); (2, CIter)].

Theorem C10_exclude_false_only_if_bad_id_refuted : exists sub p0 s c es t a u,
  treach sub p0 s c es /\ In (EExc t (Some u) false) (snd (tstep sub c t a)).
Proof.
  exists ex_sub, ex_p0, race_exc, (fst (trun ex_sub (tinit ex_p0) race_exc)),
    (snd (trun ex_sub (tinit ex_p0) race_exc)), 2, CIter, 10.
  split; [split; [exact ex_p0_reachable | reflexivity]|].
  vm_compute; right; left; reflexivity.
Qed.
Print Assumptions C10_exclude_false_only_if_bad_id_refuted.

Example C10_ex_true :
  In (EInc 1 (OElem ex_d) true) (snd (trun ex_sub (tinit ex_p0) race_inc)) /\
  In (EExc 1 (Some 10) true) (snd (trun ex_sub (tinit ex_p0) race_exc)).
Proof. vm_compute. tauto. Qed.

(** C13: iteration while other threads only add or update: it never raises, and
    when it ends it has yielded every item present at its start exactly once, in
    order, possibly followed by items added meanwhile. *)
Theorem C13_iteration_under_growth : forall sub p0 s0 c es s t,
  treach sub p0 s0 c es -> (forall t', grow_pc (c_pcs c t') = true) ->
  c_pcs c t = It 0 -> Forall (fun sa => grow_call (snd sa) = true) s ->
  snd (iter_scan t (snd (trun sub c s))) <> Some false /\
  (snd (iter_scan t (snd (trun sub c s))) = Some true ->
   exists added, map iid (fst (iter_scan t (snd (trun sub c s)))) = pile_keys (c_pile c) ++ added /\
     NoDup (map iid (fst (iter_scan t (snd (trun sub c s)))))).
Proof. exact iter_grow. Qed.
Print Assumptions C13_iteration_under_growth.

Example C13_ex_growth :
  let c := fst (trun ex_sub (tinit ex_p0) [(7, CIter)]) in
  let s := [(7, CIter); (1, CLocked (PAdd (OElem ex_d))); (7, CIter); (1, CIter); (1, CIter);
            (1, CIter); (7, CIter); (7, CIter); (7, CIter); (7, CIter); (7, CIter)] in
  c_pcs c 7 = It 0 /\
  iter_scan 7 (snd (trun ex_sub c s)) = ([ex_b; ex_a; ex_d], Some true).
Proof. split; reflexivity. Qed.

(** With removals, an item that stays in the pile can be skipped ... *)
Definition skip_sched : list (tid * call) :=
  [(7, CIter); (7, CIter); (7, CIter);
   (1, CLocked (PRemove (RId 11))); (1, CIter); (1, CIter); (1, CIter); (7, CIter)].

Theorem C13_iteration_complete_refuted : exists sub p0 s c es t x,
  treach sub p0 s c es /\ snd (iter_scan t es) = Some true /\
  pile_get (c_pile c) (RId (iid x)) false = Ret (VItem x) /\
  (forall s1 s2, s = s1 ++ s2 ->
     pile_contains (c_pile (fst (trun sub (tinit p0) s1))) (RId (iid x)) = true) /\
  ~ In x (fst (iter_scan t es)).
Proof.
  exists ex_sub, ex_p0, skip_sched, (fst (trun ex_sub (tinit ex_p0) skip_sched)),
    (snd (trun ex_sub (tinit ex_p0) skip_sched)), 7, ex_a.
  split; [split; [exact ex_p0_reachable | reflexivity]|].
  split; [reflexivity|]. split; [reflexivity|]. split.
  - intros s1 s2 Hs.
    assert (Hf : s1 = firstn (length s1) skip_sched).
    { rewrite Hs, firstn_app, Nat.sub_diag, firstn_all. simpl. rewrite app_nil_r. reflexivity. }
    assert (Hl : length s1 <= length skip_sched).
    { rewrite Hs, app_length. apply Nat.le_add_r. }
    rewrite Hf. clear Hs Hf. remember (length s1) as n eqn:En. clear En s1 s2.
    do 9 (destruct n as [|n]; [vm_compute; reflexivity|]).
    exfalso. do 8 apply le_S_n in Hl. inversion Hl.
  - vm_compute. intros [H|[]]; discriminate.
Qed.
Print Assumptions C13_iteration_complete_refuted.

(** ... and the iteration can raise KeyError. *)
Theorem C13_iteration_never_raises_refuted : exists sub p0 s c es t,
  treach sub p0 s c es /\ snd (iter_scan t es) = Some false.
Proof.
  set (s := [(7, CIter); (7, CIter); (1, CLocked (PRemove (RId 11))); (1, CIter);
             (1, CIter); (1, CIter); (7, CIter)]).
  exists ex_sub, ex_p0, s, (fst (trun ex_sub (tinit ex_p0) s)), (snd (trun ex_sub (tinit ex_p0) s)), 7.
  split; [split; [exact ex_p0_reachable | reflexivity] | reflexivity].
Qed.
Print Assumptions C13_iteration_never_raises_refuted.
