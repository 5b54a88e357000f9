(** Properties C26-C28: PriorityQueue.  [lt] is any strict weak order. *)
From Coq Require Import List Bool Arith Permutation Lia.
From Verif Require Import PyBase PyFacts ModelHeap SpecHeap ProofsHeap ModelPQueue SpecPQueue
  ProofsPQueue ProofsPQueueWake.
Import ListNotations.

Definition pq_empty {A} (mx : nat) : @pq A := PQ mx [].

Example ltb_weak : weak_order Nat.ltb.
Proof.
  split; [intros a b H; apply Nat.ltb_lt in H; apply Nat.ltb_ge; lia|].
  intros a b c H1 H2. apply Nat.ltb_ge in H1, H2. apply Nat.ltb_ge. lia.
Qed.
(** Items compared by their first component only: ties are possible. *)
Definition fst_lt (a b : nat * nat) : bool := fst a <? fst b.
Example fst_lt_weak : weak_order fst_lt.
Proof.
  split; [intros a b H; apply Nat.ltb_lt in H; apply Nat.ltb_ge; lia|].
  intros a b c H1 H2. apply Nat.ltb_ge in H1, H2. apply Nat.ltb_ge. lia.
Qed.

(** C26: every history is a history of a bounded bag that yields minima. *)
Theorem C26_bag : forall (A : Type) (lt : A -> A -> bool), weak_order lt ->
  forall mx ops, let (q, rs) := pq_run lt (pq_empty mx) ops in
  bag_run lt mx [] ops rs (pq_heap q).
Proof.
  intros A lt W mx ops. pose proof (pq_run_bag lt W ops (pq_empty mx) (heap_nil lt)) as H.
  destruct (pq_run lt (pq_empty mx) ops) as [q rs]. apply H.
Qed.
Print Assumptions C26_bag.
Example C26_bag_ex :
  snd (pq_run Nat.ltb (pq_empty 4) [PutNW 5; PutNW 3; PutNW 9; PutNW 3; PutNW 1; IsFull; GetNW; GetNW;
         PutNW 2; GetNW; QSize; GetNW; GetNW; GetNW; IsEmpty])
  = [QUnit; QUnit; QUnit; QUnit; QFullErr; QBool true; QItem 3; QItem 3;
     QUnit; QItem 2; QNat 2; QItem 5; QItem 9; QEmptyErr; QBool true].
Proof. reflexivity. Qed.

Theorem C26_conserved : forall (A : Type) (lt : A -> A -> bool), weak_order lt ->
  forall mx ops, let (q, rs) := pq_run lt (pq_empty mx) ops in
  Permutation (items_put ops rs) (items_got rs ++ pq_heap q) /\
  snd (pq_step lt q QSize) = QNat (length (items_put ops rs) - length (items_got rs)).
Proof.
  intros A lt W mx ops. pose proof (C26_bag A lt W mx ops) as H.
  destruct (pq_run lt (pq_empty mx) ops) as [q rs]. apply (bag_run_conserve lt) in H. simpl in H.
  split; [exact H|]. apply Permutation_length in H. rewrite app_length in H. simpl. f_equal. lia.
Qed.
Print Assumptions C26_conserved.
Example C26_conserved_ex :
  let ops := [PutNW 7; PutNW 4; GetNW; PutNW 6; PutNW 6; PutNW 8] in
  let (q, rs) := pq_run Nat.ltb (pq_empty 3) ops in
  items_put ops rs = [7; 4; 6; 6] /\ items_got rs = [4] /\ pq_heap q = [6; 7; 6].
Proof. repeat split; reflexivity. Qed.

(** After any history, draining returns what is stored in non-decreasing order. *)
Theorem C26_drain_sorted : forall (A : Type) (lt : A -> A -> bool), weak_order lt ->
  forall mx ops, let q := fst (pq_run lt (pq_empty mx) ops) in
  let (q', rs) := pq_run lt q (repeat GetNW (length (pq_heap q))) in
  pq_heap q' = [] /\ Permutation (items_got rs) (pq_heap q) /\ sorted_by lt (items_got rs).
Proof.
  intros A lt W mx ops q. apply drain_sorted; [exact W | | reflexivity].
  pose proof (pq_run_bag lt W ops (pq_empty mx) (heap_nil lt)) as H. subst q.
  destruct (pq_run lt (pq_empty mx) ops) as [q rs]. apply H.
Qed.
Print Assumptions C26_drain_sorted.
Example C26_drain_ex :
  items_got (snd (pq_run fst_lt (pq_empty 0)
    (map PutNW [(4, 0); (2, 1); (7, 2); (2, 3); (9, 4); (1, 5); (4, 6); (0, 7)] ++ repeat GetNW 8)))
  = [(0, 7); (1, 5); (2, 1); (2, 3); (4, 6); (4, 0); (7, 2); (9, 4)].
Proof. reflexivity. Qed.

(** Python's heap does not keep insertion order among equal keys (why callers add a
    counter). *)
Theorem C26_fifo_among_ties_refuted : exists ops,
  items_got (snd (pq_run fst_lt (pq_empty 0) ops)) = [(0, 0); (1, 2); (1, 1); (1, 3)] /\
  items_put ops (snd (pq_run fst_lt (pq_empty 0) ops)) = [(0, 0); (1, 1); (1, 2); (1, 3)].
Proof.
  exists ([PutNW (0, 0); PutNW (1, 1); PutNW (1, 2); PutNW (1, 3)] ++ repeat GetNW 4).
  split; reflexivity.
Qed.
Print Assumptions C26_fifo_among_ties_refuted.

(** C27: any tasks, any schedule, any cancellations. *)
Theorem C27_bound_and_conservation : forall (A : Type) (lt : A -> A -> bool), weak_order lt ->
  forall mx calls sched, let c := prun lt (pinit (pq_empty mx) calls) sched in
  (0 < mx -> length (pq_heap (c_q c)) <= mx) /\
  Permutation (flat_map put_by (c_tasks c)) (flat_map got_by (c_tasks c) ++ pq_heap (c_q c)).
Proof.
  intros A lt W mx calls sched c.
  destruct (prun_inv lt W sched (pinit (pq_empty mx) calls) [] mx) as [_ (D1 & D2 & D3 & D4)].
  - apply pinit_I.
  - apply (pinit_data lt (pq_empty mx) calls); [apply heap_nil | simpl; lia].
  - split; [exact D3 | exact D4].
Qed.
Print Assumptions C27_bound_and_conservation.
Definition ex_sched : list act :=
  [Run 0; Run 0; Run 1; Run 2; Run 1; Run 2; Run 3; Run 3; Run 0; Run 0; Cancel 4; Run 2; Run 2].
Example C27_ex :
  let c := prun Nat.ltb (pinit (pq_empty 1) [CGet; CPut 5; CPut 6; CPutNW 7; CPut 8]) ex_sched in
  map snd (c_tasks c) = [Done (QItem 5); Done QUnit; Done QUnit; Done QFullErr; Gone] /\
  pq_heap (c_q c) = [6].
Proof. split; reflexivity. Qed.

(** Each critical section does what its call promises on the current contents, which
    no other task can change meanwhile: at most one task holds the lock. *)
Theorem C27_section : forall (A : Type) (lt : A -> A -> bool), weak_order lt ->
  forall mx calls sched t k, let c := prun lt (pinit (pq_empty mx) calls) sched in
  nth_error (c_tasks c) t = Some (k, Hold) ->
  (forall u, state_of c u = Some Hold -> u = t) /\
  exists p, state_of (pstep lt c (Run t)) t = Some p /\
    section_ok lt mx k (pq_heap (c_q c)) p (pq_heap (c_q (pstep lt c (Run t)))).
Proof.
  intros A lt W mx calls sched t k c Ht.
  destruct (prun_inv lt W sched (pinit (pq_empty mx) calls) [] mx) as [H (D1 & D2 & D3 & D4)].
  - apply pinit_I.
  - apply (pinit_data lt (pq_empty mx) calls); [apply heap_nil | simpl; lia].
  - split.
    + intros u Hu. apply (s_own _ _ H) in Hu. apply nth_state in Ht. apply (s_own _ _ H) in Ht. congruence.
    + pose proof (body_section lt W _ t k H D1 Ht) as B. rewrite D2 in B. unfold pstep.
      fold c in B. rewrite Ht. exact B.
Qed.
Print Assumptions C27_section.

(** Steps outside a critical section, and cancellations, leave the contents alone. *)
Theorem C27_outside : forall (A : Type) (lt : A -> A -> bool) (c : @conf A) a,
  (forall t, a = Run t -> state_of c t <> Some Hold) -> c_q (pstep lt c a) = c_q c.
Proof.
  intros A lt c [t|t] H; simpl.
  - destruct (nth_error (c_tasks c) t) as [[k p]|] eqn:E; [|reflexivity].
    destruct p; rewrite ?q_acquire; try reflexivity.
    exfalso. apply (H t eq_refl). eapply nth_state; eauto.
  - destruct (nth_error (c_tasks c) t) as [[k p]|]; [|reflexivity].
    destruct p; rewrite ?q_release; reflexivity.
Qed.
Print Assumptions C27_outside.

(** C28: without cancellation.  Unbounded queue, or only one side ever blocks. *)
Theorem C28_getters_not_stranded : forall (A : Type) (lt : A -> A -> bool), weak_order lt ->
  forall mx calls sched t, (mx = 0 \/ forall k, In k calls -> blocking_put k = false) ->
  let c := prun lt (pinit (pq_empty mx) calls) (map Run sched) in
  quiescent c -> state_of c t = Some Waiting -> pq_heap (c_q c) = [].
Proof.
  intros A lt W mx calls sched t Hm c Hq Ht.
  destruct (prun_inv lt W (map Run sched) (pinit (pq_empty mx) calls) [] mx) as [H _].
  { apply pinit_I. }
  { apply (pinit_data lt (pq_empty mx) calls); [apply heap_nil | simpl; lia]. }
  assert (R : length (pq_heap (c_q c)) = 0).
  { apply (wake_quiescent blocking_get (fun q => length (pq_heap q)) calls c t H); [|exact Hq|exact Ht].
    apply (wake_run lt W blocking_get (fun q => length (pq_heap q)) calls mx) with (init := []).
    - apply getters_sel; assumption.
    - apply pinit_I.
    - apply (pinit_data lt (pq_empty mx) calls); [apply heap_nil | simpl; lia].
    - apply wake_init. }
  apply length_zero_iff_nil. exact R.
Qed.
Print Assumptions C28_getters_not_stranded.

Theorem C28_putters_not_stranded : forall (A : Type) (lt : A -> A -> bool), weak_order lt ->
  forall q0 calls sched t, heap lt (pq_heap q0) -> (0 < pq_max q0 -> length (pq_heap q0) <= pq_max q0) ->
  (forall k, In k calls -> blocking_get k = false) ->
  let c := prun lt (pinit q0 calls) (map Run sched) in
  quiescent c -> state_of c t = Some Waiting -> pq_max q0 <= length (pq_heap (c_q c)).
Proof.
  intros A lt W q0 calls sched t Hh Hl Hm c Hq Ht.
  destruct (prun_inv lt W (map Run sched) (pinit q0 calls) (pq_heap q0) (pq_max q0)) as [H _].
  { apply pinit_I. }
  { apply pinit_data; assumption. }
  assert (R : pq_max q0 - length (pq_heap (c_q c)) = 0).
  { apply (wake_quiescent blocking_put (fun q => pq_max q0 - length (pq_heap q)) calls c t H); [|exact Hq|exact Ht].
    apply (wake_run lt W blocking_put (fun q => pq_max q0 - length (pq_heap q)) calls (pq_max q0)) with (init := pq_heap q0).
    - apply putters_sel; assumption.
    - apply pinit_I.
    - apply pinit_data; assumption.
    - apply wake_init. }
  lia.
Qed.
Print Assumptions C28_putters_not_stranded.

(** Every task set comes to rest: no busy run is longer than 12 steps per call, and
    from every reachable state some run reaches quiescence. *)
Theorem C28_terminates : forall (A : Type) (lt : A -> A -> bool), weak_order lt ->
  forall mx calls,
  (forall s, busy lt (pinit (pq_empty mx) calls) s -> length s <= 12 * length calls) /\
  (forall s, exists s', quiescent (prun lt (prun lt (pinit (pq_empty mx) calls) s) (map Run s'))).
Proof.
  intros A lt W mx calls. split.
  - intros s Hb. rewrite <- (mass_init (pq_empty mx) calls). apply (busy_bound lt); [apply pinit_I | exact Hb].
  - intros s. destruct (to_quiescence lt _ (prun lt (pinit (pq_empty mx) calls) s)
                         (prun_I lt s _ (pinit_I _ _)) (le_n _)) as [s' [_ Hs]].
    exists s'. exact Hs.
Qed.
Print Assumptions C28_terminates.

(** In a quiescent state every task has its answer, was cancelled, or waits. *)
Theorem C28_quiescent_states : forall (A : Type) (lt : A -> A -> bool), weak_order lt ->
  forall mx calls sched t p, let c := prun lt (pinit (pq_empty mx) calls) sched in
  quiescent c -> state_of c t = Some p -> (exists r, p = Done r) \/ p = Gone \/ p = Waiting.
Proof.
  intros A lt W mx calls sched t p c Hq Hp.
  pose proof (prun_I lt sched _ (pinit_I (pq_empty mx) calls)) as H. fold c in H.
  pose proof (Hq t p Hp) as Hr. destruct p; try discriminate; eauto.
  exfalso. apply (s_lock _ _ H) in Hp. destruct (c_owner c) as [o|] eqn:Eo.
  - apply (s_own _ _ H) in Eo. specialize (Hq _ _ Eo). discriminate.
  - rewrite (s_free _ _ H Eo) in Hp. destruct Hp.
Qed.
Print Assumptions C28_quiescent_states.

Definition quiescentb {A} (c : @conf A) : bool := forallb (fun tk => negb (runnable (snd tk))) (c_tasks c).
Lemma quiescentb_ok : forall A (c : @conf A), quiescentb c = true -> quiescent c.
Proof.
  intros A c H t p Hp. unfold state_of in Hp. destruct (nth_error (c_tasks c) t) as [[k q]|] eqn:E; [|discriminate].
  simpl in Hp. injection Hp as ->. apply nth_error_In in E. unfold quiescentb in H.
  rewrite forallb_forall in H. specialize (H _ E). simpl in H. destruct (runnable p); [discriminate | reflexivity].
Qed.

Example C28_getters_ex :
  let c := prun Nat.ltb (pinit (pq_empty 0) [CGet; CGet; CPut 4; CGet; CPut 2])
             (map Run [0; 0; 1; 1; 3; 3; 2; 2; 4; 4; 1; 1; 0; 0; 3; 3]) in
  quiescent c /\ map snd (c_tasks c) = [Done (QItem 4); Done (QItem 2); Done QUnit; Waiting; Done QUnit].
Proof. split; [apply quiescentb_ok; reflexivity | reflexivity]. Qed.
Example C28_putters_ex :
  let c := prun Nat.ltb (pinit (PQ 1 [9]) [CPut 1; CPut 2; CGetNW])
             (map Run [0; 0; 1; 1; 2; 2; 0; 0; 1; 1]) in
  quiescent c /\ map snd (c_tasks c) = [Done QUnit; Waiting; Done (QItem 9)].
Proof. split; [apply quiescentb_ok; reflexivity | reflexivity]. Qed.

(** With a bound and both sides blocking the claim fails: two consumers, two
    producers, a one-place queue.  All tasks are at rest, the queue is empty, and a
    producer is still blocked (as is a consumer, for the item it would put). *)
Theorem C28_bounded_refuted : exists (calls : list (@call nat)) sched t,
  let c := prun Nat.ltb (pinit (pq_empty 1) calls) (map Run sched) in
  quiescent c /\ call_of c t = Some (CPut 6) /\ state_of c t = Some Waiting /\ pq_heap (c_q c) = [] /\
  exists u, call_of c u = Some CGet /\ state_of c u = Some Waiting.
Proof.
  exists [CGet; CGet; CPut 5; CPut 6], [0; 0; 1; 1; 2; 3; 2; 3; 0; 0; 1; 1], 3.
  split; [apply quiescentb_ok; reflexivity|]. split; [reflexivity|]. split; [reflexivity|].
  split; [reflexivity|]. exists 1. split; reflexivity.
Qed.
Print Assumptions C28_bounded_refuted.
