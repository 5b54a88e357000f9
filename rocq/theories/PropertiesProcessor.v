(** Properties C29-C33: Processor and Executor. *)
From Coq Require Import List Bool Arith ZArith Lia Permutation.
From Verif Require Import PyBase PyFacts ModelHeap SpecHeap ProofsHeap ModelEvent ModelProcessor SpecProcessor
  ProofsPQueue ProofsEvent ProofsProcessor ProofsProcessorRun ProofsProcessorCap ProofsProcessorDeny ProofsProcessorFate.
Import ListNotations.

Definition ev0 := Ev 0 false PENDING.
Definition app (id : uuid) (p : Z) : action := Spawn (CAppend id ev0 (PVal p)).

(** * C29 *)
(** Whatever is called and however it interleaves: if never more than [w] calls are
    at once between the fullness check and their put, or between taking an entry and
    putting it back, the queue stays within the limit plus [w - 1]. *)
Theorem C29_queue_bound : forall k w l,
  always k (fun s => countp inflight s <= w) (pst0 k) l ->
  length (queue (pexec k (pst0 k) l)) <= pred (k_maxq k) + w.
Proof. intros k w l H. pose proof (load_bound k w l H). lia. Qed.
Print Assumptions C29_queue_bound.
(** In particular calls that do not overlap keep to the limit. *)
Corollary C29_sequential : forall k l, 1 <= k_maxq k ->
  always k (fun s => countp inflight s <= 1) (pst0 k) l ->
  length (queue (pexec k (pst0 k) l)) <= k_maxq k.
Proof. intros k l Hm H. pose proof (C29_queue_bound k 1 l H). lia. Qed.
Print Assumptions C29_sequential.
Example C29_ex : let k := Cfg 2 2 2 5 in let l :=
    [Spawn CStart; app 1 5; Step 1; app 2 3; Step 2; app 3 9; Spawn CForward; Step 4; Grant 4 false; Step 4] in
  always k (fun s => countp inflight s <= 1) (pst0 k) l /\
  queue (pexec k (pst0 k) l) = [(4%Z, 2); (5%Z, 1)] /\
  nth_error (tasks (pexec k (pst0 k) l)) 3 = Some (AErr QueueFullError [3]).
Proof. split; [repeat split; vm_compute; lia | split; reflexivity]. Qed.

(** A call is refused for fullness exactly when the queue is full at the check. *)
Theorem C29_refused_iff_full : forall k s id p,
  enq_check k s id p = Raise QueueFullError <-> k_maxq k <= length (queue s).
Proof.
  intros k s id p. unfold enq_check. destruct (Nat.leb_spec (k_maxq k) (length (queue s))) as [H|H].
  - split; auto.
  - split; [|lia]. destruct p; try discriminate. destruct (memb id (items s)); [|discriminate].
    destruct (dget id (objs s)); discriminate.
Qed.
Print Assumptions C29_refused_iff_full.
(** and then nothing is queued; otherwise exactly that entry will be. *)
Theorem C29_enqueue_effect : forall k s id p, started s = true ->
  exists q, spawn k s (CEnqueue id p) = new_task s q /\
  (k_maxq k <= length (queue s) -> q = AErr QueueFullError [id]) /\
  (length (queue s) < k_maxq k -> forall z, p = PVal z -> q = APut z id).
Proof.
  intros k s id p Hs. unfold spawn. rewrite Hs. destruct (enq_check k s id p) as [z|e] eqn:E.
  - eexists. split; [reflexivity|]. split.
    + intros H. apply (proj2 (C29_refused_iff_full k s id p)) in H. congruence.
    + intros H z' ->. unfold enq_check in E. destruct (k_maxq k <=? length (queue s)); [discriminate|].
      injection E as <-. reflexivity.
  - eexists. split; [reflexivity|]. split.
    + intros H. apply (proj2 (C29_refused_iff_full k s id p)) in H. congruence.
    + intros H z' ->. unfold enq_check in E. destruct (Nat.leb_spec (k_maxq k) (length (queue s))); [lia | discriminate].
Qed.
Print Assumptions C29_enqueue_effect.

(** Without fullness: a priority that is no number is refused, an event nobody stored is not found,
    and a stored one without priority is queued by its time of creation. *)
Theorem C29_enqueue_priority : forall k s id, started s = true -> length (queue s) < k_maxq k ->
  spawn k s (CEnqueue id PBad) = new_task s (AErr ValueError [id]) /\
  (~ In id (items s) -> spawn k s (CEnqueue id PNone) = new_task s (AErr NotFoundError [id])) /\
  (forall e, In id (items s) -> dget id (objs s) = Some e -> spawn k s (CEnqueue id PNone) = new_task s (APut (v_created e) id)).
Proof.
  intros k s id Hs L. unfold spawn, enq_check. rewrite Hs. destruct (Nat.leb_spec (k_maxq k) (length (queue s))) as [H|_]; [lia|].
  split; [reflexivity|]. split.
  - intros N. destruct (memb id (items s)) eqn:M; [|reflexivity]. apply memb_In in M. contradiction.
  - intros e I D. apply memb_In in I. rewrite I, D. reflexivity.
Qed.
Print Assumptions C29_enqueue_priority.

(** The bare limit does not hold for overlapping calls. *)
Theorem C29_limit_refuted : exists k l, 1 <= k_maxq k /\ Forall normal l /\
  k_maxq k < length (queue (pexec k (pst0 k) l)).
Proof.
  exists (Cfg 1 1 1 1), [Spawn CStart; app 1 0; app 2 0; Step 1; Step 2].
  split; [simpl; lia|]. split; [repeat constructor; discriminate | vm_compute; lia].
Qed.
Print Assumptions C29_limit_refuted.

(** * C30 *)
(** Under every interleaving of normal use the seven progressions together list
    exactly the stored events, each once, and the counts add up. *)
Theorem C30_partition : forall k s, reach k normal s ->
  NoDup (items s) /\ Permutation (in_progs s) (items s) /\
  (forall u, In u (items s) -> exists x, In u (progs s x) /\ count_occ Nat.eq_dec (progs s x) u = 1 /\
     forall y, In u (progs s y) -> y = x) /\
  fold_right plus 0 (map snd (status_counts s)) = length (items s) /\
  forall x, events_by_status s x = Ret (progs s x).
Proof.
  intros k s H. apply SI_reach in H. destruct H as ([A B C D E F G] & _ & _).
  assert (P : Permutation (in_progs s) (items s)).
  { apply NoDup_Permutation; [apply (NoDup_flat (progs s) B C) | exact A|].
    intros u. rewrite D. unfold in_progs. rewrite in_flat_map. split.
    - intros (x & _ & Hx). eauto.
    - intros (x & Hx). exists x. split; [apply all_status_In | exact Hx]. }
  split; [exact A|]. split; [exact P|]. split; [|split].
  - intros u Hu. apply D in Hu. destruct Hu as [x Hx]. exists x. split; [exact Hx|]. split.
    + apply NoDup_count_occ'; auto.
    + intros y Hy. eapply C; eauto.
  - rewrite <- (Permutation_length P). unfold status_counts, in_progs. rewrite map_map. simpl.
    rewrite !app_length. simpl. lia.
  - intros x. unfold events_by_status. replace (forallb _ _) with true; [reflexivity|]. symmetry. apply forallb_forall.
    intros u Hu. apply memb_In. apply D. eauto.
Qed.
Print Assumptions C30_partition.

(** The progressions tell the truth about events at rest: one listed as completed,
    failed, cancelled or skipped has that status; one listed as processing is running
    (or a stream that ended without saying so). *)
Theorem C30_status : forall k s, reach k normal s ->
  (forall x u, final x = true -> In u (progs s x) -> status_of s u = x) /\
  (forall u, In u (progs s PROCESSING) -> streaming s u = false -> In u (running_ids s)) /\
  (forall u, In u (running_ids s) -> In u (progs s PROCESSING)).
Proof.
  intros k s H. destruct (FI_reach k s H) as [HS HF]. split; [apply (f_set _ HF)|]. split.
  - intros u Hu Hst. destruct (f_proc _ HF u Hu) as (t & p & Ht & [Hw|[Hc _]]); [|congruence].
    eapply running_in; eauto.
  - destruct HS as (HP & _). apply (i_r _ _ _ _ HP).
Qed.
Print Assumptions C30_status.
Definition ex30 : list action := [app 1 5; app 2 3; Spawn CStart; Step 2; Step 2; app 3 1; Step 3; Spawn CForward;
  Step 4; Grant 4 true; Step 4; Step 4; Grant 4 true; Step 4; Step 5; Step 6; Finish 5 COMPLETED; Step 5; Finish 6 FAILED;
  Step 6; Step 4; Cleanup [FAILED]].
Example C30_ex : let s := pexec (Cfg 2 2 9 9) (pst0 (Cfg 2 2 9 9)) ex30 in
  Forall normal ex30 /\ items s = [1; 3] /\ progs s COMPLETED = [1] /\ progs s PENDING = [3] /\
  map snd (status_counts s) = [1; 0; 1; 0; 0; 0; 0] /\ queue s = [(1%Z, 3)].
Proof. split; [repeat constructor; simpl; intuition discriminate | vm_compute; repeat split]. Qed.

(** Cleaning away events that are being processed leaves an id that is stored nowhere. *)
Theorem C30_cleanup_processing_refuted : exists k l u, let s := pexec k (pst0 k) l in
  In u (progs s COMPLETED) /\ ~ In u (items s) /\ events_by_status s COMPLETED = Raise NotFoundError /\
  Forall (fun a => forall id p, a <> Spawn (CEnqueue id p)) l.
Proof.
  exists (Cfg 1 1 9 9), [app 1 0; Spawn CStart; Step 1; Spawn CForward; Step 2; Grant 2 true; Step 2; Step 3;
    Cleanup [PROCESSING]; Finish 3 COMPLETED; Step 3], 1.
  vm_compute. repeat split; auto; try tauto; try (repeat constructor; intros; discriminate).
Qed.
Print Assumptions C30_cleanup_processing_refuted.
(** An event appended in the middle of being processed is not run, and is listed as
    processing for good. *)
Definition ex30t : list action := [Spawn (CAppend 7 (Ev 0 false PROCESSING) PNone); Spawn CStart; Step 1; Spawn CForward; Step 2;
  Grant 2 true; Step 2; Step 3; Finish 3 COMPLETED; Step 3; Step 2].
Theorem C30_taken_refuted : exists k, let s := pexec k (pst0 k) ex30t in
  progs s PROCESSING = [7] /\ streaming s 7 = false /\ status_of s 7 = PROCESSING /\ running_ids s = [] /\ queue s = [] /\
  forallb (fun p => match p with ADone | KDone _ _ => true | _ => false end) (tasks s) = true.
Proof. exists (Cfg 1 1 9 9). vm_compute. repeat split. Qed.
Print Assumptions C30_taken_refuted.

(** * C31 *)
(** As long as the tracker is not full, it counts consecutive denials exactly, along
    every run of normal use. *)
Theorem C31_counts : forall k l id, Forall normal l ->
  always k (fun s => length (denial s) < k_maxd k) (pst0 k) l ->
  strikes (denial (pexec k (pst0 k) l)) id = denials k id (pst0 k) l 0 /\ denials k id (pst0 k) l 0 <= 3.
Proof.
  intros k l id Hf Ha.
  assert (E : strikes (denial (pexec k (pst0 k) l)) id = denials k id (pst0 k) l 0).
  { apply deny_run; auto; [apply SI_0 | apply DI_0]. }
  split; [exact E|]. rewrite <- E. destruct (three_run k l Hf Ha id) as [H|[H _]]; lia.
Qed.
Print Assumptions C31_counts.

(** The first and second denial in a row put the event back at a priority lower by
    that number; the third aborts it, and it is in no queue then. *)
Theorem C31_denied : forall k l t n p id, Forall normal l ->
  always k (fun s => length (denial s) < k_maxd k) (pst0 k) l ->
  let s := pexec k (pst0 k) l in let c := denials k id (pst0 k) l 0 in
  nth_error (tasks s) t = Some (LPerm n p id) ->
  c <= 2 /\
  (c < 2 -> let s' := step k (grant k s t false) t in
     Permutation (queue s') ((p + Z.of_nat (S c), id) :: queue s)%Z /\ forall x, progs s' x = progs s x) /\
  (c = 2 -> let s' := step k (grant k s t false) t in
     queue s' = queue s /\ ~ In id (waiting_ids s') /\ In id (progs s' ABORTED) /\
     strikes (denial s') id = 0).
Proof.
  intros k l t n p id Hf Ha s c Ht.
  destruct (C31_counts k l id Hf Ha) as [Es _]. fold s c in Es.
  assert (HS : SI s) by (apply (SI_reach k); exists l; auto).
  assert (Hd : length (denial s) < k_maxd k).
  { clear - Ha. unfold s. destruct (always_app k (fun s => length (denial s) < k_maxd k) l [] (pst0 k)) as [_ H]; [rewrite app_nil_r; exact Ha|]. apply H. }
  assert (Ev : evict k s = denial s).
  { unfold evict. destruct (Nat.leb_spec (k_maxd k) (length (denial s))); [lia | reflexivity]. }
  destruct (SI_open s t _ Ht HS) as (E & L & HP & _ & _). pose proof HS as (_ & _ & Hh).
  assert (Hc : c <= 2).
  { pose proof (three_run k l Hf Ha id) as H3. fold s in H3. destruct H3 as [H|[_ (t' & n' & Ht')]]; [lia|]. exfalso.
    assert (t = t') by (eapply (two_tokens s); [exact HS | exact Ht | exact Ht' | left; reflexivity | left; reflexivity]).
    subst t'. congruence. }
  split; [exact Hc|]. split.
  - intros Hlt. unfold grant. rewrite Ht, Ev, Es. destruct (Nat.leb_spec 3 (S c)) as [|_]; [lia|].
    set (s1 := w_denial s (dset id (S c) (denial s))).
    unfold step. cbn [tasks set_task w_tasks]. rewrite (nth_upd _ _ _ _ _ _ Ht), Nat.eqb_refl.
    split; [|reflexivity]. simpl. destruct (heap_push qlt qlt_weak (queue s) ((p + Z.of_nat (S c))%Z, id) Hh) as [_ P]. exact P.
  - intros Hc2. unfold grant. rewrite Ht, Ev, Es. destruct (Nat.leb_spec 3 (S c)) as [_|]; [|lia].
    set (s1 := w_denial s (dset id (S c) (denial s))).
    unfold step. cbn [tasks set_task w_tasks]. rewrite (nth_upd _ _ _ _ _ _ Ht), Nat.eqb_refl.
    split; [reflexivity|]. split; [|split].
    + assert (HS' : SI (step k (grant k s t false) t)) by (apply SI_step, SI_grant, HS).
      unfold grant in HS'. rewrite Ht, Ev, Es in HS'. destruct (Nat.leb_spec 3 (S c)) as [_|]; [|lia].
      fold s1 in HS'. unfold step in HS'. cbn [tasks set_task w_tasks] in HS'. rewrite (nth_upd _ _ _ _ _ _ Ht), Nat.eqb_refl in HS'.
      destruct HS' as (HP' & _). intros Hw. apply (i_w _ _ _ _ HP') in Hw. cbn [progs set_task w_tasks w_denial w_progs] in Hw.
      apply move_In in Hw; [|apply (i_p _ _ _ _ HP)]. destruct Hw as [[_ Hw]|[_ Hw]]; [contradiction | discriminate].
    + simpl. apply move_In; [apply (i_p _ _ _ _ HP) | auto].
    + assert (HD : DI s).
      { unfold s. apply (always_inv k normal (fun s => length (denial s) < k_maxd k) (fun s => SI s /\ DI s)); auto.
        - intros s0 a Hn (A & B) H1 H2. split; [apply SI_pact; assumption | apply (deny_step k s0 a 0 Hn A B H1)].
        - split; [apply SI_0 | apply DI_0]. }
      cbn [denial set_task w_tasks w_denial w_progs]. unfold s1. cbn [denial w_denial].
      rewrite strikes_del, Nat.eqb_refl; [reflexivity|]. apply dkeys_dset_NoDup. apply (d_nd _ HD).
Qed.
Print Assumptions C31_denied.
Definition ex31 : list action := [Spawn CStart; app 1 5; Step 1;
  Spawn CForward; Step 2; Grant 2 false; Step 2; Step 2;
  Spawn CForward; Step 3; Grant 3 false; Step 3; Step 3; Spawn CForward; Step 4].
Example C31_ex : let k := Cfg 2 2 9 9 in let s := pexec k (pst0 k) ex31 in
  nth_error (tasks s) 4 = Some (LPerm 0 8 1) /\ denials k 1 (pst0 k) ex31 0 = 2 /\
  let s' := pexec k s [Grant 4 false; Step 4; Step 4] in
  progs s' ABORTED = [1] /\ queue s' = [] /\ status_of s' 1 = PENDING.
Proof. vm_compute. repeat split. Qed.

(** The tracker respects its bound. *)
Theorem C31_tracker_bound : forall k s, reach k anything s -> length (denial s) <= Nat.max 1 (k_maxd k).
Proof. apply tracker_reach. Qed.
Print Assumptions C31_tracker_bound.

(** With a full tracker an event's own count is evicted: denied [n] times, for every
    [n], it is still queued. *)
Fixpoint deny_rounds (n : nat) (t : nat) : list action :=
  match n with
  | 0 => []
  | S m => [Spawn CForward; Step t; Grant t false; Step t; Step t] ++ deny_rounds m (S t)
  end.
Theorem C31_eviction_refuted : let k := Cfg 1 1 9 1 in forall n, exists s z,
  s = pexec k (pst0 k) ([Spawn CStart; app 1 5; Step 1] ++ deny_rounds n 2) /\
  queue s = [(z, 1)] /\ progs s PENDING = [1] /\ progs s ABORTED = [].
Proof.
  intros k n.
  assert (G : forall n s z, queue s = [(z, 1)] -> started s = true -> items s = [1] -> progs s PENDING = [1] -> progs s ABORTED = [] ->
     avail s = 1%Z -> (denial s = [] \/ exists c, denial s = [(1, c)]) ->
     Forall (fun p => late p = []) (tasks s) ->
     exists s' z', s' = pexec k s (deny_rounds n (length (tasks s))) /\
       queue s' = [(z', 1)] /\ progs s' PENDING = [1] /\ progs s' ABORTED = []).
  { clear n. induction n as [|n IH]; intros s z Q St It P1 P2 Av Dn Lt; [exists s, z; repeat split; auto|].
    assert (Hn : forall (p : tpc) l, nth_error (l ++ [p]) (length l) = Some p) by (intros p l; rewrite nth_error_app2, Nat.sub_diag by lia; reflexivity).
    assert (Hu : forall (p q : tpc) l, upd (length l) q (l ++ [p]) = l ++ [q]) by (intros p q l; induction l; simpl; congruence).
    assert (Ch : existsb (child_of (length (tasks s))) (tasks s) = false).
    { apply not_true_is_false. intros H. apply existsb_exists in H. destruct H as (q & Hq & Hc).
      rewrite Forall_forall in Lt. specialize (Lt q Hq). destruct q; simpl in *; discriminate. }
    assert (Ev : evict k s = []).
    { unfold evict. destruct Dn as [-> |[c ->]]; reflexivity. }
    set (s1 := PSt (objs s) (items s) (progs s) true [((z + 1)%Z, 1)] [(1, 1)] (avail s) (stopped s) (sem s) (tasks s ++ [ADone])).
    assert (E : pexec k s [Spawn CForward; Step (length (tasks s)); Grant (length (tasks s)) false; Step (length (tasks s)); Step (length (tasks s))] = s1).
    { destruct s as [ob it pr st qu dn av sp se ts]. cbn [queue started items progs avail denial tasks objs stopped sem] in *.
      subst qu st it av.
      set (mk := fun q d l => PSt ob [1] pr true q d 1%Z sp se l).
      assert (E1 : pact k (mk [(z, 1)] dn ts) (Spawn CForward) = mk [(z, 1)] dn (ts ++ [LGet 0])) by reflexivity.
      assert (E2 : pact k (mk [(z, 1)] dn (ts ++ [LGet 0])) (Step (length ts)) = mk [] dn (ts ++ [LPerm 0 z 1])).
      { unfold pact, step, mk. cbn [tasks]. rewrite Hn. simpl. unfold set_task, w_tasks, w_queue. simpl. rewrite Hu. reflexivity. }
      assert (E3 : pact k (mk [] dn (ts ++ [LPerm 0 z 1])) (Grant (length ts) false) = mk [] [(1, 1)] (ts ++ [LRequeue 0 (z + 1) 1])).
      { unfold pact, grant. assert (Ev' : evict k (mk [] dn (ts ++ [LPerm 0 z 1])) = []) by (rewrite <- Ev; reflexivity).
        rewrite Ev'. unfold mk. cbn [tasks]. rewrite Hn. simpl. unfold set_task, w_tasks, w_denial. simpl. rewrite Hu. reflexivity. }
      assert (E4 : pact k (mk [] [(1, 1)] (ts ++ [LRequeue 0 (z + 1) 1])) (Step (length ts)) = mk [((z + 1)%Z, 1)] [(1, 1)] (ts ++ [LJoin 0])).
      { unfold pact, step, mk. cbn [tasks]. rewrite Hn. unfold set_task, w_tasks, push, w_queue. simpl. rewrite Hu. reflexivity. }
      assert (E5 : pact k (mk [((z + 1)%Z, 1)] [(1, 1)] (ts ++ [LJoin 0])) (Step (length ts)) = mk [((z + 1)%Z, 1)] [(1, 1)] (ts ++ [ADone])).
      { unfold pact, step, mk. cbn [tasks]. rewrite Hn.
        replace (existsb (child_of (length ts)) (ts ++ [LJoin 0])) with false by (rewrite existsb_app, Ch; reflexivity).
        unfold set_task, w_tasks. simpl. rewrite Hu. reflexivity. }
      change (PSt ob [1] pr true [(z, 1)] dn 1%Z sp se ts) with (mk [(z, 1)] dn ts).
      unfold pexec. cbn [fold_left]. rewrite E1, E2, E3, E4, E5. reflexivity. }
    assert (Lt1 : Forall (fun p => late p = []) (tasks s1)).
    { simpl. apply Forall_app. split; [exact Lt | repeat constructor]. }
    destruct (IH s1 (z + 1)%Z) as (s' & z' & A & B & C & D); auto.
    - simpl. right. exists 1. reflexivity.
    - exists s', z'. split; [|auto]. rewrite A. simpl deny_rounds.
      replace (Spawn CForward :: Step (length (tasks s)) :: Grant (length (tasks s)) false :: Step (length (tasks s)) :: Step (length (tasks s)) :: deny_rounds n (S (length (tasks s))))
        with ([Spawn CForward; Step (length (tasks s)); Grant (length (tasks s)) false; Step (length (tasks s)); Step (length (tasks s))] ++ deny_rounds n (S (length (tasks s)))) by reflexivity.
      unfold pexec in *. rewrite fold_left_app, E. simpl. rewrite app_length. simpl. rewrite Nat.add_1_r. reflexivity. }
  set (s0 := pexec k (pst0 k) [Spawn CStart; app 1 5; Step 1]).
  destruct (G n s0 5%Z) as (s' & z' & A & B & C & D); try reflexivity.
  - left; reflexivity.
  - repeat constructor.
  - exists s', z'. split; [|auto]. rewrite A. unfold s0, pexec. rewrite fold_left_app. reflexivity.
Qed.
Print Assumptions C31_eviction_refuted.

(** * C32 *)
(** Under every interleaving, whatever is called, at most concurrency_limit events
    run at once. *)
Theorem C32_concurrency : forall k s, reach k anything s -> countp holds s <= k_conc k.
Proof. intros k s H. pose proof (sem_reach k s H). lia. Qed.
Print Assumptions C32_concurrency.

(** If process() calls do not overlap, none starts more than queue_capacity events,
    and between calls the whole capacity is available again. *)
Theorem C32_capacity : forall k l, always k (fun s => countp is_loop s <= 1) (pst0 k) l ->
  let s := pexec k (pst0 k) l in
  (forall t, countp (started_by t) s <= k_cap k) /\
  (countp is_loop s = 0 -> avail s = Z.of_nat (k_cap k)) /\
  (forall t p, nth_error (tasks s) t = Some p -> is_loop p = true ->
     (avail s = Z.of_nat (k_cap k) - Z.of_nat (countp (started_by t) s))%Z /\ (0 <= avail s)%Z).
Proof.
  intros k l Ha s. destruct (CI_run k l Ha) as [A B C D]. fold s in A, B, C, D.
  split; [exact D|]. split; [exact B|]. intros t p Ht Hp. destruct (C t p Ht Hp) as (C1 & C2 & _ & C4). split; [lia | exact C2].
Qed.
Print Assumptions C32_capacity.
Definition ex32 : list action := [Spawn CStart; app 1 5; Step 1; app 2 3; Step 2; app 3 4; Step 3; Spawn CForward;
  Step 4; Grant 4 true; Step 4; Step 4; Grant 4 true; Step 4; Step 4; Step 5; Step 6].
Example C32_ex : let k := Cfg 2 1 9 9 in let s := pexec k (pst0 k) ex32 in
  always k (fun s => countp is_loop s <= 1) (pst0 k) ex32 /\
  countp (started_by 4) s = 2 /\ avail s = 0%Z /\ queue s = [(5%Z, 1)] /\
  nth_error (tasks s) 5 = Some (KRun 4 2 true) /\ nth_error (tasks s) 6 = Some (KSem 4 3) /\
  avail (pexec k s [Finish 5 COMPLETED; Step 5; Step 6; Finish 6 FAILED; Step 6; Step 4]) = 2%Z.
Proof. cbv zeta. split; [repeat split; vm_compute; lia | vm_compute; repeat split]. Qed.

(** Overlapping calls can exceed it: here one call starts three events with capacity
    two, and all three are under way at once. *)
Theorem C32_overlap_refuted : exists k l t, Forall normal l /\
  let s := pexec k (pst0 k) l in k_cap k < countp (started_by t) s /\ k_cap k < length (running_ids s).
Proof.
  exists (Cfg 2 9 9 9), [Spawn CStart; app 1 1; Step 1; app 2 2; Step 2; app 3 3; Step 3; app 4 4; Step 4;
    Spawn CForward; Spawn CForward; Step 5; Grant 5 true; Step 5; Step 6; Grant 6 true; Step 6;
    Step 8; Finish 8 COMPLETED; Step 8; Step 6; Step 5; Grant 5 true; Step 5; Step 5; Grant 5 true; Step 5], 5.
  split; [repeat constructor; discriminate|]. vm_compute. lia.
Qed.
Print Assumptions C32_overlap_refuted.

(** The entry taken is a smallest one. *)
Theorem C32_priority : forall k s t n, reach k anything s -> nth_error (tasks s) t = Some (LGet n) -> queue s <> [] ->
  exists (p : Z) (id : uuid), (forall p' id', In (p', id') (queue s) -> (p < p')%Z \/ p = p' /\ id <= id') /\ Permutation (queue s) ((p, id) :: queue (step k s t)) /\
  (memb id (items s) = true -> nth_error (tasks (step k s t)) t = Some (LPerm n p id)).
Proof.
  intros k s t n Hr Ht Hq. pose proof (heap_any k s Hr) as Hh. pose proof (heap_pop qlt qlt_weak (queue s) Hh) as P.
  unfold step. rewrite Ht. destruct (heappop qlt (queue s)) as [[[p id] h]|]; [|contradiction].
  destruct P as (_ & P & M). exists p, id. split; [|split].
  - intros p' id' Hin. destruct M as [_ Q]. specialize (Q _ Hin). unfold qlt in Q. simpl in Q.
    apply orb_false_iff in Q. rewrite andb_false_iff, Z.ltb_ge, Z.eqb_neq, Nat.ltb_ge in Q. lia.
  - destruct (memb id (items s)); exact P.
  - intros ->. simpl. rewrite (nth_upd _ _ _ _ _ _ Ht), Nat.eqb_refl. reflexivity.
Qed.
Print Assumptions C32_priority.

(** process() returns only when every event it started has ended. *)
Theorem C32_joins : forall k s t p, reach k anything s -> nth_error (tasks s) t = Some p -> is_loop p = false ->
  forall q, In q (tasks s) -> child_of t q = false.
Proof.
  intros k s t p Hr Ht Lp q Hq. destruct (child_of t q) eqn:E; [|reflexivity].
  destruct (joined_reach k s Hr t q Hq E) as (r & Hr' & Lr). congruence.
Qed.
Print Assumptions C32_joins.

(** No event is under way twice, nor queued while under way. *)
Theorem C32_once : forall k s, reach k normal s -> NoDup (waiting_ids s ++ running_ids s).
Proof. intros k s H. apply SI_reach in H. destruct H as ([A B C D E F G] & _ & _). exact E. Qed.
Print Assumptions C32_once.
Example C32_once_ex : let s := pexec (Cfg 2 1 9 9) (pst0 (Cfg 2 1 9 9)) ex32 in
  waiting_ids s = [1] /\ running_ids s = [2; 3].
Proof. vm_compute. auto. Qed.

(** * C33 *)
(** In normal use every pending event of a started executor is queued or in the hands
    of a call; or a call that raised gave up on it; or it is a streaming event whose
    stream ended leaving it pending. *)
Theorem C33_pending : forall k s, reach k normal s -> started s = true -> forall u, In u (progs s PENDING) ->
  In u (waiting_ids s) \/
  (exists t e l, nth_error (tasks s) t = Some (AErr e l) /\ In u l) \/
  (streaming s u = true /\ exists t par, nth_error (tasks s) t = Some (KDone par u)).
Proof.
  intros k s H Hs u Hu. destruct (FI_reach k s H) as [HS HF].
  destruct (f_pend _ HF Hs u Hu) as [Hc|(t & p & Ht & [Hw|[Hw|[Hst Hw]]])].
  - left. unfold waiting_ids. apply in_or_app. left; exact Hc.
  - left. unfold waiting_ids. apply in_or_app. right. apply in_flat_map. exists p. split; [eapply nth_error_In; eauto | exact Hw].
  - right; left. destruct p; simpl in Hw; try contradiction. eauto.
  - right; right. split; [exact Hst|]. destruct p as [| | | | | | | | | | |par v| |]; simpl in Hw; try contradiction.
    destruct Hw as [->|[]]. eauto.
Qed.
Print Assumptions C33_pending.
(** So if no call raised, a plain event is waiting, running, or has left both states. *)
Corollary C33_no_error : forall k s, reach k normal s -> started s = true ->
  (forall t e l, nth_error (tasks s) t = Some (AErr e l) -> l = []) ->
  forall u, In u (items s) -> streaming s u = false ->
  In u (waiting_ids s) \/ In u (running_ids s) \/
  exists x, In u (progs s x) /\ x <> PENDING /\ x <> PROCESSING.
Proof.
  intros k s H Hs He u Hu Hst. pose proof (C30_status k s H) as (_ & C & _).
  destruct (C30_partition k s H) as (_ & _ & P & _). destruct (P u Hu) as (x & Hx & _).
  destruct x; try (right; right; eexists; split; [exact Hx | split; discriminate]).
  - destruct (C33_pending k s H Hs u Hx) as [A|[(t & e & l & Ht & Hl)|[A _]]]; [auto | | congruence].
    rewrite (He t e l Ht) in Hl. destruct Hl.
  - right; left. apply C; assumption.
Qed.
Print Assumptions C33_no_error.
Example C33_ex : let k := Cfg 2 1 9 9 in let s := pexec k (pst0 k) ex32 in
  started s = true /\ progs s PENDING = [1] /\ In 1 (waiting_ids s) /\ progs s PROCESSING = [2; 3].
Proof. vm_compute. repeat split; auto. Qed.

(** An append refused for fullness leaves its event pending and unqueued, and no
    later start() or forward() finds it. *)
Theorem C33_full_strands_refuted : exists k l, Forall normal l /\
  let s := pexec k (pst0 k) l in
  In 2 (progs s PENDING) /\ queue s = [] /\ ~ In 2 (waiting_ids s) /\
  forallb (fun p => match p with ADone | AErr _ _ | KDone _ _ => true | _ => false end) (tasks s) = true.
Proof.
  exists (Cfg 5 5 1 9), [Spawn CStart; app 1 1; Step 1; app 2 2; Spawn CForward; Step 3; Grant 3 true; Step 3; Step 4;
     Finish 4 COMPLETED; Step 4; Step 3; Spawn CStart; Spawn CForward; Step 6].
  split; [repeat constructor; discriminate|]. vm_compute. repeat split; auto; tauto.
Qed.
Print Assumptions C33_full_strands_refuted.
(** start() over a queue too small for the backlog raises half-way and the rest is
    never queued, not even by starting again. *)
Theorem C33_backfill_refuted : exists k l, Forall normal l /\
  let s := pexec k (pst0 k) l in
  progs s PENDING = [1; 2] /\ waiting_ids s = [1] /\ started s = true /\
  nth_error (tasks s) 2 = Some (AErr QueueFullError [2]) /\ nth_error (tasks s) 3 = Some ADone.
Proof.
  exists (Cfg 5 5 1 9), [app 1 1; app 2 2; Spawn CStart; Step 2; Spawn CStart].
  split; [repeat constructor; discriminate|]. vm_compute. repeat split.
Qed.
Print Assumptions C33_backfill_refuted.
