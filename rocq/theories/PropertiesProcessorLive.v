(** C118: calls on an executor come to an end, and forward() called often enough
    deals with everything queued. *)
From Coq Require Import List Bool Arith ZArith Lia Permutation.
From Verif Require Import PyBase PyFacts ModelHeap SpecHeap ModelEvent ModelProcessor SpecProcessor SpecProcessorLive
  ProofsProcessor ProofsProcessorRun ProofsProcessorDeny ProofsProcessorFate ProofsProcessorCap
  ProofsProcessorLive ProofsProcessorRounds PropertiesProcessor.
Import ListNotations.

(** Without new calls only finitely much can happen, whatever the interleaving, the
    answers and the outcomes. *)
Theorem C118_bounded : forall k s, reach k anything s ->
  exists n, forall l, Forall inner l -> moving k s l -> length l <= n.
Proof.
  intros k s H. exists (todo s). intros l Hl Hm. pose proof (moving_bound k l s (heap_any k s H) Hl Hm). lia.
Qed.
Print Assumptions C118_bounded.

(** When nothing more happens every call has ended, except process() calls waiting
    at an empty queue. *)
Theorem C118_rest : forall k s, reach k normal s -> 1 <= k_conc k ->
  (quiet k s <-> forall p, In p (tasks s) -> ended p = true \/ ((exists n, p = LGet n) /\ queue s = [])).
Proof.
  intros k s H Hc. split; [apply quiet_stuck; assumption | apply stuck_quiet].
Qed.
Print Assumptions C118_rest.

(** That point is always reached, by granting what is asked for and letting the
    operations end. *)
Theorem C118_settles : forall k s, reach k normal s -> 1 <= k_conc k ->
  exists l, Forall granting l /\ quiet k (pexec k s l).
Proof. apply comes_to_rest. Qed.
Print Assumptions C118_settles.

(** A forward() call made while no other call is under way returns: whatever has
    happened since, it is not over only as long as something can happen, and it can be
    brought to its end. *)
Theorem C118_forward : forall k s l, reach k normal s -> 1 <= k_conc k -> idle s -> Forall inner l ->
  let s' := pexec k (pact k s (Spawn CForward)) l in
  (quiet k s' <-> idle s') /\ exists l', Forall granting l' /\ idle (pexec k s' l').
Proof.
  intros k s l H Hc Hi Hl s'.
  assert (Hr : reach k normal s').
  { apply (reach_more k normal s (Spawn CForward :: l) H). constructor; [exact I|]. eapply Forall_impl; [|exact Hl]. apply inner_normal. }
  split.
  - split; [apply forward_rest; assumption|]. intros Q. apply stuck_quiet. intros p Hp. left. apply Q, Hp.
  - destruct (comes_to_rest k s' Hr Hc) as (l' & Hl' & Hq). exists l'. split; [exact Hl'|].
    assert (E : pexec k s' l' = pexec k (pact k s (Spawn CForward)) (l ++ l')) by (unfold s', pexec; rewrite fold_left_app; reflexivity).
    rewrite E in *. apply forward_rest; auto. apply Forall_app. split; [exact Hl|]. eapply Forall_impl; [|exact Hl']. apply granting_inner.
Qed.
Print Assumptions C118_forward.

(** Process() calls that overlap may wait for ever: both see the one event queued,
    one takes it, the other waits for an event to be queued. *)
Definition ex118h : list action := [Spawn CStart; app 1 5; Step 1; Spawn CForward; Spawn CForward;
  Step 2; Grant 2 true; Step 2; Step 4; Finish 4 COMPLETED; Step 4; Step 2].
Theorem C118_overlap_refuted : exists k l, 1 <= k_conc k /\ 1 <= k_cap k /\ Forall normal l /\
  let s := pexec k (pst0 k) l in quiet k s /\ queue s = [] /\ progs s COMPLETED = items s /\
  nth_error (tasks s) 2 = Some ADone /\ nth_error (tasks s) 3 = Some (LGet 0).
Proof.
  exists (Cfg 2 2 9 9), ex118h. split; [simpl; lia|]. split; [simpl; lia|].
  assert (N : Forall normal ex118h) by (repeat constructor; discriminate). split; [exact N|]. cbv zeta.
  split; [|vm_compute; auto]. apply (C118_rest _ _ (ex_intro _ ex118h (conj N eq_refl))); [simpl; lia|].
  vm_compute. intros p H. repeat (destruct H as [<-|H]; [auto|]); [|destruct H]. right. split; [eexists; reflexivity | reflexivity].
Qed.
Print Assumptions C118_overlap_refuted.

(** With every permission granted each call takes queue_capacity events off the
    queue, or all there are: enough calls empty it. *)
Theorem C118_drain : forall k n s s', reach k normal s -> started s = true -> idle s -> rounds k granting n s s' ->
  length (queue s') <= length (queue s) - n * k_cap k.
Proof.
  intros k n s s' Hr Hs Hi H. revert Hr Hs Hi. induction H as [s|n s l s1 s2 Hl E Hi1 H IH]; intros Hr Hs Hi; [lia|].
  destruct (rounds_reach k granting granting_inner 1 s s1) as (Hr1 & Hs1 & _); [|exact Hr|].
  { econstructor; [exact Hl | exact E | exact Hi1 | constructor]. }
  specialize (IH Hr1 (eq_trans Hs1 Hs) Hi1). subst s1.
  pose proof (round_granting k s l (heap_any k s (reach_any k _ _ Hr)) (whole_reach k s (reach_any k _ _ Hr)) Hi Hs Hl Hi1) as L.
  cbv zeta in L. simpl. lia.
Qed.
Print Assumptions C118_drain.

(** Whatever the answers, every call decides on an event or counts a denial: three
    calls for each queued event empty the queue, if the tracker has room for the events
    queued and tracked. *)
Theorem C118_decided : forall k n s s', reach k normal s -> started s = true -> idle s -> 1 <= k_cap k ->
  length (nodup Nat.eq_dec (map fst (denial s) ++ map snd (queue s))) < k_maxd k ->
  rounds k inner n s s' -> 3 * length (queue s) <= n -> queue s' = [].
Proof.
  intros k n s s' Hr Hs Hi Hcap HK H Hn. set (K := nodup Nat.eq_dec (map fst (denial s) ++ map snd (queue s))) in HK.
  assert (G : forall n s s', rounds k inner n s s' -> reach k normal s -> started s = true -> idle s ->
    incl (dkeys (denial s)) K -> incl (map snd (queue s)) K -> chances (denial s) (queue s) <= n -> queue s' = []).
  { clearbody K. clear n s s' Hr Hs Hi H Hn. intros n s s' H.
    induction H as [s|n s l s1 s2 Hl E Hi1 H IH]; intros Hr Hs Hi Kd Kq Hc.
    - apply (chances_none (denial s)); [|lia]. apply (idle_two s (sane_reach k s (reach_any k _ _ Hr)) Hi).
    - destruct (rounds_reach k inner (fun a H => H) 1 s s1) as (Hr1 & Hs1 & _); [|exact Hr|].
      { econstructor; [exact Hl | exact E | exact Hi1 | constructor]. }
      assert (Q : queue s = [] \/ queue s <> []) by (destruct (queue s); [left; reflexivity | right; discriminate]).
      pose proof (sane_reach k s (reach_any k _ _ Hr)) as Sn. pose proof (idle_two s Sn Hi) as H2. destruct Sn as [Nd _].
      assert (Nq : NoDup (map snd (queue s))).
      { pose proof (C32_once k s Hr) as N. unfold waiting_ids in N. rewrite <- app_assoc in N.
        apply (Permutation_NoDup (Permutation_app_comm _ _)) in N. apply NoDup_app_l in N. exact N. }
      destruct Q as [Q|Q].
      + assert (E1 : queue s1 = [] /\ denial s1 = denial s).
        { subst s1. apply round_nothing; auto. apply (heap_any k s (reach_any k _ _ Hr)). }
        destruct E1 as [E1 E2]. apply IH; auto; [congruence | rewrite E2; exact Kd | rewrite E1; intros u [] | rewrite E1; simpl; lia].
      + subst s1.
        destruct (round_deciding k K HK Hcap s l (heap_any k s (reach_any k _ _ Hr)) (whole_reach k s (reach_any k _ _ Hr)) Hi Hs Nd Kd Kq Nq H2 Q Hl Hi1)
          as (A & B & C & F & _).
        apply IH; auto; [congruence | lia]. }
  apply (G n s s'); auto.
  - intros u Hu. apply nodup_In, in_or_app. left; exact Hu.
  - intros u Hu. apply nodup_In, in_or_app. right; exact Hu.
  - pose proof (chances_bound (denial s) (queue s)). lia.
Qed.
Print Assumptions C118_decided.

(** Then every plain event, unless a call that raised gave up on it, has been run or
    aborted, and one that was run is listed under its status. *)
Theorem C118_done : forall k s, reach k normal s -> started s = true -> idle s -> queue s = [] ->
  (forall t e l, nth_error (tasks s) t = Some (AErr e l) -> l = []) ->
  forall u, In u (items s) -> streaming s u = false ->
  exists x, In u (progs s x) /\ x <> PENDING /\ x <> PROCESSING /\ (x <> ABORTED -> status_of s u = x).
Proof.
  intros k s Hr Hs Hi Hq He u Hu Hst. destruct (C33_no_error k s Hr Hs He u Hu Hst) as [A|[A|(x & A & B & C)]].
  - exfalso. unfold waiting_ids in A. rewrite Hq in A. simpl in A. apply in_flat_map in A. destruct A as (p & Hp & Hin).
    specialize (Hi p Hp). destruct p; try discriminate; destruct Hin.
  - exfalso. unfold running_ids in A. apply in_flat_map in A. destruct A as (p & Hp & Hin).
    specialize (Hi p Hp). destruct p; try discriminate; destruct Hin.
  - exists x. split; [exact A|]. split; [exact B|]. split; [exact C|]. intros D.
    destruct (C30_status k s Hr) as (F & _). apply F; [destruct x; try reflexivity; contradiction | exact A].
Qed.
Print Assumptions C118_done.

(** Put together: after enough forward() calls, one after the other, all is done. *)
Theorem C118_all_done : forall k n s s', reach k normal s -> started s = true -> idle s ->
  (forall t e l, nth_error (tasks s') t = Some (AErr e l) -> l = []) ->
  rounds k granting n s s' -> length (queue s) <= n * k_cap k ->
  queue s' = [] /\ forall u, In u (items s') -> streaming s' u = false ->
  exists x, In u (progs s' x) /\ x <> PENDING /\ x <> PROCESSING /\ (x <> ABORTED -> status_of s' u = x).
Proof.
  intros k n s s' Hr Hs Hi He H Hn. pose proof (C118_drain k n s s' Hr Hs Hi H) as L.
  assert (Q : queue s' = []) by (destruct (queue s'); [reflexivity | simpl in L; lia]). split; [exact Q|].
  destruct (rounds_reach k granting granting_inner n s s' H Hr) as (A & B & C). apply (C118_done k); auto. congruence.
Qed.
Print Assumptions C118_all_done.

(** Such calls exist: any number of them, one after the other, from any such state. *)
Theorem C118_rounds : forall k n s, reach k normal s -> 1 <= k_conc k -> idle s -> exists s', rounds k granting n s s'.
Proof.
  intros k n. induction n as [|n IH]; intros s Hr Hc Hi; [exists s; constructor|].
  destruct (C118_forward k s [] Hr Hc Hi (Forall_nil _)) as (_ & l & Hl & Hi').
  change (pexec k (pact k s (Spawn CForward)) []) with (pact k s (Spawn CForward)) in Hi'.
  destruct (IH (pexec k (pact k s (Spawn CForward)) l)) as (s' & H); auto.
  - apply (reach_more k normal s (Spawn CForward :: l) Hr). constructor; [exact I|]. eapply Forall_impl; [|exact Hl].
    intros a Ha. apply inner_normal, granting_inner, Ha.
  - exists s'. econstructor; [exact Hl | reflexivity | exact Hi' | exact H].
Qed.
Print Assumptions C118_rounds.

(** Three events, capacity two: two calls. *)
Definition ex118 : list action := [app 1 5; app 2 3; Spawn CStart; Step 2; Step 2; app 3 1; Step 3].
Definition ex118a : list action := [Step 4; Grant 4 true; Step 4; Step 4; Grant 4 true; Step 4; Step 5; Finish 5 COMPLETED; Step 5; Step 6;
  Finish 6 FAILED; Step 6; Step 4].
Definition ex118b : list action := [Step 7; Grant 7 true; Step 7; Step 8; Finish 8 COMPLETED; Step 8; Step 7].
Example C118_ex : let k := Cfg 2 1 9 9 in let s := pexec k (pst0 k) ex118 in
  reach k normal s /\ started s = true /\ idle s /\ length (queue s) = 3 /\
  exists s', rounds k granting 2 s s' /\ queue s' = [] /\ progs s' COMPLETED = [1; 3] /\ progs s' FAILED = [2].
Proof.
  cbv zeta. split; [exists ex118; split; [repeat constructor; discriminate | reflexivity]|].
  assert (I : forall s, forallb ended (tasks s) = true -> idle s) by (intros s H; exact (proj1 (forallb_forall ended (tasks s)) H)).
  split; [reflexivity|]. split; [apply I; reflexivity|]. split; [reflexivity|]. eexists. split.
  - eapply (rounds_more _ _ _ _ ex118a); [repeat constructor | reflexivity | apply I; vm_compute; reflexivity|].
    eapply (rounds_more _ _ _ _ ex118b); [repeat constructor | reflexivity | apply I; vm_compute; reflexivity|]. constructor.
  - vm_compute. auto.
Qed.
(** One event denied every time: the third call aborts it. *)
Definition deny118 (t : nat) : list action := [Step t; Grant t false; Step t; Step t].
Example C118_decided_ex : let k := Cfg 2 1 9 9 in let s := pexec k (pst0 k) [Spawn CStart; app 1 5; Step 1] in
  exists s2 s3, rounds k inner 2 s s2 /\ rounds k inner 1 s2 s3 /\ queue s2 = [(8%Z, 1)] /\ queue s3 = [] /\ progs s3 ABORTED = [1].
Proof.
  cbv zeta. assert (I : forall s, forallb ended (tasks s) = true -> idle s) by (intros s H; exact (proj1 (forallb_forall ended (tasks s)) H)).
  eexists. eexists. split; [|split].
  - eapply (rounds_more _ _ _ _ (deny118 2)); [repeat constructor | reflexivity | apply I; vm_compute; reflexivity|].
    eapply (rounds_more _ _ _ _ (deny118 3)); [repeat constructor | reflexivity | apply I; vm_compute; reflexivity|]. constructor.
  - eapply (rounds_more _ _ _ _ (deny118 4)); [repeat constructor | reflexivity | apply I; vm_compute; reflexivity|]. constructor.
  - vm_compute. auto.
Qed.
