(** C119: Semaphore of libs/concurrency/_primitives.py:49-70. *)
From Coq Require Import List Bool Arith Lia Sorted ZArith.
From Verif Require Import PyBase ModelSemaphore SpecSemaphore ProofsSemaphore.
Import ListNotations.
Local Open Scope nat_scope.

(** A semaphore can be made with every number that is not negative. *)
Theorem C119_new : forall z,
  ((z < 0)%Z -> new_sem z = Raise ValueError) /\
  forall n, new_sem (Z.of_nat n) = Ret (Sem n [] [] [] 0 []).
Proof.
  intros z. split.
  - intros N. unfold new_sem. now rewrite (proj2 (Z.ltb_lt _ _) N).
  - intros n. unfold new_sem. destruct (Z.ltb_spec (Z.of_nat n) 0); [lia|]. now rewrite Nat2Z.id.
Qed.
Print Assumptions C119_new.

(** Slots are neither lost nor made: those free, in use and on their way to a task are as many as
    at the start, and one more for every release() outside of a block. *)
Theorem C119_slots : forall n ops s0 s, new_sem (Z.of_nat n) = Ret s0 -> s = srun s0 ops ->
  free s + length (inside s) + length (woken s) = n + extras (trace s) /\
  (forall e, In e (woken s ++ inside s) <->
     In e (granted (trace s)) /\ ~ In e (dropped (trace s)) /\ ~ In e (released (trace s))).
Proof.
  intros n ops s0 s N ->. rewrite (proj2 (C119_new 0) n) in N. injection N as <-. pose proof (inv_run n ops) as I. split.
  - pose proof (i_sum _ _ _ I). lia.
  - apply (i_held _ _ _ I).
Qed.
Print Assumptions C119_slots.

Lemma extras_give : forall ops s, ~ In Give ops -> extras (trace (srun s ops)) = extras (trace s).
Proof.
  induction ops as [|o ops IH]; intros s N; [reflexivity|]. cbn [srun fold_left]. fold (srun (sstep s o) ops).
  rewrite IH; [|intros X; apply N; now right]. clear IH.
  assert (R : forall q, extras (trace (release q)) = extras (trace q)).
  { intros q. unfold release. destruct (line q); cbn [trace]; traces; reflexivity. }
  destruct o as [t|i|i|i|]; cbn [sstep].
  - destruct (suspended s t); [reflexivity|]. destruct (free s); [|destruct (line s)]; cbn [trace]; traces; reflexivity.
  - destruct (find_ticket i (woken s)); reflexivity.
  - destruct (find_ticket i (inside s)) as [e|]; [|reflexivity]. destruct (suspended s (snd e)); [reflexivity|].
    rewrite R. cbn [trace log]. traces. reflexivity.
  - destruct (find_ticket i (line s)); [cbn [trace log]; traces; reflexivity|].
    destruct (find_ticket i (woken s)); [|reflexivity]. rewrite R. cbn [trace log]. traces. reflexivity.
  - exfalso. apply N. now left.
Qed.

(** Used in blocks only, at most n tasks are inside, whatever is cancelled; once all blocks are left and nobody is on
    the way, all n slots are free. *)
Theorem C119_bound : forall n ops s0 s, new_sem (Z.of_nat n) = Ret s0 -> s = srun s0 ops -> blocks_only ops ->
  length (inside s) <= n /\ (inside s = [] -> woken s = [] -> free s = n).
Proof.
  intros n ops s0 s N E B. pose proof (C119_slots n ops s0 s N E) as [S _].
  assert (extras (trace s) = 0) as X.
  { subst s. rewrite extras_give by exact B. rewrite (proj2 (C119_new 0) n) in N. injection N as <-. reflexivity. }
  split; [lia|]. intros I W. rewrite I, W in S. cbn in S. lia.
Qed.
Print Assumptions C119_bound.

(** Nobody waits while a slot is free. *)
Theorem C119_no_idle : forall n ops s0 s, new_sem (Z.of_nat n) = Ret s0 -> s = srun s0 ops ->
  line s <> [] -> free s = 0 /\ length (inside s) + length (woken s) = n + extras (trace s).
Proof.
  intros n ops s0 s N E L. pose proof (C119_slots n ops s0 s N E) as [S _].
  rewrite (proj2 (C119_new 0) n) in N. injection N as <-. pose proof (inv_run n ops) as I. rewrite <- E in I.
  destruct (free s) eqn:F; [lia|]. exfalso. apply L, (i_line _ _ _ I). lia.
Qed.
Print Assumptions C119_no_idle.

(** First come, first served: slots are handed out in the order of the calls, each call gets one at
    most; a call before one that got a slot has got one too, unless it was cancelled. *)
Theorem C119_fifo : forall n ops s0 s, new_sem (Z.of_nat n) = Ret s0 -> s = srun s0 ops ->
  StronglySorted lt (map fst (granted (trace s))) /\
  map fst (asked (trace s)) = seq 0 (count s) /\
  (forall e, In e (granted (trace s)) -> In e (asked (trace s))) /\
  forall e f, In e (asked (trace s)) -> In f (granted (trace s)) -> fst e < fst f ->
    In e (granted (trace s)) \/ In e (dropped (trace s)).
Proof.
  intros n ops s0 s N ->. rewrite (proj2 (C119_new 0) n) in N. injection N as <-. pose proof (inv_run n ops) as I.
  set (s := srun _ ops) in *. pose proof (i_sorted _ _ _ I) as S. unfold nums in S. rewrite map_app in S.
  assert (SP : forall (k l : list nat), StronglySorted lt (k ++ l) -> StronglySorted lt k /\ forall x y, In x k -> In y l -> x < y).
  { induction k as [|x k IH]; intros l H; [split; [constructor|easy]|]. cbn in H. inversion H; subst. apply IH in H2 as [A B].
    rewrite Forall_app in H3. destruct H3 as [F G]. split; [now constructor|]. intros u v [<-|U] V; [|now apply B]. rewrite Forall_forall in G. now apply G. }
  destruct (SP _ _ S) as [S1 S2]. repeat split.
  - exact S1.
  - apply (i_asked _ _ _ I).
  - intros e H. apply (i_known _ _ _ I). rewrite !in_app_iff. tauto.
  - intros e f A G L. apply (i_all _ _ _ I) in A. rewrite !in_app_iff in A. destruct A as [A|[A|A]]; [tauto| |tauto].
    exfalso. specialize (S2 (fst f) (fst e) (in_map fst _ _ G) (in_map fst _ _ A)). lia.
Qed.
Print Assumptions C119_fifo.

Lemma turn_release : forall s l1 e l2, line s = l1 ++ e :: l2 ->
  In e (granted (trace (release s))) \/
  exists l1', line (release s) = l1' ++ e :: l2 /\ S (length l1') = length l1.
Proof.
  intros s l1 e l2 L. unfold release. rewrite L. destruct l1 as [|x l1]; cbn [app line trace].
  - left. rewrite granted_app. apply in_app_iff. right. now left.
  - right. exists l1. split; reflexivity.
Qed.
Lemma release_returns : forall s, returns (trace (release s)) = returns (trace s).
Proof. intros s. unfold release. destruct (line s); cbn [trace]; [reflexivity|]. rewrite returns_app. cbn. lia. Qed.
Lemma drop_length : forall i l, length (drop i l) <= length l.
Proof. intros i l. unfold drop. induction l as [|a l IH]; cbn; [lia|]. destruct (negb (fst a =? i)); cbn; lia. Qed.

Lemma turn_step : forall n s o l1 e l2, inv 0 n s -> line s = l1 ++ e :: l2 ->
  In e (granted (trace (sstep s o))) \/ In e (dropped (trace (sstep s o))) \/
  exists l1' l2', line (sstep s o) = l1' ++ e :: l2' /\
    length l1' + returns (trace (sstep s o)) <= length l1 + returns (trace s).
Proof.
  intros n s o l1 e l2 I L.
  assert (SAME : forall q, line q = line s -> returns (trace q) = returns (trace s) ->
    exists l1' l2', line q = l1' ++ e :: l2' /\ length l1' + returns (trace q) <= length l1 + returns (trace s)).
  { intros q A B. exists l1, l2. rewrite A, B. split; [exact L|lia]. }
  assert (REL : forall q, line q = line s -> returns (trace q) <= S (returns (trace s)) ->
    In e (granted (trace (release q))) \/ In e (dropped (trace (release q))) \/
    exists l1' l2', line (release q) = l1' ++ e :: l2' /\ length l1' + returns (trace (release q)) <= length l1 + returns (trace s)).
  { intros q A B. rewrite <- A in L. destruct (turn_release q l1 e l2 L) as [G|(l1' & G & K)]; [now left|]. right. right.
    exists l1', l2. split; [exact G|]. rewrite release_returns. lia. }
  destruct o as [t|i|i|i|]; cbn [sstep].
  - destruct (suspended s t); [right; right; now apply SAME|]. right. right.
    destruct (free s) eqn:F.
    + exists l1, (l2 ++ [(count s, t)]). cbn [line trace]. rewrite L, <- app_assoc, returns_app. cbn. split; [reflexivity|lia].
    + assert (line s = []) as X by (apply (i_line _ _ _ I); lia). rewrite X in L. now destruct l1.
  - right. right. destruct (find_ticket i (woken s)); now apply SAME.
  - destruct (find_ticket i (inside s)) as [x|]; [|right; right; now apply SAME].
    destruct (suspended s (snd x)); [right; right; now apply SAME|]. apply REL; [reflexivity|]. cbn [log trace].
    rewrite returns_app. cbn. lia.
  - destruct (find_ticket i (line s)) as [x|] eqn:F.
    + cbn [log line trace]. destruct (Nat.eq_dec (fst e) i) as [E|E].
      * right. left. rewrite dropped_app. apply in_app_iff. right. left. destruct (find_in _ _ _ F) as [X1 X2].
        eapply same_ticket; [exact I| | |congruence]; eapply held_asked; eauto; rewrite in_app_iff; left; [exact X1|]. rewrite L.
        apply in_app_iff. right. now left.
      * right. right. exists (drop i l1), (drop i l2). rewrite L. unfold drop. rewrite filter_app. cbn.
        destruct (Nat.eqb_spec (fst e) i); [easy|]. split; [reflexivity|]. rewrite returns_app. cbn. pose proof (drop_length i l1). unfold drop in *. lia.
    + destruct (find_ticket i (woken s)) as [x|]; [|right; right; now apply SAME]. apply REL; [reflexivity|]. cbn [log trace].
      rewrite returns_app. cbn. lia.
  - apply REL; [reflexivity|]. cbn [log trace]. rewrite returns_app. cbn. lia.
Qed.

Lemma trace_step : forall s o, exists x, trace (sstep s o) = trace s ++ x.
Proof.
  assert (R : forall q, exists x, trace (release q) = trace q ++ x).
  { intros q. unfold release. destruct (line q); cbn [trace]; [exists []; now rewrite app_nil_r|eexists; reflexivity]. }
  intros s o. assert (Z : exists x, trace s = trace s ++ x) by (exists []; now rewrite app_nil_r).
  destruct o as [t|i|i|i|]; cbn [sstep].
  - destruct (suspended s t); [exact Z|]. destruct (free s); [|destruct (line s)]; cbn [trace]; eexists; reflexivity.
  - destruct (find_ticket i (woken s)); exact Z.
  - destruct (find_ticket i (inside s)) as [e|]; [|exact Z]. destruct (suspended s (snd e)); [exact Z|].
    destruct (R (log (Sem (free s) (line s) (woken s) (drop i (inside s)) (count s) (trace s)) (Released e))) as [x ->]. cbn [log trace]. rewrite <- app_assoc. eexists; reflexivity.
  - destruct (find_ticket i (line s)); [cbn [log trace]; eexists; reflexivity|]. destruct (find_ticket i (woken s)) as [e|]; [|exact Z].
    destruct (R (log (Sem (free s) (line s) (drop i (woken s)) (inside s) (count s) (trace s)) (Dropped e))) as [x ->]. cbn [log trace]. rewrite <- app_assoc. eexists; reflexivity.
  - destruct (R (log s Extra)) as [x ->]. cbn [log trace]. rewrite <- app_assoc. eexists; reflexivity.
Qed.
Lemma trace_run : forall ops s, exists x, trace (srun s ops) = trace s ++ x.
Proof.
  induction ops as [|o ops IH]; intros s; [exists []; now rewrite app_nil_r|]. cbn [srun fold_left].
  destruct (IH (sstep s o)) as [y Y]. destruct (trace_step s o) as [x X]. exists (x ++ y). unfold srun in Y. rewrite Y, X. now rewrite app_assoc.
Qed.

(** A call that is k-th in line gets its slot by the k-th release at the latest, however many
    other tasks come meanwhile, unless it is cancelled. *)
Theorem C119_turn : forall n ops s0 s more s' l1 e l2, new_sem (Z.of_nat n) = Ret s0 -> s = srun s0 ops -> s' = srun s more ->
  line s = l1 ++ e :: l2 -> ~ In e (dropped (trace s')) -> returns (trace s) + length l1 < returns (trace s') ->
  In e (granted (trace s')).
Proof.
  intros n ops s0 s more s' l1 e l2 N E E'. rewrite (proj2 (C119_new 0) n) in N. injection N as <-. pose proof (inv_run n ops) as I.
  rewrite <- E in I. clear E ops. subst s'. revert s I l1 l2. induction more as [|o more IH]; intros s I l1 l2 L D R.
  - cbn in R. lia.
  - cbn [srun fold_left] in *. fold (srun (sstep s o) more) in *. destruct (trace_run more (sstep s o)) as [x X].
    destruct (turn_step n s o l1 e l2 I L) as [G|[G|(l1' & l2' & A & B)]].
    + rewrite X, granted_app. apply in_app_iff. now left.
    + exfalso. apply D. rewrite X, dropped_app. apply in_app_iff. now left.
    + apply (IH (sstep s o) (inv_step _ _ _ I) l1' l2' A D). lia.
Qed.
Print Assumptions C119_turn.

(** A task that was handed a slot enters when the loop resumes it, and keeps the slot till then. *)
Theorem C119_enters : forall n ops s0 s i t, new_sem (Z.of_nat n) = Ret s0 -> s = srun s0 ops -> In (i, t) (woken s) ->
  inside (sstep s (Wake i)) = inside s ++ [(i, t)] /\
  forall o, o <> Wake i -> o <> Cancel i -> In (i, t) (woken (sstep s o)).
Proof.
  intros n ops s0 s i t N E W. rewrite (proj2 (C119_new 0) n) in N. injection N as <-. pose proof (inv_run n ops) as I. rewrite <- E in I.
  clear E ops. split.
  - cbn [sstep]. destruct (find_ticket i (woken s)) as [x|] eqn:F.
    + cbn [inside]. f_equal. f_equal. destruct (find_in _ _ _ F) as [X1 X2].
      eapply same_ticket; [exact I| | |exact X2]; eapply held_asked; eauto; rewrite !in_app_iff; tauto.
    + exfalso. unfold find_ticket in F. eapply find_none in F; [|exact W]. cbn in F. now rewrite Nat.eqb_refl in F.
  - intros o O1 O2. assert (R : forall q, In (i, t) (woken q) -> In (i, t) (woken (release q))).
    { intros q Q. unfold release. destruct (line q); cbn [woken]; [exact Q|]. apply in_app_iff. now left. }
    destruct o as [u|j|j|j|]; cbn [sstep].
    + destruct (suspended s u); [exact W|]. destruct (free s); [|destruct (line s)]; exact W.
    + destruct (find_ticket j (woken s)); [|exact W]. cbn [woken]. apply drop_in. split; [exact W|]. cbn. congruence.
    + destruct (find_ticket j (inside s)) as [x|]; [|exact W]. destruct (suspended s (snd x)); [exact W|]. now apply R.
    + destruct (find_ticket j (line s)); [exact W|]. destruct (find_ticket j (woken s)); [|exact W]. apply R. cbn [log woken]. apply drop_in. split; [exact W|]. cbn. congruence.
    + now apply R.
Qed.
Print Assumptions C119_enters.

(** *** What does not hold *)
(** A release() too many lets one more task in than the semaphore was made for. *)
Theorem C119_extra_refuted : exists n ops s0, new_sem (Z.of_nat n) = Ret s0 /\ n < length (inside (srun s0 ops)).
Proof. exists 1, [Enter 0; Give; Enter 1], (Sem 1 [] [] [] 0 []). split; [reflexivity|]. cbn. lia. Qed.
Print Assumptions C119_extra_refuted.

(** A semaphore is not reentrant: once all slots are held by tasks that wait for another one,
    nobody gets in or out any more unless somebody is cancelled or releases from outside. *)
Theorem C119_stuck : forall s more, free s = 0 -> woken s = [] -> (forall e, In e (inside s) -> waits_in s (snd e)) ->
  ~ In Give more -> (forall i, ~ In (Cancel i) more) ->
  inside (srun s more) = inside s /\ woken (srun s more) = [] /\ exists l, line (srun s more) = line s ++ l.
Proof.
  intros s more. revert s. induction more as [|o more IH]; intros s F W B G C.
  - cbn. split; [reflexivity|]. split; [exact W|]. exists []. now rewrite app_nil_r.
  - cbn [srun fold_left]. fold (srun (sstep s o) more).
    assert (ST : free (sstep s o) = 0 /\ woken (sstep s o) = [] /\ inside (sstep s o) = inside s /\ exists l, line (sstep s o) = line s ++ l).
    { assert (Z : exists l, line s = line s ++ l) by (exists []; now rewrite app_nil_r).
      destruct o as [t|i|i|i|]; cbn [sstep].
      - destruct (suspended s t); [repeat split; assumption|]. rewrite F. cbn [free woken inside line]. repeat split; [exact W|]. eexists; reflexivity.
      - rewrite W. cbn. repeat split; assumption.
      - destruct (find_ticket i (inside s)) as [x|] eqn:X; [|repeat split; assumption]. apply find_in in X as [X _].
        destruct (B x X) as (j & J). assert (suspended s (snd x) = true) as ->; [|repeat split; assumption].
        unfold suspended. apply existsb_exists. exists (j, snd x). split; [apply in_app_iff; now left|]. cbn. apply Nat.eqb_refl.
      - exfalso. apply (C i). now left.
      - exfalso. apply G. now left. }
    destruct ST as (F' & W' & I' & l & L'). destruct (IH (sstep s o) F' W') as (A1 & A2 & l' & A3).
    + intros e E. rewrite I' in E. destruct (B e E) as (j & J). exists j. rewrite L'. apply in_app_iff. now left.
    + intros X. apply G. now right.
    + intros i X. apply (C i). now right.
    + split; [congruence|]. split; [exact A2|]. exists (l ++ l'). rewrite A3, L'. now rewrite app_assoc.
Qed.
Print Assumptions C119_stuck.
(** One task and one slot are enough; with no slots at all, nobody ever enters. *)
Theorem C119_reentry_refuted : exists ops s0, new_sem 1 = Ret s0 /\ (forall t, In (Enter t) ops -> t = 7) /\
  forall more, ~ In Give more -> (forall i, ~ In (Cancel i) more) -> exists l, line (srun s0 (ops ++ more)) = (1, 7) :: l.
Proof.
  exists [Enter 7; Enter 7], (Sem 1 [] [] [] 0 []). split; [reflexivity|]. split.
  - intros t [E|[E|[]]]; congruence.
  - intros more G C. unfold srun. rewrite fold_left_app. fold (srun (fold_left sstep [Enter 7; Enter 7] (Sem 1 [] [] [] 0 [])) more).
    destruct (C119_stuck (fold_left sstep [Enter 7; Enter 7] (Sem 1 [] [] [] 0 [])) more) as (_ & _ & l & L); auto; try reflexivity.
    + cbn. intros e [<-|[]]. exists 1. now left.
    + exists l. rewrite L. reflexivity.
Qed.
Print Assumptions C119_reentry_refuted.
Theorem C119_zero : forall ops, blocks_only ops -> inside (srun (Sem 0 [] [] [] 0 []) ops) = [].
Proof.
  intros ops B. destruct (C119_bound 0 ops _ _ eq_refl eq_refl B) as [L _]. destruct (inside _); [reflexivity|cbn in L; lia].
Qed.
Print Assumptions C119_zero.

(** Two slots, four tasks: 2 and 3 wait; 2 is cancelled in line; 3 gets the slot of 0. *)
Example C119_example :
  let s := srun (Sem 2 [] [] [] 0 []) [Enter 0; Enter 1; Enter 2; Enter 3; Cancel 2; Leave 0] in
  inside s = [(1, 1)] /\ woken s = [(3, 3)] /\ line s = [] /\ free s = 0 /\
  granted (trace s) = [(0, 0); (1, 1); (3, 3)] /\ inside (sstep s (Wake 3)) = [(1, 1); (3, 3)] /\
  free (sstep s (Cancel 3)) = 1 /\ free (srun s [Wake 3; Leave 3; Leave 1]) = 2.
Proof. repeat split. Qed.
(** A slot cancelled on its way goes to the next in line; a suspended task cannot leave. *)
Example C119_pass_on :
  let s := srun (Sem 1 [] [] [] 0 []) [Enter 0; Enter 1; Enter 2; Leave 0; Cancel 1] in
  woken s = [(2, 2)] /\ free s = 0 /\ sstep s (Enter 2) = s /\ inside (sstep s (Wake 2)) = [(2, 2)].
Proof. repeat split. Qed.
