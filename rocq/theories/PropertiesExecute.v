(** C110: execute() and stop(). *)
From Coq Require Import List Bool Arith ZArith Lia.
From Verif Require Import PyBase ModelHeap ModelEvent ModelProcessor ModelExecute.
Import ListNotations.

(** *** Specification *)

(** A start() that is still putting pending events into the queue. *)
Definition starting (p : tpc) : bool := match p with ABackPut _ _ _ => true | _ => false end.
Definition no_start_running (s : pst) : Prop := forall p, In p (tasks s) -> starting p = false.

(** The action starts the processor: a call of start() or of execute(). *)
Definition starts (a : xact) : bool :=
  match a with XP (Spawn CStart) | XExecute => true | _ => false end.
Definition stops (a : xact) : bool := match a with XP Stop => true | _ => false end.
Definition cancels (a : xact) : bool := match a with XCancel _ => true | _ => false end.

(** stop() was called, and neither start() nor execute() is under way. *)
Definition after_stop (x : xst) : Prop :=
  stopped (x_p x) = true /\ no_start_running (x_p x) /\ ~ In XNew (x_loops x).

(** Loop [i] is in a call of process(). *)
Definition processing (x : xst) (i t : nat) : Prop := nth_error (x_loops x) i = Some (XWait t).

(** *** Proofs *)

Lemma nth_xupd_same i q l r : nth_error l i = Some r -> nth_error (xupd i q l) i = Some q.
Proof.
  intros H. assert (i < length l) as Hl by (apply nth_error_Some; congruence).
  unfold xupd. rewrite nth_error_app2; rewrite firstn_length_le by lia; [|lia].
  now rewrite Nat.sub_diag.
Qed.

Lemma nth_xupd_other i j q l : i < length l -> j <> i -> nth_error (xupd i q l) j = nth_error l j.
Proof.
  intros Hl N. unfold xupd. destruct (Nat.lt_ge_cases j i) as [L|L].
  - rewrite nth_error_app1 by (rewrite firstn_length_le; lia).
    revert i l Hl N L. induction j as [|j IH]; intros [|i] [|a l] Hl N L; cbn in *; try lia; auto.
    apply IH; lia.
  - rewrite nth_error_app2 by (rewrite firstn_length_le; lia).
    rewrite firstn_length_le by lia.
    destruct (j - i) as [|m] eqn:E; [lia|]. change (nth_error (skipn (S i) l) m = nth_error l j).
    replace j with (S i + m) by lia. clear.
    revert l. induction (S i) as [|n IH]; intros l; [reflexivity|].
    destruct l as [|a l]; [now destruct m|]. cbn. apply IH.
Qed.

Lemma in_xupd i q l r : In r (xupd i q l) -> r = q \/ In r l.
Proof.
  unfold xupd. intros H. apply in_app_or in H. destruct H as [H|[H|H]]; auto; right.
  - rewrite <- (firstn_skipn i l). apply in_or_app. now left.
  - rewrite <- (firstn_skipn (S i) l). apply in_or_app. now right.
Qed.

(** The stop flag. *)
Lemma clean_ids_flag ids : forall s n,
  stopped (fst (clean_ids s ids n)) = stopped s /\ tasks (fst (clean_ids s ids n)) = tasks s.
Proof.
  induction ids as [|u ids IH]; intros s n; cbn; [auto|].
  destruct (remove_first u (items s)); [|auto].
  destruct (IH (w_items (w_denial s (if started s then ddel u (denial s) else denial s)) l
                  (fun x => strip1 u (progs s x))) (S n)) as [-> ->]. auto.
Qed.

Lemma cleanup_flag l : forall s n,
  stopped (fst (cleanup s l n)) = stopped s /\ tasks (fst (cleanup s l n)) = tasks s.
Proof.
  induction l as [|x l IH]; intros s n; cbn; [auto|].
  destruct (forallb _ _); [|auto].
  pose proof (clean_ids_flag (progs s x) s n) as H.
  destruct (clean_ids s (progs s x) n) as [s' [m|e]]; cbn in H; [|exact H].
  destruct (IH s' m) as [-> ->]. exact H.
Qed.

Lemma in_upd A (l : list A) t a r : In r (upd t a l) -> r = a \/ In r l.
Proof.
  revert t. induction l as [|b l IH]; intros [|t]; cbn; try tauto.
  - intros [H|H]; auto.
  - intros [H|H]; auto. destruct (IH t H); auto.
Qed.

Section Proofs.
Variable k : cfg.

Lemma top_not_start s n : starting (top s n) = false.
Proof. unfold top. now destruct (_ && _). Qed.

Lemma set_status_same s id x : stopped (set_status s id x) = stopped s /\ tasks (set_status s id x) = tasks s.
Proof. unfold set_status. now destruct (dget id (objs s)). Qed.

(** Only start() clears the flag, only stop() sets it. *)
Lemma pact_flag s a : no_start_running s -> a <> Spawn CStart -> a <> Stop ->
  stopped (pact k s a) = stopped s /\ no_start_running (pact k s a).
Proof.
  intros N A1 A2. unfold no_start_running in *.
  destruct a as [c|t|t b|t x|l|]; cbn [pact]; try congruence.
  - destruct c as [id e p|id p| |]; try congruence; cbn [spawn].
    + destruct (memb id (items s)); cbn;
        [split; [reflexivity|]; intros q H; apply in_app_or in H; destruct H as [H|[<-|[]]]; auto|].
      set (s2 := if dmem id (objs s) then _ else _).
      assert (stopped s2 = stopped s /\ tasks s2 = tasks s) as [S2 T2]
        by (unfold s2; destruct (dmem id (objs s)); auto).
      destruct (started s); [destruct (enq_check k s2 id p)|]; cbn; rewrite S2, T2;
        (split; [reflexivity|]; intros q H; apply in_app_or in H; destruct H as [H|[<-|[]]]; auto).
    + destruct (started s); [|auto]. destruct (enq_check k s id p); cbn;
        (split; [reflexivity|]; intros q H; apply in_app_or in H; destruct H as [H|[<-|[]]]; auto).
    + destruct (started s); cbn;
        (split; [reflexivity|]; intros q H; apply in_app_or in H; destruct H as [H|[<-|[]]]; auto).
      apply top_not_start.
  - unfold step. destruct (nth_error (tasks s) t) as [p|] eqn:E; [|auto].
    assert (starting p = false) as Np by (apply N; eapply nth_error_In; eauto).
    assert (forall s' q, stopped s' = stopped s -> tasks s' = tasks s -> starting q = false ->
              stopped (set_task s' t q) = stopped s /\
              forall r, In r (tasks (set_task s' t q)) -> starting r = false) as K.
    { intros s' q E1 E2 E3. split; [exact E1|]. cbn. rewrite E2. intros r H.
      apply in_upd in H. destruct H as [->|H]; auto. }
    destruct p as [z id|z id rest|n|n z id|n id|n id|n z id|n|par id|par id mine|par id|par id| |e l];
      try (discriminate Np); try (split; [reflexivity|exact N]).
    + apply K; reflexivity.
    + destruct (heappop qlt (queue s)) as [[[z id] h]|]; [|auto].
      destruct (memb id (items s)); apply K; try reflexivity. apply top_not_start.
    + cbn. split; [reflexivity|]. intros r H. apply in_app_or in H. destruct H as [H|[<-|[]]]; [|reflexivity].
      apply in_upd in H. destruct H as [->|H]; [apply top_not_start|auto].
    + apply K; reflexivity.
    + apply K; reflexivity.
    + destruct (existsb _ _); [auto|]. destruct (0 <? n); apply K; reflexivity.
    + destruct (sem s); [auto|]. destruct (_ && _); apply K; try reflexivity;
        now destruct (set_status_same (w_sem s n) id PROCESSING).
    + apply K; reflexivity.
  - unfold grant. destruct (nth_error (tasks s) t) as [p|] eqn:E; [|auto].
    destruct p; auto. destruct b; [|destruct (3 <=? _)]; cbn;
      (split; [reflexivity|]; intros r H; apply in_upd in H; destruct H as [->|H]; auto).
  - unfold finish_ev. destruct (nth_error (tasks s) t) as [p|] eqn:E; [|auto].
    destruct p as [| | | | | | | | |par id mine| | | |]; auto.
    assert (forall s', stopped s' = stopped s -> tasks s' = tasks s ->
              stopped (set_task s' t (KUpd par id)) = stopped s /\
              forall r, In r (tasks (set_task s' t (KUpd par id))) -> starting r = false) as K.
    { intros s' E1 E2. split; [exact E1|]. cbn. rewrite E2. intros r H.
      apply in_upd in H. destruct H as [->|H]; auto. }
    destruct (set_status_same s id x) as [E1 E2].
    destruct (streaming s id); [now apply K|]. destruct mine.
    + destruct x; auto.
    + destruct (existsb _ _); auto.
  - destruct (cleanup_flag l s 0) as [-> ->]. auto.
Qed.

Lemma stop_flag s : started s = true ->
  stopped (pact k s Stop) = true /\ tasks (pact k s Stop) = tasks s /\ denial (pact k s Stop) = [].
Proof. intros H. cbn. rewrite H. auto. Qed.

Lemma stop_keeps s : stopped s = true -> no_start_running s ->
  stopped (pact k s Stop) = true /\ no_start_running (pact k s Stop).
Proof. intros H N. cbn. destruct (started s); auto. Qed.

Lemma loop_len x i q : nth_error (x_loops x) i = Some q -> i < length (x_loops x).
Proof. intros H. apply nth_error_Some. congruence. Qed.

Lemma after_step x a : after_stop x -> starts a = false ->
  after_stop (xact1 k x a)
  /\ (forall i t, processing (xact1 k x a) i t -> processing x i t)
  /\ (forall i, a = XLoop i -> x_p (xact1 k x a) = x_p x).
Proof.
  intros (S & N & F) A. destruct a as [a| |i|i]; cbn [xact1]; try discriminate.
  - split; [|split; [auto|congruence]].
    destruct (match a with Stop => true | _ => false end) eqn:E.
    + destruct a; try discriminate. destruct (stop_keeps (x_p x) S N). split; auto.
    + destruct (pact_flag (x_p x) a N) as [S1 N1].
      * intros ->. discriminate.
      * intros ->. discriminate.
      * split; [cbn; congruence|]. split; auto.
  - unfold xstep. destruct (nth_error (x_loops x) i) as [q|] eqn:E.
    2:{ split; [split; auto|]. split; auto. }
    pose proof (loop_len _ _ _ E) as Hl.
    assert (forall q', q' <> XNew -> (forall t, q' <> XWait t) ->
       forall m, after_stop (XSt (x_p x) (xupd i q' (x_loops x)) m)
       /\ (forall j t, processing (XSt (x_p x) (xupd i q' (x_loops x)) m) j t -> processing x j t)) as K.
    { intros q' Q1 Q2 m. split.
      - split; [exact S|]. split; [exact N|]. intros H. apply in_xupd in H. destruct H; congruence.
      - intros j t H. unfold processing in *. cbn in H. destruct (Nat.eq_dec j i) as [->|Nj].
        + rewrite (nth_xupd_same _ _ _ _ E) in H. injection H as ->. destruct (Q2 t eq_refl).
        + now rewrite nth_xupd_other in H. }
    destruct q as [| |t| | |].
    + destruct F. eapply nth_error_In; eauto.
    + rewrite S. destruct (K XDone) with (m := false); try congruence. split; [assumption|]. split; auto.
    + destruct (nth_error (tasks (x_p x)) t) as [[]|]; try (split; [split; auto|]; split; now auto).
      destruct (K XSleep) with (m := x_mode x); try congruence. split; [assumption|]. split; auto.
    + destruct (K XCheck) with (m := x_mode x); try congruence. split; [assumption|]. split; auto.
    + split; [split; auto|]. split; auto.
    + split; [split; auto|]. split; auto.
  - destruct (nth_error (x_loops x) i) as [q|] eqn:E.
    2:{ split; [split; auto|]. split; [auto|congruence]. }
    pose proof (loop_len _ _ _ E) as Hl.
    destruct (live q).
    2:{ split; [split; auto|]. split; [auto|congruence]. }
    split; [|split; [|congruence]].
    + split; [exact S|]. split; [exact N|]. intros H. apply in_xupd in H. destruct H; [congruence|auto].
    + intros j t H. unfold processing in *. cbn in H. destruct (Nat.eq_dec j i) as [->|Nj].
      * rewrite (nth_xupd_same _ _ _ _ E) in H. discriminate.
      * now rewrite nth_xupd_other in H.
Qed.

(** After stop(), as long as nobody calls start() or execute() again: no loop
    begins another process(); is_stopped() stays true; and the steps of loops
    leave the events, the queue and everything else of the processor alone. *)
Theorem C110_no_new_work x l :
  after_stop x -> forallb (fun a => negb (starts a)) l = true ->
  after_stop (xexec k x l)
  /\ (forall i t, processing (xexec k x l) i t -> processing x i t)
  /\ (forall i, x_p (xact1 k (xexec k x l) (XLoop i)) = x_p (xexec k x l)).
Proof.
  revert x. induction l as [|a l IH]; intros x A F.
  - split; [exact A|]. split; [auto|]. intros i.
    exact (proj2 (proj2 (after_step x (XLoop i) A eq_refl)) i eq_refl).
  - cbn in F. apply andb_true_iff in F. destruct F as [F1 F2]. apply negb_true_iff in F1.
    destruct (after_step x a A F1) as (A1 & P1 & _).
    destruct (IH _ A1 F2) as (A2 & P2 & Q2). split; [exact A2|]. split; [|exact Q2].
    intros i t H. apply P1, P2, H.
Qed.

(** A loop whose process() has returned, or that sleeps or is at its check,
    then returns within three of its steps, and execution_mode is off. *)
Theorem C110_returns x i :
  after_stop x ->
  (nth_error (x_loops x) i = Some XCheck \/ nth_error (x_loops x) i = Some XSleep
   \/ exists t, processing x i t /\ nth_error (tasks (x_p x)) t = Some ADone) ->
  exists n, n <= 3 /\
    let x' := xexec k x (repeat (XLoop i) n) in
    nth_error (x_loops x') i = Some XDone /\ x_mode x' = false.
Proof.
  intros A. pose proof A as (S & N & F).
  assert (forall x, stopped (x_p x) = true -> nth_error (x_loops x) i = Some XCheck ->
            nth_error (x_loops (xstep x i)) i = Some XDone /\ x_mode (xstep x i) = false) as C.
  { intros y Sy H. unfold xstep. rewrite H, Sy. cbn. split; [|reflexivity].
    exact (nth_xupd_same _ _ _ _ H). }
  assert (forall x, stopped (x_p x) = true -> nth_error (x_loops x) i = Some XSleep ->
            nth_error (x_loops (xstep x i)) i = Some XCheck /\ x_p (xstep x i) = x_p x) as L.
  { intros y Sy H. unfold xstep. rewrite H. cbn. split; [|reflexivity].
    exact (nth_xupd_same _ _ _ _ H). }
  intros [H|[H|(t & P & D)]].
  - exists 1. split; [lia|]. cbn. now apply C.
  - exists 2. split; [lia|]. cbn. destruct (L x S H) as [L1 L2]. apply C; [now rewrite L2|exact L1].
  - exists 3. split; [lia|]. cbn.
    assert (nth_error (x_loops (xstep x i)) i = Some XSleep /\ x_p (xstep x i) = x_p x) as [W1 W2].
    { unfold processing in P. unfold xstep. rewrite P, D. cbn. split; [|reflexivity].
      exact (nth_xupd_same _ _ _ _ P). }
    destruct (L (xstep x i)) as [L1 L2]; [now rewrite W2|exact W1|].
    apply C; [now rewrite L2, W2|exact L1].
Qed.

(** Without stop() no execute() returns. *)
Lemma spawn_start_flag s : stopped s = false -> stopped (spawn k s CStart) = false.
Proof.
  intros H. cbn. destruct (started s); cbn; [reflexivity|].
  destruct (forallb _ _); [|exact H]. destruct (progs s PENDING) as [|u r]; cbn; [reflexivity|].
  destruct (enq_check k (w_started s) u PNone); exact H.
Qed.

Lemma pact_flag_false s a : stopped s = false -> a <> Stop -> stopped (pact k s a) = false.
Proof.
  intros H A. destruct a as [c|t|t b|t x|l|]; try congruence; cbn [pact].
  - destruct c as [id e p|id p| |]; [| |now apply spawn_start_flag|]; cbn [spawn].
    + destruct (memb id (items s)); [exact H|].
      destruct (dmem id (objs s)); destruct (started s); try exact H;
        match goal with |- context [enq_check k ?s2 id p] => destruct (enq_check k s2 id p) end; exact H.
    + destruct (started s); [|exact H]. destruct (enq_check k s id p); exact H.
    + destruct (started s); exact H.
  - unfold step. destruct (nth_error (tasks s) t) as [p|] eqn:E; [|exact H].
    destruct p as [z id|z id rest|n|n z id|n id|n id|n z id|n|par id|par id mine|par id|par id| |e l];
      try exact H.
    + destruct rest as [|u r]; cbn; [reflexivity|].
      destruct (enq_check k (push s z id) u PNone); exact H.
    + destruct (heappop qlt (queue s)) as [[[z id] h]|]; [|exact H].
      destruct (memb id (items s)); exact H.
    + destruct (existsb _ _); [exact H|]. destruct (0 <? n); exact H.
    + destruct (sem s); [exact H|]. destruct (_ && _); cbn; [|exact H].
      now rewrite (proj1 (set_status_same (w_sem s n) id PROCESSING)).
  - unfold grant. destruct (nth_error (tasks s) t) as [p|] eqn:E; [|exact H].
    destruct p; try exact H. destruct b; [exact H|]. destruct (3 <=? _); exact H.
  - unfold finish_ev. destruct (nth_error (tasks s) t) as [p|] eqn:E; [|exact H].
    destruct p as [| | | | | | | | |par id mine| | | |]; try exact H.
    destruct (set_status_same s id x) as [E1 _].
    destruct (streaming s id); [cbn; congruence|]. destruct mine.
    + destruct x; cbn; congruence.
    + destruct (existsb _ _); exact H.
  - destruct (cleanup_flag l s 0) as [-> _]. exact H.
Qed.

Theorem C110_runs_on x l i :
  stopped (x_p x) = false -> forallb (fun a => negb (stops a)) l = true ->
  nth_error (x_loops (xexec k x l)) i = Some XDone -> nth_error (x_loops x) i = Some XDone.
Proof.
  revert x. induction l as [|a l IH]; intros x S F; [auto|].
  cbn in F. apply andb_true_iff in F. destruct F as [F1 F2]. apply negb_true_iff in F1.
  assert (stopped (x_p (xact1 k x a)) = false
          /\ (nth_error (x_loops (xact1 k x a)) i = Some XDone -> nth_error (x_loops x) i = Some XDone))
    as [S1 B].
  { destruct a as [a| |j|j]; cbn [xact1].
    - split; [|auto]. apply pact_flag_false; [exact S|]. intros ->. discriminate.
    - destruct (started (x_p x)); [|auto]. split; [exact S|]. cbn. intros H.
      destruct (Nat.lt_ge_cases i (length (x_loops x))) as [L|L].
      + now rewrite nth_error_app1 in H.
      + rewrite nth_error_app2 in H by exact L. destruct (i - _) as [|[|n]]; discriminate.
    - unfold xstep. destruct (nth_error (x_loops x) j) as [q|] eqn:E; [|auto].
      pose proof (loop_len _ _ _ E) as Hl.
      assert (forall q', q' <> XDone ->
                nth_error (xupd j q' (x_loops x)) i = Some XDone -> nth_error (x_loops x) i = Some XDone) as K.
      { intros q' Q H. destruct (Nat.eq_dec i j) as [->|Nj].
        - rewrite (nth_xupd_same _ _ _ _ E) in H. congruence.
        - now rewrite nth_xupd_other in H. }
      destruct q as [| |t| | |]; auto.
      + split; [reflexivity|]. apply K. discriminate.
      + rewrite S. split; [exact S|]. apply K. discriminate.
      + destruct (nth_error (tasks (x_p x)) t) as [[]|]; auto. split; [exact S|]. apply K. discriminate.
      + split; [exact S|]. apply K. discriminate.
    - destruct (nth_error (x_loops x) j) as [q|] eqn:E; [|auto].
      pose proof (loop_len _ _ _ E) as Hl. destruct (live q); [|auto]. split; [exact S|].
      cbn. intros H. destruct (Nat.eq_dec i j) as [->|Nj].
      + rewrite (nth_xupd_same _ _ _ _ E) in H. discriminate.
      + now rewrite nth_xupd_other in H. }
  intros H. apply B, (IH _ S1 F2 H).
Qed.

(** Nothing but stop() makes is_stopped() true. *)
Theorem C110_not_stopped l :
  forallb (fun a => negb (stops a)) l = true ->
  stopped (x_p (xexec k (XSt (pst0 k) [] false) l)) = false.
Proof.
  assert (forall x, stopped (x_p x) = false -> forallb (fun a => negb (stops a)) l = true ->
            stopped (x_p (xexec k x l)) = false) as H; [|now apply H].
  induction l as [|a l' IH]; intros x S F; [exact S|].
  cbn in F. apply andb_true_iff in F. destruct F as [F1 F2]. apply negb_true_iff in F1.
  cbn. apply IH; [|exact F2]. destruct a as [a| |j|j]; cbn [xact1].
  - cbn. apply pact_flag_false; [exact S|]. intros ->. discriminate.
  - destruct (started (x_p x)); exact S.
  - unfold xstep. destruct (nth_error (x_loops x) j) as [[| |t| | |]|]; try exact S.
    + reflexivity.
    + rewrite S. exact S.
    + destruct (nth_error (tasks (x_p x)) t) as [[]|]; exact S.
  - destruct (nth_error (x_loops x) j) as [q|]; [|exact S]. destruct (live q); exact S.
Qed.

(** is_stopped(): stop() on a processor sets it, start() and the start of
    execute() clear it, nothing else changes it. *)
Theorem C110_flag x :
  (forall a, no_start_running (x_p x) -> starts (XP a) = false -> stops (XP a) = false ->
     stopped (x_p (xact1 k x (XP a))) = stopped (x_p x))
  /\ (started (x_p x) = true -> stopped (x_p (xact1 k x (XP Stop))) = true
        /\ stopped (x_p (xact1 k x (XP (Spawn CStart)))) = false)
  /\ (forall i, nth_error (x_loops x) i = Some XNew ->
        stopped (x_p (xact1 k x (XLoop i))) = false /\ x_mode (xact1 k x (XLoop i)) = true)
  /\ (forall i, nth_error (x_loops x) i <> Some XNew ->
        stopped (x_p (xact1 k x (XLoop i))) = stopped (x_p x)).
Proof.
  split; [|split; [|split]].
  - intros a N A1 A2. cbn. apply pact_flag; [exact N| |]; intros ->; discriminate.
  - intros H. cbn. rewrite H. auto.
  - intros i H. cbn. unfold xstep. rewrite H. auto.
  - intros i H. cbn. unfold xstep. destruct (nth_error (x_loops x) i) as [[| |t| | |]|]; try reflexivity.
    + congruence.
    + destruct (stopped (x_p x)) eqn:E; cbn; exact E.
    + destruct (nth_error (tasks (x_p x)) t) as [[]|]; reflexivity.
Qed.

(** An execute() that has not returned can be cancelled at any moment; it then does nothing
    more, and neither flag changes.  One that has returned is not affected. *)
Theorem C110_cancelled x i q : nth_error (x_loops x) i = Some q ->
  let x' := xact1 k x (XCancel i) in
  (q = XDone \/ q = XGone -> x' = x)
  /\ (q <> XDone -> nth_error (x_loops x') i = Some XGone /\ xact1 k x' (XLoop i) = x')
  /\ x_p x' = x_p x /\ x_mode x' = x_mode x
  /\ forall j, j <> i -> nth_error (x_loops x') j = nth_error (x_loops x) j.
Proof.
  intros H x'. assert (L : i < length (x_loops x)) by (apply nth_error_Some; congruence).
  subst x'. cbn [xact1]. rewrite H. split; [|split; [|split; [|split]]].
  - intros [-> | ->]; reflexivity.
  - intros N. assert (G : nth_error (x_loops (if live q then XSt (x_p x) (xupd i XGone (x_loops x)) (x_mode x) else x)) i = Some XGone).
    { destruct q; cbn [live x_loops]; try (eapply nth_xupd_same; exact H); [congruence|exact H]. }
    split; [exact G|]. unfold xstep. rewrite G. reflexivity.
  - destruct (live q); reflexivity.
  - destruct (live q); reflexivity.
  - intros j J. destruct (live q); [apply nth_xupd_other; assumption|reflexivity].
Qed.

(** With a single execute() that is not cancelled, execution_mode is on
    exactly from its start until it returns. *)
Definition one_loop (x : xst) : Prop :=
  match x_loops x with
  | [] | [XNew] | [XDone] => x_mode x = false
  | [XCheck] | [XWait _] | [XSleep] => x_mode x = true
  | _ => False
  end.

Theorem C110_mode x l :
  one_loop x -> x_loops x <> [] ->
  forallb (fun a => match a with XP _ | XLoop _ => true | _ => false end) l = true ->
  one_loop (xexec k x l).
Proof.
  revert x. induction l as [|a l IH]; intros x O NE F; [exact O|].
  cbn in F. apply andb_true_iff in F. destruct F as [F1 F2].
  assert (one_loop (xact1 k x a) /\ x_loops (xact1 k x a) <> []) as [O1 NE1]; [|exact (IH _ O1 NE1 F2)].
  destruct a as [a| |i|i]; cbn [xact1]; try discriminate; [split; [exact O|exact NE]|].
  unfold one_loop in O. destruct x as [p [|q [|q2 r]] m]; cbn in *; [congruence| |destruct q; contradiction].
  unfold xstep. cbn [x_loops x_p x_mode]. destruct i as [|i]; cbn [nth_error].
  2:{ replace (nth_error (@nil xpc) i) with (@None xpc) by now destruct i. split; [exact O|discriminate]. }
  destruct q as [| |t| | |]; cbn; try (split; [exact O|congruence]).
  - split; [reflexivity|congruence].
  - destruct (stopped p); cbn; (split; [|congruence]); [reflexivity|exact O].
  - destruct (nth_error (tasks p) t) as [[]|]; cbn; (split; [exact O|congruence]).
Qed.

End Proofs.
Print Assumptions C110_no_new_work.
Print Assumptions C110_returns.
Print Assumptions C110_runs_on.
Print Assumptions C110_not_stopped.
Print Assumptions C110_flag.
Print Assumptions C110_cancelled.
Print Assumptions C110_mode.

(** *** Examples and refutations *)

Definition k1 := Cfg 2 2 10 10.
Definition x0 : xst := XSt (w_started (pst0 k1)) [] false.

(** One event runs; then stop(): the loop returns. *)
Definition busy : list xact :=
  [XP (Spawn (CAppend 1 (Ev 5 false PENDING) PNone)); XP (Step 0); XExecute; XLoop 0; XLoop 0;
   XP (Step 1); XP (Grant 1 true); XP (Step 1); XP (Step 2); XP Stop; XP (Finish 2 COMPLETED); XP (Step 2); XP (Step 1)].

Example C110_ex_stop :
  let x := xexec k1 x0 busy in
  x_loops x = [XWait 1] /\ nth_error (tasks (x_p x)) 1 = Some ADone /\ after_stop x
  /\ x_loops (xexec k1 x (repeat (XLoop 0) 3)) = [XDone]
  /\ x_mode (xexec k1 x (repeat (XLoop 0) 3)) = false
  /\ progs (x_p x) COMPLETED = [1].
Proof.
  vm_compute. split; [reflexivity|]. split; [reflexivity|]. split; [|repeat split].
  split; [reflexivity|]. split.
  - intros p [<-|[<-|[<-|[]]]]; reflexivity.
  - intros [H|[]]; discriminate.
Qed.

(** A stop() before execute() is forgotten: execute() begins to process. *)
Theorem C110_stop_first_refuted :
  ~ (forall k x l i t, stopped (x_p x) = true -> no_start_running (x_p x) -> x_loops x = [] ->
       forallb (fun a => match a with XP (Spawn CStart) => false | _ => true end) l = true ->
       ~ processing (xexec k x l) i t).
Proof.
  intros H.
  apply (H k1 (xact1 k1 x0 (XP Stop)) [XExecute; XLoop 0; XLoop 0] 0 0); try reflexivity.
  intros p [].
Qed.
Print Assumptions C110_stop_first_refuted.

(** A loop need not notice stop(): start() before its next check hides it. *)
Theorem C110_noticed_refuted :
  ~ (forall k x l i t, nth_error (x_loops x) i = Some XSleep -> started (x_p x) = true ->
       forallb (fun a => match a with XP _ | XLoop _ => true | _ => false end) l = true ->
       ~ processing (xexec k x (XP Stop :: l)) i t).
Proof.
  intros H.
  apply (H k1 (xexec k1 x0 [XExecute; XLoop 0; XLoop 0; XP (Step 0); XLoop 0])
           [XP (Spawn CStart); XLoop 0; XLoop 0] 0 2); reflexivity.
Qed.
Print Assumptions C110_noticed_refuted.

(** execution_mode can stay on after execute() was cancelled, and be off while
    a second execute() still runs. *)
Theorem C110_mode_refuted :
  ~ (forall k l, let x := xexec k x0 l in
       forallb (fun q => negb (live q)) (x_loops x) = true -> x_mode x = false)
  /\ ~ (forall k l t, let x := xexec k x0 l in processing x 1 t -> x_mode x = true).
Proof.
  split; intros H.
  - specialize (H k1 [XExecute; XLoop 0; XCancel 0] eq_refl). discriminate.
  - specialize (H k1 [XExecute; XExecute; XLoop 0; XLoop 1; XLoop 1; XP Stop; XLoop 0] 0 eq_refl).
    discriminate.
Qed.
Print Assumptions C110_mode_refuted.

Example C110_ex_mode :
  one_loop (xexec k1 (xact1 k1 x0 XExecute) [XLoop 0; XLoop 0; XP (Step 0); XLoop 0])
  /\ x_loops (xexec k1 (xact1 k1 x0 XExecute) [XLoop 0; XLoop 0; XP (Step 0); XLoop 0]) = [XSleep].
Proof. split; reflexivity. Qed.
