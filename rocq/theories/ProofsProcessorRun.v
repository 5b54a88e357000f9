(** Queue bound, semaphore, capacity, denial counts and what happens to pending events. *)
From Coq Require Import List Bool Arith ZArith Lia Permutation ZifyBool.
From Verif Require Import PyBase PyFacts ModelHeap SpecHeap ProofsHeap ModelEvent ModelProcessor SpecProcessor
  ProofsPQueue ProofsPQueueWake ProofsEvent ProofsProcessor.
Import ListNotations.
#[local] Arguments eqb : simpl never.

Definition b2n (b : bool) : nat := if b then 1 else 0.

Lemma filter_upd : forall A (f : A -> bool) l t a b, nth_error l t = Some a ->
  length (filter f (upd t b l)) + b2n (f a) = length (filter f l) + b2n (f b).
Proof.
  intros A f. induction l as [|x l IH]; intros [|t] a b H; simpl in *; try discriminate.
  - injection H as ->. destruct (f a), (f b); simpl; lia.
  - pose proof (IH t a b H). destruct (f x); simpl; lia.
Qed.

Lemma always_app : forall k P l1 l2 s, always k P s (l1 ++ l2) ->
  always k P s l1 /\ always k P (pexec k s l1) l2.
Proof.
  intros k P. induction l1 as [|a l1 IH]; intros l2 s H; simpl in *.
  - destruct l2; simpl in *; tauto.
  - destruct H as [H1 H2]. destruct (IH l2 _ H2) as [A B]. auto.
Qed.

(** Induction over runs with a side condition on all states. *)
Lemma always_inv : forall k (ok : action -> Prop) (P I : pst -> Prop),
  (forall s a, ok a -> I s -> P s -> P (pact k s a) -> I (pact k s a)) ->
  forall l s, Forall ok l -> I s -> always k P s l -> I (pexec k s l).
Proof.
  intros k ok P I Hs. induction l as [|a l IH]; intros s Hf Hi Ha; simpl in *; [exact Hi|].
  inversion Hf; subst. destruct Ha as [Ha1 Ha2]. apply IH; auto.
  apply Hs; auto. destruct l; simpl in Ha2; tauto.
Qed.

Lemma reach_inv : forall k (ok : action -> Prop) (I : pst -> Prop), I (pst0 k) ->
  (forall s a, ok a -> I s -> I (pact k s a)) -> forall s, reach k ok s -> I s.
Proof.
  intros k ok I H0 Hs s (l & Hl & ->). unfold pexec. revert Hl H0. generalize (pst0 k).
  induction l as [|a l IH]; intros s0 Hl H0; simpl; [exact H0|]. inversion Hl; subst. apply IH; auto.
Qed.

Section Run.
  Variable k : cfg.

  (** *** C29: the queue *)
  Lemma back_queue : forall s ids s' q, back k s ids = (s', q) ->
    queue s' = queue s /\ tasks s' = tasks s /\ (inflight q = true -> length (queue s) < k_maxq k).
  Proof.
    intros s [|id rest] s' q H; simpl in H.
    - injection H as <- <-. simpl. repeat split. discriminate.
    - unfold enq_check in H. destruct (Nat.leb_spec (k_maxq k) (length (queue s))).
      + injection H as <- <-. simpl. repeat split. discriminate.
      + destruct (memb id (items s)); [destruct (dget id (objs s))|]; injection H as <- <-; simpl; auto; repeat split; discriminate.
  Qed.
  Lemma enq_check_lt : forall s id p z, enq_check k s id p = Ret z -> length (queue s) < k_maxq k.
  Proof.
    intros s id p z H. unfold enq_check in H. destruct (Nat.leb_spec (k_maxq k) (length (queue s))); [discriminate | assumption].
  Qed.

  Lemma clean_ids_fields : forall ids s n, let s' := fst (clean_ids s ids n) in
    queue s' = queue s /\ tasks s' = tasks s /\ sem s' = sem s /\ avail s' = avail s /\ objs s' = objs s /\ started s' = started s.
  Proof.
    induction ids as [|id t IH]; intros s n; simpl; [repeat split|].
    destruct (remove_first id (items s)) as [l|]; [|simpl; repeat split].
    destruct (IH (w_items (w_denial s (if started s then ddel id (denial s) else denial s)) l (fun x => strip1 id (progs s x))) (S n))
      as (A & B & C & D & E & F). repeat split; assumption.
  Qed.
  Lemma cleanup_fields : forall l s n, let s' := fst (cleanup s l n) in
    queue s' = queue s /\ tasks s' = tasks s /\ sem s' = sem s /\ avail s' = avail s /\ objs s' = objs s /\ started s' = started s.
  Proof.
    induction l as [|x t IH]; intros s n; simpl; [repeat split|].
    destruct (forallb _ _); [|repeat split].
    pose proof (clean_ids_fields (progs s x) s n) as H. destruct (clean_ids s (progs s x) n) as [s' [m|e]]; simpl in *; [|exact H].
    destruct H as (A & B & C & D & E & F). destruct (IH s' m) as (A' & B' & C' & D' & E' & F').
    repeat split; congruence.
  Qed.

  Lemma push_length : forall s p id, heap qlt (queue s) -> length (queue (push s p id)) = S (length (queue s)).
  Proof. intros s p id H. unfold push. simpl. apply (heappush_length qlt qlt_weak). exact H. Qed.

  Lemma queue_step : forall s a, let s' := pact k s a in
    queue s' = queue s \/ (exists p id, queue s' = heappush qlt (queue s) (p, id)) \/
    (exists x h, heappop qlt (queue s) = Some (x, h) /\ queue s' = h).
  Proof.
    intros s [c|t|t b|t x|l|]; simpl.
    - left. unfold spawn. destruct c as [id e p|id p| |].
      + destruct (memb id (items s)); [reflexivity|].
        set (s2 := if dmem id (objs s) then _ else _).
        assert (Q : queue s2 = queue s) by (unfold s2; destruct (dmem id (objs s)); auto).
        destruct (started s); [destruct (enq_check k s2 id p)|]; exact Q.
      + destruct (started s); [destruct (enq_check k s id p)|]; reflexivity.
      + destruct (started s); [reflexivity|]. destruct (forallb _ _); [|reflexivity].
        destruct (back k (w_started s) (progs s PENDING)) as [s2 q] eqn:Eb. apply (back_queue _ _ _ _ Eb).
      + destruct (started s); reflexivity.
    - unfold step. destruct (nth_error (tasks s) t) as [p|] eqn:Ht; [|left; reflexivity].
      destruct p as [p id|p id rest|n|n p id|n id|n id|n p id|n|par id|par id mine|par id|par id| |e l]; try (left; reflexivity).
      + right; left. exists p, id. reflexivity.
      + right; left. exists p, id. destruct (back k (push s p id) rest) as [s1 q] eqn:Eb. apply (back_queue _ _ _ _ Eb).
      + destruct (heappop qlt (queue s)) as [[[p id] h]|] eqn:E; [|left; reflexivity].
        right; right. exists (p, id), h. split; [reflexivity|]. destruct (memb id (items s)); reflexivity.
      + right; left. exists p, id. reflexivity.
      + left. destruct (existsb _ _); [reflexivity|]. destruct (0 <? n); reflexivity.
      + left. destruct (sem s); [reflexivity|]. destruct (_ && _); [|reflexivity].
        simpl. destruct (set_status_fields (w_sem s n) id PROCESSING) as (_ & _ & A & _). exact A.
    - left. unfold grant. destruct (nth_error (tasks s) t) as [p|] eqn:Ht; [|reflexivity].
      destruct p; try reflexivity. destruct b; [|destruct (3 <=? _)]; reflexivity.
    - left. unfold finish_ev. destruct (nth_error (tasks s) t) as [p|] eqn:Ht; [|reflexivity].
      destruct p as [p id|p id rest|n|n p id|n id|n id|n p id|n|par id|par id mine|par id|par id| |e l]; try reflexivity.
      destruct (set_status_fields s id x) as (_ & _ & A & _).
      destruct (streaming s id); [|destruct mine; [destruct x | destruct (existsb _ _)]]; exact A || reflexivity.
    - left. apply cleanup_fields.
    - left. destruct (started s); reflexivity.
  Qed.

  Lemma heap_step : forall s a, heap qlt (queue s) -> heap qlt (queue (pact k s a)).
  Proof.
    intros s a H. destruct (queue_step s a) as [-> | [(p & id & ->)|(x & h & E & ->)]]; [exact H | |].
    - apply (heap_push qlt qlt_weak). exact H.
    - pose proof (heap_pop qlt qlt_weak _ H) as P. rewrite E in P. apply P.
  Qed.

  Lemma heap_any : forall s, reach k anything s -> heap qlt (queue s).
  Proof. apply reach_inv; [apply heap_nil|]. intros s a _. apply heap_step. Qed.

  Lemma inflight_top : forall s n, inflight (top s n) = false.
  Proof. intros s n. unfold top. destruct (_ && _); reflexivity. Qed.

  (** Either nothing is added to queue and flight together, or the queue has room. *)
  Lemma load_step : forall s a, heap qlt (queue s) ->
    length (queue (pact k s a)) + countp inflight (pact k s a) <= length (queue s) + countp inflight s \/
    length (queue (pact k s a)) < k_maxq k.
  Proof.
    assert (N : forall s p, inflight p = false -> countp inflight (new_task s p) = countp inflight s).
    { intros s p H. unfold countp, new_task. simpl. rewrite filter_app, app_length. simpl. rewrite H. simpl. lia. }
    assert (SS : forall s u x, queue (set_status s u x) = queue s /\ tasks (set_status s u x) = tasks s).
    { intros s u x. destruct (set_status_fields s u x) as (_ & _ & A & _ & B & _). auto. }
    intros s [c|t|t b|t x|l|] Hh; unfold pact.
    - (* spawn *) unfold spawn. destruct c as [id e p|id p| |].
      + destruct (memb id (items s)); [left; rewrite N by reflexivity; simpl; lia|].
        set (s2 := if dmem id (objs s) then _ else _).
        assert (Q : queue s2 = queue s /\ tasks s2 = tasks s) by (unfold s2; destruct (dmem id (objs s)); auto).
        destruct Q as [Q1 Q2].
        assert (C : countp inflight s2 = countp inflight s) by (unfold countp; rewrite Q2; reflexivity).
        destruct (started s); [destruct (enq_check k s2 id p) as [z|x] eqn:Ec|].
        * right. simpl. apply enq_check_lt in Ec. exact Ec.
        * left. rewrite N by reflexivity. simpl. rewrite Q1. lia.
        * left. rewrite N by reflexivity. simpl. rewrite Q1. lia.
      + destruct (started s); [destruct (enq_check k s id p) as [z|x] eqn:Ec|left; lia].
        * right. simpl. apply enq_check_lt in Ec. exact Ec.
        * left. rewrite N by reflexivity. simpl. lia.
      + destruct (started s); [left; rewrite N by reflexivity; unfold countp; simpl; lia|].
        destruct (forallb _ _); [|left; rewrite N by reflexivity; unfold countp; simpl; lia].
        destruct (back k (w_started s) (progs s PENDING)) as [s2 q] eqn:Eb.
        destruct (back_queue _ _ _ _ Eb) as (A & B & C). destruct (inflight q) eqn:Ei.
        * right. simpl. rewrite A. simpl. apply C. reflexivity.
        * left. rewrite N by exact Ei. unfold countp. simpl. rewrite A, B. simpl. lia.
      + destruct (started s); left; rewrite N by (apply inflight_top || reflexivity); simpl; lia.
    - (* step *) unfold step. destruct (nth_error (tasks s) t) as [p|] eqn:Ht; [|left; lia].
      assert (U : forall s' p', tasks s' = tasks s -> countp inflight (set_task s' t p') + b2n (inflight p) = countp inflight s + b2n (inflight p')).
      { intros s' p' E. unfold countp, set_task. simpl. rewrite E. apply filter_upd. exact Ht. }
      destruct p as [p id|p id rest|n|n p id|n id|n id|n p id|n|par id|par id mine|par id|par id| |e l]; try (left; lia).
      + left. pose proof (U (push s p id) ADone eq_refl) as H. simpl in H. pose proof (push_length s p id Hh). simpl in *. lia.
      + destruct (back k (push s p id) rest) as [s1 q] eqn:Eb. destruct (back_queue _ _ _ _ Eb) as (A & B & C).
        destruct (inflight q) eqn:Ei.
        * right. simpl. rewrite A. apply C. reflexivity.
        * left. pose proof (U s1 q B) as H. rewrite Ei in H. simpl in H. pose proof (push_length s p id Hh).
          simpl in *. rewrite A. simpl. lia.
      + destruct (heappop qlt (queue s)) as [[[p id] h]|] eqn:Ep; [|left; lia]. apply (heappop_length qlt qlt_weak _ _ _ Hh) in Ep.
        destruct (memb id (items s)).
        * left. pose proof (U (w_queue s h) (LPerm n p id) eq_refl) as H. simpl in *. lia.
        * left. match goal with |- context [set_task ?s1 t ?q] => pose proof (U s1 q eq_refl) as H end.
          rewrite inflight_top in H. simpl in *. lia.
      + left. rewrite N by reflexivity. match goal with |- context [set_task ?s1 t ?q] => pose proof (U s1 q eq_refl) as H end.
        rewrite inflight_top in H. simpl in *. lia.
      + left. match goal with |- context [set_task ?s1 t ?q] => pose proof (U s1 q eq_refl) as H end. simpl in *. lia.
      + left. pose proof (U (push s p id) (LJoin n) eq_refl) as H. simpl in H. pose proof (push_length s p id Hh). simpl in *. lia.
      + destruct (existsb _ _); [left; lia|]. left. destruct (0 <? n).
        * match goal with |- context [set_task ?s1 t ?q] => pose proof (U s1 q eq_refl) as H end. simpl in *. lia.
        * match goal with |- context [set_task ?s1 t ?q] => pose proof (U s1 q eq_refl) as H end. simpl in *. lia.
      + destruct (sem s); [left; lia|]. left. destruct (_ && _).
        * destruct (SS (w_sem s n) id PROCESSING) as [A B]. simpl in A, B.
          pose proof (U (set_status (w_sem s n) id PROCESSING) (KRun par id true) B) as H. simpl in *. rewrite A. lia.
        * match goal with |- context [set_task ?s1 t ?q] => pose proof (U s1 q eq_refl) as H end. simpl in *. lia.
      + left. match goal with |- context [set_task ?s1 t ?q] => pose proof (U s1 q eq_refl) as H end. simpl in *. lia.
    - (* grant *) unfold grant. destruct (nth_error (tasks s) t) as [p|] eqn:Ht; [|left; lia].
      assert (U : forall s' p', tasks s' = tasks s -> countp inflight (set_task s' t p') + b2n (inflight p) = countp inflight s + b2n (inflight p')).
      { intros s' p' E. unfold countp, set_task. simpl. rewrite E. apply filter_upd. exact Ht. }
      destruct p as [p id|p id rest|n|n p id|n id|n id|n p id|n|par id|par id mine|par id|par id| |e l]; try (left; lia).
      left. destruct b; [|destruct (3 <=? _)];
        match goal with |- context [set_task ?s1 t ?q] => pose proof (U s1 q eq_refl) as H end; simpl in *; lia.
    - (* finish *) unfold finish_ev. destruct (nth_error (tasks s) t) as [p|] eqn:Ht; [|left; lia].
      assert (U : forall s' p', tasks s' = tasks s -> countp inflight (set_task s' t p') + b2n (inflight p) = countp inflight s + b2n (inflight p')).
      { intros s' p' E. unfold countp, set_task. simpl. rewrite E. apply filter_upd. exact Ht. }
      destruct p as [p id|p id rest|n|n p id|n id|n id|n p id|n|par id|par id mine|par id|par id| |e l]; try (left; lia).
      left. destruct (SS s id x) as [A B]. pose proof (U (set_status s id x) (KUpd par id) B) as H.
      pose proof (U s (KUpd par id) eq_refl) as H'.
      destruct (streaming s id); [|destruct mine; [destruct x | destruct (existsb _ _)]]; simpl in *; rewrite ?A; lia.
    - left. destruct (cleanup_fields l s 0) as (A & B & _). unfold countp. rewrite A, B. lia.
    - left. destruct (started s); unfold countp; simpl; lia.
  Qed.

  Lemma load_bound : forall w l, always k (fun s => countp inflight s <= w) (pst0 k) l ->
    length (queue (pexec k (pst0 k) l)) + countp inflight (pexec k (pst0 k) l) <= pred (k_maxq k) + w.
  Proof.
    intros w l Ha.
    apply (always_inv k anything (fun s => countp inflight s <= w)
             (fun s => heap qlt (queue s) /\ length (queue s) + countp inflight s <= pred (k_maxq k) + w)); auto.
    - intros s a _ [HH HI] HP HP'. split; [apply heap_step, HH|]. destruct (load_step s a HH) as [H|H]; lia.
    - apply Forall_forall. intros a _. exact Logic.I.
    - split; [apply heap_nil | unfold countp; simpl; lia].
  Qed.

  (** *** Semaphore *)
  Lemma sem_step : forall s a, sem s + countp holds s = k_conc k -> sem (pact k s a) + countp holds (pact k s a) = k_conc k.
  Proof.
    assert (N : forall s p, holds p = false -> countp holds (new_task s p) = countp holds s).
    { intros s p H. unfold countp, new_task. simpl. rewrite filter_app, app_length. simpl. rewrite H. simpl. lia. }
    assert (T : forall s n, holds (top s n) = false) by (intros s n; unfold top; destruct (_ && _); reflexivity).
    assert (SS : forall s u x, sem (set_status s u x) = sem s /\ tasks (set_status s u x) = tasks s).
    { intros s u x. destruct (set_status_fields s u x) as (_ & _ & _ & _ & B & _ & _ & A). auto. }
    assert (BK : forall s ids s' q, back k s ids = (s', q) -> sem s' = sem s /\ tasks s' = tasks s /\ holds q = false).
    { intros s [|u r] s' q H; simpl in H; [injection H as <- <-; auto|].
      destruct (enq_check k s u PNone); injection H as <- <-; auto. }
    intros s [c|t|t b|t x|l|] HI; unfold pact.
    - unfold spawn. destruct c as [id e p|id p| |].
      + destruct (memb id (items s)); [rewrite N by reflexivity; exact HI|].
        set (s2 := if dmem id (objs s) then _ else _).
        assert (Q : sem s2 = sem s /\ tasks s2 = tasks s) by (unfold s2; destruct (dmem id (objs s)); auto).
        destruct Q as [Q1 Q2].
        assert (C : countp holds s2 = countp holds s) by (unfold countp; rewrite Q2; reflexivity).
        destruct (started s); [destruct (enq_check k s2 id p)|]; rewrite N by reflexivity; simpl; lia.
      + destruct (started s); [destruct (enq_check k s id p); rewrite N by reflexivity|]; exact HI.
      + destruct (started s); [rewrite N by reflexivity; exact HI|].
        destruct (forallb _ _); [|rewrite N by reflexivity; exact HI].
        destruct (back k (w_started s) (progs s PENDING)) as [s2 q] eqn:Eb. destruct (BK _ _ _ _ Eb) as (A & B & C).
        rewrite N by exact C. simpl. unfold countp. rewrite A, B. exact HI.
      + destruct (started s); rewrite N by (apply T || reflexivity); exact HI.
    - unfold step. destruct (nth_error (tasks s) t) as [p|] eqn:Ht; [|exact HI].
      assert (U : forall s' p', tasks s' = tasks s -> countp holds (set_task s' t p') + b2n (holds p) = countp holds s + b2n (holds p')).
      { intros s' p' E. unfold countp, set_task. simpl. rewrite E. apply filter_upd. exact Ht. }
      destruct p as [p id|p id rest|n|n p id|n id|n id|n p id|n|par id|par id mine|par id|par id| |e l]; try exact HI.
      + pose proof (U (push s p id) ADone eq_refl) as H. simpl in *. lia.
      + destruct (back k (push s p id) rest) as [s1 q] eqn:Eb. destruct (BK _ _ _ _ Eb) as (A & B & C).
        pose proof (U s1 q B) as H. rewrite C in H. simpl in *. rewrite A. lia.
      + destruct (heappop qlt (queue s)) as [[[p id] h]|]; [|exact HI]. destruct (memb id (items s)).
        * pose proof (U (w_queue s h) (LPerm n p id) eq_refl) as H. simpl in *. lia.
        * match goal with |- context [set_task ?s1 t ?q] => pose proof (U s1 q eq_refl) as H end.
          rewrite T in H. simpl in *. lia.
      + rewrite N by reflexivity. match goal with |- context [set_task ?s1 t ?q] => pose proof (U s1 q eq_refl) as H end.
        rewrite T in H. simpl in *. lia.
      + match goal with |- context [set_task ?s1 t ?q] => pose proof (U s1 q eq_refl) as H end. simpl in *. lia.
      + pose proof (U (push s p id) (LJoin n) eq_refl) as H. simpl in *. lia.
      + destruct (existsb _ _); [exact HI|]. destruct (0 <? n);
        match goal with |- context [set_task ?s1 t ?q] => pose proof (U s1 q eq_refl) as H end; simpl in *; lia.
      + destruct (sem s) as [|m] eqn:Es; [lia|]. destruct (_ && _).
        * destruct (SS (w_sem s m) id PROCESSING) as [A B]. simpl in A, B.
          pose proof (U (set_status (w_sem s m) id PROCESSING) (KRun par id true) B) as H. simpl in *. rewrite A. lia.
        * match goal with |- context [set_task ?s1 t ?q] => pose proof (U s1 q eq_refl) as H end. simpl in *. lia.
      + match goal with |- context [set_task ?s1 t ?q] => pose proof (U s1 q eq_refl) as H end. simpl in *. lia.
    - unfold grant. destruct (nth_error (tasks s) t) as [p|] eqn:Ht; [|exact HI].
      assert (U : forall s' p', tasks s' = tasks s -> countp holds (set_task s' t p') + b2n (holds p) = countp holds s + b2n (holds p')).
      { intros s' p' E. unfold countp, set_task. simpl. rewrite E. apply filter_upd. exact Ht. }
      destruct p as [p id|p id rest|n|n p id|n id|n id|n p id|n|par id|par id mine|par id|par id| |e l]; try exact HI.
      destruct b; [|destruct (3 <=? _)];
        match goal with |- context [set_task ?s1 t ?q] => pose proof (U s1 q eq_refl) as H end; simpl in *; lia.
    - unfold finish_ev. destruct (nth_error (tasks s) t) as [p|] eqn:Ht; [|exact HI].
      assert (U : forall s' p', tasks s' = tasks s -> countp holds (set_task s' t p') + b2n (holds p) = countp holds s + b2n (holds p')).
      { intros s' p' E. unfold countp, set_task. simpl. rewrite E. apply filter_upd. exact Ht. }
      destruct p as [p id|p id rest|n|n p id|n id|n id|n p id|n|par id|par id mine|par id|par id| |e l]; try exact HI.
      destruct (SS s id x) as [A B]. pose proof (U (set_status s id x) (KUpd par id) B) as H.
      pose proof (U s (KUpd par id) eq_refl) as H'.
      destruct (streaming s id); [|destruct mine; [destruct x | destruct (existsb _ _)]]; simpl in *; rewrite ?A; lia.
    - destruct (cleanup_fields l s 0) as (_ & B & C & _). unfold countp. rewrite B, C. exact HI.
    - destruct (started s); exact HI.
  Qed.

  Lemma sem_reach : forall s, reach k anything s -> sem s + countp holds s = k_conc k.
  Proof.
    apply reach_inv; [unfold countp; simpl; lia|]. intros s a _. apply sem_step.
  Qed.
End Run.
