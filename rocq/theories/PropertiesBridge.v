(** C105: sync and async callables. *)
From Coq Require Import String.
From Coq Require Import List Bool Arith Lia.
From Verif Require Import PyBase PyFacts ModelBridge.
Import ListNotations.

#[local] Arguments eqb : simpl never.

(** Functions behind partials, behind methods, behind partials: [named c k b f]. *)
Inductive named0 : callable -> kind -> nat -> body -> Prop :=
| n0_fn k b f : named0 (Fn k b f) k b f
| n0_partial c p kw k b f : named0 c k b f -> named0 (Partial c p kw) k b f.
Inductive named1 : callable -> kind -> nat -> body -> Prop :=
| n1_base c k b f : named0 c k b f -> named1 c k b f
| n1_method c s k b f : named1 c k b f -> named1 (Method c s) k b f.
Inductive named : callable -> kind -> nat -> body -> Prop :=
| nm_base c k b f : named1 c k b f -> named c k b f
| nm_partial c p kw k b f : named c k b f -> named (Partial c p kw) k b f.

(** The arguments that reach the function. *)
Fixpoint bound (c : callable) (pos : list nat) (kw : kwargs) : list nat * kwargs :=
  match c with
  | Fn _ _ _ | Cls _ _ => (pos, kw)
  | Method c s | Obj c s _ => bound c (s :: pos) kw
  | Partial c p k => bound c (p ++ pos) (merge k kw)
  end.

Lemma named0_unwrap c k b f : named0 c k b f -> unwrap_partial c = Fn k b f.
Proof. induction 1; auto. Qed.
Lemma named0_not_method c k b f : named0 c k b f -> unwrap_method c = c.
Proof. destruct 1; reflexivity. Qed.
Lemma named1_iscoro c k b f : named1 c k b f -> iscoroutinefunction c = match k with Async => true | _ => false end.
Proof.
  intros H. assert (E : unwrap_partial (unwrap_method c) = Fn k b f).
  { induction H; [|exact IHnamed1]. rewrite (named0_not_method _ _ _ _ H). apply named0_unwrap with (1 := H). }
  unfold iscoroutinefunction. rewrite E. destruct k; reflexivity.
Qed.
Lemma named_iscoro c k b f : named c k b f ->
  iscoroutinefunction (unwrap_partial c) = match k with Async => true | _ => false end.
Proof.
  induction 1 as [c k b f H|]; [|exact IHnamed]. destruct H as [c k b f H|c s k b f H].
  - rewrite (named0_unwrap _ _ _ _ H). unfold iscoroutinefunction. destruct k; reflexivity.
  - change (unwrap_partial (Method c s)) with (Method c s). apply (named1_iscoro (Method c s) k b f). apply n1_method. exact H.
Qed.
Lemma named_not_obj c k b f : named c k b f -> forall c' s h, c <> Obj c' s h.
Proof. intros [? ? ? ? [? ? ? ? []|]|]; discriminate. Qed.
Lemma named_is_coro_func c k b f : named c k b f ->
  is_coro_func c = Ret (match k with Async => true | _ => false end).
Proof.
  intros H. rewrite <- (named_iscoro c k b f H). pose proof (named_not_obj c k b f H) as N.
  destruct c; try reflexivity. destruct (N _ _ _ eq_refl).
Qed.

(** Partials and methods of functions are told apart by what the function is. *)
Theorem C105_recognised c k b f : named c k b f -> (is_coro_func c = Ret true <-> k = Async).
Proof.
  intros H. rewrite (named_is_coro_func c k b f H). destruct k; split; congruence.
Qed.
Print Assumptions C105_recognised.

(** What is called a coroutine function gives a coroutine whatever the arguments, and runs
    nothing until it is awaited. *)
Theorem C105_sound c : is_coro_func c = Ret true ->
  forall pos kw, exists b p k r, call c pos kw = ([], Val (VCoro b p k r)).
Proof.
  intros H. assert (E : iscoroutinefunction (unwrap_partial c) = true).
  { destruct c as [ | | |? ? []| ]; try discriminate H; injection H as H; exact H. }
  clear H. 
  assert (P : forall d, (exists b f, unwrap_partial d = Fn Async b f) -> forall pos kw, exists b p k r, call d pos kw = ([], Val (VCoro b p k r))).
  { induction d; intros (b0 & f0 & X) pos' kw'; cbn in X; try discriminate.
    - injection X as -> -> ->. cbn. eauto.
    - cbn. apply IHd. eauto. }
  assert (M : forall d, (exists b f, unwrap_partial (unwrap_method d) = Fn Async b f) -> forall pos kw, exists b p k r, call d pos kw = ([], Val (VCoro b p k r))).
  { induction d; intros X pos' kw'; try (apply P; exact X). cbn. apply IHd. exact X. }
  induction c; intros pos' kw'; try (cbn [unwrap_partial] in E; apply M; unfold iscoroutinefunction in E;
    match type of E with match ?u with _ => _ end = true => destruct u as [[]| | | |] eqn:V; try discriminate; eauto end; fail).
  cbn. apply IHc. exact E.
Qed.
Print Assumptions C105_sound.

Lemma call_named c k b f : named c k b f -> forall pos kw, call c pos kw = call (Fn k b f) (fst (bound c pos kw)) (snd (bound c pos kw)).
Proof.
  assert (A : forall c k b f, named0 c k b f -> forall pos kw, call c pos kw = call (Fn k b f) (fst (bound c pos kw)) (snd (bound c pos kw))).
  { induction 1; intros pos' kw'; [reflexivity|]. cbn [call bound]. apply IHnamed0. }
  assert (B : forall c k b f, named1 c k b f -> forall pos kw, call c pos kw = call (Fn k b f) (fst (bound c pos kw)) (snd (bound c pos kw))).
  { induction 1; intros pos' kw'; [apply A, H|]. cbn [call bound]. apply IHnamed1. }
  induction 1; intros pos' kw'; [apply B, H|]. cbn [call bound]. apply IHnamed.
Qed.

(** run_sync calls the function with exactly the arguments given, but for a keyword argument
    named func. *)
Lemma merge_nil_r k : merge k [] = k.
Proof. reflexivity. Qed.
Theorem C105_run_sync c pos kw : ~ In "func"%string (dkeys kw) -> run_sync c pos kw = call c pos kw.
Proof.
  intros H. unfold run_sync. apply dmem_false in H. rewrite H. destruct kw as [|p kw]; reflexivity.
Qed.
Print Assumptions C105_run_sync.

(** alcall runs the body of an async function and that of a sync function alike: once per call,
    with the item and the keyword arguments, and the call ends as the body does. *)
Theorem C105_alcall c k b f item kw : named c k b f -> k <> AsyncGen -> ~ In "func"%string (dkeys kw) ->
  let '(pos', kw') := bound c [item] kw in
  alcall_one c item kw = ([(b, pos', kw')], f pos' kw').
Proof.
  intros H K F. pose proof (call_named c k b f H [item] kw) as C. destruct (bound c [item] kw) as [pos' kw'].
  unfold alcall_one. rewrite (named_is_coro_func c k b f H). cbn [fst snd] in C.
  destruct k; [|rewrite C; reflexivity|contradiction]. rewrite C105_run_sync by exact F. exact C.
Qed.
Print Assumptions C105_alcall.

(** broadcast runs the body of such a callback once with the event; an Exception is logged, another
    BaseException ends the broadcast. *)
Theorem C105_deliver c k b f event : named c k b f -> k <> AsyncGen ->
  let '(pos', kw') := bound c [event] [] in
  deliver c event = ([(b, pos', kw')],
    match f pos' kw' with Exc _ => true | _ => false end,
    match f pos' kw' with Base n => Some n | _ => None end).
Proof.
  intros H K. pose proof (call_named c k b f H [event] []) as C. destruct (bound c [event] []) as [pos' kw'].
  unfold deliver. rewrite (named_is_coro_func c k b f H). cbn [fst snd] in C. rewrite C.
  destruct k; [| |contradiction]; cbn; destruct (f pos' kw'); reflexivity.
Qed.
Print Assumptions C105_deliver.

(** An object whose __call__ is an async def is not recognised: alcall returns a coroutine that
    nobody awaits, and broadcast drops it, without a log entry. *)
Theorem C105_object_refuted b f s item kw :
  is_coro_func (Obj (Fn Async b f) s true) = Ret false /\
  alcall_one (Obj (Fn Async b f) s true) item [] = ([], Val (VCoro b [s; item] [] (f [s; item] []))) /\
  deliver (Obj (Fn Async b f) s true) item = ([], false, None) /\
  (is_coro_func (Partial (Obj (Fn Async b f) s true) [] kw) = Ret false).
Proof. repeat split; reflexivity. Qed.
Print Assumptions C105_object_refuted.

(** A callable object that cannot be hashed is never called. *)
Theorem C105_unhashable c s item kw :
  alcall_one (Obj c s false) item kw = ([], Exc TypeError) /\ deliver (Obj c s false) item = ([], true, None).
Proof. split; reflexivity. Qed.
Print Assumptions C105_unhashable.

(** alcall with a keyword argument named func: an async function gets it, a sync function is not
    called. *)
Theorem C105_kwarg_refuted b f item n :
  alcall_one (Fn Async b f) item [("func"%string, n)] = ([(b, [item], [("func"%string, n)])], f [item] [("func"%string, n)]) /\
  alcall_one (Fn Sync b f) item [("func"%string, n)] = ([], Exc TypeError).
Proof. split; reflexivity. Qed.
Print Assumptions C105_kwarg_refuted.

(** run_async returns the coroutine's result and raises its Exceptions; any other BaseException is
    lost, and None returned. *)
Theorem C105_run_async r :
  (forall v, r = Val v -> run_async r = r) /\ (forall e, r = Exc e -> run_async r = r) /\
  (forall n, r = Base n -> run_async r = Val VNone).
Proof. repeat split; intros ? ->; reflexivity. Qed.
Print Assumptions C105_run_async.
Theorem C105_run_async_refuted : exists r, r <> Val VNone /\ run_async r = Val VNone.
Proof. exists (Base 0). split; [discriminate|reflexivity]. Qed.
Print Assumptions C105_run_async_refuted.

(** partial(obj.method, 7, flag=1) of an async method, with item 3 and flag=2: the method gets
    self, 7, 3 and flag=2. *)
Example C105_ex :
  let f : body := fun pos kw => Val (VInt (list_sum pos)) in
  let c := Partial (Method (Fn Async 1 f) 100) [7] [("flag"%string, 1)] in
  named c Async 1 f /\
  alcall_one c 3 [("flag"%string, 2)] = ([(1, [100; 7; 3], [("flag"%string, 2)])], Val (VInt 110)).
Proof. split; [apply nm_partial, nm_base, n1_method, n1_base, n0_fn|vm_compute; reflexivity]. Qed.
