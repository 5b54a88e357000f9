(** Sync and async callables: is_coro_func and run_sync of libs/concurrency/_utils.py:20-57,
    run_async of libs/concurrency/_run_async.py, and how a callable is called by alcall
    (ln/_async_call.py:150-172, one call) and by broadcast (base/broadcaster.py:108-118).

    A callable is a function (def, async def, async generator function), a bound method, a
    functools.partial, an object with __call__, or a class or built-in.  A body is a function of
    the arguments it gets; that it ran is recorded.  Calling an async def runs nothing: it gives a
    coroutine, whose body runs when it is awaited.  Left out: timeouts (C40, C96), objects marked
    as coroutine functions, that the answers of is_coro_func are cached by equality of the
    callables, StopIteration in a worker thread. *)
From Coq Require Import String.
From Coq Require Import List Bool Arith.
From Verif Require Import PyBase.
Import ListNotations.

Definition kwargs := dict string nat.
Inductive kind := Sync | Async | AsyncGen.

(** How a body ends: a value, an Exception, another BaseException (CancelledError, SystemExit,
    KeyboardInterrupt, ...). *)
Inductive result := Val (v : value) | Exc (e : exn) | Base (n : nat)
with value := VNone | VInt (n : nat) | VCoro (b : nat) (pos : list nat) (kw : kwargs) (r : result) | VAgen.

Definition body := list nat -> kwargs -> result.
Inductive callable :=
| Fn (k : kind) (b : nat) (f : body)
| Method (c : callable) (self : nat)
| Partial (c : callable) (pos : list nat) (kw : kwargs)
| Obj (c : callable) (self : nat) (hashable : bool)     (* __call__ is the function c *)
| Cls (b : nat) (f : body).

(** {**a, **b} *)
Definition merge (a b : kwargs) : kwargs := fold_left (fun d p => dset (fst p) (snd p) d) b a.

(** What ran (body and arguments) and how it ended. *)
Definition run := (list (nat * list nat * kwargs) * result)%type.

(** f of pos and kw *)
Fixpoint call (c : callable) (pos : list nat) (kw : kwargs) : run :=
  match c with
  | Fn Sync b f => ([(b, pos, kw)], f pos kw)
  | Fn Async b f => ([], Val (VCoro b pos kw (f pos kw)))
  | Fn AsyncGen b f => ([], Val VAgen)
  | Method c self => call c (self :: pos) kw
  | Partial c p k => call c (p ++ pos) (merge k kw)
  | Obj c self _ => call c (self :: pos) kw
  | Cls b f => ([(b, pos, kw)], f pos kw)
  end.

(** await of what a call gave *)
Definition await (x : run) : run :=
  let '(t, r) := x in
  match r with
  | Val (VCoro b pos kw r) => (t ++ [(b, pos, kw)], r)
  | Val _ => (t, Exc TypeError)
  | _ => x
  end.

(** _utils.py:23-24 *)
Fixpoint unwrap_partial (c : callable) : callable :=
  match c with Partial c _ _ => unwrap_partial c | _ => c end.
Fixpoint unwrap_method (c : callable) : callable :=
  match c with Method c _ => unwrap_method c | _ => c end.
(** CPython's inspect.iscoroutinefunction: methods first, then partials. *)
Definition iscoroutinefunction (c : callable) : bool :=
  match unwrap_partial (unwrap_method c) with Fn Async _ _ => true | _ => false end.

(** 20-32: the cache hashes its argument. *)
Definition is_coro_func (c : callable) : outcome bool :=
  match c with
  | Obj _ _ false => Raise TypeError
  | _ => Ret (iscoroutinefunction (unwrap_partial c))
  end.

(** 40-57: run_sync takes its first parameter by name, too. *)
Definition run_sync (c : callable) (pos : list nat) (kw : kwargs) : run :=
  if dmem "func"%string kw then ([], Exc TypeError)
  else if negb (match kw with [] => true | _ => false end) then call (Partial c [] kw) pos []   (* 54-56 *)
  else call c pos [].

(** ln/_async_call.py:150-172: is_coro_func is called once, before the items. *)
Definition alcall_one (c : callable) (item : nat) (kw : kwargs) : run :=
  match is_coro_func c with
  | Raise e => ([], Exc e)
  | Ret true => await (call c [item] kw)
  | Ret false => run_sync c [item] kw
  end.

(** base/broadcaster.py:108-118; one callback: what ran, whether an error was logged, and what
    leaves the loop. *)
Definition deliver (c : callable) (event : nat) : list (nat * list nat * kwargs) * bool * option nat :=
  let fin (x : run) :=
    match x with
    | (t, Val _) => (t, false, None)
    | (t, Exc _) => (t, true, None)
    | (t, Base n) => (t, false, Some n)
    end in
  match is_coro_func c with
  | Raise e => ([], true, None)
  | Ret true =>
      let '(t, r) := call c [event] [] in
      fin (match r with Val VNone => (t, r) | _ => await (t, r) end)
  | Ret false => fin (call c [event] [])
  end.

(** _run_async.py:15-52: the coroutine is awaited in another thread, which catches Exceptions; any
    other BaseException ends the thread. *)
Definition run_async (r : result) : result :=
  let '(results, exceptions) :=
    match r with
    | Val v => ([v], [])
    | Exc e => ([], [e])
    | Base _ => ([], [])
    end in
  match exceptions with
  | e :: _ => Exc e
  | [] => match results with v :: _ => Val v | [] => Val VNone end
  end.
