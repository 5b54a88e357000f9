(** Model of [async with pile]: /repo/src/lionherd_core/base/pile.py lines
    584-591 over libs/concurrency/_primitives.py lines 25-48, with anyio's
    Lock: FIFO hand-over on release, RuntimeError when a task acquires a lock
    it holds, and a cancelled waiter leaves the queue or passes the lock on.
    Tasks of one event loop may be switched between any two instructions.
    The synchronous Pile methods are single instructions (see ModelPileThreads
    for threads).  An exception or a cancellation unwinds all the blocks a
    task is in and ends the task.
    Left out: catching an exception inside a block, and use of one pile from
    several event loops. *)
From Coq Require Import List Arith Bool.
Import ListNotations.

Definition pile := nat.
Definition task := nat.

Section Async.
Context {D : Type}.

(** [IExit] leaves the innermost block: async with blocks are nested. *)
Inductive instr := IEnter (p : pile) | IExit | IDo (p : pile) (f : D -> D).

Record state := State {
  lock : pile -> option task;            (* anyio.Lock._owner_task *)
  queue : pile -> list task;             (* anyio.Lock._waiters *)
  data : pile -> D;
  prog : task -> list instr;
  waiting : task -> option pile;         (* suspended in __aenter__ *)
  stack : task -> list pile              (* the blocks the task is in *)
}.

Definition upd {V} (f : nat -> V) (k : nat) (v : V) : nat -> V :=
  fun k' => if k' =? k then v else f k'.

Definition set_task (s : state) (t : task) (pr : list instr) (w : option pile)
  (st : list pile) : state :=
  State (lock s) (queue s) (data s) (upd (prog s) t pr) (upd (waiting s) t w)
        (upd (stack s) t st).

(** anyio.Lock.release: the first waiter becomes the owner. *)
Definition release (s : state) (p : pile) : state :=
  match queue s p with
  | [] => State (upd (lock s) p None) (queue s) (data s) (prog s) (waiting s) (stack s)
  | t :: q => State (upd (lock s) p (Some t)) (upd (queue s) p q) (data s) (prog s)
                    (waiting s) (stack s)
  end.

Definition owns (s : state) (p : pile) (t : task) : bool :=
  match lock s p with Some t' => t' =? t | None => false end.

(** An exception ends the task: a pending __aenter__ is undone, every block is
    left, innermost first. *)
Definition kill (s : state) (t : task) : state :=
  let s1 := match waiting s t with
            | Some p =>
                if owns s p t then release s p
                else State (lock s) (upd (queue s) p (remove Nat.eq_dec t (queue s p)))
                           (data s) (prog s) (waiting s) (stack s)
            | None => s
            end in
  let s2 := fold_left release (stack s t) s1 in
  set_task s2 t [] None [].

Inductive event :=
| EDo (t : task) (p : pile)
| EWait (t : task) (p : pile)
| EEnter (t : task) (p : pile)
| EExit (t : task) (p : pile)
| EError (t : task)                      (* RuntimeError from __aenter__ *)
| ECancel (t : task).                    (* cancelled, or raised by user code *)

Inductive step : state -> event -> state -> Prop :=
| st_do s t p f rest :
    waiting s t = None -> prog s t = IDo p f :: rest ->
    step s (EDo t p)
      (State (lock s) (queue s) (upd (data s) p (f (data s p)))
             (upd (prog s) t rest) (waiting s) (stack s))
| st_enter s t p rest :
    waiting s t = None -> prog s t = IEnter p :: rest -> lock s p = None ->
    step s (EEnter t p)
      (State (upd (lock s) p (Some t)) (queue s) (data s) (upd (prog s) t rest)
             (waiting s) (upd (stack s) t (p :: stack s t)))
| st_again s t p rest :
    waiting s t = None -> prog s t = IEnter p :: rest -> lock s p = Some t ->
    step s (EError t) (kill s t)
| st_wait s t p rest t' :
    waiting s t = None -> prog s t = IEnter p :: rest ->
    lock s p = Some t' -> t' <> t ->
    step s (EWait t p)
      (State (lock s) (upd (queue s) p (queue s p ++ [t])) (data s)
             (upd (prog s) t rest) (upd (waiting s) t (Some p)) (stack s))
| st_got s t p :
    waiting s t = Some p -> lock s p = Some t ->
    step s (EEnter t p) (set_task s t (prog s t) None (p :: stack s t))
| st_exit s t p st rest :
    waiting s t = None -> prog s t = IExit :: rest -> stack s t = p :: st ->
    step s (EExit t p) (set_task (release s p) t rest None st)
| st_cancel s t :
    (prog s t <> [] \/ waiting s t <> None) ->
    step s (ECancel t) (kill s t).

(** A run with its events, oldest first. *)
Inductive run : state -> list event -> state -> Prop :=
| run_nil s : run s [] s
| run_snoc s l s1 e s2 : run s l s1 -> step s1 e s2 -> run s (l ++ [e]) s2.

(** Nobody is in a block yet. *)
Definition start (d : pile -> D) (pr : task -> list instr) : state :=
  State (fun _ => None) (fun _ => []) d pr (fun _ => None) (fun _ => []).

End Async.
Arguments instr : clear implicits.
Arguments state : clear implicits.
