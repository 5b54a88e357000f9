(** The task-group functions that collect results by position: gather and
    bounded_map (libs/concurrency/_patterns.py:31-59, 87-127) and alcall
    (ln/_async_call.py:144-234), which run one child task per item.

    Assumed of anyio's task group (asyncio backend): an exception of a child
    other than a cancellation is collected and cancels the group; a cancellation
    raised by a child cancels the group without being collected; leaving the
    group waits for all children and then raises the collected exceptions as one
    group, else the outer cancellation if there was one, else nothing.  A
    cancelled group makes suspended children raise a cancellation, which their
    code may turn into any other outcome.  Limiters and semaphores are counters;
    which waiter gets a free slot is left open.

    How each awaitable or call ends is an input, and so is the interleaving.
    Delays are rationals (floats in Python). *)
From Coq Require Import String.
From Coq Require Import List Bool Arith ZArith QArith.
From Verif Require Import PyBase ModelHeap ModelExc.
Import ListNotations.
Local Close Scope Q_scope.
Local Open Scope string_scope.
Local Open Scope nat_scope.

Section Group.
Context {V : Type}.

(** How a call ends. *)
Inductive res := Val (v : V) | Err (e : pyexc).

Record cfg := {
  c_limit : option nat;      (* limiter / semaphore *)
  c_retry : Z;               (* retry_attempts *)
  c_default : option V;      (* retry_default; None = Unset *)
  c_rexc : bool;             (* return_exceptions *)
  c_delay : Q;               (* retry_initial_delay *)
  c_backoff : Q;             (* retry_backoff *)
  c_inside : bool;           (* the slot is acquired inside the try block *)
  c_throttle : bool          (* the parent sleeps between spawns *)
}.

(** _patterns.py:31-59: [results[idx] = await aw], any exception recorded. *)
Definition gather_cfg (rexc : bool) : cfg :=
  Build_cfg None 0%Z None rexc 0%Q 1%Q true false.

(** _patterns.py:87-127; the limiter is entered before the try (106-107) *)
Definition bounded_map_cfg (limit : Z) (rexc : bool) : outcome cfg :=
  if (limit <=? 0)%Z then Raise ValueError                                    (* 95-96 *)
  else Ret (Build_cfg (Some (Z.to_nat limit)) 0%Z None rexc 0%Q 1%Q false false).

(** _async_call.py:148-149; max_concurrent None or 0: no semaphore; Semaphore
    refuses negative values (_primitives.py:55-56) *)
Definition alcall_cfg (max_concurrent : option Z) (retry : Z) (default : option V) (rexc : bool)
    (delay backoff throttle : Q) : outcome cfg :=
  match max_concurrent with
  | Some m => if (m <? 0)%Z then Raise ValueError
              else Ret (Build_cfg (if (m =? 0)%Z then None else Some (Z.to_nat m))
                          retry default rexc delay backoff true (negb (Qeq_bool throttle 0)))
  | None => Ret (Build_cfg None retry default rexc delay backoff true (negb (Qeq_bool throttle 0)))
  end.

Inductive tpc :=
| TNew                        (* not spawned *)
| TWait                       (* spawned, has no slot yet *)
| TRun (k : nat) (d : Q)      (* call number k+1 in progress; d = current_delay *)
| TSleep (k : nat) (d : Q)    (* sleeping d after k failures *)
| TDone.

Inductive lev := LBegin (i : nat) | LEnd (i : nat) (r : res) | LSleep (i : nat) (d : Q).

Record gst := {
  g_tasks : list tpc;
  g_out : list (option res);   (* preallocated with None *)
  g_free : nat;                (* free slots, if there is a limit *)
  g_errs : list pyexc;         (* exceptions collected by the group *)
  g_cancel : bool;             (* the group is cancelled *)
  g_outer : bool;              (* the caller was cancelled *)
  g_stop : bool;               (* the parent was cancelled while throttling *)
  g_log : list lev
}.

Variable c : cfg.

Definition ginit (n : nat) : gst :=
  Build_gst (repeat (if c_throttle c then TNew else TWait) n) (repeat None n)
    (match c_limit c with Some l => l | None => 0 end) [] false false false [].

Definition set_task s i p :=
  Build_gst (upd i p (g_tasks s)) (g_out s) (g_free s) (g_errs s) (g_cancel s) (g_outer s) (g_stop s) (g_log s).
Definition put_out s i x :=
  Build_gst (g_tasks s) (upd i (Some x) (g_out s)) (g_free s) (g_errs s) (g_cancel s) (g_outer s) (g_stop s) (g_log s).
Definition add_log s e :=
  Build_gst (g_tasks s) (g_out s) (g_free s) (g_errs s) (g_cancel s) (g_outer s) (g_stop s) (g_log s ++ [e]).
Definition set_free s n :=
  Build_gst (g_tasks s) (g_out s) n (g_errs s) (g_cancel s) (g_outer s) (g_stop s) (g_log s).
Definition release s := match c_limit c with Some _ => set_free s (S (g_free s)) | None => s end.

(** A child task ends by raising [e] (anyio). *)
Definition child_raises s e :=
  Build_gst (g_tasks s) (g_out s) (g_free s) (if is_cancelled e then g_errs s else g_errs s ++ [e])
    true (g_outer s) (g_stop s) (g_log s).

(** The except clause: _patterns.py:41-44, 109-112; _async_call.py:213-216.
    The slot is released by the context manager, before or after. *)
Definition record_exc s i e :=
  let s := put_out (set_task s i TDone) i (Err e) in
  if c_rexc c then s else child_raises s e.

(** _async_call.py:177-199, what follows a call that ended with [r] as call
    number k+1.  gather and bounded_map have no retries and no default. *)
Definition after_call s i k d r :=
  match r with
  | Val v => put_out (set_task (release s) i TDone) i (Val v)
  | Err e =>
      if is_cancelled e || negb (is_exception e) then record_exc (release s) i e
      else if (Z.of_nat (S k) <=? c_retry c)%Z then
        if Qeq_bool d 0 then add_log (set_task s i (TRun (S k) d)) (LBegin i)
        else add_log (set_task s i (TSleep (S k) d)) (LSleep i d)
      else match c_default c with
           | Some v => put_out (set_task (release s) i TDone) i (Val v)
           | None => record_exc (release s) i e
           end
  end.

Inductive gop :=
| GSpawn                     (* the parent spawns the next child *)
| GStart (i : nat)           (* child i gets a slot and calls *)
| GEnd (i : nat) (r : res)   (* the call of child i ends *)
| GWake (i : nat)            (* child i has slept and calls again *)
| GAbort (i : nat) (m : string)   (* cancellation delivered while waiting or sleeping *)
| GStop                      (* cancellation delivered to the throttling parent *)
| GOuter.                    (* the caller is cancelled *)

Fixpoint first_new (l : list tpc) : option nat :=
  match l with
  | [] => None
  | TNew :: _ => Some 0
  | _ :: t => option_map S (first_new t)
  end.

Definition can_start s : bool := match c_limit c with Some _ => 0 <? g_free s | None => true end.
Definition take s := match c_limit c with Some _ => set_free s (pred (g_free s)) | None => s end.

Definition gstep (s : gst) (a : gop) : gst :=
  match a with
  | GSpawn => if g_stop s then s
              else match first_new (g_tasks s) with Some i => set_task s i TWait | None => s end
  | GStart i =>
      match nth_error (g_tasks s) i with
      | Some TWait => if can_start s then add_log (set_task (take s) i (TRun 0 (c_delay c))) (LBegin i) else s
      | _ => s
      end
  | GEnd i r =>
      match nth_error (g_tasks s) i with
      | Some (TRun k d) => after_call (add_log s (LEnd i r)) i k d r
      | _ => s
      end
  | GWake i =>
      match nth_error (g_tasks s) i with
      | Some (TSleep k d) => add_log (set_task s i (TRun k (d * c_backoff c)%Q)) (LBegin i)   (* 191-192 *)
      | _ => s
      end
  | GAbort i m =>
      if g_cancel s then
        match nth_error (g_tasks s) i with
        | Some (TSleep k d) => record_exc (release s) i (Cancelled m)
        | Some TWait =>
            match c_limit c with
            | None => s                         (* no suspension before the call *)
            | Some _ => if c_inside c then record_exc s i (Cancelled m)
                        else child_raises (set_task s i TDone) (Cancelled m)
            end
        | _ => s
        end
      else s
  | GStop => if g_cancel s && c_throttle c
             then match first_new (g_tasks s) with
                  | Some _ => Build_gst (g_tasks s) (g_out s) (g_free s) (g_errs s) (g_cancel s) (g_outer s) true (g_log s)
                  | None => s
                  end
             else s
  | GOuter => Build_gst (g_tasks s) (g_out s) (g_free s) (g_errs s) true true (g_stop s) (g_log s)
  end.

Definition grun (s : gst) (l : list gop) : gst := fold_left gstep l s.

(** All children that will ever be spawned have ended. *)
Definition quiet (s : gst) : bool :=
  forallb (fun p => match p with TDone => true | TNew => g_stop s | _ => false end) (g_tasks s).

(** Leaving the group: _patterns.py:50-59, 118-127; _async_call.py:226-234. *)
Inductive gresult :=
| GPending
| GReturn (l : list (option res))
| GRaise (e : pyexc).

Definition group_msg : string := "unhandled errors in a TaskGroup".

Definition gfinal (s : gst) : gresult :=
  if negb (quiet s) then GPending
  else match g_errs s with
       | [] => if g_outer s then GRaise (Cancelled "") else GReturn (g_out s)
       | errs =>
           let eg := Group 0 group_msg errs in
           if forallb is_exception errs then                            (* except ExceptionGroup *)
             if c_rexc c then GReturn (g_out s)
             else match non_cancel_subgroup eg with
                  | Some rest => GRaise rest
                  | None => GRaise eg
                  end
           else GRaise eg
       end.
End Group.
Arguments res V : clear implicits.
Arguments cfg V : clear implicits.
Arguments lev V : clear implicits.
Arguments gst V : clear implicits.
Arguments gop V : clear implicits.
Arguments gresult V : clear implicits.
