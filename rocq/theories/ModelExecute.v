(** Model of Processor.execute, stop and is_stopped:
    /repo/src/lionherd_core/base/processor.py lines 174-190 and 321-331, over
    the tasks of [ModelProcessor].
    Several tasks may be in execute() at once.  process() called by the loop
    is the same task as one called by Executor.forward.
    A cancelled loop is only dropped here; what it does is in [ModelExecuteCut].
    Left out: how long sleep() takes, and subclasses that override process(). *)
From Coq Require Import List Bool Arith ZArith.
From Verif Require Import PyBase ModelHeap ModelEvent ModelProcessor.
Import ListNotations.

(** Where a call of execute() is. *)
Inductive xpc :=
| XNew                      (* about to set execution_mode and call start() *)
| XCheck                    (* line 327 *)
| XWait (t : nat)           (* line 328, in process(), which is task t *)
| XSleep                    (* line 329 *)
| XDone
| XGone.                    (* cancelled: line 331 was not reached *)

Record xst := XSt { x_p : pst; x_loops : list xpc; x_mode : bool }.

Inductive xact :=
| XP (a : action)           (* anything that does not involve execute() *)
| XExecute                  (* execute() is called *)
| XLoop (i : nat)           (* a loop makes a step *)
| XCancel (i : nat).

Definition xupd (i : nat) (q : xpc) (l : list xpc) : list xpc := firstn i l ++ q :: skipn (S i) l.

Section Execute.
Variable k : cfg.

Definition xstep (x : xst) (i : nat) : xst :=
  match nth_error (x_loops x) i with
  | Some XNew =>                                           (* 323-324, 182-185 *)
      XSt (w_stop (x_p x) false) (xupd i XCheck (x_loops x)) true
  | Some XCheck =>
      if stopped (x_p x) then XSt (x_p x) (xupd i XDone (x_loops x)) false
      else XSt (new_task (x_p x) (top (x_p x) 0))
               (xupd i (XWait (length (tasks (x_p x)))) (x_loops x)) (x_mode x)
  | Some (XWait t) =>
      match nth_error (tasks (x_p x)) t with
      | Some ADone => XSt (x_p x) (xupd i XSleep (x_loops x)) (x_mode x)
      | _ => x
      end
  | Some XSleep => XSt (x_p x) (xupd i XCheck (x_loops x)) (x_mode x)
  | _ => x
  end.

Definition live (q : xpc) : bool :=
  match q with XDone | XGone => false | _ => true end.

Definition xact1 (x : xst) (a : xact) : xst :=
  match a with
  | XP a => XSt (pact k (x_p x) a) (x_loops x) (x_mode x)
  | XExecute => if started (x_p x) then XSt (x_p x) (x_loops x ++ [XNew]) (x_mode x) else x
  | XLoop i => xstep x i
  | XCancel i =>
      match nth_error (x_loops x) i with
      | Some q => if live q then XSt (x_p x) (xupd i XGone (x_loops x)) (x_mode x) else x
      | None => x
      end
  end.

Definition xexec (x : xst) (l : list xact) : xst := fold_left xact1 l x.

End Execute.
