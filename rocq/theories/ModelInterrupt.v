(** Model of Processor.process() calls that do not run to their end:
    /repo/src/lionherd_core/base/processor.py lines 225-319 and 385-414, over the
    tasks of [ModelProcessor].
    A call is cut short when the task that awaits it is cancelled (a timeout around
    forward(), execute() being cancelled), when request_permission raises, or when an
    event's operation raises the cancellation exception itself.  Its task group is then
    cancelled: the call and the children it started make no further ordinary step, and
    each unwinds at the await it is at.  _update_progression awaits the lock of the
    progressions first (line 397), so in a cancelled group it raises and moves nothing.
    Left out: operations that raise a BaseException other than cancellation (they end
    the event loop), and operations that swallow the cancellation for ever. *)
From Coq Require Import List Bool Arith ZArith.
From Verif Require Import PyBase ModelHeap ModelEvent ModelProcessor.
Import ListNotations.

(** What cut a call short. *)
Inductive why := ByChild | ByCaller | ByError.
Definition rank (w : why) : nat := match w with ByChild => 0 | ByCaller => 1 | ByError => 2 end.
Definition worse (a b : why) : why := if rank a <? rank b then b else a.

Record ist := ISt { i_s : pst; i_cut : dict nat why }.

Definition cut (x : ist) (t : nat) : option why := dget t (i_cut x).
Definition cut_short (x : ist) (t : nat) (w : why) : dict nat why :=
  dset t (match cut x t with Some v => worse v w | None => w end) (i_cut x).
Definition is_cut (x : ist) (t : nat) : bool := dmem t (i_cut x).

(** The tasks that a cancellation of their group stops. *)
Definition halted (x : ist) (t : nat) : bool :=
  match nth_error (tasks (i_s x)) t with
  | Some (LGet _ | LPerm _ _ _ | LUpd _ _ | LAbort _ _ | LRequeue _ _ _ | LJoin _) => is_cut x t
  | Some (KSem par _ | KUpd par _) => is_cut x par
  | _ => false
  end.

Inductive iact :=
| IDo (a : action)                (* an ordinary action *)
| IInterrupt (t : nat)            (* the task awaiting call t is cancelled *)
| IFail (t : nat)                 (* request_permission raises in call t *)
| IBreak (t : nat) (x : status)   (* the operation of child t raises the cancellation *)
| IUnwind (t : nat).              (* a stopped task handles the cancellation *)

Section Interrupt.
Variable k : cfg.

Definition put (x : ist) (s : pst) : ist := ISt s (i_cut x).

Definition interrupt (x : ist) (t : nat) : ist :=
  match nth_error (tasks (i_s x)) t with
  | Some (LGet _ | LPerm _ _ _ | LUpd _ _ | LAbort _ _ | LRequeue _ _ _ | LJoin _) =>
      ISt (i_s x) (cut_short x t ByCaller)
  | _ => x
  end.

(** line 246 raising *)
Definition fail (x : ist) (t : nat) : ist :=
  match nth_error (tasks (i_s x)) t with
  | Some (LPerm n _ _) => ISt (set_task (i_s x) t (LJoin n)) (cut_short x t ByError)
  | _ => x
  end.

(** lines 255-266 and 270-277; event.invoke() sets CANCELLED before it raises (C24),
    a stream() leaves the status it has set *)
Definition break (x : ist) (t : nat) (st : status) : ist :=
  let s := i_s x in
  match nth_error (tasks s) t with
  | Some (KRun par id mine) =>
      if streaming s id then                       (* except Exception does not apply *)
        let s1 := set_status s id st in
        ISt (set_task (w_sem s1 (S (sem s))) t (KDone par id)) (cut_short x par ByChild)
      else if mine then
        let s1 := set_status s id CANCELLED in
        let s2 := if is_cut x par then s1 else w_progs s1 (move_to id CANCELLED (progs s1)) in
        ISt (set_task (w_sem s2 (S (sem s))) t (KDone par id)) (cut_short x par ByChild)
      else x
  | _ => x
  end.

(** leaving the task group, lines 232 and 307-309 *)
Definition leave (s : pst) (t n : nat) (w : why) : pst :=
  match w with
  | ByChild => set_task (if 0 <? n then w_avail s (Z.of_nat (k_cap k)) else s) t ADone
  | ByCaller => set_task s t (AErr OtherErr [])
  | ByError => set_task s t (AErr ExceptionGroupErr [])
  end.

Definition unwind (x : ist) (t : nat) : ist :=
  let s := i_s x in
  match nth_error (tasks s) t with
  | Some (LGet n | LPerm n _ _ | LUpd n _ | LAbort n _ | LRequeue n _ _) =>
      if is_cut x t then put x (set_task s t (LJoin n)) else x
  | Some (LJoin n) =>
      match cut x t with
      | Some w => if existsb (child_of t) (tasks s) then x else put x (leave s t n w)
      | None => x
      end
  | Some (KSem par id) => if is_cut x par then put x (set_task s t (KDone par id)) else x
  | Some (KRun par id mine) =>                     (* waiting for another invoke() *)
      if is_cut x par && negb (streaming s id) && negb mine
      then put x (set_task (w_sem s (S (sem s))) t (KDone par id)) else x
  | Some (KUpd par id) =>
      if is_cut x par then put x (set_task (w_sem s (S (sem s))) t (KDone par id)) else x
  | _ => x
  end.

Definition iact1 (x : ist) (a : iact) : ist :=
  match a with
  | IDo (Step t) => if halted x t then x else put x (step k (i_s x) t)
  | IDo a => put x (pact k (i_s x) a)
  | IInterrupt t => interrupt x t
  | IFail t => fail x t
  | IBreak t st => break x t st
  | IUnwind t => unwind x t
  end.

Definition irun (x : ist) (l : list iact) : ist := fold_left iact1 l x.
Definition ist0 : ist := ISt (pst0 k) [].
End Interrupt.
