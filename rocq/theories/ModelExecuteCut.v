(** Model of Processor.execute when it does not run to its end:
    /repo/src/lionherd_core/base/processor.py lines 321-331 (execute), 182-186
    (start), over the process() calls of [ModelInterrupt], which raise when they
    are cut short.
    Between two awaits execute() cannot be cancelled: a cancellation at the check
    of line 327, or before the loop has noticed that process() is over, is one
    at the sleep next to it.
    Left out: how long sleep() takes, and subclasses that override process(). *)
From Coq Require Import List Bool Arith ZArith.
From Verif Require Import PyBase ModelHeap ModelEvent ModelProcessor ModelInterrupt.
Import ListNotations.

(** Where a call of execute() is. *)
Inductive ypc :=
| YNew                      (* about to set execution_mode and call start() *)
| YCheck                    (* line 327 *)
| YWait (t : nat)           (* line 328, in process(), which is task t *)
| YSleep                    (* line 329 *)
| YDone                     (* returned, line 331 *)
| YErr (e : exn).           (* raised; line 331 is not reached *)

Record yst := YSt { y_i : ist; y_loops : list ypc; y_mode : bool }.

Inductive yact :=
| YDo (a : iact)            (* anything that does not involve execute() itself *)
| YExecute                  (* execute() is called *)
| YLoop (i : nat)           (* a loop makes a step *)
| YCancel (i : nat).        (* the task in execute() number i is cancelled *)

(** Task [t] is a process() call of some execute(). *)
Definition awaited (t : nat) (l : list ypc) : bool :=
  existsb (fun q => match q with YWait u => u =? t | _ => false end) l.

Section ExecuteCut.
Variable k : cfg.

Definition ystep (x : yst) (i : nat) : yst :=
  let s := i_s (y_i x) in
  match nth_error (y_loops x) i with
  | Some YNew =>                                                      (* 323-324, 182-186 *)
      YSt (iact1 k (y_i x) (IDo (Spawn CStart))) (upd i YCheck (y_loops x)) true
  | Some YCheck =>                                                    (* 327, 331 *)
      if stopped s then YSt (y_i x) (upd i YDone (y_loops x)) false
      else YSt (iact1 k (y_i x) (IDo (Spawn CForward))) (upd i (YWait (length (tasks s))) (y_loops x)) (y_mode x)
  | Some (YWait t) =>                                                 (* 328 *)
      match nth_error (tasks s) t with
      | Some ADone => YSt (y_i x) (upd i YSleep (y_loops x)) (y_mode x)
      | Some (AErr e _) => YSt (y_i x) (upd i (YErr e) (y_loops x)) (y_mode x)
      | _ => x
      end
  | Some YSleep => YSt (y_i x) (upd i YCheck (y_loops x)) (y_mode x)  (* 329 *)
  | _ => x
  end.

Definition ycancel (x : yst) (i : nat) : yst :=
  match nth_error (y_loops x) i with
  | Some (YNew | YCheck | YSleep) => YSt (y_i x) (upd i (YErr OtherErr) (y_loops x)) (y_mode x)
  | Some (YWait t) =>
      match nth_error (tasks (i_s (y_i x))) t with
      | Some ADone => YSt (y_i x) (upd i (YErr OtherErr) (y_loops x)) (y_mode x)
      | Some (AErr _ _) => x
      | _ => YSt (iact1 k (y_i x) (IInterrupt t)) (y_loops x) (y_mode x)
      end
  | _ => x
  end.

Definition yact1 (x : yst) (a : yact) : yst :=
  match a with
  | YDo (IInterrupt t) =>
      if awaited t (y_loops x) then x else YSt (iact1 k (y_i x) (IInterrupt t)) (y_loops x) (y_mode x)
  | YDo a => YSt (iact1 k (y_i x) a) (y_loops x) (y_mode x)
  | YExecute => if started (i_s (y_i x)) then YSt (y_i x) (y_loops x ++ [YNew]) (y_mode x) else x
  | YLoop i => ystep x i
  | YCancel i => ycancel x i
  end.

Definition yrun (x : yst) (l : list yact) : yst := fold_left yact1 l x.
Definition yst0 : yst := YSt (ist0 k) [] false.

End ExecuteCut.
