(** Model of what a Processor accepts as parameters and what they do:
    /repo/src/lionherd_core/base/processor.py lines 40-107 (construction),
    140-145 (the size test of enqueue), 233, 280-281 and 307-309 (the capacity
    in process()), 421-428 and 435-441 (Executor.start and _create_processor),
    and libs/concurrency/_primitives.py:54-57 (Semaphore).
    Numbers are Python ints and floats, compared as Python does: exactly, and
    never true with NaN.
    Left out: permissions (all are granted), events removed while queued, the
    order the queue gives the events (it is taken as given), the flag that
    start() clears at its end, and other kinds of numbers.  anyio.Semaphore refuses what is no int (its
    documented behaviour). *)
From Coq Require Import List ZArith QArith Qround Bool Arith.
From Verif Require Import PyBase.
Import ListNotations.
Local Open Scope nat_scope.

Inductive num := Int (z : Z) | Flt (q : Q) | NaN | PInf | NInf.

(** [a < b] *)
Definition val (a : num) : option Q :=
  match a with Int z => Some (inject_Z z) | Flt q => Some q | _ => None end.
Definition nlt (a b : num) : bool :=
  match a, b with
  | NaN, _ | _, NaN => false
  | PInf, _ | _, NInf => false
  | NInf, _ | _, PInf => true
  | _, _ => match val a, val b with
            | Some p, Some q => negb (Qle_bool q p)
            | _, _ => false
            end
  end.
(** [a >= b] *)
Definition nge (a b : num) : bool :=
  match a, b with NaN, _ | _, NaN => false | _, _ => negb (nlt a b) end.

(** [a - 1].  Rounding plays no role: from 10000 down the result is representable. *)
Definition pred_num (a : num) : num :=
  match a with Int z => Int (z - 1) | Flt q => Flt (q - 1) | _ => a end.

Record params := Params {
  queue_capacity : num;
  capacity_refresh_time : num;
  concurrency_limit : num;
  max_queue_size : num;
  max_denial_tracking : num
}.

(** The double written 0.01. *)
Definition hundredth : num := Flt (5764607523034235 # 576460752303423488).

Definition is_int (a : num) : bool := match a with Int _ => true | _ => false end.

(** lines 63-107 *)
Definition create (p : params) : outcome params :=
  if nlt (queue_capacity p) (Int 1) then Raise ValueError
  else if nlt (Int 10000) (queue_capacity p) then Raise ValueError
  else if nlt (capacity_refresh_time p) hundredth then Raise ValueError
  else if nlt (Int 3600) (capacity_refresh_time p) then Raise ValueError
  else if nlt (concurrency_limit p) (Int 1) then Raise ValueError
  else if nlt (max_queue_size p) (Int 1) then Raise ValueError
  else if nlt (max_denial_tracking p) (Int 1) then Raise ValueError
  else if nlt (concurrency_limit p) (Int 0) then Raise ValueError
  else if negb (is_int (concurrency_limit p)) then Raise TypeError
  else Ret p.

Section Queue.
  Context {E : Type}.

  (** enqueue with a valid priority, 140-145 and 160 *)
  Definition enqueue (p : params) (q : list E) (e : E) : list E * outcome unit :=
    if nge (Int (Z.of_nat (length q))) (max_queue_size p) then (q, Raise QueueFullError)
    else (q ++ [e], Ret tt).

  Definition enqueue_all (p : params) (q : list E) (es : list E) : list E :=
    fold_left (fun q e => fst (enqueue p q e)) es q.

  (** The loop of process(), 233: started events, rest of the queue, capacity. *)
  Fixpoint batch (cap : num) (q : list E) : list E * list E * num :=
    match q with
    | [] => ([], [], cap)
    | e :: t => if nlt (Int 0) cap
                then let '(s, r, c) := batch (pred_num cap) t in (e :: s, r, c)
                else ([], q, cap)
    end.

  (** process(): 226-309 *)
  Definition process (p : params) (st : list E * num) : list E * (list E * num) :=
    let '(s, r, c) := batch (snd st) (fst st) in
    (s, (r, match s with [] => c | _ => queue_capacity p end)).

  (** [n] calls one after the other: the events started by each. *)
  Fixpoint processes (p : params) (n : nat) (st : list E * num) : list (list E) * (list E * num) :=
    match n with
    | 0 => ([], st)
    | S n => let (s, st) := process p st in
             let (ss, st) := processes p n st in (s :: ss, st)
    end.
End Queue.

(** Executor: its config, the events pending in it and, once started, its
    processor and that one's queue.  [None] as config: a required parameter is
    missing or an unknown one is given. *)
Record executor (E : Type) := Ex {
  e_config : option params;
  e_pending : list E;
  e_proc : option (params * list E)
}.
Arguments Ex {E}.
Arguments e_config {E}.
Arguments e_pending {E}.
Arguments e_proc {E}.

(** Executor.start, lines 425-427: the backfill, ended by the first error. *)
Fixpoint backfill {E} (p : params) (q : list E) (es : list E) : list E * outcome unit :=
  match es with
  | [] => (q, Ret tt)
  | e :: t => match enqueue p q e with
              | (q, Ret _) => backfill p q t
              | (q, Raise x) => (q, Raise x)
              end
  end.

Definition start {E} (e : executor E) : executor E * outcome unit :=
  match e_proc e with
  | Some _ => (e, Ret tt)
  | None =>
      match e_config e with
      | None => (e, Raise TypeError)
      | Some p => match create p with
                  | Raise x => (e, Raise x)
                  | Ret p => let (q, r) := backfill p [] (e_pending e) in
                             (Ex (e_config e) (e_pending e) (Some (p, q)), r)
                  end
      end
  end.

Fixpoint starts {E} (n : nat) (e : executor E) : executor E :=
  match n with 0 => e | S n => starts n (fst (start e)) end.
