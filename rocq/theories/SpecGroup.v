(** What the positional task-group functions promise, from the log of calls. *)
From Coq Require Import List Bool Arith ZArith QArith.
From Verif Require Import PyBase ModelExc ModelGroup.
Import ListNotations.
Local Close Scope Q_scope.
Local Open Scope nat_scope.

Section SpecGroup.
Context {V : Type}.

(** How the calls for item [i] ended, in order; how many began; the pauses
    between them. *)
Definition ends (i : nat) (log : list (lev V)) : list (res V) :=
  flat_map (fun e => match e with LEnd j r => if j =? i then [r] else [] | _ => [] end) log.
Definition begins (i : nat) (log : list (lev V)) : nat :=
  length (filter (fun e => match e with LBegin j => j =? i | _ => false end) log).
Definition naps (i : nat) (log : list (lev V)) : list Q :=
  flat_map (fun e => match e with LSleep j d => if j =? i then [d] else [] | _ => [] end) log.

(** An outcome that may be retried: an Exception (not a cancellation and no
    other BaseException). *)
Definition failed (r : res V) : bool := match r with Err e => is_exception e | Val _ => false end.

(** The calls [l] of an item settle it with result [x]: at most 1 + retries
    calls, all but the last of them failed, and the last one succeeded, or was
    fatal, or was the last one allowed. *)
Definition settles (retry : Z) (default : option V) (l : list (res V)) (x : res V) : Prop :=
  exists fs r, l = fs ++ [r] /\ Forall (fun r => failed r = true) fs /\
    (Z.of_nat (length fs) <= Z.max 0 retry)%Z /\
    match r with
    | Val v => x = Val v
    | Err e =>
        if is_exception e
        then Z.of_nat (length fs) = Z.max 0 retry /\
             x = match default with Some v => Val v | None => Err e end
        else x = Err e
    end.

Fixpoint qpow (b : Q) (n : nat) : Q := match n with O => 1%Q | S m => (b * qpow b m)%Q end.

(** The pauses after the first [m] failures. *)
Definition pauses (delay backoff : Q) (m : nat) : list Q :=
  filter (fun d => negb (Qeq_bool d 0)) (map (fun j => delay * qpow backoff j)%Q (seq 0 m)).

(** Calls in progress (sleeping between attempts included). *)
Definition active (s : gst V) : nat :=
  length (filter (fun p => match p with TRun _ _ | TSleep _ _ => true | _ => false end) (g_tasks s)).

(** The exceptions that are not cancellations among the results. *)
Definition errors_of (out : list (option (res V))) : list pyexc :=
  flat_map (fun o => match o with Some (Err e) => if is_cancelled e then [] else [e] | _ => [] end) out.

(** Some call ended with a cancellation. *)
Definition self_cancelled (log : list (lev V)) : Prop := exists i m, In (LEnd i (Err (Cancelled m))) log.
End SpecGroup.
