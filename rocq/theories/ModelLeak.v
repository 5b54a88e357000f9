(** Model of libs/concurrency/_resource_tracker.py.

    Objects are numbers; [addr o] is id(o), which another object may have after
    [o] is gone.  [weak o]: the object can be referenced weakly.  Each method
    is one step, since its work on the table is inside the lock; the lock itself
    is modelled at the end. *)
From Coq Require Import String.
From Coq Require Import List ZArith Bool Arith.
From Verif Require Import PyBase.
Import ListNotations.
Local Open Scope string_scope.
Local Open Scope nat_scope.
Local Open Scope list_scope.

(** _resource_tracker.py:20-24 *)
Record info := Info { li_name : string; li_kind : option string; li_at : Z }.

Section Tracker.
  Variable addr : nat -> nat.
  Variable weak : nat -> bool.
  Variable show : nat -> string.        (** f"obj-{id}" *)

  Inductive event :=
  | Track (o : nat) (name kind : option string) (at_ : Z)
  | Untrack (o : nat)
  | Clear
  | Born (o : nat)                      (** the object comes into being *)
  | Die (o : nat).                      (** the object is collected *)

  (** The table, and the registered finalizers: one entry for each call. *)
  Record tracker := Tracker { t_live : dict nat info; t_fins : list nat }.
  Definition empty : tracker := Tracker [] [].

  (** _resource_tracker.py:43 *)
  Definition make_info (o : nat) (name kind : option string) (at_ : Z) : info :=
    Info (match name with
          | Some n => if String.eqb n "" then show (addr o) else n
          | None => show (addr o)
          end) kind at_.

  (** _resource_tracker.py:46-48 *)
  Definition finalizer (key : nat) (l : dict nat info) : dict nat info := ddel key l.

  (** _resource_tracker.py:42-66.  track enters the object first; then
      weakref.finalize raises TypeError for an object without weak references. *)
  Definition step (e : event) (t : tracker) : tracker * outcome unit :=
    match e with
    | Track o name kind at_ =>
        let l := dset (addr o) (make_info o name kind at_) (t_live t) in
        if weak o then (Tracker l (o :: t_fins t), Ret tt)
        else (Tracker l (t_fins t), Raise TypeError)
    | Untrack o => (Tracker (ddel (addr o) (t_live t)) (t_fins t), Ret tt)
    | Clear => (Tracker [] (t_fins t), Ret tt)
    | Born _ => (t, Ret tt)
    | Die o =>
        (Tracker (fold_left (fun l x => if Nat.eqb x o then finalizer (addr x) l else l)
                    (t_fins t) (t_live t))
           (filter (fun x => negb (Nat.eqb x o)) (t_fins t)), Ret tt)
    end.

  Definition run (h : list event) : tracker := fold_left (fun t e => fst (step e t)) h empty.

  (** _resource_tracker.py:60-62 *)
  Definition live (t : tracker) : list info := dvals (t_live t).
End Tracker.

(** The lock in one thread.  A method is acquire, work, release; a collection may
    happen before any instruction and runs the finalizers of what it collects,
    which are methods too, before the thread goes on. *)
Inductive instr := Acquire | Work | Release.
Definition section : list instr := [Acquire; Work; Release].

Record thread := Thread { th_code : list instr; th_held : bool }.

(** One instruction; a held threading.Lock blocks for good, since its holder is
    further down in the same thread. *)
Definition exec (t : thread) : option thread :=
  match th_code t with
  | [] => None
  | Acquire :: c => if th_held t then None else Some (Thread c true)
  | Work :: c => Some (Thread c (th_held t))
  | Release :: c => Some (Thread c false)
  end.

Definition collect (n : nat) (t : thread) : thread :=
  Thread (concat (repeat section n) ++ th_code t) (th_held t).

(** [Step]s and collections of [n] tracked objects in some order. *)
Inductive act := Exec | Gc (n : nat).
Fixpoint drive (s : list act) (t : thread) : option thread :=
  match s with
  | [] => Some t
  | Exec :: s => match exec t with Some t' => drive s t' | None => None end
  | Gc n :: s => drive s (collect n t)
  end.
