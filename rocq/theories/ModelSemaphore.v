(** libs/concurrency/_primitives.py:49-70 (Semaphore) over anyio's Semaphore.

    anyio is described by its documented behaviour: acquire() takes a free slot if there is one
    and nobody waits, else the task waits in line; release() hands the slot to the first in line,
    else the slot becomes free; a waiting task that is cancelled leaves the line, and one that is
    cancelled after it was handed a slot passes the slot on.  Tasks interleave at suspension
    points.  Every acquire() gets a number; entries are pairs of number and task.  Left out:
    several event loops, and cancellation that is requested while the task it is for is about to
    be handed a slot in the same turn of the loop. *)
From Coq Require Import List Bool Arith ZArith.
From Verif Require Import PyBase.
Import ListNotations.
Local Open Scope nat_scope.

Definition ticket := (nat * nat)%type.

Inductive sevent :=
| Asked (e : ticket)                         (* acquire() was called *)
| Granted (e : ticket)                       (* a slot was handed to it *)
| Dropped (e : ticket)                       (* acquire() was cancelled *)
| Released (e : ticket)                      (* the block was left: release() *)
| Extra.                                     (* release() outside of any block *)

Record sem := Sem {
  free : nat;
  line : list ticket;                        (* waiting, first come first *)
  woken : list ticket;                       (* handed a slot, not yet running again *)
  inside : list ticket;                      (* in a block *)
  count : nat;
  trace : list sevent
}.

(** 54-57 *)
Definition new_sem (initial_value : Z) : outcome sem :=
  if (initial_value <? 0)%Z then Raise ValueError else Ret (Sem (Z.to_nat initial_value) [] [] [] 0 []).

Inductive sop :=
| Enter (t : nat)                            (* __aenter__ / acquire() *)
| Wake (i : nat)                             (* the loop resumes acquire() number i *)
| Leave (i : nat)                            (* __aexit__ / release() of block number i *)
| Cancel (i : nat)                           (* acquire() number i is cancelled while suspended *)
| Give.                                      (* release() by whoever *)

Definition find_ticket (i : nat) (l : list ticket) : option ticket := find (fun e => fst e =? i) l.
Definition drop (i : nat) (l : list ticket) : list ticket := filter (fun e => negb (fst e =? i)) l.

(** A task suspended in acquire() does nothing else. *)
Definition suspended (s : sem) (t : nat) : bool := existsb (fun e => snd e =? t) (line s ++ woken s).

(** 63-65 *)
Definition release (s : sem) : sem :=
  match line s with
  | e :: l => Sem (free s) l (woken s ++ [e]) (inside s) (count s) (trace s ++ [Granted e])
  | [] => Sem (S (free s)) [] (woken s) (inside s) (count s) (trace s)
  end.

Definition log (s : sem) (x : sevent) : sem :=
  Sem (free s) (line s) (woken s) (inside s) (count s) (trace s ++ [x]).

(** What cannot happen in the state leaves it as it is. *)
Definition sstep (s : sem) (o : sop) : sem :=
  match o with
  | Enter t =>
      if suspended s t then s else
      let e := (count s, t) in
      match free s, line s with
      | S f, [] => Sem f [] (woken s) (inside s ++ [e]) (S (count s)) (trace s ++ [Asked e; Granted e])
      | _, _ => Sem (free s) (line s ++ [e]) (woken s) (inside s) (S (count s)) (trace s ++ [Asked e])
      end
  | Wake i =>
      match find_ticket i (woken s) with
      | Some e => Sem (free s) (line s) (drop i (woken s)) (inside s ++ [e]) (count s) (trace s)
      | None => s
      end
  | Leave i =>
      match find_ticket i (inside s) with
      | Some e => if suspended s (snd e) then s else
          release (log (Sem (free s) (line s) (woken s) (drop i (inside s)) (count s) (trace s)) (Released e))
      | None => s
      end
  | Cancel i =>
      match find_ticket i (line s) with
      | Some e => log (Sem (free s) (drop i (line s)) (woken s) (inside s) (count s) (trace s)) (Dropped e)
      | None =>
          match find_ticket i (woken s) with
          | Some e => release (log (Sem (free s) (line s) (drop i (woken s)) (inside s) (count s) (trace s)) (Dropped e))
          | None => s
          end
      end
  | Give => release (log s Extra)
  end.

Definition srun (s : sem) (l : list sop) : sem := fold_left sstep l s.
