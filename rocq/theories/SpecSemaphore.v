(** What is asked of a semaphore, in terms of what happened to its calls. *)
From Coq Require Import List Bool Arith.
From Verif Require Import ModelSemaphore.
Import ListNotations.

Definition asked (tr : list sevent) : list ticket := flat_map (fun x => match x with Asked e => [e] | _ => [] end) tr.
Definition granted (tr : list sevent) : list ticket := flat_map (fun x => match x with Granted e => [e] | _ => [] end) tr.
Definition dropped (tr : list sevent) : list ticket := flat_map (fun x => match x with Dropped e => [e] | _ => [] end) tr.
Definition released (tr : list sevent) : list ticket := flat_map (fun x => match x with Released e => [e] | _ => [] end) tr.
(** calls of release() outside of any block *)
Definition extras (tr : list sevent) : nat := length (filter (fun x => match x with Extra => true | _ => false end) tr).
(** calls of release() by blocks that were left, and others *)
Definition returns (tr : list sevent) : nat := length (released tr) + extras tr.

(** Blocks only: no release() outside of a block. *)
Definition blocks_only (l : list sop) : Prop := ~ In Give l.
(** [waits_in s t]: task t is suspended in acquire() and holds no slot for it. *)
Definition waits_in (s : sem) (t : nat) : Prop := exists i, In (i, t) (line s).
