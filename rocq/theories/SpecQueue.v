(** C113: what a trace of the queue says. *)
From Coq Require Import List Bool Arith.
From Verif Require Import ModelQueue.
Import ListNotations.

Definition offered (l : list qevent) : list entry := flat_map (fun x => match x with Offered e => [e] | _ => [] end) l.
Definition taken (l : list qevent) : list entry := flat_map (fun x => match x with Taken e => [e] | _ => [] end) l.
Definition withdrawn (l : list qevent) : list entry := flat_map (fun x => match x with Withdrawn e => [e] | _ => [] end) l.
Definition got (l : list qevent) : list entry := flat_map (fun x => match x with Got _ e => [e] | _ => [] end) l.
Definition got_by (t : nat) (l : list qevent) : list entry :=
  flat_map (fun x => match x with Got u e => if u =? t then [e] else [] | _ => [] end) l.
(** The puts that were not given up, in the order in which they came to the stream *)
Definition kept (l : list qevent) : list entry :=
  filter (fun e => negb (existsb (Nat.eqb (fst e)) (map fst (withdrawn l)))) (offered l).

Definition waiting_items (s : queue) : list entry := buf s ++ map snd (senders s).
Definition in_hand (s : queue) (t : nat) (e : entry) : Prop := phases s t = GetWait (Some (Some e)).
