(** Vocabulary for statements about process() calls that are cut short. *)
From Coq Require Import List Bool Arith ZArith.
From Verif Require Import PyBase ModelHeap ModelEvent ModelProcessor SpecProcessor ModelInterrupt.
Import ListNotations.

Definition inormal (a : iact) : Prop := match a with IDo a => normal a | _ => True end.
Definition ireach (k : cfg) (ok : iact -> Prop) (x : ist) : Prop :=
  exists l, Forall ok l /\ x = irun k (ist0 k) l.
Fixpoint ialways (k : cfg) (P : pst -> Prop) (x : ist) (l : list iact) : Prop :=
  P (i_s x) /\ match l with [] => True | a :: t => ialways k P (iact1 k x a) t end.

(** The call is over. *)
Definition call_over (p : tpc) : bool := match p with ADone | AErr _ _ => true | _ => false end.

(** [u] is listed under [y] only, has status [st], and is neither queued, nor being
    decided on, nor running. *)
Definition stranded (s : pst) (u : uuid) (y st : status) : Prop :=
  In u (items s) /\ (forall z, In u (progs s z) <-> z = y) /\ status_of s u = st /\
  ~ In u (waiting_ids s) /\ ~ In u (running_ids s).

(** No process() call or event is under way, except calls that found nothing to do. *)
Definition quiet (p : tpc) : bool :=
  match p with APut _ _ | ABackPut _ _ _ | LJoin 0 | KDone _ _ | ADone | AErr _ _ => true | _ => false end.
Definition worn_out (s : pst) : Prop := (avail s <= 0)%Z /\ forall p, In p (tasks s) -> quiet p = true.
