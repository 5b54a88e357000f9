(** Vocabulary for statements about flows. *)
From Coq Require Import String.
From Coq Require Import List Bool Arith.
From Verif Require Import PyBase ModelProgression ModelPile SpecPile ModelFlow.
Import ListNotations.

(** The progressions a flow holds. *)
Definition held (f : flow) (p : prog) : Prop := In p (dvals (f_progs f)).

(** Every id listed by a held progression is the id of a stored item. *)
Definition integrity (f : flow) : Prop :=
  forall p u, held f p -> In u (pg_order p) -> pile_contains (f_items f) (RId u) = true.

(** No held progression lists an id twice. *)
Definition no_repeats (f : flow) : Prop := forall p, held f p -> NoDup (pg_order p).

(** The progression carries this (non-empty) name. *)
Definition carries (p : prog) (s : string) : Prop := pg_name p = Some s /\ s <> ""%string.

(** A flow over an empty or well-formed items pile and no progressions. *)
Definition fresh_flow (sub : cls -> cls -> bool) (f : flow) : Prop :=
  reachable sub (f_items f) /\ f_progs f = [] /\ f_names f = [].

(** The id of the held progression that an [add_item] designator refers to, as
    answered by [get_progression] (an instance designates itself if it is held). *)
Definition designates (f : flow) (r : fref) : option uuid :=
  match r with
  | FInst p stored => if stored then Some (pg_id p) else None
  | _ => match get_progression f r with Ret (FProgV p) => Some (pg_id p) | _ => None end
  end.

(** How many of the designators refer to the progression with id [k]. *)
Definition times (f : flow) (rs : list fref) (k : uuid) : nat :=
  length (filter (fun r => match designates f r with Some k' => Nat.eqb k k' | None => false end) rs).
