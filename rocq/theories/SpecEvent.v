(** Vocabulary for statements about events. *)
From Coq Require Import String.
From Coq Require Import List Bool Arith ZArith.
From Verif Require Import PyBase ModelExc ModelEvent SpecExc.
Import ListNotations.

Section S.
  Context {V : Type}.

  Definition terminal (s : status) : Prop := s = COMPLETED \/ s = FAILED \/ s = CANCELLED \/ s = SKIPPED \/ s = ABORTED.

  (** What counts as running out of time, and as a failure of the operation. *)
  Definition ran_out (d : did V) : Prop := d = Expired \/ exists m, d = Threw (Timeout m).
  Definition is_group (e : pyexc) : Prop := exists o m l, e = Group o m l.

  (** The result a caller can rely on after one uncontended invoke of a PENDING event. *)
  Definition expected (d : did V) (x : execution V) (raised : option pyexc) : Prop :=
    (forall v, d = Returned v ->
       x_status x = COMPLETED /\ x_response x = Some v /\ x_error x = ENone /\
       x_retryable x = Some false /\ raised = None) /\
    (ran_out d -> exists m,
       x_status x = CANCELLED /\ x_response x = None /\ x_error x = EExc (Lion "TimeoutError" m true) /\
       x_retryable x = Some true /\ raised = None) /\
    (forall e, d = Threw e -> ~ ran_out d -> is_exception e = true ->
       x_status x = FAILED /\ x_response x = None /\ x_error x = EExc e /\ raised = None /\
       exists b, x_retryable x = Some b) /\
    (forall m, d = Threw (Cancelled m) ->
       x_status x = CANCELLED /\ x_response x = None /\ x_error x = EExc (Cancelled m) /\
       x_retryable x = Some true /\ raised = Some (Cancelled m)).

  (** At rest: no caller can take a step and the operation is not running. *)
  Definition e_rest (c : econf V) : Prop :=
    forall t p, nth_error (e_tasks c) t = Some p -> p <> EHold /\ p <> ERun /\ (e_owner c = None -> p <> EStart).

  (** A run in which every action has an effect. *)
  Fixpoint ebusy (c : econf V) (s : list (eact V)) : Prop :=
    match s with
    | [] => True
    | a :: s' => estep c a <> c /\ ebusy (estep c a) s'
    end.
End S.
