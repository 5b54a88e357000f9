(** Model of base/event.py: class Event (invoke, status setter, as_fresh_event).
    [V] is the type of responses and field values, times are integers.  What the
    user's operation does is an input: it returns, raises, or runs into the
    deadline of [fail_after]. *)
From Coq Require Import String.
From Coq Require Import List Bool Arith ZArith.
From Verif Require Import PyBase ModelHeap ModelExc.
Import ListNotations.

Inductive status := PENDING | PROCESSING | COMPLETED | FAILED | CANCELLED | SKIPPED | ABORTED.

#[global] Instance EqB_status : EqB status.
Proof.
  refine {| eqb := fun a b => match a, b with
    | PENDING, PENDING | PROCESSING, PROCESSING | COMPLETED, COMPLETED | FAILED, FAILED
    | CANCELLED, CANCELLED | SKIPPED, SKIPPED | ABORTED, ABORTED => true
    | _, _ => false end |}.
  intros [] []; constructor; congruence.
Defined.

Section Event.
  Context {V : Type}.

  (** MaybeUnset[BaseException] | None *)
  Inductive err := EUnset | ENone | EExc (e : pyexc).

  (** event.py:48-65 *)
  Record execution := Exec {
    x_status : status;
    x_duration : option Z;
    x_response : option V;      (* None: Unset *)
    x_error : err;
    x_retryable : option bool
  }.
  Definition exec0 : execution := Exec PENDING None None EUnset None.

  (** What [await self._invoke()] did.  [Expired]: the deadline of fail_after passed
      and its scope was cancelled, so fail_after raises TimeoutError. *)
  Inductive did := Returned (v : V) | Threw (e : pyexc) | Expired.

  (** event.py:297-310 *)
  Definition classify (e : pyexc) : bool :=
    match exception_group e with
    | Some l => negb (existsb (fun x => match x with Lion _ _ r => negb r | _ => false end) l)
    | None => match e with Lion _ _ r => r | _ => true end
    end.

  Definition timeout_error : pyexc := Lion "TimeoutError" "Operation timed out" true.

  (** event.py:266-328: the effect of finishing with [d]; the second component is
      what propagates to the caller. *)
  Definition settle (x : execution) (d : did) (dur : Z) : execution * option pyexc :=
    let timed_out := (Exec CANCELLED (Some dur) None (EExc timeout_error) (Some true), None) in
    match d with
    | Returned v => (Exec COMPLETED (Some dur) (Some v) ENone (Some false), None)
    | Expired => timed_out
    | Threw (Timeout _) => timed_out
    | Threw e =>
        if is_exception e then (Exec FAILED (Some dur) None (EExc e) (Some (classify e)), None)
        else match e with
             | Cancelled _ => (Exec CANCELLED (Some dur) None (EExc e) (Some true), Some e)
             | _ => (Exec (x_status x) (Some dur) (x_response x) (x_error x) (x_retryable x), Some e)
             end
    end.

  (** event.py:267 *)
  Definition begin (x : execution) : execution :=
    Exec PROCESSING (x_duration x) (x_response x) (x_error x) (x_retryable x).

  (** event.py:246-328 without contention; [None]: the operation was not started *)
  Definition invoke (x : execution) (d : did) (dur : Z) : execution * option pyexc * bool :=
    match x_status x with
    | PENDING => let (x', r) := settle (begin x) d dur in (x', r, true)
    | _ => (x, None, false)
    end.

  (** ** Concurrent callers.  The lock admits waiting callers in any order. *)
  Inductive epc := EStart | EHold | ERun | EDone (r : option pyexc) | EGone.
  Record econf := EConf {
    e_exec : execution;
    e_owner : option nat;
    e_tasks : list epc;
    e_starts : nat               (* how often _invoke has been started *)
  }.

  Inductive eact :=
  | EStep (t : nat)                              (* caller t takes its next step *)
  | EFinish (t : nat) (d : did) (dur : Z)        (* the operation run by t ends *)
  | ECancel (t : nat).                           (* t is cancelled while waiting for the lock *)

  Definition estep (c : econf) (a : eact) : econf :=
    match a with
    | EStep t =>
        match nth_error (e_tasks c) t with
        | Some EStart =>
            match e_owner c with
            | None => EConf (e_exec c) (Some t) (upd t EHold (e_tasks c)) (e_starts c)
            | Some _ => c
            end
        | Some EHold =>
            match x_status (e_exec c) with
            | PENDING => EConf (begin (e_exec c)) (e_owner c) (upd t ERun (e_tasks c)) (S (e_starts c))
            | _ => EConf (e_exec c) None (upd t (EDone None) (e_tasks c)) (e_starts c)
            end
        | _ => c
        end
    | EFinish t d dur =>
        match nth_error (e_tasks c) t with
        | Some ERun => let (x, r) := settle (e_exec c) d dur in
                       EConf x None (upd t (EDone r) (e_tasks c)) (e_starts c)
        | _ => c
        end
    | ECancel t =>
        match nth_error (e_tasks c) t with
        | Some EStart => EConf (e_exec c) (e_owner c) (upd t EGone (e_tasks c)) (e_starts c)
        | Some EHold => EConf (e_exec c) None (upd t EGone (e_tasks c)) (e_starts c)
        | _ => c
        end
    end.
  Definition erun (c : econf) (s : list eact) : econf := fold_left estep s c.
  Definition einit (x : execution) (n : nat) : econf := EConf x None (repeat EStart n) 0.

  (** ** event.py:334-354 as_fresh_event.
      Metadata values are either user values or the "original" record; [fields] are
      the other model fields, assumed to survive model_dump and re-validation. *)
  Inductive metav := MUser (v : V) | MOriginal (id : uuid) (created : Z).
  Record event := Event {
    ev_id : uuid;
    ev_created : Z;
    ev_meta : dict string metav;
    ev_exec : execution;
    ev_timeout : option Z;
    ev_streaming : bool;
    ev_fields : dict string V
  }.

  Definition as_fresh_event (newid : uuid) (now : Z) (e : event) (copy_meta : bool) : event :=
    (* timeout and streaming are declared exclude=True, so to_dict drops them *)
    let fresh := Event newid now [] exec0 None false (ev_fields e) in
    let timeout := match ev_timeout e with Some _ => ev_timeout e | None => ev_timeout fresh end in
    let meta := if copy_meta then ev_meta e else ev_meta fresh in
    Event newid now (dset "original"%string (MOriginal (ev_id e) (ev_created e)) meta)
          exec0 timeout false (ev_fields e).
End Event.
Arguments execution : clear implicits.
Arguments did : clear implicits.
Arguments econf : clear implicits.
Arguments eact : clear implicits.
Arguments event : clear implicits.
