(** Python exceptions as finite trees, and the code that inspects them.
    An [ExceptionGroup] is a [Group] whose members are all [Exception]s; with another
    member it is a [BaseExceptionGroup] (CPython's constructor picks the class).
    User subclasses of the group classes are left out. *)
From Coq Require Import String.
From Coq Require Import List Bool Arith.
From Verif Require Import PyBase.
Import ListNotations.
Local Open Scope string_scope.

Inductive pyexc :=
| Plain (cls msg : string)                 (* any other Exception *)
| Timeout (msg : string)                   (* builtin TimeoutError *)
| Lion (cls msg : string) (retry : bool)   (* LionherdError and subclasses *)
| Cancelled (msg : string)                 (* the backend's cancellation class *)
| BaseE (cls msg : string)                 (* KeyboardInterrupt, SystemExit, ... *)
| Group (oid : nat) (msg : string) (l : list pyexc).

(** isinstance(e, Exception) *)
Fixpoint is_exception (e : pyexc) : bool :=
  match e with
  | Cancelled _ | BaseE _ _ => false
  | Group _ _ l => forallb is_exception l
  | _ => true
  end.

(** isinstance(e, ExceptionGroup) and e.exceptions *)
Definition exception_group (e : pyexc) : option (list pyexc) :=
  match e with
  | Group _ _ l => if forallb is_exception l then Some l else None
  | _ => None
  end.

(** event.py:165-179 Execution.add_error; [fresh] is the identity of the new group.
    [None] stands for Unset or None.  ExceptionGroup(...) raises TypeError when a
    member is not an Exception. *)
Definition mk_exception_group (fresh : nat) (msg : string) (l : list pyexc) : outcome pyexc :=
  match l with
  | [] => Raise ValueError
  | _ => if forallb is_exception l then Ret (Group fresh msg l) else Raise TypeError
  end.

Definition add_error (fresh : nat) (cur : option pyexc) (e : pyexc) : outcome pyexc :=
  match cur with
  | None => Ret e
  | Some c =>
      match exception_group c with
      | Some l => mk_exception_group fresh "multiple errors" (l ++ [e])
      | None => mk_exception_group fresh "multiple errors" [c; e]
      end
  end.

(** event.py:103-163 Execution._serialize_exception_group. str(eg) is the message
    with the member count. *)
Inductive ser :=
| SErr (cls msg : string)
| SLion (cls msg : string) (retry : bool)
| SGroup (msg : string) (n : nat) (l : list ser)
| SDepth (n : nat)
| SCirc.

(** The count in str() of a group is left out. *)
Definition ser_leaf (e : pyexc) : ser :=
  match e with
  | Plain c m => SErr c m
  | Timeout m => SErr "TimeoutError" m
  | Lion c m r => SLion c m r
  | Cancelled m => SErr "CancelledError" m
  | BaseE c m => SErr c m
  | Group _ m l => SErr "BaseExceptionGroup" m
  end.

Definition MAX_DEPTH : nat := 100.

Fixpoint ser_group (depth : nat) (seen : list nat) (e : pyexc) : ser :=
  match e with
  | Group oid m l =>
      if (MAX_DEPTH <? depth)%nat then SDepth (List.length l)
      else if memb oid seen then SCirc
      else SGroup m (List.length l)
             (map (fun x => match exception_group x with
                            | Some _ => ser_group (S depth) (oid :: seen) x
                            | None => ser_leaf x
                            end) l)
  | _ => ser_leaf e
  end.

(** event.py:78-90 Execution.to_dict, the error part *)
Definition ser_error (err : option pyexc) : option ser :=
  match err with
  | None => None
  | Some e => match exception_group e with
              | Some _ => Some (ser_group 0 [] e)
              | None => Some (ser_leaf e)
              end
  end.

(** CPython's BaseExceptionGroup.split by a predicate on leaves, as used by
    libs/concurrency/_errors.py:52-67 split_cancellation.  A part is a list of zero
    or one exceptions. *)
Fixpoint split (p : pyexc -> bool) (e : pyexc) : option pyexc * option pyexc :=
  match e with
  | Group oid m l =>
      let parts := map (split p) l in
      let yes := flat_map (fun x => match fst x with Some e' => [e'] | None => [] end) parts in
      let no := flat_map (fun x => match snd x with Some e' => [e'] | None => [] end) parts in
      (match yes with [] => None | _ => Some (Group oid m yes) end,
       match no with [] => None | _ => Some (Group oid m no) end)
  | _ => if p e then (Some e, None) else (None, Some e)
  end.

Definition is_cancelled (e : pyexc) : bool := match e with Cancelled _ => true | _ => false end.

(** _errors.py:52-67, 70-80 *)
Definition split_cancellation (e : pyexc) := split is_cancelled e.
Definition non_cancel_subgroup (e : pyexc) := snd (split is_cancelled e).
