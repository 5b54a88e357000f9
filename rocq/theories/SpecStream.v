(** Vocabulary for race, CompletionStream, retry and bcall. *)
From Coq Require Import List Bool Arith ZArith QArith.
From Verif Require Import PyBase ModelExc ModelGroup ModelStream ModelRetry.
Import ListNotations.
Local Close Scope Q_scope.
Local Open Scope nat_scope.
Local Open Scope list_scope.

(** The (index, value) pairs of the awaitables that succeeded, in the order in
    which they ended. *)
Fixpoint successes {V} (l : list (nat * res V)) : list (nat * V) :=
  match l with
  | [] => []
  | (i, Val v) :: l => (i, v) :: successes l
  | (_, Err _) :: l => successes l
  end.

(** The errors other than cancellations, in order. *)
Fixpoint failures {V} (l : list (nat * res V)) : list pyexc :=
  match l with
  | [] => []
  | (_, Val _) :: l => failures l
  | (_, Err e) :: l => if is_cancelled e then failures l else e :: failures l
  end.

(** What __anext__ returned. *)
Fixpoint items {V} (l : list (sout V)) : list (nat * V) :=
  match l with
  | [] => []
  | SItem p :: l => p :: items l
  | _ :: l => items l
  end.

Fixpoint calls {V} (l : list (rev V)) : list (res V) :=
  match l with [] => [] | YCall r :: l => r :: calls l | YSleep _ :: l => calls l end.
Fixpoint sleeps {V} (l : list (rev V)) : list Q :=
  match l with [] => [] | YCall _ :: l => sleeps l | YSleep d :: l => d :: sleeps l end.

(** How retry must treat the outcome of a call. *)
Definition retryable {V} (on : pyexc -> bool) (r : res V) : bool :=
  match r with Val _ => false | Err e => on e end.

(** l cut into pieces of n, the last possibly shorter, none empty. *)
Definition cut {A} (n : nat) (l : list A) (bs : list (list A)) : Prop :=
  concat bs = l /\ ~ In [] bs /\
  forall b rest pre, bs = pre ++ b :: rest -> length b <= n /\ (rest <> [] -> length b = n).

Definition any_failure {V} (l : list (nat * res V)) : bool :=
  existsb (fun p => match snd p with Val _ => false | Err _ => true end) l.

Definition s_active {V} (s : sst V) : nat :=
  count_occ (fun a b : bool => bool_dec a b) (map (fun p => match p with SRun => true | _ => false end) (s_tasks s)) true.
