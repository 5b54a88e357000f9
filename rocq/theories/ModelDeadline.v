(** Model of /repo/src/lionherd_core/libs/concurrency/_cancel.py and of shield
    (_errors.py:34-46), on top of anyio's cancel scopes.

    One task runs a program of blocking work, waits and nested scopes.  Time is integral.
    What the scopes of anyio do is an assumption: a task is interrupted only in a wait; a
    wait ends with the cancellation at once if a scope around it (up to the innermost
    shielded one) is cancelled, and otherwise when the first of their deadlines comes; a
    wait of no time may still finish after a deadline; a scope whose deadline is not in
    the future is cancelled from the beginning; a cancelled scope stops the cancellation,
    and if one around it is cancelled as well, it may also pass it on (asyncio and trio
    differ); fail_after raises TimeoutError if its scope stopped the cancellation and the
    deadline has come.  The clock does not move between the two times fail_at reads it. *)
From Coq Require Import List Bool ZArith Lia.
Import ListNotations.
Local Open Scope Z_scope.

Record scope := Scope { deadline : option Z; called : bool; shielded : bool }.
(** The scopes around, innermost first, up to the innermost shielded one. *)
Fixpoint visible (st : list scope) : list scope :=
  match st with
  | [] => []
  | s :: st => s :: if shielded s then [] else visible st
  end.
Definition pending (st : list scope) : bool := existsb called (visible st).
Definition earlier (a b : option Z) : option Z :=
  match a, b with Some a, Some b => Some (Z.min a b) | Some a, None => Some a | None, b => b end.
Definition limit (st : list scope) : option Z := fold_right earlier None (map deadline (visible st)).

(** effective_deadline, 78-85: anyio answers -inf under a cancelled scope, and isinf holds
    for both infinities. *)
Definition effective_deadline (st : list scope) : option Z :=
  if pending st then None else limit st.

Inductive kind :=
| Fail_after (seconds : option Z) | Move_on_after (seconds : option Z)
| Fail_at (d : option Z) | Move_on_at (d : option Z)
| Shield.
(** 26-75: the deadline that the scope gets at time [now]; None: no deadline *)
Definition starts (k : kind) (now : Z) : option Z :=
  match k with
  | Fail_after None | Move_on_after None | Fail_at None | Move_on_at None | Shield => None
  | Fail_after (Some s) | Move_on_after (Some s) => Some (now + s)
  | Fail_at (Some d) | Move_on_at (Some d) => Some (now + Z.max 0 (d - now))
  end.
Definition past (d : option Z) (now : Z) : bool := match d with Some d => d <=? now | None => false end.
Definition enter (k : kind) (now : Z) : scope :=
  Scope (starts k now) (past (starts k now) now) (match k with Shield => true | _ => false end).
(** What follows when the scope stops the cancellation at time [now]. *)
Inductive res := Done | Cancelled | Timeout | Error.
Definition stopped (k : kind) (s : scope) (now : Z) : res :=
  match k with
  | Fail_after (Some _) | Fail_at (Some _) => if past (deadline s) now then Timeout else Done
  | _ => Done
  end.

Inductive prog :=
| Work (n : nat)                       (* keeps the event loop for n *)
| Wait (n : option nat)                (* awaits something that comes after n, or never *)
| Raises
| Cancel (i : nat)                     (* calls cancel() of the i-th scope around *)
| Seq (p q : prog)
| Try (p q : prog)                     (* try p except Exception: q *)
| Within (k : kind) (p : prog).

(** Deadlines that have come may have cancelled their scopes. *)
Definition may_fire (now : Z) (s s' : scope) : Prop :=
  deadline s' = deadline s /\ shielded s' = shielded s /\
  (called s' = called s \/ called s' = true /\ past (deadline s) now = true).
Definition later (now : Z) : list scope -> list scope -> Prop := Forall2 (may_fire now).
Fixpoint cancel (i : nat) (st : list scope) : list scope :=
  match st, i with
  | [], _ => []
  | s :: st, O => Scope (deadline s) true (shielded s) :: st
  | s :: st, S i => s :: cancel i st
  end.

Inductive run : prog -> Z -> list scope -> Z -> list scope -> res -> Prop :=
| R_work n t st : run (Work n) t st (t + Z.of_nat n) st Done
| R_pending n t st : pending st = true -> run (Wait n) t st t st Cancelled
| R_wait n t st st' : pending st = false ->
    (n = O \/ forall d, limit st = Some d -> t + Z.of_nat n <= d) -> later (t + Z.of_nat n) st st' ->
    run (Wait (Some n)) t st (t + Z.of_nat n) st' Done
| R_deadline n t st d st' : pending st = false -> limit st = Some d ->
    match n with Some n => d <= t + Z.of_nat n | None => True end ->
    later (Z.max t d) st st' -> pending st' = true ->
    run (Wait n) t st (Z.max t d) st' Cancelled
| R_raises t st : run Raises t st t st Error
| R_cancel i t st : run (Cancel i) t st t (cancel i st) Done
| R_seq p q t st t1 st1 t2 st2 r : run p t st t1 st1 Done -> run q t1 st1 t2 st2 r -> run (Seq p q) t st t2 st2 r
| R_seq_end p q t st t1 st1 r : run p t st t1 st1 r -> r <> Done -> run (Seq p q) t st t1 st1 r
| R_try p q t st t1 st1 r : run p t st t1 st1 r -> r = Done \/ r = Cancelled -> run (Try p q) t st t1 st1 r
| R_except p q t st t1 st1 r t2 st2 r' : run p t st t1 st1 r -> r = Timeout \/ r = Error ->
    run q t1 st1 t2 st2 r' -> run (Try p q) t st t2 st2 r'
| R_within k p t st t1 s st1 r : run p t (enter k t :: st) t1 (s :: st1) r -> r <> Cancelled ->
    run (Within k p) t st t1 st1 r
| R_stop k p t st t1 s st1 : run p t (enter k t :: st) t1 (s :: st1) Cancelled -> called s = true ->
    run (Within k p) t st t1 st1 (stopped k s t1)
| R_pass k p t st t1 s st1 : run p t (enter k t :: st) t1 (s :: st1) Cancelled ->
    called s = false \/ pending st1 = true ->
    run (Within k p) t st t1 st1 Cancelled.
