(** Concurrent use of libs/concurrency/_priority_queue.py: class PriorityQueue.
    Any number of tasks, each making one call, interleaved at every suspension
    point.  The condition variable is anyio's: a FIFO lock that is handed to the
    first task queued for it, and a FIFO list of waiters of which [notify] wakes the
    first.  A critical section runs without interruption: [Condition.wait] yields
    once before it enlists the waiter, but the lock is held there, so no other task
    can touch the queue or the waiters.  A cancelled task may be cancelled at any of
    its suspension points; the shielded re-acquisition of the lock on the way out is
    left out (it touches nothing). *)
From Coq Require Import List Bool Arith.
From Verif Require Import PyBase ModelHeap.
Import ListNotations.

Section PQ.
  Context {A : Type}.
  Variable lt : A -> A -> bool.

  Inductive call := CPut (x : A) | CPutNW (x : A) | CGet | CGetNW.

  (** [Start]: not yet at the lock; [Queued]: waiting for the lock; [Hold]: owns it;
      [Waiting]: in [Condition.wait]; [Notified]: woken, must re-acquire the lock. *)
  Inductive pc := Start | Queued | Hold | Waiting | Notified | Done (r : @pq_out A) | Gone.

  Record conf := Conf {
    c_q : @pq A;
    c_tasks : list (call * pc);
    c_owner : option nat;
    c_lockq : list nat;
    c_condq : list nat
  }.

  Definition set_pc (t : nat) (p : pc) (l : list (call * pc)) : list (call * pc) :=
    match nth_error l t with
    | Some (k, _) => upd t (k, p) l
    | None => l
    end.

  (** anyio Lock.acquire *)
  Definition acquire (c : conf) (t : nat) : conf :=
    match c_owner c with
    | None => Conf (c_q c) (set_pc t Hold (c_tasks c)) (Some t) (c_lockq c) (c_condq c)
    | Some _ => Conf (c_q c) (set_pc t Queued (c_tasks c)) (c_owner c) (c_lockq c ++ [t]) (c_condq c)
    end.

  (** anyio Lock.release: direct hand-over *)
  Definition release (c : conf) : conf :=
    match c_lockq c with
    | [] => Conf (c_q c) (c_tasks c) None [] (c_condq c)
    | u :: r => Conf (c_q c) (set_pc u Hold (c_tasks c)) (Some u) r (c_condq c)
    end.

  (** anyio Condition.notify(1) *)
  Definition notify (c : conf) : conf :=
    match c_condq c with
    | [] => c
    | u :: r => Conf (c_q c) (set_pc u Notified (c_tasks c)) (c_owner c) (c_lockq c) r
    end.

  Definition finish (c : conf) (t : nat) (r : @pq_out A) : conf :=
    release (Conf (c_q c) (set_pc t (Done r) (c_tasks c)) (c_owner c) (c_lockq c) (c_condq c)).

  (** Condition.wait up to the suspension *)
  Definition wait (c : conf) (t : nat) : conf :=
    release (Conf (c_q c) (set_pc t Waiting (c_tasks c)) (c_owner c) (c_lockq c) (c_condq c ++ [t])).

  Definition set_q (c : conf) (q : pq) : conf :=
    Conf q (c_tasks c) (c_owner c) (c_lockq c) (c_condq c).

  Definition do_put (c : conf) (t : nat) (x : A) : conf :=
    finish (notify (set_q c (PQ (pq_max (c_q c)) (heappush lt (pq_heap (c_q c)) x)))) t QUnit.

  (** _priority_queue.py:43-105: from holding the lock to the next suspension *)
  Definition body (c : conf) (t : nat) (k : call) : conf :=
    match k with
    | CPut x => if pq_full (c_q c) then wait c t else do_put c t x
    | CPutNW x => if pq_full (c_q c) then finish c t QFullErr else do_put c t x
    | CGet => match heappop lt (pq_heap (c_q c)) with
              | None => wait c t
              | Some (x, h) => finish (notify (set_q c (PQ (pq_max (c_q c)) h))) t (QItem x)
              end
    | CGetNW => match heappop lt (pq_heap (c_q c)) with
                | None => finish c t QEmptyErr
                | Some (x, h) => finish (notify (set_q c (PQ (pq_max (c_q c)) h))) t (QItem x)
                end
    end.

  Inductive act := Run (t : nat) | Cancel (t : nat).

  Definition without (t : nat) (l : list nat) : list nat := filter (fun u => negb (u =? t)) l.

  Definition pstep (c : conf) (a : act) : conf :=
    match a with
    | Run t =>
        match nth_error (c_tasks c) t with
        | Some (_, Start) => acquire c t
        | Some (_, Notified) => acquire c t
        | Some (k, Hold) => body c t k
        | _ => c
        end
    | Cancel t =>
        match nth_error (c_tasks c) t with
        | Some (_, Done _) | Some (_, Gone) | None => c
        | Some (_, Hold) =>
            release (Conf (c_q c) (set_pc t Gone (c_tasks c)) (c_owner c) (c_lockq c) (c_condq c))
        | Some (_, _) =>
            Conf (c_q c) (set_pc t Gone (c_tasks c)) (c_owner c)
                 (without t (c_lockq c)) (without t (c_condq c))
        end
    end.

  Definition prun (c : conf) (s : list act) : conf := fold_left pstep s c.

  Definition pinit (q : pq) (calls : list call) : conf :=
    Conf q (map (fun k => (k, Start)) calls) None [] [].
End PQ.
Arguments CPut {A}. Arguments CPutNW {A}. Arguments CGet {A}. Arguments CGetNW {A}.
Arguments Start {A}. Arguments Queued {A}. Arguments Hold {A}. Arguments Waiting {A}.
Arguments Notified {A}. Arguments Done {A}. Arguments Gone {A}.
