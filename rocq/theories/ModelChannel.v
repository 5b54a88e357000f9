(** Model of Queue, /repo/src/lionherd_core/libs/concurrency/_primitives.py:134-183, on top
    of anyio's memory object streams (send_nowait, send, receive_nowait, receive and close
    of anyio/streams/memory.py, which are assumptions).

    A call is atomic up to the point where it waits; what a waiting call returns is decided
    when it is woken.  A woken call is not cancelled any more (anyio delivers cancellations
    only to tasks whose wait is not over).  aclose of a stream closes it and then gives way
    to other tasks, so close() is two steps with other steps in between; it can be cancelled
    there and then makes only the first.  Calls are numbered in the order in which they reach
    the stream (put and get first pass a checkpoint of anyio). *)
From Coq Require Import List Bool Arith.
Import ListNotations.

Section Channel.
  Context {A : Type}.
  Variable maxsize : option nat.           (* None: math.inf *)

  Record queue := Queue {
    buffer : list (nat * A);               (* with the numbers of the puts *)
    senders : list (nat * A);              (* waiting puts *)
    receivers : list nat;                  (* waiting gets *)
    send_closed : bool; recv_closed : bool;
    next : nat }.
  Definition new : queue := Queue [] [] [] false false 0.

  Inductive err := WouldBlock | Closed | Broken | EndOfStream | CancelledErr.
  Inductive event :=
  | Accepted (i : nat) (x : A)             (* put i, which did not fail at once *)
  | PutDone (i : nat) | PutFails (i : nat) (e : err)
  | Asked (j : nat)                        (* get j, which did not fail at once *)
  | Got (j i : nat) (x : A) | GetFails (j : nat) (e : err).

  Inductive op :=
  | Put (x : A) | PutNowait (x : A) | Get | GetNowait
  | CancelPut (i : nat) | CancelGet (j : nat)
  | CloseSend | CloseRecv.                 (* the two steps of close *)

  Definition room (q : queue) : bool :=
    match maxsize with Some n => length (buffer q) <? n | None => true end.

  (** send_nowait and send *)
  Definition put (wait : bool) (x : A) (q : queue) : queue * list event :=
    let i := next q in
    let q' := Queue (buffer q) (senders q) (receivers q) (send_closed q) (recv_closed q) (S i) in
    if send_closed q then (q', [PutFails i Closed])
    else if recv_closed q then (q', [PutFails i Broken])
    else match receivers q with
         | j :: rs => (Queue (buffer q) (senders q) rs (send_closed q) (recv_closed q) (S i),
                       [Accepted i x; PutDone i; Got j i x])
         | [] => if room q
                 then (Queue (buffer q ++ [(i, x)]) (senders q) [] (send_closed q) (recv_closed q) (S i),
                       [Accepted i x; PutDone i])
                 else if wait
                      then (Queue (buffer q) (senders q ++ [(i, x)]) [] (send_closed q) (recv_closed q) (S i),
                            [Accepted i x])
                      else (q', [PutFails i WouldBlock])
         end.
  (** receive_nowait and receive *)
  Definition get (wait : bool) (q : queue) : queue * list event :=
    let j := next q in
    if recv_closed q then (Queue (buffer q) (senders q) (receivers q) (send_closed q) true (S j), [GetFails j Closed])
    else let '(buf, ss, ev) := match senders q with
                               | (i, y) :: ss => (buffer q ++ [(i, y)], ss, [PutDone i])
                               | [] => (buffer q, [], [])
                               end in
         match buf with
         | (i, x) :: buf => (Queue buf ss (receivers q) (send_closed q) false (S j), ev ++ [Asked j; Got j i x])
         | [] => if send_closed q
                 then (Queue [] ss (receivers q) true false (S j), [GetFails j EndOfStream])
                 else if wait
                      then (Queue [] ss (receivers q ++ [j]) false false (S j), [Asked j])
                      else (Queue [] ss (receivers q) false false (S j), [GetFails j WouldBlock])
         end.

  Definition step (o : op) (q : queue) : queue * list event :=
    match o with
    | Put x => put true x q
    | PutNowait x => put false x q
    | Get => get true q
    | GetNowait => get false q
    | CancelPut i =>
        if existsb (fun s => fst s =? i) (senders q)
        then (Queue (buffer q) (filter (fun s => negb (fst s =? i)) (senders q)) (receivers q) (send_closed q) (recv_closed q) (next q),
              [PutFails i CancelledErr])
        else (q, [])
    | CancelGet j =>
        if existsb (Nat.eqb j) (receivers q)
        then (Queue (buffer q) (senders q) (filter (fun r => negb (r =? j)) (receivers q)) (send_closed q) (recv_closed q) (next q),
              [GetFails j CancelledErr])
        else (q, [])
    | CloseSend =>                         (* waiting gets find no item *)
        (Queue (buffer q) (senders q) [] true (recv_closed q) (next q),
         map (fun j => GetFails j EndOfStream) (receivers q))
    | CloseRecv =>                         (* after the first; waiting puts find themselves still waiting *)
        if send_closed q
        then (Queue (buffer q) [] (receivers q) true true (next q),
              map (fun s => PutFails (fst s) Broken) (senders q))
        else (q, [])
    end.
  Fixpoint run (os : list op) (q : queue) : queue * list event :=
    match os with
    | [] => (q, [])
    | o :: os => let '(q1, e1) := step o q in let '(q2, e2) := run os q1 in (q2, e1 ++ e2)
    end.
End Channel.
Arguments new {A}. Arguments Got {A}. Arguments Asked {A}. Arguments GetFails {A}. Arguments PutDone {A}. Arguments PutFails {A}.
Arguments Get {A}. Arguments GetNowait {A}. Arguments CancelPut {A}. Arguments CancelGet {A}. Arguments CloseSend {A}. Arguments CloseRecv {A}.
