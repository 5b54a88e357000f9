(** libs/concurrency/_primitives.py:133-191 (Queue), over anyio's memory object streams.

    anyio is described as in its source: a buffer, senders and receivers that wait in order of
    arrival; an item goes to the first waiting receiver, else into the buffer if there is room,
    else the sender waits; a receiver moves the item of the first waiting sender to the end of
    the buffer and takes the first item of the buffer.  A task that waits can be cancelled until
    it is woken (anyio does not cancel a task whose wait is over).  Closing the sending end wakes
    all waiting receivers without an item; closing the receiving end wakes all waiting senders.

    Tasks interleave at suspension points.  Every put that gets as far as the stream is given a
    number; items are pairs of number and value.  Left out: several queues on one stream, native
    asyncio cancellation, the typing generics. *)
From Coq Require Import List Bool Arith.
From Verif Require Import PyBase.
Import ListNotations.

Definition entry := (nat * nat)%type.

Inductive qop := Put (v : nat) | PutNowait (v : nat) | Get | GetNowait | Close.

Inductive qexn := Closed | Broken | EndOfStream | WouldBlock | Cancelled.

Inductive phase :=
| Idle
| Putting (v : nat)                          (* put: not yet at the stream *)
| PutWait (e : entry) (woken : bool)
| Getting
| GetWait (w : option (option entry))        (* None: waits; Some o: woken with or without an item *)
| Closing                                     (* sending end closed *)
| Closed2.                                    (* both closed *)

Inductive qevent :=
| Offered (e : entry)                        (* a put reached the stream and did not fail at once *)
| Taken (e : entry)                          (* given to a receiver *)
| Withdrawn (e : entry)                      (* the waiting put gave up *)
| PutOk (t : nat) (e : entry)
| Got (t : nat) (e : entry)
| ClosedOk (t : nat)
| Failed (t : nat) (x : qexn).

Record queue := Queue {
  buf : list entry;
  senders : list (nat * entry);              (* waiting, first come first *)
  receivers : list nat;
  no_send : bool; no_recv : bool;            (* ends closed *)
  number : nat;
  phases : nat -> phase;
  trace : list qevent
}.

Definition start : queue := Queue [] [] [] false false 0 (fun _ => Idle) [].

Section Queue.
(** max_buffer_size; None: math.inf *)
Variable size : option nat.

Definition room (b : list entry) : bool := match size with None => true | Some n => length b <? n end.

Definition set (p : nat -> phase) (t : nat) (x : phase) : nat -> phase := fun u => if u =? t then x else p u.

Definition to (s : queue) (t : nat) (x : phase) (l : list qevent) : queue :=
  Queue (buf s) (senders s) (receivers s) (no_send s) (no_recv s) (number s) (set (phases s) t x) (trace s ++ l).
Definition fails (s : queue) (t : nat) (x : qexn) : queue := to s t Idle [Failed t x].

(** send_nowait, by task t, which returns; None: WouldBlock *)
Definition send_nowait (s : queue) (t v : nat) : option queue :=
  let e := (number s, v) in
  if no_send s then Some (fails s t Closed)
  else if no_recv s then Some (fails s t Broken)
  else match receivers s with
       | r :: rs =>
           Some (Queue (buf s) (senders s) rs false false (S (number s))
                   (set (set (phases s) r (GetWait (Some (Some e)))) t Idle)
                   (trace s ++ [Offered e; Taken e; PutOk t e]))
       | [] => if room (buf s)
               then Some (Queue (buf s ++ [e]) (senders s) [] false false (S (number s))
                            (set (phases s) t Idle) (trace s ++ [Offered e; PutOk t e]))
               else None
       end.

(** receive_nowait by task t, which returns; None: WouldBlock *)
Definition receive_nowait (s : queue) (t : nat) : option queue :=
  if no_recv s then Some (fails s t Closed)
  else
    let '(b, ss, p) := match senders s with
                       | (u, e) :: ss => (buf s ++ [e], ss, set (phases s) u (PutWait e true))
                       | [] => (buf s, [], phases s)
                       end in
    match b with
    | e :: b => Some (Queue b ss (receivers s) (no_send s) false (number s) (set p t Idle) (trace s ++ [Taken e; Got t e]))
    | [] => if no_send s then Some (fails s t EndOfStream) else None
    end.

(** send.close(), receive.close() *)
Definition wake_receivers (s : queue) : nat -> phase :=
  fold_right (fun r p => set p r (GetWait (Some None))) (phases s) (receivers s).
Definition wake_senders (s : queue) : nat -> phase :=
  fold_right (fun x p => set p (fst x) (PutWait (snd x) true)) (phases s) (senders s).
Definition close_send (s : queue) : queue :=
  if no_send s then s
  else Queue (buf s) (senders s) [] true (no_recv s) (number s) (wake_receivers s) (trace s).
Definition close_recv (s : queue) : queue :=
  if no_recv s then s
  else Queue (buf s) (senders s) (receivers s) (no_send s) true (number s) (wake_senders s) (trace s).

Definition drop (t : nat) (l : list (nat * entry)) : list (nat * entry) := filter (fun x => negb (fst x =? t)) l.

Inductive qact := Call (t : nat) (o : qop) | Step (t : nat) | Cancel (t : nat).

Definition qstep (s : queue) (a : qact) : queue :=
  match a with
  | Call t o =>
      match phases s t with
      | Idle =>
          match o with
          | Put v => to s t (Putting v) []
          | PutNowait v => match send_nowait s t v with Some s' => s' | None => fails s t WouldBlock end
          | Get => to s t Getting []
          | GetNowait => match receive_nowait s t with Some s' => s' | None => fails s t WouldBlock end
          | Close => to (close_send s) t Closing []                                        (* 165 *)
          end
      | _ => s
      end
  | Step t =>
      match phases s t with
      | Idle => s
      | Putting v =>
          match send_nowait s t v with
          | Some s' => s'
          | None => let e := (number s, v) in
                    Queue (buf s) (senders s ++ [(t, e)]) (receivers s) (no_send s) (no_recv s) (S (number s))
                      (set (phases s) t (PutWait e false)) (trace s ++ [Offered e])
          end
      | PutWait e false => s
      | PutWait e true =>
          if existsb (fun x => fst x =? t) (senders s)
          then Queue (buf s) (drop t (senders s)) (receivers s) (no_send s) (no_recv s) (number s)
                 (set (phases s) t Idle) (trace s ++ [Withdrawn e; Failed t Broken])
          else to s t Idle [PutOk t e]
      | Getting =>
          match receive_nowait s t with
          | Some s' => s'
          | None => Queue (buf s) (senders s) (receivers s ++ [t]) (no_send s) (no_recv s) (number s)
                      (set (phases s) t (GetWait None)) (trace s)
          end
      | GetWait None => s
      | GetWait (Some (Some e)) => to s t Idle [Got t e]
      | GetWait (Some None) => fails s t EndOfStream
      | Closing => to (close_recv s) t Closed2 []                                          (* 166 *)
      | Closed2 => to s t Idle [ClosedOk t]
      end
  | Cancel t =>
      match phases s t with
      | Putting _ | Getting | Closing | Closed2 => fails s t Cancelled
      | PutWait e false =>
          Queue (buf s) (drop t (senders s)) (receivers s) (no_send s) (no_recv s) (number s)
            (set (phases s) t Idle) (trace s ++ [Withdrawn e; Failed t Cancelled])
      | GetWait None =>
          Queue (buf s) (senders s) (filter (fun r => negb (r =? t)) (receivers s)) (no_send s) (no_recv s) (number s)
            (set (phases s) t Idle) (trace s ++ [Failed t Cancelled])
      | _ => s
      end
  end.

Definition qrun (l : list qact) : queue := fold_left qstep l start.
End Queue.

(** with_maxsize, 141-144: anyio refuses a negative size; None stands for math.inf. *)
Definition with_maxsize (n : option BinNums.Z) : outcome (option nat) :=
  match n with
  | None => Ret None
  | Some z => if BinInt.Z.ltb z BinNums.Z0 then Raise ValueError else Ret (Some (BinInt.Z.to_nat z))
  end.
