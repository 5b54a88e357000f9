(** Model of CPython's heapq (heappush, heappop) and of the non-blocking part of
    libs/concurrency/_priority_queue.py: class PriorityQueue.
    Items are compared by an arbitrary boolean [lt] (Python's [<]). *)
From Coq Require Import List Bool Arith.
From Verif Require Import PyBase.
Import ListNotations.

(** [l[i] = x] for i in range *)
Fixpoint upd {A} (i : nat) (x : A) (l : list A) : list A :=
  match l, i with
  | [], _ => []
  | _ :: t, O => x :: t
  | y :: t, S i' => y :: upd i' x t
  end.

Section Heap.
  Context {A : Type}.
  Variable lt : A -> A -> bool.

  (** heapq._siftdown with startpos = 0.  [fuel] bounds the depth; the theorems hold
      for every fuel at least [pos]. *)
  Fixpoint siftdown (fuel : nat) (h : list A) (pos : nat) (x : A) : list A :=
    match fuel, pos with
    | S fuel', S _ =>
        let p := (pos - 1) / 2 in
        let parent := nth p h x in
        if lt x parent then siftdown fuel' (upd pos parent h) p x else upd pos x h
    | _, _ => upd pos x h
    end.

  (** heapq._siftup: move the smaller child up until a leaf is hit, then sift down *)
  Fixpoint siftup (fuel : nat) (h : list A) (pos : nat) (x : A) : list A :=
    let child := 2 * pos + 1 in
    match fuel with
    | S fuel' =>
        if child <? length h then
          let c := if (child + 1 <? length h) && negb (lt (nth child h x) (nth (child + 1) h x))
                   then child + 1 else child in
          siftup fuel' (upd pos (nth c h x) h) c x
        else siftdown pos h pos x
    | O => siftdown pos h pos x
    end.

  (** heapq.heappush *)
  Definition heappush (h : list A) (x : A) : list A :=
    siftdown (length h) (h ++ [x]) (length h) x.

  (** heapq.heappop: [None] stands for IndexError on the empty list *)
  Definition heappop (h : list A) : option (A * list A) :=
    match rev h with
    | [] => None
    | last :: r =>
        match rev r with
        | [] => Some (last, [])
        | top :: t => Some (top, siftup (length h) (last :: t) 0 last)
        end
    end.

  (** _priority_queue.py:57-72, 89-105, 135 under an uncontended lock *)
  Record pq := PQ { pq_max : nat; pq_heap : list A }.
  Inductive pq_op := PutNW (x : A) | GetNW | QSize | IsEmpty | IsFull.
  Inductive pq_out := QUnit | QItem (x : A) | QNat (n : nat) | QBool (b : bool) | QFullErr | QEmptyErr.

  Definition pq_full (q : pq) : bool := (0 <? pq_max q) && (pq_max q <=? length (pq_heap q)).

  Definition pq_step (q : pq) (o : pq_op) : pq * pq_out :=
    match o with
    | PutNW x => if pq_full q then (q, QFullErr)
                 else (PQ (pq_max q) (heappush (pq_heap q) x), QUnit)
    | GetNW => match heappop (pq_heap q) with
               | None => (q, QEmptyErr)
               | Some (x, h) => (PQ (pq_max q) h, QItem x)
               end
    | QSize => (q, QNat (length (pq_heap q)))
    | IsEmpty => (q, QBool (length (pq_heap q) =? 0))
    | IsFull => (q, QBool (pq_full q))
    end.

  Fixpoint pq_run (q : pq) (ops : list pq_op) : pq * list pq_out :=
    match ops with
    | [] => (q, [])
    | o :: t => let (q', r) := pq_step q o in
                let (q'', rs) := pq_run q' t in (q'', r :: rs)
    end.
End Heap.
Arguments PutNW {A}. Arguments GetNW {A}. Arguments QSize {A}. Arguments IsEmpty {A}. Arguments IsFull {A}.
Arguments QUnit {A}. Arguments QItem {A}. Arguments QNat {A}. Arguments QBool {A}.
Arguments QFullErr {A}. Arguments QEmptyErr {A}.
