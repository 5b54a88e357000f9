(** Model of base/graph.py under threads: any number of threads share one Graph.

    Granularity: one dict, set or pile operation per step (CPython performs those on dicts and
    sets atomically; the piles have their own locks, see C09).  The four mutators are
    @synchronized (base/_utils.py:30-51): they take the graph's RLock, and the nested
    remove_edge calls of remove_node take it again, which an RLock allows.  The queries
    (graph.py:252-306) take no lock and iterate over the live sets and dicts; CPython's iterators
    raise RuntimeError when the size changed since iteration began.  Simplifications: a set is
    found again by its node's id (so a set that was detached from its dict reads as empty, which it
    is after remove_node); the order of iteration is a function [ord] of the present members; the
    nodes and edges piles are not changed except through the graph. *)
From Coq Require Import List ZArith Bool Arith.
From Verif Require Import PyBase ModelProgression ModelGraph.
Import ListNotations.

Definition tid := nat.

(** A method body: done with an answer, or one access [f] and then a continuation that knows what
    the stores were when the access was made. *)
Inductive code := Done (r : outcome gval) | Act (f : graph -> graph) (k : graph -> code).
Definition Look (k : graph -> code) : code := Act (fun g => g) k.

Definition set_nodes (d : dict uuid nat) (g : graph) : graph := Graph d (g_edges g) (g_out g) (g_in g).
Definition set_edges (d : dict uuid edge) (g : graph) : graph := Graph (g_nodes g) d (g_out g) (g_in g).
Definition set_out (d : dict uuid (list uuid)) (g : graph) : graph := Graph (g_nodes g) (g_edges g) d (g_in g).
Definition set_in (d : dict uuid (list uuid)) (g : graph) : graph := Graph (g_nodes g) (g_edges g) (g_out g) d.

(** graph.py:179-187 *)
Definition c_add_node (u : uuid) (n : nat) : code :=
  Act (fun g => if dmem u (g_nodes g) then g else set_nodes (dset u n (g_nodes g)) g)
      (fun g => if dmem u (g_nodes g) then Done (Raise ExistsError)
                else Act (fun g => set_out (dset u [] (g_out g)) g) (fun _ =>
                     Act (fun g => set_in (dset u [] (g_in g)) g) (fun _ => Done (Ret GUnit)))).

(** [self._out_edges[k].add(x)] or [.discard(x)]: KeyError if there is no such key. *)
Definition act_out (h : list uuid -> list uuid) (k : uuid) (next : code) : code :=
  Act (fun g => match upd_set h k (g_out g) with Ret o => set_out o g | Raise _ => g end)
      (fun g => match upd_set h k (g_out g) with Ret _ => next | Raise x => Done (Raise x) end).
Definition act_in (h : list uuid -> list uuid) (k : uuid) (next : code) : code :=
  Act (fun g => match upd_set h k (g_in g) with Ret i => set_in i g | Raise _ => g end)
      (fun g => match upd_set h k (g_in g) with Ret _ => next | Raise x => Done (Raise x) end).

(** graph.py:218-232 *)
Definition c_add_edge (e : edge) : code :=
  Look (fun g => if negb (dmem (e_head e) (g_nodes g)) then Done (Raise NotFoundError) else
  Look (fun g => if negb (dmem (e_tail e) (g_nodes g)) then Done (Raise NotFoundError) else
  Act (fun g => if dmem (e_id e) (g_edges g) then g else set_edges (dset (e_id e) e (g_edges g)) g)
      (fun g => if dmem (e_id e) (g_edges g) then Done (Raise ExistsError)
                else act_out (sadd (e_id e)) (e_head e) (act_in (sadd (e_id e)) (e_tail e) (Done (Ret GUnit)))))).

(** graph.py:235-248 after coercion, with what is done after a normal return *)
Definition c_remove_edge_id (u : uuid) (next : edge -> code) : code :=
  Look (fun g => match dget u (g_edges g) with
                 | None => Done (Raise NotFoundError)
                 | Some e =>
                     act_out (sdiscard u) (e_head e) (act_in (sdiscard u) (e_tail e)
                       (Act (fun g => set_edges (ddel u (g_edges g)) g)
                            (fun g => if dmem u (g_edges g) then next e else Done (Raise NotFoundError))))
                 end).

Definition c_remove_edge (r : idref) : code :=
  match coerce_id r with
  | Raise x => Done (Raise x)
  | Ret u => c_remove_edge_id u (fun e => Done (Ret (GEdge e)))
  end.

Fixpoint c_remove_edges (us : list uuid) (next : code) : code :=
  match us with
  | [] => next
  | u :: t => c_remove_edge_id u (fun _ => c_remove_edges t next)
  end.

Section G.
  Variable ord : bool -> uuid -> list uuid -> list uuid.

  (** graph.py:190-213 *)
  Definition c_remove_node (r : idref) : code :=
    match coerce_id r with
    | Raise x => Done (Raise x)
    | Ret n =>
        Look (fun g => match dget n (g_nodes g) with None => Done (Raise NotFoundError) | Some pay =>
        Look (fun g => match dget n (g_in g) with None => Done (Raise KeyError) | Some si =>
        c_remove_edges (ord false n si) (
        Look (fun g => match dget n (g_out g) with None => Done (Raise KeyError) | Some so =>
        c_remove_edges (ord true n so) (
        Act (fun g => set_in (ddel n (g_in g)) g) (fun g =>
          if negb (dmem n (g_in g)) then Done (Raise KeyError) else
        Act (fun g => set_out (ddel n (g_out g)) g) (fun g =>
          if negb (dmem n (g_out g)) then Done (Raise KeyError) else
        Act (fun g => set_nodes (ddel n (g_nodes g)) g) (fun g =>
          if negb (dmem n (g_nodes g)) then Done (Raise NotFoundError)
          else Done (Ret (GNode n pay)))))) end)) end) end)
    end.

  (** The locked methods. *)
  Inductive wop := WAddNode (u : uuid) (n : nat) | WRemNode (r : idref)
                 | WAddEdge (e : edge) | WRemEdge (r : idref).
  Definition body (o : wop) : code :=
    match o with
    | WAddNode u n => c_add_node u n
    | WRemNode r => c_remove_node r
    | WAddEdge e => c_add_edge e
    | WRemEdge r => c_remove_edge r
    end.

  (** graph.py:252-268: iteration over the live set of node [n] (the out set if [b]).  [size] is
      the size when iteration began, [i] the position, [rest] = size - i. *)
  Definition live (b : bool) (n : uuid) (g : graph) : list uuid :=
    sget_or_empty n (if b then g_out g else g_in g).
  Fixpoint c_neighbours (b : bool) (n : uuid) (size rest i : nat) (acc : list (uuid * nat)) : code :=
    Look (fun g =>
      if negb (length (live b n g) =? size) then Done (Raise RuntimeError) else
      match rest with
      | O => Done (Ret (GNodes acc))
      | S rest =>
          match nth_error (ord b n (live b n g)) i with
          | None => Done (Ret (GNodes acc))
          | Some u =>
              Look (fun g => match dget u (g_edges g) with
                             | None => Done (Raise NotFoundError)
                             | Some e =>
              let m := if b then e_tail e else e_head e in
              Look (fun g => match dget m (g_nodes g) with
                             | None => Done (Raise NotFoundError)
                             | Some p => c_neighbours b n size rest (S i) (acc ++ [(m, p)])
                             end) end)
          end
      end).

  (** graph.py:300-306: iteration over the live dict. *)
  Definition index (b : bool) (g : graph) : dict uuid (list uuid) := if b then g_out g else g_in g.
  Fixpoint c_ends (b : bool) (size rest i : nat) (acc : list (uuid * nat)) : code :=
    Look (fun g =>
      if negb (length (index b g) =? size) then Done (Raise RuntimeError) else
      match rest with
      | O => Done (Ret (GNodes acc))
      | S rest =>
          match nth_error (index b g) i with
          | None => Done (Ret (GNodes acc))
          | Some (n, s) =>
              if emptyb s then
                Look (fun g => match dget n (g_nodes g) with
                               | None => Done (Raise NotFoundError)
                               | Some p => c_ends b size rest (S i) (acc ++ [(n, p)])
                               end)
              else c_ends b size rest (S i) acc
          end
      end).

  (** The queries. *)
  Inductive rop := RPreds (r : idref) | RSuccs (r : idref) | RHeads | RTails.
  Definition query (q : rop) : code :=
    let neighbours b r :=
      match coerce_id r with
      | Raise x => Done (Raise x)
      | Ret n => Look (fun g => let k := length (live b n g) in c_neighbours b n k k 0 [])
      end in
    let ends b := Look (fun g => let k := length (index b g) in c_ends b k k 0 []) in
    match q with
    | RPreds r => neighbours false r
    | RSuccs r => neighbours true r
    | RHeads => ends false
    | RTails => ends true
    end.

  (** What a thread is doing.  [seen]: the stores at the accesses made so far (ghost). *)
  Inductive tstate :=
  | Idle
  | Want (o : wop)                              (* waits for the lock *)
  | Holds (o : wop) (c : code)
  | Reads (q : rop) (c : code) (seen : list graph).

  Record state := State {
    gr : graph;
    thr : tid -> tstate;
    wrote : list (wop * outcome gval);               (* finished mutators, in order (ghost) *)
    read : list (rop * outcome gval * list graph)    (* finished queries (ghost) *)
  }.

  Definition upd (f : tid -> tstate) (t : tid) (x : tstate) : tid -> tstate :=
    fun t' => if t' =? t then x else f t'.
  Definition holding (x : tstate) : Prop := match x with Holds _ _ => True | _ => False end.

  Inductive step : state -> state -> Prop :=
  | s_call : forall s t o, thr s t = Idle ->
      step s (State (gr s) (upd (thr s) t (Want o)) (wrote s) (read s))
  | s_acquire : forall s t o, thr s t = Want o -> (forall t', ~ holding (thr s t')) ->
      step s (State (gr s) (upd (thr s) t (Holds o (body o))) (wrote s) (read s))
  | s_act : forall s t o f k, thr s t = Holds o (Act f k) ->
      step s (State (f (gr s)) (upd (thr s) t (Holds o (k (gr s)))) (wrote s) (read s))
  | s_release : forall s t o r, thr s t = Holds o (Done r) ->
      step s (State (gr s) (upd (thr s) t Idle) (wrote s ++ [(o, r)]) (read s))
  | s_query : forall s t q, thr s t = Idle ->
      step s (State (gr s) (upd (thr s) t (Reads q (query q) [])) (wrote s) (read s))
  | s_look : forall s t q f k seen, thr s t = Reads q (Act f k) seen ->
      step s (State (f (gr s)) (upd (thr s) t (Reads q (k (gr s)) (seen ++ [gr s]))) (wrote s) (read s))
  | s_answer : forall s t q r seen, thr s t = Reads q (Done r) seen ->
      step s (State (gr s) (upd (thr s) t Idle) (wrote s) (read s ++ [(q, r, seen)])).

  Inductive steps : state -> state -> Prop :=
  | steps_refl : forall s, steps s s
  | steps_step : forall s s' s'', steps s s' -> step s' s'' -> steps s s''.

  Definition start (g : graph) : state := State g (fun _ => Idle) [] [].

  (** A body run without interruption. *)
  Fixpoint run (c : code) (g : graph) : graph * outcome gval :=
    match c with Done r => (g, r) | Act f k => run (k g) (f g) end.
End G.
