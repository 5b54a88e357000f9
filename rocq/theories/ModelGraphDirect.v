(** Model of direct use of the public piles of a graph (base/graph.py:112-119): graph.nodes and graph.edges have
    their own add and remove (base/pile.py:212-252), which know nothing of the adjacency sets. *)
From Coq Require Import List Bool Arith.
From Verif Require Import PyBase ModelGraph.
Import ListNotations.

(** graph.edges.add(e), graph.edges.remove(u), graph.nodes.add(node), graph.nodes.remove(u) *)
Definition edges_add (g : graph) (e : edge) : graph * outcome gval :=
  if dmem (e_id e) (g_edges g) then (g, Raise ExistsError)
  else (Graph (g_nodes g) (dset (e_id e) e (g_edges g)) (g_out g) (g_in g), Ret GUnit).
Definition edges_remove (g : graph) (u : uuid) : graph * outcome gval :=
  match dget u (g_edges g) with
  | Some e => (Graph (g_nodes g) (ddel u (g_edges g)) (g_out g) (g_in g), Ret (GEdge e))
  | None => (g, Raise NotFoundError)
  end.
Definition nodes_add (g : graph) (u : uuid) (n : nat) : graph * outcome gval :=
  if dmem u (g_nodes g) then (g, Raise ExistsError)
  else (Graph (dset u n (g_nodes g)) (g_edges g) (g_out g) (g_in g), Ret GUnit).
Definition nodes_remove (g : graph) (u : uuid) : graph * outcome gval :=
  match dget u (g_nodes g) with
  | Some n => (Graph (ddel u (g_nodes g)) (g_edges g) (g_out g) (g_in g), Ret (GNode u n))
  | None => (g, Raise NotFoundError)
  end.

(** edge.head = h, edge.tail = t for the stored edge [u] (base/graph.py:71-84) *)
Definition set_ends (g : graph) (u h t : uuid) : graph :=
  match dget u (g_edges g) with
  | Some e => Graph (g_nodes g) (dset u (Edge (e_id e) h t (e_pay e)) (g_edges g)) (g_out g) (g_in g)
  | None => g
  end.

(** Several edges added directly, one after the other; those refused are skipped. *)
Definition edges_add_all (g : graph) (es : list edge) : graph := fold_left (fun h e => fst (edges_add h e)) es g.
