(** A plain directed multigraph: a list of nodes and a list of edges, without any
    index.  Statements about Graph are made against it. *)
From Coq Require Import List ZArith Bool Arith Permutation.
From Verif Require Import PyBase ModelProgression ModelGraph.
Import ListNotations.

Record mgraph := MG { m_nodes : list (uuid * nat); m_edges : list edge }.

(** What a Graph stores, index aside. *)
Definition contents (g : graph) : mgraph := MG (g_nodes g) (dvals (g_edges g)).

Definition has_node (m : mgraph) (u : uuid) : bool := existsb (fun kv => fst kv =? u) (m_nodes m).
Definition has_edge (m : mgraph) (u : uuid) : bool := existsb (fun e => e_id e =? u) (m_edges m).
Definition find_node (m : mgraph) (u : uuid) : option (uuid * nat) :=
  find (fun kv => fst kv =? u) (m_nodes m).
Definition find_edge (m : mgraph) (u : uuid) : option edge :=
  find (fun e => e_id e =? u) (m_edges m).

Definition touches (n : uuid) (e : edge) : bool := (e_head e =? n) || (e_tail e =? n).

(** The mutations, specified. *)
Definition mstep (m : mgraph) (o : graph_op) : mgraph * outcome gval :=
  match o with
  | GAddNode u n =>
      if has_node m u then (m, Raise ExistsError)
      else (MG (m_nodes m ++ [(u, n)]) (m_edges m), Ret GUnit)
  | GRemNode r =>
      match coerce_id r with
      | Raise e => (m, Raise e)
      | Ret n =>
          match find_node m n with
          | None => (m, Raise NotFoundError)
          | Some (_, pay) =>
              (MG (filter (fun kv => negb (fst kv =? n)) (m_nodes m))
                  (filter (fun e => negb (touches n e)) (m_edges m)), Ret (GNode n pay))
          end
      end
  | GAddEdge e =>
      if negb (has_node m (e_head e) && has_node m (e_tail e)) then (m, Raise NotFoundError)
      else if has_edge m (e_id e) then (m, Raise ExistsError)
      else (MG (m_nodes m) (m_edges m ++ [e]), Ret GUnit)
  | GRemEdge r =>
      match coerce_id r with
      | Raise e => (m, Raise e)
      | Ret u =>
          match find_edge m u with
          | None => (m, Raise NotFoundError)
          | Some e => (MG (m_nodes m) (filter (fun e => negb (e_id e =? u)) (m_edges m)),
                       Ret (GEdge e))
          end
      end
  | GNodeEdges r DBad => (m, Raise ValueError)
  | GNodeEdges r d =>
      (m, match coerce_id r with
          | Raise e => Raise e
          | Ret n =>
              Ret (GEdges (match d with
                           | DOut => []
                           | _ => filter (fun e => e_tail e =? n) (m_edges m) end ++
                           match d with
                           | DIn => []
                           | _ => filter (fun e => e_head e =? n) (m_edges m) end))
          end)
  | GPreds r =>
      (m, match coerce_id r with
          | Raise e => Raise e
          | Ret n => Ret (GNodes (flat_map (fun e => match find_node m (e_head e) with
                                                     | Some kv => [kv] | None => [] end)
                                    (filter (fun e => e_tail e =? n) (m_edges m))))
          end)
  | GSuccs r =>
      (m, match coerce_id r with
          | Raise e => Raise e
          | Ret n => Ret (GNodes (flat_map (fun e => match find_node m (e_tail e) with
                                                     | Some kv => [kv] | None => [] end)
                                    (filter (fun e => e_head e =? n) (m_edges m))))
          end)
  | GHeads => (m, Ret (GNodes (filter (fun kv =>
                negb (existsb (fun e => e_tail e =? fst kv) (m_edges m))) (m_nodes m))))
  | GTails => (m, Ret (GNodes (filter (fun kv =>
                negb (existsb (fun e => e_head e =? fst kv) (m_edges m))) (m_nodes m))))
  | GContains u => (m, Ret (GBool (has_node m u || has_edge m u)))
  | GLen => (m, Ret (GNat (length (m_nodes m))))
  end.

(** Two answers agree up to the order of set iteration. *)
Definition same_answer (a b : outcome gval) : Prop :=
  match a, b with
  | Ret (GEdges x), Ret (GEdges y) => Permutation x y
  | Ret (GNodes x), Ret (GNodes y) => Permutation x y
  | _, _ => a = b
  end.

(** A set-iteration oracle: any order, each element once. *)
Definition fair (ord : bool -> uuid -> list uuid -> list uuid) : Prop :=
  forall b n l, Permutation (ord b n l) l.

(** Well-formed input data: ids are unique and endpoints are stored. *)
Definition well_formed (ns : dict uuid nat) (es : dict uuid edge) : Prop :=
  NoDup (dkeys ns) /\ NoDup (dkeys es) /\
  (forall u e, In (u, e) es -> e_id e = u) /\
  (forall e, In e (dvals es) -> In (e_head e) (dkeys ns) /\ In (e_tail e) (dkeys ns)).

(** The graphs a user can reach from well-formed data (or from nothing). *)
Definition greachable (ord : bool -> uuid -> list uuid -> list uuid) (g : graph) : Prop :=
  exists ns es ops, well_formed ns es /\ g = graph_run ord (graph_new ns es) ops.

(** Directed walks, edge by edge. *)
Inductive walk (m : mgraph) (ok : edge -> bool) : uuid -> list edge -> uuid -> Prop :=
| walk_nil : forall a, walk m ok a [] a
| walk_cons : forall a e es b, In e (m_edges m) -> ok e = true -> e_head e = a ->
    walk m ok (e_tail e) es b -> walk m ok a (e :: es) b.

Definition any_edge (e : edge) : bool := true.

(** A node lies on a cycle. *)
Definition on_cycle (m : mgraph) (n : uuid) : Prop :=
  exists es, es <> [] /\ walk m any_edge n es n.
Definition acyclic (m : mgraph) : Prop := forall n, ~ on_cycle m n.

(** Position of a node in a list of nodes. *)
Definition pos (n : uuid) (l : list (uuid * nat)) : option nat := index_of n (map fst l).
