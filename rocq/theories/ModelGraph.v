(** Model of base/graph.py: class Graph.
    The node and edge piles are represented by their ordered-map abstraction
    (justified by C06).  Python sets are duplicate-free lists; the order in which
    a set is iterated is left open by the parameter [ord].  Simplifications: no
    locking (calls are sequential), no serialisation, no Node/Edge payloads
    beyond one number, edge conditions are pure functions of the edge. *)
From Coq Require Import List ZArith Bool Arith.
From Verif Require Import PyBase ModelProgression.
Import ListNotations.

(** graph.py:60-77.  [e_pay] stands for label, properties and condition. *)
Record edge := Edge { e_id : uuid; e_head : uuid; e_tail : uuid; e_pay : nat }.

(** graph.py:111-120.  [dict uuid nat] maps a node id to its payload. *)
Record graph := Graph {
  g_nodes : dict uuid nat;
  g_edges : dict uuid edge;
  g_out : dict uuid (list uuid);
  g_in : dict uuid (list uuid)
}.

(** [s.add(x)] and [s.discard(x)] on sets *)
Definition sadd (x : uuid) (s : list uuid) : list uuid := if memb x s then s else s ++ [x].
Definition sdiscard (x : uuid) (s : list uuid) : list uuid :=
  match remove_first x s with Some s' => s' | None => s end.

(** [d[k].add(x)] when k is present; KeyError otherwise. *)
Definition upd_set (f : list uuid -> list uuid) (k : uuid) (d : dict uuid (list uuid))
  : outcome (dict uuid (list uuid)) :=
  match dget k d with
  | Some s => Ret (dset k (f s) d)
  | None => Raise KeyError
  end.

(** graph.py:145-150: one edge of the rebuild; a missing endpoint is skipped. *)
Definition index_edge (oi : dict uuid (list uuid) * dict uuid (list uuid)) (e : edge) :=
  let (o, i) := oi in
  (match dget (e_head e) o with Some s => dset (e_head e) (sadd (e_id e) s) o | None => o end,
   match dget (e_tail e) i with Some s => dset (e_tail e) (sadd (e_id e) s) i | None => i end).

(** graph.py:134-150: construction from a nodes pile and an edges pile. *)
Definition graph_new (ns : dict uuid nat) (es : dict uuid edge) : graph :=
  let empty := map (fun kv : uuid * nat => (fst kv, @nil uuid)) ns in
  let (o, i) := fold_left index_edge (dvals es) (empty, empty) in
  Graph ns es o i.

Inductive gval :=
| GUnit | GNode (u : uuid) (n : nat) | GEdge (e : edge)
| GNodes (ns : list (uuid * nat)) | GEdges (es : list edge)
| GBool (b : bool) | GPath (p : option (list edge)) | GNat (n : nat).

(** graph.py:179-187 *)
Definition add_node (g : graph) (u : uuid) (n : nat) : graph * outcome gval :=
  if dmem u (g_nodes g) then (g, Raise ExistsError)
  else (Graph (dset u n (g_nodes g)) (g_edges g) (dset u [] (g_out g)) (dset u [] (g_in g)),
        Ret GUnit).

(** graph.py:218-232.  A KeyError on an index would come after the edge is stored. *)
Definition add_edge (g : graph) (e : edge) : graph * outcome gval :=
  if negb (dmem (e_head e) (g_nodes g)) then (g, Raise NotFoundError)
  else if negb (dmem (e_tail e) (g_nodes g)) then (g, Raise NotFoundError)
  else if dmem (e_id e) (g_edges g) then (g, Raise ExistsError)
  else
    let es := dset (e_id e) e (g_edges g) in
    match upd_set (sadd (e_id e)) (e_head e) (g_out g) with
    | Raise x => (Graph (g_nodes g) es (g_out g) (g_in g), Raise x)
    | Ret o =>
        match upd_set (sadd (e_id e)) (e_tail e) (g_in g) with
        | Raise x => (Graph (g_nodes g) es o (g_in g), Raise x)
        | Ret i => (Graph (g_nodes g) es o i, Ret GUnit)
        end
    end.

(** graph.py:235-248 after coercion *)
Definition remove_edge_id (g : graph) (u : uuid) : graph * outcome gval :=
  match dget u (g_edges g) with
  | None => (g, Raise NotFoundError)
  | Some e =>
      match upd_set (sdiscard u) (e_head e) (g_out g) with
      | Raise x => (g, Raise x)
      | Ret o =>
          match upd_set (sdiscard u) (e_tail e) (g_in g) with
          | Raise x => (Graph (g_nodes g) (g_edges g) o (g_in g), Raise x)
          | Ret i => (Graph (g_nodes g) (ddel u (g_edges g)) o i, Ret (GEdge e))
          end
      end
  end.

Definition remove_edge (g : graph) (r : idref) : graph * outcome gval :=
  match coerce_id r with
  | Raise e => (g, Raise e)
  | Ret u => remove_edge_id g u
  end.

(** graph.py:203-206: the loops over a snapshot of an index set *)
Fixpoint remove_edges (g : graph) (us : list uuid) : graph * outcome gval :=
  match us with
  | [] => (g, Ret GUnit)
  | u :: t => match remove_edge_id g u with
              | (g', Ret _) => remove_edges g' t
              | (g', Raise x) => (g', Raise x)
              end
  end.

Section G.
  (** Iteration order of the set stored at [_out_edges[n]] ([true]) or
      [_in_edges[n]] ([false]). *)
  Variable ord : bool -> uuid -> list uuid -> list uuid.

  (** graph.py:190-213 *)
  Definition remove_node (g : graph) (r : idref) : graph * outcome gval :=
    match coerce_id r with
    | Raise e => (g, Raise e)
    | Ret n =>
        match dget n (g_nodes g) with
        | None => (g, Raise NotFoundError)
        | Some pay =>
            match dget n (g_in g) with
            | None => (g, Raise KeyError)
            | Some si =>
                match remove_edges g (ord false n si) with
                | (g1, Raise x) => (g1, Raise x)
                | (g1, Ret _) =>
                    match dget n (g_out g1) with
                    | None => (g1, Raise KeyError)
                    | Some so =>
                        match remove_edges g1 (ord true n so) with
                        | (g2, Raise x) => (g2, Raise x)
                        | (g2, Ret _) =>
                            (Graph (ddel n (g_nodes g2)) (g_edges g2)
                                   (ddel n (g_out g2)) (ddel n (g_in g2)), Ret (GNode n pay))
                        end
                    end
                end
            end
        end
    end.

  (** [[self.edges[e] for e in ids]] *)
  Fixpoint lookup_edges (g : graph) (us : list uuid) : outcome (list edge) :=
    match us with
    | [] => Ret []
    | u :: t => match dget u (g_edges g) with
                | None => Raise NotFoundError
                | Some e => bind (lookup_edges g t) (fun es => Ret (e :: es))
                end
    end.

  Definition sget_or_empty (k : uuid) (d : dict uuid (list uuid)) : list uuid :=
    match dget k d with Some s => s | None => [] end.

  Inductive dir := DIn | DOut | DBoth | DBad.

  (** graph.py:270-298 *)
  Definition get_node_edges (g : graph) (r : idref) (d : dir) : outcome gval :=
    match d with
    | DBad => Raise ValueError
    | _ =>
        bind (coerce_id r) (fun n =>
        let ins := ord false n (sget_or_empty n (g_in g)) in
        let outs := ord true n (sget_or_empty n (g_out g)) in
        bind (lookup_edges g (match d with DOut => [] | _ => ins end ++
                              match d with DIn => [] | _ => outs end))
             (fun es => Ret (GEdges es)))
    end.

  (** [[self.nodes[f(e)] for e in es]] *)
  Fixpoint lookup_nodes (g : graph) (us : list uuid) : outcome (list (uuid * nat)) :=
    match us with
    | [] => Ret []
    | u :: t => match dget u (g_nodes g) with
                | None => Raise NotFoundError
                | Some n => bind (lookup_nodes g t) (fun ns => Ret ((u, n) :: ns))
                end
    end.

  (** graph.py:252-268.  Simplification: all edges are looked up before the nodes. *)
  Definition get_predecessors (g : graph) (r : idref) : outcome gval :=
    bind (coerce_id r) (fun n =>
    bind (lookup_edges g (ord false n (sget_or_empty n (g_in g)))) (fun es =>
    bind (lookup_nodes g (map e_head es)) (fun ns => Ret (GNodes ns)))).

  Definition get_successors (g : graph) (r : idref) : outcome gval :=
    bind (coerce_id r) (fun n =>
    bind (lookup_edges g (ord true n (sget_or_empty n (g_out g)))) (fun es =>
    bind (lookup_nodes g (map e_tail es)) (fun ns => Ret (GNodes ns)))).

  Definition emptyb {A} (l : list A) : bool := match l with [] => true | _ => false end.

  (** graph.py:300-306 *)
  Definition get_heads (g : graph) : outcome gval :=
    bind (lookup_nodes g (dkeys (filter (fun kv => emptyb (snd kv)) (g_in g))))
         (fun ns => Ret (GNodes ns)).
  Definition get_tails (g : graph) : outcome gval :=
    bind (lookup_nodes g (dkeys (filter (fun kv => emptyb (snd kv)) (g_out g))))
         (fun ns => Ret (GNodes ns)).

  (** graph.py:310-334.  [lim] is the interpreter's recursion limit: the number of
      nested [dfs] frames available. *)
  Inductive color := White | Gray | Black.
  Definition colors := dict uuid color.

  Fixpoint dfs (lim : nat) (g : graph) (c : colors) (n : uuid) {struct lim}
    : outcome (bool * colors) :=
    match lim with
    | O => Raise RecursionErr
    | S lim' =>
        match dget n (g_out g) with
        | None => Raise KeyError
        | Some s =>
            (fix loop (us : list uuid) (c : colors) {struct us} : outcome (bool * colors) :=
               match us with
               | [] => Ret (true, dset n Black c)
               | u :: t =>
                   match dget u (g_edges g) with
                   | None => Raise NotFoundError
                   | Some e =>
                       match dget (e_tail e) c with
                       | None => Raise KeyError
                       | Some Gray => Ret (false, c)
                       | Some White =>
                           match dfs lim' g c (e_tail e) with
                           | Raise x => Raise x
                           | Ret (false, c') => Ret (false, c')
                           | Ret (true, c') => loop t c'
                           end
                       | Some Black => loop t c
                       end
                   end
               end) (ord true n s) (dset n Gray c)
        end
    end.

  Fixpoint all_components (lim : nat) (g : graph) (ns : list uuid) (c : colors)
    : outcome bool :=
    match ns with
    | [] => Ret true
    | n :: t =>
        match dget n c with
        | None => Raise KeyError
        | Some White =>
            match dfs lim g c n with
            | Raise x => Raise x
            | Ret (false, _) => Ret false
            | Ret (true, c') => all_components lim g t c'
            end
        | Some _ => all_components lim g t c
        end
    end.

  Definition is_acyclic (lim : nat) (g : graph) : outcome bool :=
    all_components lim g (dkeys (g_nodes g))
      (map (fun kv : uuid * nat => (fst kv, White)) (g_nodes g)).

  (** graph.py:353-357: the edges of one dequeued node *)
  Fixpoint relax (g : graph) (us : list uuid) (deg : dict uuid Z) (q : list uuid)
    : outcome (dict uuid Z * list uuid) :=
    match us with
    | [] => Ret (deg, q)
    | u :: t =>
        match dget u (g_edges g) with
        | None => Raise NotFoundError
        | Some e =>
            match dget (e_tail e) deg with
            | None => Raise KeyError
            | Some d =>
                let d' := (d - 1)%Z in
                relax g t (dset (e_tail e) d' deg)
                      (if (d' =? 0)%Z then q ++ [e_tail e] else q)
            end
        end
    end.

  (** graph.py:348-359.  [fuel] only makes the loop structurally recursive: the
      theorems show it never runs out ([OtherErr]). *)
  Fixpoint kahn (fuel : nat) (g : graph) (q : list uuid) (deg : dict uuid Z)
    (res : list (uuid * nat)) : outcome (list (uuid * nat)) :=
    match q with
    | [] => Ret res
    | n :: q' =>
        match fuel with
        | O => Raise OtherErr
        | S fuel' =>
            match dget n (g_nodes g) with
            | None => Raise NotFoundError
            | Some pay =>
                match dget n (g_out g) with
                | None => Raise KeyError
                | Some s =>
                    match relax g (ord true n s) deg q' with
                    | Raise x => Raise x
                    | Ret (deg', q'') => kahn fuel' g q'' deg' (res ++ [(n, pay)])
                    end
                end
            end
        end
    end.

  Definition in_degrees (g : graph) : dict uuid Z :=
    map (fun kv : uuid * list uuid => (fst kv, Z.of_nat (length (snd kv)))) (g_in g).

  (** graph.py:336-359 *)
  Definition topological_sort (lim : nat) (g : graph) : outcome (list (uuid * nat)) :=
    match is_acyclic lim g with
    | Raise x => Raise x
    | Ret false => Raise ValueError
    | Ret true =>
        let deg := in_degrees g in
        kahn (length (g_nodes g)) g
             (map fst (filter (fun kv : uuid * Z => (snd kv =? 0)%Z) deg)) deg []
    end.

  (** graph.py:386-390: follow the parents back to the start *)
  Fixpoint rebuild (fuel : nat) (g : graph) (parent : dict uuid (uuid * uuid)) (n : uuid)
    (acc : list edge) : outcome (list edge) :=
    match dget n parent with
    | None => Ret acc
    | Some (p, u) =>
        match fuel with
        | O => Raise OtherErr
        | S fuel' =>
            match dget u (g_edges g) with
            | None => Raise NotFoundError
            | Some e => rebuild fuel' g parent p (e :: acc)
            end
        end
    end.

  Section Path.
    (** [check_conditions] and [edge.check_condition()] *)
    Variable check : bool.
    Variable cond : edge -> bool.

    (** graph.py:393-404 *)
    Fixpoint expand (g : graph) (cur : uuid) (us : list uuid)
      (q : list uuid) (parent : dict uuid (uuid * uuid)) (visited : list uuid)
      : outcome (list uuid * dict uuid (uuid * uuid) * list uuid) :=
      match us with
      | [] => Ret (q, parent, visited)
      | u :: t =>
          match dget u (g_edges g) with
          | None => Raise NotFoundError
          | Some e =>
              if memb (e_tail e) visited then expand g cur t q parent visited
              else if check && negb (cond e) then expand g cur t q parent visited
              else expand g cur t (q ++ [e_tail e]) (dset (e_tail e) (cur, u) parent)
                          (sadd (e_tail e) visited)
          end
      end.

    (** graph.py:379-406 *)
    Fixpoint bfs (fuel : nat) (g : graph) (stop : uuid) (q : list uuid)
      (parent : dict uuid (uuid * uuid)) (visited : list uuid)
      : outcome (option (list edge)) :=
      match q with
      | [] => Ret None
      | cur :: q' =>
          if cur =? stop then
            match rebuild (length parent) g parent stop [] with
            | Ret es => Ret (Some es)
            | Raise x => Raise x
            end
          else
            match fuel with
            | O => Raise OtherErr
            | S fuel' =>
                match dget cur (g_out g) with
                | None => Raise KeyError
                | Some s =>
                    match expand g cur (ord true cur s) q' parent visited with
                    | Raise x => Raise x
                    | Ret (q'', parent', visited') => bfs fuel' g stop q'' parent' visited'
                    end
                end
            end
      end.

    (** graph.py:361-377 *)
    Definition find_path (g : graph) (start stop : idref) : outcome (option (list edge)) :=
      bind (coerce_id start) (fun a =>
      bind (coerce_id stop) (fun b =>
      if negb (dmem a (g_nodes g)) || negb (dmem b (g_nodes g)) then Raise NotFoundError
      else bfs (length (g_nodes g)) g b [a] [] [a])).
  End Path.

  (** graph.py:408-420: [uuid in graph], [len(graph)] *)
  Definition graph_contains (g : graph) (u : uuid) : bool :=
    dmem u (g_nodes g) || dmem u (g_edges g).

  Inductive graph_op :=
  | GAddNode (u : uuid) (n : nat) | GRemNode (r : idref)
  | GAddEdge (e : edge) | GRemEdge (r : idref)
  | GNodeEdges (r : idref) (d : dir) | GPreds (r : idref) | GSuccs (r : idref)
  | GHeads | GTails | GContains (u : uuid) | GLen.

  Definition graph_step (g : graph) (o : graph_op) : graph * outcome gval :=
    match o with
    | GAddNode u n => add_node g u n
    | GRemNode r => remove_node g r
    | GAddEdge e => add_edge g e
    | GRemEdge r => remove_edge g r
    | GNodeEdges r d => (g, get_node_edges g r d)
    | GPreds r => (g, get_predecessors g r)
    | GSuccs r => (g, get_successors g r)
    | GHeads => (g, get_heads g)
    | GTails => (g, get_tails g)
    | GContains u => (g, Ret (GBool (graph_contains g u)))
    | GLen => (g, Ret (GNat (length (g_nodes g))))
    end.

  Definition graph_run (g : graph) (ops : list graph_op) : graph :=
    fold_left (fun h o => fst (graph_step h o)) ops g.
End G.
