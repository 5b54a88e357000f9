(** Model of Graph.find_path (base/graph.py:360-406) as a task: it gives up control only while a condition is
    awaited (line 399), and other tasks may then change the graph by its public operations.  The loop
    at line 391 iterates over the set object found when it starts: the iterator raises RuntimeError when the
    size has changed; after a change of equal size it yields some of the present elements, left open here.
    Removing a node empties that set object for good, since a set being iterated with a condition awaited is
    not empty.  Left out: cancellation, assignment to the attributes of an edge or of the graph. *)
From Coq Require Import List Bool Arith.
From Verif Require Import PyBase ModelProgression ModelGraph.
Import ListNotations.

Inductive fpc :=
| FNext                                                                          (* line 381 *)
| FLoop (cur : uuid) (size : nat) (alive touched : bool) (rest : list uuid)      (* line 391 *)
| FAsk (cur : uuid) (size : nat) (alive touched : bool) (rest : list uuid) (u : uuid) (e : edge)   (* line 399 *)
| FDone (r : outcome (option (list edge))).

(** [f_log]: the conditions checked so far, with their answers. *)
Record fcfg := FC {
  f_g : graph;
  f_q : list uuid;
  f_par : dict uuid (uuid * uuid);
  f_vis : list uuid;
  f_log : list (edge * outcome bool);
  f_pc : fpc
}.

(** One operation leaves the set as it is: the same elements. *)
Definition same_set (a b : option (list uuid)) : bool :=
  match a, b with
  | Some s, Some t => forallb (fun u => memb u t) s && forallb (fun u => memb u s) t
  | _, _ => false
  end.

Section Await.
  Variable ord : bool -> uuid -> list uuid -> list uuid.
  Variable check : bool.
  (** The edge has a condition. *)
  Variable conditional : edge -> bool.
  (** What other tasks do. *)
  Variable allowed : graph_op -> Prop.

  (** 367-379 *)
  Definition finit (g : graph) (a b : uuid) : fcfg :=
    FC g [a] [] [a] []
      (if negb (dmem a (g_nodes g)) || negb (dmem b (g_nodes g)) then FDone (Raise NotFoundError) else FNext).

  Variable stop : uuid.

  Inductive fstep : fcfg -> fcfg -> Prop :=
  (* 406 *)
  | fs_none g par vis log : fstep (FC g [] par vis log FNext) (FC g [] par vis log (FDone (Ret None)))
  (* 384-391 *)
  | fs_found g q par vis log :
      fstep (FC g (stop :: q) par vis log FNext)
            (FC g q par vis log (FDone (match rebuild (length par) g par stop [] with Ret es => Ret (Some es) | Raise x => Raise x end)))
  | fs_gone g cur q par vis log : cur <> stop -> dget cur (g_out g) = None ->
      fstep (FC g (cur :: q) par vis log FNext) (FC g q par vis log (FDone (Raise KeyError)))
  | fs_open g cur q par vis log s : cur <> stop -> dget cur (g_out g) = Some s ->
      fstep (FC g (cur :: q) par vis log FNext) (FC g q par vis log (FLoop cur (length s) true false (ord true cur s)))
  (* next() of the iterator *)
  | fs_size g q par vis log cur n al to rest :
      (al = false \/ forall s, dget cur (g_out g) = Some s -> length s <> n) ->
      fstep (FC g q par vis log (FLoop cur n al to rest)) (FC g q par vis log (FDone (Raise RuntimeError)))
  | fs_any g q par vis log cur n rest s l : dget cur (g_out g) = Some s -> length s = n -> NoDup l -> incl l s ->
      fstep (FC g q par vis log (FLoop cur n true true rest)) (FC g q par vis log (FLoop cur n true false l))
  | fs_end g q par vis log cur n s : dget cur (g_out g) = Some s -> length s = n ->
      fstep (FC g q par vis log (FLoop cur n true false [])) (FC g q par vis log FNext)
  (* 392-396 *)
  | fs_lost g q par vis log cur n s u rest : dget cur (g_out g) = Some s -> length s = n -> dget u (g_edges g) = None ->
      fstep (FC g q par vis log (FLoop cur n true false (u :: rest))) (FC g q par vis log (FDone (Raise NotFoundError)))
  | fs_seen g q par vis log cur n s u rest e : dget cur (g_out g) = Some s -> length s = n -> dget u (g_edges g) = Some e ->
      In (e_tail e) vis ->
      fstep (FC g q par vis log (FLoop cur n true false (u :: rest))) (FC g q par vis log (FLoop cur n true false rest))
  | fs_take g q par vis log cur n s u rest e : dget cur (g_out g) = Some s -> length s = n -> dget u (g_edges g) = Some e ->
      ~ In (e_tail e) vis -> check = false ->
      fstep (FC g q par vis log (FLoop cur n true false (u :: rest)))
            (FC g (q ++ [e_tail e]) (dset (e_tail e) (cur, u) par) (sadd (e_tail e) vis) log (FLoop cur n true false rest))
  | fs_ask g q par vis log cur n s u rest e : dget cur (g_out g) = Some s -> length s = n -> dget u (g_edges g) = Some e ->
      ~ In (e_tail e) vis -> check = true ->
      fstep (FC g q par vis log (FLoop cur n true false (u :: rest))) (FC g q par vis log (FAsk cur n true false rest u e))
  (* 85-89: the condition is awaited *)
  | fs_other g q par vis log cur n al to rest u e o : conditional e = true -> allowed o ->
      let g' := fst (graph_step ord g o) in
      fstep (FC g q par vis log (FAsk cur n al to rest u e))
            (FC g' q par vis log (FAsk cur n (al && dmem cur (g_out g')) (to || negb (same_set (dget cur (g_out g)) (dget cur (g_out g')))) rest u e))
  | fs_raised g q par vis log cur n al to rest u e x : conditional e = true ->
      fstep (FC g q par vis log (FAsk cur n al to rest u e)) (FC g q par vis (log ++ [(e, Raise x)]) (FDone (Raise x)))
  | fs_refused g q par vis log cur n al to rest u e : conditional e = true ->
      fstep (FC g q par vis log (FAsk cur n al to rest u e)) (FC g q par vis (log ++ [(e, Ret false)]) (FLoop cur n al to rest))
  | fs_passed g q par vis log cur n al to rest u e :
      fstep (FC g q par vis log (FAsk cur n al to rest u e))
            (FC g (q ++ [e_tail e]) (dset (e_tail e) (cur, u) par) (sadd (e_tail e) vis) (log ++ [(e, Ret true)]) (FLoop cur n al to rest)).

  (** Runs all of whose graphs satisfy [P]. *)
  Inductive fruns (P : graph -> Prop) : fcfg -> fcfg -> Prop :=
  | fr_refl c : P (f_g c) -> fruns P c c
  | fr_step c d e : P (f_g c) -> fstep c d -> fruns P d e -> fruns P c e.
End Await.
