(** Model of Graph.to_dict / Graph.from_dict (base/graph.py) and Flow.to_dict
    (base/flow.py, loaded by Element.from_dict and the validators of Flow).

    Simplifications: as in ModelSerde; rebuilding the adjacency of a graph from
    its edges is in ModelGraph; the check of a flow that progressions refer to
    items is a parameter; a missing pile is replaced by a parameter.  Left out:
    item_type and strict_type next to the items in the data of a flow, and Python
    objects as items or progressions. *)
From Coq Require Import String.
From Coq Require Import List ZArith Bool Arith.
From Verif Require Import PyBase ModelSerde.
Import ListNotations.
Local Open Scope string_scope.
Local Open Scope nat_scope.
Local Open Scope list_scope.

Record graph := Graph { g_el : element; g_nodes : pile; g_edges : pile }.
Record flow := Flow { f_el : element; f_items : pile; f_progs : pile }.

Section WithEnv.
  Variable E : env.
  Variable elsewhere : nat -> data -> outcome element.
  Variables (base pcls : nat).          (** the classes Element and Pile *)
  Variable default_pile : pile.

  (** graph.py:425-472 *)
  Definition graph_to_dict (g : graph) (m : mode) (f : option format) (mk imk : option string)
      (ifmt : option format) : outcome data :=
    bind (to_dict E (g_el g) m f mk) (fun d =>
    bind (pile_to_dict E (g_nodes g) m None None imk ifmt) (fun ns =>
    bind (pile_to_dict E (g_edges g) m None None imk ifmt) (fun es =>
    Ret (dset "edges" (VDict es) (dset "nodes" (VDict ns) d))))).

  (** graph.py:499-511: one of the two piles; falsy data count as missing. *)
  Definition load_pile (v : option val) (imk : option string) : outcome pile :=
    match v with
    | None => Ret default_pile
    | Some v =>
        if truthy v then
          match v with
          | VDict d => pile_from_dict E elsewhere base pcls d imk imk
          | _ => Raise AttributeError
          end
        else Ret default_pile
    end.

  (** graph.py:474-516 *)
  Definition graph_from_dict (c : nat) (d : data) (mk imk : option string) : outcome graph :=
    let d := match mk with
             | Some k => if String.eqb k "" then d
                         else match dget k d with
                              | Some v => dset "metadata" v (ddel k d)
                              | None => d
                              end
             | None => d
             end in
    bind (load_pile (dget "nodes" d) imk) (fun ns =>
    bind (load_pile (dget "edges" d) imk) (fun es =>
    bind (model_validate E c (ddel "edges" (ddel "nodes" d))) (fun el =>
    Ret (Graph el ns es)))).

  (** flow.py:302-338 *)
  Definition flow_to_dict (x : flow) (m : mode) (f : option format) (mk : option string)
      : outcome data :=
    bind (to_dict E (f_el x) m f mk) (fun d =>
    bind (pile_to_dict E (f_items x) m f mk None None) (fun is =>
    bind (pile_to_dict E (f_progs x) m f mk None None) (fun ps =>
    Ret (dset "progressions" (VDict ps) (dset "items" (VDict is) d))))).

  (** flow.py:114-122: a list of dicts; the Pile has no constraint. *)
  Fixpoint add_values (p : pile) (l : list val) : outcome pile :=
    match l with
    | [] => Ret p
    | VDict d :: t =>
        bind (add_items E (item_from_dict E elsewhere base None) p [d]) (fun p => add_values p t)
    | _ :: _ => Raise TypeError                             (* pile.py:647-648 *)
    end.
  Definition list_pile (l : list val) : outcome pile :=
    bind (model_validate E pcls []) (fun el => add_values (Pile el None false [] None) l).

  (** flow.py:78-94 and 105-125: anything that is no dict or list of dicts is
      given to Pile(items=...). *)
  Definition validate_items (v : option val) : outcome pile :=
    match v with
    | None | Some VNone => Ret default_pile
    | Some (VDict d) => pile_from_dict E elsewhere base pcls d None None
    | Some (VList l) => list_pile l
    | Some v => if truthy v then Raise TypeError else list_pile []
    end.

  (** flow.py:97-98 and 105-125 *)
  Definition validate_progressions (v : option val) : outcome pile :=
    match v with
    | None | Some VNone => Ret default_pile
    | Some (VDict d) => pile_from_dict E elsewhere base pcls d None None
    | Some (VList l) => list_pile l
    | Some _ => Raise ValueError
    end.

  (** Pydantic collects the ValueErrors of all fields; any other exception of a
      validator comes out at once. *)
  Definition both {A B} (x : outcome A) (y : outcome B) : outcome (A * B) :=
    match x, y with
    | Ret a, Ret b => Ret (a, b)
    | Raise ValueError, Raise e => Raise e
    | Raise e, _ => Raise e
    | _, Raise e => Raise e
    end.

  (** flow.py:127-150 *)
  Variable refers : pile -> pile -> bool.

  (** Flow.model_validate, which calls Flow.__init__ (flow.py:54-103); fields in
      the order of their definition. *)
  Definition flow_validate (c : nat) (d : data) : outcome flow :=
    if match dget "items" d with
       | None | Some (VNone | VDict _ | VList _) => false
       | Some v => truthy v
       end
    then Raise TypeError
    else
      bind (both (model_validate E c (ddel "progressions" (ddel "items" d)))
              (both (validate_progressions (dget "progressions" d)) (validate_items (dget "items" d))))
        (fun '(el, (ps, is)) =>
           if refers is ps then Ret (Flow el is ps) else Raise NotFoundError).

  (** Element.from_dict, called on a class [c0] whose from_dict is Element's. *)
  Definition flow_from_dict (delegate : nat -> data -> outcome flow) (c0 : nat) (d : data)
      (mk : option string) : outcome flow :=
    from_dict E flow_validate delegate c0 d mk.
End WithEnv.
