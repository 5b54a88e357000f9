(** Model of to_json and from_json, base/element.py:217-251, as elements, nodes, piles, graphs
    and flows inherit them (base/pile.py, graph.py and flow.py override to_dict only).

    A JSON text is represented by the data that orjson.loads makes of it; json_dumps followed by
    orjson.loads is [jsonify_dict].  Simplifications: as in ModelSerde and ModelSerdeGraph.
    pretty, sort_keys and decode change the text but not these data, except for the order of
    keys; keyword arguments passed on to model_dump are left out. *)
From Coq Require Import String.
From Coq Require Import List ZArith Bool Arith.
From Verif Require Import PyBase ModelSerde ModelSerdeGraph.
Import ListNotations.
Local Open Scope string_scope.
Local Open Scope nat_scope.
Local Open Scope list_scope.

Section Text.
  Variable E : env.

  (** element.py:224-251: _to_dict (95-103) and json_dumps. *)
  Definition to_json (e : element) : outcome data := jsonify_dict E (dump E e (dump_fields E e)).

  (** A pile's model_dump has its fields; the items and the progression are private
      attributes (pile.py:66-70). *)
  Definition pile_to_json (p : pile) : outcome data := jsonify_dict E (dump E (p_el p) (pile_fields E p)).

  (** model_dump of a field that holds a pile: without the class name. *)
  Definition pile_value (p : pile) : val :=
    VDict ([("id", VUuid (e_id (p_el p))); ("created_at", VTime (e_created (p_el p)));
            ("metadata", VDict (e_meta (p_el p)))] ++ pile_fields E p).

  (** graph.py:111-118 *)
  Definition graph_to_json (g : graph) : outcome data :=
    jsonify_dict E (dump E (g_el g)
      ([("nodes", pile_value (g_nodes g)); ("edges", pile_value (g_edges g))] ++ dump_fields E (g_el g))).

  (** flow.py:38-49 *)
  Definition flow_to_json (x : flow) : outcome data :=
    jsonify_dict E (dump E (f_el x)
      ([("progressions", pile_value (f_progs x)); ("items", pile_value (f_items x))] ++ dump_fields E (f_el x))).

  (** element.py:217-222: from_dict of the class, here with the default keys. *)
  Definition from_json (delegate : nat -> data -> outcome element) (c : nat) (d : data) : outcome element :=
    from_dict E (model_validate E) delegate c d None.
  Definition node_from_json (c : nat) (d : data) : outcome element := node_from_dict E c d None None.

  Variable elsewhere : nat -> data -> outcome element.
  Variables (base pcls : nat).
  Variable default_pile : pile.
  Definition pile_from_json (c : nat) (d : data) : outcome pile := pile_from_dict E elsewhere base c d None None.
  Definition graph_from_json (c : nat) (d : data) : outcome graph :=
    graph_from_dict E elsewhere base pcls default_pile c d None None.
  Variable refers : pile -> pile -> bool.
  Definition flow_from_json (delegate : nat -> data -> outcome flow) (c : nat) (d : data) : outcome flow :=
    flow_from_dict E elsewhere base pcls default_pile refers delegate c d None.
End Text.
