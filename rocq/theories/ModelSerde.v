(** Model of dictionary (de)serialisation in base/element.py, base/node.py,
    base/pile.py, base/graph.py, base/flow.py and the helpers to_uuid,
    coerce_created_at and load_type_from_string of base/_utils.py.

    Simplifications.  Text formats are abstract: [env] holds the functions
    between identifiers, times, class names and strings.  Numbers are integers
    (microseconds for timestamps), so rounding of float timestamps is not
    modelled.  The fields a subclass adds are dumped and loaded by arbitrary
    functions of [env].  Keyword arguments passed through to pydantic
    (exclude, context, ...) are left out, except for the exclusion of [content]
    by Node.to_dict.  Sets of types are lists. *)
From Coq Require Import String.
From Coq Require Import List ZArith Bool Arith.
From Verif Require Import PyBase.
Import ListNotations.
Local Open Scope string_scope.
Local Open Scope nat_scope.
Local Open Scope list_scope.

(** A datetime: position on its own scale in microseconds and the UTC offset.
    With an offset, the position is the instant; without one (a naive
    datetime) it is the wall clock. *)
Record time := Time { t_pos : Z; t_off : option Z }.

(** Python values that occur in dumped data. *)
Inductive val :=
| VNone
| VBool (b : bool)
| VNum (z : Z)
| VStr (s : string)
| VUuid (n : nat)
| VTime (t : time)
| VList (l : list val)
| VDict (d : list (string * val))
| VObj (n : nat).        (** any other object; not JSON encodable *)

Notation data := (dict string val).

Inductive mode := Python | Json | Db.
Inductive format := Datetime | Isoformat | Timestamp.

(** Which from_dict a class has. *)
Inductive impl := IElement | INode | IPile | IGraph | IOther (n : nat).

Record env := Env {
  uuid_str : nat -> string;             (** str(uuid) *)
  parse_uuid : string -> option nat;    (** UUID(s) *)
  iso : time -> string;                 (** isoformat, also as written by orjson *)
  parse_iso : string -> option time;    (** datetime.fromisoformat *)
  parse_float : string -> option Z;     (** float(s) *)
  local_instant : Z -> Z;               (** instant of a local wall clock *)
  cname : nat -> string;                (** class_name(full=True) *)
  tname : nat -> string;                (** __module__ + '.' + __name__ *)
  load : string -> option nat;          (** load_type_from_string *)
  is_element : nat -> bool;             (** issubclass(_, Element) *)
  sub : nat -> nat -> bool;             (** issubclass *)
  impl_of : nat -> impl;
  own_fields : nat -> list string;      (** fields besides Element's *)
  fdump : nat -> string -> val -> val;  (** python-mode dump of a field *)
  fload : nat -> string -> val -> outcome val;
  fdefault : nat -> string -> option val;
  fresh_id : nat;
  now : time;
  meta_other : val -> data;             (** metadata given as a non-dict *)
  registry : string -> option nat;      (** NODE_REGISTRY.get *)
  last_part : string -> string          (** s.split('.')[-1] *)
}.

(** element.py:29-57: an element of some class; [e_fields] are the fields that
    the class adds. *)
Record element := Element {
  e_cls : nat;
  e_id : nat;
  e_created : time;
  e_meta : data;
  e_fields : data
}.

Definition truthy (v : val) : bool :=
  match v with
  | VNone => false
  | VBool b => b
  | VNum z => negb (Z.eqb z 0)
  | VStr s => negb (String.eqb s "")
  | VList l => match l with [] => false | _ => true end
  | VDict d => match d with [] => false | _ => true end
  | _ => true
  end.

(** Collect the results of a list of computations. *)
Fixpoint collect {A B} (f : A -> outcome B) (l : list A) : outcome (list B) :=
  match l with
  | [] => Ret []
  | x :: t => bind (f x) (fun y => bind (collect f t) (fun ys => Ret (y :: ys)))
  end.

Section WithEnv.
  Variable E : env.

  (** json_dumps followed by orjson.loads. *)
  Fixpoint jsonify (v : val) : outcome val :=
    match v with
    | VUuid n => Ret (VStr (uuid_str E n))
    | VTime t => Ret (VStr (iso E t))
    | VObj _ => Raise TypeError
    | VList l =>
        bind ((fix go (l : list val) : outcome (list val) :=
                 match l with
                 | [] => Ret []
                 | x :: t => bind (jsonify x) (fun y => bind (go t) (fun ys => Ret (y :: ys)))
                 end) l) (fun l' => Ret (VList l'))
    | VDict d =>
        bind ((fix go (d : list (string * val)) : outcome (list (string * val)) :=
                 match d with
                 | [] => Ret []
                 | (k, x) :: t =>
                     bind (jsonify x) (fun y => bind (go t) (fun ys => Ret ((k, y) :: ys)))
                 end) d) (fun d' => Ret (VDict d'))
    | _ => Ret v
    end.

  Fixpoint jsonify_dict (d : data) : outcome data :=
    match d with
    | [] => Ret []
    | (k, x) :: t =>
        bind (jsonify x) (fun y => bind (jsonify_dict t) (fun ys => Ret ((k, y) :: ys)))
    end.

  (** datetime.timestamp() *)
  Definition timestamp (t : time) : Z :=
    match t_off t with Some _ => t_pos t | None => local_instant E (t_pos t) end.

  (** _utils.py:218-253 *)
  Definition coerce_created (v : val) : outcome time :=
    match v with
    | VTime t => match t_off t with
                 | None => Ret (Time (t_pos t) (Some 0%Z))
                 | Some _ => Ret t
                 end
    | VNum z => Ret (Time z (Some 0%Z))
    | VBool b => Ret (Time (if b then 1000000 else 0)%Z (Some 0%Z))
    | VStr s => match parse_float E s with
                | Some z => Ret (Time z (Some 0%Z))
                | None => match parse_iso E s with
                          | Some t => Ret t
                          | None => Raise ValueError
                          end
                end
    | _ => Raise ValueError
    end.

  (** _utils.py:186-215; Observables are not values of dumped data. *)
  Definition to_uuid (v : val) : outcome nat :=
    match v with
    | VUuid n => Ret n
    | VStr s => match parse_uuid E s with Some n => Ret n | None => Raise ValueError end
    | _ => Raise ValueError
    end.

  (** element.py:90-103 (_to_dict): model_dump, then the class name is put into
      the dumped metadata.  [fields] are the dumped additional fields. *)
  Definition dump (e : element) (fields : data) : data :=
    [("id", VUuid (e_id e)); ("created_at", VTime (e_created e));
     ("metadata", VDict (dset "lion_class" (VStr (cname E (e_cls e))) (e_meta e)))] ++ fields.

  (** element.py:121-125 *)
  Definition the_format (m : mode) (f : option format) : format :=
    match f with
    | Some f => f
    | None => match m with Json => Isoformat | _ => Datetime end
    end.

  Definition the_key (m : mode) (mk : option string) : option string :=
    match mk with
    | Some k => Some k
    | None => match m with Db => Some "node_metadata" | _ => None end
    end.

  (** element.py:127-153: the format of created_at. *)
  Definition format_created (m : mode) (f : format) (t : time) (d : data) : outcome data :=
    match dget "created_at" d with
    | None => Ret d
    | Some v =>
        match f, m with
        | Isoformat, Python => Ret (dset "created_at" (VStr (iso E t)) d)
        | Isoformat, _ => Ret d
        | Timestamp, _ => Ret (dset "created_at" (VNum (timestamp t)) d)
        | Datetime, Json => Raise ValueError
        | Datetime, Db => match v with
                          | VStr _ => Ret (dset "created_at" (VTime t) d)
                          | _ => Ret d
                          end
        | Datetime, Python => Ret d
        end
    end.

  (** element.py:155-156 *)
  Definition rename_meta (mk : option string) (d : data) : data :=
    match mk with
    | Some k =>
        if String.eqb k "" then d
        else match dget "metadata" d with
             | Some v => dset k v (ddel "metadata" d)
             | None => d
             end
    | None => d
    end.

  (** element.py:105-158 *)
  Definition to_dict_with (e : element) (fields : data) (m : mode) (f : option format)
      (mk : option string) : outcome data :=
    bind (match m with Python => Ret (dump e fields) | _ => jsonify_dict (dump e fields) end)
      (fun d => bind (format_created m (the_format m f) (e_created e) d)
      (fun d => Ret (rename_meta (the_key m mk) d))).

  Definition dump_fields (e : element) : data :=
    map (fun '(k, v) => (k, fdump E (e_cls e) k v)) (e_fields e).

  Definition to_dict (e : element) (m : mode) (f : option format) (mk : option string)
      : outcome data :=
    to_dict_with e (dump_fields e) m f mk.

  (** pydantic validation of an element of class [c]; element.py:38 (extra
      fields are forbidden), 59-88 (the field validators). *)
  Definition known (c : nat) (k : string) : bool :=
    existsb (String.eqb k) (["id"; "created_at"; "metadata"] ++ own_fields E c).

  Definition load_field (c : nat) (d : data) (k : string) : outcome (string * val) :=
    match dget k d with
    | Some v => bind (fload E c k v) (fun w => Ret (k, w))
    | None => match fdefault E c k with Some w => Ret (k, w) | None => Raise ValueError end
    end.

  Definition load_meta (v : option val) : data :=
    match v with
    | None => []
    | Some v => if truthy v then match v with VDict m => m | _ => meta_other E v end else []
    end.

  Definition model_validate (c : nat) (d : data) : outcome element :=
    if forallb (fun '(k, _) => known c k) d then
      bind (match dget "id" d with None => Ret (fresh_id E) | Some v => to_uuid v end)
        (fun i => bind (match dget "created_at" d with
                        | None => Ret (now E)
                        | Some v => coerce_created v
                        end)
        (fun t => bind (collect (load_field c d) (own_fields E c))
        (fun fs => Ret (Element c i t (load_meta (dget "metadata" d)) fs))))
    else Raise ValueError.

  (** element.py:172-180 and node.py:252-260: put the metadata back. *)
  Definition legacy_meta (d : data) : data :=
    match dget "node_metadata" d with
    | Some v => if dmem "metadata" d then d else dset "metadata" v (ddel "node_metadata" d)
    | None => d
    end.

  Definition restore_meta (mk : option string) (d : data) : data :=
    ddel "node_metadata"
      (match mk with
       | Some k =>
           if String.eqb k "" then legacy_meta d
           else match dget k d with
                | Some v => dset "metadata" v (ddel k d)
                | None => legacy_meta d
                end
       | None => legacy_meta d
       end).

  (** element.py:182-189 and node.py:262-269: take the class name out. *)
  Definition take_class (d : data) : data * val :=
    match dget "metadata" d with
    | None => (dset "metadata" (VDict []) d, VNone)
    | Some (VDict m) =>
        (dset "metadata" (VDict (ddel "lion_class" m)) d,
         match dget "lion_class" m with Some v => v | None => VNone end)
    | Some _ => (d, VNone)
    end.

  Section FromDict.
    Context {R : Type}.
    (** cls.model_validate, and target.from_dict for a class with another
        from_dict. *)
    Variable build : nat -> data -> outcome R.
    Variable delegate : nat -> data -> outcome R.

    (** element.py:160-217 *)
    Definition from_dict (c : nat) (d : data) (mk : option string) : outcome R :=
      let '(d, lc) := take_class (restore_meta mk d) in
      if truthy lc then
        match lc with
        | VStr s =>
            if String.eqb s (cname E c) then build c d
            else
              match load E s with
              | None => Raise ValueError
              | Some t =>
                  if is_element E t then
                    match impl_of E t, impl_of E c with
                    | IElement, IElement | INode, INode | IPile, IPile | IGraph, IGraph =>
                        build t d
                    | IOther a, IOther b => if Nat.eqb a b then build t d else delegate t d
                    | _, _ => delegate t d
                    end
                  else Raise ValueError
              end
        | VList _ | VDict _ => Raise TypeError
        | _ => Raise ValueError
        end
      else build c d.
  End FromDict.

  (** Element.from_dict for elements without piles. *)
  Variable elsewhere : nat -> data -> outcome element.

  (** node.py:224-279, one call: apply the deserialiser, restore the metadata. *)
  Definition node_prepare (d : data) (mk : option string) (deser : option (val -> outcome val))
      : outcome (data * val) :=
    bind (match deser with
          | None => Ret d
          | Some f => match dget "content" d with
                      | None => Ret d
                      | Some v => match f v with
                                  | Ret w => Ret (dset "content" w d)
                                  | Raise _ => Raise ValueError
                                  end
                      end
          end)
      (fun d => Ret (take_class (restore_meta mk d))).

  (** NODE_REGISTRY.get(name) or NODE_REGISTRY.get(last component). *)
  Definition find_class (s : string) : option nat :=
    match registry E s with Some t => Some t | None => registry E (last_part E s) end.

  (** node.py:224-281.  The call target.from_dict starts again with the class
      name already removed, so that it can only validate (the registered classes
      are taken not to override from_dict). *)
  Definition node_from_dict (c : nat) (d : data) (mk : option string)
      (deser : option (val -> outcome val)) : outcome element :=
    bind (node_prepare d mk deser) (fun '(d, lc) =>
      if truthy lc then
        match lc with
        | VStr s =>
            if String.eqb s (cname E c) then model_validate c d
            else match find_class s with
                 | Some t => if Nat.eqb t c then model_validate c d
                             else bind (node_prepare d None deser)
                                    (fun '(d, _) => model_validate t d)
                 | None => model_validate c d
                 end
        | VList _ | VDict _ => Raise TypeError
        | _ => Raise AttributeError
        end
      else model_validate c d).

  (** node.py:143-222 with a content serialiser: content is left out of the dump
      and added at the end. *)
  Definition node_to_dict (e : element) (m : mode) (f : option format) (mk : option string)
      (ser : option (val -> outcome val)) : outcome data :=
    match ser with
    | None => to_dict e m f mk
    | Some s =>
        let content := match dget "content" (e_fields e) with Some v => v | None => VNone end in
        match s content with
        | Raise _ => Raise ValueError
        | Ret w =>
            bind (to_dict_with e (ddel "content" (dump_fields e)) m f mk)
              (fun d => Ret (dset "content" w d))
        end
    end.

  (** ---- piles ---- *)

  (** A coherent pile (see ModelPile): its own element part, the type
      constraint, the items in order and the name of the progression. *)
  Record pile := Pile {
    p_el : element;
    p_types : option (list nat);
    p_strict : bool;
    p_items : list element;
    p_name : option string
  }.

  (** pile.py:144-149 and the plain field strict_type. *)
  Definition dump_types (ts : option (list nat)) : val :=
    match ts with None => VNone | Some l => VList (map (fun t => VStr (tname E t)) l) end.

  Definition pile_fields (p : pile) : data :=
    dump_fields (p_el p) ++
    [("item_type", dump_types (p_types p)); ("strict_type", VBool (p_strict p))].

  (** pile.py:176-184: the name goes into the dumped metadata. *)
  Definition add_name (m : mode) (mk : option string) (name : option string) (d : data) : data :=
    let key := match mk with
               | Some k => if String.eqb k "" then (match m with Db => "node_metadata" | _ => "metadata" end) else k
               | None => match m with Db => "node_metadata" | _ => "metadata" end
               end in
    match name with
    | Some n =>
        if String.eqb n "" then d
        else match dget key d with
             | Some (VDict md) => dset key (VDict (dset "progression_name" (VStr n) md)) d
             | _ => d
             end
    | None => d
    end.

  (** pile.py:151-209 *)
  Definition pile_to_dict (p : pile) (m : mode) (f : option format) (mk imk : option string)
      (ifmt : option format) : outcome data :=
    bind (to_dict_with (p_el p) (pile_fields p) m f mk) (fun d =>
      bind (collect (fun i => to_dict i (match m with Python => Python | _ => Json end) ifmt imk)
              (p_items p))
        (fun items => Ret (dset "items" (VList (map VDict items)) (add_name m mk (p_name p) d)))).

  (** data['item_type']: nothing, or class names. *)
  Definition load_types (v : option val) : outcome (option (list nat)) :=
    match v with
    | Some (VList ((VStr _ :: _) as l)) =>
        bind (collect (fun x => match x with
                                | VStr s => match load E s with
                                            | Some t => Ret t
                                            | None => Raise ValueError
                                            end
                                | _ => Raise ValueError
                                end) l) (fun ts => Ret (Some ts))
    | Some v => if truthy v then Raise ValueError else Ret None
    | None => Ret None
    end.

  (** pile.py:645-665 and 712-725. *)
  Definition fits (ts : list nat) (strict : bool) (c : nat) : bool :=
    if strict then existsb (Nat.eqb c) ts else existsb (sub E c) ts.

  (** pile.py:706-730: one item of the check before anything is loaded. *)
  Definition precheck (ts : list nat) (strict : bool) (d : data) : outcome unit :=
    match dget "metadata" d with
    | None => Ret tt
    | Some (VDict m) =>
        match dget "lion_class" m with
        | None => Ret tt
        | Some v =>
            if truthy v then
              match v with
              | VStr s => match load E s with
                          | None => Ret tt
                          | Some c => if fits ts strict c then Ret tt else Raise TypeError
                          end
              | VList _ | VDict _ => Raise TypeError
              | _ => Ret tt
              end
            else Ret tt
        end
    | Some _ => Raise AttributeError
    end.

  (** pile.py:745-748: load the items one by one and add them. *)
  Fixpoint add_items (item_from : data -> outcome element) (p : pile) (l : list data)
      : outcome pile :=
    match l with
    | [] => Ret p
    | d :: t =>
        bind (item_from d) (fun i =>
          if match p_types p with None => true | Some ts => fits ts (p_strict p) (e_cls i) end
          then if existsb (fun j => Nat.eqb (e_id j) (e_id i)) (p_items p) then Raise ExistsError
               else add_items item_from
                      (Pile (p_el p) (p_types p) (p_strict p) (p_items p ++ [i]) (p_name p)) t
          else Raise TypeError)
    end.

  Definition as_dict (v : val) : outcome data :=
    match v with VDict d => Ret d | _ => Raise AttributeError end.

  (** Element.from_dict on an item; [base] is the class Element.  Node classes
      are handed to Node.from_dict. *)
  Definition item_from_dict (base : nat) (imk : option string) (d : data) : outcome element :=
    from_dict model_validate
      (fun t d => match impl_of E t with
                  | INode => node_from_dict t d None None
                  | _ => elsewhere t d
                  end) base d imk.

  (** pile.py:669-750, without item_type among the keyword arguments. *)
  Definition pile_from_dict (base c : nat) (d : data) (mk imk : option string) : outcome pile :=
    let d := match mk with
             | Some k => if String.eqb k "" then d
                         else match dget k d with
                              | Some v => dset "metadata" v (ddel k d)
                              | None => d
                              end
             | None => d
             end in
    let strict := match dget "strict_type" d with Some v => truthy v | None => false end in
    bind (match dget "items" d with
          | None => Ret []
          | Some (VList l) => collect as_dict l
          | Some _ => Raise TypeError
          end) (fun items =>
    bind (load_types (dget "item_type" d)) (fun ts =>
    bind (match ts with
          | Some ts => bind (collect (precheck ts strict) items) (fun _ => Ret tt)
          | None => Ret tt
          end) (fun _ =>
    bind (model_validate c (ddel "strict_type" (ddel "item_type" (ddel "items" d)))) (fun el =>
    bind (match dget "metadata" d with
          | None => Ret None
          | Some (VDict m) => match dget "progression_name" m with
                              | Some v => if truthy v then
                                            match v with VStr s => Ret (Some s)
                                                       | _ => Raise ValueError end
                                          else Ret None
                              | None => Ret None
                              end
          | Some _ => Raise AttributeError
          end) (fun name =>
    add_items (item_from_dict base imk) (Pile el ts strict [] name) items))))).
End WithEnv.
