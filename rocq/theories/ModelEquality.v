(** Equality and hashing: types/base.py:62-63, 138-147, 189-190, 291-300 (Params, DataClass)
    with what @dataclass adds to their subclasses, types/base.py:306-341 (Meta),
    types/spec.py:98-125 (Spec), base/element.py:253-261 (Element).

    Values and texts are opaque.  Left out: [==] or hash of a value that raises something other than
    TypeError from hash; fields that were never set; [==] between objects whose classes
    define [__eq__] themselves. *)
From Coq Require Import List Bool Arith ZArith.
From Verif Require Import PyBase.
Import ListNotations.
Local Open Scope Z_scope.

(** What Python does with values. *)
Record world (V : Type) := World {
  same : V -> V -> bool;              (* == *)
  is_ : V -> V -> bool;               (* is *)
  ident : V -> Z;                     (* id *)
  can_call : V -> bool;               (* callable *)
  vhash : V -> option Z;              (* hash; None: TypeError *)
  shown : V -> nat;                  (* str *)
  text_hash : nat -> Z;
  int_hash : Z -> Z;
  tuple_hash : list Z -> Z
}.
Arguments same {V}. Arguments is_ {V}. Arguments ident {V}. Arguments can_call {V}. Arguments vhash {V}.
Arguments shown {V}. Arguments text_hash {V}. Arguments int_hash {V}. Arguments tuple_hash {V}.

Section Values.
Variable V : Type.
Variable W : world V.

(** Comparison inside a tuple: identity first. *)
Definition item_eq (v w : V) : bool := is_ W v w || same W v w.

Fixpoint items_eq (l l' : list V) : bool :=
  match l, l' with
  | [], [] => true
  | v :: l, w :: l' => item_eq v w && items_eq l l'
  | _, _ => false
  end.

(** hash of a tuple *)
Fixpoint hashes (l : list (option Z)) : outcome (list Z) :=
  match l with
  | [] => Ret []
  | None :: _ => Raise TypeError
  | Some h :: l => bind (hashes l) (fun r => Ret (h :: r))
  end.
Definition hash_tuple (l : list (option Z)) : outcome Z := bind (hashes l) (fun r => Ret (tuple_hash W r)).

(** ** Meta *)
Record meta := Meta { m_ref : nat; m_key : nat; m_val : V }.   (* m_ref: which object *)

(** base.py:315-325 *)
Definition meta_hash (m : meta) : Z :=
  if can_call W (m_val m) then tuple_hash W [text_hash W (m_key m); int_hash W (ident W (m_val m))]
  else match vhash W (m_val m) with
       | Some h => tuple_hash W [text_hash W (m_key m); h]
       | None => tuple_hash W [text_hash W (m_key m); text_hash W (shown W (m_val m))]
       end.

(** base.py:328-341, both Metas *)
Definition meta_eq (m n : meta) : bool :=
  if negb (m_key m =? m_key n)%nat then false
  else if can_call W (m_val m) && can_call W (m_val n) then ident W (m_val m) =? ident W (m_val n)
  else same W (m_val m) (m_val n).

(** ** Spec: a frozen dataclass with generated methods *)
Record spec := Spec { s_type : V; s_metas : list meta }.

Fixpoint metas_eq (l l' : list meta) : bool :=
  match l, l' with
  | [], [] => true
  | m :: l, n :: l' => ((m_ref m =? m_ref n)%nat || meta_eq m n) && metas_eq l l'
  | _, _ => false
  end.
Definition spec_eq (s t : spec) : bool := item_eq (s_type s) (s_type t) && metas_eq (s_metas s) (s_metas t).
Definition spec_hash (s : spec) : outcome Z :=
  hash_tuple [vhash W (s_type s); Some (tuple_hash W (map meta_hash (s_metas s)))].

(** ** Params and DataClass *)
Inductive base := Params | DataClass.

(** A class of the hierarchy: [dec]: decorated with @dataclass(eq=, frozen=); whether its body
    defines __eq__ and __hash__; its own fields. *)
Record class := Class {
  c_ref : nat; c_dec : option (bool * bool); c_eq : bool; c_hash : bool; c_fields : list nat
}.

(** dataclasses._process_class: a frozen class cannot inherit from one that is not, nor the
    other way round. *)
Definition frozen (b : base) : bool := match b with Params => true | DataClass => false end.
Definition decorates (b : base) (c : class) : bool :=
  match c_dec c with Some (_, f) => Bool.eqb f (frozen b) | None => true end.
(** A class with its bases up to Params or DataClass, nearest first *)
Definition definable (b : base) (mro : list class) : bool := forallb (decorates b) mro.

(** dataclasses.fields *)
Fixpoint fields (mro : list class) : list nat :=
  match mro with
  | [] => []
  | c :: r => match c_dec c with
              | Some _ => fields r ++ filter (fun k => negb (existsb (Nat.eqb k) (fields r))) (c_fields c)
              | None => fields r
              end
  end.

Inductive eq_method := ByContent | ByFields | OwnEq (c : nat).
Inductive hash_method := HContent | HFields | HOwn (c : nat) | HNone.

(** The __eq__ found in the class or its bases: dataclass adds one unless the class has it. *)
Fixpoint eq_of (mro : list class) : eq_method :=
  match mro with
  | [] => ByContent
  | c :: r => if c_eq c then OwnEq (c_ref c)
              else match c_dec c with Some (true, _) => ByFields | _ => eq_of r end
  end.

(** A body with __eq__ and without __hash__ sets __hash__ to None; dataclass(eq=True) adds
    __hash__ to a frozen class and sets it to None in others, unless the body defines it. *)
Fixpoint hash_of (mro : list class) : hash_method :=
  match mro with
  | [] => HContent
  | c :: r => if c_hash c then HOwn (c_ref c)
              else match c_dec c with
                   | Some (true, f) => if f then HFields else HNone
                   | _ => if c_eq c then HNone else hash_of r
                   end
  end.

(** An object: the class, and the values of all fields *)
Record obj := Obj { o_mro : list class; o_val : nat -> V }.
Definition o_class (o : obj) : option nat := match o_mro o with c :: _ => Some (c_ref c) | [] => None end.
Definition values (o : obj) : list V := map (o_val o) (fields (o_mro o)).

Variable sentinel : V -> bool.
Variable digest : list (nat * V) -> Z.                                    (* ln.hash_dict *)

(** to_dict: see ModelParams *)
Definition content (o : obj) : list (nat * V) :=
  filter (fun e => negb (sentinel (snd e))) (map (fun k => (k, o_val o k)) (fields (o_mro o))).

Definition hash (o : obj) : outcome Z :=
  match hash_of (o_mro o) with
  | HContent => Ret (digest (content o))
  | HFields => hash_tuple (map (vhash W) (values o))
  | HOwn _ => Raise OtherErr
  | HNone => Raise TypeError
  end.

(** The generated __eq__; None: NotImplemented. *)
Definition fields_eq (o p : obj) : option bool :=
  if match o_class o, o_class p with
     | Some c, Some d => (c =? d)%nat | None, None => true | _, _ => false end
  then Some (items_eq (values o) (values p)) else None.

(** base.py:143-147, 296-300; [p] is of the same base *)
Definition content_eq (o p : obj) : outcome bool :=
  bind (hash o) (fun h => bind (hash p) (fun k => Ret (h =? k))).

Definition try_eq (o p : obj) : outcome (option bool) :=
  match eq_of (o_mro o) with
  | ByFields => Ret (fields_eq o p)
  | ByContent => bind (content_eq o p) (fun r => Ret (Some r))
  | OwnEq _ => Raise OtherErr
  end.

(** o == p for two objects, neither's class a proper subclass of the other's; [i]: o is p. *)
Definition equal (i : bool) (o p : obj) : outcome bool :=
  bind (try_eq o p) (fun r =>
  match r with
  | Some b => Ret b
  | None => bind (try_eq p o) (fun r => match r with Some b => Ret b | None => Ret i end)
  end).
End Values.

(** ** Element: base/element.py:253-261 *)
Record element := Elem { e_class : nat; e_uuid : nat; e_rest : nat }.
Definition element_eq (x y : element) : bool := (e_uuid x =? e_uuid y)%nat.
Definition element_hash (uuid_hash : nat -> Z) (x : element) : Z := uuid_hash (e_uuid x).
