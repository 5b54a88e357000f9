(** Model of protocols.py:140-226, the class decorator implements.

    A class is what the decorator looks at: its own dict, its own annotations, and the dicts of
    the classes it inherits from, in method resolution order.  Simplifications: attributes are
    kinds, not values; typing.Protocol, Generic and object stand in the order of a protocol like
    any other class (all their names start with an underscore); inspect.getmembers adds nothing to
    dir() (it does for enumerations). *)
From Coq Require Import String Ascii.
From Coq Require Import List Bool.
From Verif Require Import PyBase.
Import ListNotations.

(** What an attribute of a class is, in the class's dict. *)
Inductive attr :=
| AFun                        (* def *)
| AProp                       (* @property *)
| AClassM                     (* @classmethod *)
| AStaticM                    (* @staticmethod *)
| AData (call : bool)         (* any other value; is it callable? *)
| AProtocols (ps : list string).   (* the value of __protocols__: protocols, by name *)

Definition body := dict string attr.

Record pyclass := Class {
  c_name : string;
  c_body : body;                 (* cls.__dict__ *)
  c_notes : list string;         (* cls.__annotations__: names annotated in the class body *)
  c_bases : list body            (* the dicts of the rest of the method resolution order *)
}.
Definition mro (c : pyclass) : list body := c_body c :: c_bases c.

(** getattr(cls, n) *)
Fixpoint lookup (n : string) (m : list body) : option attr :=
  match m with
  | [] => None
  | b :: m => match dget n b with Some a => Some a | None => lookup n m end
  end.

(** dir(cls): every name, once, sorted. *)
Fixpoint sinsert (n : string) (l : list string) : list string :=
  match l with
  | [] => [n]
  | m :: l' =>
      match String.compare n m with
      | Lt => n :: l
      | Eq => l
      | Gt => m :: sinsert n l'
      end
  end.
Definition dir (m : list body) : list string :=
  fold_right sinsert [] (concat (map dkeys m)).

Definition private (n : string) : bool :=
  match n with String c _ => Ascii.eqb c "_" | EmptyString => false end.

(** 196-197: callable(obj) or isinstance(obj, (property, classmethod)), of what getattr on the
    class gives: a classmethod is bound then, a staticmethod is its function. *)
Definition method_like (a : attr) : bool :=
  match a with AFun | AProp | AClassM | AStaticM => true | AData c => c | AProtocols _ => false end.

(** 190-198 *)
Definition protocol_members (p : pyclass) : list string :=
  filter (fun n => negb (private n) &&
                   match lookup n (mro p) with Some a => method_like a | None => false end)
         (dir (mro p)).

(** 200-209 *)
Definition in_class_body (c : pyclass) (n : string) : bool :=
  dmem n (c_body c) || memb n (c_notes c).

(** What the decorator does: the decorated class, or the TypeError with the protocol and the
    member it names (211-216). *)
Inductive decorated := Decorated (c : pyclass) | Refused (protocol member : string).

Fixpoint first_missing (c : pyclass) (ps : list pyclass) : option (string * string) :=
  match ps with
  | [] => None
  | p :: ps =>
      match find (fun n => negb (in_class_body c n)) (protocol_members p) with
      | Some n => Some (c_name p, n)
      | None => first_missing c ps
      end
  end.

Definition implements (ps : list pyclass) (c : pyclass) : decorated :=
  match first_missing c ps with
  | Some (p, n) => Refused p n
  | None => Decorated (Class (c_name c)
                             (dset "__protocols__"%string (AProtocols (map c_name ps)) (c_body c))
                             (c_notes c) (c_bases c))
  end.

(** A class statement: bases (in method resolution order) and a body. *)
Definition subclass (n : string) (b : body) (notes : list string) (base : pyclass) : pyclass :=
  Class n b notes (mro base).

(** cls.__protocols__ *)
Definition protocols_of (c : pyclass) : option (list string) :=
  match lookup "__protocols__" (mro c) with Some (AProtocols ps) => Some ps | _ => None end.
