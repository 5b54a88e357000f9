(** Vocabulary for C63, C64, C80. *)
From Coq Require Import String.
From Coq Require Import List Bool Arith.
From Verif Require Import PyBase ModelLexer ModelParser ModelParams.
Import ListNotations.
Local Open Scope string_scope.
Local Open Scope nat_scope.
Local Open Scope list_scope.

(** Iterating a set of names. *)
Definition set_order (order : list string -> list string) : Prop := forall l, NoDup (order l) /\ forall x, In x (order l) <-> In x l.
(** a is a proper base class of c. *)
Definition ancestor (a c : cls) : Prop := exists p, p <> [] /\ c = p ++ a.
Section Params.
Variables (V : Type) (decls : nat -> decl V).
(** c declares or inherits field k. *)
Inductive declares : cls -> string -> Prop :=
| dc_own d p f : In f (d_fields (decls d)) -> declares (d :: p) (f_name f)
| dc_base d p k : declares p k -> declares (d :: p) k.
Definition fieldless (c : cls) : Prop := forall k, ~ declares c k.
(** A value that counts as not given. *)
Definition absent (is_none is_empty : V -> bool) (k : config) (v : pval V) : Prop :=
  v = Undefined \/ v = Unset \/
  (exists x, v = PV x /\ ((none_as_sentinel k = true /\ is_none x = true) \/ (empty_as_sentinel k = true /\ is_empty x = true))).
(** A value carried over by with_updates: enum members perhaps as their values, mutable
    containers copied if asked for. *)
Definition carried (enum_value : V -> option V) (container : V -> bool) (shallow deep : V -> V) (k : config) (c : copying) (x : V) : V :=
  let y := if use_enum_values k then match enum_value x with Some y => y | None => x end else x in
  match c, container y with
  | Shallow, true => shallow y
  | Deep, true => deep y
  | _, _ => y
  end.
(** What an object without an attribute of its own shows for k. *)
Definition class_default (c : cls) (k : string) : pval V :=
  match dget k (fields V decls c) with
  | Some (Fld _ (Some v) true) => v
  | _ => Undefined
  end.
End Params.
