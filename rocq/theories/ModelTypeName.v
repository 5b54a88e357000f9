(** Model of load_type_from_string with its process-wide cache,
    /repo/src/lionherd_core/base/_utils.py:78-129, of extract_types, base/_utils.py:132-183, and
    of Element.class_name, /repo/src/lionherd_core/base/element.py:77-91.

    A world says what importing a module gives and what its attributes are; it may change
    between two calls (a module is reloaded, installed, removed).  importlib.import_module
    refuses the empty name with ValueError and, when it is given no package, a relative name
    with TypeError.  Left out: messages; what the import itself changes in the world. *)
From Coq Require Import String Ascii.
From Coq Require Import List Bool.
From Verif Require Import PyBase.
Import ListNotations.
Open Scope list_scope.
Open Scope string_scope.

Definition class := nat.

(** Exceptions by class; the three that line 128 catches, TypeError, and all others. *)
Inductive err := EValue | EImport | EAttribute | EType | EOther (n : nat).

(** getattr(module, name): a type, an object that is not a type, or an exception. *)
Inductive attr := IsType (c : class) | NotType | NoAttr (e : err).
Inductive import := Module (attrs : string -> attr) | NoModule (e : err).
Definition world := string -> import.

(** The argument: a string, some other hashable value, or an unhashable one. *)
Inductive input := Str (s : string) | Hashable | Unhashable.
Definition cache := list (string * class).
Inductive result := Got (c : class) | Err (e : err).

(** s.rsplit(".", 1) (110), None when there is no dot (105-106). *)
Fixpoint rsplit (s : string) : option (string * string) :=
  match s with
  | EmptyString => None
  | String d r =>
      match rsplit r with
      | Some (a, b) => Some (String d a, b)
      | None => if Ascii.eqb d "." then Some (EmptyString, r) else None
      end
  end.

(** importlib.import_module(name) (115). *)
Definition import_module (w : world) (name : string) : import :=
  match name with
  | EmptyString => NoModule EValue
  | String d _ => if Ascii.eqb d "." then NoModule EType else w name
  end.

(** base/_utils.py:128-129: which exceptions become ValueError. *)
Definition wrap (e : err) : err :=
  match e with EValue | EImport | EAttribute => EValue | e => e end.

(** base/_utils.py:81-129 *)
Definition load (w : world) (i : input) (c : cache) : result * cache :=
  match i with
  | Unhashable => (Err EType, c)                       (* 98: `in` hashes its operand *)
  | Hashable => (Err EValue, c)                        (* 101-102 *)
  | Str s =>
      match dget s c with
      | Some t => (Got t, c)                           (* 98-99 *)
      | None =>
          match rsplit s with
          | None => (Err EValue, c)                    (* 104-105 *)
          | Some (m, n) =>
              match import_module w m with
              | NoModule e => (Err (wrap e), c)
              | Module attrs =>
                  match attrs n with
                  | NoAttr e => (Err (wrap e), c)
                  | NotType => (Err (wrap EValue), c)
                  | IsType t => (Got t, dset s t c)    (* 124 *)
                  end
              end
          end
      end
  end.

(** A process: the calls made one after the other, each in the world of its moment. *)
Fixpoint calls (h : list (world * input)) (c : cache) : list result * cache :=
  match h with
  | [] => ([], c)
  | (w, i) :: h =>
      let (r, c) := load w i c in
      let (rs, c) := calls h c in
      (r :: rs, c)
  end.

(** name.split("[")[0] *)
Fixpoint before_bracket (s : string) : string :=
  match s with
  | EmptyString => EmptyString
  | String d r => if Ascii.eqb d "[" then EmptyString else String d (before_bracket r)
  end.

(** Element.class_name(full=True) of a class with this __module__ and __qualname__;
    element.py:84-91. *)
Definition class_name (modname qualname : string) : string :=
  modname ++ "." ++ before_bracket qualname.

(** extract_types.  A type expression is one type (anything that is no union) or a union of
    types; Python flattens a union of unions when it is formed.  The argument may also be a list
    or a set of such expressions.  The result is a set, here a list of its members.  Left out:
    unhashable list members. *)
Inductive texpr := One (c : class) | Union (cs : list class).
Inductive targ := Expr (t : texpr) | TList (ts : list texpr) | TSet (ts : list texpr).

(** set.add and set.update *)
Definition sadd (c : class) (s : list class) : list class := if memb c s then s else (s ++ [c])%list.
Definition supdate (cs s : list class) : list class := fold_left (fun s c => sadd c s) cs s.

Definition extract_one (s : list class) (t : texpr) : list class :=
  match t with Union cs => supdate cs s | One c => sadd c s end.

Definition extract_types (a : targ) : list class :=
  match a with
  | TSet ts | TList ts => fold_left extract_one ts []    (* 160-176 *)
  | Expr (Union cs) => supdate cs []                     (* 179-180 *)
  | Expr (One c) => [c]                                  (* 183 *)
  end.
