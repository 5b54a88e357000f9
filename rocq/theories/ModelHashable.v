(** Model of HashableModel, /repo/src/lionherd_core/types/model.py, on top of ModelHash.

    A model is its class and its fields in the order of the class.  Simplifications:
    pydantic's model_dump keeps plain values and makes dicts of nested models (their dumps
    are what HModel holds); what pydantic accepts for a field is a parameter of the schema;
    include and exclude are one set of names that are kept; aliases are left out. *)
From Coq Require Import String.
From Coq Require Import List Bool ZArith.
From Verif Require Import ModelHash.
Import ListNotations.
Open Scope list_scope.

Inductive sentinel := Undefined | Unset.
Inductive fval := Sent (s : sentinel) | Val (v : hv).
Record model := Model { cls : nat; fields : list (string * fval) }.

(** model_dump inside a value. *)
Fixpoint dump (v : hv) : hv :=
  match v with
  | HModel d => d
  | HDict kv => HDict (map (fun e => (fst e, dump (snd e))) kv)
  | HList l => HList (map dump l)
  | HTuple l => HTuple (map dump l)
  | HFrozen _ | HSet _ | HPrim _ | HOther _ => v
  end.

(** 61-64: _to_dict; [keep] are the names that include and exclude leave. *)
Definition kept (keep : string -> bool) (m : model) : list (hv * hv) :=
  flat_map (fun e => match snd e with
                     | Val v => if keep (fst e) then [(HPrim (PStr (fst e)), dump v)] else []
                     | Sent _ => []
                     end) (fields m).
Inductive mode := Python | Json | Wrong.
Inductive answer (A : Type) := Ok (a : A) | ValueError | ValidationError.
Arguments Ok {A}. Arguments ValueError {A}. Arguments ValidationError {A}.

Section Modes.
  (** orjson.loads(json_dumps(x)) with sorted keys and the serialiser for nested models. *)
  Variable json : hv -> hv.
  (** 66-79: in json mode the keyword arguments are not passed on. *)
  Definition to_dict (md : mode) (keep : string -> bool) (m : model) : answer hv :=
    match md with
    | Python => Ok (HDict (kept keep m))
    | Json => Ok (json (HDict (kept (fun _ => true) m)))
    | Wrong => ValueError
    end.
End Modes.

(** 81-110 with model_validate: no other keys; defaults for missing ones. *)
Record field := Field { name : string; default : option fval; accept : hv -> option hv }.
Definition lookup (k : string) (kv : list (hv * hv)) : option hv :=
  match find (fun e => match fst e with HPrim (PStr s) => String.eqb s k | _ => false end) kv with
  | Some e => Some (snd e)
  | None => None
  end.
Fixpoint validate_fields (schema : list field) (kv : list (hv * hv)) : option (list (string * fval)) :=
  match schema with
  | [] => Some []
  | f :: schema =>
      match (match lookup (name f) kv with
             | Some v => match accept f v with Some v => Some (Val v) | None => None end
             | None => default f
             end), validate_fields schema kv with
      | Some v, Some r => Some ((name f, v) :: r)
      | _, _ => None
      end
  end.
Definition known (schema : list field) (k : hv) : bool :=
  match k with HPrim (PStr s) => existsb (fun f => String.eqb (name f) s) schema | _ => false end.
Definition from_dict (c : nat) (schema : list field) (x : hv) : answer model :=
  match x with
  | HDict kv => if forallb (known schema) (map fst kv)
                then match validate_fields schema kv with Some fs => Ok (Model c fs) | None => ValidationError end
                else ValidationError
  | _ => ValidationError
  end.

(** 143-145 *)
Section Hash.
  Variable obj_str obj_type : hv -> string.
  Variable obj_lt : hv -> hv -> option bool.
  Variable hnone : Z.
  Variable hnan : nat -> Z.
  Variable hstr : string -> Z.
  Variable htuple : list Z -> Z.
  Definition hash (m : model) : Z := hash_dict obj_str obj_type obj_lt hnone hnan hstr htuple (HDict (kept (fun _ => true) m)).
End Hash.
