(** Model of to_list, /repo/src/lionherd_core/ln/_to_list.py.

    Values are the Python objects as far as to_list looks at them.  Simplified:
    iterables are finite and do not contain themselves; an Enum class has no alias
    members; an iterable of any other class (generator, range, deque, dict view)
    is [KIter] with the items it yields; use_values is modelled for str (of bytes it gives
    the ints, not texts); no Enum member is itself a str.  Python's [==] and [hash] are parameters. *)
From Coq Require Import List Bool Arith ZArith.
From Verif Require Import PyBase.
Import ListNotations.
Local Open Scope list_scope.

Inductive kind := KList | KTuple | KSet | KFrozen | KIter.

Inductive val :=
| VNone
| VUndef                                   (* instance of _SINGLETONE_TYPES (64) *)
| VAtom (a : Z)                            (* not iterable, e.g. an int *)
| VText (s : list Z)                       (* str, bytes, bytearray (24) *)
| VSeq (k : kind) (l : list val)
| VMap (kv : list (val * val))             (* a Mapping *)
| VModel (m : Z)                           (* a pydantic model *)
| VEnum (m : Z) (v : val)                  (* an Enum member with its value *)
| VEnumClass (l : list (Z * val)).         (* an Enum class with its members *)

Definition is_na (v : val) : bool := match v with VNone | VUndef => true | _ => false end.

(** 84-87: the items if the value is an iterable that is not skipped.  [tuples] is
    flatten_tuple_set (133).  An Enum class is iterable but no instance of Enum. *)
Definition members (l : list (Z * val)) : list val := map (fun p => VEnum (fst p) (snd p)) l.

Section Process.
Variables (flatten dropna tuples : bool).
(** 69-96, one item; [process] of a list is [flat_map item]. *)
Fixpoint item (v : val) : list val :=
  if dropna && is_na v then []                                                (* 81-82 *)
  else
    let sub l := if flatten then flat_map item l else [VSeq KList (flat_map item l)] in
    match v with
    | VSeq KList l | VSeq KIter l => sub l
    | VSeq _ l => if tuples then sub l else [v]
    | VEnumClass l =>
        let ms := members l in
        if flatten then ms else [VSeq KList ms]
    | _ => [v]
    end.
Definition process (l : list val) : list val := flat_map item l.
End Process.

(** 98-126 *)
Definition initial (use_values : bool) (v : val) : list val :=
  match v with
  | VNone | VUndef => []
  | VSeq _ l => l
  | VEnumClass l => if use_values then map snd l else members l
  | VText s => if use_values then map (fun c => VText [c]) s else [v]
  | VMap kv => if use_values then map snd kv else [v]
  | _ => [v]
  end.

Section Unique.
(** [hash v = None]: hash(v) raises TypeError.  [eqv]: identical or ==.  [hdict]:
    hash_dict. *)
Variable hash : val -> option Z.
Variable eqv : val -> val -> bool.
Variable hdict : val -> Z.

Definition seen_has (v : val) (seen : list val) : bool := existsb (fun x => eqv x v) seen.

(** 140-145, before the first TypeError; None: TypeError.  [i in seen] accepts an
    unhashable set and looks for an equal frozenset; only [seen.add] then raises. *)
Fixpoint direct (l seen : list val) : option (list val) :=
  match l with
  | [] => Some seen
  | v :: l =>
      match hash v, v with
      | Some _, _ => direct l (if seen_has v seen then seen else seen ++ [v])
      | None, VSeq KSet _ => if seen_has v seen then direct l seen else None
      | None, _ => None
      end
  end.

Definition is_map (v : val) : bool := match v with VMap _ | VModel _ => true | _ => false end.
(** 153-165 *)
Fixpoint by_hash (l : list val) (seen : list Z) : outcome (list val) :=
  match l with
  | [] => Ret []
  | v :: l =>
      bind (match hash v with
            | Some h => Ret h
            | None => if is_map v then Ret (hdict v) else Raise ValueError
            end) (fun h =>
      if existsb (Z.eqb h) seen then by_hash l seen
      else bind (by_hash l (h :: seen)) (fun r => Ret (v :: r)))
  end.

Definition to_list (v : val) (flatten dropna unique use_values tuples : bool) : outcome (list val) :=
  if unique && negb flatten then Raise ValueError                             (* 128-129 *)
  else
    let processed := process flatten dropna tuples (initial use_values v) in  (* 131-134 *)
    if unique then
      match direct processed [] with                                          (* 136-167 *)
      | Some out => Ret out
      | None => by_hash processed []
      end
    else Ret processed.
End Unique.
