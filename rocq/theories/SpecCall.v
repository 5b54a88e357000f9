(** Vocabulary for function calls: later bindings win, the owner of an argument. *)
From Coq Require Import String.
From Coq Require Import List Bool Arith.
From Verif Require Import PyBase ModelCall.
Import ListNotations.
Local Open Scope list_scope.

(** d is a dict holding the bindings l, the last one for each key. *)
Definition binds {V} (l : list (string * V)) (d : dict string V) : Prop :=
  NoDup (dkeys d) /\ forall k, dget k d = dget k (rev l).

(** Positional arguments under their keys. *)
Definition positions {V} (vs : list V) : list (string * V) := combine (map pos_key (seq 0 (length vs))) vs.

Definition special (k : string) : Prop := exists r, k = append "_pos_" r.

(** Reading the entries in order with the parameter names still unused: an entry under a
    special key goes to the next parameter, any other keeps its key. *)
Inductive translates {V} : list (string * V) -> list string -> list (string * V) -> Prop :=
| tr_nil ps : translates [] ps []
| tr_pos k v l p ps l' : special k -> translates l ps l' -> translates ((k, v) :: l) (p :: ps) ((p, v) :: l')
| tr_kw k v l ps l' : ~ special k -> translates l ps l' -> translates ((k, v) :: l) ps ((k, v) :: l').

(** A field names k among the fields of a model it is annotated with. *)
Inductive holds (k : string) : annotation -> Prop :=
| holds_model l : In k l -> holds k (AModel l)
| holds_union ms l : In (AModel l) ms -> In k l -> holds k (APipeUnion ms).

(** k is not a field of the schema, and f is its first field whose models have k. *)
Definition owner (s : schema) (k f : string) : Prop :=
  ~ In k (map fst s) /\
  exists s1 a s2, s = s1 ++ (f, a) :: s2 /\ holds k a /\ forall f' a', In (f', a') s1 -> ~ holds k a'.
