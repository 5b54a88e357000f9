(** Vocabulary for structural hashing: equal up to the order of dicts and sets. *)
From Coq Require Import String.
From Coq Require Import List Bool Arith ZArith Permutation.
From Verif Require Import ModelHash.
Import ListNotations.
Local Open Scope list_scope.

(** Primitive values equal under ==. *)
Definition prim_eq (p q : prim) : Prop :=
  match p, q with
  | PNone, PNone => True
  | PStr s, PStr t => s = t
  | _, _ => exists z, num p = Some z /\ num q = Some z
  end.

(** The same structure up to the order of dict items and set elements; equal texts
    for keys; primitives up to ==, but set elements of the same type. *)
Inductive same : hv -> hv -> Prop :=
| sm_prim p q : prim_eq p q -> same (HPrim p) (HPrim q)
| sm_dict kv kv' kv2 : Permutation kv kv2 ->
    Forall2 (fun e e' => fst e = fst e' /\ same (snd e) (snd e')) kv2 kv' -> same (HDict kv) (HDict kv')
| sm_list l l' : Forall2 same l l' -> same (HList l) (HList l')
| sm_tuple l l' : Forall2 same l l' -> same (HTuple l) (HTuple l')
| sm_frozen l l' : Permutation l l' -> same (HFrozen l) (HFrozen l')
| sm_set l l' : Permutation l l' -> same (HSet l) (HSet l')
| sm_model d d' : same d d' -> same (HModel d) (HModel d')
| sm_other t : same (HOther t) (HOther t).

(** Different floats have different texts (NaNs apart). *)
Definition nan (p : prim) : Prop := exists i, p = PFloat (FNaN i).
Definition texts (obj_str : hv -> string) : Prop :=
  forall f g, ~ nan (PFloat f) -> ~ nan (PFloat g) -> obj_str (HPrim (PFloat f)) = obj_str (HPrim (PFloat g)) -> f = g.

(** Keys are primitives with different texts; sets hold primitives, no two equal, no NaN. *)
Definition prims (l : list hv) (ps : list prim) : Prop := l = map HPrim ps.
Definition distinct (ps : list prim) : Prop :=
  ForallOrdPairs (fun p q => ~ prim_eq p q) ps /\ Forall (fun p => ~ nan p) ps.
Section Good.
Variable obj_str : hv -> string.
Inductive good : hv -> Prop :=
| gd_prim p : good (HPrim p)
| gd_dict kv ps : prims (map fst kv) ps -> NoDup (map (hv_str obj_str) (map fst kv)) -> Forall good (map snd kv) -> good (HDict kv)
| gd_list l : Forall good l -> good (HList l)
| gd_tuple l : Forall good l -> good (HTuple l)
| gd_frozen l ps : prims l ps -> distinct ps -> good (HFrozen l)
| gd_set l ps : prims l ps -> distinct ps -> good (HSet l)
| gd_model d : good d -> good (HModel d)
| gd_other t : good (HOther t).
End Good.

(** Plain data: keys are texts, sets hold no bools and no whole floats, no custom objects. *)
Definition whole (p : prim) : Prop := (exists b, p = PBool b) \/ (exists z, p = PFloat (FInt z)) \/ p = PFloat FNeg0.
Inductive plain : hv -> Prop :=
| pl_prim p : plain (HPrim p)
| pl_dict kv ks : map fst kv = map (fun s => HPrim (PStr s)) ks -> NoDup ks -> Forall plain (map snd kv) -> plain (HDict kv)
| pl_list l : Forall plain l -> plain (HList l)
| pl_tuple l : Forall plain l -> plain (HTuple l)
| pl_frozen l ps : prims l ps -> distinct ps -> Forall (fun p => ~ whole p) ps -> plain (HFrozen l)
| pl_set l ps : prims l ps -> distinct ps -> Forall (fun p => ~ whole p) ps -> plain (HSet l)
| pl_model d : plain d -> plain (HModel d).
