(** Vocabulary for pruning: void values, leaves, parts. *)
From Coq Require Import List Bool Arith ZArith Permutation.
From Verif Require Import ModelYaml.
Import ListNotations.
Local Open Scope list_scope.

(** The values directly inside a container. *)
Definition parts (x : yval) : option (list yval) :=
  match x with
  | YDict kv => Some (map snd kv)
  | YList l | YTuple l | YSet l => Some l
  | _ => None
  end.

(** None, blank texts, and containers all of whose parts are void. *)
Inductive void : yval -> Prop :=
| void_none : void YNone
| void_blank id : void (YStr true id)
| void_parts x l : parts x = Some l -> Forall void l -> void x.

(** The same as a test. *)
Fixpoint voidb (x : yval) : bool :=
  match x with
  | YNone => true
  | YStr b _ => b
  | YAtom _ => false
  | YDict kv => forallb (fun p => voidb (snd p)) kv
  | YList l | YTuple l | YSet l => forallb voidb l
  end.

(** y occurs inside x, at any depth. *)
Inductive inside : yval -> yval -> Prop :=
| inside_part x l y : parts x = Some l -> In y l -> inside y x
| inside_deep x l y z : parts x = Some l -> In y l -> inside z y -> inside z x.

(** No set anywhere in the value. *)
Inductive no_sets : yval -> Prop :=
| ns_leaf x : parts x = None -> no_sets x
| ns_dict kv : Forall no_sets (map snd kv) -> no_sets (YDict kv)
| ns_list l : Forall no_sets l -> no_sets (YList l)
| ns_tuple l : Forall no_sets l -> no_sets (YTuple l).
(** Leaves from left to right, with the dict keys on the way. *)
Fixpoint leaves (x : yval) : list (list Z * yval) :=
  match x with
  | YDict kv => flat_map (fun p => map (fun q => (fst p :: fst q, snd q)) (leaves (snd p))) kv
  | YList l | YTuple l | YSet l => flat_map leaves l
  | _ => [([], x)]
  end.

(** Building a set: same elements, no repetitions, in an arbitrary order. *)
Definition set_builder (mkset : list yval -> list yval) : Prop :=
  forall l, NoDup (mkset l) /\ (forall x, In x (mkset l) <-> In x l).

(** Elements of sets are hashable: no sets inside. *)
Inductive hashable_sets : yval -> Prop :=
| hs_leaf x : parts x = None -> hashable_sets x
| hs_dict kv : Forall hashable_sets (map snd kv) -> hashable_sets (YDict kv)
| hs_list l : Forall hashable_sets l -> hashable_sets (YList l)
| hs_tuple l : Forall hashable_sets l -> hashable_sets (YTuple l)
| hs_set l : Forall no_sets l -> hashable_sets (YSet l).

(** Equal up to the order of sets. *)
Inductive same_y : yval -> yval -> Prop :=
| sy_leaf x : same_y x x
| sy_dict kv kv' : map fst kv = map fst kv' -> Forall2 same_y (map snd kv) (map snd kv') -> same_y (YDict kv) (YDict kv')
| sy_list l l' : Forall2 same_y l l' -> same_y (YList l) (YList l')
| sy_tuple l l' : Forall2 same_y l l' -> same_y (YTuple l) (YTuple l')
| sy_set l l' : Permutation l l' -> same_y (YSet l) (YSet l').
