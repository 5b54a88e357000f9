(** Model of the pruning of minimal_yaml,
    /repo/src/lionherd_core/libs/schema_handlers/_minimal_yaml.py:32-88.

    orjson.loads is a parameter; left out: the YAML writer. *)
From Coq Require Import List Bool Arith ZArith.
Import ListNotations.
Local Open Scope list_scope.

Inductive yval :=
| YNone
| YStr (blank : bool) (id : Z)           (* a text; blank: only white space *)
| YAtom (id : Z)                         (* number, bool, frozenset, any other object *)
| YDict (kv : list (Z * yval))
| YList (l : list yval)
| YTuple (l : list yval)
| YSet (l : list yval).

(** 32-42 *)
Definition is_empty (x : yval) : bool :=
  match x with
  | YNone => true
  | YStr b _ => b
  | YDict kv => length kv =? 0
  | YList l | YTuple l | YSet l => length l =? 0
  | YAtom _ => false
  end.
Definition nonempty (x : yval) : bool := negb (is_empty x).

Section Prune.
(** [mkset l]: the elements, in iteration order, of a set built from l. *)
Variable mkset : list yval -> list yval.
(** 45-59 *)
Fixpoint prune (x : yval) : yval :=
  match x with
  | YDict kv =>
      YDict (filter (fun p => nonempty (snd p))
        (flat_map (fun p => if nonempty (snd p) then [(fst p, prune (snd p))] else []) kv))
  | YList l => YList (filter nonempty (flat_map (fun v => if nonempty v then [prune v] else []) l))
  | YTuple l => YTuple (filter nonempty (flat_map (fun v => if nonempty v then [prune v] else []) l))
  | YSet l => YSet (mkset (filter nonempty (mkset (flat_map (fun v => if nonempty v then [prune v] else []) l))))
  | _ => x
  end.
(** orjson.loads of the text i; None: JSONDecodeError. *)
Variable loads : Z -> option yval.
(** 62-88: the data handed to the YAML writer. *)
Definition written (drop_empties : bool) (value : yval) : yval :=
  let value := match value with YStr _ i => match loads i with Some v => v | None => value end | _ => value end in
  if drop_empties then prune value else value.
End Prune.
