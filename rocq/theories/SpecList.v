(** Vocabulary for to_list: positions in nested containers, first occurrences. *)
From Coq Require Import List Bool Arith ZArith.
From Verif Require Import PyBase ModelList.
Import ListNotations.
Local Open Scope list_scope.

(** The items of a container that is taken apart. *)
Definition contents (tuples : bool) (v : val) : option (list val) :=
  match v with
  | VSeq KList l | VSeq KIter l => Some l
  | VSeq _ l => if tuples then Some l else None
  | VEnumClass l => Some (map (fun p => VEnum (fst p) (snd p)) l)
  | _ => None
  end.
Definition leaf (tuples : bool) (v : val) : Prop := contents tuples v = None.
Definition na (v : val) : Prop := v = VNone \/ v = VUndef.

(** w is found in the list l by following the path p of positions. *)
Inductive found (tuples : bool) : list val -> list nat -> val -> Prop :=
| found_here l i v : nth_error l i = Some v -> found tuples l [i] v
| found_below l i v l' p w : nth_error l i = Some v -> contents tuples v = Some l' -> found tuples l' p w ->
    found tuples l (i :: p) w.

(** Left-to-right order of paths. *)
Inductive path_lt : list nat -> list nat -> Prop :=
| path_lt_here i j p q : i < j -> path_lt (i :: p) (j :: q)
| path_lt_below i p q : path_lt p q -> path_lt (i :: p) (i :: q).

(** Position i holds the first item of its class under eqv. *)
Definition first_at (eqv : val -> val -> bool) (l : list val) (i : nat) : Prop :=
  exists v, nth_error l i = Some v /\ forall j w, j < i -> nth_error l j = Some w -> eqv w v = false.
