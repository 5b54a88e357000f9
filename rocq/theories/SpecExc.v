(** Vocabulary for exception trees. *)
From Coq Require Import String.
From Coq Require Import List Bool Arith.
From Verif Require Import PyBase ModelExc.
Import ListNotations.

(** Exceptions that are not groups, left to right, each with the groups above it. *)
Fixpoint located (above : list (nat * string)) (e : pyexc) : list (list (nat * string) * pyexc) :=
  match e with
  | Group oid m l => flat_map (located ((oid, m) :: above)) l
  | _ => [(above, e)]
  end.
Definition leaves (e : pyexc) : list pyexc := map snd (located [] e).

(** Groups are never empty in Python. *)
Inductive proper : pyexc -> Prop :=
| proper_leaf : forall e, (forall o m l, e <> Group o m l) -> proper e
| proper_group : forall o m l, l <> [] -> Forall proper l -> proper (Group o m l).

(** Nesting depth; subtrees; identity determines the object. *)
Fixpoint depth (e : pyexc) : nat :=
  match e with
  | Group _ _ l => S (fold_right Nat.max 0 (map depth l))
  | _ => 0
  end.
Inductive inside : pyexc -> pyexc -> Prop :=
| inside_refl : forall e, inside e e
| inside_member : forall o m l x y, In x l -> inside y x -> inside y (Group o m l).
Definition identity_ok (e : pyexc) : Prop :=
  forall o m1 l1 m2 l2, inside (Group o m1 l1) e -> inside (Group o m2 l2) e -> m1 = m2 /\ l1 = l2.

(** A member that its author marked as not retryable. *)
Definition non_retryable (e : pyexc) : bool := match e with Lion _ _ false => true | _ => false end.

(** Serialized leaves, left to right, with the messages of the groups above. *)
Fixpoint ser_located (above : list (string * nat)) (s : ser) : list (list (string * nat) * ser) :=
  match s with
  | SGroup m n l => flat_map (ser_located ((m, n) :: above)) l
  | _ => [(above, s)]
  end.
Fixpoint located_ser (above : list (string * nat)) (e : pyexc) : list (list (string * nat) * ser) :=
  match e with
  | Group _ m l => flat_map (located_ser ((m, List.length l) :: above)) l
  | _ => [(above, ser_leaf e)]
  end.
