(** A priority queue as a bag of items. *)
From Coq Require Import List Bool Arith Permutation.
From Verif Require Import PyBase ModelHeap.
Import ListNotations.

Section Bag.
  Context {A : Type}.
  Variable lt : A -> A -> bool.

  (** [lt] is a strict weak order, as Python's [<] on numbers or tuples of numbers *)
  Definition weak_order : Prop :=
    (forall a b, lt a b = true -> lt b a = false) /\
    (forall a b c, lt b a = false -> lt c b = false -> lt c a = false).

  Definition minimal (x : A) (m : list A) : Prop := In x m /\ forall y, In y m -> lt y x = false.

  (** One operation on the bag [m] with limit [mx] (0: none). *)
  Definition bag_step (mx : nat) (m : list A) (o : pq_op) (r : pq_out) (m' : list A) : Prop :=
    match o with
    | PutNW x => if (0 <? mx) && (mx <=? length m) then r = QFullErr /\ Permutation m' m
                 else r = QUnit /\ Permutation m' (x :: m)
    | GetNW => match m with
               | [] => r = QEmptyErr /\ m' = []
               | _ => exists x, r = QItem x /\ minimal x m /\ Permutation m (x :: m')
               end
    | QSize => r = QNat (length m) /\ Permutation m' m
    | IsEmpty => r = QBool (match m with [] => true | _ => false end) /\ Permutation m' m
    | IsFull => r = QBool ((0 <? mx) && (mx <=? length m)) /\ Permutation m' m
    end.

  Inductive bag_run (mx : nat) : list A -> list pq_op -> list pq_out -> list A -> Prop :=
  | bag_nil : forall m, bag_run mx m [] [] m
  | bag_cons : forall m o r m' os rs m'', bag_step mx m o r m' -> bag_run mx m' os rs m'' ->
      bag_run mx m (o :: os) (r :: rs) m''.

  Definition sorted_by (l : list A) : Prop :=
    forall i j x y, i < j -> nth_error l i = Some x -> nth_error l j = Some y -> lt y x = false.

  (** Items put successfully, and items got, in a history with its answers. *)
  Fixpoint items_put (ops : list (@pq_op A)) (rs : list (@pq_out A)) : list A :=
    match ops, rs with
    | PutNW x :: os, QUnit :: rs' => x :: items_put os rs'
    | _ :: os, _ :: rs' => items_put os rs'
    | _, _ => []
    end.
  Fixpoint items_got (rs : list (@pq_out A)) : list A :=
    match rs with
    | QItem x :: rs' => x :: items_got rs'
    | _ :: rs' => items_got rs'
    | [] => []
    end.
End Bag.
