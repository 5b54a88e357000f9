(** Vocabulary for statements about concurrent queue use. *)
From Coq Require Import List Bool Arith Permutation.
From Verif Require Import PyBase ModelHeap SpecHeap ModelPQueue.
Import ListNotations.

Section S.
  Context {A : Type}.

  (** Items of completed puts and gets. *)
  Definition put_by (tk : @call A * @pc A) : list A :=
    match tk with
    | (CPut x, Done QUnit) | (CPutNW x, Done QUnit) => [x]
    | _ => []
    end.
  Definition got_by (tk : @call A * @pc A) : list A :=
    match tk with (_, Done (QItem x)) => [x] | _ => [] end.

  Definition state_of (c : @conf A) (t : nat) : option pc := option_map snd (nth_error (c_tasks c) t).
  Definition call_of (c : @conf A) (t : nat) : option call := option_map fst (nth_error (c_tasks c) t).

  Definition runnable (p : @pc A) : bool :=
    match p with Start | Hold | Notified => true | _ => false end.

  (** No task can move. *)
  Definition quiescent (c : @conf A) : Prop :=
    forall t p, state_of c t = Some p -> runnable p = false.

  (** A run without cancellations in which every step moves a task. *)
  Fixpoint busy (lt : A -> A -> bool) (c : @conf A) (s : list nat) : Prop :=
    match s with
    | [] => True
    | t :: s' => (exists p, state_of c t = Some p /\ runnable p = true) /\
                 busy lt (pstep lt c (Run t)) s'
    end.

  Definition blocking_put (k : @call A) : bool := match k with CPut _ => true | _ => false end.
  Definition blocking_get (k : @call A) : bool := match k with CGet => true | _ => false end.
End S.

(** What one uninterrupted critical section may do. [m], [m'] are the stored items
    before and after, [p] the state the calling task is left in. *)
Definition section_ok {A} (lt : A -> A -> bool) (mx : nat) (k : @call A) (m : list A) (p : @pc A)
    (m' : list A) : Prop :=
  let full := (0 <? mx) && (mx <=? length m) in
  match k with
  | CPut x => if full then p = Waiting /\ m' = m else p = Done QUnit /\ Permutation m' (x :: m)
  | CPutNW x => if full then p = Done QFullErr /\ m' = m else p = Done QUnit /\ Permutation m' (x :: m)
  | CGet => match m with
            | [] => p = Waiting /\ m' = []
            | _ => exists x, p = Done (QItem x) /\ minimal lt x m /\ Permutation m (x :: m')
            end
  | CGetNW => match m with
              | [] => p = Done QEmptyErr /\ m' = []
              | _ => exists x, p = Done (QItem x) /\ minimal lt x m /\ Permutation m (x :: m')
              end
  end.
