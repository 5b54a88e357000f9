(** Vocabulary for statements about a pile shared by threads. *)
From Coq Require Import List Bool Arith.
From Verif Require Import PyBase ModelProgression ModelPile SpecPile ModelPileThreads.
Import ListNotations.

(** The locked calls that returned, in order of return. *)
Fixpoint done_ops (es : list event) : list pile_op :=
  match es with
  | [] => []
  | EOp _ o _ :: r => o :: done_ops r
  | _ :: r => done_ops r
  end.

(** Their answers. *)
Fixpoint done_vals (es : list event) : list (outcome pvalue) :=
  match es with
  | [] => []
  | EOp _ _ v :: r => v :: done_vals r
  | _ :: r => done_vals r
  end.

(** Thread [t] is between the two store writes of a locked method. *)
Definition mid_write (q : pc) : bool :=
  match q with AddMid _ _ | RemMid _ _ _ _ | ClearMid _ => true | _ => false end.

(** No method is half way through its writes. *)
Definition quiet (c : cfg) : Prop := forall t, mid_write (c_pcs c t) = false.

(** Configurations reachable from a coherent pile with all threads idle, under
    any schedule; [es] is the event history. *)
Definition treach (sub : cls -> cls -> bool) (p0 : pile) (s : list (tid * call))
           (c : cfg) (es : list event) : Prop :=
  reachable sub p0 /\ trun sub (tinit p0) s = (c, es).

(** What the iteration of [t] produced up to its end: items, and how it ended
    (None: still running, Some true: exhausted, Some false: KeyError). *)
Fixpoint iter_scan (t : tid) (es : list event) : list item * option bool :=
  match es with
  | [] => ([], None)
  | EYield t' x :: r => if t' =? t then let (ys, b) := iter_scan t r in (x :: ys, b)
                        else iter_scan t r
  | EStop t' :: r => if t' =? t then ([], Some true) else iter_scan t r
  | EIterErr t' :: r => if t' =? t then ([], Some false) else iter_scan t r
  | _ :: r => iter_scan t r
  end.

(** Calls that never remove anything. *)
Definition grow_op (o : pile_op) : bool :=
  match o with PRemove _ | PPop _ _ | PClear | PExclude _ => false | _ => true end.
Definition grow_call (a : call) : bool :=
  match a with CLocked o => grow_op o | CInclude _ | CIter => true | CExclude _ => false end.
Definition grow_pc (q : pc) : bool :=
  match q with
  | Want o _ | Body o _ => grow_op o
  | RemMid _ _ _ _ | ClearMid _ | ExcChk _ => false
  | _ => true
  end.
