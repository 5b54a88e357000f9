(** Vocabulary for statements about the end of calls on processor and executor. *)
From Coq Require Import List Bool Arith ZArith.
From Verif Require Import PyBase ModelHeap ModelEvent ModelProcessor SpecProcessor.
Import ListNotations.

(** What calls made earlier still do: no new call, no cleanup, no stop. *)
Definition inner (a : action) : Prop :=
  match a with Step _ | Grant _ _ | Finish _ _ => True | _ => False end.
(** The same with every permission granted. *)
Definition granting (a : action) : Prop :=
  match a with Step _ | Finish _ _ => True | Grant _ b => b = true | _ => False end.

(** Every action of the list makes a difference. *)
Fixpoint moving (k : cfg) (s : pst) (l : list action) : Prop :=
  match l with
  | [] => True
  | a :: t => pact k s a <> s /\ moving k (pact k s a) t
  end.

(** Nothing more can happen by itself. *)
Definition quiet (k : cfg) (s : pst) : Prop := forall a, inner a -> pact k s a = s.

(** Every call has returned or raised, and every event started has been filed. *)
Definition ended (p : tpc) : bool := match p with ADone | AErr _ _ | KDone _ _ => true | _ => false end.
Definition idle (s : pst) : Prop := forall p, In p (tasks s) -> ended p = true.

(** [n] calls of forward(), each waited for before the next. *)
Inductive rounds (k : cfg) (ok : action -> Prop) : nat -> pst -> pst -> Prop :=
| rounds_none s : rounds k ok 0 s s
| rounds_more n s l s' s'' : Forall ok l -> s' = pexec k (pact k s (Spawn CForward)) l -> idle s' ->
    rounds k ok n s' s'' -> rounds k ok (S n) s s''.
