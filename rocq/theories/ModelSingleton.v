(** Model of Broadcaster.__new__ (base/broadcaster.py:27, 33-36): calling a broadcaster class.
    The attribute _instance is looked up along the method resolution order of the class and assigned on the class itself.
    Simplifications: classes are numbers, [mro c] is the method resolution order of [c]; classes made later and other
    assignments to _instance are left out. *)
From Coq Require Import List Bool Arith.
From Verif Require Import PyBase.
Import ListNotations.

(** [slots]: the classes that have an _instance of their own, and its value.  [made]: the class of each object made so far;
    objects are the positions in this list. *)
Record store := Store { slots : dict nat (option nat); made : list nat }.

Section S.
  Variable mro : nat -> list nat.

  (** cls._instance *)
  Fixpoint find_slot (d : dict nat (option nat)) (l : list nat) : option nat :=
    match l with
    | [] => None
    | a :: t => match dget a d with Some v => v | None => find_slot d t end
    end.
  Definition look (st : store) (c : nat) : option nat := find_slot (slots st) (mro c).
  (** cls._instance = super().__new__(cls) *)
  Definition make (st : store) (c : nat) : store := Store (dset c (Some (length (made st))) (slots st)) (made st ++ [c]).

  (** c(), not interrupted *)
  Definition call (st : store) (c : nat) : store * option nat :=
    let st' := match look st c with None => make st c | Some _ => st end in (st', look st' c).
  Definition calls (st : store) (cs : list nat) : store := fold_left (fun s c => fst (call s c)) cs st.

  (** Calls in threads: the test, the assignment and the final read are separate. *)
  Inductive pc := Idle | Making (c : nat) | Reading (c : nat) | Done (c : nat) (r : option nat).
  Record cfg := Cfg { sto : store; pcs : nat -> pc }.
  Definition upd (f : nat -> pc) (t : nat) (p : pc) : nat -> pc := fun t' => if t' =? t then p else f t'.
  Inductive step : cfg -> cfg -> Prop :=
  | s_make k t c : (pcs k t = Idle \/ exists c' r, pcs k t = Done c' r) -> look (sto k) c = None -> step k (Cfg (sto k) (upd (pcs k) t (Making c)))
  | s_have k t c x : (pcs k t = Idle \/ exists c' r, pcs k t = Done c' r) -> look (sto k) c = Some x -> step k (Cfg (sto k) (upd (pcs k) t (Reading c)))
  | s_set k t c : pcs k t = Making c -> step k (Cfg (make (sto k) c) (upd (pcs k) t (Reading c)))
  | s_read k t c : pcs k t = Reading c -> step k (Cfg (sto k) (upd (pcs k) t (Done c (look (sto k) c)))).
  Inductive steps : cfg -> cfg -> Prop :=
  | ss_refl k : steps k k
  | ss_step k1 k2 k3 : steps k1 k2 -> step k2 k3 -> steps k1 k3.
End S.
