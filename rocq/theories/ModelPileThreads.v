(** Model of base/pile.py under threads: small-step interleaving of any number
    of threads sharing one pile.  Granularity: one dict or list operation on the
    shared stores per step (CPython performs these atomically).  Locked methods
    ([@synchronized], _utils.py:30-51) acquire the RLock in their own step and
    release it together with their last store access; the re-entrant nested
    acquisitions inside a locked method are not separate steps.
    [include]/[exclude] and iterator [next] calls access the stores without the
    lock, exactly as in the source.  [_filter_by_progression], also
    unlocked, is in [ModelPileRead]. *)
From Coq Require Import List ZArith Bool Arith.
From Verif Require Import PyBase ModelProgression ModelPile.
Import ListNotations.

Definition tid := nat.

(** What happens after a locked method returns: nothing, or the rest of
    include (pile.py:336-340) / exclude (pile.py:350-355). *)
Inductive cont := KNone | KInc (o : pobj) | KExc (u : uuid).

(** Control state of one thread. *)
Inductive pc :=
| Idle
| Want (o : pile_op) (k : cont)        (** waiting for the lock *)
| Body (o : pile_op) (k : cont)        (** lock held, nothing written yet *)
| AddMid (x : item) (k : cont)         (** pile.py:228 done, 229 pending *)
| RemMid (o : pile_op) (u : uuid) (x : item) (k : cont) (** 247/271 done, 251/272 pending *)
| ClearMid (k : cont)                  (** 323 done, 324 pending *)
| IncChk (o : pobj)                    (** pile.py:337, before the unlocked test *)
| ExcChk (u : uuid)                    (** pile.py:352, before the unlocked test *)
| It (n : nat)                         (** generator about to fetch position n *)
| ItK (n : nat) (u : uuid).            (** fetched id u, dict lookup pending *)

(** Calls a thread can make. *)
Inductive call :=
| CLocked (o : pile_op)                (** any [@synchronized] method *)
| CInclude (o : pobj)
| CExclude (r : idref)
| CIter.                               (** [for x in pile] *)

Definition is_locked (o : pile_op) : bool :=
  match o with
  | PAdd _ | PRemove _ | PPop _ _ | PGet _ _ | PUpdate _ | PClear
  | PContains _ | PLen | PAt _ | PSlice _ _ _ | PByList _ => true
  | _ => false
  end.

(** Observable events. *)
Inductive event :=
| EOp (t : tid) (o : pile_op) (v : outcome pvalue)  (** a locked method returned *)
| EInc (t : tid) (o : pobj) (b : bool)               (** include returned *)
| EExc (t : tid) (u : option uuid) (b : bool)        (** exclude returned *)
| EStart (t : tid)                                   (** iteration began *)
| EYield (t : tid) (x : item)
| EStop (t : tid)                                    (** iteration exhausted *)
| EIterErr (t : tid).                                (** KeyError out of the generator *)

Record cfg := Cfg { c_pile : pile; c_lock : option tid; c_pcs : tid -> pc }.

Definition upd (f : tid -> pc) (t : tid) (q : pc) : tid -> pc :=
  fun t' => if t' =? t then q else f t'.

Definition oid_of (o : pobj) : option uuid :=
  match o with OElem x => Some (iid x) | OOther i => i end.

Section Threads.
  Variable sub : cls -> cls -> bool.

  Definition set_pc (c : cfg) (t : tid) (q : pc) : cfg :=
    Cfg (c_pile c) (c_lock c) (upd (c_pcs c) t q).

  (** Return from a locked method: release the lock, continue the caller.
      include/exclude turn an exception into False (contextlib.suppress). *)
  Definition finish (c : cfg) (t : tid) (p : pile) (o : pile_op) (v : outcome pvalue)
             (k : cont) : cfg * list event :=
    (Cfg p None (upd (c_pcs c) t Idle),
     EOp t o v :: match k with
                  | KNone => []
                  | KInc x => [EInc t x (negb (is_raise v))]
                  | KExc u => [EExc t (Some u) (negb (is_raise v))]
                  end).

  (** First part of a locked method, up to and including its first write. *)
  Definition body (c : cfg) (t : tid) (o : pile_op) (k : cont) : cfg * list event :=
    let p := c_pile c in
    match o with
    | PAdd a =>
        match validate_type sub p a with
        | Raise e => finish c t p o (Raise e) k
        | Ret x => if dmem (iid x) (p_items p) then finish c t p o (Raise ExistsError) k
                   else (Cfg (set_stores p (dset (iid x) x (p_items p)) (p_order p))
                             (c_lock c) (upd (c_pcs c) t (AddMid x k)), [])
        end
    | PRemove r | PPop r _ =>
        match coerce_id r with
        | Raise e => finish c t p o (Raise e) k
        | Ret u =>
            match dget u (p_items p) with
            | None => finish c t p o
                        (match o with PPop _ true => Ret VDefault | _ => Raise NotFoundError end) k
            | Some x => (Cfg (set_stores p (ddel u (p_items p)) (p_order p))
                             (c_lock c) (upd (c_pcs c) t (RemMid o u x k)), [])
            end
        end
    | PClear => (Cfg (set_stores p [] (p_order p)) (c_lock c) (upd (c_pcs c) t (ClearMid k)), [])
    | _ => (* at most one store write, or none *)
        finish c t (fst (pile_step sub p o)) o (snd (pile_step sub p o)) k
    end.

  (** One step of thread [t]; [a] is the call made if [t] is idle. *)
  Definition tstep (c : cfg) (t : tid) (a : call) : cfg * list event :=
    let p := c_pile c in
    match c_pcs c t with
    | Idle =>
        match a with
        | CLocked o => if is_locked o then (set_pc c t (Want o KNone), []) else (c, [])
        | CInclude o => match oid_of o with
                        | None => (c, [EInc t o false])
                        | Some _ => (set_pc c t (IncChk o), [])
                        end
        | CExclude r => match coerce_id r with
                        | Raise _ => (c, [EExc t None false])
                        | Ret u => (set_pc c t (ExcChk u), [])
                        end
        | CIter => (set_pc c t (It 0), [EStart t])
        end
    | IncChk o =>
        match oid_of o with
        | None => (set_pc c t Idle, [EInc t o false])
        | Some u => if dmem u (p_items p) then (set_pc c t Idle, [EInc t o true])
                    else (set_pc c t (Want (PAdd o) (KInc o)), [])
        end
    | ExcChk u =>
        if dmem u (p_items p) then (set_pc c t (Want (PRemove (RId u)) (KExc u)), [])
        else (set_pc c t Idle, [EExc t (Some u) true])
    | Want o k =>
        match c_lock c with
        | None => (Cfg p (Some t) (upd (c_pcs c) t (Body o k)), [])
        | Some _ => (c, [])
        end
    | Body o k => body c t o k
    | AddMid x k =>
        finish c t (set_stores p (p_items p) (p_order p ++ [iid x])) (PAdd (OElem x)) (Ret VUnit) k
    | RemMid o u x k =>
        match remove_first u (p_order p) with
        | Some o' => finish c t (set_stores p (p_items p) o') o (Ret (VItem x)) k
        | None => finish c t p o (Raise ValueError) k
        end
    | ClearMid k => finish c t (set_stores p (p_items p) []) PClear (Ret VUnit) k
    | It n => (* pile.py:615: list iterator over the live progression order *)
        match nth_error (p_order p) n with
        | None => (set_pc c t Idle, [EStop t])
        | Some u => (set_pc c t (ItK n u), [])
        end
    | ItK n u => (* pile.py:616 *)
        match dget u (p_items p) with
        | None => (set_pc c t Idle, [EIterErr t])
        | Some x => (set_pc c t (It (S n)), [EYield t x])
        end
    end.

  Fixpoint trun (c : cfg) (s : list (tid * call)) : cfg * list event :=
    match s with
    | [] => (c, [])
    | (t, a) :: s' =>
        let (c', e) := tstep c t a in
        let (c'', e') := trun c' s' in (c'', e ++ e')
    end.

  Definition tinit (p : pile) : cfg := Cfg p None (fun _ => Idle).
End Threads.
