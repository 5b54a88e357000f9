(** Model of base/pile.py: class Pile, sequential semantics.
    Simplifications: items are records of id, class and an opaque payload; the
    Element fields of the pile itself, (de)serialisation and adapters are not
    part of this file; the RLock is irrelevant sequentially (see
    ModelPileThreads for interleavings). *)
From Coq Require Import List ZArith Bool Arith.
From Verif Require Import PyBase ModelProgression.
Import ListNotations.

Definition cls := nat.

(** An Element instance: identity, runtime class, payload. *)
Record item := Item { iid : uuid; icls : cls; ipay : nat }.

(** An argument passed where an item is expected: an Element, or some other
    object that may or may not have an [.id] attribute. *)
Inductive pobj := OElem (x : item) | OOther (oid : option uuid).

(** pile.py:67-68, 80-89: the two stores and the type configuration. *)
Record pile := Pile {
  p_items : dict uuid item;
  p_order : list uuid;
  p_types : option (list cls);
  p_strict : bool
}.

Definition set_stores (p : pile) (d : dict uuid item) (o : list uuid) : pile :=
  Pile d o (p_types p) (p_strict p).

(** Values returned by pile methods. *)
Inductive pvalue :=
| VUnit | VItem (x : item) | VBool (b : bool) | VNat (n : nat) | VDefault
| VItems (l : list item) | VIds (l : list uuid) | VPile (p : pile).

Section WithHierarchy.
  (** issubclass(a, b), arbitrary. *)
  Variable sub : cls -> cls -> bool.

  (** pile.py:645-665 *)
  Definition validate_type (p : pile) (o : pobj) : outcome item :=
    match o with
    | OOther _ => Raise TypeError
    | OElem x =>
        match p_types p with
        | None => Ret x
        | Some ts =>
            if p_strict p then
              if memb (icls x) ts then Ret x else Raise TypeError
            else
              if existsb (fun t => sub (icls x) t) ts then Ret x else Raise TypeError
        end
    end.

  Definition presult (A : Type) := (pile * outcome A)%type.

  (** pile.py:212-229 *)
  Definition pile_add (p : pile) (o : pobj) : pile * outcome pvalue :=
    match validate_type p o with
    | Raise e => (p, Raise e)
    | Ret x =>
        if dmem (iid x) (p_items p) then (p, Raise ExistsError)
        else (set_stores p (dset (iid x) x (p_items p)) (p_order p ++ [iid x]), Ret VUnit)
    end.

  (** pile.py:231-252.  [_items.pop] happens before [_progression.remove], so a
      ValueError from the latter leaves the item already deleted. *)
  Definition pile_remove (p : pile) (r : idref) : pile * outcome pvalue :=
    match coerce_id r with
    | Raise e => (p, Raise e)
    | Ret u =>
        match dget u (p_items p) with
        | None => (p, Raise NotFoundError)
        | Some x =>
            match remove_first u (p_order p) with
            | Some o' => (set_stores p (ddel u (p_items p)) o', Ret (VItem x))
            | None => (set_stores p (ddel u (p_items p)) (p_order p), Raise ValueError)
            end
        end
    end.

  (** pile.py:254-277; only KeyError is caught. *)
  Definition pile_pop (p : pile) (r : idref) (has_default : bool) : pile * outcome pvalue :=
    match coerce_id r with
    | Raise e => (p, Raise e)
    | Ret u =>
        match dget u (p_items p) with
        | None => (p, if has_default then Ret VDefault else Raise NotFoundError)
        | Some x =>
            match remove_first u (p_order p) with
            | Some o' => (set_stores p (ddel u (p_items p)) o', Ret (VItem x))
            | None => (set_stores p (ddel u (p_items p)) (p_order p), Raise ValueError)
            end
        end
    end.

  (** pile.py:279-300 *)
  Definition pile_get (p : pile) (r : idref) (has_default : bool) : outcome pvalue :=
    match coerce_id r with
    | Raise e => Raise e
    | Ret u =>
        match dget u (p_items p) with
        | Some x => Ret (VItem x)
        | None => if has_default then Ret VDefault else Raise NotFoundError
        end
    end.

  (** pile.py:302-318 *)
  Definition pile_update (p : pile) (o : pobj) : pile * outcome pvalue :=
    match validate_type p o with
    | Raise e => (p, Raise e)
    | Ret x =>
        if dmem (iid x) (p_items p)
        then (set_stores p (dset (iid x) x (p_items p)) (p_order p), Ret VUnit)
        else (p, Raise NotFoundError)
    end.

  (** pile.py:320-324 *)
  Definition pile_clear (p : pile) : pile * outcome pvalue :=
    (set_stores p [] [], Ret VUnit).

  (** pile.py:328-340.  [item.id] of an object without id raises AttributeError,
      which is suppressed. *)
  Definition pile_include (p : pile) (o : pobj) : pile * outcome pvalue :=
    let oid := match o with OElem x => Some (iid x) | OOther i => i end in
    match oid with
    | None => (p, Ret (VBool false))
    | Some u =>
        if dmem u (p_items p) then (p, Ret (VBool true))
        else match pile_add p o with
             | (p', Ret _) => (p', Ret (VBool true))
             | (p', Raise _) => (p', Ret (VBool false))
             end
    end.

  (** pile.py:342-355 *)
  Definition pile_exclude (p : pile) (r : idref) : pile * outcome pvalue :=
    match coerce_id r with
    | Raise _ => (p, Ret (VBool false))
    | Ret u =>
        if dmem u (p_items p)
        then match pile_remove p (RId u) with
             | (p', Ret _) => (p', Ret (VBool true))
             | (p', Raise _) => (p', Ret (VBool false))
             end
        else (p, Ret (VBool true))
    end.

  (** pile.py:595-601 *)
  Definition pile_contains (p : pile) (r : idref) : bool :=
    match coerce_id r with Ret u => dmem u (p_items p) | Raise _ => false end.

  (** pile.py:603-606 *)
  Definition pile_len (p : pile) : nat := length (p_items p).

  (** Look the ids up one after the other; KeyError on a missing one. *)
  Fixpoint lookup_all (d : dict uuid item) (us : list uuid) : outcome (list item) :=
    match us with
    | [] => Ret []
    | u :: t => match dget u d with
                | None => Raise KeyError
                | Some x => bind (lookup_all d t) (fun xs => Ret (x :: xs))
                end
    end.

  (** pile.py:612-616, an uninterrupted iteration *)
  Definition pile_iter (p : pile) : outcome (list item) :=
    lookup_all (p_items p) (p_order p).

  (** pile.py:618-624 *)
  Definition pile_keys (p : pile) : list uuid := p_order p.

  (** pile.py:453-458 *)
  Definition pile_at (p : pile) (i : Z) : outcome item :=
    bind (py_get (p_order p) i) (fun u =>
      match dget u (p_items p) with Some x => Ret x | None => Raise KeyError end).

  (** Adding several objects in turn (pile.py:127-129): the first error raises. *)
  Fixpoint add_all (p : pile) (os : list pobj) : outcome pile :=
    match os with
    | [] => Ret p
    | o :: t => match pile_add p o with
                | (p', Ret _) => add_all p' t
                | (_, Raise e) => Raise e
                end
    end.

  (** pile.py:106-140.  [order = []] and [order = None] are both falsy. *)
  Definition pile_new (types : option (list cls)) (strict : bool) (os : list pobj)
             (order : list uuid) : outcome pile :=
    bind (add_all (Pile [] [] types strict) os) (fun p =>
      match order with
      | [] => Ret p
      | _ :: _ =>
          if forallb (fun u => dmem u (p_items p)) order
          then Ret (set_stores p (p_items p) order)
          else Raise NotFoundError
      end).

  (** A fresh pile over [xs] with the configuration of [p]. *)
  Definition derive (p : pile) (xs : list item) : outcome pile :=
    pile_new (p_types p) (p_strict p) (map OElem xs) [].

  (** pile.py:438-451 *)
  Definition filter_by_progression (p : pile) (prog : list uuid) : outcome pile :=
    if existsb (fun u => negb (dmem u (p_items p))) prog then Raise NotFoundError
    else bind (lookup_all (p_items p) prog) (derive p).

  (** pile.py:460-471 *)
  Definition get_by_slice (p : pile) (a b c : option Z) : outcome pile :=
    bind (p_getslice (p_order p) a b c) (fun us =>
      bind (lookup_all (p_items p) us) (derive p)).

  (** One entry of a list/tuple key. *)
  Inductive lkey := LInt (i : Z) | LId (r : idref) | LOther.

  Definition is_lint (k : lkey) : bool := match k with LInt _ => true | _ => false end.
  Definition is_lid (k : lkey) : bool := match k with LId _ => true | _ => false end.

  Fixpoint at_all (p : pile) (ks : list lkey) : outcome (list item) :=
    match ks with
    | [] => Ret []
    | LInt i :: t => bind (pile_at p i) (fun x => bind (at_all p t) (fun xs => Ret (x :: xs)))
    | _ :: _ => Raise TypeError
    end.

  Fixpoint get_all (p : pile) (ks : list lkey) : outcome (list item) :=
    match ks with
    | [] => Ret []
    | LId r :: t =>
        match pile_get p r false with
        | Ret (VItem x) => bind (get_all p t) (fun xs => Ret (x :: xs))
        | Ret _ => Raise OtherErr
        | Raise e => Raise e
        end
    | _ :: _ => Raise TypeError
    end.

  (** pile.py:473-517 *)
  Definition get_by_list (p : pile) (ks : list lkey) : outcome pile :=
    match ks with
    | [] => Raise ValueError
    | LInt _ :: _ => if forallb is_lint ks then bind (at_all p ks) (derive p) else Raise TypeError
    | LId _ :: _ => if forallb is_lid ks then bind (get_all p ks) (derive p) else Raise TypeError
    | LOther :: _ => Raise TypeError
    end.

  (** pile.py:519-527 *)
  Definition filter_by_function (p : pile) (f : item -> bool) : outcome pile :=
    bind (pile_iter p) (fun xs => derive p (filter f xs)).

  (** pile.py:529-580.  [types_to_filter] is already a set of types. *)
  Definition filter_by_type (p : pile) (ts : list cls) : outcome pile :=
    let allowed :=
      match p_types p with
      | None => true
      | Some al =>
          if p_strict p then forallb (fun t => memb t al) ts
          else forallb (fun t => existsb (fun a => sub t a || sub a t) al) ts
      end in
    if negb allowed then Raise TypeError
    else bind (pile_iter p) (fun xs =>
           match filter (fun x => existsb (fun t => sub (icls x) t) ts) xs with
           | [] => Raise NotFoundError
           | ys => derive p ys
           end).

  (** The public operations as one type. *)
  Inductive pile_op :=
  | PAdd (o : pobj) | PRemove (r : idref) | PPop (r : idref) (d : bool)
  | PGet (r : idref) (d : bool) | PUpdate (o : pobj) | PClear
  | PInclude (o : pobj) | PExclude (r : idref) | PContains (r : idref)
  | PLen | PIter | PKeys | PAt (i : Z) | PEmpty
  | PSlice (a b c : option Z) | PByProg (l : list uuid) | PByList (ks : list lkey)
  | PByFun (f : item -> bool) | PByType (ts : list cls).

  Definition lift_pile (p : pile) (o : outcome pile) : pile * outcome pvalue :=
    (p, bind o (fun q => Ret (VPile q))).

  Definition pile_step (p : pile) (o : pile_op) : pile * outcome pvalue :=
    match o with
    | PAdd x => pile_add p x
    | PRemove r => pile_remove p r
    | PPop r d => pile_pop p r d
    | PGet r d => (p, pile_get p r d)
    | PUpdate x => pile_update p x
    | PClear => pile_clear p
    | PInclude x => pile_include p x
    | PExclude r => pile_exclude p r
    | PContains r => (p, Ret (VBool (pile_contains p r)))
    | PLen => (p, Ret (VNat (pile_len p)))
    | PIter => (p, bind (pile_iter p) (fun xs => Ret (VItems xs)))
    | PKeys => (p, Ret (VIds (pile_keys p)))
    | PAt i => (p, bind (pile_at p i) (fun x => Ret (VItem x)))
    | PEmpty => (p, Ret (VBool (length (p_items p) =? 0)))
    | PSlice a b c => lift_pile p (get_by_slice p a b c)
    | PByProg l => lift_pile p (filter_by_progression p l)
    | PByList ks => lift_pile p (get_by_list p ks)
    | PByFun f => lift_pile p (filter_by_function p f)
    | PByType ts => lift_pile p (filter_by_type p ts)
    end.

  Definition pile_run (p : pile) (ops : list pile_op) : pile :=
    fold_left (fun q o => fst (pile_step q o)) ops p.

  (** The answers of a history, in order. *)
  Fixpoint pile_outs (p : pile) (ops : list pile_op) : list (outcome pvalue) :=
    match ops with
    | [] => []
    | o :: t => snd (pile_step p o) :: pile_outs (fst (pile_step p o)) t
    end.

  Definition pile_empty (types : option (list cls)) (strict : bool) : pile :=
    Pile [] [] types strict.
End WithHierarchy.
