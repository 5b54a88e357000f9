(** Independent specification of a pile: a plain list of items with pairwise
    distinct ids, plus the allowed-type configuration.  This is what a user has
    in mind; it does not mention the two internal stores. *)
From Coq Require Import List ZArith Bool Arith Permutation.
From Verif Require Import PyBase ModelProgression ModelPile.
Import ListNotations.

Section Spec.
  Variable sub : cls -> cls -> bool.
  Variable types : option (list cls).
  Variable strict : bool.

  (** The item satisfies the pile's type constraint. *)
  Definition allowed (x : item) : Prop :=
    match types with
    | None => True
    | Some ts => if strict then In (icls x) ts
                 else exists t, In t ts /\ sub (icls x) t = true
    end.

  Definition allowedb (x : item) : bool :=
    match types with
    | None => true
    | Some ts => existsb (fun t => if strict then icls x =? t else sub (icls x) t) ts
    end.

  Definition has_id (u : uuid) (x : item) : bool := iid x =? u.
  Definition sget (l : list item) (u : uuid) : option item := find (has_id u) l.
  Definition shas (l : list item) (u : uuid) : bool := existsb (has_id u) l.

  (** All items except the one with id [u]. *)
  Definition sdel (l : list item) (u : uuid) : list item :=
    filter (fun x => negb (has_id u x)) l.

  (** Replace the item with the same id, in place. *)
  Definition sput (l : list item) (y : item) : list item :=
    map (fun x => if has_id (iid y) x then y else x) l.

  Inductive svalue :=
  | SUnit | SItem (x : item) | SBool (b : bool) | SNat (n : nat) | SDefault
  | SItems (l : list item) | SIds (l : list uuid) | SPile (l : list item).

  (** Pairwise distinct ids. *)
  Fixpoint distinct (us : list uuid) : bool :=
    match us with [] => true | u :: t => negb (existsb (Nat.eqb u) t) && distinct t end.

  (** A new pile over selected items: repeated items are refused. *)
  Definition snew (xs : list item) : outcome svalue :=
    if distinct (map iid xs) then Ret (SPile xs) else Raise ExistsError.

  (** Look up every key, or fail with [e] at the first missing one. *)
  Fixpoint seqo {A} (os : list (outcome A)) : outcome (list A) :=
    match os with
    | [] => Ret []
    | Ret a :: t => match seqo t with Ret l => Ret (a :: l) | Raise e => Raise e end
    | Raise e :: _ => Raise e
    end.

  Definition opt_or {A} (o : option A) (e : exn) : outcome A :=
    match o with Some a => Ret a | None => Raise e end.

  Definition then_ {A B} (o : outcome A) (f : A -> outcome B) : outcome B :=
    match o with Ret a => f a | Raise e => Raise e end.

  (** Key list: all integers, or all ids, otherwise TypeError. *)
  Definition skeys (l : list item) (ks : list lkey) : outcome (list item) :=
    match ks with
    | [] => Raise ValueError
    | LInt _ :: _ =>
        if forallb (fun k => match k with LInt _ => true | _ => false end) ks
        then seqo (map (fun k => match k with LInt i => py_get l i | _ => Raise TypeError end) ks)
        else Raise TypeError
    | LId _ :: _ =>
        if forallb (fun k => match k with LId _ => true | _ => false end) ks
        then seqo (map (fun k => match k with
                                 | LId r => then_ (coerce_id r) (fun u => opt_or (sget l u) NotFoundError)
                                 | _ => Raise TypeError end) ks)
        else Raise TypeError
    | LOther :: _ => Raise TypeError
    end.

  Definition type_query_ok (ts : list cls) : bool :=
    match types with
    | None => true
    | Some al =>
        if strict then forallb (fun t => existsb (Nat.eqb t) al) ts
        else forallb (fun t => existsb (fun a => sub t a || sub a t) al) ts
    end.

  Definition sstep (l : list item) (o : pile_op) : list item * outcome svalue :=
    match o with
    | PAdd (OOther _) => (l, Raise TypeError)
    | PAdd (OElem x) =>
        if negb (allowedb x) then (l, Raise TypeError)
        else if shas l (iid x) then (l, Raise ExistsError)
        else (l ++ [x], Ret SUnit)
    | PRemove r =>
        match coerce_id r with
        | Raise e => (l, Raise e)
        | Ret u => match sget l u with
                   | Some x => (sdel l u, Ret (SItem x))
                   | None => (l, Raise NotFoundError)
                   end
        end
    | PPop r d =>
        match coerce_id r with
        | Raise e => (l, Raise e)
        | Ret u => match sget l u with
                   | Some x => (sdel l u, Ret (SItem x))
                   | None => (l, if d then Ret SDefault else Raise NotFoundError)
                   end
        end
    | PGet r d =>
        (l, match coerce_id r with
            | Raise e => Raise e
            | Ret u => match sget l u with
                       | Some x => Ret (SItem x)
                       | None => if d then Ret SDefault else Raise NotFoundError
                       end
            end)
    | PUpdate (OOther _) => (l, Raise TypeError)
    | PUpdate (OElem x) =>
        if negb (allowedb x) then (l, Raise TypeError)
        else if shas l (iid x) then (sput l x, Ret SUnit)
        else (l, Raise NotFoundError)
    | PClear => ([], Ret SUnit)
    | PInclude (OOther None) => (l, Ret (SBool false))
    | PInclude (OOther (Some u)) => (l, Ret (SBool (shas l u)))
    | PInclude (OElem x) =>
        if shas l (iid x) then (l, Ret (SBool true))
        else if allowedb x then (l ++ [x], Ret (SBool true))
        else (l, Ret (SBool false))
    | PExclude r =>
        match coerce_id r with
        | Raise _ => (l, Ret (SBool false))
        | Ret u => (sdel l u, Ret (SBool true))
        end
    | PContains r =>
        (l, Ret (SBool (match coerce_id r with Ret u => shas l u | Raise _ => false end)))
    | PLen => (l, Ret (SNat (length l)))
    | PIter => (l, Ret (SItems l))
    | PKeys => (l, Ret (SIds (map iid l)))
    | PAt i => (l, then_ (py_get l i) (fun x => Ret (SItem x)))
    | PEmpty => (l, Ret (SBool (match l with [] => true | _ => false end)))
    | PSlice a b c =>
        (l, match slice_positions (length l) a b c with
            | None => Raise ValueError
            | Some ps => Ret (SPile (select l ps))
            end)
    | PByProg us =>
        (l, if forallb (shas l) us
            then then_ (seqo (map (fun u => opt_or (sget l u) KeyError) us)) snew
            else Raise NotFoundError)
    | PByList ks => (l, then_ (skeys l ks) snew)
    | PByFun f => (l, Ret (SPile (filter f l)))
    | PByType ts =>
        (l, if type_query_ok ts then
              match filter (fun x => existsb (fun t => sub (icls x) t) ts) l with
              | [] => Raise NotFoundError
              | ys => Ret (SPile ys)
              end
            else Raise TypeError)
    end.

  Definition srun (l : list item) (ops : list pile_op) : list item :=
    fold_left (fun m o => fst (sstep m o)) ops l.

  (** The answers of a history on the plain list. *)
  Fixpoint souts (l : list item) (ops : list pile_op) : list (outcome svalue) :=
    match ops with
    | [] => []
    | o :: t => snd (sstep l o) :: souts (fst (sstep l o)) t
    end.
End Spec.

(** Ids of the constructor's items argument. *)
Definition arg_ids (os : list pobj) : list uuid :=
  flat_map (fun o => match o with OElem x => [iid x] | OOther _ => [] end) os.

(** Piles reachable from a constructor call without [order], or with an
    [order] that is a permutation of the given ids, by any public history. *)
Definition reachable (sub : cls -> cls -> bool) (p : pile) : Prop :=
  exists ty st os ord p0 ops,
    pile_new sub ty st os ord = Ret p0 /\
    (ord = [] \/ Permutation ord (arg_ids os)) /\
    p = pile_run sub p0 ops.

(** Coherence stated only through the public view: iteration, keys, length and
    membership agree and nothing is repeated. *)
Definition coherent (p : pile) : Prop :=
  exists xs, pile_iter p = Ret xs /\ map iid xs = pile_keys p /\ NoDup (pile_keys p) /\
             length xs = pile_len p /\
             (forall u, pile_contains p (RId u) = true <-> In u (map iid xs)).

(** A concrete answer agrees with a specified one. *)
Definition agrees (v : outcome pvalue) (s : outcome svalue) (types : option (list cls))
           (strict : bool) : Prop :=
  match v, s with
  | Raise e, Raise e' => e = e'
  | Ret VUnit, Ret SUnit => True
  | Ret (VItem x), Ret (SItem y) => x = y
  | Ret (VBool b), Ret (SBool c) => b = c
  | Ret (VNat n), Ret (SNat m) => n = m
  | Ret VDefault, Ret SDefault => True
  | Ret (VItems l), Ret (SItems m) => l = m
  | Ret (VIds l), Ret (SIds m) => l = m
  | Ret (VPile q), Ret (SPile m) =>
      coherent q /\ pile_iter q = Ret m /\ p_types q = types /\ p_strict q = strict
  | _, _ => False
  end.

(** [q] is a coherent pile over exactly [xs], in that order, with [p]'s type
    configuration. *)
Definition new_pile_over (p q : pile) (xs : list item) : Prop :=
  coherent q /\ pile_iter q = Ret xs /\ p_types q = p_types p /\ p_strict q = p_strict p.
