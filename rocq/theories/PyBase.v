(** Small models of the Python built-ins the code relies on: decidable equality,
    exceptions as values, list indexing / insertion / removal / slicing and
    insertion-ordered dicts.  These follow CPython's documented semantics of
    [list] and [dict]; they are not part of /repo. *)
From Coq Require Import String Ascii.
From Coq Require Import List ZArith Bool Lia Arith.
Import ListNotations.

(** Equality test used for [==] / [in] on hashable keys. *)
Class EqB (K : Type) := {
  eqb : K -> K -> bool;
  eqb_spec : forall x y, reflect (x = y) (eqb x y)
}.

#[global] Instance EqB_nat : EqB nat := {| eqb := Nat.eqb; eqb_spec := Nat.eqb_spec |}.
#[global] Instance EqB_Z : EqB Z := {| eqb := Z.eqb; eqb_spec := Z.eqb_spec |}.
#[global] Instance EqB_string : EqB string :=
  {| eqb := String.eqb; eqb_spec := String.eqb_spec |}.

(** Exceptions that the modelled code raises, by Python class. *)
Inductive exn :=
| NotFoundError | ExistsError | ValueError | TypeError | KeyError | IndexError
| QueueFullError | QueueEmptyError | ConfigurationError | RuntimeError
| AttributeError | LNDLMissingField | LNDLAmbiguous | LNDLTypeMismatch
| LNDLMissingOut | ParseErr | ExceptionGroupErr | TimeoutErr | RecursionErr | OtherErr.

(** Result of a Python call: a value or a raised exception. *)
Inductive outcome (A : Type) :=
| Ret (a : A)
| Raise (e : exn).
Arguments Ret {A} a.
Arguments Raise {A} e.

Definition bind {A B} (o : outcome A) (f : A -> outcome B) : outcome B :=
  match o with Ret a => f a | Raise e => Raise e end.

Definition is_raise {A} (o : outcome A) : bool :=
  match o with Ret _ => false | Raise _ => true end.

(** UUIDs: opaque ids compared by equality.  Simplification: an unbounded
    supply (nat) instead of 128-bit values. *)
Definition uuid := nat.

Section Lists.
  Context {A : Type} `{EqB A}.

  (** [x in l] *)
  Definition memb (x : A) (l : list A) : bool := existsb (eqb x) l.

  (** [l.remove(x)]: first occurrence; [None] is ValueError. *)
  Fixpoint remove_first (x : A) (l : list A) : option (list A) :=
    match l with
    | [] => None
    | y :: t => if eqb x y then Some t
                else match remove_first x t with
                     | Some t' => Some (y :: t')
                     | None => None
                     end
    end.

  (** [l.index(x)]: position of the first occurrence; [None] is ValueError. *)
  Fixpoint index_of (x : A) (l : list A) : option nat :=
    match l with
    | [] => None
    | y :: t => if eqb x y then Some 0
                else match index_of x t with
                     | Some n => Some (S n)
                     | None => None
                     end
    end.

  Fixpoint count (x : A) (l : list A) : nat :=
    match l with
    | [] => 0
    | y :: t => (if eqb x y then 1 else 0) + count x t
    end.
End Lists.

Section Indexing.
  Context {A : Type}.

  (** CPython index normalisation for [l[i]], [l[i]=x], [l.pop(i)]:
      negative indices count from the end; [None] is IndexError. *)
  Definition norm_index (n : nat) (i : Z) : option nat :=
    let j := if (i <? 0)%Z then (i + Z.of_nat n)%Z else i in
    if ((j <? 0)%Z || (Z.of_nat n <=? j)%Z)%bool then None else Some (Z.to_nat j).

  (** CPython [list.insert] clamps instead of raising. *)
  Definition clamp_index (n : nat) (i : Z) : nat :=
    let j := if (i <? 0)%Z then (i + Z.of_nat n)%Z else i in
    Z.to_nat (Z.min (Z.max j 0) (Z.of_nat n)).

  Fixpoint insert_at (k : nat) (x : A) (l : list A) : list A :=
    match k, l with
    | O, _ => x :: l
    | S k', [] => [x]
    | S k', y :: t => y :: insert_at k' x t
    end.

  Fixpoint delete_at (k : nat) (l : list A) : list A :=
    match k, l with
    | _, [] => []
    | O, _ :: t => t
    | S k', y :: t => y :: delete_at k' t
    end.

  Fixpoint replace_at (k : nat) (x : A) (l : list A) : list A :=
    match k, l with
    | _, [] => []
    | O, _ :: t => x :: t
    | S k', y :: t => y :: replace_at k' x t
    end.

  (** [l[i]] *)
  Definition py_get (l : list A) (i : Z) : outcome A :=
    match norm_index (length l) i with
    | None => Raise IndexError
    | Some k => match nth_error l k with
                | Some x => Ret x
                | None => Raise IndexError
                end
    end.

  (** One slice bound after CPython's [PySlice_AdjustIndices]. *)
  Definition adj_bound (n : Z) (neg : bool) (i : Z) : Z :=
    let i := if (i <? 0)%Z then (i + n)%Z else i in
    if (i <? 0)%Z then (if neg then (-1)%Z else 0%Z)
    else if (n <=? i)%Z then (if neg then (n - 1)%Z else n)
    else i.

  Definition slice_start (n : Z) (step : Z) (o : option Z) : Z :=
    let neg := (step <? 0)%Z in
    match o with
    | None => if neg then (n - 1)%Z else 0%Z
    | Some i => adj_bound n neg i
    end.

  Definition slice_stop (n : Z) (step : Z) (o : option Z) : Z :=
    let neg := (step <? 0)%Z in
    match o with
    | None => if neg then (-1)%Z else n
    | Some i => adj_bound n neg i
    end.

  Definition slice_len (start stop step : Z) : nat :=
    if (step <? 0)%Z then
      if (stop <? start)%Z then Z.to_nat ((start - stop - 1) / (- step) + 1) else 0
    else
      if (start <? stop)%Z then Z.to_nat ((stop - start - 1) / step + 1) else 0.

  (** Positions selected by [slice(a,b,c)] on a sequence of length [n];
      [None] is ValueError (zero step). *)
  Definition slice_positions (n : nat) (a b c : option Z) : option (list nat) :=
    let step := match c with None => 1%Z | Some s => s end in
    if (step =? 0)%Z then None
    else
      let s := slice_start (Z.of_nat n) step a in
      let e := slice_stop (Z.of_nat n) step b in
      Some (map (fun i => Z.to_nat (s + Z.of_nat i * step)) (seq 0 (slice_len s e step))).

  (** Entries at the given positions (positions out of range contribute nothing). *)
  Definition select (l : list A) (ps : list nat) : list A :=
    flat_map (fun k => match nth_error l k with Some x => [x] | None => [] end) ps.
End Indexing.

(** Insertion-ordered dict as an association list without repeated keys. *)
Section Dict.
  Context {K : Type} `{EqB K} {V : Type}.

  Definition dict := list (K * V).

  Fixpoint dget (k : K) (d : dict) : option V :=
    match d with
    | [] => None
    | (k', v) :: t => if eqb k k' then Some v else dget k t
    end.

  Definition dmem (k : K) (d : dict) : bool :=
    match dget k d with Some _ => true | None => false end.

  (** [d[k] = v]: replaces in place, otherwise appends. *)
  Fixpoint dset (k : K) (v : V) (d : dict) : dict :=
    match d with
    | [] => [(k, v)]
    | (k', v') :: t => if eqb k k' then (k', v) :: t else (k', v') :: dset k v t
    end.

  (** [del d[k]] / [d.pop(k, None)] *)
  Fixpoint ddel (k : K) (d : dict) : dict :=
    match d with
    | [] => []
    | (k', v') :: t => if eqb k k' then t else (k', v') :: ddel k t
    end.

  Definition dkeys (d : dict) : list K := map fst d.
  Definition dvals (d : dict) : list V := map snd d.
End Dict.
Arguments dict K V : clear implicits.
