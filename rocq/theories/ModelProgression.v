(** Model of base/progression.py: class Progression.
    State is [order : list uuid] (progression.py:32-35).  The optional name and
    the inherited Element fields play no role in these operations and are left
    out here.  Arguments typed [UUID | Element | str] are [idref]s. *)
From Coq Require Import List ZArith Bool Arith.
From Verif Require Import PyBase.
Import ListNotations.

(** What a caller may pass as an id (base/_utils.py:186-215 [to_uuid]): a UUID,
    an Observable carrying one, a string that does or does not parse, or an
    unsupported value. *)
Inductive idref :=
| RId (u : uuid)
| RElem (u : uuid)
| RStr (parsed : option uuid)
| RBad.

(** base/_utils.py:186-215 [to_uuid], via base/element.py:49-51 [_coerce_id].
    Simplification: UUID string parsing is the [parsed] field. *)
Definition coerce_id (r : idref) : outcome uuid :=
  match r with
  | RElem u => Ret u
  | RId u => Ret u
  | RStr (Some u) => Ret u
  | RStr None => Raise ValueError
  | RBad => Raise ValueError
  end.

(** Values returned by progression methods. *)
Inductive pval :=
| PUnit | PId (u : uuid) | PBool (b : bool) | PInt (n : nat)
| PIds (l : list uuid) | PDefault.

Definition presult := (list uuid * outcome pval)%type.

(** Run [f] on the coerced id, or raise leaving the order unchanged. *)
Definition with_id (r : idref) (p : list uuid) (f : uuid -> presult) : presult :=
  match coerce_id r with Ret u => f u | Raise e => (p, Raise e) end.

(** progression.py:63-66 *)
Definition p_append (p : list uuid) (r : idref) : presult :=
  with_id r p (fun u => (p ++ [u], Ret PUnit)).

(** progression.py:68-71 *)
Definition p_insert (p : list uuid) (i : Z) (r : idref) : presult :=
  with_id r p (fun u => (insert_at (clamp_index (length p) i) u p, Ret PUnit)).

(** progression.py:73-76 *)
Definition p_remove (p : list uuid) (r : idref) : presult :=
  with_id r p (fun u =>
    match remove_first u p with
    | Some p' => (p', Ret PUnit)
    | None => (p, Raise ValueError)
    end).

(** progression.py:78-99; [has_default] is [default is not ...]. *)
Definition p_pop (p : list uuid) (i : Z) (has_default : bool) : presult :=
  match norm_index (length p) i with
  | Some k =>
      match nth_error p k with
      | Some u => (delete_at k p, Ret (PId u))
      | None => (p, Raise IndexError)
      end
  | None => if has_default then (p, Ret PDefault) else (p, Raise NotFoundError)
  end.

(** progression.py:101-109 *)
Definition p_popleft (p : list uuid) : presult :=
  match p with
  | [] => ([], Raise NotFoundError)
  | u :: t => (t, Ret (PId u))
  end.

(** progression.py:111-113 *)
Definition p_clear (p : list uuid) : presult := ([], Ret PUnit).

(** progression.py:115-117.  The ids are coerced lazily by a generator, so the
    ids before a bad one are already appended when the error propagates. *)
Fixpoint p_extend (p : list uuid) (rs : list idref) : presult :=
  match rs with
  | [] => (p, Ret PUnit)
  | r :: t => match coerce_id r with
              | Ret u => p_extend (p ++ [u]) t
              | Raise e => (p, Raise e)
              end
  end.

(** progression.py:121-126 *)
Definition p_contains (p : list uuid) (r : idref) : bool :=
  match coerce_id r with Ret u => memb u p | Raise _ => false end.

(** progression.py:150-152, integer index *)
Definition p_getitem (p : list uuid) (i : Z) : outcome uuid := py_get p i.

(** progression.py:150-152, slice *)
Definition p_getslice (p : list uuid) (a b c : option Z) : outcome (list uuid) :=
  match slice_positions (length p) a b c with
  | None => Raise ValueError
  | Some ps => Ret (select p ps)
  end.

(** progression.py:154-162, integer index *)
Definition p_setitem (p : list uuid) (i : Z) (r : idref) : presult :=
  with_id r p (fun u =>
    match norm_index (length p) i with
    | Some k => (replace_at k u p, Ret PUnit)
    | None => (p, Raise IndexError)
    end).

(** Coercing a list of ids; the first bad one raises. *)
Fixpoint coerce_all (rs : list idref) : outcome (list uuid) :=
  match rs with
  | [] => Ret []
  | r :: t => bind (coerce_id r) (fun u => bind (coerce_all t) (fun us => Ret (u :: us)))
  end.

(** Assigning to positions one by one (extended slice assignment). *)
Fixpoint assign_at (p : list uuid) (ps : list nat) (us : list uuid) : list uuid :=
  match ps, us with
  | k :: ps', u :: us' => assign_at (replace_at k u p) ps' us'
  | _, _ => p
  end.

(** progression.py:154-160, slice assignment with a list value (a non-list value
    raises TypeError before anything happens and is not represented).  The list
    comprehension coerces everything first; then CPython's
    [list_ass_subscript]: step 1 replaces a segment, other steps need equal
    lengths. *)
Definition p_setslice (p : list uuid) (a b c : option Z) (rs : list idref) : presult :=
  match coerce_all rs with
  | Raise e => (p, Raise e)
  | Ret us =>
      let step := match c with None => 1%Z | Some s => s end in
      let n := Z.of_nat (length p) in
      if (step =? 0)%Z then (p, Raise ValueError)
      else if (step =? 1)%Z then
        let lo := Z.to_nat (slice_start n 1 a) in
        let hi := Nat.max lo (Z.to_nat (slice_stop n 1 b)) in
        (firstn lo p ++ us ++ skipn hi p, Ret PUnit)
      else
        match slice_positions (length p) a b c with
        | None => (p, Raise ValueError)
        | Some ps => if length ps =? length us then (assign_at p ps us, Ret PUnit)
                     else (p, Raise ValueError)
        end
  end.

(** progression.py:164-167 *)
Definition p_index (p : list uuid) (r : idref) : outcome nat :=
  bind (coerce_id r) (fun u =>
    match index_of u p with Some k => Ret k | None => Raise ValueError end).

(** progression.py:177-206 *)
Definition validate_index (p : list uuid) (i : Z) (allow_end : bool) : outcome nat :=
  let n := Z.of_nat (length p) in
  if ((n =? 0)%Z && negb allow_end)%bool then Raise NotFoundError
  else
    let i := if (i <? 0)%Z then (n + i)%Z else i in
    let max_index := if allow_end then n else (n - 1)%Z in
    if ((i <? 0)%Z || (max_index <? i)%Z)%bool then Raise NotFoundError
    else Ret (Z.to_nat i).

(** progression.py:210-225 *)
Definition p_move (p : list uuid) (from to : Z) : presult :=
  match validate_index p from false with
  | Raise e => (p, Raise e)
  | Ret f =>
      match validate_index p to true with
      | Raise e => (p, Raise e)
      | Ret t =>
          match nth_error p f with
          | None => (p, Raise IndexError)
          | Some u =>
              let t' := if f <? t then t - 1 else t in
              (insert_at (clamp_index (length p - 1) (Z.of_nat t')) u (delete_at f p),
               Ret PUnit)
          end
      end
  end.

(** progression.py:227-237.  The right-hand side is evaluated first, then the
    two positions are assigned left to right. *)
Definition p_swap (p : list uuid) (i j : Z) : presult :=
  match validate_index p i false with
  | Raise e => (p, Raise e)
  | Ret a =>
      match validate_index p j false with
      | Raise e => (p, Raise e)
      | Ret b =>
          match nth_error p a, nth_error p b with
          | Some x, Some y => (replace_at b x (replace_at a y p), Ret PUnit)
          | _, _ => (p, Raise IndexError)
          end
      end
  end.

(** progression.py:239-241 *)
Definition p_reverse (p : list uuid) : presult := (rev p, Ret PUnit).

(** progression.py:245-255 *)
Definition p_include (p : list uuid) (r : idref) : presult :=
  with_id r p (fun u =>
    if memb u p then (p, Ret (PBool false)) else (p ++ [u], Ret (PBool true))).

(** progression.py:257-267 *)
Definition p_exclude (p : list uuid) (r : idref) : presult :=
  with_id r p (fun u =>
    if memb u p then
      match remove_first u p with
      | Some p' => (p', Ret (PBool true))
      | None => (p, Raise ValueError)
      end
    else (p, Ret (PBool false))).

(** progression.py:37-59 [_validate_order] for list input: every item is
    coerced, the first failure raises. *)
Fixpoint p_make (rs : list idref) : outcome (list uuid) :=
  match rs with
  | [] => Ret []
  | r :: t => bind (coerce_id r) (fun u => bind (p_make t) (fun us => Ret (u :: us)))
  end.
(** progression.py:37-59 for any input: None, a single id, text or element, an iterable (as the list of
    its items), or anything else.  A ValueError becomes pydantic's ValidationError, which is one. *)
Inductive order_arg := ANone | AOne (r : idref) | AMany (rs : list idref) | ANotIterable.
Definition p_create (a : order_arg) : outcome (list uuid) :=
  match a with
  | ANone => Ret []
  | AOne r => p_make [r]
  | AMany rs => p_make rs
  | ANotIterable => Raise TypeError
  end.

(** The public mutators as one operation type, for statements about histories. *)
Inductive prog_op :=
| PoAppend (r : idref) | PoInsert (i : Z) (r : idref) | PoRemove (r : idref)
| PoPop (i : Z) (d : bool) | PoPopleft | PoClear | PoExtend (rs : list idref)
| PoSet (i : Z) (r : idref) | PoSetSlice (a b c : option Z) (rs : list idref) | PoMove (f t : Z) | PoSwap (i j : Z) | PoReverse
| PoInclude (r : idref) | PoExclude (r : idref).

Definition p_step (p : list uuid) (o : prog_op) : presult :=
  match o with
  | PoAppend r => p_append p r
  | PoInsert i r => p_insert p i r
  | PoRemove r => p_remove p r
  | PoPop i d => p_pop p i d
  | PoPopleft => p_popleft p
  | PoClear => p_clear p
  | PoExtend rs => p_extend p rs
  | PoSet i r => p_setitem p i r
  | PoSetSlice a b c rs => p_setslice p a b c rs
  | PoMove f t => p_move p f t
  | PoSwap i j => p_swap p i j
  | PoReverse => p_reverse p
  | PoInclude r => p_include p r
  | PoExclude r => p_exclude p r
  end.
