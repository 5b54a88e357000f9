(** types/base.py 59-300 (Params, DataClass), is_sentinel of types/_sentinel.py, and the call
    operators of the parameter classes in ln/.

    A class is the list of its declarations, the most derived first; [] is Params (or DataClass)
    itself.  Single inheritance.  Left out: default factories, positional arguments, copying of
    containers other than through the parameters [shallow], [deep]; hashing and equality.
    [order]: the order in which the elements of a set are iterated. *)
From Coq Require Import String.
From Coq Require Import List Bool Arith.
From Verif Require Import PyBase ModelLexer ModelParser.
Import ListNotations.
Local Open Scope string_scope.
Local Open Scope nat_scope.
Local Open Scope list_scope.

Notation cls := (list nat).
Section Params.
Variable V : Type.
Inductive pval := Undefined | Unset | PV (v : V).
Variables (is_none : V -> bool)                            (* is None *)
          (is_empty : V -> bool)                           (* equal to an empty container or text *)
          (enum_value : V -> option V)                     (* value of an Enum member *)
          (container : V -> bool) (shallow deep : V -> V)  (* mutable containers and their copies *)
          (as_dict : V -> option (dict string pval))       (* the entries of a dict *)
          (order : list string -> list string).
(** 44-58 *)
Record config := Config { none_as_sentinel : bool; empty_as_sentinel : bool; strict : bool; prefill_unset : bool; use_enum_values : bool }.
Definition config0 := Config false false false true false.
(** A declared field (names starting with _ are left out): its default, and whether reading the
    attribute of an instance without it gives the default (not so with slots). *)
Record fld := Fld { f_name : string; f_default : option pval; f_visible : bool }.
Record decl := Decl { d_fields : list fld; d_config : option config }.
Variable decls : nat -> decl.

(** dataclasses.fields: base classes first, redeclared fields in their old place *)
Fixpoint fields (c : cls) : dict string fld :=
  match c with
  | [] => []
  | d :: p => fold_left (fun m f => dset (f_name f) f m) (d_fields (decls d)) (fields p)
  end.
Definition names (c : cls) : list string := dkeys (fields c).
Fixpoint conf (c : cls) : config :=
  match c with
  | [] => config0
  | d :: p => match d_config (decls d) with Some k => k | None => conf p end
  end.

(** _allowed_keys: the attributes set so far, by class; read with inheritance *)
Definition cache := dict cls (list string).
Fixpoint cached (st : cache) (c : cls) : list string :=
  match dget c st with
  | Some l => l
  | None => match c with [] => [] | _ :: p => cached st p end
  end.
(** 99-104, 205-211 *)
Definition allowed (st : cache) (c : cls) : list string * cache :=
  match cached st c with
  | [] => (order (names c), dset c (order (names c)) st)
  | l => (l, st)
  end.

(** _sentinel.py is_sentinel with 82-89 *)
Definition sentinel (k : config) (v : pval) : bool :=
  match v with
  | Undefined | Unset => true
  | PV v => (none_as_sentinel k && is_none v) || (empty_as_sentinel k && is_empty v)
  end.
(** 91-96 *)
Definition normalize (k : config) (v : pval) : pval :=
  match v with
  | PV x => if use_enum_values k then match enum_value x with Some y => PV y | None => v end else v
  | _ => v
  end.

Record inst := Inst { i_cls : cls; i_attrs : dict string pval }.
Definition attr (o : inst) (k : string) : option pval :=
  match dget k (i_attrs o) with
  | Some v => Some v
  | None =>
      match dget k (fields (i_cls o)) with
      | Some f => if f_visible f then f_default f else None
      | None => None
      end
  end.
(** getattr(self, k, d) *)
Definition read (o : inst) (k : string) (d : pval) : pval := match attr o k with Some v => v | None => d end.
(** 106-115, 213-222; second component: number of missing parameters *)
Fixpoint validate (keys : list string) (o : inst) (missing : nat) : inst * nat :=
  match keys with
  | [] => (o, missing)
  | k :: keys =>
      let missing := if strict (conf (i_cls o)) && sentinel (conf (i_cls o)) (read o k Unset) then S missing else missing in
      let o := if prefill_unset (conf (i_cls o)) && match read o k Undefined with Undefined => true | _ => false end
               then Inst (i_cls o) (dset k Unset (i_attrs o)) else o in
      validate keys o missing
  end.
Definition validated (st : cache) (o : inst) : outcome inst * cache :=
  let '(keys, st) := allowed st (i_cls o) in
  match validate keys o 0 with
  | (o, 0) => (Ret o, st)
  | (_, S _) => (Raise ExceptionGroupErr, st)
  end.
(** 67-78 *)
Fixpoint set_all (kw : list (string * pval)) (st : cache) (o : inst) : outcome inst * cache :=
  match kw with
  | [] => (Ret o, st)
  | (k, v) :: kw =>
      let '(keys, st) := allowed st (i_cls o) in
      if existsb (eqb k) keys then set_all kw st (Inst (i_cls o) (dset k v (i_attrs o))) else (Raise ValueError, st)
  end.
Definition new_params (st : cache) (c : cls) (kw : dict string pval) : outcome inst * cache :=
  match set_all kw st (Inst c []) with
  | (Ret o, st) => validated st o
  | (Raise e, st) => (Raise e, st)
  end.
(** The __init__ generated for a dataclass, and 196-203 *)
Fixpoint bind_fields (kw : dict string pval) (l : list (string * fld)) : option (dict string pval) :=
  match l with
  | [] => Some []
  | (k, f) :: l =>
      match dget k kw, f_default f, bind_fields kw l with
      | Some v, _, Some r => Some ((k, v) :: r)
      | None, Some v, Some r => Some ((k, v) :: r)
      | _, _, _ => None
      end
  end.
Definition new_data (st : cache) (c : cls) (kw : dict string pval) : outcome inst * cache :=
  if forallb (fun k => dmem k (fields c)) (dkeys kw) then
    match bind_fields kw (fields c) with
    | Some a => validated st (Inst c a)
    | None => (Raise TypeError, st)
    end
  else (Raise TypeError, st).

(** 128-136, 224-232 *)
Definition to_dict_keys (keys : list string) (o : inst) (exclude : list string) : dict string pval :=
  fold_left (fun data k =>
    if existsb (eqb k) exclude then data
    else let v := read o k Undefined in
         if sentinel (conf (i_cls o)) v then data else dset k (normalize (conf (i_cls o)) v) data) keys [].
Definition to_dict (st : cache) (o : inst) (exclude : list string) : dict string pval * cache :=
  let '(keys, st) := allowed st (i_cls o) in (to_dict_keys keys o exclude, st).
(** 117-126 *)
Definition pop (k : string) (d : dict string pval) : option pval * dict string pval := (dget k d, ddel k d).
Definition update (d e : dict string pval) : dict string pval := fold_left (fun d x => dset (fst x) (snd x) d) e d.
Definition default_kw (st : cache) (o : inst) : outcome (dict string pval) * cache :=
  let '(d, st) := to_dict st o [] in
  let entries (v : option pval) := match v with None => Some [] | Some (PV v) => as_dict v | Some _ => None end in
  let '(a, d) := pop "kwargs" d in
  match entries a with
  | None => (Raise OtherErr, st)
  | Some a =>
      let '(b, d) := pop "kw" d in
      match entries b with
      | None => (Raise OtherErr, st)
      | Some b => (Ret (update d (update (update [] a) b)), st)
      end
  end.

(** 149-188, 253-290; copy: None, shallow, deep, or another text *)
Inductive copying := NoCopy | Shallow | Deep | Invalid.
Definition copied (c : copying) (v : pval) : pval :=
  match v with
  | PV x => if container x then match c with Shallow => PV (shallow x) | Deep => PV (deep x) | _ => v end else v
  | _ => v
  end.
Definition with_updates (new : cache -> cls -> dict string pval -> outcome inst * cache)
    (st : cache) (o : inst) (c : copying) (kw : dict string pval) : outcome inst * cache :=
  let '(d, st) := to_dict st o [] in
  let d := map (fun e => (fst e, if dmem (fst e) kw then snd e else copied c (snd e))) d in
  match c with
  | Invalid => (Raise ValueError, st)
  | _ => new st (i_cls o) (update d kw)
  end.

(** The keyword arguments of the stored function: ln/_to_list.py 188-191, ln/_async_call.py 302-304 *)
Definition call_kw (st : cache) (o : inst) (kw : dict string pval) : outcome (dict string pval) * cache :=
  match default_kw st o with
  | (Ret d, st) => (Ret (update (update [] d) kw), st)
  | (Raise e, st) => (Raise e, st)
  end.
(** ln/_async_call.py 313-315: batch_size is passed by position and with the others *)
Definition bcall_args (st : cache) (o : inst) (kw : dict string pval) : outcome (pval * dict string pval) * cache :=
  match call_kw st o kw with
  | (Ret d, st) =>
      (match attr o "batch_size" with
       | None => Raise AttributeError
       | Some v => if dmem "batch_size" d then Raise TypeError else Ret (v, d)
       end, st)
  | (Raise e, st) => (Raise e, st)
  end.
End Params.
Arguments Undefined {V}. Arguments Unset {V}. Arguments PV {V}. Arguments Fld {V}. Arguments f_name {V}. Arguments f_default {V}. Arguments f_visible {V}.
Arguments Decl {V}. Arguments d_fields {V}. Arguments d_config {V}. Arguments Inst {V}. Arguments i_cls {V}. Arguments i_attrs {V}.
