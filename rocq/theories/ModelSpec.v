(** Field specifications, collections of them and pydantic fields:
    /repo/src/lionherd_core/types/spec.py, types/operable.py, types/spec_adapters/pydantic_field.py.

    Values are [pval V]: the two sentinels and arbitrary Python objects V, of which only the listed
    observations matter.  Types are an arbitrary set T; [None] as a base type stands for None and
    the sentinels.  Simplified: metadata keys are strings; the positional metadata arguments are
    given flattened (to_list, modelled elsewhere); warnings are left out; awaiting an asynchronous
    factory is [call] as well. *)
From Coq Require Import String.
From Coq Require Import List Bool Arith ZArith.
From Verif Require Import PyBase ModelParams.
Import ListNotations.
Local Open Scope string_scope.
Local Open Scope nat_scope.
Local Open Scope list_scope.

(** What is known of a Python object. *)
Record traits (V : Type) := Traits {
  truthy : V -> bool;              (* bool(v) *)
  is_true : V -> bool;             (* v is True *)
  is_none : V -> bool;             (* v is None *)
  callable : V -> bool;
  async : V -> bool;               (* is_coro_func, of callables *)
  is_type : V -> bool;             (* isinstance(v, type) *)
  as_str : V -> option string;     (* isinstance(v, str) *)
  as_list : V -> option (list V);  (* isinstance(v, list) *)
  as_dict : V -> option (dict string (pval V));
  of_dict : dict string (pval V) -> V;
  call : V -> outcome V;           (* v() for a callable *)
  veq : V -> V -> bool;            (* v == w *)
  same : V -> V -> bool            (* id(v) == id(w) *)
}.
Arguments truthy {V}. Arguments is_true {V}. Arguments is_none {V}. Arguments callable {V}. Arguments async {V}.
Arguments is_type {V}. Arguments as_str {V}. Arguments as_list {V}. Arguments as_dict {V}. Arguments of_dict {V}.
Arguments call {V}. Arguments veq {V}. Arguments same {V}.

Section Spec.
Variables (V T : Type) (tr : traits V).
(** isinstance(t, type) or hasattr(t, "__origin__") or isinstance(t, types.UnionType); t1 == t2. *)
Variables (valid_type : T -> bool) (teq : T -> T -> bool).
Notation pval := (pval V).
Notation meta := (string * pval)%type.

Definition ptruthy (v : pval) : bool := match v with PV v => truthy tr v | _ => false end.
Definition pcallable (v : pval) : bool := match v with PV v => callable tr v | _ => false end.
Definition is_sent (v : pval) : bool := match v with PV _ => false | _ => true end.

(** ** Metadata: spec.py 40-98 *)
(** prepare, 66-91: every source is appended in turn, a key seen before is refused. *)
Fixpoint collect (acc : list meta) (l : list meta) : outcome (list meta) :=
  match l with
  | [] => Ret acc
  | (k, v) :: l => if existsb (eqb k) (map fst acc) then Raise ValueError else collect (acc ++ [(k, v)]) l
  end.
(** _validate_common_metas, 41-56: [kw.get] of the metadata. *)
Definition kget (k : string) (l : list meta) : option pval := dget k l.
Definition given_truthy (k : string) (l : list meta) : bool := match kget k l with Some v => ptruthy v | None => false end.
Definition conflict (l : list meta) : bool := given_truthy "default" l && given_truthy "default_factory" l.
Definition bad_factory (l : list meta) : bool :=
  match kget "default_factory" l with Some v => ptruthy v && negb (pcallable v) | None => false end.
Definition bad_validator (l : list meta) : bool :=
  match kget "validator" l with
  | Some (PV v) => truthy tr v && negb (forallb (callable tr) (match as_list tr v with Some vs => vs | None => [v] end))
  | _ => false
  end.
Definition validate (l : list meta) : outcome (list meta) :=
  if conflict l || bad_factory l || bad_validator l then Raise ExceptionGroupErr else Ret l.
Definition prepare (metadata args kw : list meta) : outcome (list meta) :=
  bind (collect [] metadata) (fun a => bind (collect a args) (fun b => bind (collect b kw) validate)).

(** ** Spec: spec.py 101-246 *)
Record spec := MkSpec { s_base : option T; s_meta : list meta }.
(** 125-130 *)
Definition name_ok (l : list meta) : bool :=
  match kget "name" l with
  | None => true
  | Some (PV v) => match as_str tr v with Some s => negb (eqb s "") | None => false end
  | Some _ => false
  end.
Definition base_ok (b : option T) : bool := match b with None => true | Some t => valid_type t end.
(** __init__, 112-155 *)
Definition new_spec (b : option T) (metadata args kw : list meta) : outcome spec :=
  bind (prepare metadata args kw) (fun l =>
    if negb (name_ok l) then Raise ValueError
    else if negb (base_ok b) then Raise ValueError
    else Ret (MkSpec b l)).
(** __getitem__, 157-162; get, 164-168 *)
Definition getitem (s : spec) (k : string) : outcome pval := match dget k (s_meta s) with Some v => Ret v | None => Raise KeyError end.
Definition get (s : spec) (k : string) (d : pval) : pval := match getitem s k with Ret v => v | Raise _ => d end.
(** name, is_nullable, is_listable, default: 170-191.  The name as an optional string: None is Undefined. *)
Definition name (s : spec) : option string := match get s "name" Undefined with PV v => as_str tr v | _ => None end.
Definition is_nullable (s : spec) : bool := match get s "nullable" Undefined with PV v => is_true tr v | _ => false end.
Definition is_listable (s : spec) : bool := match get s "listable" Undefined with PV v => is_true tr v | _ => false end.
Definition default (s : spec) : pval := get s "default" (get s "default_factory" Undefined).
(** has_default_factory, has_async_default_factory, 193-201; _is_factory, 318-331 *)
Definition has_factory (s : spec) : bool := pcallable (get s "default_factory" Undefined).
Definition has_async (s : spec) : bool :=
  match get s "default_factory" Undefined with PV v => callable tr v && async tr v | _ => false end.
(** v(), awaited if need be: TypeError if v is not callable. *)
Definition pcall (v : pval) : outcome pval :=
  match v with
  | PV v => if callable tr v then match call tr v with Ret w => Ret (PV w) | Raise e => Raise e end else Raise TypeError
  | _ => Raise TypeError
  end.
(** create_default_value, 203-214; acreate_default_value, 216-220 *)
Definition create_default (s : spec) : outcome pval :=
  match default s with
  | Undefined => Raise ValueError
  | d => if has_async s then Raise ValueError else if has_factory s then pcall d else Ret d
  end.
Definition acreate_default (s : spec) : outcome pval := if has_async s then pcall (default s) else create_default s.
(** with_updates, 222-229 *)
Definition with_updates (s : spec) (kw : list meta) : outcome spec :=
  new_spec (s_base s)
    (filter (fun m => negb (existsb (eqb (fst m)) (map fst kw))) (s_meta s) ++ filter (fun m => negb (is_sent (snd m))) kw) [] [].
(** with_default, 239-243 *)
Definition with_default (s : spec) (v : pval) : outcome spec :=
  with_updates s [(if pcallable v then "default_factory" else "default", v)].
(** metadict, 305-313 *)
Definition common : list string := ["name"; "nullable"; "listable"; "validator"; "default"; "default_factory"].
Definition metadict (s : spec) (exclude : list string) (exclude_common : bool) : list meta :=
  filter (fun m => negb (existsb (eqb (fst m)) (exclude ++ (if exclude_common then common else [])))) (s_meta s).

(** Type annotations: Any, a type, list[a], a | None, Annotated[a, *metadata]. *)
Inductive ann := AnyT | Ty (t : T) | ListOf (a : ann) | OrNone (a : ann) | Anno (a : ann) (l : list meta).
(** annotation, 249-259 *)
Definition annotation (s : spec) : ann :=
  match s_base s with
  | None => AnyT
  | Some t => let a := if is_listable s then ListOf (Ty t) else Ty t in if is_nullable s then OrNone a else a
  end.
(** annotated, 273-293: the annotation computed if it is not in the cache. *)
Definition fresh_annotated (s : spec) : ann :=
  let a := match s_base s with None => AnyT | Some t => Ty t end in
  let a := if existsb (fun m => eqb (fst m) "nullable" && ptruthy (snd m)) (s_meta s) then OrNone a else a in
  match s_meta s with [] => a | l => Anno a l end.

(** Equality: Meta.__eq__ (base.py), tuples and the generated Spec.__eq__. *)
Definition value_eq (v w : pval) : bool :=
  match v, w with
  | Undefined, Undefined | Unset, Unset => true
  | PV v, PV w => same tr v w || (negb (callable tr v && callable tr w) && veq tr v w)
  | _, _ => false
  end.
Fixpoint metas_eq (l m : list meta) : bool :=
  match l, m with
  | [], [] => true
  | (k, v) :: l, (k', v') :: m => eqb k k' && value_eq v v' && metas_eq l m
  | _, _ => false
  end.
Definition base_eq (b c : option T) : bool := match b, c with None, None => true | Some t, Some u => teq t u | _, _ => false end.
Definition spec_eq (s t : spec) : bool := base_eq (s_base s) (s_base t) && metas_eq (s_meta s) (s_meta t).

(** ** Operable: operable.py 20-119.  None stands for Undefined, the name of an unnamed spec. *)
Definition name_eqb (a b : option string) : bool :=
  match a, b with None, None => true | Some a, Some b => eqb a b | _, _ => false end.
Fixpoint distinct (l : list (option string)) : bool :=
  match l with [] => true | a :: l => negb (existsb (name_eqb a) l) && distinct l end.
(** __init__, 28-59: an item that is no Spec is None. *)
Fixpoint all_specs (l : list (option spec)) : option (list spec) :=
  match l with
  | [] => Some []
  | None :: _ => None
  | Some s :: l => match all_specs l with Some r => Some (s :: r) | None => None end
  end.
Definition new_operable (items : list (option spec)) : outcome (list spec) :=
  match all_specs items with
  | None => Raise TypeError
  | Some l => if distinct (map name l) then Ret l else Raise ValueError
  end.
Definition allowed (o : list spec) : list (option string) := map name o.
(** check_allowed, 65-73 *)
Definition check_allowed (o : list spec) (keys : list (option string)) (as_boolean : bool) : outcome bool :=
  if forallb (fun k => existsb (name_eqb k) (allowed o)) keys then Ret true
  else if as_boolean then Ret false else Raise ValueError.
(** get, 75-81: None is the default. *)
Definition oget (o : list spec) (k : option string) : option spec :=
  if existsb (name_eqb k) (allowed o) then find (fun s => name_eqb (name s) k) o else None.
(** get_specs, 83-107: the arguments as listed by iteration. *)
Fixpoint somes {A} (l : list (option A)) : list A :=
  match l with [] => [] | Some a :: l => a :: somes l | None :: l => somes l end.
Definition get_specs (o : list spec) (incl excl : option (list (option string))) : outcome (list spec) :=
  match incl, excl with
  | Some _, Some _ => Raise ValueError
  | Some (k :: ks), None =>
      if forallb (fun k => existsb (name_eqb k) (allowed o)) (k :: ks) then Ret (somes (map (oget o) (k :: ks))) else Raise ValueError
  | None, Some (k :: ks) =>
      let discards := somes (map (oget o) (k :: ks)) in
      Ret (filter (fun s => negb (existsb (spec_eq s) discards)) o)
  | _, _ => Ret o
  end.

(** ** Pydantic fields: spec_adapters/pydantic_field.py 31-147 *)
(** The parameters of pydantic's Field. *)
Variable field_param : string -> bool.
(** Keyword arguments of Field: json_schema_extra apart, Some None if it is no dict. *)
Record fieldkw := FieldKw { f_kw : dict string pval; f_extra : option (option (dict string pval)) }.
(** The loop of create_field, 45-72. *)
Definition field_step (acc : outcome fieldkw) (m : meta) : outcome fieldkw :=
  bind acc (fun f =>
    let '(k, v) := m in
    if eqb k "default" then Ret (FieldKw (dset (if pcallable v then "default_factory" else "default") v (f_kw f)) (f_extra f))
    else if eqb k "validator" then Ret f
    else if eqb k "json_schema_extra" then Ret (FieldKw (f_kw f) (Some (match v with PV v => as_dict tr v | _ => None end)))
    else if field_param k then Ret (FieldKw (dset k v (f_kw f)) (f_extra f))
    else if eqb k "nullable" || eqb k "listable" then Ret f
    else if match v with PV v => is_type tr v | _ => false end then Ret f
    else match f_extra f with
         | None => Ret (FieldKw (f_kw f) (Some (Some [(k, v)])))
         | Some (Some d) => Ret (FieldKw (f_kw f) (Some (Some (dset k v d))))
         | Some None => Raise TypeError
         end).
(** create_field, 35-86.  [none] is the object None.  Field refuses a default together with a
    factory that is not None. *)
Variable none : V.
Definition create_field (s : spec) : outcome (ann * fieldkw) :=
  bind (fold_left field_step (s_meta s) (Ret (FieldKw [] None))) (fun f =>
    let f := if is_nullable s && negb (dmem "default" (f_kw f)) && negb (dmem "default_factory" (f_kw f))
             then FieldKw (dset "default" (PV none) (f_kw f)) (f_extra f) else f in
    match dget "default" (f_kw f), dget "default_factory" (f_kw f) with
    | Some _, Some (PV g) => if is_none tr g then Ret (annotation s, f) else Raise TypeError
    | Some _, Some _ => Raise TypeError
    | _, _ => Ret (annotation s, f)
    end).
(** create_validator, 88-100 *)
Definition create_validator (s : spec) : option pval := match get s "validator" Undefined with PV v => Some (PV v) | _ => None end.
(** create_model, 102-147: the fields and the validators of the class created on a base class with
    the given fields. *)
Fixpoint field_defs (l : list spec) : outcome (list (string * (ann * fieldkw))) :=
  match l with
  | [] => Ret []
  | s :: l => match name s with
              | None | Some "" => field_defs l
              | Some n => bind (create_field s) (fun f => bind (field_defs l) (fun r => Ret ((n, f) :: r)))
              end
  end.
Definition validators (l : list spec) : dict string (string * pval) :=
  fold_left (fun d s => match name s, create_validator s with
                        | Some n, Some v => if eqb n "" then d else dset (String.append n "_validator") (n, v) d
                        | _, _ => d end) l [].
Definition create_model (o : list spec) (incl excl : option (list (option string))) (base : dict string (ann * fieldkw)) :
  outcome (dict string (ann * fieldkw) * dict string (string * pval)) :=
  bind (get_specs o incl excl) (fun l => bind (field_defs l) (fun d =>
    Ret (fold_left (fun acc e => dset (fst e) (snd e) acc) d base, validators l))).
End Spec.
Notation meta V := (prod string (pval V)).
Arguments MkSpec {V T}. Arguments s_base {V T}. Arguments s_meta {V T}.
Arguments AnyT {V T}. Arguments Ty {V T}. Arguments ListOf {V T}. Arguments OrNone {V T}. Arguments Anno {V T}.
Arguments FieldKw {V}. Arguments f_kw {V}. Arguments f_extra {V}. Arguments somes {A}.

(** ** The cache of annotated(): spec.py 261-303 *)
Section Cache.
Variables (K R : Type) (keq : K -> K -> bool) (fresh : K -> R) (limit : Z).
(** Oldest entry first. *)
Definition cache : Type := list (K * R).
(** while len(cache) > limit: cache.popitem(last=False); popitem of an empty dict raises KeyError. *)
Fixpoint evict (c : cache) : outcome unit * cache :=
  if (Z.of_nat (length c) >? limit)%Z then match c with [] => (Raise KeyError, []) | _ :: c => evict c end else (Ret tt, c).
Definition lookup (c : cache) (k : K) : outcome R * cache :=
  match find (fun e => keq (fst e) k) c with
  | Some e => (Ret (snd e), filter (fun e => negb (keq (fst e) k)) c ++ [e])
  | None => match evict (c ++ [(k, fresh k)]) with
            | (Ret _, c) => (Ret (fresh k), c)
            | (Raise e, c) => (Raise e, c)
            end
  end.
Definition run (h : list K) : cache := fold_left (fun c k => snd (lookup c k)) h [].
End Cache.
