(** Model of ln/_to_dict.py.

    Values are finite trees; the elements of a set are listed in iteration
    order.  Any other Python object is a number whose observations are given
    by [world].  Parsers are parameters: [loads] is orjson.loads, [fuzzy] is
    fuzzy_json, a custom parser is a function of the names of the keyword
    arguments it gets (their values do not matter here) and the string. *)
From Coq Require Import String.
From Coq Require Import List ZArith Bool Arith.
From Verif Require Import PyBase.
Import ListNotations.
Local Open Scope string_scope.
Local Open Scope nat_scope.
Local Open Scope list_scope.

(** Sequence and set types; [KSub n is_set] is a subclass of list, tuple or set,
    whose other observations are those of object [n].  Subclasses of frozenset and
    of str are left out. *)
Inductive kind := KList | KTuple | KSet | KFrozen | KSub (n : nat) (is_set : bool).

Inductive val :=
| NA                                          (** None and the pydantic sentinels *)
| Num (n : nat)
| Str (s : string)
| Dict (l : list (val * val))                 (** a mapping *)
| Seq (k : kind) (l : list val)
| EnumC (l : list (string * (val * val)))     (** an Enum class: name, member, value *)
| Obj (n : nat).

(** What can be observed of an object: its methods called without and with the
    keyword arguments, its dataclass fields, its __dict__, dict(obj). *)
Record world := World {
  method : nat -> string -> option (list string -> outcome val);
  as_dataclass : nat -> option val;
  attrs : nat -> option val;
  dict_of : nat -> outcome val;
  iterates : nat -> option (list val);        (** Iterable, not str or bytes *)
  is_sequence : nat -> bool;                  (** collections.abc.Sequence *)
  hashable : val -> bool;
  same : val -> val -> bool;                  (** == *)
  loads : string -> outcome val;
  fuzzy : string -> outcome val
}.

Definition parser := list string -> string -> outcome val.

Fixpoint collect {A B} (f : A -> outcome B) (l : list A) : outcome (list B) :=
  match l with
  | [] => Ret []
  | x :: t => bind (f x) (fun y => bind (collect f t) (fun ys => Ret (y :: ys)))
  end.

Section W.
  Variable W : world.

  (** _to_dict.py:31-35 *)
  Definition enum_dict (l : list (string * (val * val))) (values : bool) : val :=
    Dict (map (fun '(k, (m, v)) => (Str k, if values then v else m)) l).

  (** _to_dict.py:38-59 *)
  Definition parse_str (fz : bool) (p : option parser) (kw : list string) (s : string)
      : outcome val :=
    match p with
    | Some p => p kw s
    | None => if fz then fuzzy W s else loads W s
    end.

  (** _to_dict.py:62-97 on an object. *)
  Definition mapping_like (prio : bool) (kw : list string) (n : nat) : outcome val :=
    match (if prio then method W n "model_dump" else None) with
    | Some f => f kw
    | None =>
        match find (fun m => match method W n m with Some _ => true | None => false end)
                ["to_dict"; "dict"; "to_json"; "json"; "model_dump"] with
        | Some m =>
            match method W n m with
            | Some f => bind (f kw) (fun r => match r with Str s => loads W s | _ => Ret r end)
            | None => Raise AttributeError
            end
        | None =>
            match as_dataclass W n with
            | Some d => Ret d
            | None => match attrs W n with Some d => Ret d | None => dict_of W n end
            end
        end
    end.

  (** dict(items): every item must be a pair, which a string of two characters
      is as well; a repeated key keeps its place and takes the last value. *)
  Definition pair_of (v : val) : option (val * val) :=
    match v with
    | Seq KList [a; b] | Seq KTuple [a; b] => Some (a, b)
    | Str (String a (String b EmptyString)) =>
        Some (Str (String a EmptyString), Str (String b EmptyString))
    | _ => None
    end.

  Fixpoint put (k x : val) (l : list (val * val)) : list (val * val) :=
    match l with
    | [] => [(k, x)]
    | (k', y) :: t => if same W k k' then (k', x) :: t else (k', y) :: put k x t
    end.

  Fixpoint dict_items (l : list val) (acc : list (val * val)) : outcome val :=
    match l with
    | [] => Ret (Dict acc)
    | x :: t => match pair_of x with
                | Some (k, y) => if hashable W k then dict_items t (put k y acc) else Raise TypeError
                | None => Raise TypeError
                end
    end.

  (** On other values: a frozenset has only dict(obj); numbers and None nothing. *)
  Definition mapping_like_val (prio : bool) (kw : list string) (v : val) : outcome val :=
    match v with
    | Obj n | Seq (KSub n _) _ => mapping_like prio kw n
    | Seq _ l => dict_items l []
    | _ => Raise TypeError
    end.

  Fixpoint dedupe (l : list val) (seen : list val) : list val :=
    match l with
    | [] => []
    | x :: t => if existsb (same W x) seen then dedupe t seen else x :: dedupe t (x :: seen)
    end.

  (** set(items) *)
  Definition build_set (k : kind) (items : list val) : outcome val :=
    if forallb (hashable W) items then Ret (Seq k (dedupe items [])) else Raise TypeError.

  Section Options.
    Variables (custom prio fz values : bool) (p : option parser) (kw : list string).

    (** _to_dict.py:109-209; [fuel] is max_depth - depth.  The parser gets
        use_enum_values among its keyword arguments. *)
    Fixpoint preprocess (fuel : nat) (v : val) : outcome val :=
      match fuel with
      | 0 => Ret v
      | S fuel =>
          let otherwise :=
            if custom then
              match bind (mapping_like_val prio [] v) (preprocess fuel) with
              | Ret r => r
              | Raise _ => v
              end
            else v in
          match v with
          | Str s =>
              match bind (parse_str fz p ("use_enum_values" :: kw) s) (preprocess fuel) with
              | Ret r => Ret r
              | Raise _ => Ret v
              end
          | Dict l =>
              bind (collect (fun '(k, x) => bind (preprocess fuel x) (fun y => Ret (k, y))) l)
                (fun l' => Ret (Dict l'))
          | Seq k l =>
              bind (collect (preprocess fuel) l) (fun items =>
                match k with
                | KList | KTuple => Ret (Seq k items)
                | KSet | KFrozen => build_set k items
                | KSub _ _ => Ret otherwise
                end)
          | EnumC l =>
              match preprocess fuel (enum_dict l values) with
              | Ret r => Ret r
              | Raise _ => Ret v
              end
          | _ => Ret otherwise
          end
      end.
  End Options.

  Definition enumerate (l : list val) : val :=
    Dict (combine (map Num (seq 0 (length l))) l).

  (** The elements of an iterable. *)
  Definition elements (v : val) : option (list val) :=
    match v with
    | Seq _ l => Some l
    | Dict l => Some (map fst l)
    | EnumC l => Some (map (fun '(_, (m, _)) => m) l)
    | Obj n => iterates W n
    | _ => None
    end.

  (** dict(v) for values that are neither mappings nor strings: pairs only; left
      to [dict_of] for objects and refused otherwise. *)
  Definition dict_call (v : val) : outcome val :=
    match v with
    | Dict l => Ret (Dict l)
    | Obj n => dict_of W n
    | _ => Raise TypeError
    end.

  (** collections.abc.Sequence: lists, tuples, strings. *)
  Definition sequence (v : val) : bool :=
    match v with
    | Seq KList _ | Seq KTuple _ | Str _ => true
    | Seq (KSub _ is_set) _ => negb is_set
    | Obj n => is_sequence W n
    | _ => false
    end.

  (** _to_dict.py:242-267: inside contextlib.suppress. *)
  Definition try_object (prio fz : bool) (kw : list string) (v : val) : outcome val :=
    if sequence v then Raise TypeError
    else
      bind (mapping_like_val prio kw v) (fun c =>
        match c with
        | Str s => parse_str fz None [] s
        | Dict l => Ret (Dict l)
        | _ => match elements c with
               | Some l => Ret (enumerate l)
               | None => dict_call c
               end
        end).

  (** _to_dict.py:217-280.  The last dataclass attempt cannot be reached by an
      object whose dataclass fields could be read before. *)
  Definition convert_top (prio fz values : bool) (p : option parser) (kw : list string) (v : val)
      : outcome val :=
    match v with
    | Seq KSet l | Seq (KSub _ true) l => Ret (Dict (map (fun x => (x, x)) l))
    | EnumC l => Ret (enum_dict l values)
    | Dict l => Ret (Dict l)
    | NA => Ret (Dict [])
    | Str s => parse_str fz p kw s
    | _ =>
        match try_object prio fz kw v with
        | Ret r => Ret r
        | Raise _ =>
            match elements v with
            | Some l => Ret (enumerate l)
            | None => dict_call v
            end
        end
    end.

  (** _to_dict.py:283-359 *)
  Record options := Options {
    o_prio : bool; o_fuzzy : bool; o_suppress : bool; o_parser : option parser;
    o_recursive : bool; o_depth : option Z; o_python_only : bool; o_values : bool;
    o_kw : list string
  }.

  Definition the_depth (d : option Z) : outcome nat :=
    match d with
    | None => Ret 5
    | Some z => if (z <? 0)%Z then Raise ValueError
                else if (10 <? z)%Z then Raise ValueError
                else Ret (Z.to_nat z)
    end.

  Definition to_dict (o : options) (v : val) : outcome val :=
    let r :=
      bind (the_depth (o_depth o)) (fun n =>
      bind (if o_recursive o
            then preprocess (negb (o_python_only o)) (o_prio o) (o_fuzzy o) (o_values o)
                   (o_parser o) (o_kw o) n v
            else Ret v) (fun x =>
      convert_top (o_prio o) (o_fuzzy o) (o_values o) (o_parser o) (o_kw o) x)) in
    match r with
    | Ret x => Ret x
    | Raise e =>
        if o_suppress o || match v with Str s => String.eqb s "" | _ => false end
        then Ret (Dict []) else Raise e
    end.
End W.
