(** Model of the field validators and serialisers of Node,
    /repo/src/lionherd_core/base/node.py:60-152, of the part of Node.to_dict that chooses
    the embedding format (174-180), of __pydantic_init_subclass__ (51-56) and of the
    lookup in NODE_REGISTRY (288-291).

    Floats are finite numbers (known by a number of any kind), infinities and NaN.
    Parameters: float(int), orjson's and json's reading and writing of texts, and what
    from_dict makes of a dict.  Simplified: pydantic's own check of the value that the
    validators return, which keeps it, is left out; the content is not a str subclass. *)
From Coq Require Import String Ascii.
From Coq Require Import List Bool ZArith.
From Verif Require Import PyBase.
Import ListNotations.
Local Open Scope string_scope.
Local Open Scope list_scope.

Section Embedding.
  Variable num : Type.                     (* finite floats *)
  Inductive flt := Fin (q : num) | Inf (positive : bool) | NaN.
  Variable txt : Type.
  (** What the validator may be given, and what orjson.loads returns. *)
  Inductive val :=
  | VNone | VBool (b : bool) | VInt (z : Z) | VFloat (f : flt) | VText (t : txt)
  | VList (l : list val) | VOther.
  Variable of_int : Z -> option num.       (* float(z); None: OverflowError *)
  Variable loads : txt -> outcome val.     (* orjson.loads *)

  (** float(x) for the numbers *)
  Definition to_float (v : val) : outcome flt :=
    match v with
    | VBool b => match of_int (if b then 1 else 0) with Some q => Ret (Fin q) | None => Raise OtherErr end
    | VInt z => match of_int z with Some q => Ret (Fin q) | None => Raise OtherErr end
    | VFloat f => Ret f
    | _ => Raise TypeError
    end.
  Fixpoint to_floats (l : list val) : outcome (list flt) :=
    match l with
    | [] => Ret []
    | v :: l => bind (to_float v) (fun f => bind (to_floats l) (fun fs => Ret (f :: fs)))
    end.
  (** isinstance(x, (int, float)); bool is a subclass of int *)
  Definition numeric (v : val) : bool :=
    match v with VBool _ | VInt _ | VFloat _ => true | _ => false end.

  (** 147-152 *)
  Definition check_list (v : val) : outcome (option (list flt)) :=
    match v with
    | VList [] => Raise ValueError
    | VList l => if forallb numeric l then bind (to_floats l) (fun fs => Ret (Some fs)) else Raise ValueError
    | _ => Raise ValueError
    end.

  (** 132-152 *)
  Definition validate_embedding (v : val) : outcome (option (list flt)) :=
    match v with
    | VNone => Ret None
    | VText t => match loads t with Ret v => check_list v | Raise _ => Raise ValueError end
    | _ => check_list v
    end.

  (** A pydantic context: the embedding_format it holds, if any; None: no context. *)
  Inductive format := Pgvector | Jsonb | AsList.
  Inductive dumped := DNone | DList (l : list flt) | DText (t : txt).
  Variable orjson_dumps : list flt -> txt.
  Variable json_dumps : list flt -> txt.
  (** 76-97 *)
  Definition serialize_embedding (e : option (list flt)) (ctx : option (option format)) : dumped :=
    match e with
    | None => DNone
    | Some l =>
        match ctx with
        | Some (Some Pgvector) => DText (orjson_dumps l)
        | Some (Some Jsonb) => DText (json_dumps l)
        | _ => DList l
        end
    end.

  Inductive mode := Python | Json | Db.
  (** 174-180: the context that model_dump gets, and the caller's dict afterwards (it is
      changed in place). *)
  Definition with_format (m : mode) (f : option format) (ctx : option (option format))
    : option (option format) * option (option format) :=
    match f, m with
    | None, _ | _, Python => (ctx, ctx)
    | Some f, _ => (Some (Some f), match ctx with None => None | Some _ => Some (Some f) end)
    end.

  (** What orjson makes of a list of floats in the json and db modes, and what loads
      returns for it: numbers, and null for the others. *)
  Definition json_float (f : flt) : val := match f with Fin q => VFloat (Fin q) | _ => VNone end.
  (** The embedding in the dict that to_dict returns. *)
  Definition dump_embedding (m : mode) (f : option format) (ctx : option (option format)) (e : option (list flt)) : val :=
    match serialize_embedding e (fst (with_format m f ctx)) with
    | DNone => VNone
    | DText t => VText t
    | DList l => match m with Python => VList (map VFloat l) | _ => VList (map json_float l) end
    end.
End Embedding.

(** * Content *)
Section Content.
  Variable node : Type.                    (* elements and nodes *)
  Variable other : Type.                   (* models, serialisable objects, other values *)
  (** Values as far as the validator looks at them; keys and values of a dict. *)
  Inductive cval :=
  | CNone | CModel (x : other) | CBad (x : other) | CText (s : string)
  | CDict (d : dict string cval).
  (** What content holds afterwards. *)
  Inductive content := Kept (v : cval) | Loaded (n : node).
  Variable registered : string -> bool.    (* in NODE_REGISTRY *)
  Variable last_part : string -> string.   (* .split(".")[-1] *)
  Variable node_from_dict element_from_dict : dict string cval -> outcome node.
  Variable truthy : cval -> bool.
  Variable hashable : cval -> bool.

  Definition load (f : dict string cval -> outcome node) (d : dict string cval) : outcome content :=
    bind (f d) (fun n => Ret (Loaded n)).

  (** 99-122 *)
  Definition validate_content (v : cval) : outcome content :=
    match v with
    | CBad _ | CText _ => Raise TypeError
    | CNone | CModel _ => Ret (Kept v)
    | CDict d =>
        match dget "metadata" d with
        | None => Ret (Kept v)
        | Some (CDict m) =>
            match dget "lion_class" m with
            | None => Ret (Kept v)
            | Some (CText s) =>
                if String.eqb s "" then Ret (Kept v)
                else if registered s || registered (last_part s)
                     then load node_from_dict d else load element_from_dict d
            | Some c => if truthy c
                        then if hashable c then Raise AttributeError else Raise TypeError
                        else Ret (Kept v)
            end
        | Some _ => Raise AttributeError
        end
    end.
End Content.

(** * NODE_REGISTRY *)
(** A class: its module, its name and its qualified name. *)
Record klass := { k_id : nat; k_module : string; k_name : string; k_qualname : string }.
Definition dotted (m n : string) : string := (m ++ "." ++ n)%string.
(** 51-56 *)
Definition register (r : dict string klass) (k : klass) : dict string klass :=
  dset (dotted (k_module k) (k_name k)) k (dset (k_name k) k r).
(** 326-327: the registry after defining the classes in order; class_name(full=True)
    uses the qualified name. *)
Definition registry (base : klass) (ks : list klass) : dict string klass :=
  fold_left register ks
    (dset (dotted (k_module base) (k_qualname base)) base (dset (k_name base) base [])).
(** .split(".")[-1]; [w] is what was read of the part *)
Fixpoint last_dotted (w s : string) : string :=
  match s with
  | EmptyString => w
  | String c s => if Ascii.eqb c "." then last_dotted "" s else last_dotted (w ++ String c "") s
  end.
(** 288-291 *)
Definition lookup (r : dict string klass) (s : string) : option klass :=
  match dget s r with Some k => Some k | None => dget (last_dotted "" s) r end.
(** element.py:80-93, without type parameters: what a dump holds *)
Definition lion_class (k : klass) : string := dotted (k_module k) (k_qualname k).
