(** lndl/resolver.py, parse_value of lndl/parser.py, check_allowed and get of types/operable.py.

    Left out: the texts of error messages, the debugging copies in LNDLOutput (lvars, lacts,
    raw_out_block), variables whose value is not a text (only made by hand).
    Parameters: values and their conversion by float, str, int and bool; ast.literal_eval;
    parse_function_call (its own model: ModelCall); validation and construction of models. *)
From Coq Require Import String.
From Coq Require Import List Bool Arith ZArith.
From Verif Require Import PyBase ModelLexer ModelParser.
Import ListNotations.
Local Open Scope string_scope.
Local Open Scope nat_scope.
Local Open Scope list_scope.

Inductive scalar := SFloat | SStr | SInt | SBool.
(** types.py 15-62 *)
Inductive lmeta := LMeta (model field value : text) | RMeta (value : text).
Record ameta := AMeta { am_target : option (text * text); am_call : text }.

Section Resolver.
Variables (V W : Type).                                    (* values, model instances *)
Variables (vbool : bool -> V) (vnone : V) (vstr vfloat : text -> V) (vint : Z -> V).
Variables (literal : text -> outcome V)                    (* ast.literal_eval; SyntaxError counts as ValueError *)
          (conv : scalar -> V -> outcome V)                (* target_type(...) *)
          (call : text -> outcome (text * V))              (* parse_function_call *)
          (uspace : nat -> bool).

(** types.py 79-96 *)
Record action := Act { a_name : text; a_fun : text; a_args : V; a_raw : text }.
Inductive arg := AVal (v : V) | AAct (a : action).
Variables (validate : text -> dict text V -> outcome W)    (* target_type( **kwargs ), by name of the type *)
          (construct : text -> dict text arg -> W).        (* model_construct *)
(** base_type and metadata of a Spec; name None: Undefined *)
Inductive stype := TScalar (s : scalar) | TModel (n : text) | TOther.
Record spec := Spec { sp_name : option text; sp_required : bool; sp_type : stype; sp_validators : list (W -> outcome W) }.
Inductive fval := FVal (v : V) | FAct (a : action) | FInst (w : W).

(** operable.py 61-81 *)
Definition allowed (specs : list spec) (n : text) : bool :=
  existsb (fun s => match sp_name s with Some m => eqb m n | None => false end) specs.
Fixpoint get_spec (specs : list spec) (n : text) : option spec :=
  match specs with
  | [] => None
  | s :: specs => if match sp_name s with Some m => eqb m n | None => false end then Some s else get_spec specs n
  end.

(** parser.py 623-637 *)
Definition parse_value (s : text) : outcome V :=
  let s := strip uspace s in
  if eqb (map lower s) (codes "true") then Ret (vbool true)
  else if eqb (map lower s) (codes "false") then Ret (vbool false)
  else if eqb (map lower s) (codes "null") then Ret vnone
  else match literal s with Raise ValueError => Ret (vstr s) | r => r end.

(** The action named a: 88-108, 173-191, 220-239 *)
Definition make (a : text) (m : ameta) : outcome action :=
  match call (am_call m) with
  | Ret (f, args) => Ret (Act a f args (am_call m))
  | Raise e => Raise e
  end.

Section Field.
Variables (lv : dict text lmeta) (la : dict text ameta).
(** What a literal in OUT is. *)
Definition plain_value (v : oval) : outcome V :=
  match v with
  | ORefs _ => Raise TypeError                             (* not reached *)
  | OStr s => parse_value s
  | OInt n => Ret (vint n)
  | OFloat s => Ret (vfloat s)
  | OBool b => Ret (vbool b)
  end.
(** 135-144 *)
Definition convert (s : scalar) (v : outcome V) : outcome fval :=
  match v with
  | Raise e => Raise e
  | Ret v => match conv s v with Ret v => Ret (FVal v) | Raise TypeError => Raise ValueError | Raise e => Raise e end
  end.
(** 196-267: kwargs of a model *)
Fixpoint collect (mname : text) (refs : list text) (kw : dict text arg) (acts : dict text action)
  : outcome (dict text arg) * dict text action :=
  match refs with
  | [] => (Ret kw, acts)
  | a :: refs =>
      match dget a la with
      | Some m =>
          match am_target m with
          | None => (Raise ValueError, acts)
          | Some (mo, f) =>
              if eqb mo mname then
                match make a m with
                | Ret c => collect mname refs (dset f (AAct c) kw) (dset a c acts)
                | Raise e => (Raise e, acts)
                end
              else (Raise LNDLTypeMismatch, acts)
          end
      | None =>
          match dget a lv with
          | None => (Raise ValueError, acts)
          | Some (RMeta _) => (Raise ValueError, acts)
          | Some (LMeta mo f v) =>
              if eqb mo mname then
                match parse_value v with
                | Ret x => collect mname refs (dset f (AVal x) kw) acts
                | Raise e => (Raise e, acts)
                end
              else (Raise LNDLTypeMismatch, acts)
          end
      end
  end.
Definition is_action (x : arg) : bool := match x with AAct _ => true | AVal _ => false end.
Fixpoint vals (kw : dict text arg) : dict text V :=
  match kw with
  | (f, AVal v) :: kw => (f, v) :: vals kw
  | _ :: kw => vals kw
  | [] => []
  end.
(** 269-285 *)
Definition instance (mname : text) (kw : dict text arg) : outcome W :=
  if existsb is_action (dvals kw) then Ret (construct mname kw) else validate mname (vals kw).
(** 287-297 *)
Fixpoint apply_validators (l : list (W -> outcome W)) (w : W) : outcome W :=
  match l with
  | [] => Ret w
  | f :: l => match f w with Ret w => apply_validators l w | Raise e => Raise e end
  end.
(** 61-299, one field *)
Definition field (sp : spec) (value : oval) (acts : dict text action) : outcome fval * dict text action :=
  match sp_type sp with
  | TScalar s =>
      match value with
      | ORefs [a] =>
          match dget a la with
          | Some m => match make a m with Ret c => (Ret (FAct c), dset a c acts) | Raise e => (Raise e, acts) end
          | None =>
              match dget a lv with
              | None => (Raise ValueError, acts)
              | Some (LMeta _ _ v) | Some (RMeta v) => (convert s (parse_value v), acts)
              end
          end
      | ORefs _ => (Raise ValueError, acts)
      | v => (convert s (plain_value v), acts)
      end
  | t =>
      match value with
      | ORefs refs =>
          match t with
          | TModel mname =>
              let general :=
                match collect mname refs [] acts with
                | (Ret kw, acts) =>
                    (match instance mname kw with
                     | Ret w => match apply_validators (sp_validators sp) w with Ret w => Ret (FInst w) | Raise e => Raise e end
                     | Raise e => Raise e
                     end, acts)
                | (Raise e, acts) => (Raise e, acts)
                end in
              match refs with
              | [a] =>
                  match dget a la with
                  | Some m =>
                      match am_target m with
                      | None => match make a m with Ret c => (Ret (FAct c), dset a c acts) | Raise e => (Raise e, acts) end
                      | Some _ => general
                      end
                  | None => general
                  end
              | _ => general
              end
          | _ => (Raise TypeError, acts)
          end
      | _ => (Raise ValueError, acts)
      end
  end.
(** 61-303 *)
Fixpoint fields (specs : list spec) (out : dict text oval) (fs : dict text fval) (acts : dict text action) (errs : list exn)
  : dict text fval * dict text action * list exn :=
  match out with
  | [] => (fs, acts, errs)
  | (n, v) :: out =>
      match get_spec specs n with
      | None => fields specs out fs acts (errs ++ [ValueError])
      | Some sp =>
          match field sp v acts with
          | (Ret x, acts) => fields specs out (dset n x fs) acts errs
          | (Raise e, acts) => fields specs out fs acts (errs ++ [e])
          end
      end
  end.
End Field.

Record output := Output { o_fields : dict text fval; o_actions : dict text action }.
Inductive result := Resolved (o : output) | Refused (e : exn) | Group (l : list exn).
(** 17-314 *)
Definition resolve (out : dict text oval) (lv : dict text lmeta) (la : dict text ameta) (specs : list spec) : result :=
  if existsb (fun a => dmem a la) (dkeys lv) then Refused ValueError                                   (* 40-49 *)
  else if negb (forallb (allowed specs) (dkeys out)) then Refused ValueError                           (* 51 *)
  else if existsb (fun s => sp_required s && match sp_name s with Some n => negb (dmem n out) | None => true end) specs
       then Refused LNDLMissingField                                                                   (* 54-57 *)
  else match fields lv la specs out [] [] [] with
       | (fs, acts, []) => Resolved (Output fs acts)
       | (_, _, errs) => Group errs
       end.

(** 335-360 *)
Definition lvar_meta (v : lvar) : text * lmeta :=
  match v with Lvar m f a c => (a, LMeta m f c) | RLvar a c => (a, RMeta c) end.
Definition lact_meta (x : lact) : text * ameta := (ac_alias x, AMeta (ac_name x) (ac_call x)).
Definition to_dict {B} (l : list (text * B)) : dict text B := fold_left (fun d e => dset (fst e) (snd e) d) l [].
(** 317-374, after parsing *)
Definition resolve_program (p : program) (specs : list spec) : result :=
  match out p with
  | None => Refused LNDLMissingOut
  | Some o => resolve o (to_dict (map lvar_meta (lvars p))) (to_dict (map lact_meta (lacts p))) specs
  end.
Definition parse_lndl (ualpha unum udigit : nat -> bool) (udec : nat -> option nat) (s : text) (specs : list spec) : option result :=
  match tokenize ualpha unum udigit s with
  | None => None
  | Some toks =>
      match parse uspace udec toks (Some s) with
      | Done p _ => Some (resolve_program p specs)
      | Err e => Some (Refused e)
      | Loop => None
      end
  end.
End Resolver.
Arguments Act {V}. Arguments a_name {V}. Arguments a_fun {V}. Arguments a_args {V}. Arguments a_raw {V}.
Arguments AVal {V}. Arguments AAct {V}. Arguments Spec {W}. Arguments sp_name {W}. Arguments sp_required {W}.
Arguments sp_type {W}. Arguments sp_validators {W}.
Arguments FVal {V W}. Arguments FAct {V W}. Arguments FInst {V W}.
Arguments Output {V W}. Arguments o_fields {V W}. Arguments o_actions {V W}.
Arguments Resolved {V W}. Arguments Refused {V W}. Arguments Group {V W}.
