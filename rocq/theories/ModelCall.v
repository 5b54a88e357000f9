(** Model of /repo/src/lionherd_core/libs/schema_handlers/_function_call_parser.py.

    parse_function_call works on the syntax tree that ast.parse returns; an argument
    is given by the outcome of ast.literal_eval on it. *)
From Coq Require Import String.
From Coq Require Import List Bool Arith DecimalString.
From Verif Require Import PyBase.
Import ListNotations.
Local Open Scope string_scope.
Local Open Scope nat_scope.
Local Open Scope list_scope.

Definition pos_prefix : string := "_pos_".
Definition pos_key (i : nat) : string := append pos_prefix (NilZero.string_of_uint (Nat.to_uint i)).   (* f"_pos_{i}" *)

Section Call.
Context {V : Type}.

Inductive func := FName (id : string) | FAttr (attr : string) | FOther.
Inductive expr :=
| ESyntaxError                                     (* ast.parse raises SyntaxError or ValueError *)
| ENotCall
| ECall (f : func) (args : list (outcome V)) (keywords : list (option string * outcome V)).   (* None: ** *)

(** 33-35 *)
Fixpoint positional (i : nat) (args : list (outcome V)) (d : dict string V) : outcome (dict string V) :=
  match args with
  | [] => Ret d
  | a :: args => bind a (fun v => positional (S i) args (dset (pos_key i) v d))
  end.
(** 38-42 *)
Fixpoint keyword (kws : list (option string * outcome V)) (d : dict string V) : outcome (dict string V) :=
  match kws with
  | [] => Ret d
  | (None, _) :: _ => Raise ValueError
  | (Some k, a) :: kws => bind a (fun v => keyword kws (dset k v d))
  end.
(** 10-47: errors other than ValueError (and SyntaxError) pass through the handler. *)
Definition parse_function_call (e : expr) : outcome (string * dict string V) :=
  match e with
  | ESyntaxError | ENotCall => Raise ValueError
  | ECall f args kws =>
      bind (match f with FName n => Ret n | FAttr n => Ret n | FOther => Raise ValueError end) (fun name =>
      bind (positional 0 args []) (fun d => bind (keyword kws d) (fun d => Ret (name, d))))
  end.

(** 50-65 *)
Fixpoint map_args (l : dict string V) (params : list string) (mapped : dict string V) : outcome (dict string V) :=
  match l with
  | [] => Ret mapped
  | (k, v) :: l =>
      if String.prefix pos_prefix k then
        match params with
        | [] => Raise ValueError                                                (* 57-58 *)
        | p :: params => map_args l params (dset p v mapped)
        end
      else map_args l params (dset k v mapped)
  end.
Definition map_positional_args (arguments : dict string V) (param_names : list string) : outcome (dict string V) :=
  map_args arguments param_names [].

(** The annotation of a field as far as 79-93 looks at it. *)
Inductive annotation :=
| AOther
| AModel (fields : list string)                    (* a BaseModel subclass *)
| APipeUnion (members : list annotation)           (* X | Y *)
| ATypingUnion (members : list annotation).        (* Union[X, Y], Optional[X]: other origin *)
Definition model_fields (a : annotation) : list string := match a with AModel l => l | _ => [] end.
Definition nested_fields (a : annotation) : option (list string) :=             (* 82-93 *)
  match a with
  | APipeUnion ms => match flat_map model_fields ms with [] => None | l => Some l end
  | AModel l => Some l
  | _ => None
  end.
Definition schema := list (string * annotation).

Definition inb (k : string) (l : list string) : bool := existsb (String.eqb k) l.
(** 109-114 *)
Fixpoint find_nested (k : string) (m : list (string * list string)) : option string :=
  match m with
  | [] => None
  | (f, ks) :: m => if inb k ks then Some f else find_nested k m
  end.
Inductive res := RVal (v : V) | RGroup (d : dict string V).
(** 103-117 *)
Fixpoint separate (top : list string) (m : list (string * list string)) (l : dict string V)
    (result : dict string res) (nested : dict string (dict string V)) : dict string res * dict string (dict string V) :=
  match l with
  | [] => (result, nested)
  | (k, v) :: l =>
      if inb k top then separate top m l (dset k (RVal v) result) nested
      else match find_nested k m with
           | Some f =>
               let g := match dget f nested with Some g => g | None => [] end in
               separate top m l result (dset f (dset k v g) nested)
           | None => separate top m l (dset k (RVal v) result) nested
           end
  end.
(** 68-122; [None]: no schema, or one without model_fields. *)
Definition nest_arguments_by_schema (arguments : dict string V) (s : option schema) : dict string res :=
  let same := map (fun p => (fst p, RVal (snd p))) arguments in
  match s with
  | None => same                                                                (* 70-71 *)
  | Some s =>
      let m := flat_map (fun p => match nested_fields (snd p) with Some l => [(fst p, l)] | None => [] end) s in
      match m with
      | [] => same                                                              (* 96-97 *)
      | _ =>
          let (result, nested) := separate (map fst s) m arguments [] [] in
          fold_left (fun r p => dset (fst p) (RGroup (snd p)) r) nested result  (* 120 *)
      end
  end.
End Call.
Arguments expr V : clear implicits.
Arguments res V : clear implicits.
