(** Model of /repo/src/lionherd_core/libs/schema_handlers/_typescript.py.

    A field of a JSON schema is a record of the keys the code looks at.  Simplified:
    each key has a value of the shape JSON schema gives it (a list of values for enum,
    of schemas for anyOf, a schema for items, a text for $ref, description and the
    property names; type is a text or a list); texts are ASCII; numbers and other
    values are known by what str() makes of them. *)
From Coq Require Import String Ascii.
From Coq Require Import List Bool Arith.
From Verif Require Import PyBase.
Import ListNotations.
Local Open Scope string_scope.
Local Open Scope list_scope.
Local Open Scope string_scope.

Inductive lit := LStr (s : string) | LNull | LBool (b : bool) | LOther (s : string).
Inductive tyname := One (s : string) | Many (l : list string).

Inductive spec := Spec {
  s_enum : option (list lit); s_anyOf : option (list spec); s_type : option tyname;
  s_items : option spec; s_ref : option string; s_default : option lit; s_description : option string }.

(** 5-16.  A list is not hashable: dict.get raises TypeError. *)
Definition type_map (t : tyname) : outcome string :=
  match t with
  | One "integer" => Ret "int"
  | One "number" => Ret "float"
  | One "boolean" => Ret "bool"
  | One s => Ret s
  | Many _ => Raise TypeError
  end.

(** " | ".join *)
Fixpoint join_bar (l : list string) : string :=
  match l with [] => "" | [x] => x | x :: l => x ++ " | " ++ join_bar l end.

Definition quote : string := String (ascii_of_nat 34) "".
Definition newline : string := String (ascii_of_nat 10) "".

Definition py_bool (b : bool) : string := if b then "True" else "False".

(** 19-29 *)
Definition format_enum (v : lit) : string :=
  match v with
  | LStr s => quote ++ s ++ quote
  | LNull => "null"
  | LBool b => py_bool b
  | LOther s => s
  end.
Definition format_enum_union (l : list lit) : string := join_bar (map format_enum l).

(** s.split("/")[-1]; [w] is what was read of the segment. *)
Fixpoint last_segment (w s : string) : string :=
  match s with
  | EmptyString => w
  | String c s => if Ascii.eqb c "/" then last_segment "" s else last_segment (w ++ String c "") s
  end.

Definition is_null (v : lit) : bool := match v with LNull => true | _ => false end.
Definition type_is (s : string) (t : option tyname) : bool :=
  match t with Some (One x) => String.eqb x s | _ => false end.

(** 47-66: one option of anyOf; [None] adds nothing. *)
Definition anyof_option (o : spec) : outcome (option string) :=
  if type_is "null" (s_type o) then Ret None else
  match s_type o with
  | Some t =>
      match type_is "array" (Some t), s_items o with
      | true, Some i =>
          bind (match s_type i with Some t => type_map t | None => Ret "any" end) (fun item =>
          Ret (Some ((match s_ref i with Some r => last_segment "" r | None => item end) ++ "[]")))
      | _, _ => bind (type_map t) (fun x => Ret (Some x))
      end
  | None =>
      match s_ref o with
      | Some r => Ret (Some (last_segment "" r))
      | None => match s_enum o with Some l => Ret (Some (format_enum_union l)) | None => Ret None end
      end
  end.
Fixpoint anyof_parts (l : list spec) : outcome (list string) :=
  match l with
  | [] => Ret []
  | o :: l => bind (anyof_option o) (fun x => bind (anyof_parts l) (fun xs =>
              Ret (match x with Some x => x :: xs | None => xs end)))
  end.

(** base_type[:-1] if it ends with a question mark *)
Fixpoint chop (s : string) : option string :=
  match s with
  | EmptyString => None
  | String c EmptyString => if Ascii.eqb c "?" then Some "" else None
  | String c s => match chop s with Some r => Some (String c r) | None => None end
  end.

(** 32-111 *)
Definition extract (f : spec) (required : bool) : outcome (string * bool) :=
  match s_enum f with
  | Some l => Ret (format_enum_union l, negb required || existsb is_null l)
  | None =>
  match s_anyOf f with
  | Some l =>
      bind (anyof_parts l) (fun parts =>
      let has_null := existsb (fun o => type_is "null" (s_type o)) l in
      let parts := if has_null then List.app parts ["null"] else parts in
      Ret (match parts with [] => "any" | _ => join_bar parts end, negb required || has_null))
  | None =>
  if type_is "array" (s_type f) then
    bind (match s_items f with
          | None => Ret "any"
          | Some i =>
              match s_type i with
              | Some t => type_map t
              | None => match s_ref i with
                        | Some r => Ret (last_segment "" r)
                        | None => match s_enum i with
                                  | Some l => Ret ("(" ++ format_enum_union l ++ ")")
                                  | None => Ret "any"
                                  end
                        end
              end
          end) (fun item => Ret (item ++ "[]", negb required))
  else
  match s_ref f with
  | Some r => Ret (last_segment "" r, negb required)
  | None =>
  match s_type f with
  | Some t =>
      match t with
      | One s => match chop s with
                 | Some b => bind (type_map (One b)) (fun x => Ret (x, true))
                 | None => bind (type_map t) (fun x => Ret (x, negb required))
                 end
      | Many _ => bind (type_map t) (fun x => Ret (x, negb required))
      end
  | None => Ret ("any", negb required)
  end end end end.

(** 130-141 *)
Definition default_text (d : option lit) : string :=
  match d with
  | None => ""
  | Some (LStr s) => " = " ++ quote ++ s ++ quote
  | Some LNull => " = null"
  | Some (LBool b) => " = " ++ (if b then "true" else "false")
  | Some (LOther s) => " = " ++ s
  end.

(** 123-150 *)
Definition field_line (prefix : string) (required : list string) (name : string) (f : spec) : outcome string :=
  bind (extract f (existsb (String.eqb name) required)) (fun '(sig, optional) =>
  Ret (prefix ++ name ++ (if optional : bool then "?" else "") ++ ": " ++ sig ++ default_text (s_default f)
       ++ (match s_description f with
           | None | Some EmptyString => ""
           | Some d => " - " ++ d
           end))).
Fixpoint field_lines (prefix : string) (required : list string) (l : list (string * spec)) : outcome (list string) :=
  match l with
  | [] => Ret []
  | (n, f) :: l => bind (field_line prefix required n f) (fun x => bind (field_lines prefix required l) (fun xs => Ret (x :: xs)))
  end.

Fixpoint join_lines (l : list string) : string :=
  match l with [] => "" | [x] => x | x :: l => x ++ newline ++ join_lines l end.
Fixpoint spaces2 (n : nat) : string := match n with O => "" | S n => "  " ++ spaces2 n end.

(** 114-155; [properties] None: the schema has no such key. *)
Definition typescript_schema (properties : option (list (string * spec))) (required : list string) (indent : nat) : outcome string :=
  match properties with
  | None => Ret ""
  | Some l => bind (field_lines (spaces2 indent) required l) (fun ls => Ret (join_lines ls))
  end.
