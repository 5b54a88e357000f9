(** Model of creating elements and events with, and assigning to them, the attributes metadata,
    timeout, streaming and status: base/element.py:37-76 (fields, validate_assignment, the
    validator of metadata) and base/event.py:193-211, 223-237 (timeout, status).

    Pydantic enters by its documented behaviour: with validate_assignment an assignment runs the
    validators and stores the result or raises ValidationError, a ValueError; frozen fields and
    unknown names are refused; names with a leading underscore are private attributes, not part of
    this state; a field of type float reads ints, bools and texts of numbers.  to_dict is
    [ModelToDict].  Left out: the field execution, fields of subclasses, bytes as keys, mappings
    that are no dicts, rounding of ints to floats, methods and class variables as names. *)
From Coq Require Import String Ascii.
From Coq Require Import List ZArith QArith Bool Arith.
From Verif Require Import PyBase ModelToDict ModelEvent.
Import ListNotations.
Local Open Scope string_scope.
Local Open Scope nat_scope.
Local Open Scope list_scope.

(** Floats that are not finite apart. *)
Inductive float := Fin (q : Q) | NaN | PInf | NInf.

(** Numbers, bools, members of EventStatus, and all other values, NA being None here. *)
Inductive value := VInt (z : Z) | VFloat (f : float) | VBool (b : bool) | VVal (v : val) | VStatus (x : status).

Record reader := Reader {
  text_float : string -> option float;       (* a text as a float *)
  text_bool : string -> option bool;
  truthy : nat -> bool                       (* bool of an object *)
}.

Record event := Event {
  e_id : nat; e_created : Z; e_meta : list (string * val);
  e_timeout : option Q; e_streaming : bool; e_status : status
}.

Section A.
  Variable W : world.
  Variable R : reader.

  (** not val *)
  Definition falsy (v : value) : bool :=
    match v with
    | VInt z => (z =? 0)%Z
    | VFloat (Fin q) => Qeq_bool q 0
    | VBool b => negb b
    | VVal NA | VVal (Num 0) | VVal (Str "") | VVal (Dict []) | VVal (Seq _ []) => true
    | VVal (Obj n) => negb (truthy R n)
    | _ => false
    end.

  Definition str_keys (l : list (val * val)) : outcome (list (string * val)) :=
    collect (fun '(k, v) => match k with Str s => Ret (s, v) | _ => Raise ValueError end) l.

  (** to_dict(val, recursive=True, suppress=True) *)
  Definition convert (v : val) : outcome val :=
    to_dict W (Options false false true None true None true false []) v.

  (** element.py:59-76, then dict[str, Any].  A number is converted like any other. *)
  Definition read_meta (v : value) : outcome (list (string * val)) :=
    if falsy v then Ret []
    else
      bind (match v with
            | VVal (Dict l) => Ret (Dict l)
            | VVal v => convert v
            | VStatus _ => Ret (Dict [])             (* the name of a status is no JSON *)
            | VInt _ | VFloat _ | VBool _ => convert (Num 1)
            end)
        (fun d => match d with Dict l => str_keys l | _ => Raise ValueError end).

  Definition read_float (v : value) : option float :=
    match v with
    | VInt z => Some (Fin (inject_Z z))
    | VFloat f => Some f
    | VBool b => Some (Fin (if b then 1 else 0)%Q)
    | VVal (Num n) => Some (Fin (inject_Z (Z.of_nat n)))
    | VVal (Str s) => text_float R s
    | _ => None
    end.

  (** event.py:202-211 *)
  Definition read_timeout (v : value) : outcome (option Q) :=
    match v with
    | VVal NA => Ret None
    | _ => match read_float v with
           | Some (Fin q) => if Qle_bool q 0 then Raise ValueError else Ret (Some q)
           | _ => Raise ValueError
           end
    end.

  Definition read_bool (v : value) : outcome bool :=
    match v with
    | VBool b => Ret b
    | VInt 0 | VVal (Num 0) => Ret false
    | VInt 1 | VVal (Num 1) => Ret true
    | VFloat (Fin q) => if Qeq_bool q 0 then Ret false else if Qeq_bool q 1 then Ret true else Raise ValueError
    | VVal (Str s) => match text_bool R s with Some b => Ret b | None => Raise ValueError end
    | _ => Raise ValueError
    end.

  (** event.py:26-46, 228-235 *)
  Definition named (s : string) : outcome status :=
    match s with
    | "pending" => Ret PENDING | "processing" => Ret PROCESSING | "completed" => Ret COMPLETED
    | "failed" => Ret FAILED | "cancelled" => Ret CANCELLED | "skipped" => Ret SKIPPED
    | "aborted" => Ret ABORTED | _ => Raise ValueError
    end.
  Definition read_status (v : value) : outcome status :=
    match v with VStatus x => Ret x | VVal (Str s) => named s | _ => Raise ValueError end.

  Definition private (name : string) : bool :=
    match name with String "_"%char _ => true | _ => false end.

  Definition store {A} (r : outcome A) (e : event) (f : A -> event) : event * outcome unit :=
    match r with Ret a => (f a, Ret tt) | Raise x => (e, Raise x) end.

  (** event.name = v *)
  Definition assign (e : event) (name : string) (v : value) : event * outcome unit :=
    if private name then (e, Ret tt)
    else if eqb name "metadata" then
      store (read_meta v) e (fun m => Event (e_id e) (e_created e) m (e_timeout e) (e_streaming e) (e_status e))
    else if eqb name "timeout" then
      store (read_timeout v) e (fun t => Event (e_id e) (e_created e) (e_meta e) t (e_streaming e) (e_status e))
    else if eqb name "streaming" then
      store (read_bool v) e (fun b => Event (e_id e) (e_created e) (e_meta e) (e_timeout e) b (e_status e))
    else if eqb name "status" then
      store (read_status v) e (fun x => Event (e_id e) (e_created e) (e_meta e) (e_timeout e) (e_streaming e) x)
    else if eqb name "request" || eqb name "response" then (e, Raise AttributeError)
    else (e, Raise ValueError).

  (** Event(metadata=..., timeout=..., streaming=...) with a new id and time. *)
  Definition create (i : nat) (t : Z) (meta timeout streaming : option value) : outcome event :=
    bind (match meta with Some v => read_meta v | None => Ret [] end) (fun m =>
    bind (match timeout with Some v => read_timeout v | None => Ret None end) (fun o =>
    bind (match streaming with Some v => read_bool v | None => Ret false end) (fun b =>
    Ret (Event i t m o b PENDING)))).
End A.
