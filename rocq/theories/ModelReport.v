(** errors.py (LionherdError and its subclasses), get_json_serializable of base/_utils.py:255-286
    and Execution.to_dict of base/event.py:67-101 (the error part for exception groups is in
    ModelExc).  Values, json_dumpb and to_dict are parameters; str(error) does not fail. *)
From Coq Require Import String.
From Coq Require Import List Bool Arith.
From Verif Require Import PyBase.
Import ListNotations.
Local Open Scope string_scope.

(** A call returns, raises an Exception, or raises another BaseException. *)
Inductive tri (A : Type) := Fine (a : A) | Exc | Base.
Arguments Fine {A}. Arguments Exc {A}. Arguments Base {A}.

Section Report.
Variable V : Type.
Variable unset : V -> bool.            (* is Unset *)
Variable sentinel : V -> bool.         (* is_sentinel: Unset or Undefined *)
Variable simple : V -> bool.           (* isinstance(v, (str, bytes, bytearray, int, float, NoneType, Enum)) *)
Variable dumps : V -> tri string.      (* json_dumpb *)
Variable convert : V -> tri V.         (* to_dict(v, recursive=True, recursive_python_only=False, use_enum_values=True) *)
Variable null : V.
Variable vtext : string -> V.

(** _utils.py:258-286; None: Unset *)
Definition get_json_serializable (v : V) : tri (option V) :=
  if unset v then Fine None                                   (* 263-264 *)
  else if simple v then Fine (Some v)                         (* 266-267 *)
  else match dumps v with                                     (* 269-272 *)
       | Fine _ => Fine (Some v)
       | Base => Base
       | Exc => match convert v with                          (* 274-283 *)
                | Fine d => match dumps d with
                            | Fine _ => Fine (Some d)
                            | Exc => Fine None
                            | Base => Base
                            end
                | Exc => Fine None
                | Base => Base
                end
       end.

(** event.py:71-76 *)
Definition response_field (v : V) : tri V :=
  if sentinel v then Fine null
  else match get_json_serializable v with
       | Fine (Some w) => Fine w
       | Fine None => Fine (vtext "<unserializable>")
       | Exc => Exc
       | Base => Base
       end.

(** A class: its name and what it sets itself of default_message and default_retryable; the
    hierarchy as the MRO, most derived first. *)
Record eclass := EClass { e_name : string; own_message : option string; own_retryable : option bool }.
Definition lionherd_error : eclass := EClass "LionherdError" (Some "Lionherd error") (Some true).   (* 34-35 *)
Fixpoint message_of (mro : list eclass) : string :=
  match mro with
  | [] => "Lionherd error"
  | c :: r => match own_message c with Some m => m | None => message_of r end
  end.
Fixpoint retryable_of (mro : list eclass) : bool :=
  match mro with
  | [] => true
  | c :: r => match own_retryable c with Some b => b | None => retryable_of r end
  end.

(** errors.py:74-128 *)
Definition builtin_errors : list eclass :=
  [EClass "ValidationError" (Some "Validation failed") (Some false);
   EClass "ConfigurationError" (Some "Configuration error") (Some false);
   EClass "ExecutionError" (Some "Execution failed") (Some true);
   EClass "ConnectionError" (Some "Connection error") (Some true);
   EClass "TimeoutError" (Some "Operation timed out") (Some true);
   EClass "NotFoundError" (Some "Item not found") (Some false);
   EClass "ExistsError" (Some "Item already exists") (Some false);
   EClass "QueueFullError" (Some "Queue is full") (Some true)].

Record error := Error { class_name : string; message : string; details : list (string * V); retryable : bool }.

(** 37-60 *)
Definition new_error (mro : list eclass) (msg : option string) (det : option (list (string * V))) (retry : option bool) : error :=
  Error (match mro with c :: _ => e_name c | [] => "LionherdError" end)
    (match msg with Some m => if m =? "" then message_of mro else m | None => message_of mro end)
    (match det with Some d => d | None => [] end)
    (match retry with Some b => b | None => retryable_of mro end).

Inductive field := FText (s : string) | FBool (b : bool) | FDict (d : list (string * V)) | FVal (v : V)
  | FNull | FNum (n : nat) | FErr (d : list (string * field)).

(** 62-73 *)
Definition error_dict (e : error) : list (string * field) :=
  [("error", FText (class_name e)); ("message", FText (message e)); ("retryable", FBool (retryable e))]
  ++ match details e with [] => [] | d => [("details", FDict d)] end.

(** event.py:49-101; an error that is no LionherdError: class name and str *)
Inductive raised := Lion (e : error) | Other (cls msg : string).
Definition raised_dict (r : raised) : list (string * field) :=
  match r with
  | Lion e => error_dict e
  | Other c m => [("error", FText c); ("message", FText m)]
  end.
Record execution := Execution {
  x_status : string; x_duration : option nat; x_response : V; x_error : option raised; x_retryable : option bool }.
Definition execution_dict (x : execution) : tri (list (string * field)) :=
  match response_field (x_response x) with
  | Fine r =>
      Fine [("status", FText (x_status x));
            ("duration", match x_duration x with Some n => FNum n | None => FNull end);
            ("response", FVal r);
            ("error", match x_error x with Some e => FErr (raised_dict e) | None => FNull end);
            ("retryable", match x_retryable x with Some b => FBool b | None => FNull end)]
  | Exc => Exc
  | Base => Base
  end.
End Report.
