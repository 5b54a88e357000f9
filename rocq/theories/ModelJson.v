(** Model of /repo/src/lionherd_core/libs/string_handlers/_fuzzy_json.py.

    Strings are lists of code points.  orjson.loads and the regular expressions of
    _clean_json_string (89-101) are parameters. *)
From Coq Require Import List Bool Arith.
From Verif Require Import PyBase.
Import ListNotations.
Local Open Scope list_scope.

Definition backslash := 92.
Definition quote := 34.
Definition brackets (c : nat) : option nat :=            (* 109 *)
  if c =? 123 then Some 125 else if c =? 91 then Some 93 else None.
Definition closer (c : nat) : bool := (c =? 125) || (c =? 93).

(** 124-131: skip to behind the closing quote; a backslash skips two characters. *)
Fixpoint skip_string (s : list nat) : list nat :=
  match s with
  | [] => []
  | c :: s =>
      if c =? backslash then match s with [] => [] | _ :: s => skip_string s end
      else if c =? quote then s else skip_string s
  end.

(** 114-146: the closers still missing, innermost first.  [fuel] bounds the number
    of rounds; [length s] always suffices (every round consumes a character). *)
Fixpoint scan (fuel : nat) (s : list nat) (open : list nat) : outcome (list nat) :=
  match fuel with
  | 0 => Ret open
  | S fuel =>
      match s with
      | [] => Ret open
      | c :: s =>
          if c =? backslash then scan fuel (tl s) open                          (* 117-119 *)
          else if c =? quote then scan fuel (skip_string s) open                (* 121-132 *)
          else match brackets c with
               | Some b => scan fuel s (b :: open)                              (* 134-135 *)
               | None =>
                   if closer c then
                     match open with
                     | [] => Raise ValueError                                   (* 137-140 *)
                     | b :: open => if b =? c then scan fuel s open else Raise ValueError
                     end
                   else scan fuel s open
               end
      end
  end.

(** 104-152 *)
Definition fix_json_string (s : list nat) : outcome (list nat) :=
  match s with
  | [] => Raise ValueError
  | _ => bind (scan (length s) s []) (fun open => Ret (s ++ open))              (* 149-152 *)
  end.

(** 11-86; [loads s = None]: JSONDecodeError.  A JSON value matters by its class. *)
Section Fuzzy.
Context {J : Type}.
Variable loads : list nat -> option J.
Variable is_dict : J -> bool.
Variable elements : J -> option (list J).       (* Some l: the value is the list l *)
Variable blank : list nat -> bool.              (* not s.strip() *)
Variable clean : list nat -> list nat.          (* 30: single quotes replaced, then _clean_json_string *)

Definition validate (j : J) : outcome J :=                                      (* 52-86 *)
  if is_dict j then Ret j
  else match elements j with
       | Some l => if forallb is_dict l then Ret j else Raise TypeError
       | None => Raise TypeError
       end.
Definition fuzzy_json (s : list nat) : outcome J :=
  if blank s then Raise ValueError                                              (* 48-49 *)
  else match loads s with
       | Some j => validate j                                                   (* 25-27 *)
       | None =>
           let cleaned := clean s in
           match loads cleaned with
           | Some j => validate j                                               (* 31-33 *)
           | None =>
               bind (fix_json_string cleaned) (fun fixed =>                     (* 36-42 *)
               match loads fixed with
               | Some j => validate j
               | None => Raise ValueError
               end)
           end
       end.
End Fuzzy.
