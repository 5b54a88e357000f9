(** lndl/types.py 79-312: outputs, the persistence guard, re-validation.

    Values are finite trees (Python would recurse without end on a cyclic value).  Dict keys are
    given by their repr; they and members of sets are hashable, so they are no action calls
    (the hash of an ActionCall fails on its dict of arguments).  model_dump is modelled without
    field serializers, excluded fields and aliases; validation is a parameter. *)
From Coq Require Import String.
From Coq Require Import List Bool Arith.
From Verif Require Import PyBase.
Import ListNotations.
Local Open Scope string_scope.
Local Open Scope nat_scope.
Local Open Scope list_scope.

Inductive kind := KList | KTuple | KSet | KFrozen | KObject.   (* KObject: contents of any other object *)
Inductive val :=
| VAct (name function raw : string) (args : list (string * val))
| VModel (cls : string) (fields extra : list (string * val))   (* __dict__, __pydantic_extra__ *)
| VSeq (k : kind) (l : list val)
| VDict (l : list (string * val))
| VLeaf (s : string).

Definition iterated (k : kind) : bool := match k with KList | KTuple | KSet => true | _ => false end.
(** 172-188 *)
Fixpoint check_value (v : val) : bool :=
  match v with
  | VAct _ _ _ _ => true
  | VModel _ fs _ => existsb (fun e => check_value (snd e)) fs
  | VSeq k l => if iterated k then existsb check_value l else false
  | VDict l => existsb (fun e => check_value (snd e)) l
  | VLeaf _ => false
  end.

Section Guard.
Variable num : nat -> string.                              (* str of a number *)
(** 225-247 *)
Section Each.
Variable find : val -> string -> list string.
Fixpoint each (path : string -> string) (l : list (string * val)) : list string :=
  match l with
  | [] => []
  | (f, v) :: l => find v (path f) ++ each path l
  end.
Fixpoint enum (path : string) (i : nat) (l : list val) : list string :=
  match l with
  | [] => []
  | v :: l => find v (path ++ "[" ++ num i ++ "]")%string ++ enum path (S i) l
  end.
End Each.
Fixpoint find_fields (v : val) (path : string) : list string :=
  match v with
  | VAct _ _ _ _ => if eqb path "" then ["<root>"] else [path]
  | VModel _ fs _ => each find_fields (fun f => if eqb path "" then f else (path ++ "." ++ f)%string) fs
  | VSeq k l => if iterated k then enum find_fields path 0 l else []
  | VDict l => each find_fields (fun k => (path ++ "[" ++ k ++ "]")%string) l
  | VLeaf _ => []
  end.
(** 249-262.  Refused: the fields shown in the message and the number of those not shown. *)
Inductive verdict := Passed (m : val) | RefusedWith (shown : list string) (more : nat) | NoFields.
Definition ensure_no_action_calls (m : val) : verdict :=
  match m with
  | VModel _ fs _ =>
      if existsb (fun e => check_value (snd e)) fs then                                       (* 190 *)
        let l := find_fields m "" in RefusedWith (firstn 3 l) (length l - 3)
      else Passed m
  | _ => NoFields                                                                             (* AttributeError: __dict__ *)
  end.
End Guard.

(** model_dump in Python mode *)
Fixpoint dump (v : val) : val :=
  match v with
  | VAct n f r args =>
      VDict [("name", VLeaf n); ("function", VLeaf f); ("arguments", VDict (map (fun e => (fst e, dump (snd e))) args)); ("raw_call", VLeaf r)]
  | VModel _ fs ex => VDict (map (fun e => (fst e, dump (snd e))) fs ++ map (fun e => (fst e, dump (snd e))) ex)
  | VSeq KObject l => VSeq KObject l
  | VSeq k l => VSeq k (map dump l)
  | VDict l => VDict (map (fun e => (fst e, dump (snd e))) l)
  | VLeaf s => VLeaf s
  end.
Section Revalidate.
Variable validate : string -> dict string val -> outcome val.
(** 300-309 *)
Fixpoint replace (results : dict string val) (fs : list (string * val)) (kw : dict string val) : outcome (dict string val) :=
  match fs with
  | [] => Ret kw
  | (f, VAct n _ _ _) :: fs =>
      match dget n results with
      | None => Raise ValueError
      | Some r => replace results fs (dset f r kw)
      end
  | _ :: fs => replace results fs kw
  end.
(** 265-312 *)
Definition revalidate (m : val) (results : dict string val) : outcome val :=
  match m with
  | VModel cls fs ex =>
      bind (replace results fs (map (fun e => (fst e, dump (snd e))) (fs ++ ex))) (fun kw => validate cls kw)
  | _ => Raise AttributeError
  end.
End Revalidate.

(** 137-146: reading an output.  The five slots come first. *)
Record output := Out { slots : dict string val; out_fields : dict string val }.
Definition slot_names := ["fields"; "lvars"; "lacts"; "actions"; "raw_out_block"].
Definition getitem (o : output) (k : string) : outcome val :=
  match dget k (out_fields o) with Some v => Ret v | None => Raise KeyError end.
Definition getattr (o : output) (k : string) : outcome val :=
  if existsb (eqb k) slot_names then match dget k (slots o) with Some v => Ret v | None => Raise AttributeError end
  else getitem o k.
