(** Where in a value an action call waits. *)
From Coq Require Import String.
From Coq Require Import List Bool Arith.
From Verif Require Import PyBase ModelGuard.
Import ListNotations.
Local Open Scope string_scope.
Local Open Scope nat_scope.
Local Open Scope list_scope.

Inductive step := SField (f : string) | SIdx (i : nat) | SKey (k : string).
Inductive at_ : val -> list step -> val -> Prop :=
| at_here v : at_ v [] v
| at_field cls fs ex f v p w : In (f, v) fs -> at_ v p w -> at_ (VModel cls fs ex) (SField f :: p) w
| at_idx k l i v p w : k = KList \/ k = KTuple \/ k = KSet -> nth_error l i = Some v -> at_ v p w -> at_ (VSeq k l) (SIdx i :: p) w
| at_key l k v p w : In (k, v) l -> at_ v p w -> at_ (VDict l) (SKey k :: p) w.
Definition is_act (v : val) : Prop := exists n f r args, v = VAct n f r args.
(** An action call waits at p. *)
Definition waits (v : val) (p : list step) : Prop := exists w, at_ v p w /\ is_act w.

(** Keys and fields are distinct, everywhere. *)
Inductive wf : val -> Prop :=
| wf_act n f r args : wf (VAct n f r args)
| wf_model cls fs ex : NoDup (map fst fs) -> ~ In "" (map fst fs) -> Forall (fun e => wf (snd e)) fs -> wf (VModel cls fs ex)
| wf_seq k l : Forall wf l -> wf (VSeq k l)
| wf_dict l : NoDup (map fst l) -> Forall (fun e => wf (snd e)) l -> wf (VDict l)
| wf_leaf s : wf (VLeaf s).

(** How a path is shown. *)
Definition piece (num : nat -> string) (s : step) : string :=
  match s with SField f => "." ++ f | SIdx i => "[" ++ num i ++ "]" | SKey k => "[" ++ k ++ "]" end%string.
Definition pieces (num : nat -> string) (p : list step) : string := fold_right (fun s r => (piece num s ++ r)%string) "" p.
Definition show (num : nat -> string) (p : list step) : string :=
  match p with SField f :: p => (f ++ pieces num p)%string | p => pieces num p end.
