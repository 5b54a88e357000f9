(** What OUT fields stand for, given declarations and specs. *)
From Coq Require Import String.
From Coq Require Import List Bool Arith ZArith.
From Verif Require Import PyBase ModelLexer ModelParser SpecParser ModelResolver.
Import ListNotations.
Local Open Scope string_scope.
Local Open Scope nat_scope.
Local Open Scope list_scope.

(** The dict made from pairs; of equal keys the last one counts. *)
Definition dict_from {B} (l : list (text * B)) : dict text B := fold_left (fun d e => dset (fst e) (snd e) d) l [].

Section Resolver.
Variables (V W : Type) (vbool : bool -> V) (vnone : V) (vstr vfloat : text -> V) (vint : Z -> V).
Variables (literal : text -> outcome V) (conv : scalar -> V -> outcome V) (call : text -> outcome (text * V)) (uspace : nat -> bool).
Variables (validate : text -> dict text V -> outcome W) (construct : text -> dict text (arg V) -> W).

(** The value a text is taken for. *)
Inductive means (s : text) : V -> Prop :=
| mn_true c : trimmed (isspace uspace) s c -> any_case "true" c -> means s (vbool true)
| mn_false c : trimmed (isspace uspace) s c -> any_case "false" c -> means s (vbool false)
| mn_null c : trimmed (isspace uspace) s c -> any_case "null" c -> means s vnone
| mn_literal c v : trimmed (isspace uspace) s c -> ~ any_case "true" c -> ~ any_case "false" c -> ~ any_case "null" c ->
    literal c = Ret v -> means s v
| mn_text c : trimmed (isspace uspace) s c -> ~ any_case "true" c -> ~ any_case "false" c -> ~ any_case "null" c ->
    literal c = Raise ValueError -> means s (vstr c).

Section Declared.
Variables (lv : dict text lmeta) (la : dict text ameta).
Definition meta_text (m : lmeta) : text := match m with LMeta _ _ v | RMeta v => v end.
(** The action declared as a. *)
Definition action_of (a : text) (c : action V) : Prop :=
  exists m fn args, dget a la = Some m /\ call (am_call m) = Ret (fn, args) /\ c = Act a fn args (am_call m).
(** Reference a gives a field of model n. *)
Inductive arg_of (n a : text) : text * arg V -> Prop :=
| ao_var f v x : dget a la = None -> dget a lv = Some (LMeta n f v) -> means v x -> arg_of n a (f, AVal x)
| ao_act m f c : dget a la = Some m -> am_target m = Some (n, f) -> action_of a c -> arg_of n a (f, AAct c).
(** Instances are validated, unless some field is an action still to be executed. *)
Inductive builds (n : text) (kw : dict text (arg V)) : W -> Prop :=
| bu_full d w : kw = map (fun e => (fst e, AVal (snd e))) d -> validate n d = Ret w -> builds n kw w
| bu_partial f c : In (f, AAct c) kw -> builds n kw (construct n kw).
Inductive chain : list (W -> outcome W) -> W -> W -> Prop :=
| ch_nil w : chain [] w w
| ch_cons f l w w1 w2 : f w = Ret w1 -> chain l w1 w2 -> chain (f :: l) w w2.
Inductive denotes : oval -> V -> Prop :=
| dn_str s x : means s x -> denotes (OStr s) x
| dn_int n : denotes (OInt n) (vint n)
| dn_float s : denotes (OFloat s) (vfloat s)
| dn_bool b : denotes (OBool b) (vbool b).
Definition direct (refs : list text) : Prop := exists a m, refs = [a] /\ dget a la = Some m /\ am_target m = None.
Inductive resolves (sp : spec W) : oval -> fval V W -> Prop :=
| rs_action s a c : sp_type sp = TScalar s -> action_of a c -> resolves sp (ORefs [a]) (FAct c)
| rs_var s a m x y : sp_type sp = TScalar s -> dget a la = None -> dget a lv = Some m -> means (meta_text m) x ->
    conv s x = Ret y -> resolves sp (ORefs [a]) (FVal y)
| rs_literal s v x y : sp_type sp = TScalar s -> denotes v x -> conv s x = Ret y -> resolves sp v (FVal y)
| rs_direct n a c : sp_type sp = TModel n -> direct [a] -> action_of a c -> resolves sp (ORefs [a]) (FAct c)
| rs_model n refs args w w' : sp_type sp = TModel n -> ~ direct refs -> Forall2 (arg_of n) refs args ->
    builds n (dict_from args) w -> chain (sp_validators sp) w w' -> resolves sp (ORefs refs) (FInst w').
End Declared.
(** a is referenced from OUT. *)
Definition referenced (out : dict text oval) (a : text) : Prop := exists n l, In (n, ORefs l) out /\ In a l.
End Resolver.
