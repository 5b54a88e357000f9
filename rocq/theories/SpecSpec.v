(** Vocabulary for C65, C66, C67, C81. *)
From Coq Require Import String.
From Coq Require Import List Bool Arith ZArith.
From Verif Require Import PyBase ModelParams ModelSpec.
Import ListNotations.
Local Open Scope string_scope.
Local Open Scope nat_scope.
Local Open Scope list_scope.

(** l is m with some elements left out. *)
Inductive sublist {A} : list A -> list A -> Prop :=
| sl_nil : sublist [] []
| sl_keep x l m : sublist l m -> sublist (x :: l) (x :: m)
| sl_drop x l m : sublist l m -> sublist l (x :: m).

Section Spec.
Variables (V T : Type) (tr : traits V) (valid_type : T -> bool).
Notation pval := (pval V).
Definition true_value (v : pval) : Prop := exists x, v = PV x /\ truthy tr x = true.
Definition can_call (v : pval) : Prop := exists x, v = PV x /\ callable tr x = true.
(** The constraints on the common metadata, given by what is stored under each key. *)
Record common_ok (at_key : string -> option pval) : Prop := {
  one_default : forall d f, at_key "default" = Some d -> at_key "default_factory" = Some f -> ~ (true_value d /\ true_value f);
  factory_call : forall f, at_key "default_factory" = Some f -> true_value f -> can_call f;
  validator_one : forall x, at_key "validator" = Some (PV x) -> truthy tr x = true -> as_list tr x = None -> callable tr x = true;
  validator_all : forall x l, at_key "validator" = Some (PV x) -> truthy tr x = true -> as_list tr x = Some l -> forall y, In y l -> callable tr y = true
}.
Definition good_name (at_key : string -> option pval) : Prop :=
  forall v, at_key "name" = Some v -> exists x s, v = PV x /\ as_str tr x = Some s /\ s <> "".
Definition good_base (b : option T) : Prop := forall t, b = Some t -> valid_type t = true.
(** What is stored under a key after an update: sentinels remove. *)
Definition updated (s : spec V T) (kw : list (meta V)) (k : string) : option pval :=
  match dget k kw with
  | Some (PV v) => Some (PV v)
  | Some _ => None
  | None => dget k (s_meta s)
  end.
(** Specs that a constructor call returned. *)
Definition built (s : spec V T) : Prop := exists b l m n, new_spec V T tr valid_type b l m n = Ret s.
(** Without a name. *)
Definition unnamed (s : spec V T) : Prop := dget "name" (s_meta s) = None.
(** The sources of a field's default. *)
Inductive fdefault := Required | Value (v : pval) | Factory (v : pval).
Definition field_default (none : V) (s : spec V T) : fdefault :=
  match dget "default" (s_meta s), dget "default_factory" (s_meta s) with
  | Some v, _ => if pcallable V tr v then Factory v else Value v
  | None, Some g => Factory g
  | None, None => if is_nullable V T tr s then Value (PV none) else Required
  end.
Definition kw_default (f : fieldkw V) : fdefault :=
  match dget "default" (f_kw f), dget "default_factory" (f_kw f) with
  | Some v, _ => Value v
  | None, Some g => Factory g
  | None, None => Required
  end.
End Spec.
Arguments Required {V}. Arguments Value {V}. Arguments Factory {V}.

(** ** Least recently used *)
Section Recent.
Variables (K : Type) (keq : K -> K -> bool).
(** The distinct keys of a history by last use, oldest first. *)
Fixpoint recent (h : list K) : list K :=
  match h with [] => [] | k :: h => if existsb (keq k) h then recent h else k :: recent h end.
End Recent.
(** The last n elements. *)
Definition lastn {A} (n : nat) (l : list A) : list A := skipn (length l - n) l.
(** An equivalence given by a boolean function. *)
Record equivalence {K} (keq : K -> K -> bool) : Prop := {
  eqv_refl : forall a, keq a a = true;
  eqv_sym : forall a b, keq a b = true -> keq b a = true;
  eqv_trans : forall a b c, keq a b = true -> keq b c = true -> keq a c = true
}.
