(** Vocabulary for fuzzy correction of names. *)
From Coq Require Import String.
From Coq Require Import List Bool Arith ZArith QArith.
From Verif Require Import PyBase ModelLexer ModelParser ModelResolver SpecResolver.
Import ListNotations.
Local Close Scope Q_scope.
Local Open Scope string_scope.
Local Open Scope nat_scope.
Local Open Scope list_scope.

Section Fuzzy.
Variables (lowers : text -> text) (score : text -> text -> Q).
Section Name.
Variables (thr : Q) (cands : list text) (a : text).
(** Near enough when case is ignored. *)
Definition eligible (c : text) : Prop := In c cands /\ (thr <= score (lowers a) (lowers c))%Q.
Definition best (c : text) : Prop := eligible c /\ forall c', eligible c' -> (score a c' <= score a c)%Q.
(** b is the correction of a. *)
Inductive corrects : text -> Prop :=
| co_exact : In a cands -> corrects a
| co_near b : ~ In a cands -> (0 <= thr)%Q -> (thr < 1)%Q -> eligible b ->
    (forall c, eligible c -> c <> b -> (score a c + (1 # 20) <= score a b)%Q) -> corrects b.
Definition unknown : Prop :=
  ~ In a cands /\ ((1 <= thr)%Q \/ (cands <> [] /\ (0 <= thr)%Q /\ forall c, ~ eligible c)).
Definition ambiguous : Prop :=
  ~ In a cands /\ (0 <= thr)%Q /\ (thr < 1)%Q /\
  exists c c', c <> c' /\ best c /\ eligible c' /\ (score a c < score a c' + (1 # 20))%Q.
Definition unusable : Prop := ~ In a cands /\ (thr < 1)%Q /\ (cands = [] \/ (thr < 0)%Q).
End Name.

(** Corrections of declarations and OUT blocks. *)
Section Program.
Variables (tm tf ts tv : Q)                               (* thresholds for models, fields, specs, references *)
          (models : list text) (flds : text -> list text) (names : list text).
Inductive var_fixed : lmeta -> lmeta -> Prop :=
| vf_raw v : var_fixed (RMeta v) (RMeta v)
| vf_named m f v m' f' : corrects tm models m m' -> corrects tf (flds m') f f' -> var_fixed (LMeta m f v) (LMeta m' f' v).
(** An action is corrected as far as some variable has the same spelling. *)
Inductive act_fixed (lv : dict text lmeta) : ameta -> ameta -> Prop :=
| af_direct c : act_fixed lv (AMeta None c) (AMeta None c)
| af_empty f c : act_fixed lv (AMeta (Some ([], f)) c) (AMeta (Some ([], f)) c)
| af_field m f a v c m' f' : m <> [] -> In (a, LMeta m f v) lv -> corrects tm models m m' -> corrects tf (flds m') f f' ->
    act_fixed lv (AMeta (Some (m, f)) c) (AMeta (Some (m', f')) c)
| af_model m f a g v c m' : m <> [] -> In (a, LMeta m g v) lv -> (forall b w, ~ In (b, LMeta m f w) lv) -> corrects tm models m m' ->
    act_fixed lv (AMeta (Some (m, f)) c) (AMeta (Some (m', f)) c)
| af_none m f c : (forall b g w, ~ In (b, LMeta m g w) lv) ->
    act_fixed lv (AMeta (Some (m, f)) c) (AMeta (Some (m, f)) c).
Definition name_fixed (e e' : text * oval) : Prop := corrects ts names (fst e) (fst e') /\ snd e = snd e'.
Inductive refs_fixed (declared : list text) : text * oval -> text * oval -> Prop :=
| rf_refs n l l' : Forall2 (corrects tv declared) l l' -> refs_fixed declared (n, ORefs l) (n, ORefs l')
| rf_value n v : (forall l, v <> ORefs l) -> refs_fixed declared (n, v) (n, v).
(** The same names with corrected contents. *)
Definition entries {B} (P : B -> B -> Prop) (d d' : dict text B) : Prop :=
  Forall2 (fun e e' => fst e = fst e' /\ P (snd e) (snd e')) d d'.
(** Everything corrected; of fields corrected to one name the last counts. *)
Definition all_fixed (lv : dict text lmeta) (la : dict text ameta) (o : dict text oval)
    (lv' : dict text lmeta) (la' : dict text ameta) (o' : dict text oval) : Prop :=
  entries var_fixed lv lv' /\ entries (act_fixed lv) la la' /\
  exists o1, Forall2 name_fixed o o1 /\ Forall2 (refs_fixed (dkeys lv ++ dkeys la)) (dict_from o1) o'.
(** All names spelled right. *)
Definition exact (lv : dict text lmeta) (la : dict text ameta) (o : dict text oval) : Prop :=
  (forall a m f v, In (a, LMeta m f v) lv -> In m models /\ In f (flds m)) /\
  (forall a m f c, In (a, AMeta (Some (m, f)) c) la -> In m models /\ In f (flds m)) /\
  (forall n, In n (dkeys o) -> In n names).
End Program.
End Fuzzy.
