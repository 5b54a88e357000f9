(** Vocabulary for string similarity: edits, metric, best match. *)
From Coq Require Import List Bool Arith ZArith QArith.
From Verif Require Import PyBase ModelSim.
Import ListNotations.
Local Close Scope Q_scope.
Local Open Scope nat_scope.
Local Open Scope list_scope.

(** One single-character edit at any place. *)
Inductive edit1 : pystr -> pystr -> Prop :=
| edit_ins p c s : edit1 (p ++ s) (p ++ c :: s)
| edit_del p c s : edit1 (p ++ c :: s) (p ++ s)
| edit_sub p c c' s : edit1 (p ++ c :: s) (p ++ c' :: s).

(** b is reached from a by exactly n edits. *)
Inductive edits : nat -> pystr -> pystr -> Prop :=
| edits_refl a : edits 0 a a
| edits_step n a b c : edit1 a b -> edits n b c -> edits (S n) a c.

Definition unit_interval (q : Q) : Prop := (0 <= q <= 1)%Q.

(** The positions below n of two strings at which they agree. *)
Definition agree (s t : pystr) : nat :=
  length (filter (fun i => nth i s 0 =? nth i t 0) (seq 0 (length s))).

(** Candidate number i of [words] reaches the threshold with score q. *)
Definition reaches (score : pystr -> pystr -> Q) (comp : pystr -> pystr) (word : pystr) (ok : pystr -> bool)
    (threshold : Q) (words : list pystr) (i : nat) (w : pystr) (q : Q) : Prop :=
  nth_error words i = Some w /\ ok (comp w) = true /\ q = score word (comp w) /\ (threshold <= q)%Q.

(** Total length of the strings whose indices are in a bin. *)
Definition total (lens : list nat) (bin : list nat) : nat := list_sum (map (fun i => nth i lens 0) bin).

(** Neighbouring elements satisfy P. *)
Definition neighbours {A} (P : A -> A -> Prop) (l : list A) : Prop :=
  forall pre x y post, l = pre ++ x :: y :: post -> P x y.

(** Ranked candidates (index, word, score): better score first, then smaller index. *)
Definition ranked_before (a b : nat * pystr * Q) : Prop :=
  (snd b < snd a)%Q \/ ((snd a == snd b)%Q /\ fst (fst a) <= fst (fst b)).

(** Input keys of d that are neither expected nor paired; expected keys that are
    neither in d nor paired. *)
Definition spare_input {V} (d : list (pystr * V)) (keys : list pystr) (pairs : list (pystr * pystr)) (x : pystr) : Prop :=
  In x (map fst d) /\ ~ In x keys /\ ~ In x (map fst pairs).
Definition missing {V} (d : list (pystr * V)) (keys : list pystr) (pairs : list (pystr * pystr)) (x : pystr) : Prop :=
  In x keys /\ ~ In x (map fst d) /\ ~ In x (map snd pairs).

(** A pairing of non-expected input keys with absent expected keys, injective both
    ways, every pair reaching the threshold. *)
Definition fuzzy_pairing {V} (sim : pystr -> pystr -> Q) (d : list (pystr * V)) (keys : list pystr) (thr : Q)
    (pairs : list (pystr * pystr)) : Prop :=
  NoDup (map fst pairs) /\ NoDup (map snd pairs) /\
  forall k0 k, In (k0, k) pairs ->
    In k0 (map fst d) /\ ~ In k0 keys /\ In k keys /\ ~ In k (map fst d) /\ (thr <= sim k0 k)%Q.

(** What iterating a set built from a list of strings may yield. *)
Definition set_order (order : list pystr -> list pystr) : Prop :=
  forall l, NoDup (order l) /\ forall x, In x (order l) <-> In x l.
