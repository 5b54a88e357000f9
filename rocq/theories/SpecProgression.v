(** Independent vocabulary for statements about progressions. *)
From Coq Require Import List ZArith Bool Permutation.
Import ListNotations.

(** Integer [i] denotes position [k] of a sequence of length [n]. *)
Definition denotes (n : nat) (i : Z) (k : nat) : Prop :=
  (k < n)%nat /\ ((0 <= i)%Z /\ i = Z.of_nat k \/ (i < 0)%Z /\ i = (Z.of_nat k - Z.of_nat n)%Z).

(** Integer [i] denotes the insertion gap [k] (0..n). *)
Definition denotes_gap (n : nat) (i : Z) (k : nat) : Prop :=
  (k <= n)%nat /\ ((0 <= i)%Z /\ i = Z.of_nat k \/ (i < 0)%Z /\ i = (Z.of_nat k - Z.of_nat n)%Z).

(** [l'] is [l] with one occurrence of [x] cut out at position [k]. *)
Definition cut {A} (l : list A) (k : nat) (x : A) (l' : list A) : Prop :=
  exists a b, l = a ++ x :: b /\ l' = a ++ b /\ length a = k.

(** [l'] is [l] with [x] put in front of what was at gap [k]. *)
Definition spliced {A} (l : list A) (k : nat) (x : A) (l' : list A) : Prop :=
  exists a b, l = a ++ b /\ l' = a ++ x :: b /\ length a = k.

(** Entries of [l] other than the occurrence at position [k], in order. *)
Definition without {A} (l : list A) (k : nat) : list A := firstn k l ++ skipn (S k) l.

(** Slice bounds as in the Python language reference: normalise, then clamp. *)
Definition clampZ (lo hi x : Z) : Z := Z.max lo (Z.min hi x).
Definition wrap (n i : Z) : Z := if Z.ltb i 0 then (i + n)%Z else i.
Definition bound (dflt lo hi n : Z) (o : option Z) : Z :=
  match o with None => dflt | Some i => clampZ lo hi (wrap n i) end.

(** Position [k] is selected by the slice [a:b:s] of a length-[n] sequence. *)
Definition slice_selects (n : Z) (a b : option Z) (s k : Z) : Prop :=
  if Z.ltb 0 s then
    let lo := bound 0 0 n n a in
    let hi := bound n 0 n n b in
    (lo <= k < hi /\ (k - lo) mod s = 0)%Z
  else
    let hi := bound (n - 1) (-1) (n - 1) n a in
    let lo := bound (-1) (-1) (n - 1) n b in
    (lo < k <= hi /\ (hi - k) mod (- s) = 0)%Z.
