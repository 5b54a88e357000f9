(** Model of sequence_matcher_similarity,
    /repo/src/lionherd_core/libs/string_handlers/_string_similarity.py lines
    218-230, and of the parts of CPython's difflib it uses: SequenceMatcher
    with isjunk=None and autojunk=True (__chain_b, find_longest_match,
    get_matching_blocks, ratio).
    Texts are lists of code points.  Regions of the two texts are lists instead
    of index ranges.  The dict j2len of find_longest_match is a row with zeros
    for missing keys.  The queue of regions is a recursion that puts the blocks
    in the order in which difflib sorts them.
    Left out: the merging of adjacent blocks (it keeps the sum of the sizes) and
    the rounding of the ratio. *)
From Coq Require Import List Bool Arith QArith.
Import ListNotations.
Local Open Scope nat_scope.

Fixpoint occurrences (c : nat) (l : list nat) : nat :=
  match l with [] => 0 | d :: r => (if c =? d then 1 else 0) + occurrences c r end.

(** __chain_b: the frequent characters of a long second text are not looked up. *)
Definition popular (b : list nat) (c : nat) : bool :=
  (200 <=? length b) && (length b / 100 + 1 <? occurrences c b).

Section Match.
Variable pop : nat -> bool.

(** One pass of the loop over i: the new j2len. *)
Fixpoint row (c diag : nat) (prev y : list nat) : list nat :=
  match y with
  | [] => []
  | d :: y' => (if (c =? d) && negb (pop c) then S diag else 0) :: row c (hd 0 prev) (tl prev) y'
  end.

Definition cell := (nat * nat * nat)%type.

Fixpoint label (i j : nat) (r : list nat) : list cell :=
  match r with [] => [] | k :: r' => (i, j, k) :: label i (S j) r' end.

(** All (i, j, k), in the order of the two loops. *)
Fixpoint cells (i : nat) (prev x y : list nat) : list cell :=
  match x with
  | [] => []
  | c :: x' => let r := row c 0 prev y in label i 0 r ++ cells (S i) r x' y
  end.

Definition better (best : cell) (m : cell) : cell :=
  let '(i, j, k) := m in
  if snd best <? k then (S i - k, S j - k, k) else best.

Definition longest_run (x y : list nat) : cell :=
  fold_left better (cells 0 (map (fun _ => 0) y) x y) (0, 0, 0).

(** The four while loops; without junk two of them do nothing. *)
Fixpoint extend_left (x y : list nat) (i j k : nat) : cell :=
  match i, j with
  | S i', S j' => if nth i' x 0 =? nth j' y 0 then extend_left x y i' j' (S k) else (i, j, k)
  | _, _ => (i, j, k)
  end.

Fixpoint common_prefix (x y : list nat) : nat :=
  match x, y with
  | c :: x', d :: y' => if c =? d then S (common_prefix x' y') else 0
  | _, _ => 0
  end.

Definition find_longest_match (x y : list nat) : cell :=
  let '(i, j, k) := longest_run x y in
  let '(i, j, k) := extend_left x y i j k in
  (i, j, k + common_prefix (skipn (i + k) x) (skipn (j + k) y)).

Fixpoint blocks (fuel i0 j0 : nat) (x y : list nat) : list cell :=
  match fuel with
  | 0 => []
  | S f =>
      let '(i, j, k) := find_longest_match x y in
      if k =? 0 then []
      else (if (0 <? i) && (0 <? j) then blocks f i0 j0 (firstn i x) (firstn j y) else [])
           ++ [(i0 + i, j0 + j, k)]
           ++ (if (i + k <? length x) && (j + k <? length y)
               then blocks f (i0 + (i + k)) (j0 + (j + k)) (skipn (i + k) x) (skipn (j + k) y)
               else [])
  end.

End Match.

Definition matching_blocks (a b : list nat) : list cell := blocks (popular b) (length a) 0 0 a b.

Definition size (l : list cell) : nat := fold_right (fun m n => snd m + n) 0 l.

Definition sequence_matcher_similarity (a b : list nat) : Q :=
  match (length a + length b)%nat with
  | 0 => 1%Q
  | S n => Qmake (Z.of_nat (2 * size (matching_blocks a b))%nat) (Pos.of_succ_nat n)
  end.
