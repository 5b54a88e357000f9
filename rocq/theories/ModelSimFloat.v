(** The similarity scores of libs/string_handlers/_string_similarity.py:31-215 in IEEE 754
    binary64 arithmetic, rounding to nearest even, as CPython computes them.  (ModelSim has exact
    rationals.)  The arithmetic is Flocq's.

    An int enters arithmetic as the float nearest to it; the quotient of two ints is the float
    nearest to the exact quotient, which for ints below 2^53 is the quotient of the floats.  The
    power x ** 0.5 is C's pow, a parameter. *)
From Coq Require Import List Bool Arith ZArith.
From Flocq Require Import IEEE754.BinarySingleNaN.
From Verif Require Import PyBase ModelSim.
Import ListNotations.

Definition float := binary_float 53 1024.
Definition prec_gt : FLX.Prec_gt_0 53 := eq_refl.
Definition prec_lt : Prec_lt_emax 53 1024 := eq_refl.

Definition fadd (x y : float) : float := Bplus (prec_gt_0_ := prec_gt) (prec_lt_emax_ := prec_lt) mode_NE x y.
Definition fsub (x y : float) : float := Bminus (prec_gt_0_ := prec_gt) (prec_lt_emax_ := prec_lt) mode_NE x y.
Definition fmul (x y : float) : float := Bmult (prec_gt_0_ := prec_gt) (prec_lt_emax_ := prec_lt) mode_NE x y.
Definition fdiv (x y : float) : float := Bdiv (prec_gt_0_ := prec_gt) (prec_lt_emax_ := prec_lt) mode_NE x y.
Definition of_nat (n : nat) : float :=
  binary_normalize 53 1024 prec_gt prec_lt mode_NE (Z.of_nat n) 0 false.
(** x <= y, x < y and x == y *)
Definition fle (x y : float) : bool := Bleb x y.
Definition flt (x y : float) : bool := Bltb x y.
Definition feq (x y : float) : bool := Beqb x y.

Definition zero : float := of_nat 0.
Definition one : float := of_nat 1.
Definition quarter : float := fdiv (of_nat 1) (of_nat 4).

(** 50-67 *)
Definition hamming_f (s1 s2 : pystr) : float :=
  if (length s1 =? 0) || (length s2 =? 0) || negb (length s1 =? length s2) then zero
  else fdiv (of_nat (length (filter (fun p => fst p =? snd p) (combine s1 s2)))) (of_nat (length s1)).

(** 70-125 *)
Definition jaro_f (s t : pystr) : outcome float :=
  if (length s =? 0) && (length t =? 0) then Ret one
  else if (length s =? 0) || (length t =? 0) then Ret zero
  else
    let md := max (length s) (length t) / 2 - 1 in
    let '(sm, tm) := match_loop md t s 0 (repeat false (length t)) in
    let matches := count_true sm in
    if matches =? 0 then Ret zero
    else
      bind (transpositions s sm t tm) (fun tr =>
      let tr := tr / 2 in
      Ret (fdiv (fadd (fadd (fdiv (of_nat matches) (of_nat (length s)))
                            (fdiv (of_nat matches) (of_nat (length t))))
                      (fdiv (of_nat (matches - tr)) (of_nat matches)))
                (of_nat 3))).

(** 128-156 *)
Definition jaro_winkler_f (s t : pystr) (scaling : float) : outcome float :=
  if negb (fle zero scaling && fle scaling quarter) then Raise ValueError
  else bind (jaro_f s t) (fun j =>
       Ret (fadd j (fmul (fmul (of_nat (common_prefix 4 s t)) scaling) (fsub one j)))).

(** 196-215 *)
Definition levenshtein_f (s1 s2 : pystr) : float :=
  match s1, s2 with
  | [], [] => one
  | [], _ | _, [] => zero
  | _, _ => fsub one (fdiv (of_nat (levenshtein s1 s2)) (of_nat (max (length s1) (length s2))))
  end.

(** 31-47 *)
Definition cosine_f (pow_half : float -> float) (s1 s2 : pystr) : float :=
  match s1, s2 with
  | [], _ | _, [] => zero
  | _, _ =>
      let set1 := nodup Nat.eq_dec s1 in
      let set2 := nodup Nat.eq_dec s2 in
      let k := length (filter (fun x => existsb (Nat.eqb x) set2) set1) in
      fdiv (of_nat k) (pow_half (of_nat (length set1 * length set2)))
  end.
