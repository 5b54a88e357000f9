(** to_num, /repo/src/lionherd_core/libs/string_handlers/_to_num.py, in IEEE 754 binary64.
    (ModelNum has exact rationals.)

    float(int), float(Decimal) and float(str) are the float nearest to the number (ties to
    even): an int that is too large raises OverflowError, a Decimal or a text becomes an
    infinity.  round(x, p) is the float nearest to the nearest multiple of 10^-p of the exact
    value (ties to even), CPython's float_round.  Comparisons of floats with ints are exact.
    The sign of zero is left out, and so are signaling NaNs and bounds that are no int or
    float. *)
From Coq Require Import List Bool Arith ZArith QArith Qround.
From Flocq Require Import IEEE754.BinarySingleNaN.
From Verif Require Import PyBase ModelNum ModelSimFloat.
Import ListNotations.
Local Open Scope Z_scope.

(** The float nearest to m / d, of the sign s. *)
Definition ratio (s : bool) (m d : positive) : float :=
  SF2B _ (proj1 (Bdiv_correct_aux 53 1024 prec_gt prec_lt mode_NE s m 0 false d 0)).
Definition of_Q (q : Q) : float :=
  match Qnum q with
  | Z0 => B754_zero false
  | Zpos m => ratio false m (Qden q)
  | Zneg m => ratio true m (Qden q)
  end.
Definition of_num (n : num) : float :=
  match n with
  | Fin q => of_Q q
  | PosInf => B754_infinity false
  | NegInf => B754_infinity true
  | NaN => B754_nan
  end.
(** The number that a float is. *)
Definition to_Q (x : float) : num :=
  match x with
  | B754_zero _ => Fin 0
  | B754_infinity false => PosInf
  | B754_infinity true => NegInf
  | B754_nan => NaN
  | B754_finite s m e _ =>
      let z := SpecFloat.cond_Zopp s (Zpos m) in
      Fin (match e with
           | Z0 => z # 1
           | Zpos p => (z * 2 ^ Zpos p) # 1
           | Zneg p => z # (2 ^ p)
           end)
  end.

Inductive input_f :=
| FInt (z : Z)                                       (* and bool *)
| FFloat (x : float)
| FDecimal (n : num)
| FText (blank : bool) (parsed : option num)         (* the exact number that the text denotes *)
| FOther.
Inductive bound := BInt (z : Z) | BFloat (x : float).
Definition bval (b : bound) : num := match b with BInt z => Fin (inject_Z z) | BFloat x => to_Q x end.

(** 38-50 *)
Definition value_f (i : input_f) : outcome float :=
  match i with
  | FInt z => let x := of_Q (inject_Z z) in if is_finite x then Ret x else Raise OtherErr
  | FFloat x => Ret x
  | FDecimal n => Ret (of_num n)
  | FText true _ => Raise ValueError
  | FText false (Some n) => Ret (of_num n)
  | FText false None => Raise ValueError
  | FOther => Raise TypeError
  end.

(** round(x, p) *)
Definition round_f (p : Z) (x : float) : outcome float :=
  match to_Q x with
  | Fin q =>
      if 323 <? p then Ret x
      else if p <? -308 then Ret zero
      else let r := of_Q (inject_Z (half_even (q * pow10 p)) / pow10 p) in
           if is_finite r then Ret r else Raise OtherErr          (* OverflowError *)
  | _ => Ret x
  end.

Inductive result_f := FRInt (z : Z) | FRFloat (x : float).

Definition to_num_f (i : input_f) (upper lower : option bound) (is_int : bool) (precision : option Z) : outcome result_f :=
  bind (value_f i) (fun value =>
  if match upper with Some u => gt (to_Q value) (bval u) | None => false end then Raise ValueError   (* 53-54 *)
  else if match lower with Some l => gt (bval l) (to_Q value) | None => false end then Raise ValueError
  else
    bind (match precision with
          | Some p => if is_int then Ret value else round_f p value       (* 59-60 *)
          | None => Ret value
          end) (fun value =>
    if is_int then
      match to_Q value with
      | Fin q => Ret (FRInt (trunc q))
      | NaN => Raise ValueError
      | _ => Raise OtherErr                                                (* OverflowError *)
      end
    else Ret (FRFloat value))).
