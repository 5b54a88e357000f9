(** Model of to_num, /repo/src/lionherd_core/libs/string_handlers/_to_num.py.

    Floats are exact rationals, the infinities and NaN; the rounding error of
    float(...) itself and of the decimal result of round is left out. *)
From Coq Require Import List Bool Arith ZArith QArith Qround.
From Verif Require Import PyBase.
Import ListNotations.
Local Open Scope Q_scope.

Inductive num := Fin (q : Q) | PosInf | NegInf | NaN.

(** An argument by what float() makes of it: a number (bool, int, float, Decimal), an
    int too large for a float, a text (blank after strip, or with its parse), other. *)
Inductive input := INum (n : num) | IHuge | IText (blank : bool) (parsed : option num) | IOther.

(** Python's a > b on floats. *)
Definition gt (a b : num) : bool :=
  match a, b with
  | NaN, _ | _, NaN => false
  | PosInf, PosInf => false
  | PosInf, _ => true
  | _, PosInf => false
  | NegInf, _ => false
  | _, NegInf => true
  | Fin x, Fin y => negb (Qle_bool x y)
  end.

Definition pow10 (p : Z) : Q := (10 # 1) ^ p.
(** Nearest integer, ties to even. *)
Definition half_even (q : Q) : Z :=
  let f := Qfloor q in
  let d := q - inject_Z f in
  if Qle_bool d (1 # 2) then
    if Qeq_bool d (1 # 2) then (if Z.even f then f else f + 1)%Z else f
  else (f + 1)%Z.
Definition round_to (p : Z) (n : num) : num :=
  match n with Fin q => Fin (inject_Z (half_even (q * pow10 p)) / pow10 p) | _ => n end.
Definition trunc (q : Q) : Z := Z.quot (Qnum q) (Zpos (Qden q)).

Inductive result := RInt (z : Z) | RFloat (n : num).

Definition to_num (i : input) (upper lower : option num) (is_int : bool) (precision : option Z) : outcome result :=
  bind (match i with
        | INum n => Ret n                                                      (* 38-39 *)
        | IHuge => Raise OtherErr                                              (* OverflowError *)
        | IText true _ => Raise ValueError                                     (* 43-44 *)
        | IText false (Some n) => Ret n
        | IText false None => Raise ValueError
        | IOther => Raise TypeError                                            (* 49-50 *)
        end) (fun value =>
  if match upper with Some u => gt value u | None => false end then Raise ValueError   (* 53-54 *)
  else if match lower with Some l => gt l value | None => false end then Raise ValueError
  else
    let value := match precision with
                 | Some p => if is_int then value else round_to p value        (* 59-60 *)
                 | None => value
                 end in
    if is_int then
      match value with
      | Fin q => Ret (RInt (trunc q))
      | NaN => Raise ValueError
      | _ => Raise OtherErr                                                    (* OverflowError *)
      end
    else Ret (RFloat value)).
