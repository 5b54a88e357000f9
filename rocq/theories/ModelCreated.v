(** Model of coerce_created_at, /repo/src/lionherd_core/base/_utils.py:218-257, and of the
    timestamp format of Element.to_dict, base/element.py:141-142, with Python's binary
    floats.  (ModelSerde has exact numbers instead.)

    Of the standard library are modelled: datetime.timestamp of aware datetimes (one true
    division of integers), datetime.fromtimestamp with UTC of ints and floats as in CPython
    on a 64-bit platform (modf, a multiplication by 1e6, rounding half to even; OverflowError,
    OSError and ValueError by the size of the time) and datetime.replace.  float(str) and
    datetime.fromisoformat are parameters.  Left out: subnormal and huge floats as results of
    arithmetic (they do not occur here), the fold attribute, tzinfo objects other than
    fixed offsets. *)
From Coq Require Import String.
From Coq Require Import ZArith Bool.
Open Scope Z_scope.

(** ** Floats *)

(** Fin m k is m / 2^k. *)
Inductive float := Fin (m : Z) (k : Z) | Inf (negative : bool) | NaN.

(** The integer nearest to a / b, ties to even; b > 0. *)
Definition nearest (a b : Z) : Z :=
  let q := a / b in
  let r := a mod b in
  if 2 * r <? b then q else if b <? 2 * r then q + 1 else if Z.even q then q else q + 1.
(** a / b rounded to 53 bits; b > 0. *)
Definition rounded (a b : Z) : Z * Z :=
  if a =? 0 then (0, 0)
  else let k := 52 + Z.log2 b - Z.log2 (Z.abs a) in
       let k := if Z.abs a * 2 ^ k <? b * 2 ^ 52 then k + 1 else k in
       (nearest (a * 2 ^ k) b, k).

(** ** Datetimes: the wall clock in microseconds since 1970-01-01T00:00, the offset from UTC *)
Record datetime := Datetime { wall : Z; offset : option Z }.
Definition million : Z := 1000000.
(** datetime.timestamp of an aware datetime at n microseconds. *)
Definition timestamp (n : Z) : float := let '(m, k) := rounded n million in Fin m k.

(** ** fromtimestamp with tz=UTC *)
Inductive error := ValueError | OSError | OverflowError.
Inductive result := Ret (d : datetime) | Raise (e : error).
Definition first_us : Z := -62135596800 * million.       (* 0001-01-01 *)
Definition last_us : Z := 253402300800 * million - 1.    (* 9999-12-31 *)
(** The first and last second of the years that fit a C int, gmtime's limits. *)
Definition first_tm : Z := -67768040609740800.
Definition last_tm : Z := 67768036191676799.
Definition from_micros (s us : Z) : result :=
  if negb ((- 2 ^ 63 <=? s) && (s <? 2 ^ 63)) then Raise OverflowError
  else let n := s * million + us in
       let s := n / million in
       if negb ((first_tm <=? s) && (s <=? last_tm)) then Raise OSError
       else if negb ((first_us <=? n) && (n <=? last_us)) then Raise ValueError
       else Ret (Datetime n (Some 0)).
Definition from_float (f : float) : result :=
  match f with
  | NaN => Raise ValueError
  | Inf _ => Raise OverflowError
  | Fin m k =>                             (* k >= 0; large floats are Fin m 0 *)
      let s := Z.quot m (2 ^ k) in
      let '(m', k') := rounded (Z.rem m (2 ^ k) * million) (2 ^ k) in
      from_micros s (nearest m' (2 ^ k'))
  end.

(** ** _utils.py:218-257 *)
Inductive value := VDatetime (d : datetime) | VInt (z : Z) | VBool (b : bool) | VFloat (f : float) | VStr (s : string) | VOther.
Section Strings.
  Variable float_of : string -> option float.        (* float(s); None is ValueError *)
  Variable iso_of : string -> option datetime.       (* datetime.fromisoformat(s) *)

  Definition coerce (v : value) : result :=
    match v with
    | VDatetime d => Ret match offset d with None => Datetime (wall d) (Some 0) | Some _ => d end
    | VInt z => from_micros z 0
    | VBool b => from_micros (if b then 1 else 0) 0
    | VFloat f => from_float f
    | VStr s =>
        match (match float_of s with Some f => from_float f | None => Raise ValueError end) with
        | Raise ValueError => match iso_of s with Some d => Ret d | None => Raise ValueError end
        | r => r
        end
    | VOther => Raise ValueError
    end.
End Strings.
