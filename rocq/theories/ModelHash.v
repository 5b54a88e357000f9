(** Model of /repo/src/lionherd_core/ln/_hash.py.

    Texts are sequences of UTF-8 bytes (their order is that of code points).  Left out:
    subclasses of the built-in types; objects whose model_dump raises. *)
From Coq Require Import String Ascii.
From Coq Require Import List Bool Arith ZArith DecimalString.
Import ListNotations.
Local Open Scope string_scope.
Local Open Scope nat_scope.
Local Open Scope list_scope.

(** A float: a whole number, -0.0, (2m + 1) / 2^(k + 1), an infinity, or the NaN object i. *)
Inductive flt := FInt (z : Z) | FNeg0 | FFrac (m : Z) (k : nat) | FInf (neg : bool) | FNaN (i : nat).
Inductive prim := PNone | PBool (b : bool) | PInt (z : Z) | PFloat (f : flt) | PStr (s : string).

Inductive hv :=
| HPrim (p : prim)
| HDict (kv : list (hv * hv))              (* in insertion order *)
| HList (l : list hv)
| HTuple (l : list hv)
| HFrozen (l : list hv)                    (* in iteration order *)
| HSet (l : list hv)
| HModel (dump : hv)                       (* a pydantic model with its model_dump() *)
| HOther (text : string).                  (* any other object: what 99-105 makes of it *)

(** Representations up to Python's ==, for which True == 1 == 1.0 and 0.0 == -0.0 (a NaN
    equals only itself, as an element of a tuple).  [RFrac m k]: m / 2^k, not whole. *)
Inductive rep :=
| RNone | RNum (z : Z) | RFrac (m : Z) (k : nat) | RInf (neg : bool) | RNaN (i : nat) | RStr (s : string) | RT (l : list rep).

(** Numbers: m / 2^k in lowest terms, infinities, NaNs. *)
Inductive number := NFin (m : Z) (k : nat) | NInf (neg : bool) | NNaN (i : nat).
Definition flt_num (f : flt) : number :=
  match f with
  | FInt z => NFin z 0
  | FNeg0 => NFin 0 0
  | FFrac m k => NFin (2 * m + 1) (S k)
  | FInf neg => NInf neg
  | FNaN i => NNaN i
  end.
Definition num (p : prim) : option number :=
  match p with
  | PBool b => Some (NFin (if b then 1 else 0) 0)
  | PInt z => Some (NFin z 0)
  | PFloat f => Some (flt_num f)
  | _ => None
  end.
Definition num_rep (n : number) : rep :=
  match n with
  | NFin m 0 => RNum m
  | NFin m k => RFrac m k
  | NInf neg => RInf neg
  | NNaN i => RNaN i
  end.
Definition prim_rep (p : prim) : rep :=
  match p with
  | PNone => RNone
  | PBool b => RNum (if b then 1 else 0)%Z
  | PInt z => RNum z
  | PFloat f => num_rep (flt_num f)
  | PStr s => RStr s
  end.
(** a < b on numbers, never with a NaN. *)
Definition num_lt (a b : number) : bool :=
  match a, b with
  | NFin m k, NFin n j => (m * 2 ^ Z.of_nat j <? n * 2 ^ Z.of_nat k)%Z
  | NFin _ _, NInf neg => negb neg
  | NInf neg, NFin _ _ => neg
  | NInf n, NInf m => n && negb m
  | _, _ => false
  end.

(** a < b on texts. *)
Fixpoint str_lt (a b : string) : bool :=
  match a, b with
  | _, EmptyString => false
  | EmptyString, String _ _ => true
  | String x a, String y b =>
      if nat_of_ascii x <? nat_of_ascii y then true
      else if nat_of_ascii x =? nat_of_ascii y then str_lt a b else false
  end.

(** None: the text of a float. *)
Definition prim_str (p : prim) : option string :=
  match p with
  | PNone => Some "None"
  | PBool true => Some "True"
  | PBool false => Some "False"
  | PInt z => Some (NilZero.string_of_int (Z.to_int z))
  | PFloat _ => None
  | PStr s => Some s
  end.
Definition prim_type (p : prim) : string :=
  match p with
  | PNone => "<class 'NoneType'>"
  | PBool _ => "<class 'bool'>"
  | PInt _ => "<class 'int'>"
  | PFloat _ => "<class 'float'>"
  | PStr _ => "<class 'str'>"
  end.
(** a < b; None: TypeError. *)
Definition prim_lt (a b : prim) : option bool :=
  match a, b with
  | PStr s, PStr t => Some (str_lt s t)
  | _, _ => match num a, num b with Some x, Some y => Some (num_lt x y) | _, _ => None end
  end.

(** sorted(...): a stable insertion sort; None: a comparison raised.  All stable sorting
    algorithms agree where < is a total order; on one that is not they may differ from
    three elements on. *)
Section Sort.
Context {K B : Type}.
Variable lt : K -> K -> option bool.
Fixpoint insert (x : K * B) (l : list (K * B)) : option (list (K * B)) :=
  match l with
  | [] => Some [x]
  | y :: l =>
      match lt (fst x) (fst y) with
      | None => None
      | Some true => Some (x :: y :: l)
      | Some false => match insert x l with Some l => Some (y :: l) | None => None end
      end
  end.
Fixpoint sort_from (l acc : list (K * B)) : option (list (K * B)) :=
  match l with
  | [] => Some acc
  | x :: l => match insert x acc with Some acc => sort_from l acc | None => None end
  end.
Definition sorted (l : list (K * B)) : option (list (K * B)) := sort_from l [].
End Sort.

Definition str_key {B} : list (string * B) -> option (list (string * B)) := sorted (fun a b => Some (str_lt a b)).
Definition pair_lt (a b : string * string) : option bool :=
  Some (if str_lt (fst a) (fst b) then true else if (fst a =? fst b)%string then str_lt (snd a) (snd b) else false).

Section Hash.
(** str(x) for floats and values that are not primitives, str(type(x)) and x < y for
    values that are not (both) primitives. *)
Variable obj_str obj_type : hv -> string.
Variable obj_lt : hv -> hv -> option bool.
Definition hv_str (x : hv) : string := match x with HPrim p => match prim_str p with Some s => s | None => obj_str x end | _ => obj_str x end.
Definition hv_type (x : hv) : string := match x with HPrim p => prim_type p | _ => obj_type x end.
Definition hv_lt (x y : hv) : option bool :=
  match x, y with HPrim p, HPrim q => prim_lt p q | _, _ => obj_lt x y end.

(** 66-77 and 84-92: sort directly, or by type and text when that raises. *)
Definition sort_set (l : list (hv * rep)) : list rep :=
  match sorted hv_lt l with
  | Some l => map snd l
  | None =>
      match sorted pair_lt (map (fun e => ((hv_type (fst e), hv_str (fst e)), snd e)) l) with
      | Some l => map snd l
      | None => []                                                              (* never: texts compare *)
      end
  end.

(** 26-105; an element is represented before sorting instead of after it. *)
Fixpoint represent (x : hv) : rep :=
  match x with
  | HPrim p => prim_rep p                                                       (* 31-32 *)
  | HModel d => RT [RNum 5; represent d]                                        (* 34-40 *)
  | HDict kv =>                                                                 (* 42-50 *)
      let items := map (fun e => (hv_str (fst e), represent (snd e))) kv in
      RT [RNum 0; RT (map (fun e => RT [RStr (fst e); snd e]) (match str_key items with Some l => l | None => [] end))]
  | HList l => RT [RNum 1; RT (map represent l)]                                (* 52-56 *)
  | HTuple l => RT [RNum 2; RT (map represent l)]                               (* 58-62 *)
  | HFrozen l => RT [RNum 4; RT (sort_set (map (fun e => (e, represent e)) l))] (* 65-81 *)
  | HSet l => RT [RNum 3; RT (sort_set (map (fun e => (e, represent e)) l))]    (* 83-96 *)
  | HOther t => RStr t                                                          (* 99-105 *)
  end.

(** Python's hash of the representation (134-135): CPython's hash of an int (modulo
    2^61-1 with its sign, -1 replaced by -2) and of a float (m / 2^k modulo the same, where
    1/2 is 2^60; 314159 for infinity); [hnone], [hnan], [hstr] and [htuple], the last a
    function of the hashes of the items. *)
Variable hnone : Z.
Variable hnan : nat -> Z.
Variable hstr : string -> Z.
Variable htuple : list Z -> Z.
Definition hash_frac (z : Z) (k : nat) : Z :=
  let h := (Z.sgn z * ((Z.abs z * (2 ^ 60) ^ Z.of_nat k) mod (2 ^ 61 - 1)))%Z in if (h =? -1)%Z then (-2)%Z else h.
Definition hash_int (z : Z) : Z := hash_frac z 0.
Fixpoint hash_rep (r : rep) : Z :=
  match r with
  | RNone => hnone
  | RNum z => hash_int z
  | RFrac m k => hash_frac m k
  | RInf neg => if neg then (-314159)%Z else 314159%Z
  | RNaN i => hnan i
  | RStr s => hstr s
  | RT l => htuple (map hash_rep l)
  end.
(** 108-141; deepcopy (strict) yields an equal value. *)
Definition hash_dict (x : hv) : Z := hash_rep (represent x).
End Hash.
