(** The numbers of retry (libs/concurrency/_patterns.py:219-236) as CPython computes them: an
    argument is an int, of any size, or a binary64 float.  (ModelRetry has the loop, with exact
    rationals.)

    An int times or plus a float is first converted to the nearest float; a too large one raises
    OverflowError.  A comparison of an int and a float is exact. *)
From Coq Require Import List Bool Arith ZArith QArith.
From Flocq Require Import IEEE754.BinarySingleNaN.
From Verif Require Import PyBase ModelNum ModelSimFloat ModelNumFloat.
Local Open Scope Z_scope.

Inductive pynum := PyInt (z : Z) | PyFloat (x : float).

Definition exact (n : pynum) : num :=
  match n with PyInt z => Fin (inject_Z z) | PyFloat x => to_Q x end.
Definition as_float (n : pynum) : outcome float :=
  match n with PyInt z => value_f (FInt z) | PyFloat x => value_f (FFloat x) end.
(** bool(n) *)
Definition nonzero (n : pynum) : bool :=
  match n with PyInt z => negb (z =? 0) | PyFloat x => negb (feq x zero) end.
Definition py_mul (a b : pynum) : outcome pynum :=
  match a, b with
  | PyInt x, PyInt y => Ret (PyInt (x * y))
  | _, _ => bind (as_float a) (fun x => bind (as_float b) (fun y => Ret (PyFloat (fmul x y))))
  end.
Definition py_add (a b : pynum) : outcome pynum :=
  match a, b with
  | PyInt x, PyInt y => Ret (PyInt (x + y))
  | _, _ => bind (as_float a) (fun x => bind (as_float b) (fun y => Ret (PyFloat (fadd x y))))
  end.
(** min(a, b): the second argument only if it is smaller *)
Definition py_min (a b : pynum) : pynum := if gt (exact a) (exact b) then b else a.

(** 219-223, attempt = 1, 2, ...; r is the result of random.random() *)
Definition delay_f (base max_delay jitter : pynum) (r : float) (attempt : nat) : outcome pynum :=
  bind (py_mul base (PyInt (2 ^ (Z.of_nat attempt - 1)))) (fun b =>
  let delay := py_min max_delay b in
  if nonzero jitter then
    bind (py_mul (PyFloat r) jitter) (fun j =>
    bind (py_add (PyInt 1) j) (fun f => py_mul delay f))
  else Ret delay).

(** 227-228: deadline - current_time() <= 0 *)
Definition out_of_time (deadline now : float) : bool := fle (fsub deadline now) zero.
