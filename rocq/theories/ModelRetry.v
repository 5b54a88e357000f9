(** retry (libs/concurrency/_patterns.py:199-238) and bcall
    (ln/_async_call.py:244-266).

    Inputs of retry besides its arguments, all arbitrary: how the k-th call ends,
    the k-th random number, the two clock readings after the k-th failure, and
    an exception delivered during the k-th sleep (outer cancellation).  Numbers
    are rationals; the one effect of floats kept is that multiplying a float by
    an int of 2^1024 or more raises OverflowError. *)
From Coq Require Import String.
From Coq Require Import List Bool Arith ZArith QArith Qminmax.
From Verif Require Import PyBase ModelExc ModelGroup.
Import ListNotations.
Local Close Scope Q_scope.
Local Open Scope string_scope.
Local Open Scope nat_scope.
Local Open Scope list_scope.

Section Retry.
Context {V : Type}.

Record rcfg := {
  y_attempts : Z;
  y_base : Q;
  y_float : bool;               (* base_delay is a float (not an int) *)
  y_max : Q;
  y_jitter : Q;
  y_retry_on : pyexc -> bool;   (* isinstance(exc, retry_on) *)
  y_deadline : option Q         (* effective_deadline() at 210 *)
}.

Record world := {
  w_call : nat -> res V;        (* how call number k ends (k = 1, 2, ...) *)
  w_random : nat -> Q;
  w_before : nat -> Q;          (* current_time() at 227 *)
  w_after : nat -> Q;           (* current_time() at 235 *)
  w_sleep : nat -> option pyexc (* raised by the sleep *)
}.

Inductive rev := YCall (r : res V) | YSleep (d : Q).

Variable c : rcfg.
Variable w : world.

Fixpoint two (k : nat) : Q := match k with 0 => 1%Q | S k => (2 * two k)%Q end.

(** 219-223 *)
Definition y_delay (k : nat) : Q :=
  let delay := Qmin (y_max c) (y_base c * two (k - 1))%Q in
  if Qeq_bool (y_jitter c) 0 then delay else (delay * (1 + w_random w k * y_jitter c))%Q.

Definition overflow : pyexc := Plain "OverflowError" "int too large to convert to float".

(** 211-238; [k] is the number of the next call, attempt = k - 1 before it *)
Fixpoint retry_loop (fuel : nat) (k : nat) : list rev * option (res V) :=
  match fuel with
  | 0 => ([], None)
  | S fuel =>
      let r := w_call w k in
      match r with
      | Val v => ([YCall r], Some (Val v))
      | Err e =>
          if negb (y_retry_on c e) then ([YCall r], Some (Err e))
          else if (y_attempts c <=? Z.of_nat k)%Z then ([YCall r], Some (Err e))   (* 216-217 *)
          else if y_float c && (1024 <=? k - 1) then ([YCall r], Some (Err overflow))
          else
            let sleep := YSleep (y_delay k) in
            match y_deadline c with
            | Some dl =>
                if Qle_bool (dl - w_before w k)%Q 0 then ([YCall r], Some (Err e)) (* 228-230 *)
                else match w_sleep w k with
                     | Some x => ([YCall r; sleep], Some (Err x))
                     | None =>
                         if Qle_bool dl (w_after w k) then ([YCall r; sleep], Some (Err e))  (* 235-236 *)
                         else let '(l, o) := retry_loop fuel (S k) in (YCall r :: sleep :: l, o)
                     end
            | None =>
                match w_sleep w k with
                | Some x => ([YCall r; sleep], Some (Err x))
                | None => let '(l, o) := retry_loop fuel (S k) in (YCall r :: sleep :: l, o)
                end
            end
      end
  end.

(** The loop runs at most max 1 attempts times; ProofsRetry shows that this fuel
    is never used up. *)
Definition retry_run : list rev * option (res V) := retry_loop (S (Z.to_nat (y_attempts c))) 1.
End Retry.
Arguments rev : clear implicits.
Arguments world : clear implicits.

(** ** bcall, _async_call.py:262-266, on the list that to_list returned *)
Section Bcall.
Context {A B : Type}.

(** range(0, n, step) *)
Definition range0 (n : nat) (step : Z) : outcome (list nat) :=
  if (step =? 0)%Z then Raise ValueError
  else if (step <? 0)%Z then Ret []
  else let st := Z.to_nat step in
       Ret (map (fun j => j * st) (seq 0 ((n + st - 1) / st))).

(** input_[i : i + batch_size] for 0 <= i, 0 < batch_size *)
Definition batch_at (l : list A) (size i : nat) : list A := firstn size (skipn i l).

(** Consuming the generator: [run] is alcall on one batch, [k] the number of
    __anext__ calls.  Yields the results in order until the first that raises. *)
Fixpoint yield_all (run : list A -> outcome B) (bs : list (list A)) (k : nat) : list (list A) * list B * option exn :=
  match k, bs with
  | S k, b :: bs =>
      match run b with
      | Raise e => ([b], [], Some e)
      | Ret y => let '(h, ys, e) := yield_all run bs k in (b :: h, y :: ys, e)
      end
  | _, _ => ([], [], None)
  end.

Definition bcall (run : list A -> outcome B) (l : list A) (batch_size : Z) (k : nat)
  : list (list A) * list B * option exn :=
  match range0 (length l) batch_size with
  | Raise e => ([], [], match k with 0 => None | _ => Some e end)
  | Ret is => yield_all run (map (batch_at l (Z.to_nat batch_size)) is) k
  end.
End Bcall.
