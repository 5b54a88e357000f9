(** Model of lcall and alcall on a list that changes while it is worked on.  Without input_flatten and input_dropna a
    list is not copied (ln/_list_call.py:80-85, ln/_async_call.py:120-142), and `for` reads it by position. *)
From Coq Require Import List Bool Arith.
From Verif Require Import PyBase.
Import ListNotations.

(** ** lcall, ln/_list_call.py:87-98 *)
Section Lcall.
  Context {W A B : Type}.
  (** The list as it is, and a call of the function, which may change everything. *)
  Variable view : W -> list A.
  Variable call : A -> W -> W * outcome B.

  (** From position [i] in [w]: the items called, the results so far, the world and the outcome at the end. *)
  Inductive lloop : nat -> W -> list A -> list B -> W -> outcome unit -> Prop :=
  | ll_end i w : nth_error (view w) i = None -> lloop i w [] [] w (Ret tt)
  | ll_call i w x w' b xs bs w2 r : nth_error (view w) i = Some x -> call x w = (w', Ret b) ->
      lloop (S i) w' xs bs w2 r -> lloop i w (x :: xs) (b :: bs) w2 r
  | ll_fail i w x w' e : nth_error (view w) i = Some x -> call x w = (w', Raise e) -> lloop i w [x] [] w' (Raise e).
End Lcall.

(** ** alcall, ln/_async_call.py:201-231, before its output options.
    The attempts of execute_task are one answer (see ModelAsyncCall); cancellation from outside is left out. *)
Inductive answer (B : Type) := AOk (b : B) | AErr (e : exn) | ACancelled | ANotStarted.
Arguments AOk {B}. Arguments AErr {B}. Arguments ACancelled {B}. Arguments ANotStarted {B}.
Inductive slot (B : Type) := SNone | SRes (b : B) | SExc (e : exn) | SCancelled.
Arguments SNone {B}. Arguments SRes {B}. Arguments SExc {B}. Arguments SCancelled {B}.
Inductive apc (B : Type) :=
| ASpawn                    (* at the head of the for loop, 221 *)
| APause                    (* sleeping, 225 *)
| AJoin                     (* leaving the task group *)
| ADone (r : list (slot B) + list exn).   (* returned, or raised a group *)
Arguments ASpawn {B}. Arguments APause {B}. Arguments AJoin {B}. Arguments ADone {B}.

Fixpoint set_nth {T} (l : list T) (i : nat) (v : T) : list T :=
  match l, i with
  | [], _ => []
  | _ :: t, 0 => v :: t
  | x :: t, S j => x :: set_nth t j v
  end.

Section Alcall.
  Context {A B : Type}.
  Variable rexc throttle : bool.     (* return_exceptions; throttle_period is neither None nor 0 *)
  Variable n : nat.                  (* n_items, 202 *)

  (** [a_took]: the items spawned so far; [a_log]: the tasks that have ended. *)
  Record acfg := AC {
    a_list : list A; a_idx : nat; a_run : list (nat * A); a_out : list (slot B); a_errs : list exn;
    a_took : list A; a_log : list (nat * A * answer B); a_pc : apc B
  }.
  Definition ainit (l : list A) : acfg := AC l 0 [] (repeat SNone (length l)) [] [] [] ASpawn.

  (** 205-216: what the end of task [i] does to [out], and what it raises.  out[idx] is out of range for [n <= i]. *)
  Definition settle (i : nat) (a : answer B) (out : list (slot B)) (errs : list exn) : list (slot B) * list exn :=
    match a with
    | ANotStarted => (out, errs)
    | _ =>
        if i <? n then
          match a with
          | AOk b => (set_nth out i (SRes b), errs)
          | AErr e => (set_nth out i (SExc e), if rexc then errs else errs ++ [e])
          | _ => (set_nth out i SCancelled, errs)
          end
        else (out, errs ++ [IndexError])
    end.
  (** Tasks are cancelled once one of them has failed. *)
  Definition possible (a : answer B) (errs : list exn) : Prop :=
    match a with ACancelled | ANotStarted => errs <> [] | _ => True end.

  Inductive astep : acfg -> acfg -> Prop :=
  (* 221-225 *)
  | as_spawn l i run out errs took log x : nth_error l i = Some x ->
      astep (AC l i run out errs took log ASpawn)
            (AC l (S i) (run ++ [(i, x)]) out errs (took ++ [x]) log (if throttle && (i <? n - 1) then APause else ASpawn))
  | as_end l i run out errs took log : nth_error l i = None ->
      astep (AC l i run out errs took log ASpawn) (AC l i run out errs took log AJoin)
  | as_resume l i run out errs took log :
      astep (AC l i run out errs took log APause) (AC l i run out errs took log ASpawn)
  | as_abort l i run out errs took log : errs <> [] ->
      astep (AC l i run out errs took log APause) (AC l i run out errs took log AJoin)
  (* the tasks and others, while the loop sleeps or waits *)
  | as_other l l' i run out errs took log pc : pc = APause \/ pc = AJoin ->
      astep (AC l i run out errs took log pc) (AC l' i run out errs took log pc)
  | as_task l i r1 k x r2 out errs took log pc a : pc = APause \/ pc = AJoin -> possible a errs ->
      astep (AC l i (r1 ++ (k, x) :: r2) out errs took log pc)
            (AC l i (r1 ++ r2) (fst (settle k a out errs)) (snd (settle k a out errs)) took (log ++ [(k, x, a)]) pc)
  (* 226-239 *)
  | as_return l i out errs took log : errs = [] \/ rexc = true ->
      astep (AC l i [] out errs took log AJoin) (AC l i [] out errs took log (ADone (inl out)))
  | as_raise l i out errs took log : errs <> [] -> rexc = false ->
      astep (AC l i [] out errs took log AJoin) (AC l i [] out errs took log (ADone (inr errs))).

  (** Runs all of whose configurations satisfy [P]. *)
  Inductive aruns (P : acfg -> Prop) : acfg -> acfg -> Prop :=
  | ar_refl c : P c -> aruns P c c
  | ar_step c d e : P c -> astep c d -> aruns P d e -> aruns P c e.
End Alcall.
