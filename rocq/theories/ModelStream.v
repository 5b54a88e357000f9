(** race and CompletionStream (libs/concurrency/_patterns.py:62-84, 130-196).

    Assumed of anyio: what ModelGroup states about task groups; a memory object
    stream of capacity 0 serves waiting senders in the order in which they sent;
    one of capacity n is a FIFO buffer; every stream operation raises the
    cancellation when the group it runs in is cancelled.

    How each awaitable ends is an input, and so are the interleaving, a
    cancellation of the caller from outside, and an error raised by the consumer's
    block.  Assumed of the consumer: it does not catch the cancellation. *)
From Coq Require Import String.
From Coq Require Import List Bool Arith ZArith.
From Verif Require Import PyBase ModelHeap ModelExc ModelGroup.
Import ListNotations.
Local Open Scope string_scope.
Local Open Scope nat_scope.
Local Open Scope list_scope.

Section Stream.
Context {V : Type}.
Notation res := (res V).

(** ** race, _patterns.py:62-84 *)
Inductive rpc := RRun | RSend | RDone.

Record rst := {
  r_tasks : list rpc;
  r_queue : list (nat * res);   (* waiting senders, in order; res = (ok, payload) *)
  r_first : option res;         (* what the parent received (78) *)
  r_outer : bool;               (* the caller of race was cancelled *)
  r_log : list (nat * res)      (* awaitables that ended, in order *)
}.

Inductive rop :=
| RAwaited (i : nat) (r : res)  (* awaitable i ends with r (70, 72) *)
| RReceive                      (* the parent receives (78) and cancels the rest (79) *)
| RCancelled (i : nat)          (* sender i, cancelled, ends *)
| ROuter.                       (* the caller of race is cancelled *)

Definition rinit (n : nat) : outcome rst :=
  if n =? 0 then Raise ValueError                                            (* 64-65 *)
  else Ret (Build_rst (repeat RRun n) [] None false []).

(** The group is cancelled: by line 79 or from outside. *)
Definition r_over (s : rst) : bool := match r_first s with Some _ => true | None => r_outer s end.

Definition rstep (s : rst) (a : rop) : rst :=
  match a with
  | RAwaited i r =>
      match nth_error (r_tasks s) i with
      | Some RRun =>
          if r_over s
          then             (* the send raises the cancellation, in 71 and again in 73 *)
            Build_rst (upd i RDone (r_tasks s)) (r_queue s) (r_first s) (r_outer s) (r_log s ++ [(i, r)])
          else                                                               (* 71, 73 *)
            Build_rst (upd i RSend (r_tasks s)) (r_queue s ++ [(i, r)]) (r_first s) (r_outer s) (r_log s ++ [(i, r)])
      | _ => s
      end
  | RReceive =>
      match r_over s, r_queue s with
      | false, (i, r) :: q => Build_rst (upd i RDone (r_tasks s)) q (Some r) (r_outer s) (r_log s)
      | _, _ => s
      end
  | RCancelled i =>
      match r_over s, nth_error (r_tasks s) i with
      | true, Some RSend =>
          Build_rst (upd i RDone (r_tasks s)) (filter (fun p => negb (fst p =? i)) (r_queue s)) (r_first s) (r_outer s) (r_log s)
      | _, _ => s
      end
  | ROuter => Build_rst (r_tasks s) (r_queue s) (r_first s) true (r_log s)
  end.
Definition rrun (s : rst) (ops : list rop) : rst := fold_left rstep ops s.

Definition r_done (p : rpc) : bool := match p with RDone => true | _ => false end.
Inductive rresult := RPending | RReturn (v : V) | RRaise (e : pyexc).
(** 81-84; the group waits for all its children.  A cancellation from outside
    is raised there, or when the streams are closed (75). *)
Definition rfinal (s : rst) : rresult :=
  if forallb r_done (r_tasks s) then
    if r_outer s then RRaise (Cancelled EmptyString) else
    match r_first s with
    | Some (Val v) => RReturn v
    | Some (Err e) => RRaise e
    | None => RPending
    end
  else RPending.

(** ** CompletionStream, _patterns.py:130-196 *)
Inductive spc := SWait | SRun | SDone.
Inductive consumer := CReading | CLeft.   (* in the async with block / in __aexit__ *)

Record sst := {
  s_tasks : list spc;
  s_free : nat;
  s_buf : list (nat * V);       (* the stream; its capacity n is never reached *)
  s_got : list (nat * V);       (* what __anext__ has returned *)
  s_errs : list pyexc;
  s_cancel : bool;
  s_cons : consumer;
  s_begun : list nat;           (* awaitables started, in order *)
  s_done : list (nat * res);    (* awaitables that ended, in order *)
  s_outer : bool;               (* the caller was cancelled *)
  s_raised : option pyexc       (* what the block raised, other than a cancellation *)
}.

(** 148: a limit of None or 0 is no limit; CapacityLimiter refuses negative ones *)
Definition stream_limit (limit : option Z) : outcome (option nat) :=
  match limit with
  | None => Ret None
  | Some l => if (l =? 0)%Z then Ret None
              else if (l <? 0)%Z then Raise ValueError else Ret (Some (Z.to_nat l))
  end.

Variable lim : option nat.

Definition sinit (n : nat) : sst :=
  Build_sst (repeat SWait n) (match lim with Some l => l | None => 0 end) [] [] [] false CReading [] [] false None.

Inductive sop :=
| SStart (i : nat)              (* child i passes the limiter and awaits (151-154) *)
| SEnd (i : nat) (r : res)      (* awaitable i ends: send (157), or raise; release (162-164) *)
| SAbort (i : nat)              (* cancellation delivered to child i waiting for the limiter *)
| SNext                         (* the consumer calls __anext__ *)
| SLeave                        (* the consumer leaves the async with block *)
| SFail (e : pyexc)             (* the block raises e *)
| SOuter.                       (* the caller is cancelled *)

Inductive sout := SNone | SItem (p : nat * V) | SStop | SBlocked | SCancelled.

Definition sstep (s : sst) (a : sop) : sst * sout :=
  let 'Build_sst tasks free buf got errs canc who begun done outer raised := s in
  match a with
  | SStart i =>
      match nth_error tasks i with
      | Some SWait =>
          match lim with
          | Some _ => match free with
                      | 0 => (s, SNone)
                      | S f => (Build_sst (upd i SRun tasks) f buf got errs canc who (begun ++ [i]) done outer raised, SNone)
                      end
          | None => (Build_sst (upd i SRun tasks) free buf got errs canc who (begun ++ [i]) done outer raised, SNone)
          end
      | _ => (s, SNone)
      end
  | SEnd i r =>
      match nth_error tasks i with
      | Some SRun =>
          let free := match lim with Some _ => S free | None => free end in
          let tasks := upd i SDone tasks in
          let done := done ++ [(i, r)] in
          match r with
          | Val v =>
              (* in a cancelled group the send raises the cancellation *)
              (Build_sst tasks free (if canc then buf else buf ++ [(i, v)]) got errs canc who begun done outer raised, SNone)
          | Err e =>
              (Build_sst tasks free buf got (if is_cancelled e then errs else errs ++ [e]) true who begun done outer raised, SNone)
          end
      | _ => (s, SNone)
      end
  | SAbort i =>
      match canc, nth_error tasks i with
      | true, Some SWait => (Build_sst (upd i SDone tasks) free buf got errs canc who begun done outer raised, SNone)
      | _, _ => (s, SNone)
      end
  | SNext =>
      match who with
      | CLeft => (s, SNone)
      | CReading =>
          if length tasks <=? length got then (s, SStop)                      (* 188-189 *)
          else if canc then
            (Build_sst tasks free buf got errs canc CLeft begun done outer raised, SCancelled)
          else match buf with                                                 (* 192-194 *)
               | [] => (s, SBlocked)
               | p :: b => (Build_sst tasks free b (got ++ [p]) errs canc who begun done outer raised, SItem p)
               end
      end
  | SLeave =>
      match who with
      | CLeft => (s, SNone)
      | CReading => (Build_sst tasks free buf got errs canc CLeft begun done outer raised, SNone)
      end
  | SFail e =>                  (* __aexit__ of the group cancels the children and keeps e *)
      match who, is_cancelled e with
      | CReading, false =>
          (Build_sst tasks free buf got (errs ++ [e]) true CLeft begun done outer (Some e), SNone)
      | _, _ => (s, SNone)
      end
  | SOuter => (Build_sst tasks free buf got errs true who begun done true raised, SNone)
  end.

Fixpoint srun (s : sst) (ops : list sop) : sst * list sout :=
  match ops with
  | [] => (s, [])
  | a :: l => let '(s1, o) := sstep s a in let '(s2, os) := srun s1 l in (s2, o :: os)
  end.

Definition s_quiet (s : sst) : bool := forallb (fun p => match p with SDone => true | _ => false end) (s_tasks s).

Inductive sresult := XPending | XLeave | XRaise (e : pyexc).
(** __aexit__, 172-180: the group's __aexit__ waits for the children and raises
    what they and the block raised; unless the block raised, nothing is cancelled
    here (despite the comment at 173). *)
Definition sfinal (s : sst) : sresult :=
  match s_cons s with
  | CReading => XPending
  | CLeft =>
      if s_quiet s then
        match s_errs s with
        | [] => if s_outer s then XRaise (Cancelled EmptyString) else XLeave
        | l => XRaise (Group 0 group_msg l)
        end
      else XPending
  end.
End Stream.
Arguments rst : clear implicits.
Arguments rop : clear implicits.
Arguments rresult : clear implicits.
Arguments sst : clear implicits.
Arguments sop : clear implicits.
Arguments sout : clear implicits.
