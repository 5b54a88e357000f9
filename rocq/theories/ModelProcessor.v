(** Model of base/processor.py: classes Processor and Executor, as interleaved tasks.
    A task runs without interruption up to its next suspension point.  The processor's
    priority queue is the heap of [ModelHeap] (its own lock never blocks for long and
    it is unbounded, so [put] is one step and [get] waits while it is empty; see C27).
    Priorities are integers, so adding a backoff is exact.  Left out: stream() bodies
    and user code other than by their results, cancellation of process() itself,
    direct access to [executor.states], the type checks of the pile. *)
From Coq Require Import List Bool Arith ZArith.
From Verif Require Import PyBase ModelHeap ModelEvent.
Import ListNotations.

Definition all_status : list status :=
  [PENDING; PROCESSING; COMPLETED; FAILED; CANCELLED; SKIPPED; ABORTED].

(** Queue entries are tuples (priority, id), compared lexicographically. *)
Definition qlt (a b : Z * uuid) : bool :=
  (fst a <? fst b)%Z || ((fst a =? fst b)%Z && (snd a <? snd b)).

Record cfg := Cfg { k_cap : nat; k_conc : nat; k_maxq : nat; k_maxd : nat }.

Record ev := Ev { v_created : Z; v_stream : bool; v_status : status }.

(** The priority argument; [PBad] is NaN or an infinity. *)
Inductive prio := PNone | PVal (z : Z) | PBad.

(** Where a task is. [l] in AErr: events it was to enqueue and did not. *)
Inductive tpc :=
| APut (p : Z) (id : uuid)                        (* append/enqueue, in queue.put *)
| ABackPut (p : Z) (id : uuid) (rest : list uuid) (* start, backfilling *)
| LGet (n : nat)                                  (* process, in queue.get; n started *)
| LPerm (n : nat) (p : Z) (id : uuid)             (* in request_permission *)
| LUpd (n : nat) (id : uuid)                      (* granted, about to be moved *)
| LAbort (n : nat) (id : uuid)                    (* third denial *)
| LRequeue (n : nat) (p : Z) (id : uuid)
| LJoin (n : nat)                                 (* leaving the task group *)
| KSem (par : nat) (id : uuid)                    (* child waiting for the semaphore *)
| KRun (par : nat) (id : uuid) (mine : bool)      (* running; mine: it started the event *)
| KUpd (par : nat) (id : uuid)                    (* about to be moved to its final status *)
| KDone (par : nat) (id : uuid)
| ADone
| AErr (e : exn) (l : list uuid).

Record pst := PSt {
  objs : dict uuid ev;             (* event objects *)
  items : list uuid;               (* executor.states.items *)
  progs : status -> list uuid;     (* the seven progressions *)
  started : bool;                  (* executor.processor exists *)
  queue : list (Z * uuid);
  denial : dict uuid nat;
  avail : Z;
  stopped : bool;
  sem : nat;
  tasks : list tpc
}.

Definition pst0 (k : cfg) : pst :=
  PSt [] [] (fun _ => []) false [] [] (Z.of_nat (k_cap k)) false (k_conc k) [].

(** Field updates. *)
Definition w_progs (s : pst) f := PSt (objs s) (items s) f (started s) (queue s) (denial s) (avail s) (stopped s) (sem s) (tasks s).
Definition w_queue (s : pst) q := PSt (objs s) (items s) (progs s) (started s) q (denial s) (avail s) (stopped s) (sem s) (tasks s).
Definition w_denial (s : pst) d := PSt (objs s) (items s) (progs s) (started s) (queue s) d (avail s) (stopped s) (sem s) (tasks s).
Definition w_avail (s : pst) a := PSt (objs s) (items s) (progs s) (started s) (queue s) (denial s) a (stopped s) (sem s) (tasks s).
Definition w_stop (s : pst) b := PSt (objs s) (items s) (progs s) (started s) (queue s) (denial s) (avail s) b (sem s) (tasks s).
Definition w_sem (s : pst) n := PSt (objs s) (items s) (progs s) (started s) (queue s) (denial s) (avail s) (stopped s) n (tasks s).
Definition w_tasks (s : pst) l := PSt (objs s) (items s) (progs s) (started s) (queue s) (denial s) (avail s) (stopped s) (sem s) l.
Definition w_objs (s : pst) o := PSt o (items s) (progs s) (started s) (queue s) (denial s) (avail s) (stopped s) (sem s) (tasks s).
Definition w_items (s : pst) l f := PSt (objs s) l f (started s) (queue s) (denial s) (avail s) (stopped s) (sem s) (tasks s).
Definition w_started (s : pst) := PSt (objs s) (items s) (progs s) true (queue s) (denial s) (avail s) (stopped s) (sem s) (tasks s).

Definition set_task (s : pst) (t : nat) (p : tpc) : pst := w_tasks s (upd t p (tasks s)).
Definition new_task (s : pst) (p : tpc) : pst := w_tasks s (tasks s ++ [p]).

Definition strip1 (id : uuid) (l : list uuid) : list uuid :=
  match remove_first id l with Some l' => l' | None => l end.

(** processor.py:385-414 Executor._update_progression *)
Definition move_to (id : uuid) (target : status) (f : status -> list uuid) : status -> list uuid :=
  fun s => if eqb s target then strip1 id (f s) ++ [id] else strip1 id (f s).

Definition status_of (s : pst) (id : uuid) : status :=
  match dget id (objs s) with Some e => v_status e | None => PENDING end.
Definition set_status (s : pst) (id : uuid) (x : status) : pst :=
  match dget id (objs s) with
  | Some e => w_objs s (dset id (Ev (v_created e) (v_stream e) x) (objs s))
  | None => s
  end.
Definition streaming (s : pst) (id : uuid) : bool :=
  match dget id (objs s) with Some e => v_stream e | None => false end.

Section Steps.
  Variable k : cfg.

  Definition push (s : pst) (p : Z) (id : uuid) : pst := w_queue s (heappush qlt (queue s) (p, id)).

  (** processor.py:139-156 enqueue up to queue.put *)
  Definition enq_check (s : pst) (id : uuid) (p : prio) : outcome Z :=
    if k_maxq k <=? length (queue s) then Raise QueueFullError
    else match p with
         | PNone => if memb id (items s) then
                      match dget id (objs s) with Some e => Ret (v_created e) | None => Raise NotFoundError end
                    else Raise NotFoundError
         | PVal z => Ret z
         | PBad => Raise ValueError
         end.

  (** processor.py:426-428: the rest of start() *)
  Definition back (s : pst) (ids : list uuid) : pst * tpc :=
    match ids with
    | [] => (w_stop s false, ADone)
    | id :: rest => match enq_check s id PNone with
                    | Raise e => (s, AErr e ids)
                    | Ret p => (s, ABackPut p id rest)
                    end
    end.

  (** processor.py:233 *)
  Definition top (s : pst) (n : nat) : tpc :=
    if (0 <? avail s)%Z && negb (length (queue s) =? 0) then LGet n else LJoin n.

  Inductive cmd :=
  | CAppend (id : uuid) (e : ev) (p : prio)   (* Executor.append *)
  | CEnqueue (id : uuid) (p : prio)           (* Processor.enqueue called directly *)
  | CStart | CForward.

  Inductive action :=
  | Spawn (c : cmd)
  | Step (t : nat)
  | Grant (t : nat) (b : bool)                (* request_permission answers *)
  | Finish (t : nat) (x : status)             (* the event's operation ends *)
  | Cleanup (l : list status)
  | Stop.

  Definition spawn (s : pst) (c : cmd) : pst :=
    match c with
    | CAppend id e p =>                                         (* 443-453 *)
        if memb id (items s) then new_task s (AErr ExistsError [])
        else
          let s1 := w_items s (items s ++ [id])
                      (fun x => if eqb x PENDING then progs s x ++ [id] else progs s x) in
          let s2 := if dmem id (objs s) then s1 else w_objs s1 (dset id e (objs s)) in
          if started s then
            match enq_check s2 id p with
            | Raise x => new_task s2 (AErr x [id])
            | Ret z => new_task s2 (APut z id)
            end
          else new_task s2 ADone
    | CEnqueue id p =>
        if started s then
          match enq_check s id p with
          | Raise x => new_task s (AErr x [id])
          | Ret z => new_task s (APut z id)
          end
        else s
    | CStart =>                                                 (* 421-428 *)
        if started s then new_task (w_stop s false) ADone
        else
          let s1 := w_started s in
          if forallb (fun id => memb id (items s)) (progs s PENDING)
          then let (s2, p) := back s1 (progs s PENDING) in new_task s2 p
          else new_task s1 (AErr NotFoundError (progs s PENDING))
    | CForward =>                                               (* 416-419 *)
        if started s then new_task s (top s 0) else new_task s ADone
    end.

  (** processor.py:287-289 *)
  Definition evict (s : pst) : dict uuid nat :=
    if k_maxd k <=? length (denial s) then
      match denial s with (old, _) :: _ => ddel old (denial s) | [] => denial s end
    else denial s.
  Definition strikes (d : dict uuid nat) (id : uuid) : nat :=
    match dget id d with Some c => c | None => 0 end.

  Definition child_of (t : nat) (p : tpc) : bool :=
    match p with KSem u _ | KRun u _ _ | KUpd u _ => u =? t | _ => false end.

  Definition step (s : pst) (t : nat) : pst :=
    match nth_error (tasks s) t with
    | Some (APut p id) => set_task (push s p id) t ADone                      (* 158 *)
    | Some (ABackPut p id rest) =>
        let (s1, q) := back (push s p id) rest in set_task s1 t q
    | Some (LGet n) =>                                                        (* 235-243 *)
        match heappop qlt (queue s) with
        | None => s
        | Some ((p, id), h) =>
            let s1 := w_queue s h in
            if memb id (items s) then set_task s1 t (LPerm n p id)
            else let s2 := w_denial s1 (ddel id (denial s)) in set_task s2 t (top s2 n)
        end
    | Some (LUpd n id) =>                                                     (* 251-283 *)
        let s1 := w_avail (w_progs s (move_to id PROCESSING (progs s))) (avail s - 1)%Z in
        new_task (set_task s1 t (top s1 (S n))) (KSem t id)
    | Some (LAbort n id) =>                                                   (* 296-298 *)
        set_task (w_denial (w_progs s (move_to id ABORTED (progs s))) (ddel id (denial s))) t (LJoin n)
    | Some (LRequeue n p id) => set_task (push s p id) t (LJoin n)            (* 303-305 *)
    | Some (LJoin n) =>                                                       (* 307-309 *)
        if existsb (child_of t) (tasks s) then s
        else set_task (if 0 <? n then w_avail s (Z.of_nat (k_cap k)) else s) t ADone
    | Some (KSem par id) =>                                                   (* 315-319 *)
        match sem s with
        | O => s
        | S m =>
            let s1 := w_sem s m in
            if negb (streaming s id) && eqb (status_of s id) PENDING
            then set_task (set_status s1 id PROCESSING) t (KRun par id true)
            else set_task s1 t (KRun par id false)
        end
    | Some (KUpd par id) =>                                                   (* 276-277, 261-266 *)
        set_task (w_sem (w_progs s (move_to id (status_of s id) (progs s))) (S (sem s))) t (KDone par id)
    | _ => s
    end.

  Definition grant (s : pst) (t : nat) (b : bool) : pst :=
    match nth_error (tasks s) t with
    | Some (LPerm n p id) =>
        if b then set_task (w_denial s (ddel id (denial s))) t (LUpd n id)    (* 246-248 *)
        else                                                                  (* 285-305 *)
          let d := evict s in
          let c := S (strikes d id) in
          let s1 := w_denial s (dset id c d) in
          if 3 <=? c then set_task s1 t (LAbort n id)
          else set_task s1 t (LRequeue n (p + Z.of_nat c)%Z id)
    | _ => s
    end.

  (** event.invoke() ending, by C24; a second invoke of the same event waits for the
      first and is a no-op (C23), as is one of an event that is not pending.  Streaming
      events end in whatever status their stream() leaves. *)
  Definition runs (id : uuid) (p : tpc) : bool := match p with KRun _ u true => u =? id | _ => false end.
  Definition finish_ev (s : pst) (t : nat) (x : status) : pst :=
    match nth_error (tasks s) t with
    | Some (KRun par id mine) =>
        if streaming s id then set_task (set_status s id x) t (KUpd par id)
        else if mine then
          match x with
          | COMPLETED | FAILED | CANCELLED => set_task (set_status s id x) t (KUpd par id)
          | _ => s
          end
        else if existsb (runs id) (tasks s) then s
        else set_task s t (KUpd par id)
    | _ => s
    end.

  (** processor.py:492-527 *)
  Fixpoint clean_ids (s : pst) (ids : list uuid) (n : nat) : pst * outcome nat :=
    match ids with
    | [] => (s, Ret n)
    | id :: t =>
        let d := if started s then ddel id (denial s) else denial s in
        let f := fun x => strip1 id (progs s x) in
        match remove_first id (items s) with
        | Some l => clean_ids (w_items (w_denial s d) l f) t (S n)
        | None => (w_items (w_denial s d) (items s) f, Raise NotFoundError)
        end
    end.
  Fixpoint cleanup (s : pst) (l : list status) (n : nat) : pst * outcome nat :=
    match l with
    | [] => (s, Ret n)
    | x :: t =>
        if forallb (fun id => memb id (items s)) (progs s x) then
          match clean_ids s (progs s x) n with
          | (s', Ret m) => cleanup s' t m
          | (s', Raise e) => (s', Raise e)
          end
        else (s, Raise NotFoundError)
    end.
  (** 512-513: without argument *)
  Definition cleanup_default : list status := [COMPLETED; FAILED; ABORTED].

  Definition pact (s : pst) (a : action) : pst :=
    match a with
    | Spawn c => spawn s c
    | Step t => step s t
    | Grant t b => grant s t b
    | Finish t x => finish_ev s t x
    | Cleanup l => fst (cleanup s l 0)
    | Stop => if started s then w_denial (w_stop s true) [] else s   (* 174-180, 430-433 *)
    end.

  Definition pexec (s : pst) (l : list action) : pst := fold_left pact l s.
End Steps.

(** processor.py:455-466, 488-490 *)
Definition events_by_status (s : pst) (x : status) : outcome (list uuid) :=
  if forallb (fun id => memb id (items s)) (progs s x) then Ret (progs s x) else Raise NotFoundError.
Definition status_counts (s : pst) : list (status * nat) :=
  map (fun x => (x, length (progs s x))) all_status.
