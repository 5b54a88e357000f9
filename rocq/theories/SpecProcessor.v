(** Vocabulary for statements about processor and executor. *)
From Coq Require Import List Bool Arith ZArith Permutation.
From Verif Require Import PyBase ModelHeap ModelEvent ModelProcessor.
Import ListNotations.

(** States reachable by any interleaving, optionally under a restriction on actions. *)
Definition reach (k : cfg) (ok : action -> Prop) (s : pst) : Prop :=
  exists l, Forall ok l /\ s = pexec k (pst0 k) l.

(** Normal use: events enter through append/start only and not in the middle of being
    processed, and events still pending or processing are not cleaned away. *)
Definition normal (a : action) : Prop :=
  match a with
  | Spawn (CEnqueue _ _) => False
  | Spawn (CAppend _ e _) => v_status e <> PROCESSING
  | Cleanup l => ~ In PENDING l /\ ~ In PROCESSING l
  | _ => True
  end.
Definition anything (a : action) : Prop := True.

Definition in_progs (s : pst) : list uuid := flat_map (progs s) all_status.
Definition in_progs_of (f : status -> list uuid) : list uuid := flat_map f all_status.

(** Events a task still has to bring into the queue or is deciding on; events it
    runs. *)
Definition early (p : tpc) : list uuid :=
  match p with
  | APut _ id | LPerm _ _ id | LUpd _ id | LAbort _ id | LRequeue _ _ id => [id]
  | ABackPut _ id rest => id :: rest
  | _ => []
  end.
Definition late (p : tpc) : list uuid :=
  match p with KSem _ id | KRun _ id _ | KUpd _ id => [id] | _ => [] end.
Definition waiting_ids (s : pst) : list uuid := map snd (queue s) ++ flat_map early (tasks s).
Definition running_ids (s : pst) : list uuid := flat_map late (tasks s).

(** Events given up by a call that raised, and events whose run is over. *)
Definition refused (p : tpc) : list uuid := match p with AErr _ l => l | _ => [] end.
Definition over (p : tpc) : list uuid := match p with KDone _ id => [id] | _ => [] end.

(** Children holding the semaphore. *)
Definition holds (p : tpc) : bool := match p with KRun _ _ _ | KUpd _ _ => true | _ => false end.
Definition is_loop (p : tpc) : bool :=
  match p with LGet _ | LPerm _ _ _ | LUpd _ _ | LAbort _ _ | LRequeue _ _ _ | LJoin _ => true | _ => false end.
Definition loop_count (p : tpc) : nat :=
  match p with
  | LGet n | LPerm n _ _ | LUpd n _ | LAbort n _ | LRequeue n _ _ | LJoin n => n
  | _ => 0
  end.
(** Tasks that are about to put, or may put back, an entry. *)
Definition inflight (p : tpc) : bool :=
  match p with
  | APut _ _ | ABackPut _ _ _ | LPerm _ _ _ | LUpd _ _ | LAbort _ _ | LRequeue _ _ _ => true
  | _ => false
  end.
(** Events started by process() call [t], still running or not. *)
Definition started_by (t : nat) (p : tpc) : bool :=
  match p with KSem u _ | KRun u _ _ | KUpd u _ | KDone u _ => u =? t | _ => false end.
Definition countp (f : tpc -> bool) (s : pst) : nat := length (filter f (tasks s)).

(** A run all of whose states satisfy [P]. *)
Fixpoint always (k : cfg) (P : pst -> Prop) (s : pst) (l : list action) : Prop :=
  P s /\ match l with [] => True | a :: t => always k P (pact k s a) t end.

(** Consecutive denials of [id] along a run: a denial counts one more, a permission,
    an abort, stop() and the removal of the event reset it. *)
Definition decision (s : pst) (a : action) (id : uuid) : option bool :=
  match a with
  | Grant t b => match nth_error (tasks s) t with
                 | Some (LPerm _ _ u) => if u =? id then Some b else None
                 | _ => None
                 end
  | _ => None
  end.
Definition aborting (s : pst) (a : action) (id : uuid) : bool :=
  match a with
  | Step t => match nth_error (tasks s) t with Some (LAbort _ u) => u =? id | _ => false end
  | Stop => true
  | _ => false
  end.
Fixpoint denials (k : cfg) (id : uuid) (s : pst) (l : list action) (c : nat) : nat :=
  match l with
  | [] => c
  | a :: t =>
      let s' := pact k s a in
      denials k id s' t
        (match decision s a id with
         | Some true => 0
         | Some false => S c
         | None => if aborting s a id then 0 else if memb id (items s') then c else 0
         end)
  end.
