(** Model of base/flow.py under threads: any number of threads share one Flow.

    Granularity: one dict, list or pile operation per step (the piles have their own locks, C09).
    add_progression, remove_progression and get_progression are @synchronized (flow.py:180-240):
    they hold the flow's lock.  add_item and remove_item (flow.py:244-296) hold no lock, except
    that add_item calls get_progression.  Simplifications: items are ids (type checks are left
    out); a progression that the flow no longer holds is not followed (appending to it or removing
    from it has no effect on the flow); a progression is found again by its id; get_progression
    is not called with a progression (it would filter, see ModelFlow.filter_progs). *)
From Coq Require Import String.
From Coq Require Import List Bool Arith.
From Verif Require Import PyBase ModelProgression ModelFlow.
Import ListNotations.

Definition tid := nat.

Record store := Store {
  items : list uuid;
  progs : dict uuid prog;
  names : dict string uuid
}.
Definition set_items (x : list uuid) (s : store) : store := Store x (progs s) (names s).
Definition set_progs (x : dict uuid prog) (s : store) : store := Store (items s) x (names s).
Definition set_names (x : dict string uuid) (s : store) : store := Store (items s) (progs s) x.

(** A progression: by a text (with its parse as an id), by id, or the stored object. *)
Inductive pref := ByText (s : string) (parsed : option uuid) | ById (u : uuid) | ByObj (u : uuid).

Inductive call :=
| AddProg (p : prog) | RemProg (r : pref) | GetProg (r : pref)
| AddItem (x : uuid) (rs : list pref) | RemItem (x : uuid).

Inductive pc :=
| Idle
| Want (c : call)                              (* a locked method waits for the lock *)
| AP1 (p : prog)                               (* flow.py:184: name taken? *)
| AP2 (p : prog)                               (* 190-195: references *)
| AP3 (p : prog)                               (* 198: progressions.add *)
| AP4 (p : prog)                               (* 201-202: names[name] = id *)
| RP1 (r : pref)                               (* 208: a known name? *)
| RP2 (s : string) (u : uuid)                  (* 210: del names[s] *)
| RP3 (u : uuid)                               (* 212: check *)
| RP4 (u : uuid)                               (* 213, 221: progressions.remove *)
| RQ1 (u : uuid)                               (* 217: check *)
| RQ2 (u : uuid) (n : option string)           (* 219-220: del names[prog.name] *)
| GP1 (r : pref)                               (* 228: a known name? *)
| GP2 (u : uuid)                               (* 230, 235, 240: progressions[u] *)
| AI0 (x : uuid) (rs : list pref)              (* 258: items.add *)
| AI1 (x : uuid) (rs : list pref)              (* 268: next progression *)
| AIW (x : uuid) (r : pref) (rs : list pref)   (* 273: get_progression waits for the lock *)
| AIG (x : uuid) (r : pref) (rs : list pref)   (* 228 inside get_progression *)
| AIH (x : uuid) (u : uuid) (rs : list pref)   (* 230, 235, 240 inside get_progression *)
| AIA (x : uuid) (u : uuid) (rs : list pref)   (* 271, 273: append *)
| RI1 (x : uuid) (i : nat)                     (* 289: next id of the progressions pile *)
| RI2 (x : uuid) (i : nat) (u : uuid)          (* 289: its progression *)
| RI3 (x : uuid) (i : nat) (u : uuid)          (* 290: x in progression? *)
| RI4 (x : uuid) (i : nat) (u : uuid)          (* 291: progression.remove(x) *)
| RI5 (x : uuid).                              (* 294: items.remove *)

Inductive answer := OK | Prog_ (p : prog) | Item (x : uuid).

Record cfg := Cfg {
  st : store;
  lock : option tid;
  pcs : tid -> pc;
  log : list (tid * outcome answer)            (* calls that ended, in order *)
}.

Definition upd (f : tid -> pc) (t : tid) (x : pc) : tid -> pc := fun t' => if t' =? t then x else f t'.
(** A step to another program point, one that ends the call, one that also lets the lock go. *)
Definition to (c : cfg) (t : tid) (s : store) (x : pc) : cfg := Cfg s (lock c) (upd (pcs c) t x) (log c).
Definition stop (c : cfg) (t : tid) (s : store) (a : outcome answer) : cfg :=
  Cfg s (lock c) (upd (pcs c) t Idle) (log c ++ [(t, a)]).
Definition free (c : cfg) : cfg := Cfg (st c) None (pcs c) (log c).
Definition take (c : cfg) (t : tid) (x : pc) : cfg :=
  match lock c with
  | None => Cfg (st c) (Some t) (upd (pcs c) t x) (log c)
  | Some _ => c
  end.

Definition missing (s : store) (p : prog) : bool := existsb (fun u => negb (memb u (items s))) (pg_order p).

(** What thread [t] does next; [a] is the call it makes if it is idle. *)
Definition tstep (c : cfg) (t : tid) (a : call) : cfg :=
  let s := st c in
  match pcs c t with
  | Idle =>
      match a with
      | AddItem x rs => to c t s (AI0 x rs)
      | RemItem x => to c t s (RI1 x 0)
      | GetProg (ByObj _) => c
      | _ => to c t s (Want a)
      end
  | Want (AddProg p) => take c t (AP1 p)
  | Want (RemProg r) => take c t (RP1 r)
  | Want (GetProg r) => take c t (GP1 r)
  | Want _ => c
  (* add_progression *)
  | AP1 p =>
      match truthy_name (pg_name p) with
      | Some n => if dmem n (names s) then free (stop c t s (Raise ExistsError)) else to c t s (AP2 p)
      | None => to c t s (AP2 p)
      end
  | AP2 p => if missing s p then free (stop c t s (Raise NotFoundError)) else to c t s (AP3 p)
  | AP3 p =>
      if dmem (pg_id p) (progs s) then free (stop c t s (Raise ExistsError))
      else to c t (set_progs (dset (pg_id p) p (progs s)) s) (AP4 p)
  | AP4 p =>
      free (stop c t (match truthy_name (pg_name p) with
                      | Some n => set_names (dset n (pg_id p) (names s)) s
                      | None => s
                      end) (Ret OK))
  (* remove_progression *)
  | RP1 r =>
      match r with
      | ByText n parsed =>
          match dget n (names s) with
          | Some u => to c t s (RP2 n u)
          | None => match parsed with
                    | Some u => to c t s (RQ1 u)
                    | None => free (stop c t s (Raise ValueError))
                    end
          end
      | ById u | ByObj u => to c t s (RQ1 u)
      end
  | RP2 n u => to c t (set_names (ddel n (names s)) s) (RP3 u)
  | RP3 u => if dmem u (progs s) then to c t s (RP4 u) else free (stop c t s (Raise NotFoundError))
  | RP4 u =>
      match dget u (progs s) with
      | Some p => free (stop c t (set_progs (ddel u (progs s)) s) (Ret (Prog_ p)))
      | None => free (stop c t s (Raise NotFoundError))
      end
  | RQ1 u =>
      match dget u (progs s) with
      | Some p => to c t s (RQ2 u (truthy_name (pg_name p)))
      | None => free (stop c t s (Raise NotFoundError))
      end
  | RQ2 u n =>
      to c t (match n with
              | Some n => if dmem n (names s) then set_names (ddel n (names s)) s else s
              | None => s
              end) (RP4 u)
  (* get_progression *)
  | GP1 r =>
      match r with
      | ByText n parsed =>
          match dget n (names s), parsed with
          | Some u, _ => to c t s (GP2 u)
          | None, Some u => to c t s (GP2 u)
          | None, None => free (stop c t s (Raise KeyError))
          end
      | ById u | ByObj u => to c t s (GP2 u)
      end
  | GP2 u =>
      match dget u (progs s) with
      | Some p => free (stop c t s (Ret (Prog_ p)))
      | None => free (stop c t s (Raise NotFoundError))
      end
  (* add_item *)
  | AI0 x rs =>
      if memb x (items s) then stop c t s (Raise ExistsError)
      else to c t (set_items (items s ++ [x]) s) (AI1 x rs)
  | AI1 x rs =>
      match rs with
      | [] => stop c t s (Ret OK)
      | ByObj u :: rs => to c t s (AIA x u rs)
      | r :: rs => to c t s (AIW x r rs)
      end
  | AIW x r rs => take c t (AIG x r rs)
  | AIG x r rs =>
      match r with
      | ByText n parsed =>
          match dget n (names s), parsed with
          | Some u, _ => to c t s (AIH x u rs)
          | None, Some u => to c t s (AIH x u rs)
          | None, None => free (stop c t s (Raise KeyError))
          end
      | ById u | ByObj u => to c t s (AIH x u rs)
      end
  | AIH x u rs =>
      if dmem u (progs s) then free (to c t s (AIA x u rs))
      else free (stop c t s (Raise NotFoundError))
  | AIA x u rs =>
      to c t (match dget u (progs s) with
              | Some p => set_progs (dset u (append_to x p) (progs s)) s
              | None => s
              end) (AI1 x rs)
  (* remove_item *)
  | RI1 x i =>
      match nth_error (dkeys (progs s)) i with
      | Some u => to c t s (RI2 x i u)
      | None => to c t s (RI5 x)
      end
  | RI2 x i u => if dmem u (progs s) then to c t s (RI3 x i u) else stop c t s (Raise KeyError)
  | RI3 x i u =>
      match dget u (progs s) with
      | Some p => if memb x (pg_order p) then to c t s (RI4 x i u) else to c t s (RI1 x (S i))
      | None => to c t s (RI1 x (S i))
      end
  | RI4 x i u =>
      match dget u (progs s) with
      | Some p =>
          match remove_first x (pg_order p) with
          | Some o => to c t (set_progs (dset u (Prog (pg_id p) (pg_name p) o) (progs s)) s) (RI1 x (S i))
          | None => stop c t s (Raise ValueError)
          end
      | None => to c t s (RI1 x (S i))
      end
  | RI5 x =>
      match remove_first x (items s) with
      | Some l => stop c t (set_items l s) (Ret (Item x))
      | None => stop c t s (Raise NotFoundError)
      end
  end.

Fixpoint trun (c : cfg) (sched : list (tid * call)) : cfg :=
  match sched with [] => c | (t, a) :: sched => trun (tstep c t a) sched end.

Definition init (s : store) : cfg := Cfg s None (fun _ => Idle) [].
