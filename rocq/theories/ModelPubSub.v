(** Model of base/broadcaster.py and base/eventbus.py.

    Objects (functions, callable instances, owners of bound methods) are
    numbered; [dead] lists those that the garbage collector has reclaimed.
    Python's [==] on objects is user code and therefore a parameter [same];
    [is] is equality of numbers.

    Simplifications: an object passed to a call is alive (the caller holds it),
    so calls on dead objects do nothing here; the function of a bound method
    lives as long as its owner; [_instance] (broadcaster.py:33-36) and logging
    (119) are left out; isinstance(event, _event_type) is an input. *)
From Coq Require Import List Bool Arith.
From Verif Require Import PyBase ModelHeap.
Import ListNotations.

(** What a caller passes as a callback. *)
Inductive callee :=
| Plain (o : nat)        (* function, lambda, callable instance: no __self__ *)
| Bound (o m : nat)      (* o.m: has __self__ and __func__ *)
| Builtin (o : nat).     (* built-in method: has __self__ but no __func__ *)

(** Stored references: weakref.ref and weakref.WeakMethod. *)
Inductive wref := RObj (o : nat) | RMeth (o m : nat).

Definition referent (r : wref) : nat := match r with RObj o => o | RMeth o _ => o end.

Definition wref_eqb (r r' : wref) : bool :=
  match r, r' with
  | RObj o, RObj o' => o =? o'
  | RMeth o m, RMeth o' m' => (o =? o') && (m =? m')
  | _, _ => false
  end.

Definition alive (dead : list nat) (r : wref) : bool := negb (existsb (Nat.eqb (referent r)) dead).

(** [r() is callback]: calling a WeakMethod builds a new method object, which is
    no one else's object; calling a dead reference gives None. *)
Definition is_target (dead : list nat) (c : callee) (r : wref) : bool :=
  match r, c with
  | RObj o, Plain o' => (o =? o') && alive dead r
  | _, _ => false
  end.

(** list.remove(ref to o), o alive: an entry is removed if it is the same object
    (weakref.ref(o) is shared per o) or compares equal: both referents alive and
    [==].  WeakMethod.__eq__ returns NotImplemented for a plain reference, and
    the reflected comparison then compares the referents. *)
Definition entry_eq (same : nat -> nat -> bool) (dead : list nat) (o : nat) (r : wref) : bool :=
  match r with
  | RObj o' => (o' =? o) || (alive dead r && same o' o)
  | RMeth o' _ => alive dead r && same o' o
  end.

Fixpoint remove_when {A} (p : A -> bool) (l : list A) : list A :=
  match l with
  | [] => []
  | x :: t => if p x then t else x :: remove_when p t
  end.

(** ** Broadcaster *)

(** A broadcast in progress holds its callbacks strongly until it returns. *)
Inductive bstatus := BRunning | BReturned | BAborted.
Record btask := { b_event : nat; b_all : list wref; b_left : list wref; b_status : bstatus }.

Record bstate := {
  bs_dead : list nat;
  bs_subs : dict nat (list wref);     (* class that owns the _subscribers list -> list *)
  bs_tasks : list btask;
  bs_log : list (nat * wref * nat)    (* (broadcast, callback, event), in order of the calls *)
}.

Definition binit : bstate := Build_bstate [] [] [] [].

(** How a call of a callback (and the await of its result) ends. *)
Inductive cresult := COk | CExc (e : nat) | CBase (e : nat).

Inductive bop :=
| BSubscribe (c : nat) (cb : callee)
| BUnsubscribe (c : nat) (cb : callee)
| BCollect (o : nat)                          (* garbage collector *)
| BBroadcast (c : nat) (ev : nat) (ok : bool) (* ok: isinstance(event, _event_type) *)
| BNext (t : nat) (res : cresult)             (* broadcast t calls its next callback, or returns *)
| BCount (c : nat).

Inductive bout := BNone | BNum (n : nat) | BTask (t : nat) | BRaise (e : exn) | BImpossible.

Section Broadcaster.
(** class -> nearest class in its MRO that defines _subscribers (broadcaster.py:28-30) *)
Variable owner : nat -> nat.
Variable same : nat -> nat -> bool.

Definition subs_of (s : bstate) (c : nat) : list wref :=
  match dget (owner c) (bs_subs s) with Some l => l | None => [] end.

Definition set_subs (s : bstate) (c : nat) (l : list wref) : bstate :=
  Build_bstate (bs_dead s) (dset (owner c) l (bs_subs s)) (bs_tasks s) (bs_log s).

Definition callee_obj (cb : callee) : nat :=
  match cb with Plain o => o | Bound o _ => o | Builtin o => o end.

Definition callee_dead (s : bstate) (cb : callee) : bool :=
  existsb (Nat.eqb (callee_obj cb)) (bs_dead s).

(** broadcaster.py:38-58 *)
Definition subscribe (s : bstate) (c : nat) (cb : callee) : bstate * bout :=
  let l := subs_of s c in
  if existsb (is_target (bs_dead s) cb) l then (s, BNone)                 (* 48-50 *)
  else match cb with
       | Plain o => (set_subs s c (l ++ [RObj o]), BNone)                 (* 57-58 *)
       | Bound o m => (set_subs s c (l ++ [RMeth o m]), BNone)            (* 54-55, 58 *)
       | Builtin _ => (s, BRaise TypeError)                                 (* 55: WeakMethod refuses *)
       end.

(** broadcaster.py:60-69 *)
Definition unsubscribe (s : bstate) (c : nat) (cb : callee) : bstate * bout :=
  let l := subs_of s c in
  match find (is_target (bs_dead s) cb) l with
  | Some r => (set_subs s c (remove_when (entry_eq same (bs_dead s) (referent r)) l), BNone)
  | None => (s, BNone)
  end.

(** broadcaster.py:71-96 *)
Definition cleanup (s : bstate) (c : nat) : bstate * list wref :=
  let l := filter (alive (bs_dead s)) (subs_of s c) in (set_subs s c l, l).

Definition held (ts : list btask) (o : nat) : bool :=
  existsb (fun t => match b_status t with
                    | BRunning => existsb (fun r => referent r =? o) (b_all t)
                    | _ => false end) ts.

Definition bstep (s : bstate) (a : bop) : bstate * bout :=
  match a with
  | BSubscribe c cb => if callee_dead s cb then (s, BImpossible) else subscribe s c cb
  | BUnsubscribe c cb => if callee_dead s cb then (s, BImpossible) else unsubscribe s c cb
  | BCollect o =>
      if held (bs_tasks s) o then (s, BImpossible)
      else (Build_bstate (o :: bs_dead s) (bs_subs s) (bs_tasks s) (bs_log s), BNone)
  | BBroadcast c ev ok =>                                                  (* 98-119 *)
      if ok then
        let '(s', l) := cleanup s c in                                     (* 107 *)
        (Build_bstate (bs_dead s') (bs_subs s')
           (bs_tasks s' ++ [Build_btask ev l l BRunning]) (bs_log s'),
         BTask (length (bs_tasks s')))
      else (s, BRaise ValueError)                                          (* 104-105 *)
  | BNext t res =>
      match nth_error (bs_tasks s) t with
      | Some (Build_btask ev all todo BRunning) =>
          match todo with
          | [] => (Build_bstate (bs_dead s) (bs_subs s)
                     (upd t (Build_btask ev all [] BReturned) (bs_tasks s)) (bs_log s), BNone)
          | cb :: rest =>
              let st := match res with CBase _ => BAborted | _ => BRunning end in  (* 111-119 *)
              (Build_bstate (bs_dead s) (bs_subs s)
                 (upd t (Build_btask ev all rest st) (bs_tasks s))
                 (bs_log s ++ [(t, cb, ev)]), BNone)
          end
      | _ => (s, BImpossible)
      end
  | BCount c => let '(s', l) := cleanup s c in (s', BNum (length l))       (* 121-128 *)
  end.

Fixpoint brun (s : bstate) (ops : list bop) : bstate :=
  match ops with [] => s | a :: t => brun (fst (bstep s a)) t end.
End Broadcaster.

(** ** EventBus *)

(** How the awaitable of a handler ends. *)
Inductive hresult := HOk | HExc (e : nat).

Inductive estatus := ERunning | EReturned.
Record emission := { m_topic : nat; m_all : list nat; m_done : list (option hresult); m_status : estatus }.

Record ebus := {
  eb_dead : list nat;
  eb_subs : dict nat (list nat);        (* topic -> weak references, by object *)
  eb_emits : list emission;
  eb_log : list (nat * nat)             (* (emission, handler) whose awaitable was started *)
}.

Definition einit_bus : ebus := Build_ebus [] [] [] [].

Inductive eop :=
| ESubscribe (t o : nat)
| EUnsubscribe (t o : nat)
| ECollect (o : nat)
| EEmit (t : nat) (raises : nat -> option nat)   (* handler called with the arguments: raises at once? *)
| EFinish (k i : nat) (r : hresult)
| EClear (t : option nat)
| ETopics
| ECount (t : nat).

Inductive eout := ENoOut | EBool (b : bool) | ENum (n : nat) | EList (l : list nat) | EEmission (k : nat)
| ERaised (e : nat) | EImpossible.

Section EventBus.
Variable same : nat -> nat -> bool.

Definition o_alive (dead : list nat) (o : nat) : bool := negb (existsb (Nat.eqb o) dead).

Definition e_held (ms : list emission) (o : nat) : bool :=
  existsb (fun m => match m_status m with
                    | ERunning => existsb (Nat.eqb o) (m_all m) | EReturned => false end) ms.

Definition with_subs (s : ebus) (d : dict nat (list nat)) : ebus :=
  Build_ebus (eb_dead s) d (eb_emits s) (eb_log s).

(** eventbus.py:56-77; called on registered topics only *)
Definition e_cleanup (s : ebus) (t : nat) (l : list nat) : ebus * list nat :=
  let l' := filter (o_alive (eb_dead s)) l in (with_subs s (dset t l' (eb_subs s)), l').

(** The generator of eventbus.py:93 calls the handlers in order; the first one
    that raises ends emit before gather is entered. *)
Fixpoint first_raise (raises : nat -> option nat) (l : list nat) : option nat :=
  match l with
  | [] => None
  | o :: t => match raises o with Some e => Some e | None => first_raise raises t end
  end.

Fixpoint upd_opt {A} (l : list (option A)) (i : nat) (x : A) : option (list (option A)) :=
  match l, i with
  | None :: t, 0 => Some (Some x :: t)
  | Some _ :: _, 0 => None
  | y :: t, S j => option_map (cons y) (upd_opt t j x)
  | [], _ => None
  end.

Definition all_done {A} (l : list (option A)) : bool :=
  forallb (fun x => match x with Some _ => true | None => false end) l.

Definition estep (s : ebus) (a : eop) : ebus * eout :=
  match a with
  | ESubscribe t o =>                                                     (* 33-42 *)
      if o_alive (eb_dead s) o then
        let l := match dget t (eb_subs s) with Some l => l | None => [] end in
        (with_subs s (dset t (l ++ [o]) (eb_subs s)), ENoOut)
      else (s, EImpossible)
  | EUnsubscribe t o =>                                                   (* 44-54 *)
      if o_alive (eb_dead s) o then
        match dget t (eb_subs s) with
        | None => (s, EBool false)
        | Some l =>
            if existsb (Nat.eqb o) l
            then (with_subs s (dset t
                    (remove_when (fun o' => (o' =? o) || (o_alive (eb_dead s) o' && same o' o)) l) (eb_subs s)),
                  EBool true)
            else (s, EBool false)
        end
      else (s, EImpossible)
  | ECollect o =>
      if e_held (eb_emits s) o then (s, EImpossible)
      else (Build_ebus (o :: eb_dead s) (eb_subs s) (eb_emits s) (eb_log s), ENoOut)
  | EEmit t raises =>                                                     (* 79-93 *)
      match dget t (eb_subs s) with
      | None => (s, ENoOut)                                               (* 85-86 *)
      | Some l =>
          let '(s', hs) := e_cleanup s t l in                             (* 88 *)
          match hs with
          | [] => (s', ENoOut)                                            (* 89-90 *)
          | _ =>
              match first_raise raises hs with
              | Some e => (s', ERaised e)
              | None =>
                  let k := length (eb_emits s') in
                  (Build_ebus (eb_dead s') (eb_subs s')
                     (eb_emits s' ++ [Build_emission t hs (map (fun _ => None) hs) ERunning])
                     (eb_log s' ++ map (pair k) hs), EEmission k)
              end
          end
      end
  | EFinish k i r =>   (* one awaitable ends; gather(return_exceptions=True) keeps exceptions as results *)
      match nth_error (eb_emits s) k with
      | Some (Build_emission t hs done ERunning) =>
          match upd_opt done i r with
          | Some done' =>
              (Build_ebus (eb_dead s) (eb_subs s)
                 (upd k (Build_emission t hs done' (if all_done done' then EReturned else ERunning))
                    (eb_emits s))
                 (eb_log s), ENoOut)
          | None => (s, EImpossible)
          end
      | _ => (s, EImpossible)
      end
  | EClear None => (with_subs s [], ENoOut)                               (* 97-98 *)
  | EClear (Some t) => (with_subs s (ddel t (eb_subs s)), ENoOut)         (* 100 *)
  | ETopics => (s, EList (dkeys (eb_subs s)))                             (* 102-104 *)
  | ECount t =>                                                           (* 106-112 *)
      match dget t (eb_subs s) with
      | None => (s, ENum 0)
      | Some l => let '(s', hs) := e_cleanup s t l in (s', ENum (length hs))
      end
  end.

Fixpoint erun_bus (s : ebus) (ops : list eop) : ebus :=
  match ops with [] => s | a :: t => erun_bus (fst (estep s a)) t end.
End EventBus.
