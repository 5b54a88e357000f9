(** Model of /repo/src/lionherd_core/types/_sentinel.py: creating, copying and
    pickling singletons from several threads.
    One step per bytecode that reads or writes the shared cache.
    Left out: constructor arguments, metaclass cache entries written by other
    code, the union operators, and threads that die. *)
From Coq Require Import List Arith Bool.
Import ListNotations.

(** Classes derived from SingletonType, and their instances. *)
Definition cls := nat.
Record inst := Inst { i_cls : cls; i_num : nat }.

Definition inst_eqb (a b : inst) : bool :=
  (i_cls a =? i_cls b) && (i_num a =? i_num b).

(** What a thread asks for.  [Pickle] is loads(dumps(x)). *)
Inductive op := Make (c : cls) | Copy (x : inst) | Deep (x : inst) | Pickle (x : inst).

(** Where a thread is inside _SingletonMeta.__call__, lines 30-33. *)
Inductive pc :=
| Idle
| Creating (o : op) (c : cls)             (* line 32: the class was not cached *)
| Storing (o : op) (c : cls) (x : inst)   (* line 32: the object exists *)
| Reading (o : op) (c : cls).             (* line 33 *)

Record thread := Thread { t_pc : pc; t_todo : list op; t_got : list (op * inst) }.

(** [s_cache] is _SingletonMeta._cache; [s_next] numbers new objects. *)
Record state := State { s_cache : cls -> option inst; s_next : nat; s_thr : nat -> thread }.

Definition set_cache (f : cls -> option inst) (c : cls) (x : inst) : cls -> option inst :=
  fun c' => if c' =? c then Some x else f c'.
Definition set_thr (f : nat -> thread) (t : nat) (th : thread) : nat -> thread :=
  fun t' => if t' =? t then th else f t'.

(** [reduce c]: what __reduce__ of an instance of [c] names: [Some c0] is the
    tuple (c0, ()) (lines 71-73 and 100-102, inherited by subclasses), [None]
    the default of object, which bypasses the metaclass when unpickled. *)
Section Sentinel.
Variable reduce : cls -> option cls.

(** Line 31, the test. *)
Definition check (s : state) (o : op) (c : cls) : pc :=
  match s_cache s c with Some _ => Reading o c | None => Creating o c end.

Definition log (th : thread) (o : op) (x : inst) : thread :=
  Thread Idle (t_todo th) (t_got th ++ [(o, x)]).

(** One step of thread [t]. *)
Definition step (s : state) (t : nat) : option state :=
  let th := s_thr s t in
  let upd th' := Some (State (s_cache s) (s_next s) (set_thr (s_thr s) t th')) in
  match t_pc th with
  | Idle =>
      match t_todo th with
      | [] => None
      | o :: rest =>
          let th := Thread Idle rest (t_got th) in
          match o with
          | Make c => upd (Thread (check s o c) rest (t_got th))
          | Copy x => upd (log th o x)                   (* lines 45-47 *)
          | Deep x => upd (log th o x)                   (* lines 41-43 *)
          | Pickle x =>
              match reduce (i_cls x) with
              | Some c => upd (Thread (check s o c) rest (t_got th))
              | None =>
                  Some (State (s_cache s) (S (s_next s))
                          (set_thr (s_thr s) t (log th o (Inst (i_cls x) (s_next s)))))
              end
          end
      end
  | Creating o c =>
      Some (State (s_cache s) (S (s_next s))
              (set_thr (s_thr s) t
                 (Thread (Storing o c (Inst c (s_next s))) (t_todo th) (t_got th))))
  | Storing o c x =>
      Some (State (set_cache (s_cache s) c x) (s_next s)
              (set_thr (s_thr s) t (Thread (Reading o c) (t_todo th) (t_got th))))
  | Reading o c =>
      match s_cache s c with
      | Some x => upd (log th o x)
      | None => None                                     (* KeyError; unreachable *)
      end
  end.

(** Any interleaving. *)
Inductive run : state -> state -> Prop :=
| run_nil s : run s s
| run_step s s1 s2 t : run s s1 -> step s1 t = Some s2 -> run s s2.

End Sentinel.

(** is_sentinel without the two flags, line 138: identity with the two module
    constants. *)
Definition is_sent (undefined unset x : inst) : bool :=
  inst_eqb x undefined || inst_eqb x unset.
