(** Model of a flow whose parts are also used directly: flow.items and flow.progressions are public piles
    (base/flow.py:39-51), and get_progression hands out the stored progression itself (223-240), so its order
    and name can be changed behind the flow's back.  Extends ModelFlow, which leaves this out. *)
From Coq Require Import String.
From Coq Require Import List Bool Arith.
From Verif Require Import PyBase ModelProgression ModelPile ModelFlow.
Import ListNotations.

Inductive direct_op :=
| DFlow (o : flow_op)                          (* a method of the flow *)
| DOrder (u : uuid) (l : list uuid)            (* whatever changes the order of the stored progression [u] *)
| DRename (u : uuid) (n : option string)       (* progression.name = n *)
| DItems (o : pile_op)                         (* a method of flow.items *)
| DProgsAdd (p : prog)                         (* flow.progressions.add, base/pile.py:212-229 *)
| DProgsRemove (u : uuid).                     (* flow.progressions.remove, base/pile.py:231-252 *)

Section D.
  Variable sub : cls -> cls -> bool.

  Definition edit (f : flow) (u : uuid) (g : prog -> prog) : flow * outcome fval :=
    match dget u (f_progs f) with
    | Some p => (set_progs f (dset u (g p) (f_progs f)), Ret FUnit)
    | None => (f, Ret FUnit)
    end.
  Definition direct_step (f : flow) (o : direct_op) : flow * outcome fval :=
    match o with
    | DFlow o => flow_step sub f o
    | DOrder u l => edit f u (fun p => Prog (pg_id p) (pg_name p) l)
    | DRename u n => edit f u (fun p => Prog (pg_id p) n (pg_order p))
    | DItems o => (Flow (fst (pile_step sub (f_items f) o)) (f_progs f) (f_names f), Ret FUnit)
    | DProgsAdd p =>
        if dmem (pg_id p) (f_progs f) then (f, Raise ExistsError)
        else (set_progs f (dset (pg_id p) p (f_progs f)), Ret FUnit)
    | DProgsRemove u =>
        match dget u (f_progs f) with
        | Some p => (set_progs f (ddel u (f_progs f)), Ret (FProgV p))
        | None => (f, Raise NotFoundError)
        end
    end.
  Definition direct_run (f : flow) (ops : list direct_op) : flow :=
    fold_left (fun g o => fst (direct_step g o)) ops f.
End D.
