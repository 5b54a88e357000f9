(** Model of [pile[progression]] in one thread while any number of other
    threads use the same pile: pile.py:438-451.  The method takes no lock; the
    ids are tested one by one (443), then looked up one by one (447), each step
    one access to the dict of items, and then the new pile is built.
    Left out: changes of the progression itself during the call, and a dict
    whose type constraint changes (there is none, [p_types] is constant). *)
From Coq Require Import List Bool Arith.
From Verif Require Import PyBase ModelProgression ModelPile ModelPileThreads.
Import ListNotations.

Inductive rd :=
| RChk (todo : list uuid)                       (** line 443 *)
| RGet (todo : list uuid) (acc : list item)     (** line 447 *)
| RDone (r : outcome pile).

Section Read.
  Variable sub : cls -> cls -> bool.
  Variable prog : list uuid.

  Definition rstep (p : pile) (r : rd) : rd :=
    match r with
    | RChk [] => RGet prog []
    | RChk (u :: t) => if dmem u (p_items p) then RChk t else RDone (Raise NotFoundError)
    | RGet [] acc => RDone (derive sub p acc)                       (* 446-450 *)
    | RGet (u :: t) acc =>
        match dget u (p_items p) with
        | Some x => RGet t (acc ++ [x])
        | None => RDone (Raise KeyError)
        end
    | RDone _ => r
    end.

  (** [None]: the reader moves; [Some (t, a)]: thread [t] does. *)
  Definition rmove (cr : cfg * rd) (m : option (tid * call)) : cfg * rd :=
    match m with
    | None => (fst cr, rstep (c_pile (fst cr)) (snd cr))
    | Some (t, a) => (fst (tstep sub (fst cr) t a), snd cr)
    end.

  Definition rrun (cr : cfg * rd) (s : list (option (tid * call))) : cfg * rd := fold_left rmove s cr.

  (** The call, begun in configuration [c]. *)
  Definition read (c : cfg) (s : list (option (tid * call))) : rd := snd (rrun (c, RChk prog) s).
End Read.
