(** Model of import_module and is_import_installed (ln/_utils.py:129-156).
    Dotted names are lists of parts.  Python's import system is modelled as far as it shows: parents are imported first, a
    module runs once and counts as imported if its code does not raise, and is then an attribute of its parent.
    Simplifications: what the code of a module imports by itself, relative names, the star in a list of names and
    __getattr__ of modules are left out; package_name is not empty. *)
From Coq Require Import String.
From Coq Require Import List Bool Arith.
Import ListNotations.

Definition path := list string.
Definition path_eq_dec : forall p q : path, {p = q} + {p <> q} := list_eq_dec string_dec.
Definition mem (p : path) (l : list path) : bool := if in_dec path_eq_dec p l then true else false.

(** [Own k]: an exception that the code of a module raises *)
Inductive iexn := ImportErr | AttributeErr | Own (k : nat).
Inductive outcome (A : Type) := Ret (a : A) | Raise (e : iexn).
Arguments Ret {A} a.
Arguments Raise {A} e.
Inductive obj := Mod (p : path) | Val (n : nat).
Inductive result := RObj (o : obj) | RList (l : list obj).

(** [there]: a finder locates the module; [fails]: what its code raises; [pkg]: it is a package; [attr]: what its code defines. *)
Record world := World { there : path -> bool; fails : path -> option iexn; pkg : path -> bool; attr : path -> string -> option obj }.

Section I.
  Variable W : world.

  (** One module, its parent [q] being imported: [n] is the last part. *)
  Definition load (st : list path) (q : path) (n : string) : list path * outcome unit :=
    let p := (q ++ [n])%list in
    if mem p st then (st, Ret tt)
    else if negb (match q with [] => true | _ => pkg W q end && there W p) then (st, Raise ImportErr)
    else match fails W p with Some e => (st, Raise e) | None => (p :: st, Ret tt) end.
  (** __import__: one part after the other *)
  Fixpoint imp (st : list path) (q rest : path) : list path * outcome unit :=
    match rest with
    | [] => (st, Ret tt)
    | n :: t => match load st q n with
                | (st', Ret _) => imp st' (q ++ [n])%list t
                | (st', Raise e) => (st', Raise e)
                end
    end.
  (** getattr of a module *)
  Definition getattr (st : list path) (p : path) (n : string) : option obj :=
    if mem (p ++ [n])%list st then Some (Mod (p ++ [n])%list) else attr W p n.
  (** fromlist: names that are no attributes of a package are tried as modules in it; that there is none is no error yet. *)
  Fixpoint fromlist (st : list path) (p : path) (ns : list string) : list path * outcome unit :=
    match ns with
    | [] => (st, Ret tt)
    | n :: t =>
        match getattr st p n with
        | Some _ => fromlist st p t
        | None => if pkg W p && there W (p ++ [n])%list then
                    match load st p n with
                    | (st', Ret _) => fromlist st' p t
                    | (st', Raise e) => (st', Raise e)
                    end
                  else fromlist st p t
        end
    end.
  Fixpoint getattrs (st : list path) (p : path) (ns : list string) : outcome (list obj) :=
    match ns with
    | [] => Ret []
    | n :: t => match getattr st p n with
                | None => Raise AttributeErr
                | Some o => match getattrs st p t with Ret l => Ret (o :: l) | Raise e => Raise e end
                end
    end.
  (** lines 136-147; an ImportError is raised again with another text (149-150) *)
  Definition full (package modname : path) : path := (package ++ modname)%list.
  Definition import_module (st : list path) (package modname : path) (names : list string) : list path * outcome result :=
    let p := full package modname in
    match imp st [] p with
    | (st1, Raise e) => (st1, Raise e)
    | (st1, Ret _) =>
        match names with
        | [] => (st1, Ret (RObj (Mod (firstn 1 p))))
        | _ =>
            match fromlist st1 p names with
            | (st2, Raise e) => (st2, Raise e)
            | (st2, Ret _) =>
                (st2, match getattrs st2 p names with
                      | Raise e => Raise e
                      | Ret [o] => Ret (RObj o)
                      | Ret l => Ret (RList l)
                      end)
            end
        end
    end.
  (** lines 154-156: find_spec imports the parents only *)
  Definition is_import_installed (st : list path) (q : path) (n : string) : list path * outcome bool :=
    if mem (q ++ [n])%list st then (st, Ret true)
    else match imp st [] q with
         | (st1, Raise e) => (st1, Raise e)
         | (st1, Ret _) => if match q with [] => true | _ => pkg W q end then (st1, Ret (there W (q ++ [n])%list)) else (st1, Raise ImportErr)
         end.
End I.
