(** Model of base/flow.py: class Flow.
    The items pile is the pile of ModelPile.  The progressions pile is
    represented by its ordered-map abstraction (justified by C06): a dict from
    progression id to the progression object.  Simplifications: the flow's own
    Element fields, serialisation and locking are left out; all calls are
    sequential; users mutate stored progressions only through the flow
    (ModelFlowDirect has the rest). *)
From Coq Require Import String.
From Coq Require Import List ZArith Bool Arith.
From Verif Require Import PyBase ModelProgression ModelPile.
Import ListNotations.

(** base/progression.py:31-36: name and order of a progression. *)
Record prog := Prog { pg_id : uuid; pg_name : option string; pg_order : list uuid }.

(** flow.py:39-51 *)
Record flow := Flow {
  f_items : pile;
  f_progs : dict uuid prog;
  f_names : dict string uuid
}.

(** A way to designate a progression: a string (with its parse as a UUID, if it
    has one), an id, or a Progression instance.  [stored] says whether the
    instance is the very object held by the flow. *)
Inductive fref :=
| FStr (s : string) (parsed : option uuid)
| FId (u : uuid)
| FInst (p : prog) (stored : bool).

Inductive fval := FUnit | FProgV (p : prog) | FItemV (x : item) | FPileV (ps : list prog).

(** [if progression.name]: None and "" are falsy. *)
Definition truthy_name (n : option string) : option string :=
  match n with
  | Some s => if String.eqb s "" then None else Some s
  | None => None
  end.

Definition set_progs (f : flow) (d : dict uuid prog) : flow := Flow (f_items f) d (f_names f).

(** Some referenced id is not a key of the items pile (flow.py:134-139, 190-192). *)
Definition missing_refs (f : flow) (p : prog) : bool :=
  existsb (fun u => negb (memb u (pile_keys (f_items f)))) (pg_order p).

Section F.
  Variable sub : cls -> cls -> bool.

  (** flow.py:181-202 *)
  Definition add_progression (f : flow) (p : prog) : flow * outcome fval :=
    match truthy_name (pg_name p) with
    | Some s =>
        if dmem s (f_names f) then (f, Raise ExistsError)
        else if missing_refs f p then (f, Raise NotFoundError)
        else if dmem (pg_id p) (f_progs f) then (f, Raise ExistsError)
        else (Flow (f_items f) (dset (pg_id p) p (f_progs f)) (dset s (pg_id p) (f_names f)),
              Ret FUnit)
    | None =>
        if missing_refs f p then (f, Raise NotFoundError)
        else if dmem (pg_id p) (f_progs f) then (f, Raise ExistsError)
        else (set_progs f (dset (pg_id p) p (f_progs f)), Ret FUnit)
    end.

  (** base/_utils.py:186-215 on a progression designator *)
  Definition coerce_fref (r : fref) : outcome uuid :=
    match r with
    | FStr _ (Some u) => Ret u
    | FStr _ None => Raise ValueError
    | FId u => Ret u
    | FInst p _ => Ret (pg_id p)
    end.

  (** flow.py:216-221 *)
  Definition remove_by_id (f : flow) (r : fref) : flow * outcome fval :=
    match coerce_fref r with
    | Raise e => (f, Raise e)
    | Ret u =>
        match dget u (f_progs f) with
        | None => (f, Raise NotFoundError)
        | Some p =>
            let names := match truthy_name (pg_name p) with
                         | Some s => if dmem s (f_names f) then ddel s (f_names f) else f_names f
                         | None => f_names f
                         end in
            (Flow (f_items f) (ddel u (f_progs f)) names, Ret (FProgV p))
        end
    end.

  (** flow.py:205-221.  The name is deleted before the existence check. *)
  Definition remove_progression (f : flow) (r : fref) : flow * outcome fval :=
    match r with
    | FStr s _ =>
        match dget s (f_names f) with
        | Some u =>
            let names := ddel s (f_names f) in
            match dget u (f_progs f) with
            | None => (Flow (f_items f) (f_progs f) names, Raise NotFoundError)
            | Some p => (Flow (f_items f) (ddel u (f_progs f)) names, Ret (FProgV p))
            end
        | None => remove_by_id f r
        end
    | _ => remove_by_id f r
    end.

  (** pile.py:438-451 applied to the progressions pile: [progressions[key]] with
      a Progression key filters by the ids the progression lists. *)
  Definition filter_progs (f : flow) (us : list uuid) : outcome fval :=
    if existsb (fun u => negb (dmem u (f_progs f))) us then Raise NotFoundError
    else let ps := flat_map (fun u => match dget u (f_progs f) with Some p => [p] | None => [] end) us in
         (fix chk (seen : list uuid) (l : list prog) : outcome fval :=
            match l with
            | [] => Ret (FPileV ps)
            | p :: t => if memb (pg_id p) seen then Raise ExistsError else chk (pg_id p :: seen) t
            end) [] ps.

  (** flow.py:224-240 with pile.py:394-419 for the final subscript *)
  Definition get_progression (f : flow) (r : fref) : outcome fval :=
    match r with
    | FStr s parsed =>
        match dget s (f_names f) with
        | Some u => match dget u (f_progs f) with
                    | Some p => Ret (FProgV p)
                    | None => Raise NotFoundError
                    end
        | None =>
            match parsed with
            | None => Raise KeyError
            | Some u => match dget u (f_progs f) with
                        | Some p => Ret (FProgV p)
                        | None => Raise NotFoundError
                        end
            end
        end
    | FId u => match dget u (f_progs f) with
               | Some p => Ret (FProgV p)
               | None => Raise NotFoundError
               end
    | FInst p _ => filter_progs f (pg_order p)
    end.

  Definition append_to (u : uuid) (p : prog) : prog :=
    Prog (pg_id p) (pg_name p) (pg_order p ++ [u]).

  (** flow.py:269-274, one progression.  Appending to an instance the flow does
      not hold has no effect on the flow. *)
  Definition attach (f : flow) (u : uuid) (r : fref) : flow * outcome fval :=
    match r with
    | FInst p true =>
        match dget (pg_id p) (f_progs f) with
        | Some q => (set_progs f (dset (pg_id p) (append_to u q) (f_progs f)), Ret FUnit)
        | None => (f, Ret FUnit)
        end
    | FInst _ false => (f, Ret FUnit)
    | _ =>
        match get_progression f r with
        | Ret (FProgV p) => (set_progs f (dset (pg_id p) (append_to u p) (f_progs f)), Ret FUnit)
        | Ret _ => (f, Raise AttributeError)
        | Raise e => (f, Raise e)
        end
    end.

  Fixpoint attach_all (f : flow) (u : uuid) (rs : list fref) : flow * outcome fval :=
    match rs with
    | [] => (f, Ret FUnit)
    | r :: t => match attach f u r with
                | (f', Ret _) => attach_all f' u t
                | (f', Raise e) => (f', Raise e)
                end
    end.

  (** flow.py:244-274.  The item is stored before any progression is touched. *)
  Definition add_item (f : flow) (o : pobj) (rs : list fref) : flow * outcome fval :=
    match pile_add sub (f_items f) o with
    | (_, Raise e) => (f, Raise e)
    | (its, Ret _) =>
        match o with
        | OElem x => attach_all (Flow its (f_progs f) (f_names f)) (iid x) rs
        | OOther _ => (f, Raise TypeError)
        end
    end.

  (** flow.py:291-293: first occurrence only *)
  Definition strip (u : uuid) (p : prog) : prog :=
    match remove_first u (pg_order p) with
    | Some o' => Prog (pg_id p) (pg_name p) o'
    | None => p
    end.

  (** flow.py:276-296 *)
  Definition remove_item (f : flow) (r : idref) : flow * outcome fval :=
    match coerce_id r with
    | Raise e => (f, Raise e)
    | Ret u =>
        let progs := map (fun kv => (fst kv, strip u (snd kv))) (f_progs f) in
        match pile_remove (f_items f) (RId u) with
        | (its, Ret (VItem x)) => (Flow its progs (f_names f), Ret (FItemV x))
        | (its, Ret _) => (Flow its progs (f_names f), Raise OtherErr)
        | (its, Raise e) => (Flow its progs (f_names f), Raise e)
        end
    end.

  Inductive flow_op :=
  | FAddProg (p : prog) | FRemProg (r : fref) | FGetProg (r : fref)
  | FAddItem (o : pobj) (rs : list fref) | FRemItem (r : idref).

  Definition flow_step (f : flow) (o : flow_op) : flow * outcome fval :=
    match o with
    | FAddProg p => add_progression f p
    | FRemProg r => remove_progression f r
    | FGetProg r => (f, get_progression f r)
    | FAddItem x rs => add_item f x rs
    | FRemItem r => remove_item f r
    end.

  Definition flow_run (f : flow) (ops : list flow_op) : flow :=
    fold_left (fun g o => fst (flow_step g o)) ops f.

  (** pile.py:106-140 for the progressions argument: duplicate ids raise. *)
  Fixpoint prog_pile (d : dict uuid prog) (ps : list prog) : outcome (dict uuid prog) :=
    match ps with
    | [] => Ret d
    | p :: t => if dmem (pg_id p) d then Raise ExistsError
                else prog_pile (dset (pg_id p) p d) t
    end.

  (** flow.py:146-152: the last progression of a name wins. *)
  Definition index_names (ps : list prog) : dict string uuid :=
    fold_left (fun d p => match truthy_name (pg_name p) with
                          | Some s => dset s (pg_id p) d
                          | None => d end) ps [].

  (** flow.py:55-103, 105-152: construction from an items pile and progressions. *)
  Definition flow_new (its : pile) (ps : list prog) : outcome flow :=
    bind (prog_pile [] ps) (fun d =>
      let f := Flow its d (index_names ps) in
      if existsb (missing_refs f) ps then Raise NotFoundError else Ret f).
End F.
