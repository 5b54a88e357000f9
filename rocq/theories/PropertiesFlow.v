(** Properties C14-C16: Flow. [sub] is an arbitrary class hierarchy. *)
From Coq Require Import String.
From Coq Require Import List ZArith Bool Arith.
From Verif Require Import PyBase ModelProgression ModelPile SpecPile PropertiesPile
  ModelFlow SpecFlow ProofsFlow.
Import ListNotations.
Open Scope string_scope.
Open Scope nat_scope.
Open Scope list_scope.

(** Example data: an empty flow, two items, two progressions. *)
Definition exf0 := Flow (Pile [] [] None false) [] [].
Definition exf_p1 := Prog 20 (Some "plan") [].
Definition exf_p2 := Prog 21 None [].
Definition exf_ops := [FAddProg exf_p1; FAddProg exf_p2;
                       FAddItem (OElem ex_a) [FStr "plan" None; FId 21];
                       FAddItem (OElem ex_b) [FStr "plan" None]].
Definition exf := flow_run ex_sub exf0 exf_ops.

Example exf_fresh : fresh_flow ex_sub exf0.
Proof.
  split; [|auto]. exists None, false, [], [], (Pile [] [] None false), [].
  repeat split; auto.
Qed.

Example exf_state : f_progs exf = [(20, Prog 20 (Some "plan") [10; 11]); (21, Prog 21 None [10])].
Proof. reflexivity. Qed.

(** C14: histories in which no progression ever lists an id twice. *)
Theorem C14_referential_integrity : forall sub f0 ops, fresh_flow sub f0 ->
  (forall a b, ops = a ++ b -> no_repeats (flow_run sub f0 a)) ->
  integrity (flow_run sub f0 ops).
Proof. exact integrity_run. Qed.
Print Assumptions C14_referential_integrity.

(** The exact condition under which removing an item keeps integrity. *)
Theorem C14_remove_item_integrity_iff : forall sub f0 ops r u f, fresh_flow sub f0 ->
  f = flow_run sub f0 ops -> integrity f -> coerce_id r = Ret u ->
  (integrity (fst (flow_step sub f (FRemItem r))) <->
   forall p, held f p -> count u (pg_order p) <= 1).
Proof. exact remove_item_integrity_iff. Qed.
Print Assumptions C14_remove_item_integrity_iff.

Theorem C14_add_item_effect : forall sub f0 ops x rs f f', fresh_flow sub f0 ->
  f = flow_run sub f0 ops -> flow_step sub f (FAddItem (OElem x) rs) = (f', Ret FUnit) ->
  pile_contains (f_items f') (RId (iid x)) = true /\
  forall k, get_progression f' (FId k) =
    match get_progression f (FId k) with
    | Ret (FProgV p) => Ret (FProgV (Prog (pg_id p) (pg_name p)
                               (pg_order p ++ repeat (iid x) (times f rs k))))
    | other => other
    end.
Proof. exact add_item_effect. Qed.
Print Assumptions C14_add_item_effect.

Theorem C14_remove_item_effect : forall sub f0 ops r u f f' v, fresh_flow sub f0 ->
  f = flow_run sub f0 ops -> no_repeats f -> coerce_id r = Ret u ->
  flow_step sub f (FRemItem r) = (f', Ret v) ->
  (exists x, v = FItemV x /\ iid x = u) /\
  (forall w, pile_contains (f_items f') (RId w) = pile_contains (f_items f) (RId w) && negb (w =? u)) /\
  forall k, get_progression f' (FId k) =
    match get_progression f (FId k) with
    | Ret (FProgV p) => Ret (FProgV (Prog (pg_id p) (pg_name p)
                               (filter (fun w => negb (w =? u)) (pg_order p))))
    | other => other
    end.
Proof. exact remove_item_effect. Qed.
Print Assumptions C14_remove_item_effect.

Example C14_ex : f_progs (fst (flow_step ex_sub exf (FRemItem (RId 10)))) =
  [(20, Prog 20 (Some "plan") [11]); (21, Prog 21 None [])].
Proof. reflexivity. Qed.

Example C14_ex_no_repeats : no_repeats exf.
Proof.
  intros p [<-|[<-|[]]]; simpl.
  - repeat constructor; simpl; intuition discriminate.
  - repeat constructor; simpl; tauto.
Qed.

(** Without that condition integrity fails: the item goes, an id stays behind. *)
Theorem C14_unconditional_refuted : exists sub f0 ops, fresh_flow sub f0 /\
  ~ integrity (flow_run sub f0 ops).
Proof.
  exists ex_sub, exf0, [FAddProg exf_p1; FAddItem (OElem ex_a) [FId 20; FStr "plan" None];
                        FRemItem (RId 10)].
  split; [exact exf_fresh|]. intros H.
  specialize (H (Prog 20 (Some "plan") [10]) 10 (or_introl eq_refl) (or_introl eq_refl)).
  discriminate.
Qed.
Print Assumptions C14_unconditional_refuted.

(** C15 *)
Theorem C15_names_unique : forall sub f0 ops p q s, fresh_flow sub f0 ->
  held (flow_run sub f0 ops) p -> held (flow_run sub f0 ops) q ->
  carries p s -> carries q s -> p = q.
Proof. exact names_unique. Qed.
Print Assumptions C15_names_unique.

Theorem C15_get_by_name : forall sub f0 ops s parsed p, fresh_flow sub f0 ->
  held (flow_run sub f0 ops) p -> carries p s ->
  get_progression (flow_run sub f0 ops) (FStr s parsed) = Ret (FProgV p).
Proof. exact get_by_name. Qed.
Print Assumptions C15_get_by_name.

Theorem C15_get_absent_name : forall sub f0 ops s, fresh_flow sub f0 ->
  (forall p, held (flow_run sub f0 ops) p -> ~ carries p s) ->
  get_progression (flow_run sub f0 ops) (FStr s None) = Raise KeyError.
Proof. exact get_by_name_absent. Qed.
Print Assumptions C15_get_absent_name.

Theorem C15_get_by_id : forall sub f0 ops u, fresh_flow sub f0 ->
  match get_progression (flow_run sub f0 ops) (FId u) with
  | Ret (FProgV p) => held (flow_run sub f0 ops) p /\ pg_id p = u
  | Ret _ => False
  | Raise e => e = NotFoundError /\ forall p, held (flow_run sub f0 ops) p -> pg_id p <> u
  end.
Proof. exact get_by_id. Qed.
Print Assumptions C15_get_by_id.

Theorem C15_name_reusable : forall sub f0 ops r p s q f', fresh_flow sub f0 ->
  let f := flow_run sub f0 ops in
  flow_step sub f (FRemProg r) = (f', Ret (FProgV p)) -> carries p s ->
  carries q s -> (forall u, In u (pg_order q) -> pile_contains (f_items f) (RId u) = true) ->
  (forall p', held f' p' -> pg_id p' <> pg_id q) ->
  snd (flow_step sub f' (FAddProg q)) = Ret FUnit.
Proof. exact name_reusable. Qed.
Print Assumptions C15_name_reusable.

Theorem C15_add_progression_effect : forall sub f0 ops p f f', fresh_flow sub f0 ->
  f = flow_run sub f0 ops -> flow_step sub f (FAddProg p) = (f', Ret FUnit) ->
  f_items f' = f_items f /\
  forall k, get_progression f' (FId k) =
    if k =? pg_id p then Ret (FProgV p) else get_progression f (FId k).
Proof. exact add_progression_effect. Qed.
Print Assumptions C15_add_progression_effect.

Theorem C15_remove_progression_effect : forall sub f0 ops r f f' v, fresh_flow sub f0 ->
  f = flow_run sub f0 ops -> flow_step sub f (FRemProg r) = (f', Ret v) ->
  exists p, v = FProgV p /\ held f p /\ f_items f' = f_items f /\
  forall k, get_progression f' (FId k) =
    if k =? pg_id p then Raise NotFoundError else get_progression f (FId k).
Proof. exact remove_progression_effect. Qed.
Print Assumptions C15_remove_progression_effect.

Example C15_ex :
  get_progression exf (FStr "plan" None) = Ret (FProgV (Prog 20 (Some "plan") [10; 11])) /\
  get_progression exf (FStr "other" None) = Raise KeyError /\
  snd (flow_step ex_sub exf (FAddProg (Prog 30 (Some "plan") []))) = Raise ExistsError /\
  snd (flow_step ex_sub (fst (flow_step ex_sub exf (FRemProg (FId 20))))
        (FAddProg (Prog 30 (Some "plan") [11]))) = Ret FUnit.
Proof. repeat split. Qed.

(** Construction does not check names: two progressions with one name are
    accepted, only the last is reachable by name, and removing the other one
    makes the name unknown although a held progression still carries it. *)
Theorem C15_constructed_names_refuted : exists sub its ps f p q s, reachable sub its /\
  flow_new its ps = Ret f /\ held f p /\ held f q /\ p <> q /\ carries p s /\ carries q s /\
  get_progression f (FStr s None) = Ret (FProgV q) /\
  held (fst (flow_step sub f (FRemProg (FId (pg_id p))))) q /\
  get_progression (fst (flow_step sub f (FRemProg (FId (pg_id p))))) (FStr s None) = Raise KeyError.
Proof.
  exists ex_sub, (Pile [] [] None false), [exf_p1; Prog 22 (Some "plan") []],
    (Flow (Pile [] [] None false) [(20, exf_p1); (22, Prog 22 (Some "plan") [])] [("plan", 22)]),
    exf_p1, (Prog 22 (Some "plan") []), "plan".
  split.
  { exists None, false, [], [], (Pile [] [] None false), []. repeat split; auto. }
  unfold held, carries; simpl. intuition discriminate.
Qed.
Print Assumptions C15_constructed_names_refuted.

(** Construction from an items pile and progressions: refused exactly for duplicate ids and for
    references to missing items; the last progression of a name is found by name. *)
Theorem C14_constructed sub its ps : reachable sub its ->
  match flow_new its ps with
  | Ret f => NoDup (map pg_id ps) /\ f_items f = its /\ (forall p, held f p <-> In p ps) /\ integrity f /\
             (forall p, In p ps -> get_progression f (FId (pg_id p)) = Ret (FProgV p)) /\
             (forall a p b s parsed, ps = a ++ p :: b -> carries p s -> (forall q, In q b -> ~ carries q s) ->
                get_progression f (FStr s parsed) = Ret (FProgV p)) /\
             (forall s, (forall p, In p ps -> ~ carries p s) -> get_progression f (FStr s None) = Raise KeyError)
  | Raise e => (e = ExistsError /\ ~ NoDup (map pg_id ps)) \/
               (e = NotFoundError /\ NoDup (map pg_id ps) /\
                exists p u, In p ps /\ In u (pg_order p) /\ pile_contains its (RId u) = false)
  end.
Proof. exact (ProofsFlow.constructed sub its ps). Qed.
Print Assumptions C14_constructed.

(** Exactly when a progression is refused: a held one carries its name, it lists a missing item,
    or its id is held. *)
Theorem C15_add_progression_outcome sub f0 ops p f : fresh_flow sub f0 -> f = flow_run sub f0 ops ->
  let out := snd (flow_step sub f (FAddProg p)) in
  let taken := exists q s, held f q /\ carries q s /\ carries p s in
  let missing := exists u, In u (pg_order p) /\ pile_contains (f_items f) (RId u) = false in
  let present := exists q, held f q /\ pg_id q = pg_id p in
  (taken -> out = Raise ExistsError) /\
  (~ taken -> missing -> out = Raise NotFoundError) /\
  (~ taken -> ~ missing -> present -> out = Raise ExistsError) /\
  (~ taken -> ~ missing -> ~ present -> out = Ret FUnit).
Proof. exact (ProofsFlow.add_progression_outcome sub f0 ops p f). Qed.
Print Assumptions C15_add_progression_outcome.

(** What removing returns: the progression of the name, else the one with the id. *)
Theorem C15_remove_progression_outcome sub f0 ops r f : fresh_flow sub f0 -> f = flow_run sub f0 ops ->
  let out := snd (flow_step sub f (FRemProg r)) in
  let by_id u := (forall p, held f p -> pg_id p = u -> out = Ret (FProgV p)) /\
                 ((forall p, held f p -> pg_id p <> u) -> out = Raise NotFoundError) in
  match r with
  | FStr s parsed =>
      (forall p, held f p -> carries p s -> out = Ret (FProgV p)) /\
      ((forall p, held f p -> ~ carries p s) ->
         match parsed with None => out = Raise ValueError | Some u => by_id u end)
  | FId u => by_id u
  | FInst p _ => by_id (pg_id p)
  end.
Proof. exact (ProofsFlow.remove_progression_outcome sub f0 ops r f). Qed.
Print Assumptions C15_remove_progression_outcome.

(** What removing an item returns. *)
Theorem C16_remove_item_outcome sub f0 ops r f : fresh_flow sub f0 -> f = flow_run sub f0 ops ->
  let out := snd (flow_step sub f (FRemItem r)) in
  match coerce_id r with
  | Raise e => out = Raise e
  | Ret u => if pile_contains (f_items f) (RId u) then exists x, out = Ret (FItemV x) /\ iid x = u
             else out = Raise NotFoundError
  end.
Proof. exact (ProofsFlow.remove_item_outcome sub f0 ops r f). Qed.
Print Assumptions C16_remove_item_outcome.

(** Adding an item that the pile accepts succeeds if every designator names a held progression;
    otherwise it fails as looking up the first one that does not. *)
Theorem C16_add_item_outcome sub f0 ops x rs f v its : fresh_flow sub f0 -> f = flow_run sub f0 ops ->
  pile_step sub (f_items f) (PAdd (OElem x)) = (its, Ret v) ->
  ((forall r, In r rs -> resolves f r) -> snd (flow_step sub f (FAddItem (OElem x) rs)) = Ret FUnit) /\
  (forall a r b e, rs = a ++ r :: b -> (forall r', In r' a -> resolves f r') ->
     match r with FInst _ _ => False | _ => True end -> snd (flow_step sub f (FGetProg r)) = Raise e ->
     snd (flow_step sub f (FAddItem (OElem x) rs)) = Raise e).
Proof. exact (ProofsFlow.add_item_outcome sub f0 ops x rs f v its). Qed.
Print Assumptions C16_add_item_outcome.

Example C14_ex_constructed :
  let a := Prog 30 (Some "plan") [10] in let b := Prog 31 (Some "plan") [] in
  let its := fst (pile_step ex_sub (Pile [] [] None false) (PAdd (OElem ex_a))) in
  (exists f, flow_new its [a; b] = Ret f /\ get_progression f (FStr "plan" None) = Ret (FProgV b)) /\
  flow_new its [b; Prog 32 None [11]; a] = Raise NotFoundError /\ flow_new its [b; b] = Raise ExistsError.
Proof. repeat split. eexists. repeat split. Qed.
Example C15_ex_outcome :
  snd (flow_step ex_sub exf (FAddProg (Prog 40 (Some "plan") [99]))) = Raise ExistsError /\
  snd (flow_step ex_sub exf (FAddProg (Prog 20 None [99]))) = Raise NotFoundError /\
  snd (flow_step ex_sub exf (FAddProg (Prog 20 None [10]))) = Raise ExistsError /\
  snd (flow_step ex_sub exf (FRemProg (FStr "nope" None))) = Raise ValueError /\
  snd (flow_step ex_sub exf (FRemProg (FId 99))) = Raise NotFoundError /\
  snd (flow_step ex_sub exf (FAddItem (OElem ex_c) [FId 20; FId 99; FStr "nope" None])) = Raise NotFoundError /\
  snd (flow_step ex_sub exf (FAddItem (OElem ex_c) [FId 20; FStr "plan" None])) = Ret FUnit.
Proof. repeat split. Qed.

(** Passing the Progression instance itself never returns it, although the
    signature admits it. *)
Theorem C15_get_by_instance_refuted : forall f p st q,
  get_progression f (FInst p st) <> Ret (FProgV q).
Proof.
  intros f p st q H. unfold get_progression, filter_progs in H.
  destruct (existsb _ _); [discriminate|].
  match type of H with ?F [] ?l = _ =>
    assert (G : forall ps seen, F seen ps <> Ret (FProgV q)) end.
  { induction ps as [|a t IH]; intros seen; simpl; [discriminate|].
    destruct (memb _ _); [discriminate | apply IH]. }
  eapply G; eauto.
Qed.
Print Assumptions C15_get_by_instance_refuted.

Example C15_get_by_instance_ex :
  get_progression exf (FInst (Prog 20 (Some "plan") [10; 11]) true) = Raise NotFoundError /\
  get_progression (flow_run ex_sub exf0 [FAddProg exf_p1]) (FInst exf_p1 true) = Ret (FPileV []).
Proof. split; reflexivity. Qed.

(** C16 *)
Theorem C16_progression_ops_atomic : forall sub f0 ops o e f, fresh_flow sub f0 ->
  f = flow_run sub f0 ops ->
  match o with FAddProg _ | FRemProg _ | FGetProg _ => True | _ => False end ->
  snd (flow_step sub f o) = Raise e -> fst (flow_step sub f o) = f.
Proof. exact raise_unchanged_progs. Qed.
Print Assumptions C16_progression_ops_atomic.

Theorem C16_remove_item_atomic : forall sub f0 ops r e f, fresh_flow sub f0 ->
  f = flow_run sub f0 ops -> integrity f ->
  snd (flow_step sub f (FRemItem r)) = Raise e -> fst (flow_step sub f (FRemItem r)) = f.
Proof. exact remove_item_atomic. Qed.
Print Assumptions C16_remove_item_atomic.

Theorem C16_add_item_refused_by_pile : forall sub f o rs e,
  snd (pile_step sub (f_items f) (PAdd o)) = Raise e ->
  flow_step sub f (FAddItem o rs) = (f, Raise e).
Proof. exact add_item_refused_unchanged. Qed.
Print Assumptions C16_add_item_refused_by_pile.

Example C16_ex : flow_step ex_sub exf (FRemItem (RId 99)) = (exf, Raise NotFoundError) /\
  flow_step ex_sub exf (FAddProg (Prog 30 None [99])) = (exf, Raise NotFoundError) /\
  flow_step ex_sub exf (FAddItem (OElem ex_a) [FId 20]) = (exf, Raise ExistsError).
Proof. repeat split. Qed.

(** add_item with an unknown progression raises after storing the item and after
    appending to the progressions named before it. *)
Theorem C16_add_item_refuted : exists sub f0 ops x rs f e, fresh_flow sub f0 /\
  f = flow_run sub f0 ops /\ snd (flow_step sub f (FAddItem (OElem x) rs)) = Raise e /\
  pile_contains (f_items f) (RId (iid x)) = false /\
  pile_contains (f_items (fst (flow_step sub f (FAddItem (OElem x) rs)))) (RId (iid x)) = true /\
  f_progs (fst (flow_step sub f (FAddItem (OElem x) rs))) <> f_progs f.
Proof.
  exists ex_sub, exf0, exf_ops, ex_c, [FId 20; FStr "nope" None], exf, KeyError.
  split; [exact exf_fresh|]. repeat split; try reflexivity. discriminate.
Qed.
Print Assumptions C16_add_item_refuted.
