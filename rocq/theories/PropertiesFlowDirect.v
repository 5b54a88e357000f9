(** Property C125: flows whose parts are used directly. *)
From Coq Require Import String.
From Coq Require Import List ZArith Bool Arith Lia.
From Verif Require Import PyBase PyFacts ModelProgression ModelPile ModelFlow SpecPile ProofsPile SpecFlow ProofsFlow ModelFlowDirect PropertiesPile PropertiesFlow.
Import ListNotations.
Local Open Scope nat_scope.

(** Nothing is renamed, and progressions come and go through the flow. *)
Definition mild (o : direct_op) : Prop := match o with DRename _ _ | DProgsAdd _ | DProgsRemove _ => False | _ => True end.
(** No progression is removed. *)
Definition keeping (o : direct_op) : Prop := match o with DFlow (FRemProg _) | DProgsRemove _ => False | _ => True end.

Section C125.
  Variable sub : cls -> cls -> bool.

  Lemma mild_step f o : mild o -> Base sub f -> Names f -> Base sub (fst (direct_step sub f o)) /\ Names (fst (direct_step sub f o)).
  Proof.
    intros M B N. destruct o; try contradiction; cbn [direct_step].
    - apply step_inv; assumption.
    - unfold edit. destruct (dget u (f_progs f)) as [p|] eqn:D; [|auto]. cbn [fst]. split; [eapply Base_reprog|eapply Names_reprog]; eauto.
    - cbn [fst]. split; [|destruct N; constructor; auto]. destruct B as [[l R] B2 B3]. constructor; auto. cbn.
      pose proof (pile_run_refines sub [o] _ _ R) as H. cbn in H. eexists. exact (proj1 H).
  Qed.
  Lemma mild_run ops f : Forall mild ops -> Base sub f -> Names f -> Base sub (direct_run sub f ops) /\ Names (direct_run sub f ops).
  Proof.
    intros H. revert f. induction H as [|o ops M _ IH]; intros f B N; [auto|]. destruct (mild_step f o M B N) as [B' N']. exact (IH _ B' N').
  Qed.

  (** ** C125 *)
  (** However orders and items are changed directly: names stay unique, and a name finds the progression carrying it. *)
  Theorem C125_names f0 ops : fresh_flow sub f0 -> Forall mild ops -> let f := direct_run sub f0 ops in
    (forall p q s, held f p -> held f q -> carries p s -> carries q s -> p = q) /\
    (forall p s parsed, held f p -> carries p s -> get_progression f (FStr s parsed) = Ret (FProgV p)) /\
    (forall s, (forall p, held f p -> ~ carries p s) -> get_progression f (FStr s None) = Raise KeyError).
  Proof.
    intros F M f. destruct (fresh_inv sub f0 F) as (B0 & N0 & _). destruct (mild_run ops f0 M B0 N0) as [B N]. fold f in B, N. split; [|split].
    - intros p q s Hp Hq Cp Cq. pose proof (held_name _ _ _ _ B N Hp Cp). pose proof (held_name _ _ _ _ B N Hq Cq).
      pose proof (held_id _ _ _ B Hp). pose proof (held_id _ _ _ B Hq). congruence.
    - intros p s parsed Hp Cp. cbn. rewrite (held_name _ _ _ _ B N Hp Cp), (held_id _ _ _ B Hp). reflexivity.
    - intros s A. cbn. destruct (dget s (f_names f)) as [u|] eqn:D; [|reflexivity].
      destruct (name_held _ _ _ _ B N D) as (p & Hp & Cp & _). destruct (A p Hp Cp).
  Qed.

  (** What holds whatever is done. *)
  Record sane (f : flow) : Prop := {
    k_progs : NoDup (dkeys (f_progs f));
    k_ids : forall u p, dget u (f_progs f) = Some p -> pg_id p = u;
    k_names : NoDup (dkeys (f_names f))
  }.
  Definition keeps (f g : flow) : Prop :=
    (forall s u, dget s (f_names f) = Some u -> dget s (f_names g) = Some u) /\ (forall u, dmem u (f_progs f) = true -> dmem u (f_progs g) = true).
  Lemma keeps_refl f : keeps f f.
  Proof. split; auto. Qed.
  Lemma keeps_trans f g h : keeps f g -> keeps g h -> keeps f h.
  Proof. intros [A B] [C D]. split; auto. Qed.
  Lemma dmem_dset (d : dict uuid prog) u p v : dmem v d = true -> dmem v (dset u p d) = true.
  Proof.
    intros H. unfold dmem in *. rewrite dget_dset. destruct (eqb v u); [reflexivity|exact H].
  Qed.
  Lemma sane_set f u p : sane f -> pg_id p = u -> sane (set_progs f (dset u p (f_progs f))) /\ keeps f (set_progs f (dset u p (f_progs f))).
  Proof.
    intros [A B C] Q. split; [|split; cbn; [auto|intros v; apply dmem_dset]]. constructor; cbn; auto.
    - apply dkeys_dset_NoDup, A.
    - intros v q. rewrite dget_dset. destruct (eqb_spec v u) as [->|]; [intros [= <-]; exact Q|apply B].
  Qed.
  Lemma sane_attach f u r : sane f -> sane (fst (attach f u r)) /\ keeps f (fst (attach f u r)).
  Proof.
    intros S. assert (G : sane (fst (match get_progression f r with
        | Ret (FProgV p) => (set_progs f (dset (pg_id p) (append_to u p) (f_progs f)), Ret FUnit)
        | Ret _ => (f, Raise AttributeError)
        | Raise e => (f, Raise e)
        end)) /\ keeps f (fst (match get_progression f r with
        | Ret (FProgV p) => (set_progs f (dset (pg_id p) (append_to u p) (f_progs f)), Ret FUnit)
        | Ret _ => (f, Raise AttributeError)
        | Raise e => (f, Raise e)
        end))).
    { destruct (get_progression f r) as [[| p | |]|]; cbn [fst]; try (split; [exact S|apply keeps_refl]). apply sane_set; [exact S|reflexivity]. }
    destruct r as [s parsed|v|p [|]]; try exact G; cbn [attach].
    - destruct (dget (pg_id p) (f_progs f)) as [q|] eqn:D; cbn [fst]; [|split; [exact S|apply keeps_refl]].
      apply sane_set; [exact S|]. cbn. apply (k_ids f S _ _ D).
    - cbn [fst]. split; [exact S|apply keeps_refl].
  Qed.
  Lemma sane_attach_all rs : forall f u, sane f -> sane (fst (attach_all f u rs)) /\ keeps f (fst (attach_all f u rs)).
  Proof.
    induction rs as [|r rs IH]; intros f u S; cbn; [split; [exact S|apply keeps_refl]|].
    destruct (sane_attach f u r S) as [S' K]. destruct (attach f u r) as [f' [v|e]]; cbn [fst] in *; [|auto].
    destruct (IH f' u S') as [S2 K2]. split; [exact S2|]. eapply keeps_trans; eauto.
  Qed.
  Lemma sane_items f its : sane f -> sane (Flow its (f_progs f) (f_names f)) /\ keeps f (Flow its (f_progs f) (f_names f)).
  Proof. intros [A B C]. split; [constructor; auto|split; auto]. Qed.
  Lemma sane_strip f its u : sane f -> let g := Flow its (map (fun kv => (fst kv, strip u (snd kv))) (f_progs f)) (f_names f) in sane g /\ keeps f g.
  Proof.
    intros [A B C]. split.
    - constructor; cbn [f_progs f_names]; auto; [rewrite dkeys_map_vals; exact A|]. intros v p. rewrite dget_map_vals.
      destruct (dget v (f_progs f)) as [q|] eqn:D; [|discriminate]. intros [= <-]. rewrite strip_id. apply B, D.
    - split; cbn [f_progs f_names]; auto. intros v. rewrite !dmem_true, dkeys_map_vals. auto.
  Qed.
  Lemma sane_remove_item f r : sane f -> sane (fst (remove_item f r)) /\ keeps f (fst (remove_item f r)).
  Proof.
    intros S. unfold remove_item. destruct (coerce_id r) as [u|]; [|split; [exact S|apply keeps_refl]].
    destruct (pile_remove (f_items f) (RId u)) as [its [[]|]]; apply sane_strip; exact S.
  Qed.
  Lemma sane_add_progression f p : sane f -> sane (fst (add_progression f p)) /\ keeps f (fst (add_progression f p)).
  Proof.
    intros S. unfold add_progression.
    destruct (truthy_name (pg_name p)) as [s|].
    - destruct (dmem s (f_names f)) eqn:Ds; [split; [exact S|apply keeps_refl]|].
      destruct (missing_refs f p); [split; [exact S|apply keeps_refl]|]. destruct (dmem (pg_id p) (f_progs f)); [split; [exact S|apply keeps_refl]|].
      cbn [fst]. destruct (sane_set f (pg_id p) p S eq_refl) as [[A B C] [K1 K2]]. cbn in *. split.
      + constructor; cbn; auto. apply dkeys_dset_NoDup, C.
      + split; cbn; [|exact K2]. intros t u D. rewrite dget_dset. destruct (eqb_spec t s) as [->|]; [|exact D].
        unfold dmem in Ds. rewrite D in Ds. discriminate Ds.
    - destruct (missing_refs f p); [split; [exact S|apply keeps_refl]|]. destruct (dmem (pg_id p) (f_progs f)); [split; [exact S|apply keeps_refl]|].
      apply sane_set; [exact S|reflexivity].
  Qed.
  Lemma keeping_step f o : keeping o -> sane f -> sane (fst (direct_step sub f o)) /\ keeps f (fst (direct_step sub f o)).
  Proof.
    intros Kp S. destruct o as [[p|r|r|o rs|r]|u l|u nm|o|p|u]; try contradiction; cbn [direct_step flow_step fst].
    - apply sane_add_progression, S.
    - split; [exact S|apply keeps_refl].
    - unfold add_item. destruct (pile_add sub (f_items f) o) as [its [v|e]]; [|split; [exact S|apply keeps_refl]].
      destruct o as [x|]; [|split; [exact S|apply keeps_refl]]. destruct (sane_items f its S) as [S1 K1].
      destruct (sane_attach_all rs _ (iid x) S1) as [S2 K2]. split; [exact S2|exact (keeps_trans _ _ _ K1 K2)].
    - apply sane_remove_item, S.
    - unfold edit. destruct (dget u (f_progs f)) as [p|] eqn:D; [|split; [exact S|apply keeps_refl]]. apply sane_set; [exact S|]. apply (k_ids f S _ _ D).
    - unfold edit. destruct (dget u (f_progs f)) as [p|] eqn:D; [|split; [exact S|apply keeps_refl]]. apply sane_set; [exact S|]. apply (k_ids f S _ _ D).
    - apply sane_items, S.
    - destruct (dmem (pg_id p) (f_progs f)); [split; [exact S|apply keeps_refl]|]. apply sane_set; [exact S|reflexivity].
  Qed.
  Lemma sane_drop f u names : sane f -> NoDup (dkeys names) -> sane (Flow (f_items f) (ddel u (f_progs f)) names).
  Proof.
    intros [A B C] N. constructor; cbn; auto; [apply dkeys_ddel_NoDup, A|]. intros v p D.
    destruct (eqb_spec v u) as [->|Ne]; [rewrite dget_ddel_same in D by exact A; discriminate|]. rewrite dget_ddel_other in D by exact Ne. apply B, D.
  Qed.
  Lemma sane_remove_progression f r : sane f -> sane (fst (remove_progression f r)).
  Proof.
    intros S. pose proof (k_names f S) as N.
    assert (G : sane (fst (remove_by_id f r))).
    { unfold remove_by_id. destruct (coerce_fref r) as [u|]; [|exact S]. destruct (dget u (f_progs f)) as [p|]; [|exact S]. cbn [fst]. apply sane_drop; [exact S|].
      destruct (truthy_name (pg_name p)) as [s|]; [|exact N]. destruct (dmem s (f_names f)); [apply dkeys_ddel_NoDup, N|exact N]. }
    unfold remove_progression. destruct r as [s parsed|v|p st]; try exact G. destruct (dget s (f_names f)) as [u|]; [|exact G].
    destruct (dget u (f_progs f)) as [p|]; cbn [fst]; [apply sane_drop; [exact S|apply dkeys_ddel_NoDup, N]|].
    destruct S as [A B C]. constructor; cbn; auto. apply dkeys_ddel_NoDup, N.
  Qed.
  Lemma sane_step f o : sane f -> sane (fst (direct_step sub f o)).
  Proof.
    intros S. assert (keeping o \/ ~ keeping o) as [K|K] by (destruct o as [[]| | | | |]; cbn; auto).
    - apply keeping_step; assumption.
    - destruct o as [[p|r|r|o rs|r]|u l|u nm|o|p|u]; try (destruct (K Logic.I)); cbn [direct_step flow_step].
      + apply sane_remove_progression, S.
      + destruct (dget u (f_progs f)) as [p|]; [|exact S]. exact (sane_drop f u (f_names f) S (k_names f S)).
  Qed.
  Lemma sane_run ops : forall f, sane f -> sane (direct_run sub f ops).
  Proof. induction ops as [|o ops IH]; intros f S; [exact S|]. apply IH, sane_step, S. Qed.
  Lemma keeping_run ops f : Forall keeping ops -> sane f -> keeps f (direct_run sub f ops).
  Proof.
    intros H. revert f. induction H as [|o ops M _ IH]; intros f S; [apply keeps_refl|]. destruct (keeping_step f o M S) as [S' K].
    eapply keeps_trans; [exact K|]. exact (IH _ S').
  Qed.
  Lemma sane_fresh f : fresh_flow sub f -> sane f.
  Proof. intros F. destruct (fresh_inv sub f F) as (B & N & _). constructor; [apply B|apply B|apply N]. Qed.

  (** Whatever was done before: a progression added under a name is found under that name, whatever it and others are
      called by then, as long as no progression is removed. *)
  Theorem C125_found f0 ops p s ops' parsed f1 : fresh_flow sub f0 -> carries p s ->
    add_progression (direct_run sub f0 ops) p = (f1, Ret FUnit) -> Forall keeping ops' ->
    exists q, get_progression (direct_run sub f1 ops') (FStr s parsed) = Ret (FProgV q) /\ pg_id q = pg_id p.
  Proof.
    intros F C A K. pose proof (sane_run ops f0 (sane_fresh f0 F)) as S. set (f := direct_run sub f0 ops) in *.
    assert (S1 : sane f1) by (pose proof (proj1 (sane_add_progression f p S)) as X; rewrite A in X; exact X).
    assert (D : dget s (f_names f1) = Some (pg_id p) /\ dmem (pg_id p) (f_progs f1) = true).
    { unfold add_progression in A. rewrite (proj2 (truthy_carries p s) C) in A.
      destruct (dmem s (f_names f)); [discriminate|]. destruct (missing_refs f p); [discriminate|]. destruct (dmem (pg_id p) (f_progs f)); [discriminate|].
      injection A as <-. cbn. unfold dmem. rewrite !dget_dset_same. auto. }
    destruct (keeping_run ops' f1 K S1) as [K1 K2]. destruct D as [D1 D2]. apply K1 in D1. apply K2 in D2.
    assert (S2 : sane (direct_run sub f1 ops')) by (apply sane_run, S1).
    cbn. rewrite D1. unfold dmem in D2. destruct (dget (pg_id p) (f_progs (direct_run sub f1 ops'))) as [q|] eqn:E; [|discriminate].
    exists q. split; [reflexivity|apply (k_ids _ S2 _ _ E)].
  Qed.
  (** Whatever was done before: after remove_progression of a text nothing has it as its name, also when it raises
      because the progression is gone; another progression can take it. *)
  Theorem C125_freed f0 ops s parsed q : fresh_flow sub f0 -> let f := direct_run sub f0 ops in
    let f1 := fst (remove_progression f (FStr s parsed)) in
    carries q s -> (forall p, held f1 p -> pg_id p <> pg_id q) ->
    (forall u, In u (pg_order q) -> In u (pile_keys (f_items f1))) ->
    snd (add_progression f1 q) = Ret FUnit.
  Proof.
    intros F f f1 C Nq R. pose proof (sane_run ops f0 (sane_fresh f0 F)) as S. fold f in S.
    assert (S1 : sane f1) by apply sane_remove_progression, S.
    assert (Ns : dget s (f_names f1) = None).
    { unfold f1, remove_progression. destruct (dget s (f_names f)) as [u|] eqn:E.
      - destruct (dget u (f_progs f)); cbn; apply dget_ddel_same, (k_names f S).
      - unfold remove_by_id. destruct (coerce_fref (FStr s parsed)) as [u|]; [|exact E]. destruct (dget u (f_progs f)) as [p|]; [|exact E]. cbn [fst f_names].
        destruct (truthy_name (pg_name p)) as [t|]; [|exact E]. destruct (dmem t (f_names f)) eqn:Dt; [|exact E].
        destruct (eqb_spec s t) as [->|Ne]; [unfold dmem in Dt; rewrite E in Dt; discriminate|]. rewrite dget_ddel_other by exact Ne. exact E. }
    unfold add_progression. rewrite (proj2 (truthy_carries q s) C). unfold dmem at 1. rewrite Ns.
    assert (M : missing_refs f1 q = false).
    { unfold missing_refs. destruct (existsb _ (pg_order q)) eqn:X; [|reflexivity]. apply existsb_exists in X. destruct X as (u & I & X).
      apply R in I. apply (proj2 (memb_In u _)) in I. rewrite I in X. discriminate. }
    rewrite M. unfold dmem. destruct (dget (pg_id q) (f_progs f1)) as [p|] eqn:D; [|reflexivity].
    exfalso. apply (Nq p); [|apply (k_ids f1 S1 _ _ D)]. unfold held, dvals. apply in_map_iff. exists (pg_id q, p). split; [reflexivity|]. apply dget_In, D.
  Qed.
  (** In any state in which no progression lists an id twice: after remove_item no progression lists the id, also when it
      raises because the item is not stored; nothing else changes in them. *)
  Theorem C125_cleaned f r u : no_repeats f -> coerce_id r = Ret u -> let f1 := fst (remove_item f r) in
    (forall p, held f1 p -> ~ In u (pg_order p)) /\
    (forall p, held f p -> exists q, held f1 q /\ pg_id q = pg_id p /\ pg_name q = pg_name p /\ pg_order q = filter (fun v => negb (v =? u)) (pg_order p)) /\
    (pile_contains (f_items f) (RId u) = false -> snd (remove_item f r) = Raise NotFoundError).
  Proof.
    intros N Cr f1.
    assert (P : f_progs f1 = map (fun kv => (fst kv, strip u (snd kv))) (f_progs f)).
    { unfold f1, remove_item. rewrite Cr. destruct (pile_remove (f_items f) (RId u)) as [its [[]|]]; reflexivity. }
    assert (O : forall p, NoDup (pg_order p) -> pg_order (strip u p) = filter (fun v => negb (v =? u)) (pg_order p)).
    { assert (Fx : forall l, ~ In u l -> filter (fun v => negb (v =? u)) l = l).
      { induction l as [|v l IH]; intros Nl; [reflexivity|]. cbn in *. destruct (Nat.eqb_spec v u); [tauto|]. cbn. f_equal. tauto. }
      intros p D. unfold strip. destruct (remove_first u (pg_order p)) as [l|] eqn:E; [|symmetry; apply Fx, remove_first_None, E].
      apply remove_first_Some in E. destruct E as (l1 & l2 & E & -> & Ni). cbn. rewrite E in *. rewrite filter_app. cbn. rewrite Nat.eqb_refl. cbn.
      apply NoDup_remove_2 in D. rewrite in_app_iff in D. rewrite !Fx; tauto. }
    split; [|split].
    - intros p. unfold held, dvals. rewrite P, map_map, in_map_iff. intros ([k q] & <- & I) J. cbn in J.
      assert (H : held f q) by (unfold held, dvals; apply in_map_iff; exists (k, q); auto). rewrite O in J by apply N, H.
      apply filter_In in J. destruct J as [_ J]. rewrite Nat.eqb_refl in J. discriminate.
    - intros p H. exists (strip u p). split; [|split; [apply strip_id|split; [apply strip_name|apply O, N, H]]].
      unfold held, dvals in *. rewrite P, map_map. apply in_map_iff in H. destruct H as ([k q] & <- & I). apply in_map_iff. exists (k, q). auto.
    - intros C. unfold remove_item. rewrite Cr. cbn in C. unfold dmem in C. unfold pile_remove. cbn [coerce_id]. destruct (dget u (p_items (f_items f))); [discriminate|reflexivity].
  Qed.
End C125.
Print Assumptions C125_names.
Print Assumptions C125_found.
Print Assumptions C125_freed.
Print Assumptions C125_cleaned.

Definition ex125_q := Prog 22 (Some "draft"%string) [].
Definition ex125 := direct_run ex_sub exf0 [DFlow (FAddProg exf_p1); DFlow (FAddProg ex125_q); DRename 22 (Some "plan"%string)].

(** With renaming, two progressions may carry one name; removing the renamed one by its id then makes the other
    unfindable by its name, though it is there, and the name that nobody carries any more stays taken. *)
Theorem C125_renamed_refuted : exists f0 ops p q s t, fresh_flow ex_sub f0 /\ let f := direct_run ex_sub f0 ops in
  held f p /\ held f q /\ p <> q /\ carries p s /\ carries q s /\
  let g := fst (remove_progression f (FId (pg_id q))) in
  held g p /\ get_progression g (FStr s None) = Raise KeyError /\
  (forall r, held g r -> ~ carries r t) /\ get_progression g (FStr t None) = Raise NotFoundError /\
  (forall r, carries r t -> add_progression g r = (g, Raise ExistsError)).
Proof.
  exists exf0, [DFlow (FAddProg exf_p1); DFlow (FAddProg ex125_q); DRename 22 (Some "plan"%string)], exf_p1, (Prog 22 (Some "plan"%string) []), "plan"%string, "draft"%string.
  split; [apply exf_fresh|]. cbn. split; [left; reflexivity|]. split; [right; left; reflexivity|]. split; [discriminate|].
  split; [split; [reflexivity|discriminate]|]. split; [split; [reflexivity|discriminate]|]. split; [left; reflexivity|]. split; [reflexivity|].
  split; [intros r [<-|[]] [H _]; discriminate H|]. split; [reflexivity|].
  intros r C. unfold add_progression. rewrite (proj2 (truthy_carries r _) C). reflexivity.
Qed.
Print Assumptions C125_renamed_refuted.
(** A progression added through flow.progressions is not found by its name; one removed there keeps its name taken. *)
Theorem C125_progressions_refuted :
  (exists f0 p s, fresh_flow ex_sub f0 /\ carries p s /\ let f := direct_run ex_sub f0 [DProgsAdd p] in
     held f p /\ get_progression f (FStr s None) = Raise KeyError /\
     forall q, carries q s -> pg_order q = [] -> pg_id q <> pg_id p -> snd (add_progression f q) = Ret FUnit) /\
  (exists f0 p s, fresh_flow ex_sub f0 /\ carries p s /\ let f := direct_run ex_sub f0 [DFlow (FAddProg p); DProgsRemove (pg_id p)] in
     (forall q, ~ held f q) /\ add_progression f p = (f, Raise ExistsError) /\ get_progression f (FStr s None) = Raise NotFoundError).
Proof.
  split; exists exf0, exf_p1, "plan"%string; (split; [apply exf_fresh|]); (split; [split; [reflexivity|discriminate]|]); cbn.
  - split; [left; reflexivity|]. split; [reflexivity|]. intros q C O N. unfold add_progression. rewrite (proj2 (truthy_carries q _) C). cbn.
    unfold missing_refs. rewrite O. cbn. unfold dmem. cbn [dget]. destruct (eqb_spec (pg_id q) 20) as [X|]; [destruct (N X)|reflexivity].
  - split; [intros q []|]. split; reflexivity.
Qed.
Print Assumptions C125_progressions_refuted.

(** Appending an unknown id to a progression directly: the id is listed without an item; remove_item raises, and clears it. *)
Example C125_ex_dangling : let f := direct_run ex_sub exf0 [DFlow (FAddProg exf_p1); DOrder 20 [99; 98]] in
  integrity f -> False.
Proof. intros f I. specialize (I (Prog 20 (Some "plan"%string) [99; 98]) 99 (or_introl eq_refl) (or_introl eq_refl)). discriminate I. Qed.
Example C125_ex_cleaned : let f := direct_run ex_sub exf0 [DFlow (FAddProg exf_p1); DOrder 20 [99; 98]] in
  remove_item f (RId 99) = (direct_run ex_sub f [DOrder 20 [98]], Raise NotFoundError).
Proof. reflexivity. Qed.
Example C125_ex_mild : let f := direct_run ex_sub exf0 [DFlow (FAddProg exf_p1); DItems (PAdd (OElem ex_a)); DOrder 20 [10; 10]; DItems (PRemove (RId 10)); DFlow (FAddProg ex125_q)] in
  get_progression f (FStr "plan" None) = Ret (FProgV (Prog 20 (Some "plan"%string) [10; 10])) /\
  get_progression f (FStr "draft" None) = Ret (FProgV ex125_q) /\ snd (add_progression f (Prog 30 (Some "plan"%string) [])) = Raise ExistsError.
Proof. repeat split. Qed.
(** Renamed, but still found under the name it was added with, and not under the new one. *)
Example C125_ex_found : let f := direct_run ex_sub exf0 [DFlow (FAddProg exf_p1); DRename 20 (Some "new"%string)] in
  get_progression f (FStr "plan" None) = Ret (FProgV (Prog 20 (Some "new"%string) [])) /\ get_progression f (FStr "new" None) = Raise KeyError.
Proof. split; reflexivity. Qed.
(** A name whose progression was removed through flow.progressions: removing it raises, and frees it. *)
Example C125_ex_freed : let f := direct_run ex_sub exf0 [DFlow (FAddProg exf_p1); DProgsRemove 20] in
  let f1 := fst (remove_progression f (FStr "plan" None)) in
  snd (remove_progression f (FStr "plan" None)) = Raise NotFoundError /\ snd (add_progression f exf_p1) = Raise ExistsError /\
  snd (add_progression f1 exf_p1) = Ret FUnit.
Proof. repeat split. Qed.
Example C125_ex_progs : snd (direct_step ex_sub ex125 (DProgsAdd (Prog 20 None []))) = Raise ExistsError /\
  direct_step ex_sub ex125 (DProgsRemove 77) = (ex125, Raise NotFoundError) /\
  snd (direct_step ex_sub ex125 (DProgsRemove 22)) = Ret (FProgV (Prog 22 (Some "plan"%string) [])).
Proof. repeat split. Qed.
