(** C69, C82, continued: which data load, and flows given as lists. *)
From Coq Require Import String.
From Coq Require Import List ZArith Bool Arith Lia.
From Verif Require Import PyBase PyFacts ModelSerde ModelSerdeGraph SpecSerde ProofsSerde ProofsSerdePile PropertiesSerde.
Import ListNotations.
Local Open Scope string_scope.
Local Open Scope nat_scope.
Local Open Scope list_scope.

Ltac all_bad :=
  repeat match goal with |- context [match ?e with _ => _ end] => is_var e; destruct e; cbn [both bind] end;
  (split; [|split];
  [intros [? ? ?]; cbn; split; [discriminate|intros (? & ? & ? & ?); discriminate]
  |intros ? ? [?|[?|?]]; congruence
  |intros ? _; eexists; split; [reflexivity|]; tauto]).

Section Load.
  Variable E : env.

  (** Data that fit a class: no unknown entry, an id and a time that can be read,
      and every field either can be loaded or is absent and has a default. *)
  Definition fit (c : nat) (d : data) : Prop :=
    (forall k v, In (k, v) d -> In k (["id"; "created_at"; "metadata"] ++ own_fields E c)) /\
    (forall v, dget "id" d = Some v -> exists n, to_uuid E v = Ret n) /\
    (forall v, dget "created_at" d = Some v -> exists t, coerce_created E v = Ret t) /\
    (forall k, In k (own_fields E c) ->
       match dget k d with Some v => exists w, fload E c k v = Ret w | None => fdefault E c k <> None end).

  Lemma collect_all {A B} (f : A -> outcome B) l :
    (exists ys, collect f l = Ret ys) <-> forall x, In x l -> exists y, f x = Ret y.
  Proof.
    induction l as [|a l IH]; cbn; [split; [intros _ x []|eauto]|]. split.
    - intros [ys H]. destruct (f a) as [y|] eqn:F; [|discriminate]. cbn in H.
      destruct (collect f l) as [zs|]; [|discriminate]. intros x [<-|Hx]; [eauto|]. apply IH; eauto.
    - intros H. destruct (H a (or_introl eq_refl)) as [y ->]. cbn.
      destruct (proj2 IH) as [zs ->]; [intros x Hx; apply H; auto|]. cbn. eauto.
  Qed.

  Lemma collect_error {A B} (f : A -> outcome B) e l x :
    (forall a y, f a = Raise y -> y = e) -> collect f l = Raise x -> x = e.
  Proof.
    intros H. induction l as [|a l IH]; cbn; [discriminate|]. destruct (f a) eqn:F; cbn.
    - destruct (collect f l); cbn; [discriminate|]. intros [= <-]. auto.
    - intros [= <-]. eauto.
  Qed.

  (** from_dict builds the element exactly if the data fit; otherwise, unless a
      validator of a field raises something else, ValueError. *)
  Theorem C69_fit c d :
    ((exists e, model_validate E c d = Ret e) <-> fit c d) /\
    ((forall k v x, fload E c k v = Raise x -> x = ValueError) -> ~ fit c d -> model_validate E c d = Raise ValueError).
  Proof.
    assert (K : forallb (fun '(k, _) => known E c k) d = true <->
                forall k v, In (k, v) d -> In k (["id"; "created_at"; "metadata"] ++ own_fields E c)).
    { rewrite forallb_forall. split.
      - intros H k v I. specialize (H (k, v) I). cbn beta iota in H. unfold known in H. apply existsb_exists in H.
        destruct H as (j & J & Q). apply String.eqb_eq in Q. subst j. exact J.
      - intros H [k v] I. unfold known. apply existsb_exists. exists k. split; [eapply H; eauto|apply String.eqb_refl]. }
    assert (F : (exists fs, collect (load_field E c d) (own_fields E c) = Ret fs) <->
      forall k, In k (own_fields E c) ->
        match dget k d with Some v => exists w, fload E c k v = Ret w | None => fdefault E c k <> None end).
    { rewrite collect_all. unfold load_field. split; intros H k I; specialize (H k I); destruct (dget k d) as [v|].
      - destruct H as [y H]. destruct (fload E c k v) as [w|]; [eauto|discriminate].
      - destruct H as [y H]. destruct (fdefault E c k); discriminate.
      - destruct H as [w ->]. cbn. eauto.
      - destruct (fdefault E c k); [eauto|congruence]. }
    assert (I : (exists n, match dget "id" d with None => Ret (fresh_id E) | Some v => to_uuid E v end = Ret n) <->
                forall v, dget "id" d = Some v -> exists n, to_uuid E v = Ret n).
    { destruct (dget "id" d) as [v|]; split; intros H; eauto; try discriminate. intros w [= <-]. exact H. }
    assert (T : (exists n, match dget "created_at" d with None => Ret (now E) | Some v => coerce_created E v end = Ret n) <->
                forall v, dget "created_at" d = Some v -> exists n, coerce_created E v = Ret n).
    { destruct (dget "created_at" d) as [v|]; split; intros H; eauto; try discriminate. intros w [= <-]. exact H. }
    assert (R : (exists e, model_validate E c d = Ret e) <-> fit c d).
    { unfold fit. rewrite <- K, <- F, <- I, <- T. unfold model_validate.
      destruct (forallb _ d); [|split; [intros [? H]; discriminate|intros (H & _); discriminate]].
      destruct (match dget "id" d with None => _ | Some _ => _ end); cbn [bind];
        [|split; [intros [? H]; discriminate|intros (_ & [? H] & _); discriminate]].
      destruct (match dget "created_at" d with None => _ | Some _ => _ end); cbn [bind];
        [|split; [intros [? H]; discriminate|intros (_ & _ & [? H] & _); discriminate]].
      destruct (collect _ _); cbn [bind]; [|split; [intros [? H]; discriminate|intros (_ & _ & _ & [? H]); discriminate]].
      split; eauto 10. }
    split; [exact R|]. intros L N.
    destruct (model_validate E c d) as [e|x] eqn:V; [destruct N; apply R; eauto|]. f_equal.
    revert V. unfold model_validate. destruct (forallb _ d); [|congruence].
    destruct (match dget "id" d with None => _ | Some _ => _ end) as [n|y] eqn:EI; cbn [bind].
    - destruct (match dget "created_at" d with None => _ | Some _ => _ end) as [t|y] eqn:ET; cbn [bind].
      + destruct (collect _ _) as [fs|y] eqn:C; cbn [bind]; [discriminate|]. intros [= <-].
        eapply collect_error; [|exact C]. intros k z. unfold load_field. destruct (dget k d) as [v|].
        * destruct (fload E c k v) eqn:G; cbn; [discriminate|]. intros [= <-]. eauto.
        * destruct (fdefault E c k); [discriminate|congruence].
      + intros [= <-]. destruct (dget "created_at" d) as [v|]; [|discriminate].
        unfold coerce_created in ET. destruct v; try congruence; [|destruct (t_off t); congruence].
        destruct (parse_float E s); [discriminate|]. destruct (parse_iso E s); congruence.
    - intros [= <-]. destruct (dget "id" d) as [v|]; [|discriminate].
      unfold to_uuid in EI. destruct v; try congruence. destruct (parse_uuid E s); congruence.
  Qed.

  Variable elsewhere : nat -> data -> outcome element.
  Variables base pcls : nat.
  Variable default_pile : pile.
  Hypothesis HE : faithful E.
  Hypothesis Hbase : impl_of E base = IElement.
  Notation load_items := (validate_items E elsewhere base pcls default_pile).
  Notation load_progs := (validate_progressions E elsewhere base pcls default_pile).

  Lemma add_values_dicts : forall ds p,
    add_values E elsewhere base p (map VDict ds) = add_items E (item_from_dict E elsewhere base None) p ds.
  Proof.
    induction ds as [|d ds IH]; intros p; [reflexivity|]. cbn [map add_values add_items].
    destruct (item_from_dict E elsewhere base None d) as [i|]; cbn [bind]; [|reflexivity].
    destruct (match p_types p with None => true | Some ts => _ end); cbn [bind]; [|reflexivity].
    destruct (existsb _ (p_items p)); cbn [bind]; [reflexivity|]. apply IH.
  Qed.

  (** The items, or progressions, of a flow may also be given as the list of their
      dumps, in any mode: they come back, in order, in a pile without constraint. *)
  Theorem C82_flow_list m f is ds : fit pcls [] ->
    (forall i, In i is -> valid E i /\ fields_ok E m i /\ loadable E base (e_cls i) /\
       free_key E (e_cls i) (stored_at m None)) ->
    NoDup (map e_id is) ->
    Forall2 (fun i d => to_dict E i m f None = Ret d) is ds ->
    exists p, load_items (Some (VList (map VDict ds))) = Ret p /\
      load_progs (Some (VList (map VDict ds))) = Ret p /\
      p_types p = None /\ e_cls (p_el p) = pcls /\ Forall2 (restored E m) is (p_items p).
  Proof.
    intros F H N D. cbn [validate_items validate_progressions]. unfold list_pile.
    destruct (proj2 (proj1 (C69_fit pcls [])) F) as [el Hel]. rewrite Hel. cbn [bind]. rewrite add_values_dicts.
    destruct (add_items_ok E (item_from_dict E elsewhere base None) m ds is el None false [] None) as (is' & -> & R).
    - clear N. induction D as [|i d is ds Hd D IH]; constructor.
      + destruct (H i (or_introl eq_refl)) as (V & O & L & K).
        apply (item_back E HE elsewhere base Hbase i m f None None d V O L K); [|exact Hd].
        right. split; [left; reflexivity|]. destruct m; cbn; auto.
      + apply IH. intros j J. apply H. right. exact J.
    - intros i _. exact I.
    - exact N.
    - eexists. split; [reflexivity|]. split; [reflexivity|]. split; [reflexivity|]. split; [|exact R].
      unfold model_validate in Hel. cbn in Hel. destruct (collect _ _); [|discriminate]. injection Hel as <-. reflexivity.
  Qed.

  (** One more entry in a list that loads. *)
  Theorem C82_flow_list_more l p v : load_items (Some (VList l)) = Ret p ->
    let again := load_items (Some (VList (l ++ [v]))) in
    again = load_progs (Some (VList (l ++ [v]))) /\
    ((forall d, v <> VDict d) -> again = Raise TypeError) /\
    (forall d x, v = VDict d -> item_from_dict E elsewhere base None d = Raise x -> again = Raise x) /\
    (forall d i, v = VDict d -> item_from_dict E elsewhere base None d = Ret i ->
       (In (e_id i) (map e_id (p_items p)) -> again = Raise ExistsError) /\
       (~ In (e_id i) (map e_id (p_items p)) ->
          again = Ret (Pile (p_el p) None (p_strict p) (p_items p ++ [i]) (p_name p)))).
  Proof.
    cbn [validate_items validate_progressions]. unfold list_pile.
    destruct (model_validate E pcls []) as [el|]; [|discriminate]. cbn [bind].
    assert (G : forall l q, add_values E elsewhere base q l = Ret p -> p_types q = None ->
      p_types p = None /\ add_values E elsewhere base q (l ++ [v]) = add_values E elsewhere base p [v]).
    { induction l0 as [|w r IH]; intros q Hq Tq; [injection Hq as <-; auto|]. cbn [add_values app] in *.
      destruct w; try discriminate. cbn [add_items] in *.
      destruct (item_from_dict E elsewhere base None d) as [i|]; [|discriminate]. cbn [bind] in *. rewrite Tq in *.
      destruct (existsb _ (p_items q)); [discriminate|]. cbn [bind] in *. apply IH; auto. }
    intros H. destruct (G _ _ H eq_refl) as [T R]. cbn zeta. rewrite R. split; [reflexivity|]. split; [|split].
    - intros N. destruct v; try reflexivity. destruct (N d eq_refl).
    - intros d x -> X. cbn. rewrite X. reflexivity.
    - intros d i -> X. cbn [add_values add_items]. rewrite X. cbn [bind]. rewrite T. split; intros J.
      + replace (existsb _ (p_items p)) with true; [reflexivity|]. symmetry. apply existsb_exists.
        apply in_map_iff in J. destruct J as (j & J1 & J2). exists j. split; [exact J2|]. apply Nat.eqb_eq. exact J1.
      + replace (existsb _ (p_items p)) with false; [reflexivity|]. symmetry. apply not_true_is_false.
        intro Y. apply existsb_exists in Y. destruct Y as (j & J2 & J1). apply Nat.eqb_eq in J1.
        apply J. apply in_map_iff. eauto.
  Qed.

  (** What else can stand for the items and progressions in the data of a flow:
      None stands for no pile; a truthy scalar is an error; a falsy one is an empty
      pile of items. *)
  Theorem C82_flow_scalar c d refers v : (forall l, v <> VList l) -> (forall d, v <> VDict d) -> v <> VNone ->
    (dget "items" d = Some v -> truthy v = true ->
       flow_validate E elsewhere base pcls default_pile refers c d = Raise TypeError) /\
    (truthy v = false -> load_items (Some v) = load_items (Some (VList []))) /\
    (dget "progressions" d = Some v ->
       forall x, flow_validate E elsewhere base pcls default_pile refers c d <> Ret x) /\
    load_items (Some VNone) = load_items None /\ load_progs (Some VNone) = load_progs None.
  Proof.
    intros N1 N2 N3. repeat split.
    - intros H T. unfold flow_validate. rewrite H. destruct v; try congruence; cbn [truthy] in *; rewrite ?T; reflexivity.
    - intros T. destruct v; try congruence; cbn [validate_items truthy] in *; rewrite ?T; reflexivity || discriminate.
    - intros H x. unfold flow_validate. destruct (match dget "items" d with None => false | Some _ => _ end); [discriminate|].
      rewrite H.
      assert (L : load_progs (Some v) = Raise ValueError) by (destruct v; try reflexivity; congruence).
      rewrite L. destruct (validate_items _ _ _ _ _ (dget "items" d)) as [?|[]];
        destruct (model_validate E c _) as [?|[]]; cbn; discriminate.
  Qed.

  (** A flow loads exactly if its parts do and fit together; ValueError means that
      no part failed in another way. *)
  Theorem C82_flow_parts c d refers :
    let el := model_validate E c (ddel "progressions" (ddel "items" d)) in
    let is := load_items (dget "items" d) in let ps := load_progs (dget "progressions" d) in
    let r := flow_validate E elsewhere base pcls default_pile refers c d in
    (forall x, r = Ret x <-> el = Ret (f_el x) /\ is = Ret (f_items x) /\ ps = Ret (f_progs x) /\
                 refers (f_items x) (f_progs x) = true) /\
    (r = Raise ValueError -> forall x, el = Raise x \/ is = Raise x \/ ps = Raise x -> x = ValueError) /\
    (forall x, el = Raise x \/ is = Raise x \/ ps = Raise x -> exists y, r = Raise y /\
       (el = Raise y \/ is = Raise y \/ ps = Raise y)).
  Proof.
    cbn zeta. unfold flow_validate.
    destruct (match dget "items" d with None => false | Some _ => _ end) eqn:B.
    - assert (I : load_items (dget "items" d) = Raise TypeError).
      { destruct (dget "items" d) as [[]|]; try discriminate; cbn [validate_items]; cbn [truthy] in *; rewrite ?B; reflexivity. }
      rewrite I. repeat split; try discriminate. { intros (_ & H & _). discriminate. } intros x _. eauto.
    - generalize (load_items (dget "items" d)) (load_progs (dget "progressions" d)) (model_validate E c (ddel "progressions" (ddel "items" d))).
      intros [is|x1] [ps|x2] [el|x3]; cbn [both bind].
      + split; [|split].
        * intros [e i p]. cbn. destruct (refers is ps) eqn:R; split.
          -- intros [= <- <- <-]. auto.
          -- intros ([= ->] & [= ->] & [= ->] & _). reflexivity.
          -- discriminate.
          -- intros ([= ->] & [= ->] & [= ->] & R'). congruence.
        * intros _ x [H|[H|H]]; discriminate.
        * intros x [H|[H|H]]; discriminate.
      + all_bad.
      + all_bad.
      + all_bad.
      + all_bad.
      + all_bad.
      + all_bad.
      + all_bad.
  Qed.
End Load.
Print Assumptions C82_flow_parts.
Print Assumptions C69_fit.
Print Assumptions C82_flow_list.
Print Assumptions C82_flow_list_more.
Print Assumptions C82_flow_scalar.

(** Examples *)
Example C69_ex_fit : fit ex 1 [("size", VNum 4); ("metadata", VNone)] /\ ~ fit ex 1 [("size", VStr "4")] /\ ~ fit ex 1 [("Size", VNum 4)].
Proof.
  repeat split; cbn.
  - intros k v [[= <- <-]|[[= <- <-]|[]]]; auto 10.
  - discriminate.
  - discriminate.
  - intros k [<-|[]]. cbn. eauto.
  - intros (_ & _ & _ & H). destruct (H "size" (or_introl eq_refl)) as [w W]. discriminate.
  - intros (H & _). destruct (H "Size" _ (or_introl eq_refl)) as [H1|[H1|[H1|[H1|[]]]]]; discriminate.
Qed.

Definition listed (m : mode) (l : list element) : outcome (list val) :=
  bind (collect (fun e => to_dict ex e m None None) l) (fun ds => Ret (map VDict ds)).
Definition flow_of (l : list val) := 
  flow_validate ex nodelegate 0 4 (pl None None [] []) (fun _ _ => true) 6 [("items", VList l)].
Example C82_ex_list :
  (forall m, m <> Python -> exists x, bind (listed m [thing 1; doc 3 (VStr "hi")]) flow_of = Ret x /\
     map e_id (p_items (f_items x)) = [7; 8] /\ map e_cls (p_items (f_items x)) = [1; 3]) /\
  bind (listed Json [thing 1; thing 1]) flow_of = Raise ExistsError /\
  bind (listed Json [thing 1]) (fun l => flow_of (l ++ [VStr "x"])) = Raise TypeError.
Proof.
  split; [|split; vm_compute; reflexivity].
  intros [] N; [congruence| |]; eexists; (split; [vm_compute; reflexivity|split; reflexivity]).
Qed.
