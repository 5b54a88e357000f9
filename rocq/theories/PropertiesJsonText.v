(** C120: to_json and from_json, base/element.py:217-251. *)
From Coq Require Import String.
From Coq Require Import List ZArith Bool Arith Lia.
From Verif Require Import PyBase PyFacts ModelSerde ModelSerdeGraph ModelJsonText SpecSerde ProofsSerde PropertiesSerde.
Import ListNotations.
Local Open Scope string_scope.
Local Open Scope nat_scope.
Local Open Scope list_scope.
#[local] Arguments String.eqb : simpl never.

Lemma bind_ret {A} (x : outcome A) : bind x Ret = x.
Proof. destruct x; reflexivity. Qed.

Section Text.
  Variable E : env.

  Lemma text_is_json e fields : jsonify_dict E (dump E e fields) = to_dict_with E e fields Json None None.
  Proof.
    unfold to_dict_with. cbn [the_format the_key rename_meta]. destruct (jsonify_dict E (dump E e fields)) as [d|x]; [|reflexivity].
    cbn [bind]. unfold format_created. destruct (dget "created_at" d); reflexivity.
  Qed.

  (** For elements and nodes the text holds exactly what to_dict gives in json mode. *)
  Theorem C120_text e : to_json E e = to_dict E e Json None None /\ to_json E e = node_to_dict E e Json None None None.
  Proof. split; apply text_is_json. Qed.

  (** What JSON can hold is kept by a detour through the text. *)
  Theorem C120_element e c0 delegate d : faithful E -> valid E e -> fields_ok E Json e -> finds E c0 (e_cls e) ->
    to_json E e = Ret d ->
    exists e', from_json E delegate c0 d = Ret e' /\ restored E Json e e' /\ e_created e' = e_created e.
  Proof.
    intros HE V F Fi D. rewrite (proj1 (C120_text e)) in D.
    destruct (C69_roundtrip E HE e Json None None None c0 delegate d V F) as (e' & A & B & C).
    - split; [discriminate|]. split; [discriminate|]. intros X. apply (v_names E e V) in X. apply X. cbn. tauto.
    - right. split; left; reflexivity.
    - exact Fi.
    - exact D.
    - exists e'. split; [exact A|]. split; [exact B|]. now apply C.
  Qed.
  Theorem C120_node e c0 d : faithful E -> valid E e -> fields_ok E Json e -> node_finds E c0 (e_cls e) ->
    to_json E e = Ret d ->
    exists e', node_from_json E c0 d = Ret e' /\ restored E Json e e' /\ e_created e' = e_created e.
  Proof.
    intros HE V F Fi D. rewrite (proj2 (C120_text e)) in D.
    destruct (C71_roundtrip E HE e Json None None None c0 d V F) as (e' & A & B & C).
    - split; [discriminate|]. split; [discriminate|]. intros X. apply (v_names E e V) in X. apply X. cbn. tauto.
    - right. split; left; reflexivity.
    - exact Fi.
    - exact D.
    - exists e'. split; [exact A|]. split; [exact B|]. now apply C.
  Qed.

  (** *** Piles *)
  Lemma jsonify_keys d d' : jsonify_dict E d = Ret d' -> dkeys d' = dkeys d.
  Proof.
    revert d'. induction d as [|[k v] d IH]; intros d' H; cbn in H; [now injection H as <-|].
    destruct (jsonify E v) as [w|]; [|discriminate]. cbn in H. destruct (jsonify_dict E d) as [ds|]; [|discriminate].
    injection H as <-. cbn. f_equal. now apply IH.
  Qed.
  Lemma jsonify_no_key d d' k : jsonify_dict E d = Ret d' -> ~ In k (dkeys d) -> dget k d' = None.
  Proof. intros H N. apply dget_None. now rewrite (jsonify_keys _ _ H). Qed.
  Lemma jsonify_get k v d d' : jsonify_dict E d = Ret d' -> dget k d = Some v ->
    exists w, jsonify E v = Ret w /\ dget k d' = Some w.
  Proof.
    revert d'. induction d as [|[j u] d IH]; intros d' H G; [discriminate|]. cbn in H. cbn [dget] in G.
    destruct (jsonify E u) as [w|] eqn:J; [|discriminate]. cbn in H.
    destruct (jsonify_dict E d) as [ds|]; [|discriminate]. injection H as <-. cbn [dget].
    destruct (eqb_spec k j) as [->|].
    - injection G as ->. exists w. auto.
    - now apply IH.
  Qed.

  (** The text of a pile says nothing about its items and the name of its order. *)
  Theorem C120_pile_blind el ts strict l l' n n' :
    pile_to_json E (Pile el ts strict l n) = pile_to_json E (Pile el ts strict l' n').
  Proof. reflexivity. Qed.

  Variable elsewhere : nat -> data -> outcome element.
  Variables (base pcls : nat).
  Variable default_pile : pile.

  Lemma no_items p k : In k ["items"] -> ~ In k (own_fields E (e_cls (p_el p))) -> valid E (p_el p) ->
    ~ In k (dkeys (dump E (p_el p) (pile_fields E p))).
  Proof.
    intros [<-|[]] N V. unfold dump, pile_fields, dkeys. rewrite !map_app. fold (dkeys (dump_fields E (p_el p))).
    rewrite dkeys_dump_fields, (v_fields _ _ V). cbn. rewrite !in_app_iff. cbn. intuition discriminate.
  Qed.

  (** So whatever class reads it gets a pile without items. *)
  Theorem C120_pile_lost p c d q : valid E (p_el p) -> ~ In "items" (own_fields E (e_cls (p_el p))) ->
    pile_to_json E p = Ret d -> pile_from_json E elsewhere base c d = Ret q -> p_items q = [].
  Proof.
    intros V N D L. apply (C70_loaded_strict E elsewhere base) in L. destruct L as [_ L].
    rewrite (jsonify_no_key _ _ _ D (no_items p "items" (or_introl eq_refl) N V)) in L.
    destruct (p_items q); [reflexivity|discriminate].
  Qed.

  (** The rest is kept, as if the pile had been emptied before. *)
  Definition emptied (p : pile) : pile := Pile (p_el p) (p_types p) (p_strict p) [] None.
  Lemma as_if_items c d : dget "items" d = None ->
    pile_from_dict E elsewhere base c (dset "items" (VList []) d) None None = pile_from_dict E elsewhere base c d None None.
  Proof.
    intros N. unfold pile_from_dict. rewrite dget_dset_same, N, !dget_dset_other by discriminate. cbn [collect bind].
    rewrite (dkeys_dset_notin "items" (VList []) d) by now apply dget_None.
    replace (ddel "items" (d ++ [("items", VList [])])) with (ddel "items" d); [reflexivity|].
    apply dget_None in N. rewrite (ddel_notin _ _ N). induction d as [|[k v] d IH]; cbn [app ddel]; [reflexivity|].
    destruct (eqb_spec "items" k) as [<-|]; [cbn in N; tauto|]. f_equal. apply IH. cbn in N. tauto.
  Qed.
  Theorem C120_pile p d : faithful E -> impl_of E base = IElement -> pile_io E base Json None None (emptied p) ->
    pile_to_json E p = Ret d ->
    exists q, pile_from_json E elsewhere base (e_cls (p_el p)) d = Ret q /\ pile_restored E Json (emptied p) q.
  Proof.
    intros HE HB IO D. pose proof (io_ok _ _ _ _ _ _ IO) as PO.
    assert (N : dget "items" d = None).
    { apply (jsonify_no_key _ _ _ D), no_items; [now left| |exact (po_el _ _ _ PO)].
      intros X. apply (po_names _ _ _ PO) in X. apply X. cbn. tauto. }
    unfold pile_from_json. rewrite <- (as_if_items _ _ N).
    assert (W : forall x, In x ["metadata"] -> pile_free E (e_cls (p_el p)) x).
    { intros x [<-|[]]. split; [split; [discriminate|split; [discriminate|]]|cbn; intuition discriminate].
      intros X. apply (v_names _ _ (po_el _ _ _ PO)) in X. apply X. cbn. tauto. }
    apply (C70_roundtrip E HE elsewhere base HB (emptied p) Json None None None None None None _ IO).
    - apply W. now left.
    - intros [X _]. discriminate.
    - right. split; [reflexivity|]. left. reflexivity.
    - unfold pile_to_json in D. rewrite text_is_json in D. unfold pile_to_dict.
      change (p_el (emptied p)) with (p_el p). change (pile_fields E (emptied p)) with (pile_fields E p).
      rewrite D. reflexivity.
  Qed.

  (** *** Graphs and flows *)
  Lemma nested p d' : valid E (p_el p) -> ~ In "items" (own_fields E (e_cls (p_el p))) ->
    jsonify E (pile_value E p) = Ret d' -> exists d, d' = VDict d /\ d <> [] /\ dget "items" d = None.
  Proof.
    intros V N H. unfold pile_value in H. rewrite jsonify_VDict in H.
    destruct (jsonify_dict E _) as [d|] eqn:J; [|discriminate]. injection H as <-. exists d. split; [reflexivity|].
    split.
    - intros ->. apply jsonify_keys in J. discriminate.
    - apply (jsonify_no_key _ _ _ J). exact (no_items p "items" (or_introl eq_refl) N V).
  Qed.
  Lemma nested_lost c d q : dget "items" d = None -> pile_from_dict E elsewhere base c d None None = Ret q -> p_items q = [].
  Proof.
    intros N L. apply (C70_loaded_strict E elsewhere base) in L. destruct L as [_ L]. rewrite N in L.
    destruct (p_items q); [reflexivity|discriminate].
  Qed.

  Definition plain_pile (p : pile) : Prop := valid E (p_el p) /\ ~ In "items" (own_fields E (e_cls (p_el p))).

  Theorem C120_graph_lost g c d g' : plain_pile (g_nodes g) -> plain_pile (g_edges g) ->
    graph_to_json E g = Ret d -> graph_from_json E elsewhere base pcls default_pile c d = Ret g' ->
    p_items (g_nodes g') = [] /\ p_items (g_edges g') = [].
  Proof.
    intros [V1 N1] [V2 N2] D L. unfold graph_to_json in D.
    destruct (jsonify_get "nodes" (pile_value E (g_nodes g)) _ _ D) as (w1 & J1 & G1); [reflexivity|].
    destruct (jsonify_get "edges" (pile_value E (g_edges g)) _ _ D) as (w2 & J2 & G2); [reflexivity|].
    destruct (nested _ _ V1 N1 J1) as (d1 & -> & E1 & I1). destruct (nested _ _ V2 N2 J2) as (d2 & -> & E2 & I2).
    unfold graph_from_json, graph_from_dict in L. rewrite G1, G2 in L. unfold load_pile in L.
    assert (T1 : truthy (VDict d1) = true) by (destruct d1; [congruence|reflexivity]).
    assert (T2 : truthy (VDict d2) = true) by (destruct d2; [congruence|reflexivity]).
    rewrite T1, T2 in L.
    destruct (pile_from_dict E elsewhere base pcls d1 None None) as [q1|] eqn:Q1; [|discriminate]. cbn [bind] in L.
    destruct (pile_from_dict E elsewhere base pcls d2 None None) as [q2|] eqn:Q2; [|discriminate]. cbn [bind] in L.
    destruct (model_validate E c _) as [el|]; [|discriminate]. injection L as <-. cbn.
    split; [exact (nested_lost _ _ _ I1 Q1)|exact (nested_lost _ _ _ I2 Q2)].
  Qed.

  Variable refers : pile -> pile -> bool.

  (** A flow is loaded by a class whose from_dict is that of elements. *)
  Theorem C120_flow_lost x c0 delegate d x' : plain_pile (f_items x) -> plain_pile (f_progs x) ->
    finds E c0 (e_cls (f_el x)) ->
    flow_to_json E x = Ret d -> flow_from_json E elsewhere base pcls default_pile refers delegate c0 d = Ret x' ->
    p_items (f_items x') = [] /\ p_items (f_progs x') = [].
  Proof.
    intros [V1 N1] [V2 N2] F D L. unfold flow_to_json in D.
    destruct (jsonify_get "items" (pile_value E (f_items x)) _ _ D) as (w1 & J1 & G1); [reflexivity|].
    destruct (jsonify_get "progressions" (pile_value E (f_progs x)) _ _ D) as (w2 & J2 & G2); [reflexivity|].
    destruct (jsonify_get "metadata" _ _ _ D eq_refl) as (w3 & J3 & G3).
    rewrite jsonify_VDict in J3. destruct (jsonify_dict E (dset _ _ _)) as [mm|] eqn:M; [|discriminate].
    injection J3 as <-.
    destruct (jsonify_get "lion_class" _ _ _ M (dget_dset_same _ _ _)) as (w4 & J4 & G4). cbn in J4. injection J4 as <-.
    destruct (nested _ _ V1 N1 J1) as (d1 & -> & E1 & I1). destruct (nested _ _ V2 N2 J2) as (d2 & -> & E2 & I2).
    assert (R : exists c d', flow_validate E elsewhere base pcls default_pile refers c d' = Ret x' /\
      dget "items" d' = Some (VDict d1) /\ dget "progressions" d' = Some (VDict d2)).
    { unfold flow_from_json, flow_from_dict, from_dict, take_class in L.
      assert (G : forall k, k <> "node_metadata" -> dget k (restore_meta None d) = dget k d).
      { intros k NK. unfold restore_meta, legacy_meta. rewrite dget_ddel_other by exact NK.
        unfold dmem. rewrite G3. destruct (dget "node_metadata" d); reflexivity. }
      rewrite (G "metadata"), G3, G4 in L by discriminate.
      set (d' := dset "metadata" _ _) in L.
      assert (A : dget "items" d' = Some (VDict d1) /\ dget "progressions" d' = Some (VDict d2)).
      { unfold d'. rewrite !dget_dset_other, !G by discriminate. auto. }
      destruct F as [->|(F1 & F2 & F3 & F4 & F5)].
      - rewrite String.eqb_refl in L. destruct (truthy _); eexists _, d'; (split; [exact L|exact A]).
      - destruct (truthy _); [|eexists _, d'; split; [exact L|exact A]].
        destruct (String.eqb_spec (cname E (e_cls (f_el x))) (cname E c0)); [congruence|].
        rewrite F3, F4, F5 in L. destruct (impl_of E c0); try rewrite Nat.eqb_refl in L; eexists _, d'; (split; [exact L|exact A]). }
    destruct R as (c & d' & R & A1 & A2). unfold flow_validate in R. rewrite A1, A2 in R. cbn [validate_items validate_progressions] in R.
    destruct (model_validate E c _) as [el|y]; cbn [both bind] in R;
      destruct (pile_from_dict E elsewhere base pcls d2 None None) as [q2|y2] eqn:Q2;
      destruct (pile_from_dict E elsewhere base pcls d1 None None) as [q1|y1] eqn:Q1; cbn in R;
      repeat match goal with R : context [match ?y with _ => _ end] |- _ => is_var y; destruct y; cbn in R end; try discriminate.
    destruct (refers q1 q2); [|discriminate]. injection R as <-. cbn.
    split; [exact (nested_lost _ _ _ I1 Q1)|exact (nested_lost _ _ _ I2 Q2)].
  Qed.
End Text.

Print Assumptions C120_text.
Print Assumptions C120_element.
Print Assumptions C120_node.
Print Assumptions C120_pile_blind.
Print Assumptions C120_pile_lost.
Print Assumptions C120_pile.
Print Assumptions C120_graph_lost.
Print Assumptions C120_flow_lost.

(** *** Examples, in the world of PropertiesSerde *)
Example thing_text :
  bind (to_json ex (thing 1)) (from_json ex nodelegate 0) = rt (thing 1) Json None None None 0 /\
  bind (to_json ex (doc 3 (VStr "hi"))) (node_from_json ex 2) = Ret (doc 3 (VStr "hi")).
Proof. split; reflexivity. Qed.

(** The text of a container is not its to_dict, and reading it back loses everything in it. *)
Theorem C120_pile_refuted : exists p d d' q,
  pile_to_json ex p = Ret d /\ pile_to_dict ex p Json None None None None = Ret d' /\ d <> d' /\
  length (p_items p) = 2 /\ p_name p = Some "todo" /\
  pile_from_json ex nodelegate 0 4 d = Ret q /\ p_items q = [] /\ p_name q = None /\ e_id (p_el q) = e_id (p_el p).
Proof.
  exists (pl (Some [0]) (Some "todo") [] stuff). do 3 eexists.
  repeat (split; [reflexivity|]). split; [intros X; discriminate X|]. repeat (split; [reflexivity|]). reflexivity.
Qed.
Theorem C120_graph_refuted : exists d d' g',
  graph_to_json ex gr = Ret d /\ graph_to_dict ex gr Json None None None None = Ret d' /\ d <> d' /\
  length (p_items (g_nodes gr)) = 1 /\
  graph_from_json ex nodelegate 0 4 (pl None None [] []) 5 d = Ret g' /\ p_items (g_nodes g') = [] /\
  e_id (g_el g') = e_id (g_el gr) /\ e_id (p_el (g_nodes g')) = e_id (p_el (g_nodes gr)).
Proof.
  do 3 eexists. repeat (split; [reflexivity|]). split; [intros X; discriminate X|]. repeat (split; [reflexivity|]). reflexivity.
Qed.
Theorem C120_flow_refuted : exists d d' x',
  flow_to_json ex fl = Ret d /\ flow_to_dict ex fl Json None None = Ret d' /\ d <> d' /\
  length (p_items (f_items fl)) = 1 /\
  flow_from_json ex nodelegate 0 4 (pl None None [] []) (fun _ _ => true) nodelegate 6 d = Ret x' /\ p_items (f_items x') = [] /\
  f_el x' = f_el fl.
Proof.
  do 3 eexists. repeat (split; [reflexivity|]). split; [intros X; discriminate X|]. repeat (split; [reflexivity|]). reflexivity.
Qed.
Print Assumptions C120_pile_refuted.
Print Assumptions C120_graph_refuted.
Print Assumptions C120_flow_refuted.
