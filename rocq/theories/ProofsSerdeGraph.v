(** Proofs about dumping and loading graphs and flows. *)
From Coq Require Import String.
From Coq Require Import List ZArith Bool Arith Lia.
From Verif Require Import PyBase PyFacts ModelSerde ModelSerdeGraph SpecSerde ProofsSerde
  ProofsSerdeNode ProofsSerdePile.
Import ListNotations.
Local Open Scope string_scope.
Local Open Scope nat_scope.
Local Open Scope list_scope.
#[local] Arguments eqb : simpl never.

Section P.
  Variable E : env.
  Hypothesis HE : faithful E.
  Variable elsewhere : nat -> data -> outcome element.
  Variables (base pcls : nat).
  Hypothesis Hbase : impl_of E base = IElement.
  Variable default_pile : pile.

  (** A key that nobody knows makes Pile.from_dict fail. *)
  Theorem pile_unknown_fails c d imk (k : string) :
    ~ In k (own_fields E c) -> ~ In k pile_names ->
    k <> "id" -> k <> "created_at" -> k <> "metadata" ->
    In k (dkeys d) ->
    exists x, pile_from_dict E elsewhere base c d None imk = Raise x.
  Proof.
    intros Hn Hp Hi Hc Hm Hin.
    assert (Hval : exists x, model_validate E c
        (ddel "strict_type" (ddel "item_type" (ddel "items" d))) = Raise x).
    { unfold model_validate.
      destruct (forallb (fun '(k, _) => known E c k) _) eqn:Hf; [|eauto].
      exfalso. rewrite forallb_forall in Hf. apply key_dget in Hin. destruct Hin as [w Hw].
      rewrite <- (dget_ddel_other k "items") in Hw by (intros ->; apply Hp; cbn; tauto).
      rewrite <- (dget_ddel_other k "item_type") in Hw by (intros ->; apply Hp; cbn; tauto).
      rewrite <- (dget_ddel_other k "strict_type") in Hw by (intros ->; apply Hp; cbn; tauto).
      apply dget_In in Hw. specialize (Hf _ Hw). unfold known in Hf.
      apply existsb_exists in Hf. destruct Hf as (j & Hj & Heq). apply String.eqb_eq in Heq.
      subst j. apply in_app_or in Hj. destruct Hj as [Hj|Hj]; [|exact (Hn Hj)].
      cbn in Hj. intuition congruence. }
    destruct Hval as [x Hx]. unfold pile_from_dict.
    repeat match goal with
    | |- exists y, bind ?a _ = Raise y =>
        let Ha := fresh in destruct a eqn:Ha; cbn [bind]; [|eauto]
    end; congruence.
  Qed.

  (** The element part of a container, after the two piles are put in. *)
  Lemma container_holds e m f mk (a b : string) va vb d :
    valid E e -> container_free E [a; b] (e_cls e) (stored_at m mk) ->
    ~ In a reserved -> ~ In b reserved ->
    to_dict E e m f mk = Ret d ->
    exists vi mm fs',
      encode E m (VUuid (e_id e)) = Ret vi /\
      encode_meta E m (dset "lion_class" (VStr (cname E (e_cls e))) (e_meta e)) = Ret mm /\
      encode_meta E m (dump_fields E e) = Ret fs' /\
      holds (dset b vb (dset a va d)) (stored_at m mk) (VDict mm) vi
        (encode_time E m (the_format m f) (e_created e)) (dset b vb (dset a va fs')).
  Proof.
    intros Hv ((Hk1 & Hk2 & Hk3) & Hab) Ha Hb H. unfold to_dict in H.
    assert (Hkeys : dkeys (dump_fields E e) = own_fields E (e_cls e))
      by (rewrite dkeys_dump_fields; apply (v_fields E e Hv)).
    apply to_dict_holds in H; try assumption.
    2: apply (v_meta E e Hv).
    2: rewrite Hkeys; apply (v_nodup E e Hv).
    2: rewrite Hkeys; apply (v_names E e Hv).
    2: rewrite Hkeys; exact Hk3.
    destruct H as (vi & mm & fs' & Hvi & Hmm & Hfs & _ & Hh).
    exists vi, mm, fs'. repeat (split; [assumption|]).
    assert (Hr : forall x, ~ In x reserved -> x <> "id" /\ x <> "created_at")
      by (intros x Hx; cbn in Hx; split; intros ->; tauto).
    destruct (Hr a Ha) as [Ha1 Ha2], (Hr b Hb) as [Hb1 Hb2].
    cbn in Hab. apply holds_dset; try assumption; [|intro; subst; apply Hab; tauto].
    apply holds_dset; try assumption. intro; subst; apply Hab; tauto.
  Qed.

  (** Loading the element part: the two entries are taken out again. *)
  Lemma container_validate e m f d mx vi fs' mm (a b : string) va vb :
    valid E e -> fields_ok E m e ->
    (forall k, In k (own_fields E (e_cls e)) -> k <> a /\ k <> b) ->
    ~ In a reserved -> ~ In b reserved -> a <> b ->
    encode E m (VUuid (e_id e)) = Ret vi ->
    encode_meta E m (dset "lion_class" (VStr (cname E (e_cls e))) (e_meta e)) = Ret mm ->
    encode_meta E m (dump_fields E e) = Ret fs' ->
    holds d "metadata" (VDict mx) vi
      (encode_time E m f (e_created e)) (dset b vb (dset a va fs')) ->
    exists t', model_validate E (e_cls e) (ddel b (ddel a d))
      = Ret (Element (e_cls e) (e_id e) t' mx (e_fields e)) /\
      same_instant (e_created e) t'.
  Proof.
    intros Hv Hok Hown Ha Hb Hab Hvi Hmm Hfs Hh.
    assert (Hr : forall x, ~ In x reserved -> x <> "metadata" /\ x <> "id" /\ x <> "created_at")
      by (intros x Hx; cbn in Hx; repeat split; intros ->; tauto).
    destruct (Hr a Ha) as (Ha0 & Ha1 & Ha2), (Hr b Hb) as (Hb0 & Hb1 & Hb2).
    assert (Hkfs : dkeys fs' = own_fields E (e_cls e)).
    { rewrite (em_keys E m _ _ Hfs), dkeys_dump_fields. apply (v_fields E e Hv). }
    assert (Hndf : NoDup (dkeys fs')) by (rewrite Hkfs; apply (v_nodup E e Hv)).
    assert (N1 : NoDup (dkeys (dset b vb (dset a va fs'))))
      by (do 2 apply dkeys_dset_NoDup; exact Hndf).
    apply (holds_ddel _ _ _ _ _ _ a) in Hh; try assumption.
    assert (N2 : NoDup (dkeys (ddel a (dset b vb (dset a va fs')))))
      by (apply dkeys_ddel_NoDup; exact N1).
    apply (holds_ddel _ _ _ _ _ _ b) in Hh; try assumption.
    set (fb := ddel b (ddel a (dset b vb (dset a va fs')))) in *.
    assert (Hfb : forall k : string, dget k fb = dget k fs').
    { intro k. unfold fb.
      destruct (string_dec k b) as [->|Hkb].
      { rewrite dget_ddel_same by exact N2. symmetry. apply dget_None. rewrite Hkfs. intro Hi.
        destruct (Hown b Hi). congruence. }
      rewrite dget_ddel_other by congruence.
      destruct (string_dec k a) as [->|Hka].
      { rewrite dget_ddel_same by exact N1. symmetry. apply dget_None. rewrite Hkfs. intro Hi.
        destruct (Hown a Hi). congruence. }
      rewrite dget_ddel_other by congruence. rewrite !dget_dset_other by congruence. reflexivity. }
    assert (Hknown : forall k v, dget k fb = Some v -> In k (own_fields E (e_cls e))).
    { intros k v Hg. rewrite Hfb in Hg. rewrite <- Hkfs. apply dget_In in Hg.
      apply in_map_iff. exists (k, v). auto. }
    destruct (time_back E HE m f (e_created e) (v_aware E e Hv)) as (t' & Ht & Hsame & _).
    exists t'. split; [|exact Hsame].
    eapply validate_holds; try eassumption.
    - eapply uuid_back; eassumption.
    - rewrite <- (v_fields E e Hv). apply fields_back. intros k v Hin.
      destruct (dumped_field E m (e_cls e) (e_fields e) fs') with (4 := Hin) as (w & Hw & Hl).
      + exact Hok.
      + rewrite (v_fields E e Hv). apply (v_nodup E e Hv).
      + exact Hfs.
      + exists w. split; [|exact Hl]. rewrite (proj2 Hh), Hfb.
        assert (Hin2 : In k (own_fields E (e_cls e))) by (apply (Hknown k w); rewrite Hfb; exact Hw).
        pose proof (v_names E e Hv k Hin2) as Hres. cbn in Hres.
        destruct (String.eqb_spec k "metadata") as [->|]; [tauto|].
        destruct (String.eqb_spec k "id") as [->|]; [tauto|].
        destruct (String.eqb_spec k "created_at") as [->|]; [tauto|]. exact Hw.
  Qed.

  Lemma container_absent e m fs' (a b : string) va vb k :
    valid E e -> encode_meta E m (dump_fields E e) = Ret fs' ->
    (forall j, j = a \/ j = b -> k <> j) ->
    free_key E (e_cls e) k ->
    k <> "id" /\ k <> "created_at" /\ dget k (dset b vb (dset a va fs')) = None.
  Proof.
    intros Hv Hfs Hab (Hk1 & Hk2 & Hk3). split; [exact Hk1|]. split; [exact Hk2|].
    rewrite dget_dset_other by (apply Hab; tauto). rewrite dget_dset_other by (apply Hab; tauto).
    apply dget_None. rewrite (em_keys E m _ _ Hfs), dkeys_dump_fields, (v_fields E e Hv). exact Hk3.
  Qed.

  Lemma container_reserved e m fs' (a b : string) va vb k :
    valid E e -> encode_meta E m (dump_fields E e) = Ret fs' ->
    ~ In a reserved -> ~ In b reserved -> In k reserved ->
    dget k (dset b vb (dset a va fs')) = None.
  Proof.
    intros Hv Hfs Ha Hb Hk.
    rewrite dget_dset_other by (intros ->; contradiction).
    rewrite dget_dset_other by (intros ->; contradiction).
    apply dget_None. rewrite (em_keys E m _ _ Hfs), dkeys_dump_fields, (v_fields E e Hv).
    intro Hi. exact (v_names E e Hv k Hi Hk).
  Qed.

  Lemma pile_part p m imk imk' f mk mk' ifmt d :
    pile_io E base m imk imk' p -> e_cls (p_el p) = pcls ->
    pile_free E pcls (stored_at m mk) -> ~ (m = Db /\ mk = Some "") ->
    pile_matching (pile_free E pcls) (stored_at m mk) mk' ->
    pile_to_dict E p m f mk imk ifmt = Ret d ->
    exists p', pile_from_dict E elsewhere base pcls d mk' imk' = Ret p' /\ pile_restored E m p p'.
  Proof.
    intros [H1 H2 H3 H4 H5 H6] Hc (Hf1 & Hf2) Hdb Hm Hd. subst pcls.
    eapply (pile_roundtrip E HE elsewhere base Hbase p m f mk imk ifmt mk' imk' d); eassumption.
  Qed.

  Lemma pile_dump_nonempty p m f mk imk ifmt d :
    pile_to_dict E p m f mk imk ifmt = Ret d -> truthy (VDict d) = true.
  Proof.
    unfold pile_to_dict. destruct (to_dict_with _ _ _ _ _ _) as [d0|]; [|discriminate]. cbn [bind].
    destruct (collect _ _) as [its|]; [|discriminate]. cbn [bind]. intros [= <-].
    destruct (add_name m mk (p_name p) d0) as [|[k v] t]; cbn; [reflexivity|].
    destruct (eqb "items" k); reflexivity.
  Qed.

  Theorem graph_roundtrip g m f mk imk ifmt mk' imk' d :
    valid E (g_el g) -> fields_ok E m (g_el g) ->
    (forall k, In k (own_fields E (e_cls (g_el g))) -> k <> "nodes" /\ k <> "edges") ->
    container_free E ["nodes"; "edges"] (e_cls (g_el g)) (stored_at m mk) ->
    pile_matching (container_free E ["nodes"; "edges"] (e_cls (g_el g))) (stored_at m mk) mk' ->
    pile_io E base m imk imk' (g_nodes g) -> pile_io E base m imk imk' (g_edges g) ->
    e_cls (p_el (g_nodes g)) = pcls -> e_cls (p_el (g_edges g)) = pcls ->
    ~ In "node_metadata" (own_fields E pcls) -> ~ In "metadata" (own_fields E pcls) ->
    pile_matching (pile_free E pcls) (stored_at m None) imk' ->
    graph_to_dict E g m f mk imk ifmt = Ret d ->
    exists g', graph_from_dict E elsewhere base pcls default_pile (e_cls (g_el g)) d mk' imk' = Ret g' /\
      marked E m (g_el g) (g_el g') /\
      pile_restored E m (g_nodes g) (g_nodes g') /\
      pile_restored E m (g_edges g) (g_edges g').
  Proof.
    intros Hv Hok Hown Hfree Hmatch Hn He Hnc Hec Hp1 Hp2 Hpm H.
    unfold graph_to_dict in H.
    destruct (to_dict E (g_el g) m f mk) as [d0|] eqn:Hd0; [|discriminate]. cbn [bind] in H.
    destruct (pile_to_dict E (g_nodes g) m None None imk ifmt) as [ns|] eqn:Hns; [|discriminate].
    cbn [bind] in H.
    destruct (pile_to_dict E (g_edges g) m None None imk ifmt) as [es|] eqn:Hes; [|discriminate].
    cbn [bind] in H. injection H as <-.
    assert (Hpf : pile_free E pcls (stored_at m None)).
    { destruct m; cbn; repeat split; try discriminate; try assumption; cbn; intuition discriminate. }
    assert (Hdbk : ~ (m = Db /\ @None string = Some "")) by (intros [_ ?]; discriminate).
    destruct (pile_part _ m imk imk' None None imk' ifmt ns Hn Hnc Hpf Hdbk Hpm Hns)
      as (n' & Hn' & Hnr).
    destruct (pile_part _ m imk imk' None None imk' ifmt es He Hec Hpf Hdbk Hpm Hes)
      as (e' & He' & Her).
    assert (Rn : ~ In "nodes" reserved) by (cbn; intuition discriminate).
    assert (Re : ~ In "edges" reserved) by (cbn; intuition discriminate).
    destruct (container_holds (g_el g) m f mk "nodes" "edges" (VDict ns) (VDict es) d0 Hv Hfree Rn Re Hd0)
      as (vi & mm & fs' & Hvi & Hmm & Hfs & Hh).
    destruct Hfree as ((Hk1 & Hk2 & Hk3) & Hkn).
    apply (pile_restore_holds (container_free E ["nodes"; "edges"] (e_cls (g_el g)))
             _ _ _ _ _ _ mk') in Hh; try assumption.
    2: { intros k (Hkf & Hkn'). apply (container_absent (g_el g) m); try assumption.
         intros j [-> | ->] ->; apply Hkn'; cbn; tauto. }
    2: apply stored_nonempty.
    2: { rewrite dget_dset_other by (intro Heq; apply Hkn; rewrite Heq; cbn; tauto).
         rewrite dget_dset_other by (intro Heq; apply Hkn; rewrite Heq; cbn; tauto).
         apply dget_None. rewrite (em_keys E m _ _ Hfs), dkeys_dump_fields, (v_fields E _ Hv).
         exact Hk3. }
    2: { apply (container_reserved (g_el g) m); try assumption. cbn; tauto. }
    unfold graph_from_dict.
    match type of Hh with holds ?x _ _ _ _ _ => set (d1 := x) in * end. clearbody d1.
    assert (Hg1 : dget "nodes" d1 = Some (VDict ns)).
    { rewrite (proj2 Hh). cbn. rewrite dget_dset_other by discriminate. apply dget_dset_same. }
    assert (Hg2 : dget "edges" d1 = Some (VDict es)).
    { rewrite (proj2 Hh). cbn. apply dget_dset_same. }
    rewrite Hg1, Hg2. unfold load_pile.
    rewrite (pile_dump_nonempty _ _ _ _ _ _ _ Hns), (pile_dump_nonempty _ _ _ _ _ _ _ Hes).
    rewrite Hn'. cbn [bind]. rewrite He'. cbn [bind].
    destruct (container_validate (g_el g) m (the_format m f) d1 mm vi fs' mm "nodes" "edges"
                (VDict ns) (VDict es)) as (t' & Hval & Hsame); try assumption; [discriminate|].
    rewrite Hval. cbn [bind]. eexists. split; [reflexivity|]. cbn.
    split; [|split; assumption]. constructor; cbn; try reflexivity; try assumption.
    - apply (class_in_dump E m). exact Hmm.
    - rewrite <- (filter_dset (fun k => negb (String.eqb k "lion_class")) "lion_class"
                    (VStr (cname E (e_cls (g_el g)))) (e_meta (g_el g)) eq_refl).
      apply (em_filter E m (fun k => negb (String.eqb k "lion_class"))). exact Hmm.
  Qed.

  Lemma pile_dump_key p m f mk imk ifmt d :
    pile_ok E base p -> pile_free E (e_cls (p_el p)) (stored_at m mk) ->
    ~ (m = Db /\ mk = Some "") ->
    pile_to_dict E p m f mk imk ifmt = Ret d -> In (stored_at m mk) (dkeys d).
  Proof.
    intros Hp (Hf1 & Hf2) Hdb H.
    destruct (pile_dump E elsewhere base p m f mk imk ifmt d Hp Hf1 Hf2 Hdb H)
      as (vi & mm & fs' & ds & _ & _ & Hg).
    assert (Hst : dget (stored_at m mk) d = Some (VDict (named (p_name p) mm)))
      by (rewrite Hg, String.eqb_refl; reflexivity).
    apply dget_In in Hst. apply in_map_iff. eexists. split; [|exact Hst]. reflexivity.
  Qed.

  (** db mode needs the key of the piles' metadata as item key. *)
  Theorem graph_db_fails g f mk imk ifmt mk' imk' d c :
    pile_ok E base (g_nodes g) -> e_cls (p_el (g_nodes g)) = pcls ->
    ~ In "node_metadata" (own_fields E pcls) ->
    (imk' = None \/ imk' = Some "" \/ imk' = Some "metadata") ->
    (mk' = None \/ mk' = Some "" \/ mk' = Some "metadata" \/ mk' = Some "node_metadata") ->
    graph_to_dict E g Db f mk imk ifmt = Ret d ->
    exists x, graph_from_dict E elsewhere base pcls default_pile c d mk' imk' = Raise x.
  Proof.
    intros Hp Hc Hn Himk Hmk' H. unfold graph_to_dict in H.
    destruct (to_dict E (g_el g) Db f mk) as [d0|] eqn:Hd0; [|discriminate]. cbn [bind] in H.
    destruct (pile_to_dict E (g_nodes g) Db None None imk ifmt) as [ns|] eqn:Hns; [|discriminate].
    cbn [bind] in H.
    destruct (pile_to_dict E (g_edges g) Db None None imk ifmt) as [es|] eqn:Hes; [|discriminate].
    cbn [bind] in H. injection H as <-.
    assert (Hin : In "node_metadata" (dkeys ns)).
    { apply (pile_dump_key (g_nodes g) Db None None imk ifmt ns Hp); try assumption.
      - cbn. repeat split; try discriminate; [rewrite Hc; exact Hn|cbn; intuition discriminate].
      - intros [_ ?]; discriminate. }
    destruct (pile_legacy_fails E elsewhere base pcls ns imk' imk' Hn Hin Himk) as [x Hx].
    unfold graph_from_dict.
    set (d1 := match mk' with Some k => _ | None => _ end).
    assert (Hg : dget "nodes" d1 = Some (VDict ns)).
    { unfold d1. set (dd := dset "edges" (VDict es) (dset "nodes" (VDict ns) d0)).
      assert (Hdd : dget "nodes" dd = Some (VDict ns)).
      { unfold dd. rewrite dget_dset_other by discriminate. apply dget_dset_same. }
      destruct Hmk' as [-> | [-> | [-> | ->]]]; cbn; try exact Hdd.
      - destruct (dget "metadata" dd); [|exact Hdd].
        rewrite dget_dset_other by discriminate. rewrite dget_ddel_other by discriminate. exact Hdd.
      - destruct (dget "node_metadata" dd); [|exact Hdd].
        rewrite dget_dset_other by discriminate. rewrite dget_ddel_other by discriminate. exact Hdd. }
    rewrite Hg. unfold load_pile. rewrite (pile_dump_nonempty _ _ _ _ _ _ _ Hns), Hx. cbn. eauto.
  Qed.

  (** ---- flows ---- *)
  Variable refers : pile -> pile -> bool.

  (** The check only looks at identifiers and order. *)
  Definition refers_ok (m : mode) (is ps : pile) : Prop :=
    forall is' ps', pile_restored E m is is' -> pile_restored E m ps ps' -> refers is' ps' = true.

  Theorem flow_roundtrip x m f mk mk' c0 delegate d :
    valid E (f_el x) -> fields_ok E m (f_el x) ->
    (forall k, In k (own_fields E (e_cls (f_el x))) -> k <> "items" /\ k <> "progressions") ->
    matching (container_free E ["items"; "progressions"] (e_cls (f_el x))) "metadata" mk' ->
    pile_io E base m None None (f_items x) -> pile_io E base m None None (f_progs x) ->
    e_cls (p_el (f_items x)) = pcls -> e_cls (p_el (f_progs x)) = pcls ->
    ~ In "metadata" (own_fields E pcls) ->
    stored_at m mk = "metadata" -> ~ (m = Db /\ mk = Some "") ->
    refers_ok m (f_items x) (f_progs x) ->
    finds E c0 (e_cls (f_el x)) ->
    flow_to_dict E x m f mk = Ret d ->
    exists x', flow_from_dict E elsewhere base pcls default_pile refers delegate c0 d mk' = Ret x' /\
      restored E m (f_el x) (f_el x') /\
      pile_restored E m (f_items x) (f_items x') /\
      pile_restored E m (f_progs x) (f_progs x').
  Proof.
    intros Hv Hok Hown Hmatch Hi Hp Hic Hpc Hnm Hst Hdb Href Hfind H.
    unfold flow_to_dict in H.
    destruct (to_dict E (f_el x) m f mk) as [d0|] eqn:Hd0; [|discriminate]. cbn [bind] in H.
    destruct (pile_to_dict E (f_items x) m f mk None None) as [is|] eqn:His; [|discriminate].
    cbn [bind] in H.
    destruct (pile_to_dict E (f_progs x) m f mk None None) as [ps|] eqn:Hps; [|discriminate].
    cbn [bind] in H. injection H as <-.
    assert (Hpf : pile_free E pcls (stored_at m mk)).
    { rewrite Hst. repeat split; try discriminate; try assumption; cbn; intuition discriminate. }
    assert (Hpm : pile_matching (pile_free E pcls) (stored_at m mk) None)
      by (right; split; [exact Hst|left; reflexivity]).
    destruct (pile_part _ m None None f mk None None is Hi Hic Hpf Hdb Hpm His) as (i' & Hi' & Hir).
    destruct (pile_part _ m None None f mk None None ps Hp Hpc Hpf Hdb Hpm Hps) as (p' & Hp' & Hpr).
    assert (Ri : ~ In "items" reserved) by (cbn; intuition discriminate).
    assert (Rp : ~ In "progressions" reserved) by (cbn; intuition discriminate).
    assert (Hfree : container_free E ["items"; "progressions"] (e_cls (f_el x)) (stored_at m mk)).
    { rewrite Hst. split; [|cbn; intuition discriminate].
      repeat split; try discriminate. intro Hin. apply (v_names E _ Hv _ Hin). cbn; tauto. }
    destruct (container_holds (f_el x) m f mk "items" "progressions" (VDict is) (VDict ps) d0
                Hv Hfree Ri Rp Hd0) as (vi & mm & fs' & Hvi & Hmm & Hfs & Hh).
    rewrite Hst in Hh.
    apply (restore_holds (container_free E ["items"; "progressions"] (e_cls (f_el x)))
             _ _ _ _ _ _ mk') in Hh; try assumption; try discriminate.
    2: { intros k (Hkf & Hkn'). apply (container_absent (f_el x) m); try assumption.
         intros j [-> | ->] ->; apply Hkn'; cbn; tauto. }
    2, 3, 4: apply (container_reserved (f_el x) m); try assumption; cbn; tauto.
    apply take_class_holds in Hh. destruct Hh as (d1 & Htake & Hh).
    rewrite (class_in_dump E m _ _ Hmm) in Htake.
    assert (Hg1 : dget "items" d1 = Some (VDict is)).
    { rewrite (proj2 Hh). cbn. rewrite dget_dset_other by discriminate. apply dget_dset_same. }
    assert (Hg2 : dget "progressions" d1 = Some (VDict ps)).
    { rewrite (proj2 Hh). cbn. apply dget_dset_same. }
    destruct (container_validate (f_el x) m (the_format m f) d1 (ddel "lion_class" mm) vi fs' mm
                "items" "progressions" (VDict is) (VDict ps)) as (t' & Hval & Hsame);
      try assumption; [discriminate|].
    assert (Hbuild : flow_validate E elsewhere base pcls default_pile refers (e_cls (f_el x)) d1
      = Ret (Flow (Element (e_cls (f_el x)) (e_id (f_el x)) t' (ddel "lion_class" mm)
                     (e_fields (f_el x))) i' p')).
    { unfold flow_validate. rewrite Hg1, Hg2. cbn [validate_items validate_progressions]. rewrite Hi', Hp', Hval. cbn [both bind].
      rewrite (Href i' p' Hir Hpr). reflexivity. }
    eexists. split.
    - unfold flow_from_dict, from_dict. rewrite Htake. cbn [truthy].
      destruct Hfind as [->|(Hne & Hnn & Hload & Hel & Himpl)].
      + rewrite String.eqb_refl. destruct (negb _); exact Hbuild.
      + destruct (String.eqb_spec (cname E (e_cls (f_el x))) ""); [contradiction|]. cbn [negb].
        destruct (String.eqb_spec (cname E (e_cls (f_el x))) (cname E c0)); [congruence|].
        rewrite Hload, Hel, Himpl.
        destruct (impl_of E c0); try rewrite Nat.eqb_refl; exact Hbuild.
    - cbn. split; [|split; assumption]. constructor; cbn; try reflexivity; [exact Hsame|].
      rewrite <- (ddel_filter' "lion_class" _ (v_meta E _ Hv)).
      rewrite <- (ddel_dset "lion_class" (VStr (cname E (e_cls (f_el x)))) _ (v_meta E _ Hv)).
      apply em_ddel; [apply dkeys_dset_NoDup, (v_meta E _ Hv)|exact Hmm].
  Qed.

  (** With any other key, and in db mode, no dump of a flow can be loaded. *)
  Theorem flow_other_key_fails x m f mk mk' c0 d
      (delegate : nat -> data -> outcome flow) :
    pile_ok E base (f_items x) -> e_cls (p_el (f_items x)) = pcls ->
    valid E (f_el x) ->
    container_free E ["items"; "progressions"] (e_cls (f_el x)) (stored_at m mk) ->
    pile_free E pcls (stored_at m mk) ->
    stored_at m mk <> "metadata" ->
    matching (container_free E ["items"; "progressions"] (e_cls (f_el x))) (stored_at m mk) mk' ->
    finds E c0 (e_cls (f_el x)) ->
    flow_to_dict E x m f mk = Ret d ->
    exists y, flow_from_dict E elsewhere base pcls default_pile refers delegate c0 d mk' = Raise y.
  Proof.
    intros Hp Hc Hv Hfree Hpf Hne Hmatch Hfind H.
    unfold flow_to_dict in H.
    destruct (to_dict E (f_el x) m f mk) as [d0|] eqn:Hd0; [|discriminate]. cbn [bind] in H.
    destruct (pile_to_dict E (f_items x) m f mk None None) as [is|] eqn:His; [|discriminate].
    cbn [bind] in H.
    destruct (pile_to_dict E (f_progs x) m f mk None None) as [ps|] eqn:Hps; [|discriminate].
    cbn [bind] in H. injection H as <-.
    assert (Hdb : ~ (m = Db /\ mk = Some "")).
    { intros [-> ->]. apply Hne. reflexivity. }
    assert (Hin : In (stored_at m mk) (dkeys is)).
    { apply (pile_dump_key (f_items x) m f mk None None is Hp); try assumption. rewrite Hc; exact Hpf. }
    destruct Hpf as ((Q1 & Q2 & Q3) & Q4).
    destruct (pile_unknown_fails pcls is None (stored_at m mk) Q3 Q4 Q1 Q2 Hne Hin) as [y Hy].
    assert (Ri : ~ In "items" reserved) by (cbn; intuition discriminate).
    assert (Rp : ~ In "progressions" reserved) by (cbn; intuition discriminate).
    destruct (container_holds (f_el x) m f mk "items" "progressions" (VDict is) (VDict ps) d0
                Hv Hfree Ri Rp Hd0) as (vi & mm & fs' & Hvi & Hmm & Hfs & Hh).
    destruct Hfree as ((Hk1 & Hk2 & Hk3) & Hkn).
    apply (restore_holds (container_free E ["items"; "progressions"] (e_cls (f_el x)))
             _ _ _ _ _ _ mk') in Hh; try assumption; try discriminate.
    2: { intros k (Hkf & Hkn'). apply (container_absent (f_el x) m); try assumption.
         intros j [-> | ->] ->; apply Hkn'; cbn; tauto. }
    2: { rewrite dget_dset_other by (intro Heq; apply Hkn; rewrite Heq; cbn; tauto).
         rewrite dget_dset_other by (intro Heq; apply Hkn; rewrite Heq; cbn; tauto).
         apply dget_None. rewrite (em_keys E m _ _ Hfs), dkeys_dump_fields, (v_fields E _ Hv).
         exact Hk3. }
    2, 3: apply (container_reserved (f_el x) m); try assumption; cbn; tauto.
    2: apply stored_nonempty.
    apply take_class_holds in Hh. destruct Hh as (d1 & Htake & Hh).
    rewrite (class_in_dump E m _ _ Hmm) in Htake.
    assert (Hg1 : dget "items" d1 = Some (VDict is)).
    { rewrite (proj2 Hh). cbn. rewrite dget_dset_other by discriminate. apply dget_dset_same. }
    assert (Hbuild : exists y, flow_validate E elsewhere base pcls default_pile refers (e_cls (f_el x)) d1
                     = Raise y).
    { unfold flow_validate. rewrite Hg1. cbn [validate_items]. rewrite Hy.
      destruct (validate_progressions _ _ _ _ _ (dget "progressions" d1)) as [ps'|[]];
        destruct (model_validate E _ (ddel "progressions" _)) as [el|[]]; cbn; eexists; reflexivity. }
    clear y Hy. destruct Hbuild as [y Hbuild]. exists y. unfold flow_from_dict, from_dict. rewrite Htake. cbn [truthy].
    destruct Hfind as [->|(Hne0 & Hnn & Hload & Hel & Himpl)].
    + rewrite String.eqb_refl. destruct (negb _); exact Hbuild.
    + destruct (String.eqb_spec (cname E (e_cls (f_el x))) ""); [contradiction|]. cbn [negb].
      destruct (String.eqb_spec (cname E (e_cls (f_el x))) (cname E c0)); [congruence|].
      rewrite Hload, Hel, Himpl.
      destruct (impl_of E c0); try rewrite Nat.eqb_refl; exact Hbuild.
  Qed.
End P.
