(** Proofs about nodes: content serialisers and the class registry. *)
From Coq Require Import String.
From Coq Require Import List ZArith Bool Arith Lia.
From Verif Require Import PyBase PyFacts ModelSerde SpecSerde ProofsSerde.
Import ListNotations.
Local Open Scope string_scope.
Local Open Scope nat_scope.
Local Open Scope list_scope.
#[local] Arguments eqb : simpl never.

Section P.
  Variable E : env.
  Hypothesis HE : faithful E.

  Lemma holds_dset d st mm vi vt fs (k : string) w :
    holds d st mm vi vt fs -> k <> st -> k <> "id" -> k <> "created_at" ->
    holds (dset k w d) st mm vi vt (dset k w fs).
  Proof.
    intros [Hnd Hg] H1 H2 H3. split; [apply dkeys_dset_NoDup; exact Hnd|].
    intro j. rewrite !dget_dset, !eqb_str.
    destruct (String.eqb_spec j k) as [->|Hj].
    - destruct (String.eqb_spec k st); [congruence|].
      destruct (String.eqb_spec k "id"); [congruence|].
      destruct (String.eqb_spec k "created_at"); [congruence|]. reflexivity.
    - apply Hg.
  Qed.

  (** Filling in the other fields and a content. *)
  Lemma node_load e m f d' mm fs vi v :
    valid E e ->
    encode E m (VUuid (e_id e)) = Ret vi ->
    encode_meta E m (dset "lion_class" (VStr (cname E (e_cls e))) (e_meta e)) = Ret mm ->
    In ("content", v) (e_fields e) ->
    (forall k x, In (k, x) (e_fields e) -> k <> "content" -> field_ok E m (e_cls e) k x) ->
    (exists fs0 u, encode_meta E m (ddel "content" (dump_fields E e)) = Ret fs0 /\
       fload E (e_cls e) "content" u = Ret v /\
       forall k, dget k fs = if String.eqb k "content" then Some u else dget k fs0) ->
    holds d' "metadata" (VDict (ddel "lion_class" mm)) vi (encode_time E m f (e_created e)) fs ->
    exists e', model_validate E (e_cls e) d' = Ret e' /\ restored E m e e' /\
      (f <> Timestamp -> e_created e' = e_created e).
  Proof.
    intros Hv Hvi Hmm Hcin Hok (fs0 & u & Hfs0 & Hu & Hfs) Hh.
    assert (Hndf : NoDup (dkeys (e_fields e)))
      by (rewrite (v_fields E e Hv); apply (v_nodup E e Hv)).
    assert (Hndd : NoDup (dkeys (dump_fields E e))) by (rewrite dkeys_dump_fields; exact Hndf).
    eapply load_from_holds; try eassumption.
    - intros k x Hin. rewrite Hfs. destruct (String.eqb_spec k "content") as [->|Hk].
      + assert (x = v).
        { apply In_dget in Hin; [|exact Hndf]. apply In_dget in Hcin; [|exact Hndf]. congruence. }
        subst x. eauto.
      + pose proof (em_get E m _ _ Hfs0 k) as Hg.
        rewrite dget_ddel_other in Hg by congruence.
        assert (Hmap : dget k (dump_fields E e) = Some (fdump E (e_cls e) k x)).
        { apply In_dget; [exact Hndd|]. unfold dump_fields. apply in_map_iff.
          exists (k, x). auto. }
        rewrite Hmap in Hg. destruct Hg as (w & Hw & ->). exists w. split; [reflexivity|].
        apply (Hok k x Hin Hk w Hw).
    - intros k x Hg. rewrite Hfs in Hg. rewrite <- (v_fields E e Hv).
      destruct (String.eqb_spec k "content") as [->|Hk].
      + apply in_map_iff. exists ("content", v). auto.
      + rewrite <- (dkeys_dump_fields E e).
        pose proof (em_get E m _ _ Hfs0 k) as Hg'. rewrite dget_ddel_other in Hg' by congruence.
        destruct (dget k (dump_fields E e)) as [y|] eqn:Hy.
        * apply dget_In in Hy. apply in_map_iff. exists (k, y). auto.
        * congruence.
  Qed.

  Lemma dump_with_content e m f mk ser d v :
    valid E e -> In ("content", v) (e_fields e) ->
    free_key E (e_cls e) (stored_at m mk) ->
    node_to_dict E e m f mk (Some ser) = Ret d ->
    exists w vi mm fs0,
      ser v = Ret w /\
      encode E m (VUuid (e_id e)) = Ret vi /\
      encode_meta E m (dset "lion_class" (VStr (cname E (e_cls e))) (e_meta e)) = Ret mm /\
      encode_meta E m (ddel "content" (dump_fields E e)) = Ret fs0 /\
      holds d (stored_at m mk) (VDict mm) vi
        (encode_time E m (the_format m f) (e_created e)) (dset "content" w fs0).
  Proof.
    intros Hv Hin (Hk1 & Hk2 & Hk3) H. unfold node_to_dict in H.
    assert (Hndf : NoDup (dkeys (e_fields e)))
      by (rewrite (v_fields E e Hv); apply (v_nodup E e Hv)).
    assert (Hndd : NoDup (dkeys (dump_fields E e))) by (rewrite dkeys_dump_fields; exact Hndf).
    assert (Hc : dget "content" (e_fields e) = Some v) by (apply In_dget; assumption).
    rewrite Hc in H. destruct (ser v) as [w|x] eqn:Hs; [|discriminate].
    destruct (to_dict_with E e (ddel "content" (dump_fields E e)) m f mk) as [d0|x] eqn:Hd;
      [|discriminate]. cbn in H. injection H as <-.
    assert (Hsub : forall k, In k (dkeys (ddel "content" (dump_fields E e))) ->
      In k (own_fields E (e_cls e))).
    { intros k Hk. rewrite <- (v_fields E e Hv), <- (dkeys_dump_fields E e).
      apply In_dkeys_ddel in Hk; [|exact Hndd]. tauto. }
    apply to_dict_holds in Hd.
    2: apply (v_meta E e Hv).
    2: apply dkeys_ddel_NoDup; exact Hndd.
    2: intros k Hk; apply (v_names E e Hv); apply Hsub; exact Hk.
    2, 3: assumption.
    2: intro Hk; apply Hk3; apply Hsub; exact Hk.
    destruct Hd as (vi & mm & fs0 & Hvi & Hmm & Hfs & _ & Hh).
    exists w, vi, mm, fs0. repeat (split; [assumption || reflexivity|]).
    assert (Hco : In "content" (own_fields E (e_cls e))).
    { rewrite <- (v_fields E e Hv). apply in_map_iff. exists ("content", v). auto. }
    apply holds_dset; try assumption; try discriminate.
    intro Heq. apply Hk3. rewrite <- Heq. exact Hco.
  Qed.

  (** One call of Node.from_dict up to the choice of the class. *)
  Lemma prepare_holds (free : string -> Prop) d st mm vi vt fs mk deser w u :
    holds d st (VDict mm) vi vt fs ->
    (forall k, free k -> k <> "content" /\ k <> "id" /\ k <> "created_at" /\ dget k fs = None) ->
    st <> "id" -> st <> "created_at" -> dget st fs = None ->
    dget "metadata" fs = None -> dget "node_metadata" fs = None ->
    matching free st mk -> st <> "" ->
    dget "content" fs = Some w -> deser w = Ret u ->
    exists d', node_prepare d mk (Some deser) =
      Ret (d', match dget "lion_class" mm with Some v => v | None => VNone end) /\
      holds d' "metadata" (VDict (ddel "lion_class" mm)) vi vt (dset "content" u fs).
  Proof.
    intros Hh Hfree H1 H2 H3 Hm Hn Hmatch Hne Hc Hd.
    assert (Hst : st <> "content") by (intros ->; congruence).
    assert (Hdc : dget "content" d = Some w).
    { destruct Hh as [_ Hg]. rewrite Hg. destruct (String.eqb_spec "content" st); [congruence|].
      exact Hc. }
    unfold node_prepare. rewrite Hdc, Hd. cbn [bind].
    pose proof (holds_dset d st (VDict mm) vi vt fs "content" u Hh
                  (fun H => Hst (eq_sym H)) ltac:(discriminate) ltac:(discriminate)) as Hh'.
    apply (restore_holds free _ _ _ _ _ _ mk) in Hh'; try assumption.
    - apply take_class_holds in Hh'. destruct Hh' as (d' & -> & Hh'). eauto.
    - intros k Hk. destruct (Hfree k Hk) as (Hkc & Hk1 & Hk2 & Hk3).
      split; [exact Hk1|]. split; [exact Hk2|]. rewrite dget_dset_other by congruence. exact Hk3.
    - rewrite dget_dset_other by congruence. exact H3.
    - rewrite dget_dset_other by discriminate. exact Hm.
    - rewrite dget_dset_other by discriminate. exact Hn.
  Qed.

  Lemma prepare_fails d st mm vi vt fs mk deser w x :
    holds d st mm vi vt fs -> st <> "content" ->
    dget "content" fs = Some w -> deser w = Raise x ->
    node_prepare d mk (Some deser) = Raise ValueError.
  Proof.
    intros [_ Hg] Hst Hc Hd. unfold node_prepare.
    rewrite Hg. destruct (String.eqb_spec "content" st); [congruence|].
    change (String.eqb "content" "id") with false.
    change (String.eqb "content" "created_at") with false. cbn iota.
    rewrite Hc, Hd. reflexivity.
  Qed.

  Section Codec.
    Variables (e : element) (m : mode) (f : option format) (mk mk' : option string).
    Variables (ser deser : val -> outcome val) (d : data) (v w u : val).
    Hypothesis Hv : valid E e.
    Hypothesis Hin : In ("content", v) (e_fields e).
    Hypothesis Hfree : free_key E (e_cls e) (stored_at m mk).
    Hypothesis Hmatch : matching (free_key E (e_cls e)) (stored_at m mk) mk'.
    Hypothesis Hser : ser v = Ret w.
    Hypothesis Hdes : deser w = Ret u.
    Hypothesis Hdump : node_to_dict E e m f mk (Some ser) = Ret d.

    Lemma first_prepare : exists vi mm fs0 d',
      encode E m (VUuid (e_id e)) = Ret vi /\
      encode_meta E m (dset "lion_class" (VStr (cname E (e_cls e))) (e_meta e)) = Ret mm /\
      encode_meta E m (ddel "content" (dump_fields E e)) = Ret fs0 /\
      dget "metadata" fs0 = None /\ dget "node_metadata" fs0 = None /\
      node_prepare d mk' (Some deser) = Ret (d', VStr (cname E (e_cls e))) /\
      NoDup (dkeys mm) /\
      holds d' "metadata" (VDict (ddel "lion_class" mm)) vi
        (encode_time E m (the_format m f) (e_created e))
        (dset "content" u (dset "content" w fs0)).
    Proof.
      destruct (dump_with_content e m f mk ser d v Hv Hin Hfree Hdump)
        as (w' & vi & mm & fs0 & Hw & Hvi & Hmm & Hfs & Hh).
      assert (w' = w) by congruence. subst w'. destruct Hfree as (Hk1 & Hk2 & Hk3).
      assert (Hndd : NoDup (dkeys (dump_fields E e))).
      { rewrite dkeys_dump_fields, (v_fields E e Hv). apply (v_nodup E e Hv). }
      assert (Hno : forall k : string, ~ In k (own_fields E (e_cls e)) -> dget k fs0 = None).
      { intros k Hk. apply dget_None. rewrite (em_keys E m _ _ Hfs). intro Hi. apply Hk.
        apply In_dkeys_ddel in Hi; [|exact Hndd].
        rewrite <- (v_fields E e Hv), <- (dkeys_dump_fields E e). tauto. }
      assert (Hres : forall k, In k reserved -> dget k fs0 = None).
      { intros k Hr. apply Hno. intro Hi. apply (v_names E e Hv k Hi Hr). }
      assert (Hco : In "content" (own_fields E (e_cls e))).
      { rewrite <- (v_fields E e Hv). apply in_map_iff. exists ("content", v). auto. }
      assert (Hstc : stored_at m mk <> "content") by (intro Heq; apply Hk3; rewrite Heq; exact Hco).
      assert (Hm0 : dget "metadata" fs0 = None) by (apply Hres; cbn; tauto).
      assert (Hn0 : dget "node_metadata" fs0 = None) by (apply Hres; cbn; tauto).
      destruct (prepare_holds (free_key E (e_cls e)) d (stored_at m mk) mm vi _
                  (dset "content" w fs0) mk' deser w u Hh) as (d' & Hp & Hh').
      { intros k (Hf1 & Hf2 & Hf3).
        assert (Hkc : k <> "content") by (intros ->; exact (Hf3 Hco)).
        repeat (split; [assumption|]). rewrite dget_dset_other by exact Hkc. apply Hno. exact Hf3. }
      1, 2: assumption.
      { rewrite dget_dset_other by exact Hstc. apply Hno. exact Hk3. }
      { rewrite dget_dset_other by discriminate. exact Hm0. }
      { rewrite dget_dset_other by discriminate. exact Hn0. }
      { exact Hmatch. }
      { apply stored_nonempty. }
      { apply dget_dset_same. }
      { exact Hdes. }
      rewrite (class_in_dump E m e mm Hmm) in Hp.
      exists vi, mm, fs0, d'. repeat (split; [assumption|]). split; [|exact Hh'].
      rewrite (em_keys E m _ _ Hmm). apply dkeys_dset_NoDup. apply (v_meta E e Hv).
    Qed.

    Hypothesis Hok : forall k x, In (k, x) (e_fields e) -> k <> "content" ->
      field_ok E m (e_cls e) k x.

    Lemma codec_own :
      fload E (e_cls e) "content" u = Ret v ->
      exists e', node_from_dict E (e_cls e) d mk' (Some deser) = Ret e' /\ restored E m e e'.
    Proof.
      intro Hl.
      destruct first_prepare as (vi & mm & fs0 & d' & Hvi & Hmm & Hfs & Hm0 & Hn0 & Hp & Hnd & Hh).
      assert (Hpre : exists fs1 x, encode_meta E m (ddel "content" (dump_fields E e)) = Ret fs1 /\
          fload E (e_cls e) "content" x = Ret v /\
          forall k, dget k (dset "content" u (dset "content" w fs0)) =
            if String.eqb k "content" then Some x else dget k fs1).
      { exists fs0, u. split; [exact Hfs|]. split; [exact Hl|].
        intro k. rewrite !dget_dset, !(eqb_str k "content").
        destruct (String.eqb k "content"); reflexivity. }
      destruct (node_load e m (the_format m f) d' mm _ vi v Hv Hvi Hmm Hin Hok Hpre Hh)
        as (e' & He' & Hr & _).
      exists e'. split; [|exact Hr].
      unfold node_from_dict. rewrite Hp. cbn [bind].
      destruct (truthy _); [|exact He']. rewrite String.eqb_refl. exact He'.
    Qed.

    Variable c0 : nat.
    Hypothesis Hne : cname E c0 <> cname E (e_cls e).
    Hypothesis Hnn : cname E (e_cls e) <> "".
    Hypothesis Hreg : find_class E (cname E (e_cls e)) = Some (e_cls e).

    Lemma codec_base :
      match deser u with
      | Raise _ => node_from_dict E c0 d mk' (Some deser) = Raise ValueError
      | Ret u2 =>
          fload E (e_cls e) "content" u2 = Ret v ->
          exists e', node_from_dict E c0 d mk' (Some deser) = Ret e' /\ restored E m e e'
      end.
    Proof.
      destruct first_prepare as (vi & mm & fs0 & d' & Hvi & Hmm & Hfs & Hm0 & Hn0 & Hp & Hnd & Hh).
      assert (Hstart : node_from_dict E c0 d mk' (Some deser) =
        bind (node_prepare d' None (Some deser)) (fun '(d, _) => model_validate E (e_cls e) d)).
      { unfold node_from_dict. rewrite Hp. cbn [bind truthy].
        destruct (String.eqb_spec (cname E (e_cls e)) ""); [contradiction|]. cbn [negb].
        destruct (String.eqb_spec (cname E (e_cls e)) (cname E c0)); [congruence|].
        rewrite Hreg. destruct (Nat.eqb_spec (e_cls e) c0) as [Heq|]; [congruence|]. reflexivity. }
      rewrite Hstart.
      assert (Hgc : dget "content" (dset "content" u (dset "content" w fs0)) = Some u)
        by apply dget_dset_same.
      destruct (deser u) as [u2|x] eqn:Hd2.
      - intro Hl.
        destruct (prepare_holds (fun _ => False) d' "metadata" (ddel "lion_class" mm) vi _
                    (dset "content" u (dset "content" w fs0)) None deser u u2 Hh)
          as (d2 & Hp2 & Hh2); try assumption; try discriminate; [tauto| | | | |].
        { rewrite !dget_dset_other by discriminate. exact Hm0. }
        { rewrite !dget_dset_other by discriminate. exact Hm0. }
        { rewrite !dget_dset_other by discriminate. exact Hn0. }
        { right. split; [left; reflexivity|left; reflexivity]. }
        rewrite dget_ddel_same in Hp2 by exact Hnd. rewrite Hp2. cbn [bind].
        assert (Htwice : ddel "lion_class" (ddel "lion_class" mm) = ddel "lion_class" mm).
        { rewrite (ddel_filter' "lion_class" (ddel "lion_class" mm))
            by (apply dkeys_ddel_NoDup; exact Hnd).
          rewrite (ddel_filter' "lion_class" mm Hnd).
          clear. induction mm as [|[k x] mm IH]; [reflexivity|]. cbn.
          destruct (negb (String.eqb k "lion_class")) eqn:Hk; cbn; rewrite ?Hk, IH; reflexivity. }
        rewrite Htwice in Hh2.
        assert (Hpre : exists fs1 x, encode_meta E m (ddel "content" (dump_fields E e)) = Ret fs1 /\
          fload E (e_cls e) "content" x = Ret v /\
          forall k, dget k (dset "content" u2 (dset "content" u (dset "content" w fs0))) =
            if String.eqb k "content" then Some x else dget k fs1).
      { exists fs0, u2. split; [exact Hfs|]. split; [exact Hl|].
        intro k. rewrite !dget_dset, !(eqb_str k "content").
        destruct (String.eqb k "content"); reflexivity. }
      destruct (node_load e m (the_format m f) d2 mm _ vi v Hv Hvi Hmm Hin Hok Hpre Hh2)
        as (e' & He' & Hr & _).
        exists e'. split; assumption.
      - rewrite (prepare_fails d' "metadata" _ vi _ _ None deser u x Hh); try assumption;
          [reflexivity|discriminate].
    Qed.
  End Codec.

  (** Without codecs. *)
  Lemma node_roundtrip e m f mk mk' c0 d :
    valid E e -> fields_ok E m e ->
    free_key E (e_cls e) (stored_at m mk) -> matching (free_key E (e_cls e)) (stored_at m mk) mk' ->
    node_finds E c0 (e_cls e) ->
    node_to_dict E e m f mk None = Ret d ->
    exists e', node_from_dict E c0 d mk' None = Ret e' /\ restored E m e e' /\
      (the_format m f <> Timestamp -> e_created e' = e_created e).
  Proof.
    intros Hv Hok Hfree Hmatch Hfind H. cbn [node_to_dict] in H.
    destruct (dump_prepared E e m f mk mk' d Hv Hfree Hmatch H)
      as (vi & mm & fs' & d' & Hvi & Hmm & Hfs & Htake & Hh).
    destruct (load_from_dump E HE e m _ d' mm fs' vi Hv Hok Hvi Hmm Hfs Hh) as (e' & He' & Hr).
    unfold node_from_dict, node_prepare. cbn [bind]. rewrite Htake. cbn [bind truthy].
    destruct Hfind as [->|(Hne & Hnn & Hreg)].
    - exists e'. split; [|exact Hr]. rewrite String.eqb_refl. destruct (negb _); exact He'.
    - destruct (String.eqb_spec (cname E (e_cls e)) ""); [contradiction|]. cbn [negb].
      destruct (String.eqb_spec (cname E (e_cls e)) (cname E c0)); [congruence|].
      rewrite Hreg. destruct (Nat.eqb_spec (e_cls e) c0) as [Heq|_]; [congruence|].
      assert (Hnd : NoDup (dkeys mm)).
      { rewrite (em_keys E m _ _ Hmm). apply dkeys_dset_NoDup. apply (v_meta E e Hv). }
      assert (Hno : forall k, In k reserved -> dget k fs' = None).
      { intros k Hk. apply dget_None. rewrite (em_keys E m _ _ Hfs), dkeys_dump_fields,
          (v_fields E e Hv). intro Hi. apply (v_names E e Hv k Hi Hk). }
      apply (restore_holds (fun _ => False) _ _ _ _ _ _ None) in Hh; try discriminate; [|tauto| | | |].
      2, 3: apply Hno; cbn; tauto.
      2: apply Hno; cbn; tauto.
      2: right; split; [left; reflexivity|left; reflexivity].
      apply take_class_holds in Hh. destruct Hh as (d2 & -> & Hh).
      rewrite (ddel_filter' "lion_class" (ddel "lion_class" mm)) in Hh
        by (apply dkeys_ddel_NoDup; exact Hnd).
      assert (Hsame : filter (fun '(j, _) => negb (String.eqb j "lion_class"))
                        (ddel "lion_class" mm) = ddel "lion_class" mm).
      { rewrite (ddel_filter' "lion_class" mm Hnd).
        clear. induction mm as [|[k x] mm IH]; [reflexivity|]. cbn.
        destruct (negb (String.eqb k "lion_class")) eqn:Hk; cbn; rewrite ?Hk, IH; reflexivity. }
      rewrite Hsame in Hh. cbn [bind].
      destruct (load_from_dump E HE e m _ d2 mm fs' vi Hv Hok Hvi Hmm Hfs Hh) as (e2 & He2 & Hr2).
      exists e2. split; assumption.
  Qed.
End P.
