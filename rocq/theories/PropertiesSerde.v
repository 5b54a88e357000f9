(** C69, C70, C71, C82: dumping elements, nodes, piles, graphs and flows to dicts and loading them. *)
From Coq Require Import String.
From Coq Require Import List ZArith Bool Arith Lia Ascii.
From Verif Require Import PyBase PyFacts ModelSerde ModelSerdeGraph SpecSerde ProofsSerde
  ProofsSerdeNode ProofsSerdePile ProofsSerdeGraph.
Import ListNotations.
Local Open Scope string_scope.
Local Open Scope nat_scope.
Local Open Scope list_scope.
#[local] Arguments eqb : simpl never.

Lemma NoDup_app_one {A} (l : list A) x : NoDup l -> ~ In x l -> NoDup (l ++ [x]).
Proof.
  intros Hl Hx. induction Hl as [|y l Hy Hl IH]; cbn; [repeat constructor; tauto|].
  constructor; [|apply IH; cbn in Hx; tauto]. intro Hi. apply in_app_or in Hi.
  destruct Hi as [Hi|[<-|[]]]; [contradiction|]. apply Hx. left. reflexivity.
Qed.

Section Serde.
  Variable E : env.
  Hypothesis HE : faithful E.

  (** * C69 *)

  (** to_dict fails only for what cannot be encoded, and for datetime objects in JSON. *)
  Theorem C69_dump_total e m f mk mm fs' :
    encode_meta E m (e_meta e) = Ret mm ->
    encode_meta E m (dump_fields E e) = Ret fs' ->
    if match m, f with Json, Some Datetime => true | _, _ => false end
    then to_dict E e m f mk = Raise ValueError
    else exists d, to_dict E e m f mk = Ret d.
  Proof. apply to_dict_succeeds. Qed.

  (** What a dump contains: id, created_at, the metadata with the class name under
      the chosen key, the fields, nothing else. *)
  Theorem C69_dump_shape e m f mk d :
    valid E e -> free_key E (e_cls e) (stored_at m mk) ->
    to_dict E e m f mk = Ret d ->
    exists vi mm fs',
      encode E m (VUuid (e_id e)) = Ret vi /\
      encode_meta E m (dset "lion_class" (VStr (cname E (e_cls e))) (e_meta e)) = Ret mm /\
      encode_meta E m (dump_fields E e) = Ret fs' /\
      ~ (m = Json /\ f = Some Datetime) /\ NoDup (dkeys d) /\
      forall k : string, dget k d =
        if String.eqb k (stored_at m mk) then Some (VDict mm)
        else if String.eqb k "id" then Some vi
        else if String.eqb k "created_at" then Some (written_time E m f (e_created e))
        else dget k fs'.
  Proof.
    intros Hv (Hk1 & Hk2 & Hk3) H. unfold to_dict in H.
    assert (Hkeys : dkeys (dump_fields E e) = own_fields E (e_cls e))
      by (rewrite dkeys_dump_fields; apply (v_fields E e Hv)).
    apply to_dict_holds in H; try assumption.
    2: apply (v_meta E e Hv).
    2: rewrite Hkeys; apply (v_nodup E e Hv).
    2: rewrite Hkeys; apply (v_names E e Hv).
    2: rewrite Hkeys; exact Hk3.
    destruct H as (vi & mm & fs' & Hvi & Hmm & Hfs & Hno & Hnd & Hh).
    exists vi, mm, fs'. repeat (split; [assumption|]).
    split; [intros [-> ->]; apply Hno; split; reflexivity|]. split; [exact Hnd|].
    intro k. rewrite Hh. destruct m, f as [[| |]|]; try reflexivity.
  Qed.

  (** Any element, mode, format and free key: what from_dict returns. *)
  Theorem C69_roundtrip e m f mk mk' c0 delegate d :
    valid E e -> fields_ok E m e ->
    free_key E (e_cls e) (stored_at m mk) ->
    matching (free_key E (e_cls e)) (stored_at m mk) mk' ->
    finds E c0 (e_cls e) ->
    to_dict E e m f mk = Ret d ->
    exists e', from_dict E (model_validate E) delegate c0 d mk' = Ret e' /\
      restored E m e e' /\ (f <> Some Timestamp -> e_created e' = e_created e).
  Proof.
    intros Hv Hok Hf Hm Hfi Hd.
    destruct (element_roundtrip E HE e m f mk mk' c0 delegate d Hv Hok Hf Hm Hfi Hd)
      as (e' & He & Hr & Ht).
    exists e'. split; [exact He|]. split; [exact Hr|]. intro Hne. apply Ht.
    destruct f as [[| |]|]; try discriminate; [congruence|]. destruct m; discriminate.
  Qed.

  (** The metadata are the same, without the key that marks the class, in Python
      mode and whenever they are plain JSON values. *)
  Theorem C69_metadata m e e' :
    restored E m e e' ->
    (m = Python \/ forall k v, In (k, v) (e_meta e) -> json_plain v) ->
    e_meta e' = filter (fun '(k, _) => negb (String.eqb k "lion_class")) (e_meta e) /\
    (forall k v, k <> "lion_class" -> (In (k, v) (e_meta e') <-> In (k, v) (e_meta e))).
  Proof.
    intros Hr Hp.
    assert (Heq : e_meta e' = filter (fun '(k, _) => negb (String.eqb k "lion_class")) (e_meta e)).
    { pose proof (r_meta E m e e' Hr) as Hm. destruct Hp as [->|Hp].
      - cbn in Hm. congruence.
      - rewrite plain_meta in Hm; [congruence|].
        intros k v Hin. apply filter_In in Hin. apply (Hp k v (proj1 Hin)). }
    split; [exact Heq|]. intros k v Hk. rewrite Heq, filter_In.
    destruct (String.eqb_spec k "lion_class"); [contradiction|]. tauto.
  Qed.

  (** What is read as a time: numbers, texts of numbers and the truth values are seconds since the
      epoch in UTC, naive datetimes are UTC, other texts are ISO texts; nothing else. *)
  Inductive reads_as : val -> time -> Prop :=
  | ra_num z : reads_as (VNum z) (Time z (Some 0%Z))
  | ra_true : reads_as (VBool true) (Time 1000000 (Some 0%Z))
  | ra_false : reads_as (VBool false) (Time 0 (Some 0%Z))
  | ra_naive z : reads_as (VTime (Time z None)) (Time z (Some 0%Z))
  | ra_aware z o : reads_as (VTime (Time z (Some o))) (Time z (Some o))
  | ra_float s z : parse_float E s = Some z -> reads_as (VStr s) (Time z (Some 0%Z))
  | ra_iso s t : parse_float E s = None -> parse_iso E s = Some t -> reads_as (VStr s) t.
  Theorem C69_created c d v : dget "created_at" d = Some v ->
    (forall e, model_validate E c d = Ret e -> reads_as v (e_created e)) /\
    ((forall t, ~ reads_as v t) -> model_validate E c d = Raise ValueError).
  Proof.
    assert (A : forall t, coerce_created E v = Ret t -> reads_as v t).
    { intros t. destruct v as [|b|z|s|n|[z [o|]]|l|m|o]; cbn; try discriminate.
      - intros [= <-]. destruct b; constructor.
      - intros [= <-]. constructor.
      - destruct (parse_float E s) eqn:F; [intros [= <-]; constructor; exact F|].
        destruct (parse_iso E s) eqn:I; [intros [= <-]; constructor; assumption|discriminate].
      - intros [= <-]. constructor.
      - intros [= <-]. constructor. }
    assert (B : forall x, coerce_created E v = Raise x -> x = ValueError).
    { intros x. destruct v as [|b|z|s|n|[z [o|]]|l|m|o]; cbn; try discriminate; try (intros [= <-]; reflexivity).
      destruct (parse_float E s); [discriminate|]. destruct (parse_iso E s); [discriminate|]. intros [= <-]. reflexivity. }
    intros D. unfold model_validate. rewrite D. destruct (forallb _ d); [|split; [discriminate|reflexivity]].
    assert (U : forall v x, to_uuid E v = Raise x -> x = ValueError).
    { intros w x. destruct w; cbn; try discriminate; try (intros [= <-]; reflexivity). destruct (parse_uuid E s); [discriminate|]. intros [= <-]. reflexivity. }
    destruct (match dget "id" d with None => Ret (fresh_id E) | Some v => to_uuid E v end) as [i|x] eqn:I; cbn [bind].
    - destruct (coerce_created E v) as [t|x] eqn:T; cbn [bind].
      + split; [|intros N; elim (N t); auto]. intros e. destruct (collect _ _); cbn [bind]; [|discriminate]. intros [= <-]. cbn. auto.
      + split; [discriminate|]. intros _. f_equal. auto.
    - split; [discriminate|]. intros _. f_equal. destruct (dget "id" d); [eauto|discriminate].
  Qed.

  (** None, False, 0 and empty texts, lists and dicts stand for no class name and no metadata. *)
  Definition nothing (v : val) : Prop :=
    In v [VNone; VBool false; VNum 0; VStr ""; VList []; VDict []].
  Lemma nothing_iff v : nothing v <-> truthy v = false.
  Proof.
    unfold nothing. split.
    - intros H. repeat (destruct H as [<-|H]; [reflexivity|]). destruct H.
    - destruct v as [|b|z|s|n|t|l|m|o]; cbn; try discriminate; try tauto.
      + intros ->. auto.
      + intros H. apply negb_false_iff, Z.eqb_eq in H. subst. auto.
      + intros H. apply negb_false_iff, String.eqb_eq in H. subst. auto.
      + destruct l; [auto 10|discriminate].
      + destruct m; [auto 10|discriminate].
  Qed.
  Theorem C69_no_class R (build delegate : nat -> data -> outcome R) c d md lc :
    dget "metadata" d = Some (VDict md) -> ~ In "node_metadata" (dkeys d) ->
    dget "lion_class" md = Some lc ->
    (nothing lc -> from_dict E build delegate c d None = build c (dset "metadata" (VDict (ddel "lion_class" md)) d)) /\
    (~ nothing lc -> (forall s, lc <> VStr s) -> exists x, from_dict E build delegate c d None = Raise x).
  Proof.
    intros D N L. unfold from_dict, restore_meta, legacy_meta, take_class.
    rewrite (proj2 (dget_None _ _) N), ddel_notin by exact N. rewrite D, L. split.
    - intros H. apply nothing_iff in H. rewrite H. reflexivity.
    - intros H S. destruct (truthy lc) eqn:T; [|elim H; apply nothing_iff; exact T].
      destruct lc; eauto. elim (S s). reflexivity.
  Qed.
  Theorem C69_no_metadata c d v e : dget "metadata" d = Some v -> nothing v ->
    model_validate E c d = Ret e -> e_meta e = [].
  Proof.
    intros D H. apply nothing_iff in H. unfold model_validate. destruct (forallb _ d); [|discriminate].
    destruct (match dget "id" d with None => _ | Some v => _ end); cbn [bind]; [|discriminate].
    destruct (match dget "created_at" d with None => _ | Some v => _ end); cbn [bind]; [|discriminate].
    destruct (collect _ _); cbn [bind]; [|discriminate]. intros [= <-]. cbn [e_meta]. rewrite D. unfold load_meta. rewrite H. reflexivity.
  Qed.

  (** With a key that does not match, loading fails; no metadata are lost silently. *)
  Theorem C69_wrong_key e m f mk mk' c0 delegate d :
    valid E e ->
    free_key E (e_cls e) (stored_at m mk) -> free_key E c0 (stored_at m mk) ->
    stored_at m mk <> "metadata" -> stored_at m mk <> "node_metadata" ->
    (mk' = None \/ mk' = Some "" \/
     exists k, mk' = Some k /\ k <> stored_at m mk /\ free_key E (e_cls e) k) ->
    to_dict E e m f mk = Ret d ->
    from_dict E (model_validate E) delegate c0 d mk' = Raise ValueError.
  Proof.
    intros Hv Hfree (Hf1 & Hf2 & Hf3) Hnm Hnn Hmk Hd.
    destruct (C69_dump_shape e m f mk d Hv Hfree Hd)
      as (vi & mm & fs' & _ & _ & Hfs & _ & Hnd & Hg).
    assert (Hno : forall k, ~ In k (own_fields E (e_cls e)) -> dget k fs' = None).
    { intros k Hk. apply dget_None. rewrite (em_keys E m _ _ Hfs), dkeys_dump_fields,
        (v_fields E e Hv). exact Hk. }
    assert (Hres : forall k, In k reserved -> dget k fs' = None).
    { intros k Hr. apply Hno. intro Hi. exact (v_names E e Hv k Hi Hr). }
    assert (Hgm : dget "metadata" d = None).
    { rewrite Hg. destruct (String.eqb_spec "metadata" (stored_at m mk)); [congruence|]. cbn.
      apply Hres. cbn; tauto. }
    assert (Hgn : dget "node_metadata" d = None).
    { rewrite Hg. destruct (String.eqb_spec "node_metadata" (stored_at m mk)); [congruence|]. cbn.
      apply Hres. cbn; tauto. }
    assert (Hl : legacy_meta d = d) by (unfold legacy_meta; rewrite Hgn; reflexivity).
    assert (Hr : restore_meta mk' d = ddel "node_metadata" d).
    { unfold restore_meta. f_equal.
      destruct Hmk as [-> | [-> | (k & -> & Hk & (Hk1 & Hk2 & Hk3))]]; cbn; try exact Hl.
      destruct (String.eqb k ""); [exact Hl|].
      assert (dget k d = None).
      { rewrite Hg. destruct (String.eqb_spec k (stored_at m mk)); [contradiction|].
        destruct (String.eqb_spec k "id"); [contradiction|].
        destruct (String.eqb_spec k "created_at"); [contradiction|]. apply Hno. exact Hk3. }
      rewrite H. exact Hl. }
    unfold from_dict. rewrite Hr. unfold take_class.
    rewrite dget_ddel_other by discriminate. rewrite Hgm. cbn [truthy]. unfold model_validate.
    destruct (forallb (fun '(k, _) => known E c0 k) _) eqn:Hall; [|reflexivity].
    exfalso. rewrite forallb_forall in Hall.
    assert (Hin : In (stored_at m mk, VDict mm) (dset "metadata" (VDict []) (ddel "node_metadata" d))).
    { apply dget_In. rewrite dget_dset_other by congruence.
      rewrite dget_ddel_other by congruence. rewrite Hg, String.eqb_refl. reflexivity. }
    specialize (Hall _ Hin). cbn beta iota in Hall. unfold known in Hall. apply existsb_exists in Hall.
    destruct Hall as (j & Hj & Heq). apply String.eqb_eq in Heq. subst j.
    cbn in Hj. destruct Hj as [?|[?|[?|?]]]; congruence || contradiction.
  Qed.

  (** A class name that cannot be resolved, or names no element class, is an error. *)
  Theorem C69_unknown_class delegate c d mk' n :
    snd (take_class (restore_meta mk' d)) = VStr n -> n <> "" -> n <> cname E c ->
    (load E n = None \/ exists t, load E n = Some t /\ is_element E t = false) ->
    from_dict E (model_validate E) delegate c d mk' = Raise ValueError.
  Proof.
    intros Ht Hn Hc Hl. unfold from_dict. destruct (take_class _) as [d' lc]. cbn in Ht. subst lc.
    cbn [truthy]. destruct (String.eqb_spec n ""); [contradiction|]. cbn [negb].
    destruct (String.eqb_spec n (cname E c)); [contradiction|].
    destruct Hl as [->|(t & -> & ->)]; reflexivity.
  Qed.

  (** * C71 *)

  (** Without codecs, also through the registry. *)
  Theorem C71_roundtrip e m f mk mk' c0 d :
    valid E e -> fields_ok E m e ->
    free_key E (e_cls e) (stored_at m mk) ->
    matching (free_key E (e_cls e)) (stored_at m mk) mk' ->
    node_finds E c0 (e_cls e) ->
    node_to_dict E e m f mk None = Ret d ->
    exists e', node_from_dict E c0 d mk' None = Ret e' /\ restored E m e e' /\
      (f <> Some Timestamp -> e_created e' = e_created e).
  Proof.
    intros Hv Hok Hf Hm Hfi Hd.
    destruct (node_roundtrip E HE e m f mk mk' c0 d Hv Hok Hf Hm Hfi Hd)
      as (e' & He & Hr & Ht).
    exists e'. split; [exact He|]. split; [exact Hr|]. intro Hne. apply Ht.
    destruct f as [[| |]|]; try discriminate; [congruence|]. destruct m; discriminate.
  Qed.

  (** With codecs, loaded by the class of the node itself. *)
  Theorem C71_codec e m f mk mk' (ser deser : val -> outcome val) d v w :
    valid E e -> In ("content", v) (e_fields e) ->
    free_key E (e_cls e) (stored_at m mk) ->
    matching (free_key E (e_cls e)) (stored_at m mk) mk' ->
    (forall k x, In (k, x) (e_fields e) -> k <> "content" -> field_ok E m (e_cls e) k x) ->
    ser v = Ret w -> deser w = Ret v -> fload E (e_cls e) "content" v = Ret v ->
    node_to_dict E e m f mk (Some ser) = Ret d ->
    dget "content" d = Some w /\
    exists e', node_from_dict E (e_cls e) d mk' (Some deser) = Ret e' /\ restored E m e e'.
  Proof.
    intros Hv Hin Hf Hm Hok Hs Hd Hl H. split.
    - unfold node_to_dict in H.
      assert (Hc : dget "content" (e_fields e) = Some v).
      { apply In_dget; [|exact Hin]. rewrite (v_fields E e Hv). apply (v_nodup E e Hv). }
      rewrite Hc, Hs in H. destruct (to_dict_with _ _ _ _ _ _); [|discriminate].
      cbn [bind] in H. injection H as <-. apply dget_dset_same.
    - eapply (codec_own E HE e m f mk mk' ser deser d v w v); eassumption.
  Qed.

  (** Loaded by another class, the deserialiser is applied twice. *)
  Theorem C71_codec_twice e m f mk mk' (ser deser : val -> outcome val) d v w c0 :
    valid E e -> In ("content", v) (e_fields e) ->
    free_key E (e_cls e) (stored_at m mk) ->
    matching (free_key E (e_cls e)) (stored_at m mk) mk' ->
    (forall k x, In (k, x) (e_fields e) -> k <> "content" -> field_ok E m (e_cls e) k x) ->
    ser v = Ret w -> deser w = Ret v ->
    cname E c0 <> cname E (e_cls e) -> cname E (e_cls e) <> "" ->
    find_class E (cname E (e_cls e)) = Some (e_cls e) ->
    node_to_dict E e m f mk (Some ser) = Ret d ->
    match deser v with
    | Raise _ => node_from_dict E c0 d mk' (Some deser) = Raise ValueError
    | Ret v2 => fload E (e_cls e) "content" v2 = Ret v ->
        exists e', node_from_dict E c0 d mk' (Some deser) = Ret e' /\ restored E m e e'
    end.
  Proof.
    intros Hv Hin Hf Hm Hok Hs Hd Hne Hnn Hreg H.
    exact (codec_base E HE e m f mk mk' ser deser d v w v Hv Hin Hf Hm Hs Hd H Hok c0 Hne Hnn Hreg).
  Qed.

  (** A failing codec is reported as ValueError. *)
  Theorem C71_codec_fails e m f mk mk' (ser deser : val -> outcome val) d v w c x y :
    (dget "content" (e_fields e) = Some v -> ser v = Raise x ->
     node_to_dict E e m f mk (Some ser) = Raise ValueError) /\
    (dget "content" d = Some w -> deser w = Raise y ->
     node_from_dict E c d mk' (Some deser) = Raise ValueError).
  Proof.
    split; intros H1 H2.
    - unfold node_to_dict. rewrite H1, H2. reflexivity.
    - unfold node_from_dict, node_prepare. rewrite H1, H2. reflexivity.
  Qed.

  Variable elsewhere : nat -> data -> outcome element.
  Variable base : nat.
  Hypothesis Hbase : impl_of E base = IElement.

  (** * C70 *)
  Theorem C70_roundtrip p m f mk imk ifmt mk' imk' d :
    pile_io E base m imk imk' p ->
    pile_free E (e_cls (p_el p)) (stored_at m mk) -> ~ (m = Db /\ mk = Some "") ->
    pile_matching (pile_free E (e_cls (p_el p))) (stored_at m mk) mk' ->
    pile_to_dict E p m f mk imk ifmt = Ret d ->
    exists p', pile_from_dict E elsewhere base (e_cls (p_el p)) d mk' imk' = Ret p' /\
      pile_restored E m p p'.
  Proof.
    intros [H1 H2 H3 H4 H5 H6] (Hf1 & Hf2) Hdb Hm Hd.
    eapply (pile_roundtrip E HE elsewhere base Hbase p m f mk imk ifmt mk' imk' d); eassumption.
  Qed.

  (** Items: same identifiers, classes and fields, in the same order. *)
  Theorem C70_items m p p' :
    pile_restored E m p p' ->
    map e_id (p_items p') = map e_id (p_items p) /\
    map e_cls (p_items p') = map e_cls (p_items p) /\
    map e_fields (p_items p') = map e_fields (p_items p).
  Proof.
    intro H. pose proof (pr_items E m p p' H) as Hi.
    induction Hi as [|i i' l l' Hr _ (IH1 & IH2 & IH3)]; [repeat split|]. cbn.
    rewrite (r_id _ _ _ _ Hr), (r_cls _ _ _ _ Hr), (r_fields _ _ _ _ Hr), IH1, IH2, IH3.
    repeat split.
  Qed.

  (** Whatever is loaded is coherent: distinct ids, and items of allowed classes. *)
  Theorem C70_fail_fast c d imk (ds : list data) names ts x md s cl :
    dget "items" d = Some (VList (map VDict ds)) ->
    dget "item_type" d = Some (VList (map VStr names)) -> names <> [] ->
    Forall2 (fun n t => load E n = Some t) names ts ->
    (forall y v, In y ds -> dget "metadata" y = Some v -> exists m, v = VDict m) ->
    In x ds -> dget "metadata" x = Some (VDict md) -> dget "lion_class" md = Some (VStr s) -> s <> "" ->
    load E s = Some cl ->
    ~ allowed E (Some ts) (match dget "strict_type" d with Some v => truthy v | None => false end) cl ->
    pile_from_dict E elsewhere base c d None imk = Raise TypeError.
  Proof.
    intros DI DT NE LT WF Ix DM DL NS LC NA. unfold pile_from_dict. rewrite DI, DT.
    set (strict := match dget "strict_type" d with Some v => truthy v | None => false end) in *.
    assert (CI : collect as_dict (map VDict ds) = Ret ds).
    { clear. induction ds as [|y l IH]; [reflexivity|]. cbn. rewrite IH. reflexivity. }
    rewrite CI. cbn [bind].
    assert (CT : load_types E (Some (VList (map VStr names))) = Ret (Some ts)).
    { destruct names as [|n names]; [elim NE; reflexivity|]. cbn [map load_types].
      change (VStr n :: map VStr names) with (map VStr (n :: names)).
      enough (C : forall ns us, Forall2 (fun n t => load E n = Some t) ns us ->
        collect (fun x => match x with VStr s => match load E s with Some t => Ret t | None => Raise ValueError end | _ => Raise ValueError end) (map VStr ns) = Ret us)
        by (rewrite (C _ _ LT); reflexivity).
      clear. intros ns us F. induction F as [|n t ns us H F IH]; [reflexivity|]. cbn. rewrite H. cbn [bind]. rewrite IH. reflexivity. }
    rewrite CT. cbn [bind].
    assert (FA : fits E ts strict cl = false).
    { apply not_true_is_false. intros H. apply NA. unfold fits in H. cbn. destruct strict; apply existsb_exists in H as (t & I & H); exists t; split; auto.
      apply Nat.eqb_eq in H. auto. }
    assert (PX : precheck E ts strict x = Raise TypeError).
    { unfold precheck. rewrite DM, DL. cbn [truthy]. destruct (String.eqb_spec s ""); [contradiction|]. cbn [negb]. rewrite LC, FA. reflexivity. }
    assert (PA : forall y, In y ds -> precheck E ts strict y = Ret tt \/ precheck E ts strict y = Raise TypeError).
    { intros y I. unfold precheck. destruct (dget "metadata" y) as [v|] eqn:D; [|auto]. destruct (WF y v I D) as (m & ->).
      destruct (dget "lion_class" m) as [v|]; [|auto]. destruct (truthy v); [|auto]. destruct v; auto.
      destruct (load E s0); [|auto]. destruct (fits E ts strict n); auto. }
    assert (CP : collect (precheck E ts strict) ds = Raise TypeError).
    { clear - PX PA Ix. induction ds as [|y l IH]; [destruct Ix|]. cbn. destruct (PA y (or_introl eq_refl)) as [R|R]; rewrite R; cbn [bind]; [|reflexivity].
      destruct Ix as [->|Ix]; [congruence|]. rewrite IH; [reflexivity|exact Ix|]. intros z I. apply PA. right. exact I. }
    rewrite CP. reflexivity.
  Qed.

  Theorem C70_loaded_coherent c d mk imk p :
    pile_from_dict E elsewhere base c d mk imk = Ret p ->
    NoDup (map e_id (p_items p)) /\
    forall i, In i (p_items p) -> allowed E (p_types p) (p_strict p) (e_cls i).
  Proof.
    assert (Hadd : forall from l p0 p,
      (NoDup (map e_id (p_items p0)) /\
       forall i, In i (p_items p0) -> allowed E (p_types p0) (p_strict p0) (e_cls i)) ->
      add_items E from p0 l = Ret p ->
      NoDup (map e_id (p_items p)) /\
      forall i, In i (p_items p) -> allowed E (p_types p) (p_strict p) (e_cls i)).
    { intros from l. induction l as [|x l IH]; intros p0 q [Hnd Hal] H; cbn in H.
      - injection H as <-. split; assumption.
      - destruct (from x) as [i|]; [|discriminate]. cbn [bind] in H.
        destruct (match p_types p0 with None => true | Some ts => _ end) eqn:Hfit; [|discriminate].
        destruct (existsb (fun j => Nat.eqb (e_id j) (e_id i)) (p_items p0)) eqn:Hex; [discriminate|].
        apply IH in H; [exact H|]. cbn. split.
        + rewrite map_app. cbn. apply NoDup_app_one; [exact Hnd|].
          intro Hin. apply in_map_iff in Hin. destruct Hin as (j & Hj & Hin).
          assert (existsb (fun j => Nat.eqb (e_id j) (e_id i)) (p_items p0) = true); [|congruence].
          apply existsb_exists. exists j. split; [exact Hin|]. apply Nat.eqb_eq. exact Hj.
        + intros j Hj. apply in_app_or in Hj. destruct Hj as [Hj|[<-|[]]]; [apply Hal; exact Hj|].
          destruct (p_types p0) as [ts|]; [|exact I]. cbn. unfold fits in Hfit.
          destruct (p_strict p0); apply existsb_exists in Hfit; destruct Hfit as (t & Ht & He);
            exists t; split; try exact Ht; [|exact He].
          apply Nat.eqb_eq in He. congruence. }
    unfold pile_from_dict. intro H.
    repeat match type of H with
    | bind ?a _ = Ret _ => destruct a; [cbn [bind] in H|discriminate]
    end.
    apply Hadd in H; [exact H|]. cbn. split; [constructor|tauto].
  Qed.

  (** Without a metadata key: strict is what strict_type says, and off without it; as many
      items as listed, none without a list, and TypeError if it is no list. *)
  Theorem C70_loaded_strict c d imk p :
    pile_from_dict E elsewhere base c d None imk = Ret p ->
    p_strict p = match dget "strict_type" d with Some v => truthy v | None => false end
    /\ length (p_items p) = match dget "items" d with Some (VList l) => length l | _ => 0 end.
  Proof.
    assert (Hadd : forall from l p0 p, add_items E from p0 l = Ret p ->
      p_strict p = p_strict p0 /\ length (p_items p) = length (p_items p0) + length l).
    { intros from l. induction l as [|x l IH]; intros p0 q H; cbn in H.
      - injection H as <-. cbn. lia.
      - destruct (from x) as [i|]; [|discriminate]. cbn [bind] in H.
        destruct (match p_types p0 with None => true | Some ts => _ end); [|discriminate].
        destruct (existsb _ (p_items p0)); [discriminate|].
        apply IH in H. cbn in H. rewrite app_length in H. cbn in *. lia. }
    assert (Hc : forall l ds, collect as_dict l = Ret ds -> length ds = length l).
    { induction l as [|x l IH]; intros ds H; cbn in H; [injection H as <-; reflexivity|].
      destruct (as_dict x); [|discriminate]. cbn [bind] in H. destruct (collect as_dict l) as [ds'|]; [|discriminate].
      cbn [bind] in H. injection H as <-. cbn. f_equal. apply IH. reflexivity. }
    unfold pile_from_dict. intro H.
    destruct (match dget "items" d with None => _ | Some _ => _ end) as [items|] eqn:EI; [cbn [bind] in H|discriminate].
    repeat match type of H with
    | bind ?a _ = Ret _ => destruct a; [cbn [bind] in H|discriminate]
    end.
    apply Hadd in H. cbn in H. destruct H as [H1 H2]. split; [exact H1|]. rewrite H2.
    destruct (dget "items" d) as [[]|]; try discriminate; [exact (Hc _ _ EI)|injection EI as <-; reflexivity].
  Qed.
  Theorem C70_items_no_list c d imk v :
    dget "items" d = Some v -> (forall l, v <> VList l) -> pile_from_dict E elsewhere base c d None imk = Raise TypeError.
  Proof.
    intros D N. unfold pile_from_dict. rewrite D. destruct v; try reflexivity. destruct (N l eq_refl).
  Qed.

  (** Through Element.from_dict, in every mode without a key. *)
  Theorem C70_via_element p m f mk ifmt mk' d :
    pile_io E base m None None p ->
    pile_free E (e_cls (p_el p)) (stored_at m mk) -> ~ (m = Db /\ mk = Some "") ->
    matching (pile_free E (e_cls (p_el p))) (stored_at m mk) mk' ->
    load E (cname E (e_cls (p_el p))) = Some (e_cls (p_el p)) ->
    is_element E (e_cls (p_el p)) = true -> impl_of E (e_cls (p_el p)) = IPile ->
    cname E (e_cls (p_el p)) <> "" -> cname E (e_cls (p_el p)) <> cname E base ->
    pile_to_dict E p m f mk None ifmt = Ret d ->
    exists p', from_dict E (fun _ _ => Raise OtherErr)
                 (fun c d => pile_from_dict E elsewhere base c d None None) base d mk' = Ret p' /\
      e_cls (p_el p') = e_cls (p_el p) /\ e_id (p_el p') = e_id (p_el p) /\
      same_instant (e_created (p_el p)) (e_created (p_el p')) /\
      e_fields (p_el p') = e_fields (p_el p) /\
      p_types p' = p_types p /\ p_strict p' = p_strict p /\
      p_name p' = real_name (p_name p) /\
      Forall2 (restored E (item_mode m)) (p_items p) (p_items p') /\
      dget "lion_class" (e_meta (p_el p')) = None /\
      encode_meta E m (filter (fun '(k, _) => negb (is_mark k)) (e_meta (p_el p)))
        = Ret (filter (fun '(k, _) => negb (is_mark k)) (e_meta (p_el p'))).
  Proof.
    intros [H1 H2 H3 H4 H5 H6] (Hf1 & Hf2) Hdb Hm.
    apply (pile_via_element E HE elsewhere base Hbase p m f mk ifmt mk' d); assumption.
  Qed.

  (** Pile.from_dict does not accept the default key of db mode. *)
  Theorem C70_db_fails p f imk ifmt mk' imk' d :
    pile_ok E base p -> ~ In "node_metadata" (own_fields E (e_cls (p_el p))) ->
    (mk' = None \/ mk' = Some "" \/ mk' = Some "metadata") ->
    pile_to_dict E p Db f None imk ifmt = Ret d ->
    exists x, pile_from_dict E elsewhere base (e_cls (p_el p)) d mk' imk' = Raise x.
  Proof.
    intros Hp Hn Hmk Hd. apply pile_legacy_fails; [exact Hn| |exact Hmk].
    apply (pile_dump_key E elsewhere base p Db f None imk ifmt d Hp); [|intros [_ ?]; discriminate|exact Hd].
    cbn. repeat split; try discriminate; [exact Hn|cbn; intuition discriminate].
  Qed.

  (** * C82 *)
  Variables (pcls : nat) (default_pile : pile).

  Theorem C82_graph g m f mk imk ifmt mk' imk' d :
    valid E (g_el g) -> fields_ok E m (g_el g) ->
    (forall k, In k (own_fields E (e_cls (g_el g))) -> k <> "nodes" /\ k <> "edges") ->
    container_free E ["nodes"; "edges"] (e_cls (g_el g)) (stored_at m mk) ->
    pile_matching (container_free E ["nodes"; "edges"] (e_cls (g_el g))) (stored_at m mk) mk' ->
    pile_io E base m imk imk' (g_nodes g) -> pile_io E base m imk imk' (g_edges g) ->
    e_cls (p_el (g_nodes g)) = pcls -> e_cls (p_el (g_edges g)) = pcls ->
    ~ In "node_metadata" (own_fields E pcls) -> ~ In "metadata" (own_fields E pcls) ->
    pile_matching (pile_free E pcls) (stored_at m None) imk' ->
    graph_to_dict E g m f mk imk ifmt = Ret d ->
    exists g', graph_from_dict E elsewhere base pcls default_pile (e_cls (g_el g)) d mk' imk' = Ret g' /\
      marked E m (g_el g) (g_el g') /\
      pile_restored E m (g_nodes g) (g_nodes g') /\
      pile_restored E m (g_edges g) (g_edges g').
  Proof. apply (graph_roundtrip E HE elsewhere base pcls Hbase default_pile). Qed.

  (** In db mode the reader must pass node_metadata as item key. *)
  Theorem C82_graph_db_fails g f mk imk ifmt mk' imk' d c :
    pile_ok E base (g_nodes g) -> e_cls (p_el (g_nodes g)) = pcls ->
    ~ In "node_metadata" (own_fields E pcls) ->
    (imk' = None \/ imk' = Some "" \/ imk' = Some "metadata") ->
    (mk' = None \/ mk' = Some "" \/ mk' = Some "metadata" \/ mk' = Some "node_metadata") ->
    graph_to_dict E g Db f mk imk ifmt = Ret d ->
    exists x, graph_from_dict E elsewhere base pcls default_pile c d mk' imk' = Raise x.
  Proof. apply (graph_db_fails E elsewhere base pcls default_pile). Qed.

  Variable refers : pile -> pile -> bool.

  Theorem C82_flow x m f mk mk' c0 delegate d :
    valid E (f_el x) -> fields_ok E m (f_el x) ->
    (forall k, In k (own_fields E (e_cls (f_el x))) -> k <> "items" /\ k <> "progressions") ->
    matching (container_free E ["items"; "progressions"] (e_cls (f_el x))) "metadata" mk' ->
    pile_io E base m None None (f_items x) -> pile_io E base m None None (f_progs x) ->
    e_cls (p_el (f_items x)) = pcls -> e_cls (p_el (f_progs x)) = pcls ->
    ~ In "metadata" (own_fields E pcls) ->
    stored_at m mk = "metadata" -> ~ (m = Db /\ mk = Some "") ->
    refers_ok E refers m (f_items x) (f_progs x) ->
    finds E c0 (e_cls (f_el x)) ->
    flow_to_dict E x m f mk = Ret d ->
    exists x', flow_from_dict E elsewhere base pcls default_pile refers delegate c0 d mk' = Ret x' /\
      restored E m (f_el x) (f_el x') /\
      pile_restored E m (f_items x) (f_items x') /\
      pile_restored E m (f_progs x) (f_progs x').
  Proof. apply (flow_roundtrip E HE elsewhere base pcls Hbase default_pile refers). Qed.

  (** A flow that is loaded has its references in order; otherwise NotFoundError. *)
  Theorem C82_flow_refs c d :
    (forall x, flow_validate E elsewhere base pcls default_pile refers c d = Ret x -> refers (f_items x) (f_progs x) = true) /\
    (forall is ps el, validate_items E elsewhere base pcls default_pile (dget "items" d) = Ret is ->
       validate_progressions E elsewhere base pcls default_pile (dget "progressions" d) = Ret ps ->
       model_validate E c (ddel "progressions" (ddel "items" d)) = Ret el ->
       refers is ps = false -> flow_validate E elsewhere base pcls default_pile refers c d = Raise NotFoundError).
  Proof.
    unfold flow_validate. split.
    - intros x. destruct (match dget "items" d with None => false | Some _ => _ end); [discriminate|].
      destruct (both _ _) as [[el [ps is]]|]; cbn [bind]; [|discriminate].
      destruct (refers is ps) eqn:R; [|discriminate]. intros [= <-]. exact R.
    - intros is ps el I -> -> R. rewrite I. cbn [both bind]. rewrite R.
      destruct (dget "items" d) as [[]|]; cbn [validate_items truthy] in *; try reflexivity; try discriminate;
        match goal with |- (if ?b then _ else _) = _ => destruct b end; try reflexivity; discriminate.
  Qed.

  (** With any other key, so always in db mode without a key, a flow cannot be loaded. *)
  Theorem C82_flow_other_key_fails x m f mk mk' c0 d (delegate : nat -> data -> outcome flow) :
    pile_ok E base (f_items x) -> e_cls (p_el (f_items x)) = pcls ->
    valid E (f_el x) ->
    container_free E ["items"; "progressions"] (e_cls (f_el x)) (stored_at m mk) ->
    pile_free E pcls (stored_at m mk) ->
    stored_at m mk <> "metadata" ->
    matching (container_free E ["items"; "progressions"] (e_cls (f_el x))) (stored_at m mk) mk' ->
    finds E c0 (e_cls (f_el x)) ->
    flow_to_dict E x m f mk = Ret d ->
    exists y, flow_from_dict E elsewhere base pcls default_pile refers delegate c0 d mk' = Raise y.
  Proof. apply (flow_other_key_fails E elsewhere base pcls default_pile refers). Qed.
End Serde.
Print Assumptions C69_dump_total. Print Assumptions C69_dump_shape. Print Assumptions C69_roundtrip.
Print Assumptions C69_created. Print Assumptions C69_no_class. Print Assumptions C69_no_metadata.
Print Assumptions C70_fail_fast. Print Assumptions C82_flow_refs.
Print Assumptions C69_metadata. Print Assumptions C69_unknown_class. Print Assumptions C70_loaded_coherent. Print Assumptions C70_loaded_strict. Print Assumptions C70_items_no_list. Print Assumptions C69_wrong_key.
Print Assumptions C70_roundtrip. Print Assumptions C70_items. Print Assumptions C70_via_element.
Print Assumptions C70_db_fails.
Print Assumptions C71_roundtrip. Print Assumptions C71_codec. Print Assumptions C71_codec_twice.
Print Assumptions C71_codec_fails.
Print Assumptions C82_graph. Print Assumptions C82_graph_db_fails. Print Assumptions C82_flow.
Print Assumptions C82_flow_other_key_fails.

(** * A concrete environment *)
Fixpoint enc_pos (p : positive) (rest : string) : string :=
  match p with
  | xH => String "H" rest
  | xO q => String "0" (enc_pos q rest)
  | xI q => String "1" (enc_pos q rest)
  end.
Fixpoint dec_pos (s : string) : option (positive * string) :=
  match s with
  | String "H" rest => Some (xH, rest)
  | String "0" s => match dec_pos s with Some (p, r) => Some (xO p, r) | None => None end
  | String "1" s => match dec_pos s with Some (p, r) => Some (xI p, r) | None => None end
  | _ => None
  end.
Lemma dec_enc_pos p : forall rest, dec_pos (enc_pos p rest) = Some (p, rest).
Proof. induction p; intro rest; cbn; rewrite ?IHp; reflexivity. Qed.
Definition enc_Z (z : Z) (rest : string) : string :=
  match z with
  | Z0 => String "Z" rest
  | Zpos p => String "P" (enc_pos p rest)
  | Zneg p => String "N" (enc_pos p rest)
  end.
Definition dec_Z (s : string) : option (Z * string) :=
  match s with
  | String "Z" rest => Some (0%Z, rest)
  | String "P" s => match dec_pos s with Some (p, r) => Some (Zpos p, r) | None => None end
  | String "N" s => match dec_pos s with Some (p, r) => Some (Zneg p, r) | None => None end
  | _ => None
  end.
Lemma dec_enc_Z z rest : dec_Z (enc_Z z rest) = Some (z, rest).
Proof. destruct z; cbn; rewrite ?dec_enc_pos; reflexivity. Qed.
Definition iso_ (t : time) : string :=
  String "T" (enc_Z (t_pos t) (match t_off t with None => "" | Some o => enc_Z o "" end)).
Definition parse_iso_ (s : string) : option time :=
  match s with
  | String "T" s =>
      match dec_Z s with
      | Some (z, "") => Some (Time z None)
      | Some (z, s) => match dec_Z s with Some (o, "") => Some (Time z (Some o)) | _ => None end
      | None => None
      end
  | _ => None
  end.
Definition uuid_ (n : nat) : string := String "u" (enc_pos (Pos.of_succ_nat n) "").
Definition parse_uuid_ (s : string) : option nat :=
  match s with
  | String "u" s => match dec_pos s with Some (p, "") => Some (pred (Pos.to_nat p)) | _ => None end
  | _ => None
  end.
Definition cname_ (c : nat) : string :=
  match c with
  | 0 => "base.Element" | 1 => "app.Thing" | 2 => "base.Node" | 3 => "app.Doc" | 4 => "base.Pile"
  | 5 => "base.Graph" | 6 => "base.Flow" | 7 => "app.f.<locals>.Thing" | 8 => "app.Unregistered"
  | _ => "other.Doc"
  end.
Definition load_ (s : string) : option nat :=
  find (fun c => String.eqb s (cname_ c)) [0; 1; 2; 3; 4; 5; 6; 8; 9].
Definition ex : env := {|
  uuid_str := uuid_; parse_uuid := parse_uuid_; iso := iso_; parse_iso := parse_iso_;
  parse_float := fun s => if String.eqb s "0" then Some 0%Z else None;
  local_instant := fun z => (z + 3600)%Z;
  cname := cname_; tname := cname_; load := load_;
  is_element := fun _ => true; sub := fun c t => Nat.eqb c t || Nat.eqb t 0;
  impl_of := fun c => match c with 2 | 3 | 8 | 9 => INode | 4 => IPile | 5 => IGraph | _ => IElement end;
  own_fields := fun c => match c with 1 | 7 => ["size"] | 2 | 3 | 8 | 9 => ["content"] | 6 => ["name"] | _ => [] end;
  fdump := fun _ _ v => v;
  fload := fun _ k v => if String.eqb k "size" then match v with VNum _ => Ret v | _ => Raise ValueError end else Ret v;
  fdefault := fun _ _ => Some VNone;
  fresh_id := 99; now := Time 5 (Some 0%Z); meta_other := fun _ => [];
  registry := fun s => if String.eqb s "base.Node" then Some 2
                       else if String.eqb s "app.Doc" then Some 3
                       else if String.eqb s "Doc" then Some 3 else None;
  last_part := fun s => if String.eqb s "other.Doc" then "Doc" else s
|}.
Lemma ex_faithful : faithful ex.
Proof.
  split.
  - intro n. cbn. unfold parse_uuid_. cbn. rewrite dec_enc_pos, SuccNat2Pos.id_succ. reflexivity.
  - intro t. reflexivity.
  - intros [z [o|]]; cbn; rewrite dec_enc_Z; [|reflexivity].
    destruct o; cbn; rewrite ?dec_enc_pos; reflexivity.
Qed.

Definition thing (c : nat) : element :=
  Element c 7 (Time 1000 (Some 7200%Z)) [("who", VStr "ann"); ("ids", VList [VUuid 3])] [("size", VNum 4)].
Example thing_valid : valid ex (thing 1) /\ fields_ok ex Db (thing 1) /\
  free_key ex 1 "node_metadata" /\ finds ex 0 1 /\
  matching (free_key ex 1) (stored_at Db None) None.
Proof.
  repeat split; try discriminate.
  - repeat constructor; cbn; intuition discriminate.
  - repeat constructor; cbn; tauto.
  - cbn. intros k [<-|[]]; cbn; intuition discriminate.
  - intros k v [[= <- <-]|[]] w Hw. cbn in Hw. injection Hw as <-. reflexivity.
  - cbn. intuition discriminate.
  - right. repeat split; discriminate.
  - right. split; [left|right]; reflexivity.
Qed.
Definition nodelegate {R} : nat -> data -> outcome R := fun _ _ => Raise OtherErr.
Definition rt (e : element) (m : mode) (f : option format) (mk mk' : option string) (c0 : nat) :=
  bind (to_dict ex e m f mk) (fun d => from_dict ex (model_validate ex) nodelegate c0 d mk').
Example thing_back :
  rt (thing 1) Python None None None 0 = Ret (thing 1) /\
  rt (thing 1) Python (Some Isoformat) (Some "extra") (Some "extra") 1 = Ret (thing 1) /\
  rt (thing 1) Db None None None 0
    = Ret (Element 1 7 (Time 1000 (Some 7200%Z)) [("who", VStr "ann"); ("ids", VList [VStr (uuid_ 3)])] [("size", VNum 4)]) /\
  rt (thing 1) Json (Some Timestamp) None None 0
    = Ret (Element 1 7 (Time 1000 (Some 0%Z)) [("who", VStr "ann"); ("ids", VList [VStr (uuid_ 3)])] [("size", VNum 4)]) /\
  rt (thing 1) Json (Some Datetime) None None 0 = Raise ValueError /\
  rt (thing 1) Python None (Some "extra") None 1 = Raise ValueError.
Proof. repeat split; reflexivity. Qed.

(** The user's own entry lion_class is lost. *)
Theorem C69_own_lion_class_refuted :
  rt (Element 0 7 (Time 1000 (Some 0%Z)) [("lion_class", VStr "mine"); ("a", VNum 1)] []) Python None None None 0
  = Ret (Element 0 7 (Time 1000 (Some 0%Z)) [("a", VNum 1)] []).
Proof. reflexivity. Qed.
(** A metadata key that is a field name overwrites the field: the id is lost. *)
Theorem C69_occupied_key_refuted :
  rt (Element 0 7 (Time 1000 (Some 0%Z)) [("a", VNum 1)] []) Python None (Some "id") (Some "id") 0
  = Ret (Element 0 99 (Time 1000 (Some 0%Z)) [("a", VNum 1)] []).
Proof. reflexivity. Qed.
(** An element of a class defined inside a function is dumped but not loaded by Element. *)
Theorem C69_local_class_refuted :
  (exists d, to_dict ex (thing 7) Python None None = Ret d) /\
  rt (thing 7) Python None None None 0 = Raise ValueError /\
  rt (thing 7) Python None None None 7 = Ret (thing 7).
Proof. split; [eexists; reflexivity|split; reflexivity]. Qed.
(** A naive ISO string stays naive, though a naive datetime becomes UTC. *)
Theorem C69_naive_refuted :
  model_validate ex 0 [("created_at", VStr (iso ex (Time 1000 None)))] = Ret (Element 0 99 (Time 1000 None) [] []) /\
  model_validate ex 0 [("created_at", VTime (Time 1000 None))] = Ret (Element 0 99 (Time 1000 (Some 0%Z)) [] []).
Proof. split; reflexivity. Qed.

Example unknown_class :
  rt (Element 0 7 (Time 1000 (Some 0%Z)) [] []) Python None None None 1 = Ret (Element 0 7 (Time 1000 (Some 0%Z)) [] []) /\
  from_dict ex (model_validate ex) nodelegate 1 [("metadata", VDict [("lion_class", VStr "gone.Thing")])] None = Raise ValueError.
Proof. split; reflexivity. Qed.

Example created :
  model_validate ex 0 [("created_at", VStr "0")] = Ret (Element 0 99 (Time 0 (Some 0%Z)) [] []) /\
  model_validate ex 0 [("created_at", VBool false); ("metadata", VNum 0)] = Ret (Element 0 99 (Time 0 (Some 0%Z)) [] []) /\
  model_validate ex 0 [("created_at", VList [])] = Raise ValueError /\
  from_dict ex (model_validate ex) nodelegate 0 [("metadata", VDict [("lion_class", VNum 0); ("a", VNum 1)])] None
    = Ret (Element 0 99 (Time 5 (Some 0%Z)) [("a", VNum 1)] []) /\
  from_dict ex (model_validate ex) nodelegate 0 [("metadata", VDict [("lion_class", VNum 1)])] None = Raise ValueError.
Proof. repeat split; reflexivity. Qed.

(** Nodes. *)
Definition doc (c : nat) (v : val) : element := Element c 8 (Time 1000 (Some 0%Z)) [("a", VNum 1)] [("content", v)].
Definition quote (v : val) : outcome val := match v with VStr s => Ret (VStr ("q" ++ s)) | _ => Raise TypeError end.
Definition unquote (v : val) : outcome val :=
  match v with VStr (String "q" s) => Ret (VStr s) | _ => Raise ValueError end.
Definition nrt (e : element) (ser deser : option (val -> outcome val)) (c0 : nat) :=
  bind (node_to_dict ex e Json None None ser) (fun d => node_from_dict ex c0 d None deser).
Example doc_back :
  nrt (doc 3 (VStr "hi")) None None 2 = Ret (doc 3 (VStr "hi")) /\
  nrt (doc 3 (VStr "hi")) (Some quote) (Some unquote) 3 = Ret (doc 3 (VStr "hi")) /\
  nrt (doc 3 (VNum 1)) (Some quote) (Some unquote) 3 = Raise ValueError.
Proof. repeat split; reflexivity. Qed.
(** Loaded by Node, the deserialiser runs twice: it fails, or changes the content. *)
Theorem C71_twice_refuted :
  nrt (doc 3 (VStr "hi")) (Some quote) (Some unquote) 2 = Raise ValueError /\
  nrt (doc 3 (VStr "qi")) (Some quote) (Some unquote) 2 = Ret (doc 3 (VStr "i")).
Proof. split; reflexivity. Qed.
(** A class that is not registered is replaced by the class asked, without notice;
    one with the same short name by the registered one. *)
Theorem C71_unregistered_refuted :
  nrt (doc 8 (VStr "hi")) None None 2 = Ret (doc 2 (VStr "hi")) /\
  nrt (doc 9 (VStr "hi")) None None 2 = Ret (doc 3 (VStr "hi")).
Proof. split; reflexivity. Qed.

(** Piles. *)
Definition pl (ts : option (list nat)) (name : option string) (md : data) (l : list element) : pile :=
  Pile (Element 4 20 (Time 2000 (Some 0%Z)) md []) ts false l name.
Definition stuff : list element := [Element 1 7 (Time 1000 (Some 0%Z)) [] [("size", VNum 4)]; doc 3 (VStr "hi")].
Definition prt (p : pile) (m : mode) (mk imk mk' imk' : option string) :=
  bind (pile_to_dict ex p m None mk imk None) (fun d => pile_from_dict ex nodelegate 0 4 d mk' imk').
Example stuff_back :
  let marks := [("lion_class", VStr "base.Pile"); ("progression_name", VStr "todo")] in
  prt (pl (Some [0]) (Some "todo") [] stuff) Python None None None None = Ret (pl (Some [0]) (Some "todo") marks stuff) /\
  prt (pl (Some [0]) (Some "todo") [] stuff) Db None None (Some "node_metadata") None = Ret (pl (Some [0]) (Some "todo") marks stuff) /\
  prt (pl (Some [0]) (Some "todo") [] stuff) Json (Some "k") (Some "j") (Some "k") (Some "j") = Ret (pl (Some [0]) (Some "todo") marks stuff).
Proof. repeat split; reflexivity. Qed.
Example stuff_ok : pile_io ex 0 Json None None (pl (Some [0]) (Some "todo") [] stuff).
Proof.
  assert (Hin : forall i, In i stuff -> i = Element 1 7 (Time 1000 (Some 0%Z)) [] [("size", VNum 4)] \/ i = doc 3 (VStr "hi"))
    by (cbn; intuition).
  split; [split| | | | |]; cbn [p_el p_items p_types pl].
  - split; cbn; try discriminate; try constructor; tauto.
  - cbn; tauto.
  - cbn. repeat constructor; cbn; intuition discriminate.
  - intros i Hi. destruct (Hin i Hi) as [-> | ->].
    + split; cbn; try discriminate; try constructor; try reflexivity; cbn; try constructor; try tauto.
      intros k [<-|[]]; cbn; intuition discriminate.
    + split; cbn; try discriminate; try reflexivity; try (repeat constructor; cbn; tauto).
      intros k [<-|[]]; cbn; intuition discriminate.
  - intros i Hi. destruct (Hin i Hi) as [-> | ->]; repeat split; try discriminate; right; split; try discriminate; cbn; tauto.
  - intros i Hi. exists 0. split; [left; reflexivity|]. destruct (Hin i Hi) as [-> | ->]; reflexivity.
  - intros ts [= <-]. split; [discriminate|]. intros t [<-|[]]. reflexivity.
  - intros k v [].
  - intros i Hi k v Hk w Hw. destruct (Hin i Hi) as [-> | ->]; destruct Hk as [[= <- <-]|[]]; cbn in Hw; injection Hw as <-; reflexivity.
  - intros i Hi. destruct (Hin i Hi) as [-> | ->]; repeat split; try discriminate; cbn; intuition discriminate.
  - intros i Hi. right. split; left; reflexivity.
  - left. exists "todo". reflexivity.
Qed.
(** The same item twice, or an item of another class, is refused. *)
Example incoherent :
  prt (pl None None [] [doc 3 (VStr "hi"); doc 3 (VStr "hi")]) Python None None None None = Raise ExistsError /\
  prt (pl (Some [1]) None [] [doc 3 (VStr "hi")]) Python None None None None = Raise TypeError.
Proof. split; reflexivity. Qed.
(** The wrong class is reported before the broken item in front of it. *)
Example fail_fast :
  let broken := VDict [("size", VStr "x"); ("metadata", VDict [("lion_class", VStr (cname_ 1))])] in
  let wrong := VDict [("metadata", VDict [("lion_class", VStr (cname_ 3))])] in
  pile_from_dict ex nodelegate 0 4 [("item_type", VList [VStr (cname_ 1)]); ("items", VList [broken; wrong])] None None = Raise TypeError /\
  pile_from_dict ex nodelegate 0 4 [("item_type", VList [VStr (cname_ 1)]); ("items", VList [broken])] None None = Raise ValueError /\
  pile_from_dict ex nodelegate 0 4 [("item_type", VNum 1)] None None = Raise ValueError.
Proof. repeat split; reflexivity. Qed.
(** Items that are no list are refused. *)
Example items_no_list :
  pile_from_dict ex nodelegate 0 4 [("items", VNum 1)] None None = Raise TypeError /\
  pile_from_dict ex nodelegate 0 4 [("items", VStr "x")] None None = Raise TypeError.
Proof. split; reflexivity. Qed.
(** In db mode Pile.from_dict cannot read what Pile.to_dict writes by default. *)
Theorem C70_db_refuted : exists d,
  pile_to_dict ex (pl None None [] stuff) Db None None None None = Ret d /\
  pile_from_dict ex nodelegate 0 4 d None None = Raise ValueError.
Proof. eexists. split; reflexivity. Qed.
(** An empty type constraint, which admits nothing, comes back as none. *)
Theorem C70_empty_constraint_refuted :
  prt (pl (Some []) None [] []) Python None None None None = Ret (pl None None [("lion_class", VStr "base.Pile")] []).
Proof. reflexivity. Qed.
(** An entry progression_name of the metadata becomes the name. *)
Theorem C70_name_refuted :
  prt (pl None None [("progression_name", VStr "x")] []) Python None None None None
  = Ret (pl None (Some "x") [("progression_name", VStr "x"); ("lion_class", VStr "base.Pile")] []).
Proof. reflexivity. Qed.
(** In db mode with an empty key the name is lost. *)
Theorem C70_empty_key_refuted :
  prt (pl None (Some "x") [] []) Db (Some "") None None None = Ret (pl None None [("lion_class", VStr "base.Pile")] []).
Proof. reflexivity. Qed.
Print Assumptions C69_own_lion_class_refuted. Print Assumptions C69_occupied_key_refuted.
Print Assumptions C69_local_class_refuted. Print Assumptions C69_naive_refuted.
Print Assumptions C71_twice_refuted. Print Assumptions C71_unregistered_refuted.
Print Assumptions C70_db_refuted. Print Assumptions C70_empty_constraint_refuted.
Print Assumptions C70_name_refuted. Print Assumptions C70_empty_key_refuted.

(** Graphs and flows. *)
Definition gr : graph :=
  Graph (Element 5 30 (Time 3000 (Some 0%Z)) [("g", VNum 1)] []) (pl None None [] [doc 3 (VStr "hi")]) (pl None None [] []).
Definition grt (m : mode) (mk' imk' : option string) :=
  bind (graph_to_dict ex gr m None None None None) (fun d =>
    graph_from_dict ex nodelegate 0 4 (pl None None [] []) 5 d mk' imk').
Definition gr' : graph :=
  let mark c := ("lion_class", VStr c) in
  Graph (Element 5 30 (Time 3000 (Some 0%Z)) [("g", VNum 1); mark "base.Graph"] [])
    (pl None None [mark "base.Pile"] [doc 3 (VStr "hi")]) (pl None None [mark "base.Pile"] []).
Example graph_back :
  grt Python None None = Ret gr' /\ grt Json None None = Ret gr' /\
  grt Db (Some "node_metadata") (Some "node_metadata") = Ret gr'.
Proof. repeat split; reflexivity. Qed.
(** The defaults of writer and reader do not fit in db mode. *)
Theorem C82_graph_db_refuted : grt Db None None = Raise ValueError /\ grt Db (Some "node_metadata") None = Raise ValueError.
Proof. split; reflexivity. Qed.
Definition fl : flow :=
  Flow (Element 6 40 (Time 4000 (Some 0%Z)) [("h", VNum 1)] [("name", VStr "f")]) (pl None None [] [doc 3 (VStr "hi")]) (pl None None [] []).
Definition frt (m : mode) (mk mk' : option string) (c0 : nat) :=
  bind (flow_to_dict ex fl m None mk) (fun d =>
    flow_from_dict ex nodelegate 0 4 (pl None None [] []) (fun _ _ => true) nodelegate c0 d mk').
Example flow_back :
  let fl' := Flow (f_el fl) (g_nodes gr') (g_edges gr') in
  frt Python None None 6 = Ret fl' /\ frt Json None None 0 = Ret fl' /\ frt Db (Some "metadata") None 0 = Ret fl'.
Proof. repeat split; reflexivity. Qed.
(** With the same key on both sides, or db mode on both sides, a flow does not come back. *)
Theorem C82_flow_refuted :
  frt Json (Some "extra") (Some "extra") 6 = Raise ValueError /\ frt Db None None 6 = Raise ValueError.
Proof. split; reflexivity. Qed.
Print Assumptions C82_graph_db_refuted. Print Assumptions C82_flow_refuted.
