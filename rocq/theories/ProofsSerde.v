(** Proofs about (de)serialisation of elements and nodes. *)
From Coq Require Import String.
From Coq Require Import List ZArith Bool Arith Lia.
From Verif Require Import PyBase PyFacts ModelSerde SpecSerde.
Import ListNotations.
Local Open Scope string_scope.
Local Open Scope nat_scope.
Local Open Scope list_scope.
#[local] Arguments eqb : simpl never.

Lemma eqb_str (a b : string) : eqb a b = String.eqb a b.
Proof.
  destruct (eqb_spec a b) as [->|Hn]; symmetry.
  - apply String.eqb_refl.
  - apply String.eqb_neq; exact Hn.
Qed.

Lemma ddel_filter (k : string) (d : data) :
  ddel k d = filter (fun '(j, _) => negb (String.eqb j k)) d \/ ~ NoDup (dkeys d).
Proof.
  induction d as [|[j v] d IH]; [left; reflexivity|].
  destruct (in_dec string_dec j (dkeys d)) as [Hin|Hnin].
  - right. intro Hnd. inversion Hnd; subst. contradiction.
  - destruct IH as [IH|Hn].
    + left. cbn. destruct (eqb_spec k j) as [->|Hkj].
      * rewrite String.eqb_refl; cbn.
        clear IH. induction d as [|[i w] d IHd]; [reflexivity|]. cbn in *.
        destruct (String.eqb_spec i j) as [->|Hij]; [tauto|]. cbn. f_equal. tauto.
      * destruct (String.eqb_spec j k) as [->|_]; [congruence|]. cbn. f_equal. exact IH.
    + right. intro Hnd. inversion Hnd; subst. contradiction.
Qed.

Lemma ddel_filter' (k : string) (d : data) :
  NoDup (dkeys d) -> ddel k d = filter (fun '(j, _) => negb (String.eqb j k)) d.
Proof. intro H. destruct (ddel_filter k d); [assumption|contradiction]. Qed.

Lemma ddel_dset (k : string) v (d : data) :
  NoDup (dkeys d) -> ddel k (dset k v d) = ddel k d.
Proof.
  induction d as [|[j w] d IH]; intro Hnd; cbn.
  - destruct (eqb_spec k k); congruence.
  - inversion Hnd; subst. destruct (eqb_spec k j) as [->|Hkj]; cbn.
    + destruct (eqb_spec j j) as [_|]; [|congruence]. reflexivity.
    + destruct (eqb_spec k j); [congruence|]. f_equal. apply IH; assumption.
Qed.

Section P.
  Variable E : env.

  Lemma jsonify_VDict d :
    jsonify E (VDict d) = bind (jsonify_dict E d) (fun d' => Ret (VDict d')).
  Proof.
    cbn. match goal with |- bind ?a _ = bind ?b _ => assert (H : a = b); [|rewrite H; reflexivity] end.
    induction d as [|[k v] d IH]; [reflexivity|]. cbn.
    destruct (jsonify E v); [|reflexivity]. cbn. rewrite IH. reflexivity.
  Qed.

  Lemma jsonify_VList l :
    jsonify E (VList l) = bind (collect (jsonify E) l) (fun l' => Ret (VList l')).
  Proof.
    cbn. match goal with |- bind ?a _ = bind ?b _ => assert (H : a = b); [|rewrite H; reflexivity] end.
    induction l as [|v l IH]; [reflexivity|]. cbn.
    destruct (jsonify E v); [|reflexivity]. cbn. rewrite IH. reflexivity.
  Qed.

  (** Encoding in either kind of mode. *)
  Lemma em_nil m : encode_meta E m [] = Ret [].
  Proof. destruct m; reflexivity. Qed.

  Lemma em_cons m k v d d' :
    encode_meta E m ((k, v) :: d) = Ret d' <->
    exists w t, encode E m v = Ret w /\ encode_meta E m d = Ret t /\ d' = (k, w) :: t.
  Proof.
    destruct m; cbn.
    - split; [intros [= <-]; eauto|]. intros (w & t & [= <-] & [= <-] & ->). reflexivity.
    - destruct (jsonify E v) as [w|e]; cbn.
      + destruct (jsonify_dict E d) as [t|e]; cbn.
        * split; [intros [= <-]; eauto 6|]. intros (w' & t' & [= <-] & [= <-] & ->). reflexivity.
        * split; [discriminate|]. intros (? & ? & _ & H & _). discriminate.
      + split; [discriminate|]. intros (? & ? & H & _). discriminate.
    - destruct (jsonify E v) as [w|e]; cbn.
      + destruct (jsonify_dict E d) as [t|e]; cbn.
        * split; [intros [= <-]; eauto 6|]. intros (w' & t' & [= <-] & [= <-] & ->). reflexivity.
        * split; [discriminate|]. intros (? & ? & _ & H & _). discriminate.
      + split; [discriminate|]. intros (? & ? & H & _). discriminate.
  Qed.

  Lemma em_keys m d : forall d', encode_meta E m d = Ret d' -> dkeys d' = dkeys d.
  Proof.
    induction d as [|[k v] d IH]; intros d' H.
    - rewrite em_nil in H. injection H as <-. reflexivity.
    - apply em_cons in H. destruct H as (w & t & _ & Ht & ->). cbn. f_equal. apply IH; exact Ht.
  Qed.

  Lemma em_get m d : forall d', encode_meta E m d = Ret d' -> forall k : string,
    match dget k d with
    | Some v => exists w, encode E m v = Ret w /\ dget k d' = Some w
    | None => dget k d' = None
    end.
  Proof.
    induction d as [|[j v] d IH]; intros d' H k.
    - rewrite em_nil in H. injection H as <-. reflexivity.
    - apply em_cons in H. destruct H as (w & t & Hw & Ht & ->). cbn.
      destruct (eqb_spec k j) as [->|Hkj].
      + eauto.
      + apply IH; exact Ht.
  Qed.

  Lemma em_app m a b d' :
    encode_meta E m (a ++ b) = Ret d' ->
    exists a' b', encode_meta E m a = Ret a' /\ encode_meta E m b = Ret b' /\ d' = a' ++ b'.
  Proof.
    revert d'. induction a as [|[k v] a IH]; intros d' H.
    - exists [], d'. rewrite em_nil. auto.
    - cbn [app] in H. apply em_cons in H. destruct H as (w & t & Hw & Ht & ->).
      destruct (IH _ Ht) as (a' & b' & Ha & Hb & ->).
      exists ((k, w) :: a'), b'. split; [|auto]. apply em_cons; eauto 6.
  Qed.

  Lemma em_filter m f d : forall d', encode_meta E m d = Ret d' ->
    encode_meta E m (filter (fun '(k, _) => f k) d) = Ret (filter (fun '(k, _) => f k) d').
  Proof.
    induction d as [|[k v] d IH]; intros d' H.
    - rewrite em_nil in H. injection H as <-. apply em_nil.
    - apply em_cons in H. destruct H as (w & t & Hw & Ht & ->). cbn.
      destruct (f k); [|auto]. apply em_cons; eauto 6.
  Qed.

  Lemma em_ddel m (k : string) d d' : NoDup (dkeys d) -> encode_meta E m d = Ret d' ->
    encode_meta E m (ddel k d) = Ret (ddel k d').
  Proof.
    intros Hnd H. rewrite (ddel_filter' k d Hnd).
    rewrite (ddel_filter' k d'); [|rewrite (em_keys _ _ _ H); exact Hnd].
    apply (em_filter m (fun j => negb (String.eqb j k)) d d' H).
  Qed.

  Lemma encode_VDict m d w : encode E m (VDict d) = Ret w ->
    exists d', w = VDict d' /\ encode_meta E m d = Ret d'.
  Proof.
    destruct m; cbn [encode encode_meta].
    - intros [= <-]. eauto.
    - rewrite jsonify_VDict. destruct (jsonify_dict E d); cbn; [intros [= <-]; eauto|discriminate].
    - rewrite jsonify_VDict. destruct (jsonify_dict E d); cbn; [intros [= <-]; eauto|discriminate].
  Qed.

  (** JSON leaves plain values alone. *)
  Lemma plain_jsonify : forall v, json_plain v -> jsonify E v = Ret v.
  Proof.
    assert (Hl : forall l, (forall x, In x l -> jsonify E x = Ret x) ->
      collect (jsonify E) l = Ret l).
    { induction l as [|x l IHl]; intro H; [reflexivity|]. cbn.
      rewrite (H x (or_introl eq_refl)). cbn.
      rewrite IHl; [reflexivity|]. intros v Hv. apply H. right; exact Hv. }
    assert (Hd : forall d, (forall k x, In (k, x) d -> jsonify E x = Ret x) ->
      jsonify_dict E d = Ret d).
    { induction d as [|[k x] d IHd]; intro H; [reflexivity|]. cbn.
      rewrite (H k x (or_introl eq_refl)). cbn.
      rewrite IHd; [reflexivity|]. intros j v Hv. apply (H j). right; exact Hv. }
    fix IH 2. intros v H. destruct H as [| | | |l Hp|d Hp]; try reflexivity.
    - rewrite jsonify_VList, (Hl l); [reflexivity|]. intros x Hx. exact (IH x (Hp x Hx)).
    - rewrite jsonify_VDict, (Hd d); [reflexivity|]. intros k x Hx. exact (IH x (Hp k x Hx)).
  Qed.

  Lemma plain_meta d : (forall k v, In (k, v) d -> json_plain v) ->
    forall m, encode_meta E m d = Ret d.
  Proof.
    intros H m. induction d as [|[k v] d IH]; [apply em_nil|].
    apply em_cons. exists v, d. split; [|split; [|reflexivity]].
    - destruct m; cbn; [reflexivity| |]; apply plain_jsonify; apply (H k); left; reflexivity.
    - apply IH. intros j w Hj. apply (H j). right; exact Hj.
  Qed.

  (** A dictionary that holds an element: metadata [mm] at [st], identifier,
      time, and other fields [fs]. *)
  Definition holds (d : data) (st : string) (mm : val) (vi vt : val) (fs : data) : Prop :=
    NoDup (dkeys d) /\
    forall k : string, dget k d =
      if String.eqb k st then Some mm
      else if String.eqb k "id" then Some vi
      else if String.eqb k "created_at" then Some vt
      else dget k fs.

  Definition encode_time (m : mode) (f : format) (t : time) : val :=
    match f, m with
    | Isoformat, _ => VStr (iso E t)
    | Timestamp, _ => VNum (timestamp E t)
    | Datetime, _ => VTime t
    end.

  Lemma dget_app_fields (k : string) (a b : data) :
    dget k (a ++ b) = match dget k a with Some v => Some v | None => dget k b end.
  Proof.
    induction a as [|[j v] a IH]; [reflexivity|]. cbn. destruct (eqb k j); [reflexivity|exact IH].
  Qed.

  (** What to_dict produces. *)
  Lemma to_dict_holds e fs m f mk d :
    NoDup (dkeys (e_meta e)) ->
    NoDup (dkeys fs) -> (forall k, In k (dkeys fs) -> ~ In k reserved) ->
    stored_at m mk <> "id" -> stored_at m mk <> "created_at" ->
    ~ In (stored_at m mk) (dkeys fs) ->
    to_dict_with E e fs m f mk = Ret d ->
    exists vi mm fs',
      encode E m (VUuid (e_id e)) = Ret vi /\
      encode_meta E m (dset "lion_class" (VStr (cname E (e_cls e))) (e_meta e)) = Ret mm /\
      encode_meta E m fs = Ret fs' /\
      ~ (m = Json /\ the_format m f = Datetime) /\
      holds d (stored_at m mk) (VDict mm) vi (encode_time m (the_format m f) (e_created e)) fs'.
  Proof.
    intros Hndm Hnd Hres Hs1 Hs2 Hs3 H. unfold to_dict_with in H.
    assert (Hd0 : exists d0, encode_meta E m (dump E e fs) = Ret d0 /\
      bind (format_created E m (the_format m f) (e_created e) d0)
        (fun d => Ret (rename_meta (the_key m mk) d)) = Ret d).
    { destruct m; cbn [encode_meta bind] in *.
      - eauto.
      - destruct (jsonify_dict E (dump E e fs)); [eauto|discriminate].
      - destruct (jsonify_dict E (dump E e fs)); [eauto|discriminate]. }
    clear H. destruct Hd0 as (d0 & Hd0 & H).
    unfold dump in Hd0. cbn [app] in Hd0.
    apply em_cons in Hd0. destruct Hd0 as (vi & t0 & Hvi & Ht0 & ->).
    apply em_cons in Ht0. destruct Ht0 as (vt & t1 & Hvt & Ht1 & ->).
    apply em_cons in Ht1. destruct Ht1 as (vm & fs' & Hvm & Hfs & ->).
    apply encode_VDict in Hvm. destruct Hvm as (mm & -> & Hmm).
    exists vi, mm, fs'. repeat (split; [assumption|]).
    assert (Hkfs : dkeys fs' = dkeys fs) by (apply (em_keys m); exact Hfs).
    assert (Hnone : forall k : string, In k reserved -> dget k fs' = None).
    { intros k Hk. apply dget_None. rewrite Hkfs. intro Hin. apply (Hres k Hin Hk). }
    (* created_at *)
    assert (Hfc : ~ (m = Json /\ the_format m f = Datetime) /\
      exists d1, format_created E m (the_format m f) (e_created e)
        (("id", vi) :: ("created_at", vt) :: ("metadata", VDict mm) :: fs') = Ret d1 /\
        d1 = ("id", vi) :: ("created_at", encode_time m (the_format m f) (e_created e))
             :: ("metadata", VDict mm) :: fs').
    { unfold format_created in *. cbn [dget] in *.
      change (eqb "created_at" "id") with false in *.
      change (eqb "created_at" "created_at") with true in *. cbn [negb] in *.
      destruct (the_format m f) eqn:Hf, m; cbn in Hvt |- *;
        change (eqb "created_at" "id") with false in *;
        change (eqb "created_at" "created_at") with true in *;
        cbn in *; try discriminate H; injection Hvt as <-;
        (split; [intros [? ?]; discriminate|]); eexists; split; reflexivity. }
    destruct Hfc as (Hnj & d1 & Hd1 & Hd1eq). split; [exact Hnj|].
    rewrite Hd1 in H. cbn [bind] in H. injection H as <-. subst d1.
    set (vt' := encode_time m (the_format m f) (e_created e)) in *. clearbody vt'.
    set (d1 := ("id", vi) :: ("created_at", vt') :: ("metadata", VDict mm) :: fs').
    assert (Hnd1 : NoDup (dkeys d1)).
    { change (dkeys d1) with ("id" :: "created_at" :: "metadata" :: dkeys fs'). rewrite Hkfs.
      assert (Hn : forall k, In k reserved -> ~ In k (dkeys fs))
        by (intros k Hk Hin; exact (Hres k Hin Hk)).
      constructor.
      { intros [H|[H|H]]; try discriminate. apply (Hn "id"); [cbn; tauto|exact H]. }
      constructor.
      { intros [H|H]; try discriminate. apply (Hn "created_at"); [cbn; tauto|exact H]. }
      constructor; [|exact Hnd]. intro H. apply (Hn "metadata"); [cbn; tauto|exact H]. }
    assert (Hg1 : forall k : string, dget k d1 =
      if String.eqb k "metadata" then Some (VDict mm)
      else if String.eqb k "id" then Some vi
      else if String.eqb k "created_at" then Some vt'
      else dget k fs').
    { intro k. unfold d1. cbn [dget]. rewrite (eqb_str k "id"), (eqb_str k "created_at"), (eqb_str k "metadata").
      destruct (String.eqb_spec k "id") as [->|]; [reflexivity|].
      destruct (String.eqb_spec k "created_at") as [->|]; [reflexivity|].
      destruct (String.eqb_spec k "metadata") as [->|]; reflexivity. }
    assert (Hren : forall st, st <> "" ->
       st <> "id" -> st <> "created_at" -> ~ In st (dkeys fs) ->
       holds (dset st (VDict mm) (ddel "metadata" d1)) st (VDict mm) vi vt' fs').
    { intros st Hne H1 H2 H3. split.
      - apply dkeys_dset_NoDup. apply dkeys_ddel_NoDup. exact Hnd1.
      - intro k. rewrite dget_dset, eqb_str.
        destruct (String.eqb_spec k st) as [->|Hk]; [reflexivity|].
        destruct (String.eqb_spec k "metadata") as [->|Hkm].
        + rewrite dget_ddel_same by exact Hnd1. cbn. symmetry. apply Hnone. cbn; tauto.
        + rewrite dget_ddel_other by congruence. rewrite Hg1.
          destruct (String.eqb_spec k "metadata"); [congruence|]. reflexivity. }
    assert (Hplain : holds d1 "metadata" (VDict mm) vi vt' fs') by (split; assumption).
    assert (Hdm : dget "metadata" d1 = Some (VDict mm)) by (rewrite Hg1; reflexivity).
    destruct mk as [k|]; cbn [the_key rename_meta stored_at] in *.
    - destruct (String.eqb_spec k "") as [->|Hk]; [exact Hplain|].
      rewrite Hdm. apply Hren; assumption.
    - destruct m; cbn [rename_meta]; try exact Hplain.
      replace (String.eqb "node_metadata" "") with false by reflexivity.
      rewrite Hdm. apply Hren; try assumption; discriminate.
  Qed.

  (** Putting the metadata back. *)
  Lemma restore_holds (free : string -> Prop) d st mm vi vt fs mk :
    (forall k, free k -> k <> "id" /\ k <> "created_at" /\ dget k fs = None) ->
    holds d st mm vi vt fs ->
    st <> "id" -> st <> "created_at" -> dget st fs = None ->
    dget "metadata" fs = None -> dget "node_metadata" fs = None ->
    matching free st mk -> st <> "" ->
    holds (restore_meta mk d) "metadata" mm vi vt fs.
  Proof.
    intros Hfree [Hnd Hg] H1 H2 H3 Hm Hn Hmatch Hne.
    assert (Hmove : forall d0, d0 = dset "metadata" mm (ddel st d) ->
       holds (ddel "node_metadata" d0) "metadata" mm vi vt fs).
    { intros d0 ->. assert (Hnd0 : NoDup (dkeys (dset "metadata" mm (ddel st d))))
        by (apply dkeys_dset_NoDup, dkeys_ddel_NoDup; exact Hnd).
      split; [apply dkeys_ddel_NoDup; exact Hnd0|]. intro k.
      destruct (String.eqb_spec k "node_metadata") as [->|Hk].
      - rewrite dget_ddel_same by exact Hnd0. cbn. symmetry; exact Hn.
      - rewrite dget_ddel_other by congruence. rewrite dget_dset, eqb_str.
        destruct (String.eqb_spec k "metadata") as [->|Hkm]; [reflexivity|].
        destruct (String.eqb_spec k st) as [->|Hks].
        + rewrite dget_ddel_same by exact Hnd.
          destruct (String.eqb_spec st "id"); [congruence|].
          destruct (String.eqb_spec st "created_at"); [congruence|]. symmetry; exact H3.
        + rewrite dget_ddel_other by congruence. rewrite Hg.
          destruct (String.eqb_spec k st); [congruence|]. reflexivity. }
    assert (Hst : dget st d = Some mm) by (rewrite Hg, String.eqb_refl; reflexivity).
    assert (Hleg : st = "metadata" \/ st = "node_metadata" ->
       holds (ddel "node_metadata" (legacy_meta d)) "metadata" mm vi vt fs).
    { intros [-> | ->]; unfold legacy_meta.
      - assert (Hnm : dget "node_metadata" d = None) by (rewrite Hg; cbn; exact Hn).
        rewrite Hnm. split; [apply dkeys_ddel_NoDup; exact Hnd|]. intro k.
        destruct (String.eqb_spec k "node_metadata") as [->|Hk].
        + rewrite dget_ddel_same by exact Hnd. cbn. symmetry; exact Hn.
        + rewrite dget_ddel_other by congruence. apply Hg.
      - rewrite Hst.
        assert (Hmm : dget "metadata" d = None) by (rewrite Hg; cbn; exact Hm).
        assert (Hmem : dmem "metadata" d = false).
        { destruct (dmem "metadata" d) eqn:Hd; [|reflexivity].
          apply dmem_true in Hd. apply key_dget in Hd. destruct Hd as [v Hv]. congruence. }
        rewrite Hmem. apply Hmove. reflexivity. }
    unfold restore_meta. destruct Hmatch as [-> | [[-> | [-> | (k & -> & Hk)]] Hstd]].
    - destruct (String.eqb_spec st ""); [contradiction|]. rewrite Hst. apply Hmove. reflexivity.
    - apply Hleg. exact Hstd.
    - cbn. apply Hleg. exact Hstd.
    - destruct (String.eqb_spec k "") as [->|]; [apply Hleg; exact Hstd|].
      destruct (String.eqb_spec k st) as [->|Hks].
      + rewrite Hst. apply Hmove. reflexivity.
      + destruct (Hfree k Hk) as (Hki & Hkc & Hkf).
        assert (Hgk : dget k d = None).
        { rewrite Hg. destruct (String.eqb_spec k st); [congruence|].
          destruct (String.eqb_spec k "id"); [congruence|].
          destruct (String.eqb_spec k "created_at"); [congruence|]. exact Hkf. }
        rewrite Hgk. apply Hleg. exact Hstd.
  Qed.

  Lemma take_class_holds d mm vi vt fs :
    holds d "metadata" (VDict mm) vi vt fs ->
    exists d', take_class d =
      (d', match dget "lion_class" mm with Some v => v | None => VNone end) /\
      holds d' "metadata" (VDict (ddel "lion_class" mm)) vi vt fs.
  Proof.
    intros [Hnd Hg]. unfold take_class.
    assert (Hm : dget "metadata" d = Some (VDict mm)) by (rewrite Hg; reflexivity).
    rewrite Hm. eexists. split; [reflexivity|]. split.
    - apply dkeys_dset_NoDup; exact Hnd.
    - intro k. rewrite dget_dset, eqb_str. rewrite Hg.
      destruct (String.eqb k "metadata"); reflexivity.
  Qed.

  Lemma load_meta_dict m : load_meta E (Some (VDict m)) = m.
  Proof. destruct m; reflexivity. Qed.

  (** Loading what the dictionary holds. *)
  Lemma validate_holds d c mm vi vt fs i t fields :
    holds d "metadata" (VDict mm) vi vt fs ->
    (forall k v, dget k fs = Some v -> In k (own_fields E c)) ->
    to_uuid E vi = Ret i -> coerce_created E vt = Ret t ->
    collect (load_field E c d) (own_fields E c) = Ret fields ->
    model_validate E c d = Ret (Element c i t mm fields).
  Proof.
    intros [Hnd Hg] Hk Hi Ht Hf. unfold model_validate.
    assert (Hall : forallb (fun '(k, _) => known E c k) d = true).
    { apply forallb_forall. intros [k v] Hin. unfold known.
      assert (Hd : dget k d = Some v) by (apply In_dget; assumption).
      rewrite Hg in Hd. rewrite existsb_exists.
      exists k. split; [|apply String.eqb_refl]. apply in_or_app.
      destruct (String.eqb_spec k "metadata") as [->|]; [left; cbn; tauto|].
      destruct (String.eqb_spec k "id") as [->|]; [left; cbn; tauto|].
      destruct (String.eqb_spec k "created_at") as [->|]; [left; cbn; tauto|].
      right. apply (Hk k v). exact Hd. }
    rewrite Hall.
    assert (H1 : dget "id" d = Some vi) by (rewrite Hg; reflexivity).
    assert (H2 : dget "created_at" d = Some vt) by (rewrite Hg; reflexivity).
    assert (H3 : dget "metadata" d = Some (VDict mm)) by (rewrite Hg; reflexivity).
    rewrite H1, H2, H3, Hi. cbn [bind]. rewrite Ht. cbn [bind]. rewrite Hf. cbn [bind].
    rewrite load_meta_dict. reflexivity.
  Qed.

  Lemma collect_map {A B} (f : A -> outcome B) (g : A -> B) l :
    (forall x, In x l -> f x = Ret (g x)) -> collect f l = Ret (map g l).
  Proof.
    induction l as [|x l IH]; intro H; [reflexivity|]. cbn.
    rewrite (H x (or_introl eq_refl)). cbn. rewrite IH; [reflexivity|].
    intros y Hy. apply H. right; exact Hy.
  Qed.

  (** The fields come back. *)
  Lemma fields_back c (fields : data) d :
    (forall k v, In (k, v) fields -> exists w, dget k d = Some w /\ fload E c k w = Ret v) ->
    collect (load_field E c d) (dkeys fields) = Ret fields.
  Proof.
    intro H. induction fields as [|[k v] fields IH]; [reflexivity|].
    change (dkeys ((k, v) :: fields)) with (k :: dkeys fields). cbn [collect].
    destruct (H k v (or_introl eq_refl)) as (w & Hw & Hl).
    unfold load_field at 1. rewrite Hw, Hl. cbn [bind]. rewrite IH; [reflexivity|].
    intros j u Hj. apply H. right; exact Hj.
  Qed.

  Lemma dumped_field m c (fields fs' : data) :
    (forall k v, In (k, v) fields -> field_ok E m c k v) ->
    NoDup (dkeys fields) ->
    encode_meta E m (map (fun '(k, v) => (k, fdump E c k v)) fields) = Ret fs' ->
    forall k v, In (k, v) fields -> exists w, dget k fs' = Some w /\ fload E c k w = Ret v.
  Proof.
    intros Hok Hnd Henc k v Hin.
    assert (Hmap : dget k (map (fun '(k, v) => (k, fdump E c k v)) fields)
                   = Some (fdump E c k v)).
    { apply In_dget.
      - unfold dkeys. rewrite map_map. erewrite map_ext; [exact Hnd|]. intros [? ?]; reflexivity.
      - apply in_map_iff. exists (k, v). auto. }
    pose proof (em_get m _ _ Henc k) as Hget. rewrite Hmap in Hget.
    destruct Hget as (w & Hw & Hg). exists w. split; [exact Hg|]. apply (Hok k v Hin w Hw).
  Qed.

  Lemma dkeys_dump_fields e : dkeys (dump_fields E e) = dkeys (e_fields e).
  Proof. unfold dump_fields, dkeys. rewrite map_map. apply map_ext. intros [? ?]; reflexivity. Qed.

  Hypothesis HE : faithful E.

  Lemma uuid_back m n w : encode E m (VUuid n) = Ret w -> to_uuid E w = Ret n.
  Proof.
    destruct m; cbn; intros [= <-]; cbn; try reflexivity; rewrite (f_uuid E HE); reflexivity.
  Qed.

  Lemma time_back m f t : t_off t <> None ->
    exists t', coerce_created E (encode_time m f t) = Ret t' /\ same_instant t t' /\
      (f <> Timestamp -> t' = t).
  Proof.
    intro Ht. destruct f; cbn.
    - destruct (t_off t) eqn:Ho; [|congruence].
      exists t. repeat split; try assumption; congruence.
    - rewrite (f_float E HE), (f_iso E HE). exists t. repeat split; assumption.
    - unfold timestamp. destruct (t_off t) eqn:Ho; [|congruence].
      eexists. split; [reflexivity|]. split; [|congruence]. repeat split; cbn; congruence.
  Qed.

  (** The dictionary [d'] that from_dict hands to the validation. *)
  Lemma load_from_holds e m f d' mm fs' vi :
    valid E e ->
    encode E m (VUuid (e_id e)) = Ret vi ->
    encode_meta E m (dset "lion_class" (VStr (cname E (e_cls e))) (e_meta e)) = Ret mm ->
    (forall k v, In (k, v) (e_fields e) ->
       exists w, dget k fs' = Some w /\ fload E (e_cls e) k w = Ret v) ->
    (forall k v, dget k fs' = Some v -> In k (own_fields E (e_cls e))) ->
    holds d' "metadata" (VDict (ddel "lion_class" mm)) vi (encode_time m f (e_created e)) fs' ->
    exists e', model_validate E (e_cls e) d' = Ret e' /\ restored E m e e' /\
      (f <> Timestamp -> e_created e' = e_created e).
  Proof.
    intros Hv Hvi Hmm Hback Hk Hh.
    destruct (time_back m f (e_created e) (v_aware E e Hv)) as (t' & Ht & Hsame & Hexact).
    assert (Hcol : collect (load_field E (e_cls e) d') (own_fields E (e_cls e))
                   = Ret (e_fields e)).
    { rewrite <- (v_fields E e Hv). apply fields_back. intros k v Hin.
      destruct (Hback k v Hin) as (w & Hw & Hl). exists w. split; [|exact Hl].
      destruct Hh as [_ Hg]. rewrite Hg.
      pose proof (v_names E e Hv k (Hk k w Hw)) as Hr. cbn in Hr.
      destruct (String.eqb_spec k "metadata") as [->|]; [tauto|].
      destruct (String.eqb_spec k "id") as [->|]; [tauto|].
      destruct (String.eqb_spec k "created_at") as [->|]; [tauto|]. exact Hw. }
    eexists. split.
    - eapply validate_holds; try eassumption. eapply uuid_back; eassumption.
    - split; [|exact Hexact]. constructor; cbn; try reflexivity; [exact Hsame|].
      rewrite <- (ddel_filter' "lion_class" (e_meta e) (v_meta E e Hv)).
      rewrite <- (ddel_dset "lion_class" (VStr (cname E (e_cls e))) (e_meta e) (v_meta E e Hv)).
      apply em_ddel; [apply dkeys_dset_NoDup, (v_meta E e Hv)|exact Hmm].
  Qed.

  Lemma load_from_dump e m f d' mm fs' vi :
    valid E e -> fields_ok E m e ->
    encode E m (VUuid (e_id e)) = Ret vi ->
    encode_meta E m (dset "lion_class" (VStr (cname E (e_cls e))) (e_meta e)) = Ret mm ->
    encode_meta E m (dump_fields E e) = Ret fs' ->
    holds d' "metadata" (VDict (ddel "lion_class" mm)) vi (encode_time m f (e_created e)) fs' ->
    exists e', model_validate E (e_cls e) d' = Ret e' /\ restored E m e e' /\
      (f <> Timestamp -> e_created e' = e_created e).
  Proof.
    intros Hv Hok Hvi Hmm Hfs Hh. eapply load_from_holds; try eassumption.
    - apply (dumped_field m); [exact Hok| |exact Hfs].
      rewrite (v_fields E e Hv). apply (v_nodup E e Hv).
    - intros k v Hg. rewrite <- (v_fields E e Hv), <- dkeys_dump_fields, <- (em_keys m _ _ Hfs).
      apply dget_In in Hg. apply in_map_iff. exists (k, v). auto.
  Qed.

  Lemma stored_nonempty m mk : stored_at m mk <> "".
  Proof.
    unfold stored_at. destruct mk as [k|]; [|destruct m; discriminate].
    destruct (String.eqb_spec k ""); [discriminate|assumption].
  Qed.

  Lemma class_in_dump m e mm :
    encode_meta E m (dset "lion_class" (VStr (cname E (e_cls e))) (e_meta e)) = Ret mm ->
    dget "lion_class" mm = Some (VStr (cname E (e_cls e))).
  Proof.
    intro H. pose proof (em_get m _ _ H "lion_class") as Hg.
    rewrite dget_dset_same in Hg. destruct Hg as (w & Hw & ->).
    destruct m; cbn in Hw; congruence.
  Qed.

  (** Everything from to_dict to the dictionary that is validated. *)
  Lemma dump_prepared e m f mk mk' d :
    valid E e -> free_key E (e_cls e) (stored_at m mk) -> matching (free_key E (e_cls e)) (stored_at m mk) mk' ->
    to_dict E e m f mk = Ret d ->
    exists vi mm fs' d',
      encode E m (VUuid (e_id e)) = Ret vi /\
      encode_meta E m (dset "lion_class" (VStr (cname E (e_cls e))) (e_meta e)) = Ret mm /\
      encode_meta E m (dump_fields E e) = Ret fs' /\
      take_class (restore_meta mk' d) = (d', VStr (cname E (e_cls e))) /\
      holds d' "metadata" (VDict (ddel "lion_class" mm)) vi
        (encode_time m (the_format m f) (e_created e)) fs'.
  Proof.
    intros Hv (Hk1 & Hk2 & Hk3) Hmatch H. unfold to_dict in H.
    assert (Hkeys : dkeys (dump_fields E e) = own_fields E (e_cls e))
      by (rewrite dkeys_dump_fields; apply (v_fields E e Hv)).
    apply to_dict_holds in H; try assumption.
    2: apply (v_meta E e Hv).
    2: rewrite Hkeys; apply (v_nodup E e Hv).
    2: rewrite Hkeys; apply (v_names E e Hv).
    2: rewrite Hkeys; exact Hk3.
    destruct H as (vi & mm & fs' & Hvi & Hmm & Hfs & _ & Hh).
    assert (Hfk : dkeys fs' = own_fields E (e_cls e))
      by (rewrite (em_keys m _ _ Hfs); exact Hkeys).
    assert (Hno : forall k, In k reserved -> dget k fs' = None).
    { intros k Hr. apply dget_None. rewrite Hfk. intro Hin. apply (v_names E e Hv k Hin Hr). }
    apply (restore_holds (free_key E (e_cls e)) _ _ _ _ _ _ mk') in Hh; try assumption.
    2: { intros k (Hf1 & Hf2 & Hf3). split; [exact Hf1|]. split; [exact Hf2|].
         apply dget_None; rewrite Hfk; exact Hf3. }
    2: apply dget_None; rewrite Hfk; exact Hk3.
    2: apply Hno; cbn; tauto.
    2: apply Hno; cbn; tauto.
    2: apply stored_nonempty.
    apply take_class_holds in Hh. destruct Hh as (d' & Htake & Hh).
    rewrite (class_in_dump m e mm Hmm) in Htake.
    exists vi, mm, fs', d'. auto.
  Qed.

  Theorem element_roundtrip e m f mk mk' c0 delegate d :
    valid E e -> fields_ok E m e ->
    free_key E (e_cls e) (stored_at m mk) -> matching (free_key E (e_cls e)) (stored_at m mk) mk' ->
    finds E c0 (e_cls e) ->
    to_dict E e m f mk = Ret d ->
    exists e', from_dict E (model_validate E) delegate c0 d mk' = Ret e' /\
      restored E m e e' /\ (the_format m f <> Timestamp -> e_created e' = e_created e).
  Proof.
    intros Hv Hok Hfree Hmatch Hfind H.
    destruct (dump_prepared e m f mk mk' d Hv Hfree Hmatch H)
      as (vi & mm & fs' & d' & Hvi & Hmm & Hfs & Htake & Hh).
    destruct (load_from_dump e m _ d' mm fs' vi Hv Hok Hvi Hmm Hfs Hh) as (e' & He' & Hr).
    exists e'. split; [|exact Hr]. unfold from_dict. rewrite Htake. cbn [truthy].
    destruct Hfind as [->|(Hne & Hnn & Hload & Hel & Himpl)].
    - rewrite String.eqb_refl. destruct (negb _); exact He'.
    - destruct (String.eqb_spec (cname E (e_cls e)) ""); [contradiction|]. cbn.
      destruct (String.eqb_spec (cname E (e_cls e)) (cname E c0)); [congruence|].
      rewrite Hload, Hel, Himpl.
      destruct (impl_of E c0); try rewrite Nat.eqb_refl; exact He'.
  Qed.

  Lemma em_app_intro m a b a' b' :
    encode_meta E m a = Ret a' -> encode_meta E m b = Ret b' ->
    encode_meta E m (a ++ b) = Ret (a' ++ b').
  Proof.
    revert a'. induction a as [|[k v] a IH]; intros a' Ha Hb.
    - rewrite em_nil in Ha. injection Ha as <-. exact Hb.
    - apply em_cons in Ha. destruct Ha as (w & t & Hw & Ht & ->). cbn [app].
      apply em_cons. eauto 8.
  Qed.

  Lemma em_dset m (k : string) s d d' :
    encode_meta E m d = Ret d' -> encode_meta E m (dset k (VStr s) d) = Ret (dset k (VStr s) d').
  Proof.
    revert d'. induction d as [|[j v] d IH]; intros d' H.
    - rewrite em_nil in H. injection H as <-. destruct m; reflexivity.
    - apply em_cons in H. destruct H as (w & t & Hw & Ht & ->). cbn.
      destruct (eqb k j); apply em_cons.
      + exists (VStr s), t. split; [destruct m; reflexivity|]. auto.
      + exists w, (dset k (VStr s) t). auto.
  Qed.

  Lemma encode_VDict_intro m d d' :
    encode_meta E m d = Ret d' -> encode E m (VDict d) = Ret (VDict d').
  Proof.
    destruct m; cbn [encode encode_meta]; intro H.
    - congruence.
    - rewrite jsonify_VDict, H. reflexivity.
    - rewrite jsonify_VDict, H. reflexivity.
  Qed.

  (** to_dict succeeds for what the mode can encode, except a datetime in JSON. *)
  Theorem to_dict_succeeds e fs m f mk mm fs' :
    encode_meta E m (e_meta e) = Ret mm ->
    encode_meta E m fs = Ret fs' ->
    if match m, f with Json, Some Datetime => true | _, _ => false end
    then to_dict_with E e fs m f mk = Raise ValueError
    else exists d, to_dict_with E e fs m f mk = Ret d.
  Proof.
    intros Hmm Hfs.
    assert (Henc : exists vi vt,
      encode_meta E m (dump E e fs) =
        Ret (("id", vi) :: ("created_at", vt) ::
             ("metadata", VDict (dset "lion_class" (VStr (cname E (e_cls e))) mm)) :: fs')).
    { unfold dump. cbn [app].
      assert (Hi : exists vi, encode E m (VUuid (e_id e)) = Ret vi) by (destruct m; cbn; eauto).
      assert (Ht : exists vt, encode E m (VTime (e_created e)) = Ret vt)
        by (destruct m; cbn; eauto).
      destruct Hi as [vi Hi], Ht as [vt Ht]. exists vi, vt.
      apply em_cons. exists vi. eexists. split; [exact Hi|]. split; [|reflexivity].
      apply em_cons. exists vt. eexists. split; [exact Ht|]. split; [|reflexivity].
      apply em_cons. eexists. eexists. split; [|split; [exact Hfs|reflexivity]].
      apply encode_VDict_intro. apply em_dset. exact Hmm. }
    destruct Henc as (vi & vt & Henc). unfold to_dict_with.
    set (d0 := ("id", vi) :: _) in Henc.
    assert (Hb : match m with Python => Ret (dump E e fs)
                 | _ => jsonify_dict E (dump E e fs) end = Ret d0)
      by (destruct m; exact Henc).
    rewrite Hb. cbn [bind]. unfold format_created.
    assert (Hc : dget "created_at" d0 = Some vt) by reflexivity. rewrite Hc.
    destruct m, f as [[]|]; cbn; eauto; destruct vt; cbn; eauto.
  Qed.
End P.
