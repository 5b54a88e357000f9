(** Proofs about piles: dumping and loading. *)
From Coq Require Import String.
From Coq Require Import List ZArith Bool Arith Lia.
From Verif Require Import PyBase PyFacts ModelSerde SpecSerde ProofsSerde ProofsSerdeNode.
Import ListNotations.
Local Open Scope string_scope.
Local Open Scope nat_scope.
Local Open Scope list_scope.
#[local] Arguments eqb : simpl never.

Section P.
  Variable E : env.
  Hypothesis HE : faithful E.
  Variable elsewhere : nat -> data -> outcome element.
  Variable base : nat.
  Hypothesis Hbase : impl_of E base = IElement.

  Lemma encode_types m ts : encode E m (dump_types E ts) = Ret (dump_types E ts).
  Proof.
    assert (H : jsonify E (dump_types E ts) = Ret (dump_types E ts)).
    { apply plain_jsonify. destruct ts as [l|]; constructor.
      intros v Hv. apply in_map_iff in Hv. destruct Hv as (t & <- & _). constructor. }
    destruct m; [reflexivity|exact H|exact H].
  Qed.

  (** Items. *)
  Lemma item_back i m f imk imk' d :
    valid E i -> fields_ok E m i -> loadable E base (e_cls i) ->
    free_key E (e_cls i) (stored_at m imk) ->
    matching (free_key E (e_cls i)) (stored_at m imk) imk' ->
    to_dict E i m f imk = Ret d ->
    exists i', item_from_dict E elsewhere base imk' d = Ret i' /\ restored E m i i'.
  Proof.
    intros Hv Hok (Hload & Hel & Hnn & Hcls) Hfree Hmatch H.
    unfold item_from_dict.
    destruct Hcls as [Hb|(Hne & Himpl)].
    - destruct (element_roundtrip E HE i m f imk imk' base
        (fun t d => match impl_of E t with INode => node_from_dict E t d None None
                    | _ => elsewhere t d end) d) as (i' & Hi & Hr & _); try assumption.
      { left. congruence. }
      eauto.
    - destruct Himpl as [Himpl|Himpl].
      + destruct (element_roundtrip E HE i m f imk imk' base
        (fun t d => match impl_of E t with INode => node_from_dict E t d None None
                    | _ => elsewhere t d end) d) as (i' & Hi & Hr & _); try assumption.
        { right. repeat split; try assumption. congruence. }
        eauto.
      + destruct (dump_prepared E i m f imk imk' d Hv Hfree Hmatch H)
          as (vi & mm & fs' & d' & Hvi & Hmm & Hfs & Htake & Hh).
        unfold from_dict. rewrite Htake. cbn [truthy].
        destruct (String.eqb_spec (cname E (e_cls i)) ""); [contradiction|]. cbn [negb].
        destruct (String.eqb_spec (cname E (e_cls i)) (cname E base)); [congruence|].
        rewrite Hload, Hel, Himpl, Hbase.
        (* Node.from_dict of the class itself *)
        assert (Hnd : NoDup (dkeys mm)).
        { rewrite (em_keys E m _ _ Hmm). apply dkeys_dset_NoDup. apply (v_meta E i Hv). }
        assert (Hno : forall k, In k reserved -> dget k fs' = None).
        { intros k Hk. apply dget_None. rewrite (em_keys E m _ _ Hfs), dkeys_dump_fields,
            (v_fields E i Hv). intro Hi. apply (v_names E i Hv k Hi Hk). }
        apply (restore_holds (fun _ => False) _ _ _ _ _ _ None) in Hh; try discriminate;
          [|tauto| | | |].
        2, 3: apply Hno; cbn; tauto.
        2: apply Hno; cbn; tauto.
        2: right; split; [left; reflexivity|left; reflexivity].
        apply take_class_holds in Hh. destruct Hh as (d2 & Htake2 & Hh).
        unfold node_from_dict, node_prepare. cbn [bind]. rewrite Htake2.
        rewrite dget_ddel_same by exact Hnd. cbn [bind truthy].
        assert (Htwice : ddel "lion_class" (ddel "lion_class" mm) = ddel "lion_class" mm).
        { rewrite (ddel_filter' "lion_class" (ddel "lion_class" mm))
            by (apply dkeys_ddel_NoDup; exact Hnd).
          rewrite (ddel_filter' "lion_class" mm Hnd).
          clear. induction mm as [|[k x] mm IH]; [reflexivity|]. cbn.
          destruct (negb (String.eqb k "lion_class")) eqn:Hk; cbn; rewrite ?Hk, IH; reflexivity. }
        rewrite Htwice in Hh.
        destruct (load_from_dump E HE i m _ d2 mm fs' vi Hv Hok Hvi Hmm Hfs Hh)
          as (e2 & He2 & Hr2 & _). eauto.
  Qed.

  Lemma collect_In {A B} (f : A -> outcome B) l ys :
    collect f l = Ret ys -> Forall2 (fun x y => f x = Ret y) l ys.
  Proof.
    revert ys. induction l as [|x l IH]; cbn; intros ys H.
    - injection H as <-. constructor.
    - destruct (f x) as [y|] eqn:Hx; [|discriminate]. cbn in H.
      destruct (collect f l) as [t|] eqn:Hl; [|discriminate]. cbn in H. injection H as <-.
      constructor; [exact Hx|]. apply IH. reflexivity.
  Qed.

  Lemma as_dict_back l : collect as_dict (map VDict l) = Ret l.
  Proof. induction l as [|d l IH]; [reflexivity|]. cbn. rewrite IH. reflexivity. Qed.

  Lemma fits_allowed ts strict c : allowed E (Some ts) strict c -> fits E ts strict c = true.
  Proof.
    intros (t & Hin & Ht). unfold fits. destruct strict; apply existsb_exists; exists t; split;
      try assumption. subst. apply Nat.eqb_refl.
  Qed.

  (** The check before loading accepts every dumped item that fits. *)
  Lemma precheck_ok i m f imk d ts strict :
    valid E i -> free_key E (e_cls i) (stored_at m imk) ->
    load E (cname E (e_cls i)) = Some (e_cls i) -> fits E ts strict (e_cls i) = true ->
    to_dict E i m f imk = Ret d -> precheck E ts strict d = Ret tt.
  Proof.
    intros Hv (Hk1 & Hk2 & Hk3) Hload Hfit H. unfold to_dict in H.
    assert (Hkeys : dkeys (dump_fields E i) = own_fields E (e_cls i))
      by (rewrite dkeys_dump_fields; apply (v_fields E i Hv)).
    apply to_dict_holds in H; try assumption.
    2: apply (v_meta E i Hv).
    2: rewrite Hkeys; apply (v_nodup E i Hv).
    2: rewrite Hkeys; apply (v_names E i Hv).
    2: rewrite Hkeys; exact Hk3.
    destruct H as (vi & mm & fs' & Hvi & Hmm & Hfs & _ & _ & Hg).
    unfold precheck. rewrite Hg.
    destruct (String.eqb_spec "metadata" (stored_at m imk)) as [_|_].
    - rewrite (class_in_dump E m i mm Hmm). cbn [truthy].
      destruct (negb _); [|reflexivity]. rewrite Hload, Hfit. reflexivity.
    - change (String.eqb "metadata" "id") with false.
      change (String.eqb "metadata" "created_at") with false. cbn iota.
      assert (Hn : dget "metadata" fs' = None).
      { apply dget_None. rewrite (em_keys E m _ _ Hfs), Hkeys. intro Hi.
        apply (v_names E i Hv _ Hi). cbn; tauto. }
      rewrite Hn. reflexivity.
  Qed.

  Lemma add_items_ok (from : data -> outcome element) m : forall ds is el ts strict done name,
    Forall2 (fun i d => exists i', from d = Ret i' /\ restored E m i i') is ds ->
    (forall i, In i is -> allowed E ts strict (e_cls i)) ->
    NoDup (map e_id done ++ map e_id is) ->
    exists is', add_items E from (Pile el ts strict done name) ds
                = Ret (Pile el ts strict (done ++ is') name) /\
      Forall2 (restored E m) is is'.
  Proof.
    induction ds as [|d ds IH]; intros is el ts strict done name Hf Hall Hnd.
    - inversion Hf; subst. exists []. rewrite app_nil_r. split; [reflexivity|constructor].
    - inversion Hf as [|i d' is' ds' (i' & Hi & Hr) Hf']; subst. cbn [add_items].
      rewrite Hi. cbn [bind p_types p_strict p_items p_el p_name].
      assert (Hfit : match ts with None => true | Some l => fits E l strict (e_cls i') end = true).
      { destruct ts as [l|]; [|reflexivity]. apply fits_allowed. rewrite (r_cls E m _ _ Hr).
        apply Hall. left; reflexivity. }
      rewrite Hfit.
      assert (Hdup : existsb (fun j => Nat.eqb (e_id j) (e_id i')) done = false).
      { destruct (existsb _ done) eqn:Hx; [|reflexivity]. apply existsb_exists in Hx.
        destruct Hx as (j & Hj & Heq). apply Nat.eqb_eq in Heq. rewrite (r_id E m _ _ Hr) in Heq.
        cbn in Hnd. apply NoDup_remove_2 in Hnd. exfalso. apply Hnd. apply in_or_app. left.
        rewrite <- Heq. apply in_map. exact Hj. }
      rewrite Hdup.
      destruct (IH is' el ts strict (done ++ [i']) name Hf') as (is'' & Hadd & Hfr).
      { intros j Hj. apply Hall. right; exact Hj. }
      { rewrite map_app. cbn. rewrite (r_id E m _ _ Hr), <- app_assoc. exact Hnd. }
      exists (i' :: is''). rewrite Hadd, <- app_assoc. split; [reflexivity|].
      constructor; assumption.
  Qed.

  (** Adding the name to the dumped metadata. *)
  Definition named (n : option string) (mm : data) : data :=
    match n with
    | Some s => if String.eqb s "" then mm else dset "progression_name" (VStr s) mm
    | None => mm
    end.

  Lemma add_name_holds m mk n d mm vi vt fs :
    holds d (stored_at m mk) (VDict mm) vi vt fs ->
    ~ (m = Db /\ mk = Some "") ->
    holds (add_name m mk n d) (stored_at m mk) (VDict (named n mm)) vi vt fs.
  Proof.
    intros Hh Hmk.
    assert (Hkey : match mk with
       | Some k => if String.eqb k "" then (match m with Db => "node_metadata" | _ => "metadata" end) else k
       | None => match m with Db => "node_metadata" | _ => "metadata" end
       end = stored_at m mk).
    { destruct mk as [k|]; cbn; [|reflexivity].
      destruct (String.eqb_spec k "") as [->|]; [|reflexivity]. destruct m; try reflexivity.
      exfalso; apply Hmk; auto. }
    unfold add_name. rewrite Hkey. destruct n as [s|]; cbn [named]; [|exact Hh].
    destruct (String.eqb s ""); [exact Hh|].
    destruct Hh as [Hnd Hg]. rewrite Hg at 1. rewrite String.eqb_refl. split.
    - apply dkeys_dset_NoDup; exact Hnd.
    - intro k. rewrite dget_dset, eqb_str, Hg. destruct (String.eqb k (stored_at m mk)); reflexivity.
  Qed.

  Lemma pile_restore_holds (free : string -> Prop) d st mm vi vt fs mk :
    (forall k, free k -> k <> "id" /\ k <> "created_at" /\ dget k fs = None) ->
    holds d st mm vi vt fs -> st <> "" -> st <> "id" -> st <> "created_at" ->
    dget st fs = None -> dget "metadata" fs = None -> pile_matching free st mk ->
    holds (match mk with
           | Some k => if String.eqb k "" then d
                       else match dget k d with
                            | Some v => dset "metadata" v (ddel k d)
                            | None => d
                            end
           | None => d
           end) "metadata" mm vi vt fs.
  Proof.
    intros Hfree [Hnd Hg] Hne H1 H2 H3 Hm Hmatch.
    assert (Hst : dget st d = Some mm) by (rewrite Hg, String.eqb_refl; reflexivity).
    assert (Hmove : holds (dset "metadata" mm (ddel st d)) "metadata" mm vi vt fs).
    { split; [apply dkeys_dset_NoDup, dkeys_ddel_NoDup; exact Hnd|].
      intro k. rewrite dget_dset, eqb_str.
      destruct (String.eqb_spec k "metadata") as [->|Hk]; [reflexivity|].
      destruct (String.eqb_spec k st) as [->|Hks].
      + rewrite dget_ddel_same by exact Hnd.
        destruct (String.eqb_spec st "id"); [congruence|].
        destruct (String.eqb_spec st "created_at"); [congruence|]. symmetry; exact H3.
      + rewrite dget_ddel_other by congruence. rewrite Hg.
        destruct (String.eqb_spec k st); [congruence|]. reflexivity. }
    destruct Hmatch as [-> | [-> [-> | [-> | (k & -> & Hk)]]]].
    - destruct (String.eqb_spec st ""); [contradiction|]. rewrite Hst. exact Hmove.
    - split; assumption.
    - split; assumption.
    - destruct (String.eqb_spec k "") as [->|]; [split; assumption|].
      destruct (String.eqb_spec k "metadata") as [->|Hkm].
      + rewrite Hst. exact Hmove.
      + destruct (Hfree k Hk) as (Hki & Hkc & Hkf).
        assert (Hgk : dget k d = None).
        { rewrite Hg. destruct (String.eqb_spec k "metadata"); [congruence|].
          destruct (String.eqb_spec k "id"); [congruence|].
          destruct (String.eqb_spec k "created_at"); [congruence|]. exact Hkf. }
        rewrite Hgk. split; assumption.
  Qed.

  Lemma holds_ddel d st mm vi vt fs (k : string) :
    holds d st mm vi vt fs -> k <> st -> k <> "id" -> k <> "created_at" ->
    NoDup (dkeys fs) ->
    holds (ddel k d) st mm vi vt (ddel k fs).
  Proof.
    intros [Hnd Hg] H1 H2 H3 Hf. split; [apply dkeys_ddel_NoDup; exact Hnd|].
    intro j. destruct (String.eqb_spec j k) as [->|Hj].
    - rewrite !dget_ddel_same by assumption.
      destruct (String.eqb_spec k st); [congruence|].
      destruct (String.eqb_spec k "id"); [congruence|].
      destruct (String.eqb_spec k "created_at"); [congruence|]. reflexivity.
    - rewrite !dget_ddel_other by congruence. apply Hg.
  Qed.

  Lemma named_get (k : string) n mm : k <> "progression_name" ->
    dget k (named n mm) = dget k mm.
  Proof.
    intro H. destruct n as [s|]; cbn; [|reflexivity]. destruct (String.eqb s ""); [reflexivity|].
    apply dget_dset_other. congruence.
  Qed.

  Lemma filter_dset (f : string -> bool) (k : string) v (d : data) : f k = false ->
    filter (fun '(j, _) => f j) (dset k v d) = filter (fun '(j, _) => f j) d.
  Proof.
    intro Hk. induction d as [|[j w] d IH]; cbn.
    - rewrite Hk. reflexivity.
    - destruct (eqb_spec k j) as [->|]; cbn; [rewrite Hk; reflexivity|].
      destruct (f j); rewrite IH; reflexivity.
  Qed.

  Lemma name_mark m n c (meta mm : data) :
    encode_meta E m (dset "lion_class" (VStr c) meta) = Ret mm ->
    ((exists s, real_name n = Some s) \/ ~ In "progression_name" (dkeys meta)) ->
    dget "progression_name" (named n mm) = option_map VStr (real_name n).
  Proof.
    intros Hmm Hname.
    assert (Hnone : real_name n = None -> dget "progression_name" mm = None).
    { intro Hn. destruct Hname as [[s Hs]|Hname]; [congruence|].
      pose proof (em_get E m _ _ Hmm "progression_name") as Hg0.
      rewrite dget_dset_other in Hg0 by discriminate.
      apply dget_None in Hname. rewrite Hname in Hg0. exact Hg0. }
    unfold named, real_name in *. destruct n as [s|].
    - destruct (String.eqb s "").
      + apply Hnone. reflexivity.
      + apply dget_dset_same.
    - apply Hnone. reflexivity.
  Qed.

  (** What Pile.to_dict produces; [fs'] are the encoded additional fields. *)
  Definition all_fields (p : pile) (fs' : data) (ds : list data) : data :=
    dset "items" (VList (map VDict ds))
      (fs' ++ [("item_type", dump_types E (p_types p)); ("strict_type", VBool (p_strict p))]).

  Record dumped (p : pile) (m : mode) (imk : option string) (ifmt : option format)
      (vi : val) (mm fs' : data) (ds : list data) : Prop := {
    du_id : encode E m (VUuid (e_id (p_el p))) = Ret vi;
    du_meta : encode_meta E m (dset "lion_class" (VStr (cname E (e_cls (p_el p))))
                (e_meta (p_el p))) = Ret mm;
    du_fields : encode_meta E m (dump_fields E (p_el p)) = Ret fs';
    du_items : Forall2 (fun i d => to_dict E i (item_mode m) ifmt imk = Ret d) (p_items p) ds
  }.

  Lemma pile_keys p m fs' :
    valid E (p_el p) -> encode_meta E m (dump_fields E (p_el p)) = Ret fs' ->
    dkeys (fs' ++ [("item_type", dump_types E (p_types p)); ("strict_type", VBool (p_strict p))])
    = own_fields E (e_cls (p_el p)) ++ ["item_type"; "strict_type"].
  Proof.
    intros Hv Hfs. rewrite dkeys_app, (em_keys E m _ _ Hfs), dkeys_dump_fields, (v_fields E _ Hv).
    reflexivity.
  Qed.

  Lemma pile_keys_NoDup p : pile_ok E base p ->
    NoDup (own_fields E (e_cls (p_el p)) ++ ["item_type"; "strict_type"]).
  Proof.
    intro Hp. pose proof (v_nodup E _ (po_el _ _ _ Hp)) as Hn.
    pose proof (po_names _ _ _ Hp) as Hdis.
    revert Hn Hdis. generalize (own_fields E (e_cls (p_el p))). intros l Hn Hdis.
    induction l as [|k l IH]; cbn.
    - repeat constructor; cbn; intuition discriminate.
    - inversion Hn; subst. constructor.
      + intro Hi. apply in_app_or in Hi. destruct Hi as [Hi|Hi]; [contradiction|].
        apply (Hdis k (or_introl eq_refl)). cbn in *. tauto.
      + apply IH; [assumption|]. intros j Hj. apply Hdis. right; exact Hj.
  Qed.

  Lemma pile_reserved p m fs' ds k :
    pile_ok E base p -> encode_meta E m (dump_fields E (p_el p)) = Ret fs' ->
    In k reserved -> dget k (all_fields p fs' ds) = None.
  Proof.
    intros Hp Hfs Hk. unfold all_fields.
    rewrite dget_dset_other by (intros ->; cbn in Hk; intuition discriminate).
    apply dget_None. rewrite (pile_keys p m fs' (po_el _ _ _ Hp) Hfs).
    intro Hi. apply in_app_or in Hi. destruct Hi as [Hi|Hi].
    - apply (v_names E _ (po_el _ _ _ Hp) k Hi Hk).
    - cbn in Hi, Hk. intuition (subst; discriminate).
  Qed.

  Lemma pile_free_absent p m fs' ds k :
    pile_ok E base p -> encode_meta E m (dump_fields E (p_el p)) = Ret fs' ->
    pile_free E (e_cls (p_el p)) k ->
    k <> "id" /\ k <> "created_at" /\ dget k (all_fields p fs' ds) = None.
  Proof.
    intros Hp Hfs ((Hk1 & Hk2 & Hk3) & Hkp). split; [exact Hk1|]. split; [exact Hk2|].
    unfold all_fields. rewrite dget_dset_other by (intro Heq; apply Hkp; rewrite Heq; cbn; tauto).
    apply dget_None. rewrite (pile_keys p m fs' (po_el _ _ _ Hp) Hfs).
    intro Hi. apply in_app_or in Hi. destruct Hi as [Hi|Hi];
      [exact (Hk3 Hi)|]. apply Hkp. cbn in *. tauto.
  Qed.

  Lemma pile_dump p m f mk imk ifmt d :
    pile_ok E base p ->
    free_key E (e_cls (p_el p)) (stored_at m mk) -> ~ In (stored_at m mk) pile_names ->
    ~ (m = Db /\ mk = Some "") ->
    pile_to_dict E p m f mk imk ifmt = Ret d ->
    exists vi mm fs' ds, dumped p m imk ifmt vi mm fs' ds /\
      holds d (stored_at m mk) (VDict (named (p_name p) mm)) vi
        (encode_time E m (the_format m f) (e_created (p_el p))) (all_fields p fs' ds).
  Proof.
    intros Hp (Hk1 & Hk2 & Hk3) Hkp Hdb H.
    unfold pile_to_dict in H. pose proof (po_el _ _ _ Hp) as Hv.
    destruct (to_dict_with E (p_el p) (pile_fields E p) m f mk) as [d0|] eqn:Hd0; [|discriminate].
    cbn [bind] in H.
    change (match m with Python => Python | _ => Json end) with (item_mode m) in H.
    destruct (collect (fun i => to_dict E i (item_mode m) ifmt imk) (p_items p)) as [ds|] eqn:Hds;
      [|discriminate]. cbn [bind] in H. injection H as <-.
    set (c := e_cls (p_el p)) in *.
    assert (Hkeys : dkeys (pile_fields E p) = own_fields E c ++ ["item_type"; "strict_type"]).
    { unfold pile_fields. rewrite dkeys_app, dkeys_dump_fields, (v_fields E _ Hv). reflexivity. }
    pose proof (pile_keys_NoDup p Hp) as Hndk. fold c in Hndk.
    apply to_dict_holds in Hd0; try assumption.
    2: apply (v_meta E _ Hv).
    2: rewrite Hkeys; exact Hndk.
    2: { rewrite Hkeys. intros k Hk Hr. apply in_app_or in Hk. destruct Hk as [Hk|Hk].
         - apply (v_names E _ Hv k Hk Hr).
         - cbn in Hk, Hr. intuition (subst; discriminate). }
    2: { rewrite Hkeys. intro Hk. apply in_app_or in Hk. destruct Hk as [Hk|Hk];
         [exact (Hk3 Hk)|]. apply Hkp. cbn in *. tauto. }
    destruct Hd0 as (vi & mm & fsa & Hvi & Hmm & Hfsa & _ & Hh).
    (* the encoded fields *)
    unfold pile_fields in Hfsa. apply em_app in Hfsa.
    destruct Hfsa as (fs' & tl & Hfs & Htl & ->).
    apply em_cons in Htl. destruct Htl as (wt & t1 & Hwt & Ht1 & ->).
    apply em_cons in Ht1. destruct Ht1 as (ws & t2 & Hws & Ht2 & ->).
    rewrite em_nil in Ht2. injection Ht2 as <-.
    rewrite encode_types in Hwt. injection Hwt as <-.
    assert (ws = VBool (p_strict p)) by (destruct m; cbn in Hws; congruence). subst ws.
    clear Hws.
    (* dump to load *)
    apply (add_name_holds m mk (p_name p)) in Hh; [|exact Hdb].
    apply (holds_dset _ _ _ _ _  _ "items" (VList (map VDict ds))) in Hh; try discriminate.
    2: { intro Heq. apply Hkp. rewrite <- Heq. cbn; tauto. }
    exists vi, mm, fs', ds. split; [|exact Hh]. constructor; try assumption.
    apply collect_In. exact Hds.
  Qed.

  (** Pile.from_dict with the metadata in place. *)
  Lemma pile_load p m f imk ifmt imk' vi mm fs' ds mx d1 :
    pile_ok E base p ->
    fields_ok E m (p_el p) ->
    (forall i, In i (p_items p) -> fields_ok E (item_mode m) i) ->
    (forall i, In i (p_items p) -> free_key E (e_cls i) (stored_at (item_mode m) imk)) ->
    (forall i, In i (p_items p) ->
       matching (free_key E (e_cls i)) (stored_at (item_mode m) imk) imk') ->
    dumped p m imk ifmt vi mm fs' ds ->
    holds d1 "metadata" (VDict mx) vi
      (encode_time E m (the_format m f) (e_created (p_el p))) (all_fields p fs' ds) ->
    dget "progression_name" mx = option_map VStr (real_name (p_name p)) ->
    exists t' is',
      pile_from_dict E elsewhere base (e_cls (p_el p)) d1 None imk' =
        Ret (Pile (Element (e_cls (p_el p)) (e_id (p_el p)) t' mx (e_fields (p_el p)))
               (p_types p) (p_strict p) is' (real_name (p_name p))) /\
      same_instant (e_created (p_el p)) t' /\
      Forall2 (restored E (item_mode m)) (p_items p) is'.
  Proof.
    intros Hp Hok Hiok Hifree Himatch [Hvi Hmm Hfs Hds] Hh1 Hnm.
    pose proof (po_el _ _ _ Hp) as Hv. set (c := e_cls (p_el p)) in *.
    unfold all_fields in Hh1.
    set (items := VList (map VDict ds)) in *.
    set (fa := fs' ++ [("item_type", dump_types E (p_types p)); ("strict_type", VBool (p_strict p))]) in *.
    assert (Hkfs : dkeys fs' = own_fields E c).
    { rewrite (em_keys E m _ _ Hfs), dkeys_dump_fields. apply (v_fields E _ Hv). }
    assert (Hkfa : dkeys fa = own_fields E c ++ ["item_type"; "strict_type"]).
    { unfold fa. rewrite dkeys_app, Hkfs. reflexivity. }
    pose proof (pile_keys_NoDup p Hp) as Hndk. fold c in Hndk.
    unfold pile_from_dict.
    pose proof (proj2 Hh1) as Hg.
    assert (Hstr : dget "strict_type" d1 = Some (VBool (p_strict p))).
    { rewrite Hg. cbn [String.eqb]. cbn. rewrite dget_dset_other by discriminate.
      unfold fa. rewrite dget_app_fields.
      assert (Hn : dget "strict_type" fs' = None).
      { apply dget_None. rewrite Hkfs. intro Hi. apply (po_names _ _ _ Hp _ Hi). cbn; tauto. }
      rewrite Hn. reflexivity. }
    assert (Hty : dget "item_type" d1 = Some (dump_types E (p_types p))).
    { rewrite Hg. cbn. rewrite dget_dset_other by discriminate.
      unfold fa. rewrite dget_app_fields.
      assert (Hn : dget "item_type" fs' = None).
      { apply dget_None. rewrite Hkfs. intro Hi. apply (po_names _ _ _ Hp _ Hi). cbn; tauto. }
      rewrite Hn. reflexivity. }
    assert (Hit : dget "items" d1 = Some items).
    { rewrite Hg. cbn. apply dget_dset_same. }
    assert (Hme : dget "metadata" d1 = Some (VDict mx)) by (rewrite Hg; reflexivity).
    rewrite Hstr, Hty, Hit, Hme. unfold items. cbn [truthy].
    rewrite as_dict_back. cbn [bind].
    (* types *)
    assert (Hlt : load_types E (Some (dump_types E (p_types p))) = Ret (p_types p)).
    { destruct (p_types p) as [ts|] eqn:Hts; [|reflexivity].
      destruct (po_types _ _ _ Hp ts Hts) as [Hne Hld].
      destruct ts as [|t ts]; [congruence|]. unfold load_types, dump_types. cbn [map].
      assert (Hcol : forall l, (forall x, In x l -> load E (tname E x) = Some x) ->
        collect (fun x => match x with
                          | VStr s => match load E s with Some t => Ret t | None => Raise ValueError end
                          | _ => Raise ValueError
                          end) (map (fun t => VStr (tname E t)) l) = Ret l).
      { induction l as [|x l IH]; intro Hl; [reflexivity|]. cbn.
        rewrite (Hl x (or_introl eq_refl)). cbn. rewrite IH; [reflexivity|].
        intros y Hy. apply Hl. right; exact Hy. }
      change (VStr (tname E t) :: map (fun t0 => VStr (tname E t0)) ts)
        with (map (fun t0 => VStr (tname E t0)) (t :: ts)).
      rewrite Hcol; [reflexivity|exact Hld]. }
    rewrite Hlt. cbn [bind].
    (* the check *)
    assert (Hpre : match p_types p with
          | Some ts => bind (collect (precheck E ts (p_strict p)) ds) (fun _ => Ret tt)
          | None => Ret tt
          end = Ret tt).
    { destruct (p_types p) as [ts|] eqn:Hts; [|reflexivity].
      rewrite (collect_map _ (fun _ => tt)); [reflexivity|].
      intros dd Hdd.
      assert (Hex : exists i, In i (p_items p) /\ to_dict E i (item_mode m) ifmt imk = Ret dd).
      { clear - Hds Hdd. induction Hds as [|i d0 is ds0 Hi Hf IH]; [destruct Hdd|].
        destruct Hdd as [->|Hdd]; [exists i; split; [left; reflexivity|exact Hi]|].
        destruct (IH Hdd) as (j & Hj & Hjd). exists j. split; [right; exact Hj|exact Hjd]. }
      destruct Hex as (i & Hi & Hid).
      apply (precheck_ok i (item_mode m) ifmt imk).
      - apply (po_items _ _ _ Hp i Hi).
      - apply Hifree. exact Hi.
      - apply (proj1 (po_cls _ _ _ Hp i Hi)).
      - apply fits_allowed. pose proof (po_fit _ _ _ Hp i Hi) as Hfit. rewrite Hts in Hfit. exact Hfit.
      - exact Hid. }
    rewrite Hpre. cbn [bind].
    (* the element part *)
    assert (Hndfi : NoDup (dkeys (dset "items" items fa))).
    { apply dkeys_dset_NoDup. rewrite Hkfa. exact Hndk. }
    pose proof Hh1 as Hh2.
    apply (holds_ddel _ _ _ _ _ _ "items") in Hh2; try discriminate; [|exact Hndfi].
    apply (holds_ddel _ _ _ _ _ _ "item_type") in Hh2; try discriminate;
      [|apply dkeys_ddel_NoDup; exact Hndfi].
    apply (holds_ddel _ _ _ _ _ _ "strict_type") in Hh2; try discriminate;
      [|do 2 apply dkeys_ddel_NoDup; exact Hndfi].
    set (fb := ddel "strict_type" (ddel "item_type" (ddel "items" (dset "items" items fa)))) in *.
    assert (Hfb : forall k : string, dget k fb = dget k fs').
    { intro k. unfold fb.
      assert (Hnp : forall j, In j pile_names -> dget j fs' = None).
      { intros j Hj. apply dget_None. rewrite Hkfs. intro Hi. apply (po_names _ _ _ Hp _ Hi Hj). }
      assert (N1 : NoDup (dkeys (ddel "items" (dset "items" items fa))))
        by (apply dkeys_ddel_NoDup; exact Hndfi).
      assert (N2 : NoDup (dkeys (ddel "item_type" (ddel "items" (dset "items" items fa)))))
        by (apply dkeys_ddel_NoDup; exact N1).
      destruct (String.eqb_spec k "strict_type") as [->|Hs].
      { rewrite dget_ddel_same by exact N2. symmetry. apply Hnp. cbn; tauto. }
      rewrite dget_ddel_other by congruence.
      destruct (String.eqb_spec k "item_type") as [->|Ht].
      { rewrite dget_ddel_same by exact N1. symmetry. apply Hnp. cbn; tauto. }
      rewrite dget_ddel_other by congruence.
      destruct (String.eqb_spec k "items") as [->|Hi].
      { rewrite dget_ddel_same by exact Hndfi. symmetry. apply Hnp. cbn; tauto. }
      rewrite dget_ddel_other by congruence. rewrite dget_dset_other by congruence.
      unfold fa. rewrite dget_app_fields.
      destruct (dget k fs'); [reflexivity|]. cbn.
      destruct (eqb_spec k "item_type"); [congruence|].
      destruct (eqb_spec k "strict_type"); [congruence|]. reflexivity. }
    assert (Hfields : forall k v, In (k, v) (e_fields (p_el p)) ->
      exists w, dget k fb = Some w /\ fload E c k w = Ret v).
    { intros k v Hin. rewrite Hfb. apply (dumped_field E m c (e_fields (p_el p)) fs').
      - exact Hok.
      - rewrite (v_fields E _ Hv). apply (v_nodup E _ Hv).
      - exact Hfs.
      - exact Hin. }
    assert (Hknown : forall k v, dget k fb = Some v -> In k (own_fields E c)).
    { intros k v Hgk. rewrite Hfb in Hgk. rewrite <- Hkfs. apply dget_In in Hgk.
      apply in_map_iff. exists (k, v). auto. }
    destruct (time_back E HE m (the_format m f) (e_created (p_el p)) (v_aware E _ Hv))
      as (t' & Ht & Hsame & _).
    assert (Hcol : collect (load_field E c
        (ddel "strict_type" (ddel "item_type" (ddel "items" d1)))) (own_fields E c)
        = Ret (e_fields (p_el p))).
    { unfold c at 2. rewrite <- (v_fields E _ Hv). apply fields_back. intros k v Hin.
      destruct (Hfields k v Hin) as (w & Hw & Hl). exists w. split; [|exact Hl].
      rewrite (proj2 Hh2). pose proof (v_names E _ Hv k (Hknown k w Hw)) as Hr. cbn in Hr.
      destruct (String.eqb_spec k "metadata") as [->|]; [tauto|].
      destruct (String.eqb_spec k "id") as [->|]; [tauto|].
      destruct (String.eqb_spec k "created_at") as [->|]; [tauto|]. exact Hw. }
    rewrite (validate_holds E _ c _ vi _ fb (e_id (p_el p)) t' (e_fields (p_el p)) Hh2 Hknown
               (uuid_back E HE m _ _ Hvi) Ht Hcol).
    cbn [bind].
    (* the name *)
    rewrite Hnm.
    assert (Hnm2 : match option_map VStr (real_name (p_name p)) with
                   | Some v => if truthy v then match v with VStr s => Ret (Some s)
                                                | _ => Raise ValueError end else Ret None
                   | None => Ret None
                   end = Ret (real_name (p_name p))).
    { unfold real_name. destruct (p_name p) as [s|]; [|reflexivity].
      destruct (String.eqb_spec s "") as [->|Hs]; [reflexivity|]. cbn.
      destruct (String.eqb_spec s ""); [contradiction|]. reflexivity. }
    rewrite Hnm2. cbn [bind].
    (* the items *)
    destruct (add_items_ok (item_from_dict E elsewhere base imk') (item_mode m) ds (p_items p)
      (Element c (e_id (p_el p)) t' mx (e_fields (p_el p)))
      (p_types p) (p_strict p) [] (real_name (p_name p))) as (is' & Hadd & Hfr).
    { pose proof (po_items _ _ _ Hp) as Hvi'. pose proof (po_cls _ _ _ Hp) as Hcl.
      clear - Hds HE Hbase Hiok Hifree Himatch Hvi' Hcl. revert Hiok Hifree Himatch Hvi' Hcl.
      induction Hds as [|i d0 is ds0 Hi Hf IH]; intros Hiok Hifree Himatch Hvi' Hcl; constructor.
      - apply (item_back i (item_mode m) ifmt imk); try assumption.
        + apply Hvi'. left; reflexivity.
        + apply Hiok. left; reflexivity.
        + apply Hcl. left; reflexivity.
        + apply Hifree. left; reflexivity.
        + apply Himatch. left; reflexivity.
      - apply IH; intros j Hj.
        + apply Hiok. right; exact Hj.
        + apply Hifree. right; exact Hj.
        + apply Himatch. right; exact Hj.
        + apply Hvi'. right; exact Hj.
        + apply Hcl. right; exact Hj. }
    { apply (po_fit _ _ _ Hp). }
    { cbn. apply (po_ids _ _ _ Hp). }
    exists t', is'. split; [exact Hadd|]. split; assumption.
  Qed.

  Lemma pile_from_dict_key c d mk imk :
    pile_from_dict E elsewhere base c d mk imk =
    pile_from_dict E elsewhere base c
      (match mk with
       | Some k => if String.eqb k "" then d
                   else match dget k d with
                        | Some v => dset "metadata" v (ddel k d)
                        | None => d
                        end
       | None => d
       end) None imk.
  Proof. reflexivity. Qed.

  Lemma filter_named n mm :
    filter (fun '(k, _) => negb (is_mark k)) (named n mm)
    = filter (fun '(k, _) => negb (is_mark k)) mm.
  Proof.
    destruct n as [s|]; [|reflexivity]. cbn [named].
    destruct (String.eqb s ""); [reflexivity|].
    apply (filter_dset (fun k => negb (is_mark k))). reflexivity.
  Qed.

  Lemma filter_marks m c meta mm :
    encode_meta E m (dset "lion_class" (VStr c) meta) = Ret mm ->
    encode_meta E m (filter (fun '(k, _) => negb (is_mark k)) meta)
    = Ret (filter (fun '(k, _) => negb (is_mark k)) mm).
  Proof.
    intro H. rewrite <- (filter_dset (fun k => negb (is_mark k)) "lion_class" (VStr c) meta eq_refl).
    apply (em_filter E m (fun k => negb (is_mark k))). exact H.
  Qed.

  Theorem pile_roundtrip p m f mk imk ifmt mk' imk' d :
    pile_ok E base p ->
    fields_ok E m (p_el p) ->
    (forall i, In i (p_items p) -> fields_ok E (item_mode m) i) ->
    free_key E (e_cls (p_el p)) (stored_at m mk) -> ~ In (stored_at m mk) pile_names ->
    pile_matching (pile_free E (e_cls (p_el p))) (stored_at m mk) mk' -> ~ (m = Db /\ mk = Some "") ->
    (forall i, In i (p_items p) -> free_key E (e_cls i) (stored_at (item_mode m) imk)) ->
    (forall i, In i (p_items p) ->
       matching (free_key E (e_cls i)) (stored_at (item_mode m) imk) imk') ->
    ((exists n, real_name (p_name p) = Some n) \/
     ~ In "progression_name" (dkeys (e_meta (p_el p)))) ->
    pile_to_dict E p m f mk imk ifmt = Ret d ->
    exists p', pile_from_dict E elsewhere base (e_cls (p_el p)) d mk' imk' = Ret p' /\
      pile_restored E m p p'.
  Proof.
    intros Hp Hok Hiok Hfree Hkp Hmatch Hdb Hifree Himatch Hname H.
    destruct (pile_dump p m f mk imk ifmt d Hp Hfree Hkp Hdb H)
      as (vi & mm & fs' & ds & Hdu & Hh).
    destruct Hfree as (Hk1 & Hk2 & Hk3).
    apply (pile_restore_holds (pile_free E (e_cls (p_el p))) _ _ _ _ _ _ mk') in Hh; try assumption.
    2: { intros k Hk. apply (pile_free_absent p m fs' ds k Hp (du_fields _ _ _ _ _ _ _ _ Hdu) Hk). }
    2: apply stored_nonempty.
    2: { unfold all_fields.
         rewrite dget_dset_other by (intro Heq; apply Hkp; rewrite Heq; cbn; tauto).
         apply dget_None. rewrite (pile_keys p m fs' (po_el _ _ _ Hp) (du_fields _ _ _ _ _ _ _ _ Hdu)).
         intro Hi. apply in_app_or in Hi. destruct Hi as [Hi|Hi];
         [exact (Hk3 Hi)|]. apply Hkp. cbn in *. tauto. }
    2: { apply (pile_reserved p m fs' ds _ Hp (du_fields _ _ _ _ _ _ _ _ Hdu)). cbn; tauto. }
    rewrite pile_from_dict_key.
    pose proof (name_mark m (p_name p) _ _ _ (du_meta _ _ _ _ _ _ _ _ Hdu) Hname) as Hnm.
    destruct (pile_load p m f imk ifmt imk' vi mm fs' ds _ _ Hp Hok Hiok Hifree Himatch Hdu Hh Hnm)
      as (t' & is' & Hres & Hsame & Hits).
    eexists. split; [exact Hres|].
    constructor; cbn; try reflexivity; try assumption.
    - rewrite filter_named. apply (filter_marks m _ _ _ (du_meta _ _ _ _ _ _ _ _ Hdu)).
    - rewrite named_get by discriminate. apply (class_in_dump E m). apply (du_meta _ _ _ _ _ _ _ _ Hdu).
  Qed.

  Lemma filter_class_marks (l : data) :
    filter (fun '(k, _) => negb (is_mark k)) (filter (fun '(k, _) => negb (String.eqb k "lion_class")) l)
    = filter (fun '(k, _) => negb (is_mark k)) l.
  Proof.
    induction l as [|[k v] l IH]; [reflexivity|]. cbn [filter].
    destruct (String.eqb k "lion_class") eqn:Hk; cbn [negb filter].
    - assert (Hm : is_mark k = true) by (unfold is_mark; rewrite Hk; reflexivity).
      rewrite Hm. exact IH.
    - destruct (negb (is_mark k)); rewrite IH; reflexivity.
  Qed.

  (** Through Element.from_dict, which takes the class name out and knows the
      standard key of db mode, but has no key for items. *)
  Theorem pile_via_element p m f mk ifmt mk' d :
    pile_ok E base p ->
    fields_ok E m (p_el p) ->
    (forall i, In i (p_items p) -> fields_ok E (item_mode m) i) ->
    free_key E (e_cls (p_el p)) (stored_at m mk) -> ~ In (stored_at m mk) pile_names ->
    matching (pile_free E (e_cls (p_el p))) (stored_at m mk) mk' -> ~ (m = Db /\ mk = Some "") ->
    ((exists n, real_name (p_name p) = Some n) \/
     ~ In "progression_name" (dkeys (e_meta (p_el p)))) ->
    load E (cname E (e_cls (p_el p))) = Some (e_cls (p_el p)) ->
    is_element E (e_cls (p_el p)) = true -> impl_of E (e_cls (p_el p)) = IPile ->
    cname E (e_cls (p_el p)) <> "" -> cname E (e_cls (p_el p)) <> cname E base ->
    pile_to_dict E p m f mk None ifmt = Ret d ->
    exists p', from_dict E (fun _ _ => Raise OtherErr)
                 (fun c d => pile_from_dict E elsewhere base c d None None) base d mk' = Ret p' /\
      e_cls (p_el p') = e_cls (p_el p) /\ e_id (p_el p') = e_id (p_el p) /\
      same_instant (e_created (p_el p)) (e_created (p_el p')) /\
      e_fields (p_el p') = e_fields (p_el p) /\
      p_types p' = p_types p /\ p_strict p' = p_strict p /\
      p_name p' = real_name (p_name p) /\
      Forall2 (restored E (item_mode m)) (p_items p) (p_items p') /\
      dget "lion_class" (e_meta (p_el p')) = None /\
      encode_meta E m (filter (fun '(k, _) => negb (is_mark k)) (e_meta (p_el p)))
        = Ret (filter (fun '(k, _) => negb (is_mark k)) (e_meta (p_el p'))).
  Proof.
    intros Hp Hok Hiok Hfree Hkp Hmatch Hdb Hname Hload Hel Himpl Hnn Hne H.
    destruct (pile_dump p m f mk None ifmt d Hp Hfree Hkp Hdb H)
      as (vi & mm & fs' & ds & Hdu & Hh).
    destruct Hfree as (Hk1 & Hk2 & Hk3).
    pose proof (du_fields _ _ _ _ _ _ _ _ Hdu) as Hfs.
    pose proof (du_meta _ _ _ _ _ _ _ _ Hdu) as Hmm.
    apply (restore_holds (pile_free E (e_cls (p_el p))) _ _ _ _ _ _ mk') in Hh; try assumption.
    2: { intros k Hk. apply (pile_free_absent p m fs' ds k Hp Hfs Hk). }
    2: { unfold all_fields.
         rewrite dget_dset_other by (intro Heq; apply Hkp; rewrite Heq; cbn; tauto).
         apply dget_None. rewrite (pile_keys p m fs' (po_el _ _ _ Hp) Hfs).
         intro Hi. apply in_app_or in Hi. destruct Hi as [Hi|Hi];
         [exact (Hk3 Hi)|]. apply Hkp. cbn in *. tauto. }
    2, 3: apply (pile_reserved p m fs' ds _ Hp Hfs); cbn; tauto.
    2: apply stored_nonempty.
    apply take_class_holds in Hh. destruct Hh as (d' & Htake & Hh).
    unfold from_dict. rewrite Htake, named_get by discriminate.
    rewrite (class_in_dump E m _ _ Hmm). cbn [truthy].
    destruct (String.eqb_spec (cname E (e_cls (p_el p))) ""); [contradiction|]. cbn [negb].
    destruct (String.eqb_spec (cname E (e_cls (p_el p))) (cname E base)); [contradiction|].
    rewrite Hload, Hel, Himpl, Hbase.
    assert (Hndm : NoDup (dkeys (named (p_name p) mm))).
    { assert (Hm0 : NoDup (dkeys mm)).
      { rewrite (em_keys E m _ _ Hmm). apply dkeys_dset_NoDup.
        apply (v_meta E _ (po_el _ _ _ Hp)). }
      unfold named. destruct (p_name p) as [s|]; [|exact Hm0].
      destruct (String.eqb s ""); [exact Hm0|]. apply dkeys_dset_NoDup. exact Hm0. }
    pose proof (name_mark m (p_name p) _ _ _ Hmm Hname) as Hnm.
    rewrite <- (dget_ddel_other "progression_name" "lion_class") in Hnm by discriminate.
    assert (Hfree : forall i, In i (p_items p) ->
      free_key E (e_cls i) (stored_at (item_mode m) None)).
    { intros i Hi. split; [|split]; try (destruct m; discriminate).
      intro Hin. apply (v_names E i (po_items _ _ _ Hp i Hi) _ Hin). destruct m; cbn; tauto. }
    assert (Him : forall i, In i (p_items p) ->
      matching (free_key E (e_cls i)) (stored_at (item_mode m) None) None).
    { intros i Hi. right. split; [left; reflexivity|]. destruct m; left; reflexivity. }
    destruct (pile_load p m f None ifmt None vi mm fs' ds _ _ Hp Hok Hiok Hfree Him Hdu Hh Hnm)
      as (t' & is' & Hres & Hsame & Hits).
    eexists. split; [exact Hres|]. cbn. repeat (split; [reflexivity || assumption|]).
    split; [apply dget_ddel_same; exact Hndm|].
    rewrite (ddel_filter' "lion_class" _ Hndm).
    rewrite (filter_marks m _ _ _ Hmm). f_equal. rewrite <- (filter_named (p_name p) mm).
    symmetry. apply filter_class_marks.
  Qed.

  (** db mode without a key: Pile.from_dict rejects every dump. *)
  Theorem pile_legacy_fails c d mk' imk' :
    ~ In "node_metadata" (own_fields E c) ->
    In "node_metadata" (dkeys d) ->
    (mk' = None \/ mk' = Some "" \/ mk' = Some "metadata") ->
    exists x, pile_from_dict E elsewhere base c d mk' imk' = Raise x.
  Proof.
    intros Hn Hin Hmk. rewrite pile_from_dict_key.
    set (d1 := match mk' with Some k => _ | None => d end).
    assert (Hin1 : In "node_metadata" (dkeys d1)).
    { unfold d1. destruct Hmk as [-> | [-> | ->]]; cbn; try exact Hin.
      destruct (dget "metadata" d) as [v|] eqn:Hg; [|exact Hin].
      apply In_dkeys_dset. right. apply key_dget in Hin. destruct Hin as [w Hw].
      rewrite <- (dget_ddel_other "node_metadata" "metadata") in Hw by discriminate.
      apply dget_In in Hw. apply in_map_iff. exists ("node_metadata", w). auto. }
    clearbody d1. clear d Hin Hmk.
    assert (Hval : exists x, model_validate E c
        (ddel "strict_type" (ddel "item_type" (ddel "items" d1))) = Raise x).
    { unfold model_validate.
      destruct (forallb (fun '(k, _) => known E c k) _) eqn:Hf; [|eauto].
      exfalso. rewrite forallb_forall in Hf. apply key_dget in Hin1. destruct Hin1 as [w Hw].
      rewrite <- (dget_ddel_other "node_metadata" "items") in Hw by discriminate.
      rewrite <- (dget_ddel_other "node_metadata" "item_type") in Hw by discriminate.
      rewrite <- (dget_ddel_other "node_metadata" "strict_type") in Hw by discriminate.
      apply dget_In in Hw. specialize (Hf _ Hw). unfold known in Hf.
      apply existsb_exists in Hf. destruct Hf as (k & Hk & Heq). apply String.eqb_eq in Heq.
      subst k. apply in_app_or in Hk. destruct Hk as [Hk|Hk]; [|exact (Hn Hk)].
      cbn in Hk. intuition discriminate. }
    destruct Hval as [x Hx]. unfold pile_from_dict.
    repeat match goal with
    | |- exists y, bind ?a _ = Raise y =>
        let Ha := fresh in destruct a eqn:Ha; cbn [bind]; [|eauto]
    end; congruence.
  Qed.
End P.
