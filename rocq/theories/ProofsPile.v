(** Proofs about ModelPile: representation invariant and refinement. *)
From Coq Require Import List ZArith Bool Lia Arith Permutation.
From Verif Require Import PyBase PyFacts ModelProgression SpecProgression ProofsProgression
  ModelPile SpecPile.
Import ListNotations.
Require Import ZifyBool.

Section Proofs.
  Variable sub : cls -> cls -> bool.
  Notation step := (pile_step sub).

  (** The internal representation relation. *)
  Definition rep (p : pile) (l : list item) : Prop :=
    p_order p = map iid l /\ NoDup (map iid l) /\
    (forall x, In x l -> dget (iid x) (p_items p) = Some x) /\
    (forall u, In u (dkeys (p_items p)) <-> In u (map iid l)) /\
    NoDup (dkeys (p_items p)) /\
    Forall (allowed sub (p_types p) (p_strict p)) l.

  Lemma allowedb_spec : forall ty st x, allowedb sub ty st x = true <-> allowed sub ty st x.
  Proof.
    intros ty st x; unfold allowedb, allowed. destruct ty as [ts|]; [|split; auto].
    rewrite existsb_exists. destruct st.
    - split.
      + intros [t [Ht He]]. apply Nat.eqb_eq in He; subst; exact Ht.
      + intros Ht; exists (icls x); split; [exact Ht | apply Nat.eqb_refl].
    - reflexivity.
  Qed.

  Lemma validate_elem : forall p x,
    validate_type sub p (OElem x) =
    if allowedb sub (p_types p) (p_strict p) x then Ret x else Raise TypeError.
  Proof.
    intros p x; unfold validate_type, allowedb.
    destruct (p_types p) as [ts|]; [|reflexivity].
    destruct (p_strict p); reflexivity.
  Qed.

  Lemma shas_In : forall l u, shas l u = true <-> In u (map iid l).
  Proof.
    intros l u; unfold shas, has_id; rewrite existsb_exists, in_map_iff. split.
    - intros [x [Hx He]]. apply Nat.eqb_eq in He. eauto.
    - intros [x [He Hx]]. exists x; split; [exact Hx | apply Nat.eqb_eq; exact He].
  Qed.

  Lemma rep_dmem : forall p l u, rep p l -> dmem u (p_items p) = shas l u.
  Proof.
    intros p l u (_ & _ & _ & Hk & _).
    destruct (dmem u (p_items p)) eqn:E; symmetry.
    - apply shas_In, Hk, dmem_true; exact E.
    - apply dmem_false in E. destruct (shas l u) eqn:Es; [|reflexivity].
      exfalso; apply E, Hk, shas_In; exact Es.
  Qed.

  Lemma sget_Some : forall l u x, sget l u = Some x -> In x l /\ iid x = u.
  Proof.
    intros l u x Hg. apply find_some in Hg. unfold has_id in Hg.
    destruct Hg as [H1 H2]. apply Nat.eqb_eq in H2; auto.
  Qed.

  Lemma sget_None : forall l u, sget l u = None <-> ~ In u (map iid l).
  Proof.
    intros l u. split.
    - intros Hn Hi. apply in_map_iff in Hi. destruct Hi as [x [Hx Hi]].
      apply (find_none _ _ Hn) in Hi. unfold has_id in Hi. lia.
    - intros Hn. destruct (sget l u) as [x|] eqn:E; [|reflexivity].
      apply sget_Some in E. exfalso; apply Hn. apply in_map_iff; exists x; tauto.
  Qed.

  Lemma rep_dget : forall p l u, rep p l -> dget u (p_items p) = sget l u.
  Proof.
    intros p l u (_ & _ & Hg & Hk & _).
    destruct (sget l u) as [x|] eqn:E.
    - apply sget_Some in E. destruct E as [Hx <-]. apply Hg; exact Hx.
    - apply sget_None in E. apply dget_None. rewrite Hk. exact E.
  Qed.

  Lemma rep_lookup_gen : forall d l,
    (forall x, In x l -> dget (iid x) d = Some x) -> lookup_all d (map iid l) = Ret l.
  Proof.
    induction l as [|x t IH]; intros Hg; [reflexivity|].
    simpl. rewrite (Hg x (or_introl eq_refl)).
    rewrite IH; [reflexivity|]. intros y Hy; apply Hg; right; exact Hy.
  Qed.

  Lemma rep_iter : forall p l, rep p l -> pile_iter p = Ret l.
  Proof.
    intros p l (Ho & _ & Hg & _). unfold pile_iter. rewrite Ho.
    apply rep_lookup_gen; exact Hg.
  Qed.

  Lemma rep_len : forall p l, rep p l -> pile_len p = length l.
  Proof.
    intros p l (Ho & Hn & _ & Hk & Hd & _). unfold pile_len.
    rewrite <- (map_length fst (p_items p)), <- (map_length iid l).
    apply Permutation_length. apply NoDup_Permutation; auto.
  Qed.

  Lemma rep_coherent : forall p l, rep p l -> coherent p.
  Proof.
    intros p l Hr. exists l. split; [apply rep_iter; exact Hr|].
    pose proof (rep_len p l Hr) as Hlen. pose proof Hr as (Ho & Hn & _ & _).
    unfold pile_keys. rewrite Ho. split; [reflexivity|]. split; [exact Hn|].
    split; [symmetry; exact Hlen|]. intros u. unfold pile_contains; simpl.
    rewrite (rep_dmem p l u Hr). apply shas_In.
  Qed.

  Lemma rep_empty : forall ty st, rep (pile_empty ty st) [].
  Proof.
    intros ty st. repeat split; simpl; try tauto; try constructor.
  Qed.

  (** Adding a fresh allowed item. *)
  Lemma rep_add : forall p l x, rep p l ->
    allowed sub (p_types p) (p_strict p) x -> ~ In (iid x) (map iid l) ->
    rep (set_stores p (dset (iid x) x (p_items p)) (p_order p ++ [iid x])) (l ++ [x]).
  Proof.
    intros p l x (Ho & Hn & Hg & Hk & Hd & Ha) Hx Hi.
    assert (Hi' : ~ In (iid x) (dkeys (p_items p))) by (rewrite Hk; exact Hi).
    unfold rep; simpl. rewrite map_app; simpl. rewrite Ho. split; [reflexivity|].
    split; [|split; [|split; [|split]]].
    - apply (Permutation_NoDup (Permutation_cons_append (map iid l) (iid x))).
      constructor; assumption.
    - intros y Hy. rewrite dget_dset. apply in_app_or in Hy.
      destruct (eqb_spec (iid y) (iid x)) as [He|He].
      + destruct Hy as [Hy|[Hy|[]]]; [|subst; reflexivity].
        exfalso; apply Hi. rewrite <- He. apply in_map; exact Hy.
      + destruct Hy as [Hy|[Hy|[]]]; [apply Hg; exact Hy | subst; congruence].
    - intros u. rewrite In_dkeys_dset, Hk, in_app_iff. simpl. split; intros [H|H]; auto.
      destruct H as [H|[]]; auto.
    - apply dkeys_dset_NoDup; exact Hd.
    - apply Forall_app; split; auto.
  Qed.

  Lemma sdel_notin : forall l u, ~ In u (map iid l) -> sdel l u = l.
  Proof.
    induction l as [|x t IH]; intros u Hn; [reflexivity|].
    simpl in *. unfold has_id at 1.
    destruct (iid x =? u) eqn:E; [exfalso; apply Hn; left; lia|]. simpl.
    f_equal. apply IH; tauto.
  Qed.

  Lemma sdel_split : forall a x b, NoDup (map iid (a ++ x :: b)) ->
    sdel (a ++ x :: b) (iid x) = a ++ b.
  Proof.
    intros a x b Hn. rewrite map_app in Hn; simpl in Hn.
    assert (Ha : ~ In (iid x) (map iid a)).
    { apply NoDup_remove_2 in Hn. intros Hc; apply Hn, in_or_app; left; exact Hc. }
    assert (Hb : ~ In (iid x) (map iid b)).
    { apply NoDup_remove_2 in Hn. intros Hc; apply Hn, in_or_app; right; exact Hc. }
    unfold sdel. rewrite filter_app; simpl.
    unfold has_id at 2. rewrite Nat.eqb_refl; simpl.
    f_equal; [apply (sdel_notin a (iid x) Ha) | apply (sdel_notin b (iid x) Hb)].
  Qed.

  (** Removing a stored item. *)
  Lemma rep_del : forall p l u x, rep p l -> sget l u = Some x ->
    exists o', remove_first u (p_order p) = Some o' /\
      rep (set_stores p (ddel u (p_items p)) o') (sdel l u).
  Proof.
    intros p l u x (Ho & Hn & Hg & Hk & Hd & Ha) Hs.
    apply sget_Some in Hs. destruct Hs as [Hx He]. subst u.
    apply in_split in Hx. destruct Hx as [a [b Hl]]. subst l.
    rewrite sdel_split by exact Hn.
    exists (map iid a ++ map iid b).
    rewrite map_app in Hn; simpl in Hn.
    pose proof (NoDup_remove_2 _ _ _ Hn) as Hout.
    assert (Hrm : remove_first (iid x) (p_order p) = Some (map iid a ++ map iid b)).
    { rewrite Ho, map_app; simpl. apply remove_first_split.
      intros Hc; apply Hout, in_or_app; left; exact Hc. }
    split; [exact Hrm|]. unfold rep; simpl. rewrite map_app.
    split; [reflexivity|]. split; [apply NoDup_remove_1 in Hn; exact Hn|].
    split; [|split; [|split]].
    - intros y Hy. rewrite dget_ddel_other.
      + apply Hg. apply in_app_or in Hy. apply in_or_app; simpl; tauto.
      + intros He; apply Hout. rewrite <- He, <- map_app. apply in_map; exact Hy.
    - intros v. rewrite In_dkeys_ddel by exact Hd. rewrite Hk, map_app, !in_app_iff; simpl.
      rewrite in_app_iff in Hout. split.
      + intros [[H|[H|H]] Hne]; auto; congruence.
      + intros H. split; [tauto|]. intros ->; tauto.
    - apply dkeys_ddel_NoDup; exact Hd.
    - apply Forall_app in Ha. destruct Ha as [Ha1 Ha2]. inversion Ha2; subst.
      apply Forall_app; auto.
  Qed.

  Lemma sput_ids : forall l y, map iid (sput l y) = map iid l.
  Proof.
    induction l as [|x t IH]; intros y; simpl; [reflexivity|].
    rewrite IH. f_equal. unfold has_id. destruct (iid x =? iid y) eqn:E; [lia|reflexivity].
  Qed.

  Lemma rep_put : forall p l x, rep p l ->
    allowed sub (p_types p) (p_strict p) x -> In (iid x) (map iid l) ->
    rep (set_stores p (dset (iid x) x (p_items p)) (p_order p)) (sput l x).
  Proof.
    intros p l x (Ho & Hn & Hg & Hk & Hd & Ha) Hx Hi.
    unfold rep; simpl. rewrite sput_ids.
    split; [exact Ho|]. split; [exact Hn|]. split; [|split; [|split]].
    - intros y Hy. unfold sput in Hy. apply in_map_iff in Hy.
      destruct Hy as [z [Hz Hin]]. unfold has_id in Hz.
      destruct (iid z =? iid x) eqn:E.
      + subst y. apply dget_dset_same.
      + subst y. rewrite dget_dset_other by lia. apply Hg; exact Hin.
    - intros u. rewrite In_dkeys_dset, Hk. split; [intros [->|H]; auto | auto].
    - apply dkeys_dset_NoDup; exact Hd.
    - apply Forall_forall. intros y Hy. unfold sput in Hy. apply in_map_iff in Hy.
      destruct Hy as [z [Hz Hin]]. destruct (has_id (iid x) z); subst; auto.
      rewrite Forall_forall in Ha; auto.
  Qed.

  (** Building fresh piles. *)
  Lemma distinct_NoDup : forall us, distinct us = true <-> NoDup us.
  Proof.
    induction us as [|u t IH]; simpl; [split; [constructor | reflexivity]|].
    rewrite andb_true_iff, negb_true_iff, IH. split.
    - intros [H1 H2]. constructor; [|exact H2]. intros Hc.
      assert (existsb (Nat.eqb u) t = true); [|congruence].
      apply existsb_exists; exists u; split; [exact Hc | apply Nat.eqb_refl].
    - intros Hn; inversion Hn as [|? ? H1 H2]; subst. split; [|exact H2].
      destruct (existsb (Nat.eqb u) t) eqn:E; [|reflexivity].
      apply existsb_exists in E. destruct E as [v [Hv He]].
      apply Nat.eqb_eq in He; subst; contradiction.
  Qed.

  Lemma set_stores_cfg : forall p d o,
    p_types (set_stores p d o) = p_types p /\ p_strict (set_stores p d o) = p_strict p.
  Proof. intros; split; reflexivity. Qed.

  Lemma add_all_ok : forall xs p l, rep p l ->
    Forall (allowed sub (p_types p) (p_strict p)) xs ->
    if distinct (map iid xs) && forallb (fun x => negb (shas l (iid x))) xs
    then exists q, add_all sub p (map OElem xs) = Ret q /\ rep q (l ++ xs) /\
                   p_types q = p_types p /\ p_strict q = p_strict p
    else add_all sub p (map OElem xs) = Raise ExistsError.
  Proof.
    induction xs as [|x t IH]; intros p l Hr Hal; simpl.
    - exists p. rewrite app_nil_r; auto.
    - inversion Hal as [|? ? Hx Ht]; subst.
      unfold pile_add. rewrite validate_elem.
      pose proof (proj2 (allowedb_spec _ _ _) Hx) as Hb. rewrite Hb.
      rewrite (rep_dmem p l (iid x) Hr).
      destruct (shas l (iid x)) eqn:Es.
      + rewrite andb_false_r; reflexivity.
      + assert (Hni : ~ In (iid x) (map iid l)).
        { intros Hc; apply shas_In in Hc; congruence. }
        pose proof (rep_add p l x Hr Hx Hni) as Hr'.
        specialize (IH _ _ Hr' Ht). simpl.
        replace (negb (existsb (Nat.eqb (iid x)) (map iid t)) && distinct (map iid t) &&
                 forallb (fun x0 => negb (shas l (iid x0))) t)
          with (distinct (map iid t) && forallb (fun x0 => negb (shas (l ++ [x]) (iid x0))) t).
        * destruct (distinct (map iid t) &&
                    forallb (fun x0 => negb (shas (l ++ [x]) (iid x0))) t).
          -- destruct IH as [q [H1 [H2 [H3 H4]]]]. exists q. simpl in *.
             rewrite <- app_assoc in H2. auto.
          -- exact IH.
        * clear. assert (H : forallb (fun x0 => negb (shas (l ++ [x]) (iid x0))) t =
                     negb (existsb (Nat.eqb (iid x)) (map iid t)) &&
                     forallb (fun x0 => negb (shas l (iid x0))) t).
          { induction t as [|y t IH]; simpl; [reflexivity|]. rewrite IH.
            unfold shas. rewrite existsb_app; simpl. unfold has_id at 2.
            destruct (existsb (has_id (iid y)) l), (iid x =? iid y),
              (existsb (Nat.eqb (iid x)) (map iid t)),
              (forallb (fun x0 => negb (existsb (has_id (iid x0)) l)) t); reflexivity. }
          rewrite H. destruct (distinct (map iid t)),
            (negb (existsb (Nat.eqb (iid x)) (map iid t))); reflexivity.
  Qed.

  Lemma rep_allowed_In : forall p l x, rep p l -> In x l ->
    allowed sub (p_types p) (p_strict p) x.
  Proof.
    intros p l x (_ & _ & _ & _ & _ & Ha) Hx. rewrite Forall_forall in Ha; auto.
  Qed.

  Lemma derive_ok : forall p l xs, rep p l -> (forall x, In x xs -> In x l) ->
    if distinct (map iid xs)
    then exists q, derive sub p xs = Ret q /\ rep q xs /\
                   p_types q = p_types p /\ p_strict q = p_strict p
    else derive sub p xs = Raise ExistsError.
  Proof.
    intros p l xs Hr Hin. unfold derive, pile_new.
    pose proof (add_all_ok xs (pile_empty (p_types p) (p_strict p)) []
                  (rep_empty _ _)) as Ha.
    unfold pile_empty in Ha.
    assert (Hal : Forall (allowed sub (p_types p) (p_strict p)) xs).
    { apply Forall_forall. intros x Hx. eapply rep_allowed_In; eauto. }
    specialize (Ha Hal).
    replace (forallb (fun x => negb (shas [] (iid x))) xs) with true in Ha
      by (clear; induction xs; simpl; auto).
    rewrite andb_true_r in Ha. simpl in Ha. destruct (distinct (map iid xs)).
    - destruct Ha as [q [H1 H2]]. rewrite H1. simpl. exists q; auto.
    - rewrite Ha; reflexivity.
  Qed.

  Lemma lift_new_agrees : forall p l xs, rep p l -> (forall x, In x xs -> In x l) ->
    agrees (bind (derive sub p xs) (fun q => Ret (VPile q))) (snew xs) (p_types p) (p_strict p).
  Proof.
    intros p l xs Hr Hin. pose proof (derive_ok p l xs Hr Hin) as Hd.
    unfold snew. destruct (distinct (map iid xs)).
    - destruct Hd as [q [H1 [H2 [H3 H4]]]]. rewrite H1; simpl.
      split; [eapply rep_coherent; eauto|]. split; [apply rep_iter; exact H2|]. auto.
    - rewrite Hd; reflexivity.
  Qed.

  Lemma lift_new_agrees_nodup : forall p l xs, rep p l -> (forall x, In x xs -> In x l) ->
    NoDup (map iid xs) ->
    agrees (bind (derive sub p xs) (fun q => Ret (VPile q))) (Ret (SPile xs))
           (p_types p) (p_strict p).
  Proof.
    intros p l xs Hr Hin Hn. pose proof (lift_new_agrees p l xs Hr Hin) as Ha.
    unfold snew in Ha. apply distinct_NoDup in Hn. rewrite Hn in Ha. exact Ha.
  Qed.

  Lemma NoDup_map_filter : forall (f : item -> bool) l,
    NoDup (map iid l) -> NoDup (map iid (filter f l)).
  Proof.
    induction l as [|x t IH]; intros Hn; simpl in *; [constructor|].
    inversion Hn as [|? ? H1 H2]; subst. destruct (f x); simpl; auto.
    constructor; auto. intros Hc; apply H1.
    apply in_map_iff in Hc. destruct Hc as [y [Hy Hi]]. apply filter_In in Hi.
    apply in_map_iff; exists y; tauto.
  Qed.

  Lemma nth_error_map_iid : forall l k,
    nth_error (map iid l) k = option_map iid (nth_error l k).
  Proof. intros; apply nth_error_map. Qed.

  Lemma rep_at : forall p l i, rep p l -> pile_at p i = py_get l i.
  Proof.
    intros p l i (Ho & _ & Hg & _). unfold pile_at, py_get. rewrite Ho, map_length.
    destruct (norm_index (length l) i) as [k|] eqn:E; [|reflexivity].
    rewrite nth_error_map_iid.
    destruct (nth_error l k) as [x|] eqn:Ex; simpl; [|reflexivity].
    rewrite Hg; [reflexivity|]. eapply nth_error_In; eauto.
  Qed.

  Lemma rep_get : forall p l r, rep p l ->
    pile_get p r false =
    match then_ (coerce_id r) (fun u => opt_or (sget l u) NotFoundError) with
    | Ret x => Ret (VItem x) | Raise e => Raise e end.
  Proof.
    intros p l r Hr. unfold pile_get. destruct (coerce_id r) as [u|e]; simpl; [|reflexivity].
    rewrite (rep_dget p l u Hr). destruct (sget l u); reflexivity.
  Qed.

  Lemma at_all_spec : forall p l ks, rep p l -> forallb is_lint ks = true ->
    at_all p ks = seqo (map (fun k => match k with LInt i => py_get l i
                                                | _ => Raise TypeError end) ks).
  Proof.
    intros p l ks Hr; induction ks as [|k t IH]; intros Hall; [reflexivity|].
    simpl in Hall. destruct k; simpl in Hall; try discriminate. simpl.
    rewrite (rep_at p l i Hr). destruct (py_get l i); simpl; [|reflexivity].
    rewrite (IH Hall). destruct (seqo _); reflexivity.
  Qed.

  Lemma get_all_spec : forall p l ks, rep p l -> forallb is_lid ks = true ->
    get_all p ks = seqo (map (fun k => match k with
       | LId r => then_ (coerce_id r) (fun u => opt_or (sget l u) NotFoundError)
       | _ => Raise TypeError end) ks).
  Proof.
    intros p l ks Hr; induction ks as [|k t IH]; intros Hall; [reflexivity|].
    simpl in Hall. destruct k; simpl in Hall; try discriminate. simpl.
    rewrite (rep_get p l r Hr). destruct (then_ _ _); simpl; [|reflexivity].
    rewrite (IH Hall). destruct (seqo _); reflexivity.
  Qed.

  Lemma seqo_In : forall {A} (os : list (outcome A)) xs, seqo os = Ret xs ->
    forall x, In x xs -> In (Ret x) os.
  Proof.
    induction os as [|o t IH]; simpl; intros xs Hs x Hx.
    - inversion Hs; subst; contradiction.
    - destruct o as [a|e]; [|discriminate]. destruct (seqo t) as [l|e]; [|discriminate].
      inversion Hs; subst. destruct Hx as [->|Hx]; [left; reflexivity | right; eauto].
  Qed.

  Lemma skeys_incl : forall l ks xs, skeys l ks = Ret xs -> forall x, In x xs -> In x l.
  Proof.
    intros l ks xs Hs x Hx. unfold skeys in Hs.
    destruct ks as [|[i|r|] t]; try discriminate.
    - destruct (forallb _ _); [|discriminate].
      apply (seqo_In _ _ Hs) in Hx. apply in_map_iff in Hx.
      destruct Hx as [k [Hk _]]. destruct k; try discriminate.
      unfold py_get in Hk. destruct (norm_index _ _); [|discriminate].
      destruct (nth_error l n) eqn:E; [|discriminate].
      inversion Hk; subst. eapply nth_error_In; eauto.
    - destruct (forallb _ _); [|discriminate].
      apply (seqo_In _ _ Hs) in Hx. apply in_map_iff in Hx.
      destruct Hx as [k [Hk _]]. destruct k; try discriminate.
      destruct (coerce_id r0) as [u|]; simpl in Hk; [|discriminate].
      unfold opt_or in Hk. destruct (sget l u) eqn:E; [|discriminate].
      inversion Hk; subst. apply sget_Some in E; tauto.
  Qed.

  Lemma get_by_list_spec : forall p l ks, rep p l ->
    get_by_list sub p ks = then_ (skeys l ks) (derive sub p).
  Proof.
    intros p l ks Hr. unfold get_by_list, skeys.
    destruct ks as [|[i|r|] t]; try reflexivity.
    - change (fun k : lkey => match k with LInt _ => true | _ => false end) with is_lint.
      destruct (forallb is_lint (LInt i :: t)) eqn:E; [|reflexivity].
      rewrite (at_all_spec p l _ Hr E). unfold bind, then_. destruct (seqo _); reflexivity.
    - change (fun k : lkey => match k with LId _ => true | _ => false end) with is_lid.
      destruct (forallb is_lid (LId r :: t)) eqn:E; [|reflexivity].
      rewrite (get_all_spec p l _ Hr E). unfold bind at 1. unfold then_ at 1.
      destruct (seqo _); reflexivity.
  Qed.

  Lemma select_map_iid : forall l ps, select (map iid l) ps = map iid (select l ps).
  Proof.
    intros l ps; induction ps as [|k t IH]; [reflexivity|].
    unfold select in *; simpl. rewrite IH, nth_error_map_iid.
    destruct (nth_error l k); reflexivity.
  Qed.

  Lemma select_In : forall {A} (l : list A) ps x, In x (select l ps) -> In x l.
  Proof.
    intros A l ps x Hx. unfold select in Hx. apply in_flat_map in Hx.
    destruct Hx as [k [_ Hk]]. destruct (nth_error l k) eqn:E; [|contradiction].
    destruct Hk as [->|[]]. eapply nth_error_In; eauto.
  Qed.

  Lemma StronglySorted_NoDup : forall (R : nat -> nat -> Prop) ps,
    (forall x, ~ R x x) -> Sorted.StronglySorted R ps -> NoDup ps.
  Proof.
    intros R ps Hirr Hs; induction Hs as [|k t Hs IH Hk]; constructor; auto.
    intros Hc. rewrite Forall_forall in Hk. apply (Hirr k). apply Hk; exact Hc.
  Qed.

  Lemma select_NoDup : forall {A} (l : list A) ps, NoDup l -> NoDup ps -> NoDup (select l ps).
  Proof.
    intros A l ps Hl Hp; induction Hp as [|k t Hk Ht IH]; [constructor|].
    unfold select in *; simpl. destruct (nth_error l k) as [x|] eqn:E; [|exact IH].
    simpl. constructor; [|exact IH]. intros Hc. apply in_flat_map in Hc.
    destruct Hc as [j [Hj Hx]]. destruct (nth_error l j) as [y|] eqn:Ej; [|contradiction].
    destruct Hx as [->|[]]. assert (j = k); [|subst; contradiction].
    apply (proj1 (NoDup_nth_error l) Hl); [|congruence].
    apply nth_error_Some; congruence.
  Qed.

  Lemma slice_positions_step : forall n a b c,
    slice_positions n a b c =
    slice_positions n a b (Some (match c with None => 1%Z | Some s => s end)).
  Proof. intros n a b [s|]; reflexivity. Qed.

  Lemma slice_positions_NoDup : forall n a b c ps,
    slice_positions n a b c = Some ps -> NoDup ps.
  Proof.
    intros n a b c ps Hs. rewrite slice_positions_step in Hs.
    apply slice_positions_sorted in Hs.
    eapply StronglySorted_NoDup; [|exact Hs]. intros x. destruct (0 <? _)%Z; lia.
  Qed.

  (** Main simulation: one operation. *)
  Theorem pile_step_refines : forall p l o, rep p l ->
    let '(p', v) := step p o in
    let '(l', s) := sstep sub (p_types p) (p_strict p) l o in
    rep p' l' /\ p_types p' = p_types p /\ p_strict p' = p_strict p /\
    agrees v s (p_types p) (p_strict p).
  Proof.
    intros p l o Hr. destruct o; simpl.
    - (* add *)
      destruct o as [x|oid].
      + unfold pile_add. rewrite validate_elem.
        destruct (allowedb sub (p_types p) (p_strict p) x) eqn:Ea; simpl; [|auto].
        rewrite (rep_dmem p l (iid x) Hr).
        destruct (shas l (iid x)) eqn:Es; simpl; [auto|].
        split; [|auto]. apply rep_add; auto.
        * apply allowedb_spec; exact Ea.
        * intros Hc; apply shas_In in Hc; congruence.
      + simpl; auto.
    - (* remove *)
      unfold pile_remove. destruct (coerce_id r) as [u|e]; simpl; [|auto].
      rewrite (rep_dget p l u Hr). destruct (sget l u) as [x|] eqn:Eg; simpl; [|auto].
      destruct (rep_del p l u x Hr Eg) as [o' [H1 H2]]. rewrite H1. simpl; auto.
    - (* pop *)
      unfold pile_pop. destruct (coerce_id r) as [u|e]; simpl; [|auto].
      rewrite (rep_dget p l u Hr). destruct (sget l u) as [x|] eqn:Eg; simpl.
      + destruct (rep_del p l u x Hr Eg) as [o' [H1 H2]]. rewrite H1. simpl; auto.
      + destruct d; simpl; auto.
    - (* get *)
      unfold pile_get. destruct (coerce_id r) as [u|e]; simpl; [|auto].
      rewrite (rep_dget p l u Hr). destruct (sget l u); simpl; [auto|].
      destruct d; simpl; auto.
    - (* update *)
      destruct o as [x|oid].
      + unfold pile_update. rewrite validate_elem.
        destruct (allowedb sub (p_types p) (p_strict p) x) eqn:Ea; simpl; [|auto].
        rewrite (rep_dmem p l (iid x) Hr).
        destruct (shas l (iid x)) eqn:Es; simpl; [|auto].
        split; [|auto]. apply rep_put; auto.
        * apply allowedb_spec; exact Ea.
        * apply shas_In; exact Es.
      + simpl; auto.
    - (* clear *)
      split; [|auto]. repeat split; simpl; try tauto; try constructor.
    - (* include *)
      destruct o as [x|[u|]]; simpl; [| |auto].
      + unfold pile_include. rewrite (rep_dmem p l (iid x) Hr).
        destruct (shas l (iid x)) eqn:Es; simpl; [auto|].
        unfold pile_add. rewrite validate_elem.
        destruct (allowedb sub (p_types p) (p_strict p) x) eqn:Ea; simpl; [|auto].
        rewrite (rep_dmem p l (iid x) Hr), Es. simpl. split; [|auto].
        apply rep_add; auto.
        * apply allowedb_spec; exact Ea.
        * intros Hc; apply shas_In in Hc; congruence.
      + unfold pile_include. rewrite (rep_dmem p l u Hr).
        destruct (shas l u) eqn:Es; simpl; auto.
    - (* exclude *)
      unfold pile_exclude. destruct (coerce_id r) as [u|e]; simpl; [|auto].
      rewrite (rep_dmem p l u Hr). destruct (shas l u) eqn:Es.
      + unfold pile_remove; simpl. rewrite (rep_dget p l u Hr).
        destruct (sget l u) as [x|] eqn:Eg.
        * destruct (rep_del p l u x Hr Eg) as [o' [H1 H2]]. rewrite H1. simpl; auto.
        * exfalso. apply sget_None in Eg. apply Eg, shas_In; exact Es.
      + rewrite sdel_notin; [simpl; auto|]. intros Hc; apply shas_In in Hc; congruence.
    - (* contains *)
      split; [exact Hr|]. split; [reflexivity|]. split; [reflexivity|].
      unfold pile_contains. destruct (coerce_id r); [apply rep_dmem; exact Hr | reflexivity].
    - (* len *) split; [exact Hr|]. repeat split; auto. apply rep_len; exact Hr.
    - (* iter *) split; [exact Hr|]. repeat split; auto. rewrite (rep_iter p l Hr). reflexivity.
    - (* keys *) split; [exact Hr|]. repeat split; auto. destruct Hr as [Ho _]. exact Ho.
    - (* at *) split; [exact Hr|]. repeat split; auto. rewrite (rep_at p l i Hr).
      destruct (py_get l i); reflexivity.
    - (* empty *) split; [exact Hr|]. repeat split; auto.
      pose proof (rep_len p l Hr) as Hl. unfold pile_len in Hl. rewrite Hl.
      destruct l; reflexivity.
    - (* slice *)
      split; [exact Hr|]. repeat split; auto. unfold get_by_slice, p_getslice.
      pose proof Hr as (Ho & Hn & Hg & _). rewrite Ho, map_length.
      destruct (slice_positions (length l) a b c) as [ps|] eqn:Ep; simpl; [|reflexivity].
      rewrite select_map_iid, rep_lookup_gen.
      + simpl. eapply lift_new_agrees_nodup; eauto; [intros x; apply select_In|].
        rewrite <- select_map_iid. apply select_NoDup; [exact Hn|].
        eapply slice_positions_NoDup; eauto.
      + intros x Hx. apply Hg. eapply select_In; eauto.
    - (* by progression *)
      split; [exact Hr|]. repeat split; auto. unfold filter_by_progression.
      replace (existsb (fun u => negb (dmem u (p_items p))) l0)
        with (negb (forallb (shas l) l0)).
      + destruct (forallb (shas l) l0) eqn:Ea; simpl; [|reflexivity].
        assert (Hlk : lookup_all (p_items p) l0 =
                      seqo (map (fun u => opt_or (sget l u) KeyError) l0)).
        { clear Ea. induction l0 as [|u t IH]; [reflexivity|]. simpl.
          rewrite (rep_dget p l u Hr). destruct (sget l u); simpl; [|reflexivity].
          rewrite IH. destruct (seqo _); reflexivity. }
        rewrite Hlk. destruct (seqo _) as [xs|e] eqn:Eq; simpl; [|reflexivity].
        eapply lift_new_agrees; eauto. intros x Hx.
        apply (seqo_In _ _ Eq) in Hx. apply in_map_iff in Hx. destruct Hx as [u [Hu _]].
        unfold opt_or in Hu. destruct (sget l u) eqn:Eg; inversion Hu; subst.
        apply sget_Some in Eg; tauto.
      + clear -Hr. induction l0 as [|u t IH]; [reflexivity|]. simpl.
        rewrite <- IH, (rep_dmem p l u Hr). destruct (shas l u); reflexivity.
    - (* by list *)
      split; [exact Hr|]. repeat split; auto. rewrite (get_by_list_spec p l ks Hr).
      destruct (skeys l ks) as [xs|e] eqn:Ek; simpl; [|reflexivity].
      eapply lift_new_agrees; eauto. eapply skeys_incl; eauto.
    - (* by function *)
      split; [exact Hr|]. repeat split; auto. unfold filter_by_function.
      rewrite (rep_iter p l Hr); simpl. eapply lift_new_agrees_nodup; eauto.
      + intros x Hx. apply filter_In in Hx; tauto.
      + apply NoDup_map_filter. destruct Hr as (_ & Hn & _); exact Hn.
    - (* by type *)
      split; [exact Hr|]. repeat split; auto. unfold filter_by_type, type_query_ok.
      change (fun t : cls => memb t) with (fun (t : cls) al => existsb (Nat.eqb t) al).
      match goal with |- context [negb ?b] => destruct b eqn:Eb end; simpl.
      + assert (Eb' : (match p_types p with
                       | Some al => if p_strict p
                                    then forallb (fun t => existsb (Nat.eqb t) al) ts
                                    else forallb (fun t => existsb (fun a => sub t a || sub a t) al) ts
                       | None => true end) = true) by exact Eb.
        rewrite Eb'. rewrite (rep_iter p l Hr); simpl.
        pose proof (lift_new_agrees_nodup p l
          (filter (fun x => existsb (fun t => sub (icls x) t) ts) l) Hr) as Hl.
        destruct (filter (fun x => existsb (fun t => sub (icls x) t) ts) l) as [|y ys] eqn:Ef;
          [reflexivity|].
        apply Hl.
        * intros x Hx. rewrite <- Ef in Hx. apply filter_In in Hx; tauto.
        * rewrite <- Ef. apply NoDup_map_filter. destruct Hr as (_ & Hn & _); exact Hn.
      + assert (Eb' : (match p_types p with
                       | Some al => if p_strict p
                                    then forallb (fun t => existsb (Nat.eqb t) al) ts
                                    else forallb (fun t => existsb (fun a => sub t a || sub a t) al) ts
                       | None => true end) = false) by exact Eb.
        rewrite Eb'. reflexivity.
  Qed.

  Theorem pile_run_refines : forall ops p l, rep p l ->
    rep (pile_run sub p ops) (srun sub (p_types p) (p_strict p) l ops) /\
    p_types (pile_run sub p ops) = p_types p /\ p_strict (pile_run sub p ops) = p_strict p.
  Proof.
    induction ops as [|o t IH]; intros p l Hr; simpl; [auto|].
    pose proof (pile_step_refines p l o Hr) as Hs.
    destruct (step p o) as [p' v]. destruct (sstep sub (p_types p) (p_strict p) l o) as [l' s].
    destruct Hs as [H1 [H2 [H3 _]]]. simpl.
    specialize (IH p' l' H1). rewrite H2, H3 in IH. exact IH.
  Qed.

  Theorem pile_outs_refine : forall ops p l, rep p l ->
    Forall2 (fun v s => agrees v s (p_types p) (p_strict p))
            (pile_outs sub p ops) (souts sub (p_types p) (p_strict p) l ops).
  Proof.
    induction ops as [|o t IH]; intros p l Hr; simpl; [constructor|].
    pose proof (pile_step_refines p l o Hr) as Hs.
    destruct (step p o) as [p' v]. destruct (sstep sub (p_types p) (p_strict p) l o) as [l' s].
    destruct Hs as [H1 [H2 [H3 H4]]]. simpl. constructor; [exact H4|].
    specialize (IH p' l' H1). rewrite H2, H3 in IH. exact IH.
  Qed.

  (** Failing operations change nothing (on represented piles). *)
  Lemma sstep_raise : forall ty st l o e, snd (sstep sub ty st l o) = Raise e ->
    fst (sstep sub ty st l o) = l.
  Proof.
    intros ty st l o e He.
    destruct o; try (destruct o); simpl in *;
      repeat match type of He with
             | context [match ?x with _ => _ end] => destruct x; simpl in *
             end; try discriminate; try reflexivity.
  Qed.

  Theorem raise_unchanged : forall p l o e, rep p l ->
    snd (step p o) = Raise e -> fst (step p o) = p.
  Proof.
    intros p l o e Hr He. destruct o; try reflexivity; simpl in *;
      unfold pile_add, pile_remove, pile_pop, pile_update, pile_clear,
             pile_include, pile_exclude, pile_remove in *.
    - destruct (validate_type sub p o); [|reflexivity].
      destruct (dmem _ _); [reflexivity | discriminate].
    - destruct (coerce_id r) as [u|]; [|reflexivity].
      rewrite (rep_dget p l u Hr) in *. destruct (sget l u) as [x|] eqn:Eg; [|reflexivity].
      destruct (rep_del p l u x Hr Eg) as [o' [H1 _]]. rewrite H1 in He. discriminate.
    - destruct (coerce_id r) as [u|]; [|reflexivity].
      rewrite (rep_dget p l u Hr) in *. destruct (sget l u) as [x|] eqn:Eg.
      + destruct (rep_del p l u x Hr Eg) as [o' [H1 _]]. rewrite H1 in He. discriminate.
      + destruct d; reflexivity.
    - destruct (validate_type sub p o); [|reflexivity].
      destruct (dmem _ _); [discriminate | reflexivity].
    - discriminate.
    - exfalso. destruct o as [x|[u|]];
        repeat match type of He with
               | context [match ?x with _ => _ end] => destruct x; simpl in *
               end; try discriminate.
    - exfalso. repeat match type of He with
               | context [match ?x with _ => _ end] => destruct x; simpl in *
               end; try discriminate.
  Qed.

  (** Construction. *)
  Lemma add_all_rep : forall os q q' l, rep q l -> add_all sub q os = Ret q' ->
    exists xs, os = map OElem xs /\ rep q' (l ++ xs) /\
      p_types q' = p_types q /\ p_strict q' = p_strict q.
  Proof.
    induction os as [|o t IH]; intros q q' l Hr Ha; simpl in *.
    - inversion Ha; subst. exists []; rewrite app_nil_r; auto.
    - pose proof (pile_step_refines q l (PAdd o) Hr) as Hs. simpl in Hs.
      destruct (pile_add sub q o) as [q1 [v|e]] eqn:Eadd; [|discriminate].
      destruct o as [x|oid].
      + destruct (negb (allowedb sub (p_types q) (p_strict q) x)); simpl in Hs;
          [destruct Hs as [_ [_ [_ Hs]]]; destruct v; contradiction|].
        destruct (shas l (iid x)); simpl in Hs;
          [destruct Hs as [_ [_ [_ Hs]]]; destruct v; contradiction|].
        destruct Hs as [H1 [H2 [H3 _]]]. destruct (IH q1 q' _ H1 Ha) as [xs [H4 [H5 [H6 H7]]]].
        exists (x :: xs). subst t. rewrite <- app_assoc in H5. simpl in *.
        split; [reflexivity|]. split; [exact H5|]. split; congruence.
      + destruct Hs as [_ [_ [_ Hs]]]; destruct v; contradiction.
  Qed.

  Lemma arg_ids_elems : forall xs, arg_ids (map OElem xs) = map iid xs.
  Proof. induction xs; simpl; [reflexivity | unfold arg_ids in *; simpl; congruence]. Qed.

  Lemma perm_ids : forall o2 l2, Permutation o2 (map iid l2) ->
    exists l3, Permutation l3 l2 /\ map iid l3 = o2.
  Proof.
    intros o2 l2 Hp. apply Permutation_map_inv in Hp. destruct Hp as [l3 [H1 H2]].
    exists l3; split; [apply Permutation_sym; exact H2 | symmetry; exact H1].
  Qed.

  Theorem new_rep : forall ty st os order p,
    pile_new sub ty st os order = Ret p ->
    order = [] \/ Permutation order (arg_ids os) ->
    exists xs l, os = map OElem xs /\ Permutation l xs /\ (order = [] -> l = xs) /\
      (order <> [] -> map iid l = order) /\ rep p l /\ p_types p = ty /\ p_strict p = st.
  Proof.
    intros ty st os order p Hn Hord. unfold pile_new in Hn.
    destruct (add_all sub (Pile [] [] ty st) os) as [q|e] eqn:Ea; simpl in Hn; [|discriminate].
    destruct (add_all_rep os (pile_empty ty st) q [] (rep_empty _ _) Ea)
      as [xs [Hos [Hr [Ht1 Ht2]]]]. simpl in *. exists xs.
    destruct order as [|u us].
    - inversion Hn; subst. exists xs. repeat split; auto; try congruence; apply Hr.
    - destruct Hord as [Hord|Hord]; [discriminate|].
      destruct (forallb (fun u0 => dmem u0 (p_items q)) (u :: us)); [|discriminate].
      inversion Hn; subst. rewrite arg_ids_elems in Hord.
      destruct (perm_ids _ _ Hord) as [l3 [Hp Hm]]. exists l3.
      split; [reflexivity|]. split; [exact Hp|]. split; [discriminate|].
      split; [intros _; exact Hm|]. split; [|auto].
      destruct Hr as (Ho & Hnd & Hg & Hk & Hd & Hal). unfold rep; simpl.
      split; [symmetry; exact Hm|]. split.
      { apply (Permutation_NoDup (Permutation_map iid (Permutation_sym Hp))); exact Hnd. }
      split; [intros x Hx; apply Hg; apply (Permutation_in x Hp); exact Hx|].
      split. { intros v. rewrite Hk. split; intros Hi.
               - apply (Permutation_in v (Permutation_map iid (Permutation_sym Hp))); exact Hi.
               - apply (Permutation_in v (Permutation_map iid Hp)); exact Hi. }
      split; [exact Hd|]. apply Forall_forall. intros x Hx.
      rewrite Forall_forall in Hal. apply Hal. apply (Permutation_in x Hp); exact Hx.
  Qed.

  Theorem reachable_rep : forall p, reachable sub p -> exists l, rep p l.
  Proof.
    intros p (ty & st & os & ord & p0 & ops & H1 & H2 & ->).
    destruct (new_rep _ _ _ _ _ H1 H2) as (xs & l & _ & _ & _ & _ & Hr & _).
    eexists. apply (pile_run_refines ops p0 l Hr).
  Qed.

  Theorem reachable_coherent : forall p, reachable sub p -> coherent p.
  Proof. intros p Hp. destruct (reachable_rep p Hp) as [l Hl]. eapply rep_coherent; eauto. Qed.

  Theorem reachable_iter_rep : forall p l, reachable sub p -> pile_iter p = Ret l -> rep p l.
  Proof.
    intros p l Hp Hi. destruct (reachable_rep p Hp) as [l' Hl].
    rewrite (rep_iter p l' Hl) in Hi. inversion Hi; subst; exact Hl.
  Qed.

  Theorem history_refines : forall ty st os ord p0 ops,
    pile_new sub ty st os ord = Ret p0 ->
    ord = [] \/ Permutation ord (arg_ids os) ->
    exists l0, Permutation (map OElem l0) os /\ (ord = [] -> map OElem l0 = os) /\
      (ord <> [] -> map iid l0 = ord) /\
      Forall2 (fun v s => agrees v s ty st) (pile_outs sub p0 ops) (souts sub ty st l0 ops) /\
      pile_iter (pile_run sub p0 ops) = Ret (srun sub ty st l0 ops).
  Proof.
    intros ty st os ord p0 ops H1 H2.
    destruct (new_rep _ _ _ _ _ H1 H2) as (xs & l & Hos & Hp & Ho1 & Ho2 & Hr & Ht & Hs).
    exists l. split; [subst os; apply Permutation_map; exact Hp|].
    split; [intros He; rewrite (Ho1 He); symmetry; exact Hos|]. split; [exact Ho2|].
    subst ty st. split.
    - apply pile_outs_refine; exact Hr.
    - apply rep_iter. apply pile_run_refines; exact Hr.
  Qed.

  Theorem reachable_raise_unchanged : forall p o e, reachable sub p ->
    snd (step p o) = Raise e -> fst (step p o) = p.
  Proof.
    intros p o e Hp. destruct (reachable_rep p Hp) as [l Hl]. eapply raise_unchanged; eauto.
  Qed.

  Theorem reachable_allowed : forall p l x, reachable sub p ->
    pile_iter p = Ret l -> In x l -> allowed sub (p_types p) (p_strict p) x.
  Proof.
    intros p l x Hp Hi Hx. eapply rep_allowed_In; eauto. apply reachable_iter_rep; eauto.
  Qed.

  Theorem stored_allowed : forall p u x d, reachable sub p ->
    pile_get p (RId u) d = Ret (VItem x) -> iid x = u /\ allowed sub (p_types p) (p_strict p) x.
  Proof.
    intros p u x d Hp Hg. destruct (reachable_rep p Hp) as [l Hl].
    unfold pile_get in Hg; simpl in Hg. rewrite (rep_dget p l u Hl) in Hg.
    destruct (sget l u) eqn:E; [|destruct d; discriminate].
    inversion Hg; subst. apply sget_Some in E. destruct E as [E1 E2].
    split; [exact E2|]. eapply rep_allowed_In; eauto.
  Qed.

  Theorem config_stable : forall p ops,
    p_types (pile_run sub p ops) = p_types p /\ p_strict (pile_run sub p ops) = p_strict p.
  Proof.
    intros p ops; revert p; induction ops as [|o t IH]; intros p; simpl; [auto|].
    assert (Hc : p_types (fst (step p o)) = p_types p /\ p_strict (fst (step p o)) = p_strict p).
    { destruct o; simpl; auto;
        unfold pile_add, pile_remove, pile_pop, pile_update, pile_include, pile_exclude;
        repeat match goal with
               | |- context [match ?x with _ => _ end] => destruct x eqn:?; simpl; auto
               end;
        unfold pile_add, pile_remove in *;
        repeat match goal with
               | H : context [match ?x with _ => _ end] |- _ => destruct x; simpl in *; auto
               | H : (_, _) = (_, _) |- _ => inversion H; subst; clear H; simpl; auto
               end. }
    destruct Hc as [H1 H2]. rewrite <- H1, <- H2. apply IH.
  Qed.

  Theorem disallowed_rejected : forall p x,
    ~ allowed sub (p_types p) (p_strict p) x ->
    step p (PAdd (OElem x)) = (p, Raise TypeError) /\
    step p (PUpdate (OElem x)) = (p, Raise TypeError) /\
    fst (step p (PInclude (OElem x))) = p.
  Proof.
    intros p x Hx. assert (Hb : allowedb sub (p_types p) (p_strict p) x = false).
    { destruct (allowedb sub (p_types p) (p_strict p) x) eqn:E; [|reflexivity].
      exfalso; apply Hx, allowedb_spec; exact E. }
    simpl. unfold pile_include, pile_add, pile_update. rewrite validate_elem, Hb.
    repeat split. destruct (dmem _ _); reflexivity.
  Qed.

  (** The constructor's [order] argument. *)
  Theorem order_coherent_iff : forall ty st os ord p,
    pile_new sub ty st os ord = Ret p ->
    (coherent p <-> ord = [] \/ Permutation ord (arg_ids os)).
  Proof.
    intros ty st os ord p Hn. split.
    - intros (xs & Hi & Hm & Hnd & Hlen & Hmem). destruct ord as [|u us]; [left; reflexivity|].
      right. unfold pile_new in Hn.
      destruct (add_all sub (Pile [] [] ty st) os) as [q|e] eqn:Ea; simpl in Hn; [|discriminate].
      destruct (add_all_rep os (pile_empty ty st) q [] (rep_empty _ _) Ea)
        as [ys [Hos [Hr _]]]. simpl in Hr. subst os. rewrite arg_ids_elems.
      destruct (dmem u (p_items q) && forallb (fun u0 => dmem u0 (p_items q)) us) eqn:Ef;
        [|discriminate].
      inversion Hn; subst p; clear Hn. unfold pile_keys in *; simpl in *.
      destruct Hr as (_ & Hn1 & _ & Hk & _).
      apply NoDup_Permutation; [exact Hnd | exact Hn1|].
      intros v. rewrite <- Hk, <- Hm, <- Hmem. unfold pile_contains; simpl. apply dmem_true.
    - intros Hord. destruct (new_rep _ _ _ _ _ Hn Hord) as (xs & l & _ & _ & _ & _ & Hr & _).
      eapply rep_coherent; eauto.
  Qed.

  Theorem order_unknown_rejected : forall ty st os ord p0 u,
    pile_new sub ty st os [] = Ret p0 -> In u ord -> ~ In u (arg_ids os) ->
    pile_new sub ty st os ord = Raise NotFoundError.
  Proof.
    intros ty st os ord p0 u Hn Hu Hni. unfold pile_new in *.
    destruct (add_all sub (Pile [] [] ty st) os) as [q|e] eqn:Ea; simpl in *; [|discriminate].
    destruct (add_all_rep os (pile_empty ty st) q [] (rep_empty _ _) Ea)
      as [ys [Hos [Hr _]]]. simpl in Hr. subst os. rewrite arg_ids_elems in Hni.
    destruct ord as [|v vs]; [contradiction|].
    destruct (forallb (fun u0 => dmem u0 (p_items q)) (v :: vs)) eqn:Ef; [|reflexivity].
    exfalso. rewrite forallb_forall in Ef. apply Ef in Hu. apply dmem_true in Hu.
    destruct Hr as (_ & _ & _ & Hk & _). apply Hni, Hk; exact Hu.
  Qed.

  (** Queries, spelled out. *)
  Lemma agrees_pile : forall v xs ty st, agrees v (Ret (SPile xs)) ty st ->
    exists q, v = Ret (VPile q) /\ coherent q /\ pile_iter q = Ret xs /\
              p_types q = ty /\ p_strict q = st.
  Proof.
    intros v xs ty st Ha. destruct v as [[]|]; simpl in Ha; try contradiction.
    exists p; tauto.
  Qed.

  Lemma query_result : forall p l o xs, reachable sub p -> pile_iter p = Ret l ->
    sstep sub (p_types p) (p_strict p) l o = (l, Ret (SPile xs)) ->
    exists q, snd (step p o) = Ret (VPile q) /\ new_pile_over p q xs.
  Proof.
    intros p l o xs Hp Hi Hs. pose proof (pile_step_refines p l o (reachable_iter_rep p l Hp Hi)) as H.
    rewrite Hs in H. destruct (step p o) as [p' v]. destruct H as [_ [_ [_ H]]].
    apply agrees_pile in H. exact H.
  Qed.

  Lemma query_raise : forall p l o e, reachable sub p -> pile_iter p = Ret l ->
    sstep sub (p_types p) (p_strict p) l o = (l, Raise e) ->
    snd (step p o) = Raise e.
  Proof.
    intros p l o e Hp Hi Hs. pose proof (pile_step_refines p l o (reachable_iter_rep p l Hp Hi)) as H.
    rewrite Hs in H. destruct (step p o) as [p' v]. destruct H as [_ [_ [_ H]]].
    simpl. destruct v as [[]|]; simpl in H; try contradiction. congruence.
  Qed.

  Theorem q_fun : forall p l f, reachable sub p -> pile_iter p = Ret l ->
    exists q, snd (step p (PByFun f)) = Ret (VPile q) /\ new_pile_over p q (filter f l).
  Proof. intros p l f Hp Hi. eapply query_result; eauto. Qed.

  Theorem q_slice : forall p l a b c s, reachable sub p -> pile_iter p = Ret l ->
    s = match c with None => 1%Z | Some z => z end -> s <> 0%Z ->
    exists q ps, snd (step p (PSlice a b c)) = Ret (VPile q) /\ new_pile_over p q (select l ps) /\
      (forall k, In k ps <-> slice_selects (Z.of_nat (length l)) a b s (Z.of_nat k)) /\
      Sorted.StronglySorted (fun x y => if (0 <? s)%Z then x < y else y < x) ps.
  Proof.
    intros p l a b c s Hp Hi -> Hs.
    set (s := match c with None => 1%Z | Some z => z end) in *.
    destruct (slice_positions (length l) a b (Some s)) as [ps|] eqn:Ep.
    - destruct (query_result p l (PSlice a b c) (select l ps) Hp Hi) as [q [H1 H2]].
      { simpl. rewrite slice_positions_step. fold s. rewrite Ep. reflexivity. }
      exists q, ps. split; [exact H1|]. split; [exact H2|]. split.
      + apply slice_positions_In; exact Ep.
      + eapply slice_positions_sorted; eauto.
    - exfalso. unfold slice_positions in Ep. destruct (s =? 0)%Z eqn:E; [lia | discriminate].
  Qed.

  Theorem q_keys_ids : forall p l us, reachable sub p -> pile_iter p = Ret l -> us <> [] ->
    (forall xs, Forall2 (fun u x => In x l /\ iid x = u) us xs -> NoDup us ->
       exists q, snd (step p (PByList (map (fun u => LId (RId u)) us))) = Ret (VPile q) /\
                 new_pile_over p q xs) /\
    (~ incl us (map iid l) ->
       snd (step p (PByList (map (fun u => LId (RId u)) us))) = Raise NotFoundError) /\
    (incl us (map iid l) -> ~ NoDup us ->
       snd (step p (PByList (map (fun u => LId (RId u)) us))) = Raise ExistsError).
  Proof.
    intros p l us Hp Hi Hne.
    assert (Hr : rep p l) by (apply reachable_iter_rep; auto).
    assert (Hk : skeys l (map (fun u => LId (RId u)) us) =
                 seqo (map (fun u => opt_or (sget l u) NotFoundError) us)).
    { unfold skeys. destruct us as [|u t]; [congruence|]. simpl map at 1.
      cbn [map]. replace (forallb _ _) with true; [|].
      - simpl. rewrite map_map. reflexivity.
      - symmetry. simpl. apply forallb_forall. intros k Hk. apply in_map_iff in Hk.
        destruct Hk as [v [<- _]]. reflexivity. }
    assert (Hin : forall us0 xs, Forall2 (fun u x => In x l /\ iid x = u) us0 xs ->
              seqo (map (fun u => opt_or (sget l u) NotFoundError) us0) = Ret xs /\
              map iid xs = us0).
    { clear us Hne Hk. intros us xs Hf. induction Hf as [|u x us xs [Hx He] Hf [IH1 IH2]];
        [auto|]. simpl. rewrite <- (rep_dget p l u Hr).
      destruct Hr as (_ & _ & Hg & _). rewrite <- He, (Hg x Hx). simpl.
      rewrite IH1. split; [reflexivity | congruence]. }
    assert (Hex : incl us (map iid l) ->
              exists xs, Forall2 (fun u x => In x l /\ iid x = u) us xs).
    { clear -l. induction us as [|u t IH]; intros Hin.
      - exists []; constructor.
      - destruct IH as [xs Hxs]. { intros v Hv; apply Hin; right; exact Hv. }
        pose proof (Hin u (or_introl eq_refl)) as Hu. apply in_map_iff in Hu.
        destruct Hu as [x [Hx1 Hx2]]. exists (x :: xs). constructor; auto. }
    split; [|split].
    - intros xs Hf Hnd. destruct (Hin us xs Hf) as [H1 H2].
      apply query_result with (l := l); auto. simpl. rewrite Hk, H1. simpl.
      unfold snew. rewrite H2. rewrite (proj2 (distinct_NoDup us) Hnd). reflexivity.
    - intros Hni. apply query_raise with (l := l); auto. simpl. rewrite Hk.
      replace (seqo (map (fun u => opt_or (sget l u) NotFoundError) us))
        with (@Raise (list item) NotFoundError); [reflexivity|].
      clear -Hni. induction us as [|u t IH]; [exfalso; apply Hni; intros v []|].
      simpl. destruct (sget l u) eqn:E; simpl; [|reflexivity].
      rewrite <- IH; [reflexivity|]. intros Hc; apply Hni. intros v [<-|Hv]; [|auto].
      apply sget_Some in E. apply in_map_iff; exists i; tauto.
    - intros Hi' Hnd. destruct (Hex Hi') as [xs Hf]. destruct (Hin us xs Hf) as [H1 H2].
      apply query_raise with (l := l); auto. simpl. rewrite Hk, H1. simpl.
      unfold snew. rewrite H2. destruct (distinct us) eqn:E; [|reflexivity].
      exfalso. apply Hnd, distinct_NoDup; exact E.
  Qed.

  Theorem q_prog : forall p l us, reachable sub p -> pile_iter p = Ret l ->
    (forall xs, Forall2 (fun u x => In x l /\ iid x = u) us xs -> NoDup us ->
       exists q, snd (step p (PByProg us)) = Ret (VPile q) /\ new_pile_over p q xs) /\
    (~ incl us (map iid l) -> snd (step p (PByProg us)) = Raise NotFoundError) /\
    (incl us (map iid l) -> ~ NoDup us -> snd (step p (PByProg us)) = Raise ExistsError).
  Proof.
    intros p l us Hp Hi.
    assert (Hr : rep p l) by (apply reachable_iter_rep; auto).
    assert (Hall : incl us (map iid l) -> forallb (shas l) us = true).
    { intros H. apply forallb_forall. intros u Hu. apply shas_In; auto. }
    assert (Hin : forall us0 xs, Forall2 (fun u x => In x l /\ iid x = u) us0 xs ->
              seqo (map (fun u => opt_or (sget l u) KeyError) us0) = Ret xs /\
              map iid xs = us0 /\ incl us0 (map iid l)).
    { clear us Hall. intros us xs Hf. induction Hf as [|u x us xs [Hx He] Hf [IH1 [IH2 IH3]]].
      - simpl; split; [reflexivity|]; split; [reflexivity | intros v []].
      - simpl. rewrite <- (rep_dget p l u Hr).
        destruct Hr as (_ & _ & Hg & _). rewrite <- He, (Hg x Hx). simpl.
        rewrite IH1. split; [reflexivity|]. split; [congruence|].
        intros v [<-|Hv]; [apply in_map; exact Hx | auto]. }
    assert (Hex : incl us (map iid l) ->
              exists xs, Forall2 (fun u x => In x l /\ iid x = u) us xs).
    { clear -l. induction us as [|u t IH]; intros Hin.
      - exists []; constructor.
      - destruct IH as [xs Hxs]. { intros v Hv; apply Hin; right; exact Hv. }
        pose proof (Hin u (or_introl eq_refl)) as Hu. apply in_map_iff in Hu.
        destruct Hu as [x [Hx1 Hx2]]. exists (x :: xs). constructor; auto. }
    split; [|split].
    - intros xs Hf Hnd. destruct (Hin us xs Hf) as [H1 [H2 H3]].
      apply query_result with (l := l); auto. cbn [sstep]. rewrite (Hall H3), H1. simpl.
      unfold snew. rewrite H2. rewrite (proj2 (distinct_NoDup us) Hnd). reflexivity.
    - intros Hni. apply query_raise with (l := l); auto. cbn [sstep].
      destruct (forallb (shas l) us) eqn:E; [|reflexivity]. exfalso; apply Hni.
      intros u Hu. rewrite forallb_forall in E. apply shas_In; auto.
    - intros Hi' Hnd. destruct (Hex Hi') as [xs Hf]. destruct (Hin us xs Hf) as [H1 [H2 H3]].
      apply query_raise with (l := l); auto. cbn [sstep]. rewrite (Hall H3), H1. simpl.
      unfold snew. rewrite H2. destruct (distinct us) eqn:E; [|reflexivity].
      exfalso. apply Hnd, distinct_NoDup; exact E.
  Qed.

  Theorem q_keys_ints : forall p l zs xs, reachable sub p -> pile_iter p = Ret l -> zs <> [] ->
    Forall2 (fun z x => exists k, denotes (length l) z k /\ nth_error l k = Some x) zs xs ->
    (NoDup xs -> exists q, snd (step p (PByList (map LInt zs))) = Ret (VPile q) /\
                           new_pile_over p q xs) /\
    (~ NoDup xs -> snd (step p (PByList (map LInt zs))) = Raise ExistsError).
  Proof.
    intros p l zs xs Hp Hi Hne Hf.
    assert (Hr : rep p l) by (apply reachable_iter_rep; auto).
    assert (Hk : skeys l (map LInt zs) = seqo (map (py_get l) zs)).
    { unfold skeys. destruct zs as [|z t]; [congruence|]. cbn [map].
      replace (forallb _ _) with true.
      - simpl. rewrite map_map. reflexivity.
      - symmetry. simpl. apply forallb_forall. intros k Hk. apply in_map_iff in Hk.
        destruct Hk as [v [<- _]]. reflexivity. }
    assert (Hin : seqo (map (py_get l) zs) = Ret xs /\ incl xs l).
    { clear -Hf. induction Hf as [|z x zs xs [k [Hd Hn]] Hf [IH1 IH2]].
      - simpl; split; [reflexivity | intros v []].
      - simpl. replace (py_get l z) with (Ret x).
        + rewrite IH1. split; [reflexivity|]. intros v [<-|Hv]; [|auto].
          eapply nth_error_In; eauto.
        + unfold py_get. replace (norm_index (length l) z) with (Some k).
          * rewrite Hn; reflexivity.
          * unfold norm_index. destruct Hd as [H1 [[H2 H3]|[H2 H3]]].
            -- replace (z <? 0)%Z with false by lia.
               replace ((z <? 0) || (Z.of_nat (length l) <=? z))%Z with false by lia.
               f_equal; lia.
            -- replace (z <? 0)%Z with true by lia.
               replace ((z + Z.of_nat (length l) <? 0) ||
                        (Z.of_nat (length l) <=? z + Z.of_nat (length l)))%Z with false by lia.
               f_equal; lia. }
    destruct Hin as [H1 H2].
    assert (Hids : NoDup xs <-> NoDup (map iid xs)).
    { destruct Hr as (_ & Hnd & _). split.
      - clear -H2 Hnd. intros Hn. induction Hn as [|x t Hx Ht IH]; simpl; constructor.
        + intros Hc. apply in_map_iff in Hc. destruct Hc as [y [He Hy]].
          assert (y = x); [|subst; contradiction].
          assert (Hyl : In y l) by (apply H2; right; exact Hy).
          assert (Hxl : In x l) by (apply H2; left; reflexivity).
          clear -Hnd He Hyl Hxl. induction l as [|z l IH]; [contradiction|].
          simpl in Hnd. inversion Hnd as [|? ? Ha Hb]; subst.
          destruct Hyl as [->|Hyl], Hxl as [->|Hxl]; auto.
          * exfalso; apply Ha. rewrite He. apply in_map; exact Hxl.
          * exfalso; apply Ha. rewrite <- He. apply in_map; exact Hyl.
        + apply IH. intros y Hy; apply H2; right; exact Hy.
      - apply NoDup_map_inv. }
    split; intros Hd.
    - apply query_result with (l := l); auto. cbn [sstep]. rewrite Hk, H1. simpl.
      unfold snew. rewrite (proj2 (distinct_NoDup _) (proj1 Hids Hd)). reflexivity.
    - apply query_raise with (l := l); auto. cbn [sstep]. rewrite Hk, H1. simpl.
      unfold snew. destruct (distinct (map iid xs)) eqn:E; [|reflexivity].
      exfalso; apply Hd, Hids, distinct_NoDup; exact E.
  Qed.

  Theorem q_type : forall p l ts ys, reachable sub p -> pile_iter p = Ret l ->
    ys = filter (fun x => existsb (fun t => sub (icls x) t) ts) l ->
    type_query_ok sub (p_types p) (p_strict p) ts = true ->
    (ys <> [] -> exists q, snd (step p (PByType ts)) = Ret (VPile q) /\ new_pile_over p q ys) /\
    (ys = [] -> snd (step p (PByType ts)) = Raise NotFoundError).
  Proof.
    intros p l ts ys Hp Hi Hy Hok. split; intros He.
    - apply query_result with (l := l); auto. cbn [sstep]. rewrite Hok, <- Hy.
      destruct ys; [congruence | reflexivity].
    - apply query_raise with (l := l); auto. cbn [sstep]. rewrite Hok, <- Hy, He. reflexivity.
  Qed.

  (** Queries never modify the source, in any state. *)
  Theorem q_pure : forall p o,
    match o with PSlice _ _ _ | PByProg _ | PByList _ | PByFun _ | PByType _
               | PGet _ _ | PContains _ | PLen | PIter | PKeys | PAt _ | PEmpty => True
               | _ => False end ->
    fst (step p o) = p.
  Proof. intros p o Ho. destruct o; simpl in *; try contradiction; reflexivity. Qed.
End Proofs.
