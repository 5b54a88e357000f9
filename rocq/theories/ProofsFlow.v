(** Proofs about ModelFlow. *)
From Coq Require Import String.
From Coq Require Import List ZArith Bool Lia Arith.
From Verif Require Import PyBase PyFacts ModelProgression ModelPile SpecPile ProofsPile
  ModelFlow SpecFlow.
Import ListNotations.
#[local] Arguments eqb : simpl never.

Section P.
  Variable sub : cls -> cls -> bool.
  Notation step := (flow_step sub).

  (** Base invariant: well-formed stores. *)
  Record Base (f : flow) : Prop := {
    b_items : exists l, rep sub (f_items f) l;
    b_nodup : NoDup (dkeys (f_progs f));
    b_ids : forall u p, dget u (f_progs f) = Some p -> pg_id p = u
  }.

  (** Name index exact. *)
  Record Names (f : flow) : Prop := {
    n_nodup : NoDup (dkeys (f_names f));
    n_exact : forall s u, dget s (f_names f) = Some u <->
                exists p, dget u (f_progs f) = Some p /\ truthy_name (pg_name p) = Some s
  }.

  Definition Refs (f : flow) : Prop :=
    forall u p v, dget u (f_progs f) = Some p -> In v (pg_order p) ->
                  dmem v (p_items (f_items f)) = true.

  Lemma truthy_carries : forall p s, truthy_name (pg_name p) = Some s <-> carries p s.
  Proof.
    intros p s; unfold truthy_name, carries. destruct (pg_name p) as [n|].
    - destruct (String.eqb_spec n "") as [E|E].
      + subst. split; [discriminate | intros [H1 H2]; congruence].
      + split; [intros H; inversion H; subst; auto | intros [H1 H2]; congruence].
    - split; [discriminate | intros [H _]; discriminate].
  Qed.

  Lemma held_dget : forall f p, NoDup (dkeys (f_progs f)) ->
    (held f p <-> exists u, dget u (f_progs f) = Some p).
  Proof.
    intros f p Hn. unfold held, dvals. rewrite in_map_iff. split.
    - intros [[u q] [Hq Hi]]. simpl in Hq; subst q. exists u. apply In_dget; assumption.
    - intros [u Hu]. exists (u, p). split; [reflexivity | apply dget_In; exact Hu].
  Qed.

  Lemma missing_refs_spec : forall f p, (exists l, rep sub (f_items f) l) ->
    (missing_refs f p = false <-> forall u, In u (pg_order p) -> dmem u (p_items (f_items f)) = true).
  Proof.
    intros f p [l Hl]. unfold missing_refs.
    assert (Hk : forall u, memb u (pile_keys (f_items f)) = dmem u (p_items (f_items f))).
    { intros u. rewrite (rep_dmem sub _ _ u Hl). destruct Hl as [Ho _].
      unfold pile_keys. rewrite Ho.
      destruct (shas l u) eqn:E.
      - apply memb_In. apply shas_In; exact E.
      - destruct (memb u (map iid l)) eqn:E2; [|reflexivity].
        apply memb_In, shas_In in E2. congruence. }
    split.
    - intros Hf u Hu. rewrite <- Hk.
      destruct (memb u (pile_keys (f_items f))) eqn:E; [reflexivity|].
      exfalso. assert (true = false); [|discriminate]. rewrite <- Hf. symmetry.
      apply existsb_exists. exists u. rewrite E. auto.
    - intros Ha. destruct (existsb _ _) eqn:E; [|reflexivity].
      apply existsb_exists in E. destruct E as [u [Hu Hn]].
      rewrite Hk, (Ha u Hu) in Hn. discriminate.
  Qed.

  (** Mapping over the values of the progression dict. *)
  Lemma dget_map_vals : forall (g : prog -> prog) (d : dict uuid prog) u,
    dget u (map (fun kv => (fst kv, g (snd kv))) d) = option_map g (dget u d).
  Proof.
    intros g d u; induction d as [|[k v] t IH]; simpl; [reflexivity|].
    destruct (eqb_spec u k); [reflexivity | exact IH].
  Qed.

  Lemma dkeys_map_vals : forall (g : prog -> prog) (d : dict uuid prog),
    dkeys (map (fun kv => (fst kv, g (snd kv))) d) = dkeys d.
  Proof. intros g d; unfold dkeys; rewrite map_map; apply map_ext; reflexivity. Qed.

  Lemma strip_id : forall u p, pg_id (strip u p) = pg_id p.
  Proof. intros; unfold strip; destruct (remove_first _ _); reflexivity. Qed.
  Lemma strip_name : forall u p, pg_name (strip u p) = pg_name p.
  Proof. intros; unfold strip; destruct (remove_first _ _); reflexivity. Qed.

  (** Replacing a progression by one with the same id and name. *)
  Lemma Base_reprog : forall f u p q, Base f -> dget u (f_progs f) = Some p ->
    pg_id q = pg_id p -> Base (set_progs f (dset u q (f_progs f))).
  Proof.
    intros f u p q [H1 H2 H3] Hu Hq. constructor; simpl; auto.
    - apply dkeys_dset_NoDup; exact H2.
    - intros v r Hv. rewrite dget_dset in Hv. destruct (eqb_spec v u).
      + inversion Hv; subst. rewrite Hq. apply H3; exact Hu.
      + apply H3; exact Hv.
  Qed.

  Lemma Names_reprog : forall f u p q, Names f -> dget u (f_progs f) = Some p ->
    pg_name q = pg_name p -> Names (set_progs f (dset u q (f_progs f))).
  Proof.
    intros f u p q [H1 H2] Hu Hq. constructor; simpl; auto.
    intros s v. rewrite H2. rewrite dget_dset. destruct (eqb_spec v u).
    - subst v. split.
      + intros [r [Hr Hs]]. exists q. rewrite Hu in Hr. inversion Hr; subst.
        rewrite Hq; auto.
      + intros [r [Hr Hs]]. inversion Hr; subst. exists p. rewrite <- Hq; auto.
    - reflexivity.
  Qed.

  Lemma Refs_reprog : forall f u p q, Refs f -> dget u (f_progs f) = Some p ->
    (forall v, In v (pg_order q) -> dmem v (p_items (f_items f)) = true) ->
    Refs (set_progs f (dset u q (f_progs f))).
  Proof.
    intros f u p q Hr Hu Hq v r w Hv Hw. simpl in *. rewrite dget_dset in Hv.
    destruct (eqb_spec v u); [inversion Hv; subst; auto | eapply Hr; eauto].
  Qed.

  (** What a successful lookup gives. *)
  Lemma get_prog_found : forall f r p, get_progression f r = Ret (FProgV p) ->
    exists u, dget u (f_progs f) = Some p.
  Proof.
    intros f r p H. destruct r as [s parsed|u|q st]; simpl in H.
    - destruct (dget s (f_names f)) as [u|].
      + destruct (dget u (f_progs f)) eqn:E; inversion H; subst; eauto.
      + destruct parsed as [u|]; [|discriminate].
        destruct (dget u (f_progs f)) eqn:E; inversion H; subst; eauto.
    - destruct (dget u (f_progs f)) eqn:E; inversion H; subst; eauto.
    - exfalso. unfold filter_progs in H. destruct (existsb _ _); [discriminate|].
      match type of H with ?F [] ?l = _ =>
        assert (G : forall ps seen, F seen ps <> Ret (FProgV p)) end.
      { induction ps as [|a t IH]; intros seen; simpl; [discriminate|].
        destruct (memb _ _); [discriminate | apply IH]. }
      eapply G; eauto.
  Qed.

  Lemma attach_inv : forall f u r, Base f -> Names f ->
    Base (fst (attach f u r)) /\ Names (fst (attach f u r)) /\
    f_items (fst (attach f u r)) = f_items f /\
    (Refs f -> dmem u (p_items (f_items f)) = true -> Refs (fst (attach f u r))).
  Proof.
    intros f u r Hb Hn.
    assert (Hgo : forall k p, dget k (f_progs f) = Some p ->
      let f' := set_progs f (dset k (append_to u p) (f_progs f)) in
      Base f' /\ Names f' /\ f_items f' = f_items f /\
      (Refs f -> dmem u (p_items (f_items f)) = true -> Refs f')).
    { intros k p Hk. split; [|split; [|split]].
      - eapply Base_reprog; eauto.
      - eapply Names_reprog; eauto.
      - reflexivity.
      - intros Hr Hm. eapply Refs_reprog; eauto. intros v Hv. simpl in Hv.
        apply in_app_or in Hv. destruct Hv as [Hv|[<-|[]]]; [|exact Hm].
        eapply Hr; eauto. }
    assert (Hget : match get_progression f r with
      | Ret (FProgV p) =>
          let f' := set_progs f (dset (pg_id p) (append_to u p) (f_progs f)) in
          Base f' /\ Names f' /\ f_items f' = f_items f /\
          (Refs f -> dmem u (p_items (f_items f)) = true -> Refs f')
      | _ => True end).
    { destruct (get_progression f r) as [[]|] eqn:E; auto.
      apply get_prog_found in E. destruct E as [k Hk].
      rewrite (b_ids f Hb k p Hk). apply Hgo; exact Hk. }
    destruct r as [s parsed|k|p st]; unfold attach.
    - destruct (get_progression f (FStr s parsed)) as [[]|]; simpl; auto.
    - destruct (get_progression f (FId k)) as [[]|]; simpl; auto.
    - destruct st; simpl; auto. destruct (dget (pg_id p) (f_progs f)) as [q|] eqn:E; simpl; auto.
      apply Hgo; exact E.
  Qed.

  Lemma attach_all_inv : forall rs f u, Base f -> Names f ->
    Base (fst (attach_all f u rs)) /\ Names (fst (attach_all f u rs)) /\
    f_items (fst (attach_all f u rs)) = f_items f /\
    (Refs f -> dmem u (p_items (f_items f)) = true -> Refs (fst (attach_all f u rs))).
  Proof.
    induction rs as [|r t IH]; intros f u Hb Hn; simpl; [auto|].
    pose proof (attach_inv f u r Hb Hn) as (H1 & H2 & H3 & H4).
    destruct (attach f u r) as [f' [v|e]]; simpl in *; [|auto].
    destruct (IH f' u H1 H2) as (G1 & G2 & G3 & G4).
    split; [exact G1|]. split; [exact G2|]. split; [congruence|].
    intros Hr Hm. apply G4; auto. rewrite H3; exact Hm.
  Qed.

  Lemma pile_add_mono : forall p l o p' v, rep sub p l -> pile_add sub p o = (p', Ret v) ->
    exists x l', o = OElem x /\ rep sub p' l' /\ dmem (iid x) (p_items p') = true /\
      (forall u, dmem u (p_items p) = true -> dmem u (p_items p') = true).
  Proof.
    intros p l o p' v Hl Ha.
    pose proof (pile_step_refines sub p l (PAdd o) Hl) as Hs. simpl in Hs. rewrite Ha in Hs.
    destruct (match o with OElem x => _ | OOther _ => _ end) as [l' s].
    destruct Hs as [Hr' _]. unfold pile_add in Ha.
    destruct o as [x|]; [|discriminate]. exists x, l'.
    destruct (validate_type sub p (OElem x)) as [y|] eqn:Ev; [|discriminate].
    assert (y = x).
    { rewrite validate_elem in Ev. destruct (allowedb _ _ _ _); congruence. }
    subst y. destruct (dmem (iid x) (p_items p)); [discriminate|].
    inversion Ha; subst. split; [reflexivity|]. split; [exact Hr'|]. simpl.
    split; [apply dmem_true; rewrite In_dkeys_dset; auto|].
    intros u Hu. apply dmem_true. rewrite In_dkeys_dset. right. apply dmem_true; exact Hu.
  Qed.

  Lemma add_item_inv : forall f o rs, Base f -> Names f ->
    Base (fst (add_item sub f o rs)) /\ Names (fst (add_item sub f o rs)) /\
    (Refs f -> Refs (fst (add_item sub f o rs))).
  Proof.
    intros f o rs Hb Hn. unfold add_item.
    destruct (pile_add sub (f_items f) o) as [its [v|e]] eqn:Ea; [|simpl; auto].
    destruct (b_items f Hb) as [l Hl].
    destruct (pile_add_mono _ _ _ _ _ Hl Ea) as (x & l' & -> & Hr' & Hx & Hmono).
    set (g := Flow its (f_progs f) (f_names f)).
    assert (Hbg : Base g) by (destruct Hb; constructor; simpl; eauto).
    assert (Hng : Names g) by (destruct Hn; constructor; simpl; auto).
    destruct (attach_all_inv rs g (iid x) Hbg Hng) as (H1 & H2 & H3 & H4).
    split; [exact H1|]. split; [exact H2|]. intros Hr. apply H4; [|exact Hx].
    intros u p w Hu Hw. simpl in *. apply Hmono. eapply Hr; eauto.
  Qed.

  (** Pile.remove on a represented pile. *)
  Lemma pile_remove_rep : forall p l u, rep sub p l ->
    (dmem u (p_items p) = false /\ pile_remove p (RId u) = (p, Raise NotFoundError)) \/
    (exists x p' l', pile_remove p (RId u) = (p', Ret (VItem x)) /\ iid x = u /\ rep sub p' l' /\
       forall v, dmem v (p_items p') = dmem v (p_items p) && negb (v =? u)).
  Proof.
    intros p l u Hl. unfold pile_remove; simpl. rewrite (rep_dget sub p l u Hl).
    destruct (sget l u) as [x|] eqn:Eg.
    - right. destruct (rep_del sub p l u x Hl Eg) as [o' [H1 H2]]. rewrite H1.
      exists x, (set_stores p (ddel u (p_items p)) o'), (sdel l u).
      split; [reflexivity|]. split; [apply sget_Some in Eg; tauto|]. split; [exact H2|].
      intros v. simpl. destruct Hl as (_ & _ & _ & _ & Hnd & _).
      destruct (dmem v (ddel u (p_items p))) eqn:E; symmetry.
      + apply dmem_true in E. rewrite In_dkeys_ddel in E by exact Hnd.
        destruct E as [E1 E2]. apply dmem_true in E1. rewrite E1. simpl.
        destruct (Nat.eqb_spec v u); [congruence | reflexivity].
      + apply dmem_false in E. rewrite In_dkeys_ddel in E by exact Hnd.
        destruct (dmem v (p_items p)) eqn:E1; [|reflexivity].
        destruct (Nat.eqb_spec v u); [reflexivity|]. exfalso; apply E.
        split; [apply dmem_true; exact E1 | assumption].
    - left. split; [|reflexivity]. rewrite (rep_dmem sub p l u Hl).
      destruct (shas l u) eqn:E; [|reflexivity]. apply (sget_None sub) in Eg.
      exfalso; apply Eg, shas_In; exact E.
  Qed.

  Lemma remove_item_inv : forall f r, Base f -> Names f ->
    Base (fst (remove_item f r)) /\ Names (fst (remove_item f r)).
  Proof.
    intros f r Hb Hn. unfold remove_item. destruct (coerce_id r) as [u|e]; [|simpl; auto].
    destruct (b_items f Hb) as [l Hl].
    set (progs := map (fun kv : uuid * prog => (fst kv, strip u (snd kv))) (f_progs f)).
    assert (Hgo : forall its, (exists l', rep sub its l') ->
              Base (Flow its progs (f_names f)) /\ Names (Flow its progs (f_names f))).
    { intros its Hits. split.
      - constructor; simpl; auto.
        + unfold progs. rewrite dkeys_map_vals. apply (b_nodup f Hb).
        + intros v p Hv. unfold progs in Hv. rewrite dget_map_vals in Hv.
          destruct (dget v (f_progs f)) as [q|] eqn:E; [|discriminate].
          inversion Hv; subst. rewrite strip_id. apply (b_ids f Hb); exact E.
      - constructor; simpl; [apply (n_nodup f Hn)|].
        intros s v. rewrite (n_exact f Hn). unfold progs. rewrite dget_map_vals.
        destruct (dget v (f_progs f)) as [q|] eqn:E; simpl.
        + split; intros [p [Hp Hs]]; inversion Hp; subst.
          * eexists; split; [reflexivity|]. rewrite strip_name; exact Hs.
          * rewrite strip_name in Hs. eauto.
        + split; intros [p [Hp _]]; discriminate. }
    destruct (pile_remove_rep _ _ u Hl) as [[_ Hr]|(x & p' & l' & Hr & _ & Hrep & _)];
      rewrite Hr; simpl; apply Hgo; eauto.
  Qed.

  Lemma count_remove_first : forall (u : uuid) l l', remove_first u l = Some l' ->
    forall v, count v l = count v l' + (if eqb v u then 1 else 0).
  Proof.
    intros u l; induction l as [|y t IH]; intros l' H v; simpl in H; [discriminate|].
    destruct (eqb_spec u y) as [E|E].
    - inversion H; subst. simpl. destruct (eqb_spec v y); lia.
    - destruct (remove_first u t) as [t'|]; [|discriminate]. inversion H; subst.
      simpl. rewrite (IH t' eq_refl v). lia.
  Qed.

  Lemma count_In_pos : forall (v : uuid) l, In v l <-> 0 < count v l.
  Proof. intros v l. rewrite count_In. lia. Qed.

  (** Which ids a stripped progression still lists. *)
  Lemma strip_In : forall u p v, In v (pg_order (strip u p)) <->
    (v <> u /\ In v (pg_order p)) \/ (v = u /\ 2 <= count u (pg_order p)).
  Proof.
    intros u p v. unfold strip. destruct (remove_first u (pg_order p)) as [o'|] eqn:E; simpl.
    - pose proof (count_remove_first _ _ _ E v) as Hc.
      rewrite !count_In_pos. destruct (eqb_spec v u); [subst|]; split; try lia.
    - apply remove_first_None in E. pose proof (proj2 (count_In_pos u (pg_order p))) as Hc.
      split.
      + intros Hv. left. split; [|exact Hv]. intros ->; contradiction.
      + intros [[_ H]|[-> H]]; [exact H|]. exfalso; apply E, Hc; lia.
  Qed.

  (** remove_item keeps integrity exactly if no progression lists the id twice. *)
  Lemma remove_item_refs : forall f r u, Base f -> Refs f -> coerce_id r = Ret u ->
    (Refs (fst (remove_item f r)) <->
     forall k p, dget k (f_progs f) = Some p -> count u (pg_order p) <= 1).
  Proof.
    intros f r u Hb Hr Hu. unfold remove_item. rewrite Hu.
    destruct (b_items f Hb) as [l Hl].
    destruct (pile_remove_rep _ _ u Hl) as [[Hm Hrm]|(x & p' & l' & Hrm & _ & _ & Hdm)]; rewrite Hrm.
    - (* not stored: no progression lists it at all *)
      simpl. split.
      + intros _ k p Hk. destruct (count u (pg_order p)) as [|n] eqn:E; [lia|].
        exfalso. assert (In u (pg_order p)) by (apply count_In_pos; lia).
        pose proof (Hr k p u Hk H). congruence.
      + intros _ k p v Hk Hv. simpl in *. rewrite dget_map_vals in Hk.
        destruct (dget k (f_progs f)) as [q|] eqn:E; [|discriminate].
        inversion Hk; subst. apply strip_In in Hv.
        destruct Hv as [[_ Hv]|[-> Hv]]; [eapply Hr; eauto|].
        eapply Hr; eauto. apply count_In_pos; lia.
    - simpl. split.
      + intros Hr' k p Hk. destruct (le_lt_dec (count u (pg_order p)) 1) as [H|H]; [exact H|].
        exfalso. assert (Hd : dmem u (p_items p') = true).
        { apply (Hr' k (strip u p) u); simpl.
          - rewrite dget_map_vals, Hk; reflexivity.
          - apply strip_In. right; split; [reflexivity | lia]. }
        rewrite Hdm, Nat.eqb_refl, andb_false_r in Hd. discriminate.
      + intros Hc k p v Hk Hv. simpl in *. rewrite dget_map_vals in Hk.
        destruct (dget k (f_progs f)) as [q|] eqn:E; [|discriminate].
        inversion Hk; subst. apply strip_In in Hv. rewrite Hdm.
        destruct Hv as [[Hne Hv]|[-> Hv]].
        * rewrite (Hr k q v E Hv). simpl. destruct (Nat.eqb_spec v u); [contradiction | reflexivity].
        * specialize (Hc k q E). lia.
  Qed.

  Lemma add_progression_inv : forall f p, Base f -> Names f ->
    Base (fst (add_progression f p)) /\ Names (fst (add_progression f p)) /\
    (Refs f -> Refs (fst (add_progression f p))).
  Proof.
    intros f p Hb Hn.
    assert (Hnew : missing_refs f p = false -> dmem (pg_id p) (f_progs f) = false ->
      forall names, Base (Flow (f_items f) (dset (pg_id p) p (f_progs f)) names) /\
        (Refs f -> Refs (Flow (f_items f) (dset (pg_id p) p (f_progs f)) names))).
    { intros Hmr Hd names. split.
      - destruct Hb as [H1 H2 H3]. constructor; simpl; auto.
        + apply dkeys_dset_NoDup; exact H2.
        + intros u q Hu. rewrite dget_dset in Hu. destruct (eqb_spec u (pg_id p)).
          * inversion Hu; subst; reflexivity.
          * apply H3; exact Hu.
      - intros Hr u q v Hu Hv. simpl in *. rewrite dget_dset in Hu.
        destruct (eqb_spec u (pg_id p)); [|eapply Hr; eauto].
        inversion Hu; subst. apply (missing_refs_spec f q (b_items f Hb)); assumption. }
    assert (Hfresh : dmem (pg_id p) (f_progs f) = false -> dget (pg_id p) (f_progs f) = None).
    { intros H. apply dget_None. apply dmem_false; exact H. }
    unfold add_progression. destruct (truthy_name (pg_name p)) as [s|] eqn:Et.
    - destruct (dmem s (f_names f)) eqn:Es; [simpl; auto|].
      destruct (missing_refs f p) eqn:Em; [simpl; auto|].
      destruct (dmem (pg_id p) (f_progs f)) eqn:Ed; [simpl; auto|]. simpl.
      destruct (Hnew eq_refl eq_refl (dset s (pg_id p) (f_names f))) as [H1 H2].
      split; [exact H1|]. split; [|exact H2].
      destruct Hn as [N1 N2]. constructor; simpl; [apply dkeys_dset_NoDup; exact N1|].
      intros s' u. rewrite !dget_dset. destruct (eqb_spec s' s) as [->|Hs].
      + split.
        * intros H; inversion H; subst. exists p. destruct (eqb_spec (pg_id p) (pg_id p)); [auto|congruence].
        * intros [q [Hq Hqs]]. destruct (eqb_spec u (pg_id p)); [congruence|].
          exfalso. assert (Hin : dget s (f_names f) = Some u) by (apply N2; eauto).
          apply dmem_false in Es. apply Es. apply (dget_In) in Hin.
          apply in_map_iff. exists (s, u); auto.
      + rewrite N2. destruct (eqb_spec u (pg_id p)) as [->|Hu].
        * rewrite (Hfresh eq_refl). split; intros [q [Hq Hqs]]; [discriminate|].
          inversion Hq; subst. congruence.
        * reflexivity.
    - destruct (missing_refs f p) eqn:Em; [simpl; auto|].
      destruct (dmem (pg_id p) (f_progs f)) eqn:Ed; [simpl; auto|]. simpl.
      destruct (Hnew eq_refl eq_refl (f_names f)) as [H1 H2].
      split; [exact H1|]. split; [|exact H2].
      destruct Hn as [N1 N2]. constructor; simpl; [exact N1|].
      intros s u. rewrite N2, dget_dset. destruct (eqb_spec u (pg_id p)) as [->|Hu].
      + rewrite (Hfresh eq_refl). split; intros [q [Hq Hqs]]; [discriminate|].
        inversion Hq; subst. congruence.
      + reflexivity.
  Qed.

  (** Dropping a stored progression together with its name. *)
  Lemma drop_prog : forall f u p names, Base f -> Names f -> dget u (f_progs f) = Some p ->
    names = match truthy_name (pg_name p) with Some s => ddel s (f_names f) | None => f_names f end ->
    let g := Flow (f_items f) (ddel u (f_progs f)) names in
    Base g /\ Names g /\ (Refs f -> Refs g).
  Proof.
    intros f u p names [H1 H2 H3] [N1 N2] Hu Hnames.
    assert (Hget : forall v q, dget v (ddel u (f_progs f)) = Some q <->
                               v <> u /\ dget v (f_progs f) = Some q).
    { intros v q. destruct (Nat.eq_dec v u) as [->|Hne].
      - split; [|tauto]. intros Hc. apply dget_In in Hc.
        assert (In u (dkeys (ddel u (f_progs f)))) by (apply in_map_iff; exists (u, q); auto).
        rewrite In_dkeys_ddel in H by exact H2. tauto.
      - rewrite dget_ddel_other by exact Hne. tauto. }
    split; [|split].
    - constructor; simpl; auto.
      + apply dkeys_ddel_NoDup; exact H2.
      + intros v q Hv. apply Hget in Hv. apply H3; tauto.
    - subst names. destruct (truthy_name (pg_name p)) as [s|] eqn:Et; constructor; simpl.
      + apply dkeys_ddel_NoDup; exact N1.
      + intros s' v. assert (Hs : dget s (f_names f) = Some u) by (apply N2; eauto).
        assert (Hd : dget s' (ddel s (f_names f)) = Some v <->
                     s' <> s /\ dget s' (f_names f) = Some v).
        { destruct (String.eqb_spec s' s) as [->|Hne].
          - split; [|tauto]. intros Hc. apply dget_In in Hc.
            assert (In s (dkeys (ddel s (f_names f)))) by (apply in_map_iff; exists (s, v); auto).
            rewrite In_dkeys_ddel in H by exact N1. tauto.
          - rewrite dget_ddel_other by exact Hne. tauto. }
        rewrite Hd, N2. split.
        * intros [Hne [q [Hq Hqs]]]. exists q. split; [|exact Hqs]. apply Hget.
          split; [|exact Hq]. intros ->. congruence.
        * intros [q [Hq Hqs]]. apply Hget in Hq. split; [|exists q; tauto].
          intros ->. assert (dget s (f_names f) = Some v) by (apply N2; exists q; tauto).
          destruct Hq; congruence.
      + exact N1.
      + intros s' v. rewrite N2. split.
        * intros [q [Hq Hqs]]. exists q. split; [|exact Hqs]. apply Hget.
          split; [|exact Hq]. intros ->. congruence.
        * intros [q [Hq Hqs]]. apply Hget in Hq. exists q; tauto.
    - intros Hr v q w Hv Hw. simpl in *. apply Hget in Hv. eapply Hr; [apply Hv | exact Hw].
  Qed.

  Lemma remove_by_id_inv : forall f r, Base f -> Names f ->
    Base (fst (remove_by_id f r)) /\ Names (fst (remove_by_id f r)) /\
    (Refs f -> Refs (fst (remove_by_id f r))).
  Proof.
    intros f r Hb Hn. unfold remove_by_id. destruct (coerce_fref r) as [u|]; [|simpl; auto].
    destruct (dget u (f_progs f)) as [p|] eqn:E; [|simpl; auto]. simpl.
    eapply drop_prog; eauto. destruct (truthy_name (pg_name p)) as [s|] eqn:Et; [|reflexivity].
    assert (Hs : dget s (f_names f) = Some u) by (apply (n_exact f Hn); eauto).
    replace (dmem s (f_names f)) with true; [reflexivity|]. symmetry. apply dmem_true.
    apply dget_In in Hs. apply in_map_iff. exists (s, u); auto.
  Qed.

  Lemma remove_progression_inv : forall f r, Base f -> Names f ->
    Base (fst (remove_progression f r)) /\ Names (fst (remove_progression f r)) /\
    (Refs f -> Refs (fst (remove_progression f r))).
  Proof.
    intros f r Hb Hn. destruct r as [s parsed|u|p st]; simpl; try (apply remove_by_id_inv; assumption).
    destruct (dget s (f_names f)) as [u|] eqn:Es; [|apply remove_by_id_inv; assumption].
    destruct (proj1 (n_exact f Hn s u) Es) as [p [Hp Hps]]. rewrite Hp. simpl.
    eapply drop_prog; eauto. rewrite Hps. reflexivity.
  Qed.

  Theorem step_inv : forall f o, Base f -> Names f ->
    Base (fst (step f o)) /\ Names (fst (step f o)).
  Proof.
    intros f o Hb Hn. destruct o; simpl.
    - apply add_progression_inv with (p := p) in Hn; tauto.
    - pose proof (remove_progression_inv f r Hb Hn); tauto.
    - auto.
    - pose proof (add_item_inv f o rs Hb Hn); tauto.
    - apply remove_item_inv; assumption.
  Qed.

  Theorem run_inv : forall ops f, Base f -> Names f ->
    Base (flow_run sub f ops) /\ Names (flow_run sub f ops).
  Proof.
    induction ops as [|o t IH]; intros f Hb Hn; simpl; [auto|].
    destruct (step_inv f o Hb Hn). apply IH; assumption.
  Qed.

  Lemma fresh_inv : forall f, fresh_flow sub f -> Base f /\ Names f /\ Refs f.
  Proof.
    intros f [H1 [H2 H3]]. split; [|split].
    - constructor; rewrite ?H2; [apply reachable_rep; exact H1 | constructor | discriminate].
    - constructor; rewrite ?H2, ?H3; [constructor|]. intros s u; split; [discriminate|].
      intros [p [Hp _]]; discriminate.
    - intros u p v Hu. rewrite H2 in Hu; discriminate.
  Qed.

  Lemma Refs_integrity : forall f, Base f -> (Refs f <-> integrity f).
  Proof.
    intros f Hb. unfold Refs, integrity, pile_contains; simpl. split.
    - intros Hr p u Hp Hu. apply (held_dget f p (b_nodup f Hb)) in Hp. destruct Hp as [k Hk].
      eapply Hr; eauto.
    - intros Hi u p v Hu Hv. apply (Hi p v); [|exact Hv].
      apply (held_dget f p (b_nodup f Hb)). eauto.
  Qed.

  Lemma step_refs : forall f o, Base f -> Names f -> Refs f -> no_repeats f ->
    Refs (fst (step f o)).
  Proof.
    intros f o Hb Hn Hr Hd. destruct o; simpl.
    - apply (add_progression_inv f p Hb Hn); exact Hr.
    - apply (remove_progression_inv f r Hb Hn); exact Hr.
    - exact Hr.
    - apply (add_item_inv f o rs Hb Hn); exact Hr.
    - destruct (coerce_id r) as [u|e] eqn:Eu.
      + apply (remove_item_refs f r u Hb Hr Eu). intros k p Hk.
        apply NoDup_count. apply Hd. apply (held_dget f p (b_nodup f Hb)). eauto.
      + unfold remove_item. rewrite Eu. exact Hr.
  Qed.

  Theorem integrity_run : forall f0 ops, fresh_flow sub f0 ->
    (forall a b, ops = a ++ b -> no_repeats (flow_run sub f0 a)) ->
    integrity (flow_run sub f0 ops).
  Proof.
    intros f0 ops Hf Hd. destruct (fresh_inv f0 Hf) as (Hb & Hn & Hr).
    clear Hf. apply Refs_integrity; [apply run_inv; assumption|].
    revert f0 Hb Hn Hr Hd. induction ops as [|o t IH]; intros f Hb Hn Hr Hd; simpl; [exact Hr|].
    destruct (step_inv f o Hb Hn) as [Hb' Hn']. apply IH; auto.
    - apply step_refs; auto. apply (Hd [] (o :: t)). reflexivity.
    - intros a b Hab. apply (Hd (o :: a) b). simpl; congruence.
  Qed.

  (** Exactness of one removal, for every reachable flow. *)
  Theorem remove_item_integrity_iff : forall f0 ops r u f, fresh_flow sub f0 ->
    f = flow_run sub f0 ops -> integrity f -> coerce_id r = Ret u ->
    (integrity (fst (step f (FRemItem r))) <->
     forall p, held f p -> count u (pg_order p) <= 1).
  Proof.
    intros f0 ops r u f Hf -> Hi Hu. destruct (fresh_inv f0 Hf) as (Hb & Hn & _).
    destruct (run_inv ops f0 Hb Hn) as [Hb' Hn'].
    destruct (step_inv _ (FRemItem r) Hb' Hn') as [Hb'' _].
    rewrite <- Refs_integrity by exact Hb''. apply Refs_integrity in Hi; [|exact Hb'].
    simpl. rewrite (remove_item_refs _ r u Hb' Hi Hu). split.
    - intros H p Hp. apply (held_dget _ p (b_nodup _ Hb')) in Hp. destruct Hp as [k Hk]; eauto.
    - intros H k p Hk. apply H. apply (held_dget _ p (b_nodup _ Hb')). eauto.
  Qed.

  (** Name index, as observed. *)
  Theorem names_unique : forall f0 ops p q s, fresh_flow sub f0 ->
    held (flow_run sub f0 ops) p -> held (flow_run sub f0 ops) q ->
    carries p s -> carries q s -> p = q.
  Proof.
    intros f0 ops p q s Hf Hp Hq Hps Hqs. destruct (fresh_inv f0 Hf) as (Hb & Hn & _).
    destruct (run_inv ops f0 Hb Hn) as [Hb' Hn'].
    apply (held_dget _ _ (b_nodup _ Hb')) in Hp. apply (held_dget _ _ (b_nodup _ Hb')) in Hq.
    destruct Hp as [u Hu]. destruct Hq as [v Hv].
    apply truthy_carries in Hps. apply truthy_carries in Hqs.
    assert (H1 : dget s (f_names (flow_run sub f0 ops)) = Some u) by (apply (n_exact _ Hn'); eauto).
    assert (H2 : dget s (f_names (flow_run sub f0 ops)) = Some v) by (apply (n_exact _ Hn'); eauto).
    congruence.
  Qed.

  Theorem get_by_name : forall f0 ops s parsed p, fresh_flow sub f0 ->
    held (flow_run sub f0 ops) p -> carries p s ->
    get_progression (flow_run sub f0 ops) (FStr s parsed) = Ret (FProgV p).
  Proof.
    intros f0 ops s parsed p Hf Hp Hps. destruct (fresh_inv f0 Hf) as (Hb & Hn & _).
    destruct (run_inv ops f0 Hb Hn) as [Hb' Hn'].
    apply (held_dget _ _ (b_nodup _ Hb')) in Hp. destruct Hp as [u Hu].
    apply truthy_carries in Hps. simpl.
    assert (H1 : dget s (f_names (flow_run sub f0 ops)) = Some u) by (apply (n_exact _ Hn'); eauto).
    rewrite H1, Hu. reflexivity.
  Qed.

  Theorem get_by_name_absent : forall f0 ops s, fresh_flow sub f0 ->
    (forall p, held (flow_run sub f0 ops) p -> ~ carries p s) ->
    get_progression (flow_run sub f0 ops) (FStr s None) = Raise KeyError.
  Proof.
    intros f0 ops s Hf Hno. destruct (fresh_inv f0 Hf) as (Hb & Hn & _).
    destruct (run_inv ops f0 Hb Hn) as [Hb' Hn']. simpl.
    destruct (dget s (f_names (flow_run sub f0 ops))) as [u|] eqn:E; [|reflexivity].
    exfalso. apply (n_exact _ Hn') in E. destruct E as [p [Hp Hs]].
    apply (Hno p); [apply (held_dget _ _ (b_nodup _ Hb')); eauto | apply truthy_carries; exact Hs].
  Qed.

  Theorem get_by_id : forall f0 ops u, fresh_flow sub f0 ->
    match get_progression (flow_run sub f0 ops) (FId u) with
    | Ret (FProgV p) => held (flow_run sub f0 ops) p /\ pg_id p = u
    | Ret _ => False
    | Raise e => e = NotFoundError /\ forall p, held (flow_run sub f0 ops) p -> pg_id p <> u
    end.
  Proof.
    intros f0 ops u Hf. destruct (fresh_inv f0 Hf) as (Hb & Hn & _).
    destruct (run_inv ops f0 Hb Hn) as [Hb' Hn']. simpl.
    destruct (dget u (f_progs (flow_run sub f0 ops))) as [p|] eqn:E.
    - split; [apply (held_dget _ _ (b_nodup _ Hb')); eauto | apply (b_ids _ Hb'); exact E].
    - split; [reflexivity|]. intros p Hp Hu. apply (held_dget _ _ (b_nodup _ Hb')) in Hp.
      destruct Hp as [k Hk]. pose proof (b_ids _ Hb' _ _ Hk). congruence.
  Qed.

  (** After removing the progression, its name can be taken again. *)
  Theorem name_reusable : forall f0 ops r p s q f', fresh_flow sub f0 ->
    let f := flow_run sub f0 ops in
    step f (FRemProg r) = (f', Ret (FProgV p)) -> carries p s ->
    carries q s -> (forall u, In u (pg_order q) -> pile_contains (f_items f) (RId u) = true) ->
    (forall p', held f' p' -> pg_id p' <> pg_id q) ->
    snd (step f' (FAddProg q)) = Ret FUnit.
  Proof.
    intros f0 ops r p s q f' Hf f Hst Hps Hqs Hrefs Hid.
    destruct (fresh_inv f0 Hf) as (Hb & Hn & _).
    destruct (run_inv ops f0 Hb Hn) as [Hb' Hn']. fold f in Hb', Hn'.
    pose proof (step_inv f (FRemProg r) Hb' Hn') as [Hb2 Hn2]. rewrite Hst in Hb2, Hn2. simpl in Hb2, Hn2.
    (* p is gone from f' and it was the only carrier *)
    assert (Hsub : f_items f' = f_items f /\ exists u, dget u (f_progs f) = Some p /\ f_progs f' = ddel u (f_progs f)).
    { simpl in Hst. unfold remove_progression, remove_by_id in Hst.
      destruct r as [s0 parsed|k|q0 st]; simpl in Hst;
        repeat match type of Hst with
               | context [match dget ?a ?b with _ => _ end] => destruct (dget a b) eqn:?
               | context [match ?a with Some _ => _ | None => _ end] => destruct a eqn:?
               end; try discriminate; inversion Hst; subst; simpl; eauto. }
    destruct Hsub as [Hits [u [Hu Hprogs]]].
    assert (Hfree : dmem s (f_names f') = false).
    { apply dmem_false. intros Hc.
      assert (exists v, dget s (f_names f') = Some v).
      { destruct (dget s (f_names f')) as [v|] eqn:E; [eauto|].
        apply dget_None in E. contradiction. }
      destruct H as [v Hv]. apply (n_exact _ Hn2) in Hv. destruct Hv as [p2 [Hp2 Hs2]].
      rewrite Hprogs in Hp2.
      destruct (Nat.eq_dec v u) as [->|Hne].
      - apply dget_In in Hp2.
        assert (In u (dkeys (ddel u (f_progs f)))) by (apply in_map_iff; exists (u, p2); auto).
        rewrite In_dkeys_ddel in H by (apply (b_nodup _ Hb')). tauto.
      - rewrite dget_ddel_other in Hp2 by exact Hne.
        assert (H1 : dget s (f_names f) = Some u)
          by (apply (n_exact _ Hn'); exists p; split; [exact Hu | apply truthy_carries; exact Hps]).
        assert (H2 : dget s (f_names f) = Some v) by (apply (n_exact _ Hn'); eauto). congruence. }
    simpl. unfold add_progression. apply truthy_carries in Hqs. rewrite Hqs, Hfree.
    assert (Hm : missing_refs f' q = false).
    { apply missing_refs_spec; [apply (b_items _ Hb2)|]. rewrite Hits. exact Hrefs. }
    rewrite Hm.
    assert (Hd : dmem (pg_id q) (f_progs f') = false).
    { apply dmem_false. intros Hc.
      destruct (dget (pg_id q) (f_progs f')) as [p2|] eqn:E.
      - apply (Hid p2); [apply (held_dget _ _ (b_nodup _ Hb2)); eauto | apply (b_ids _ Hb2); exact E].
      - apply dget_None in E. contradiction. }
    rewrite Hd. reflexivity.
  Qed.

  (** Atomicity. *)
  Theorem raise_unchanged_progs : forall f0 ops o e f, fresh_flow sub f0 ->
    f = flow_run sub f0 ops ->
    match o with FAddProg _ | FRemProg _ | FGetProg _ => True | _ => False end ->
    snd (step f o) = Raise e -> fst (step f o) = f.
  Proof.
    intros f0 ops o e f Hf -> Ho He. destruct (fresh_inv f0 Hf) as (Hb & Hn & _).
    destruct (run_inv ops f0 Hb Hn) as [Hb' Hn'].
    destruct o; simpl in *; try contradiction; [| |reflexivity].
    - unfold add_progression in *.
      repeat match goal with
             | H : context [match ?a with _ => _ end] |- _ => destruct a; simpl in *
             end; try discriminate; reflexivity.
    - assert (Hby : forall r0, snd (remove_by_id (flow_run sub f0 ops) r0) = Raise e ->
                fst (remove_by_id (flow_run sub f0 ops) r0) = flow_run sub f0 ops).
      { intros r0 H0. unfold remove_by_id in *. destruct (coerce_fref r0); [|reflexivity].
        destruct (dget _ _); [discriminate | reflexivity]. }
      destruct r as [s parsed|k|q st]; simpl in *; auto.
      destruct (dget s (f_names (flow_run sub f0 ops))) as [u|] eqn:E; [|auto].
      apply (n_exact _ Hn') in E. destruct E as [p [Hp _]]. rewrite Hp in He. discriminate.
  Qed.

  Theorem remove_item_atomic : forall f0 ops r e f, fresh_flow sub f0 ->
    f = flow_run sub f0 ops -> integrity f ->
    snd (step f (FRemItem r)) = Raise e -> fst (step f (FRemItem r)) = f.
  Proof.
    intros f0 ops r e f Hf -> Hi He. destruct (fresh_inv f0 Hf) as (Hb & Hn & _).
    destruct (run_inv ops f0 Hb Hn) as [Hb' Hn'].
    set (f := flow_run sub f0 ops) in *. simpl in *. unfold remove_item in *.
    destruct (coerce_id r) as [u|]; [|reflexivity].
    destruct (b_items _ Hb') as [l Hl].
    destruct (pile_remove_rep _ _ u Hl) as [[Hm Hr]|(x & p' & l' & Hr & _)];
      rewrite Hr in *; simpl in *; [|discriminate].
    assert (Hsame : map (fun kv : uuid * prog => (fst kv, strip u (snd kv))) (f_progs f) = f_progs f).
    { transitivity (map (fun kv : uuid * prog => kv) (f_progs f)); [|apply map_id].
      apply map_ext_in. intros [k p] Hkp. simpl. f_equal. unfold strip.
      destruct (remove_first u (pg_order p)) eqn:E; [|reflexivity]. exfalso.
      assert (Hu : In u (pg_order p)).
      { destruct (in_dec Nat.eq_dec u (pg_order p)) as [H|H]; [exact H|].
        apply (proj2 (remove_first_None u (pg_order p))) in H. congruence. }
      assert (Hh : held f p) by (apply in_map_iff; exists (k, p); auto).
      pose proof (Hi p u Hh Hu) as Hc. unfold pile_contains in Hc; simpl in Hc. congruence. }
    rewrite Hsame. destruct f; reflexivity.
  Qed.

  (** add_item raising without having changed anything: exactly when the pile refuses. *)
  Theorem add_item_refused_unchanged : forall f o rs e,
    snd (pile_step sub (f_items f) (PAdd o)) = Raise e ->
    step f (FAddItem o rs) = (f, Raise e).
  Proof.
    intros f o rs e He. simpl in *. unfold add_item.
    destruct (pile_add sub (f_items f) o) as [its [v|e']]; simpl in He; [discriminate|].
    inversion He; reflexivity.
  Qed.

  (** Exact effect of add_item and remove_item on the progressions. *)
  Definition extended (u : uuid) (n : nat) (p : prog) : prog :=
    Prog (pg_id p) (pg_name p) (pg_order p ++ repeat u n).

  Lemma designates_same : forall f g r, f_names g = f_names f ->
    (forall k, option_map pg_id (dget k (f_progs g)) = option_map pg_id (dget k (f_progs f))) ->
    designates g r = designates f r.
  Proof.
    intros f g r Hn Hk.
    assert (H : forall k, match match dget k (f_progs g) with Some p => Ret (FProgV p) | None => Raise NotFoundError end with
                          | Ret (FProgV p) => Some (pg_id p) | _ => None end =
                          match match dget k (f_progs f) with Some p => Ret (FProgV p) | None => Raise NotFoundError end with
                          | Ret (FProgV p) => Some (pg_id p) | _ => None end).
    { intros k. specialize (Hk k). destruct (dget k (f_progs g)), (dget k (f_progs f));
        simpl in *; congruence. }
    destruct r as [s parsed|k|p st]; simpl; [|apply H|reflexivity].
    rewrite Hn. destruct (dget s (f_names f)); [apply H|]. destruct parsed; [apply H|reflexivity].
  Qed.

  Lemma attach_effect : forall f u r f' v, Base f -> attach f u r = (f', Ret v) ->
    f_names f' = f_names f /\ f_items f' = f_items f /\
    forall k, dget k (f_progs f') =
      option_map (extended u (match designates f r with
                              | Some k' => if k =? k' then 1 else 0 | None => 0 end))
                 (dget k (f_progs f)).
  Proof.
    intros f u r f' v Hb Ha.
    assert (Hid : forall k, dget k (f_progs f) = option_map (extended u 0) (dget k (f_progs f))).
    { intros k. destruct (dget k (f_progs f)) as [[i n o]|]; simpl; [|reflexivity].
      unfold extended; simpl. rewrite app_nil_r. reflexivity. }
    assert (Hset : forall k0 p k, dget k0 (f_progs f) = Some p ->
      dget k (dset k0 (append_to u p) (f_progs f)) =
      option_map (extended u (if k =? k0 then 1 else 0)) (dget k (f_progs f))).
    { intros k0 p k Hk. rewrite dget_dset. destruct (eqb_spec k k0) as [->|Hne].
      - rewrite Nat.eqb_refl, Hk. reflexivity.
      - destruct (Nat.eqb_spec k k0); [contradiction | apply Hid]. }
    assert (Hget : forall p, get_progression f r = Ret (FProgV p) ->
              dget (pg_id p) (f_progs f) = Some p).
    { intros p Hg. apply get_prog_found in Hg. destruct Hg as [k Hk].
      rewrite (b_ids f Hb k p Hk). exact Hk. }
    destruct r as [s parsed|k|p st].
    - unfold attach in Ha. unfold designates.
      destruct (get_progression f (FStr s parsed)) as [[]|]; inversion Ha; subst; simpl.
      split; [reflexivity|]. split; [reflexivity|]. intros k. apply Hset, Hget; reflexivity.
    - unfold attach in Ha. unfold designates.
      destruct (get_progression f (FId k)) as [[]|]; inversion Ha; subst; simpl.
      split; [reflexivity|]. split; [reflexivity|]. intros k0. apply Hset, Hget; reflexivity.
    - simpl in Ha. destruct st; simpl.
      + destruct (dget (pg_id p) (f_progs f)) as [q|] eqn:E; inversion Ha; subst; simpl.
        * split; [reflexivity|]. split; [reflexivity|]. intros k. apply Hset; exact E.
        * split; [reflexivity|]. split; [reflexivity|]. intros k.
          destruct (Nat.eqb_spec k (pg_id p)) as [->|]; [rewrite E; reflexivity | apply Hid].
      + inversion Ha; subst. auto.
  Qed.

  Lemma extended_extended : forall u n m p, extended u m (extended u n p) = extended u (n + m) p.
  Proof. intros; unfold extended; simpl. rewrite repeat_app, app_assoc. reflexivity. Qed.

  Lemma attach_all_effect : forall rs f u f' v, Base f -> Names f ->
    attach_all f u rs = (f', Ret v) ->
    f_names f' = f_names f /\ f_items f' = f_items f /\
    forall k, dget k (f_progs f') = option_map (extended u (times f rs k)) (dget k (f_progs f)).
  Proof.
    induction rs as [|r t IH]; intros f u f' v Hb Hn Ha; simpl in Ha.
    - inversion Ha; subst. split; [reflexivity|]. split; [reflexivity|]. intros k.
      destruct (dget k (f_progs f')) as [[i n o]|]; simpl; [|reflexivity].
      unfold extended; simpl. rewrite app_nil_r. reflexivity.
    - destruct (attach f u r) as [g [w|e]] eqn:E; [|discriminate].
      pose proof (attach_inv f u r Hb Hn) as (Hb' & Hn' & _). rewrite E in Hb', Hn'. simpl in Hb', Hn'.
      destruct (attach_effect _ _ _ _ _ Hb E) as (H1 & H2 & H3).
      destruct (IH _ _ _ _ Hb' Hn' Ha) as (G1 & G2 & G3).
      split; [congruence|]. split; [congruence|]. intros k. rewrite G3, H3.
      assert (Ht : times g t k = times f t k).
      { unfold times. f_equal. apply filter_ext. intros r'.
        rewrite (designates_same f g r' H1); [reflexivity|]. intros k0. rewrite H3.
        destruct (dget k0 (f_progs f)); reflexivity. }
      rewrite Ht. destruct (dget k (f_progs f)) as [p|]; simpl; [|reflexivity].
      rewrite extended_extended. f_equal. f_equal. unfold times; simpl.
      destruct (designates f r) as [k'|]; [|reflexivity].
      destruct (k =? k'); reflexivity.
  Qed.

  (** Held progression with a given id. *)
  Definition at_id (f : flow) (k : uuid) : option prog := dget k (f_progs f).

  Theorem add_item_effect : forall f0 ops x rs f f', fresh_flow sub f0 ->
    f = flow_run sub f0 ops -> step f (FAddItem (OElem x) rs) = (f', Ret FUnit) ->
    pile_contains (f_items f') (RId (iid x)) = true /\
    forall k, get_progression f' (FId k) =
      match get_progression f (FId k) with
      | Ret (FProgV p) => Ret (FProgV (Prog (pg_id p) (pg_name p)
                                 (pg_order p ++ repeat (iid x) (times f rs k))))
      | other => other
      end.
  Proof.
    intros f0 ops x rs f f' Hf -> Hst. destruct (fresh_inv f0 Hf) as (Hb & Hn & _).
    destruct (run_inv ops f0 Hb Hn) as [Hb' Hn']. set (f := flow_run sub f0 ops) in *.
    simpl in Hst. unfold add_item in Hst.
    destruct (pile_add sub (f_items f) (OElem x)) as [its [v|e]] eqn:Ea; [|discriminate].
    destruct (b_items f Hb') as [l Hl].
    destruct (pile_add_mono _ _ _ _ _ Hl Ea) as (x' & l' & Hx' & Hr' & Hx & _).
    inversion Hx'; subst x'.
    set (g := Flow its (f_progs f) (f_names f)) in *.
    assert (Hbg : Base g) by (destruct Hb'; constructor; simpl; eauto).
    assert (Hng : Names g) by (destruct Hn'; constructor; simpl; auto).
    destruct (attach_all_effect _ _ _ _ _ Hbg Hng Hst) as (H1 & H2 & H3).
    split; [unfold pile_contains; simpl; rewrite H2; exact Hx|].
    intros k. simpl. rewrite H3. simpl.
    assert (Ht : times g rs k = times f rs k).
    { reflexivity. }
    rewrite Ht. destruct (dget k (f_progs f)); reflexivity.
  Qed.

  Lemma remove_first_NoDup_filter : forall (u : uuid) l, NoDup l ->
    match remove_first u l with Some l' => l' | None => l end = filter (fun v => negb (v =? u)) l.
  Proof.
    intros u l Hl; induction Hl as [|y t Hy Ht IH]; simpl; [reflexivity|].
    destruct (eqb_spec u y) as [->|Hne].
    - rewrite Nat.eqb_refl. simpl. symmetry.
      assert (Hfa : forall l0 : list nat, ~ In y l0 -> filter (fun v => negb (v =? y)) l0 = l0).
      { induction l0 as [|z t0 IH0]; simpl; intros Hz; [reflexivity|].
        destruct (Nat.eqb_spec z y); [exfalso; apply Hz; auto|]. simpl. rewrite IH0; auto. }
      apply Hfa; exact Hy.
    - destruct (Nat.eqb_spec y u); [congruence|]. simpl. rewrite <- IH.
      destruct (remove_first u t); reflexivity.
  Qed.

  Theorem remove_item_effect : forall f0 ops r u f f' v, fresh_flow sub f0 ->
    f = flow_run sub f0 ops -> no_repeats f -> coerce_id r = Ret u ->
    step f (FRemItem r) = (f', Ret v) ->
    (exists x, v = FItemV x /\ iid x = u) /\
    (forall w, pile_contains (f_items f') (RId w) = pile_contains (f_items f) (RId w) && negb (w =? u)) /\
    forall k, get_progression f' (FId k) =
      match get_progression f (FId k) with
      | Ret (FProgV p) => Ret (FProgV (Prog (pg_id p) (pg_name p)
                                 (filter (fun w => negb (w =? u)) (pg_order p))))
      | other => other
      end.
  Proof.
    intros f0 ops r u f f' v Hf -> Hd Hu Hst. destruct (fresh_inv f0 Hf) as (Hb & Hn & _).
    destruct (run_inv ops f0 Hb Hn) as [Hb' Hn']. set (f := flow_run sub f0 ops) in *.
    simpl in Hst. unfold remove_item in Hst. rewrite Hu in Hst.
    destruct (b_items f Hb') as [l Hl].
    destruct (pile_remove_rep _ _ u Hl) as [[Hm Hr]|(x & p' & l' & Hr & Hx & Hrep & Hdm)];
      rewrite Hr in Hst; [discriminate|]. inversion Hst; subst.
    split; [eauto|]. split; [intros w; apply Hdm|].
    intros k. simpl. rewrite dget_map_vals.
    destruct (dget k (f_progs f)) as [p|] eqn:E; simpl; [|reflexivity].
    assert (Hp : NoDup (pg_order p)) by (apply Hd; apply (held_dget _ _ (b_nodup _ Hb')); eauto).
    rewrite <- remove_first_NoDup_filter by exact Hp. unfold strip.
    destruct (remove_first (iid x) (pg_order p)); [reflexivity | destruct p; reflexivity].
  Qed.

  Theorem add_progression_effect : forall f0 ops p f f', fresh_flow sub f0 ->
    f = flow_run sub f0 ops -> step f (FAddProg p) = (f', Ret FUnit) ->
    f_items f' = f_items f /\
    forall k, get_progression f' (FId k) =
      if k =? pg_id p then Ret (FProgV p) else get_progression f (FId k).
  Proof.
    intros f0 ops p f f' Hf -> Hst. simpl in Hst. unfold add_progression in Hst.
    assert (H : f_items f' = f_items (flow_run sub f0 ops) /\
                f_progs f' = dset (pg_id p) p (f_progs (flow_run sub f0 ops))).
    { repeat match type of Hst with context [match ?a with _ => _ end] => destruct a end;
        inversion Hst; subst; simpl; auto. }
    destruct H as [H1 H2]. split; [exact H1|]. intros k. simpl. rewrite H2, dget_dset.
    destruct (eqb_spec k (pg_id p)) as [->|Hne]; [rewrite Nat.eqb_refl; reflexivity|].
    destruct (Nat.eqb_spec k (pg_id p)); [contradiction | reflexivity].
  Qed.

  Theorem remove_progression_effect : forall f0 ops r f f' v, fresh_flow sub f0 ->
    f = flow_run sub f0 ops -> step f (FRemProg r) = (f', Ret v) ->
    exists p, v = FProgV p /\ held f p /\ f_items f' = f_items f /\
    forall k, get_progression f' (FId k) =
      if k =? pg_id p then Raise NotFoundError else get_progression f (FId k).
  Proof.
    intros f0 ops r f f' v Hf -> Hst. destruct (fresh_inv f0 Hf) as (Hb & Hn & _).
    destruct (run_inv ops f0 Hb Hn) as [Hb' Hn']. set (f := flow_run sub f0 ops) in *.
    simpl in Hst.
    assert (Hsub : exists p u, v = FProgV p /\ f_items f' = f_items f /\
              dget u (f_progs f) = Some p /\ f_progs f' = ddel u (f_progs f)).
    { unfold remove_progression, remove_by_id in Hst.
      destruct r as [s0 parsed|k|q0 st]; simpl in Hst;
        repeat match type of Hst with
               | context [match dget ?a ?b with _ => _ end] => destruct (dget a b) eqn:?
               | context [match ?a with Some _ => _ | None => _ end] => destruct a eqn:?
               end; try discriminate; inversion Hst; subst; simpl; eauto 8. }
    destruct Hsub as (p & u & -> & Hi & Hu & Hp). exists p. split; [reflexivity|].
    split; [apply (held_dget _ _ (b_nodup _ Hb')); eauto|]. split; [exact Hi|].
    intros k. simpl. rewrite Hp, (b_ids _ Hb' _ _ Hu).
    destruct (Nat.eqb_spec k u) as [->|Hne].
    - rewrite dget_ddel_same by (apply (b_nodup _ Hb')). reflexivity.
    - rewrite dget_ddel_other by exact Hne. reflexivity.
  Qed.

  (** ** When calls fail *)
  Lemma run_ok f0 ops : fresh_flow sub f0 -> Base (flow_run sub f0 ops) /\ Names (flow_run sub f0 ops).
  Proof. intros Hf. destruct (fresh_inv f0 Hf) as (Hb & Hn & _). exact (run_inv ops f0 Hb Hn). Qed.
  Lemma dmem_contains f u : dmem u (p_items (f_items f)) = pile_contains (f_items f) (RId u).
  Proof. reflexivity. Qed.
  Lemma held_id f p : Base f -> held f p -> dget (pg_id p) (f_progs f) = Some p.
  Proof.
    intros Hb Hp. apply (held_dget f p (b_nodup f Hb)) in Hp. destruct Hp as [u Hu]. rewrite (b_ids f Hb u p Hu). exact Hu.
  Qed.
  Lemma dget_held f u p : Base f -> dget u (f_progs f) = Some p -> held f p /\ pg_id p = u.
  Proof. intros Hb Hu. split; [apply (held_dget f p (b_nodup f Hb)); eauto|exact (b_ids f Hb u p Hu)]. Qed.
  Lemma name_held f s u : Base f -> Names f -> dget s (f_names f) = Some u -> exists p, held f p /\ carries p s /\ dget u (f_progs f) = Some p.
  Proof.
    intros Hb Hn H. apply (n_exact f Hn) in H. destruct H as (p & Hp & Ht). exists p.
    split; [exact (proj1 (dget_held f u p Hb Hp))|]. split; [apply truthy_carries, Ht|exact Hp].
  Qed.
  Lemma held_name f s p : Base f -> Names f -> held f p -> carries p s -> dget s (f_names f) = Some (pg_id p).
  Proof.
    intros Hb Hn Hp Hc. apply (n_exact f Hn). exists p. split; [exact (held_id f p Hb Hp)|apply truthy_carries, Hc].
  Qed.

  Theorem add_progression_outcome f0 ops p f : fresh_flow sub f0 -> f = flow_run sub f0 ops ->
    let out := snd (step f (FAddProg p)) in
    let taken := exists q s, held f q /\ carries q s /\ carries p s in
    let missing := exists u, In u (pg_order p) /\ pile_contains (f_items f) (RId u) = false in
    let present := exists q, held f q /\ pg_id q = pg_id p in
    (taken -> out = Raise ExistsError) /\
    (~ taken -> missing -> out = Raise NotFoundError) /\
    (~ taken -> ~ missing -> present -> out = Raise ExistsError) /\
    (~ taken -> ~ missing -> ~ present -> out = Ret FUnit).
  Proof.
    intros Hf ->. destruct (run_ok f0 ops Hf) as [Hb Hn]. set (f := flow_run sub f0 ops) in *. cbn zeta.
    assert (M : missing_refs f p = true <-> exists u, In u (pg_order p) /\ pile_contains (f_items f) (RId u) = false).
    { pose proof (missing_refs_spec f p (b_items f Hb)) as S. split.
      - intros Hm. unfold missing_refs in Hm. apply existsb_exists in Hm. destruct Hm as (u & Hu & Hk).
        destruct (dmem u (p_items (f_items f))) eqn:D; [|exists u; split; [exact Hu|exact D]].
        exfalso. destruct (b_items f Hb) as [l Hl]. rewrite (rep_dmem sub _ _ u Hl) in D. destruct Hl as [Ho _].
        unfold pile_keys in Hk. rewrite Ho in Hk. apply shas_In in D. apply memb_In in D. rewrite D in Hk. discriminate.
      - intros (u & Hu & Hc). destruct (missing_refs f p) eqn:E; [reflexivity|]. pose proof (proj1 S eq_refl u Hu) as D.
        rewrite dmem_contains in D. congruence. }
    assert (P : dmem (pg_id p) (f_progs f) = true <-> exists q, held f q /\ pg_id q = pg_id p).
    { rewrite dmem_true. split.
      - intros Hd. apply dkeys_dget in Hd || idtac. destruct (dget (pg_id p) (f_progs f)) as [q|] eqn:E.
        + exists q. exact (dget_held f _ q Hb E).
        + apply dget_None in E. contradiction.
      - intros (q & Hq & Hi). pose proof (held_id f q Hb Hq) as D. rewrite Hi in D. apply dget_In in D.
        apply in_map_iff. exists (pg_id p, q). auto. }
    assert (T : (exists q s, held f q /\ carries q s /\ carries p s) <->
                match truthy_name (pg_name p) with Some s => dmem s (f_names f) = true | None => False end).
    { split.
      - intros (q & s & Hq & Hc & Hp). apply truthy_carries in Hp. rewrite Hp. apply dmem_true.
        pose proof (held_name f s q Hb Hn Hq Hc) as D. apply dget_In in D. apply in_map_iff. exists (s, pg_id q). auto.
      - destruct (truthy_name (pg_name p)) as [s|] eqn:E; [|intros []]. intros D. apply truthy_carries in E.
        destruct (dget s (f_names f)) as [u|] eqn:G.
        + destruct (name_held f s u Hb Hn G) as (q & Hq & Hc & _). exists q, s. auto.
        + apply dget_None in G. apply dmem_true in D. contradiction. }
    rewrite T, <- M, <- P. cbn [flow_step]. unfold add_progression.
    destruct (truthy_name (pg_name p)) as [s|].
    - destruct (dmem s (f_names f)), (missing_refs f p), (dmem (pg_id p) (f_progs f)); repeat split; intros; try reflexivity; exfalso; (congruence || tauto).
    - destruct (missing_refs f p), (dmem (pg_id p) (f_progs f)); repeat split; intros; try reflexivity; exfalso; (congruence || tauto).
  Qed.

  Theorem remove_progression_outcome f0 ops r f : fresh_flow sub f0 -> f = flow_run sub f0 ops ->
    let out := snd (step f (FRemProg r)) in
    let by_id u := (forall p, held f p -> pg_id p = u -> out = Ret (FProgV p)) /\
                   ((forall p, held f p -> pg_id p <> u) -> out = Raise NotFoundError) in
    match r with
    | FStr s parsed =>
        (forall p, held f p -> carries p s -> out = Ret (FProgV p)) /\
        ((forall p, held f p -> ~ carries p s) ->
           match parsed with None => out = Raise ValueError | Some u => by_id u end)
    | FId u => by_id u
    | FInst p _ => by_id (pg_id p)
    end.
  Proof.
    intros Hf ->. destruct (run_ok f0 ops Hf) as [Hb Hn]. set (f := flow_run sub f0 ops) in *. cbn zeta.
    assert (I : forall r u, coerce_fref r = Ret u ->
      (forall p, held f p -> pg_id p = u -> snd (remove_by_id f r) = Ret (FProgV p)) /\
      ((forall p, held f p -> pg_id p <> u) -> snd (remove_by_id f r) = Raise NotFoundError)).
    { intros r0 u Hr. unfold remove_by_id. rewrite Hr. split.
      - intros p Hp <-. rewrite (held_id f p Hb Hp). reflexivity.
      - intros Hno. destruct (dget u (f_progs f)) as [p|] eqn:E; [|reflexivity].
        destruct (dget_held f u p Hb E) as [Hp Hi]. destruct (Hno p Hp Hi). }
    destruct r as [s parsed|u|p st]; [|exact (I (FId u) u eq_refl)|exact (I (FInst p st) (pg_id p) eq_refl)].
    cbn [flow_step]. unfold remove_progression. split.
    - intros p Hp Hc. rewrite (held_name f s p Hb Hn Hp Hc), (held_id f p Hb Hp). reflexivity.
    - intros Hno. destruct (dget s (f_names f)) as [u|] eqn:E.
      { destruct (name_held f s u Hb Hn E) as (p & Hp & Hc & _). destruct (Hno p Hp Hc). }
      destruct parsed as [u|]; [exact (I (FStr s (Some u)) u eq_refl)|reflexivity].
  Qed.

  Theorem remove_item_outcome f0 ops r f : fresh_flow sub f0 -> f = flow_run sub f0 ops ->
    let out := snd (step f (FRemItem r)) in
    match coerce_id r with
    | Raise e => out = Raise e
    | Ret u => if pile_contains (f_items f) (RId u) then exists x, out = Ret (FItemV x) /\ iid x = u
               else out = Raise NotFoundError
    end.
  Proof.
    intros Hf ->. destruct (run_ok f0 ops Hf) as [Hb Hn]. set (f := flow_run sub f0 ops) in *. cbn zeta.
    cbn [flow_step]. unfold remove_item. destruct (coerce_id r) as [u|e]; [|reflexivity].
    destruct (b_items f Hb) as [l Hl]. pose proof (pile_remove_rep (f_items f) l u Hl) as R.
    rewrite <- dmem_contains. destruct R as [[D ->]|(x & p' & l' & E & Hx & Hl' & Hd)].
    - rewrite D. reflexivity.
    - assert (D : dmem u (p_items (f_items f)) = true).
      { destruct (dmem u (p_items (f_items f))) eqn:D; [reflexivity|]. exfalso.
        apply dmem_false, dget_None in D. unfold pile_remove in E. cbn [coerce_id] in E. rewrite D in E. discriminate. }
      rewrite E, D. exists x. auto.
  Qed.

  (** A designator of add_item that the flow accepts. *)
  Definition resolves (f : flow) (r : fref) : Prop :=
    match r with FInst _ _ => True | _ => exists p, get_progression f r = Ret (FProgV p) end.
  Definition same_keys (f g : flow) : Prop :=
    f_names g = f_names f /\ forall k, dget k (f_progs g) = None <-> dget k (f_progs f) = None.
  Lemma get_same_raise f g r e : same_keys f g -> match r with FInst _ _ => False | _ => True end ->
    get_progression f r = Raise e <-> get_progression g r = Raise e.
  Proof.
    intros [Hn Hk] Hr.
    assert (G : forall k, match dget k (f_progs f) with Some p => Ret (FProgV p) | None => Raise NotFoundError end = Raise e <->
                          match dget k (f_progs g) with Some p => Ret (FProgV p) | None => Raise NotFoundError end = Raise e).
    { intros k. specialize (Hk k). destruct (dget k (f_progs f)), (dget k (f_progs g)); split; intros H; try discriminate; auto.
      - discriminate (proj1 Hk eq_refl) || discriminate (proj2 Hk eq_refl).
      - discriminate (proj1 Hk eq_refl) || discriminate (proj2 Hk eq_refl). }
    destruct r as [s parsed|k|]; [|apply G|destruct Hr]. cbn. rewrite Hn.
    destruct (dget s (f_names f)); [apply G|]. destruct parsed; [apply G|tauto].
  Qed.
  Lemma get_total f r : match r with FInst _ _ => False | _ => True end ->
    (exists p, get_progression f r = Ret (FProgV p)) \/ exists e, get_progression f r = Raise e.
  Proof.
    destruct r as [s parsed|k|]; [| |intros []]; intros _; cbn.
    - destruct (dget s (f_names f)) as [u|]; [destruct (dget u (f_progs f)); eauto|]. destruct parsed as [u|]; [|eauto].
      destruct (dget u (f_progs f)); eauto.
    - destruct (dget k (f_progs f)); eauto.
  Qed.
  Lemma attach_same f u r f' o : Base f -> attach f u r = (f', o) -> same_keys f f'.
  Proof.
    intros Hb Ha. destruct o as [v|e].
    - destruct (attach_effect f u r f' v Hb Ha) as (H1 & _ & H3). split; [exact H1|]. intros k. rewrite H3.
      destruct (dget k (f_progs f)); cbn; split; congruence.
    - assert (f' = f); [|subst; split; tauto]. unfold attach in Ha.
      repeat match type of Ha with context [match ?x with _ => _ end] => destruct x end; congruence.
  Qed.
  Lemma attach_all_outcome rs : forall f u, Base f -> Names f ->
    ((forall r, In r rs -> resolves f r) -> snd (attach_all f u rs) = Ret FUnit) /\
    (forall a r b e, rs = a ++ r :: b -> (forall r', In r' a -> resolves f r') ->
       match r with FInst _ _ => False | _ => True end -> get_progression f r = Raise e -> snd (attach_all f u rs) = Raise e).
  Proof.
    induction rs as [|r rs IH]; intros f u Hb Hn.
    - split; [reflexivity|]. intros [] ? ? ?; discriminate.
    - cbn [attach_all]. destruct (attach f u r) as [g o] eqn:E. pose proof (attach_same f u r g o Hb E) as Hs.
      destruct (attach_inv f u r Hb Hn) as (Hb' & Hn' & _). rewrite E in Hb', Hn'. cbn in Hb', Hn'.
      assert (Rs : forall r', resolves f r' -> resolves g r').
      { intros [s0 p0|k0|p0 st0] Hr; cbn [resolves] in *; auto.
        - destruct (get_total g (FStr s0 p0) I) as [?|[e He]]; [assumption|]. apply (get_same_raise f g (FStr s0 p0) e Hs I) in He. destruct Hr. congruence.
        - destruct (get_total g (FId k0) I) as [?|[e He]]; [assumption|]. apply (get_same_raise f g (FId k0) e Hs I) in He. destruct Hr. congruence. }
      destruct (IH g u Hb' Hn') as [I1 I2].
      assert (Ok : resolves f r -> exists v, o = Ret v).
      { intros Hr. unfold attach in E. destruct r as [s0 p0|k0|p0 st0]; cbn [resolves] in Hr.
        - destruct Hr as [q Hq]. rewrite Hq in E. injection E as <- <-. eauto.
        - destruct Hr as [q Hq]. rewrite Hq in E. injection E as <- <-. eauto.
        - destruct st0; [destruct (dget _ _)|]; injection E as <- <-; eauto. }
      split.
      + intros Ha. destruct (Ok (Ha r (or_introl eq_refl))) as [v ->]. apply I1. intros r' Hr'. apply Rs, Ha. right. exact Hr'.
      + intros a r' b e Heq Ha Hi He. destruct a as [|r0 a]; injection Heq as -> ->.
        * unfold attach in E. destruct r' as [s0 p0|k0|]; [| |destruct Hi]; rewrite He in E; injection E as <- <-; reflexivity.
        * destruct (Ok (Ha r0 (or_introl eq_refl))) as [v ->]. apply (I2 a r' b e eq_refl); [|exact Hi|].
          -- intros r2 Hr2. apply Rs, Ha. right. exact Hr2.
          -- apply (get_same_raise f g r' e Hs Hi). exact He.
  Qed.

  Theorem add_item_outcome f0 ops x rs f v its : fresh_flow sub f0 -> f = flow_run sub f0 ops ->
    pile_step sub (f_items f) (PAdd (OElem x)) = (its, Ret v) ->
    ((forall r, In r rs -> resolves f r) -> snd (step f (FAddItem (OElem x) rs)) = Ret FUnit) /\
    (forall a r b e, rs = a ++ r :: b -> (forall r', In r' a -> resolves f r') ->
       match r with FInst _ _ => False | _ => True end -> snd (step f (FGetProg r)) = Raise e ->
       snd (step f (FAddItem (OElem x) rs)) = Raise e).
  Proof.
    intros Hf -> Hp. destruct (run_ok f0 ops Hf) as [Hb Hn]. set (f := flow_run sub f0 ops) in *.
    cbn [pile_step] in Hp. cbn [flow_step snd]. unfold add_item. rewrite Hp.
    assert (Hb' : Base (Flow its (f_progs f) (f_names f))).
    { destruct (b_items f Hb) as [l Hl]. destruct (pile_add_mono (f_items f) l (OElem x) its v Hl Hp) as (x' & l' & _ & Hl' & _).
      constructor; cbn; [eauto|exact (b_nodup f Hb)|exact (b_ids f Hb)]. }
    assert (Hn' : Names (Flow its (f_progs f) (f_names f))) by (constructor; [exact (n_nodup f Hn)|exact (n_exact f Hn)]).
    destruct (attach_all_outcome rs _ (iid x) Hb' Hn') as [A1 A2].
    assert (E : forall r, get_progression (Flow its (f_progs f) (f_names f)) r = get_progression f r) by (intros [| |]; reflexivity).
    assert (E' : forall r, resolves f r -> resolves (Flow its (f_progs f) (f_names f)) r) by (intros [| |]; cbn [resolves]; rewrite ?E; auto).
    split.
    - intros H. apply A1. intros r Hr. apply E', H, Hr.
    - intros a r b e Heq Ha Hi He. apply (A2 a r b e Heq); [|exact Hi|rewrite E; exact He]. intros r' Hr'. apply E', Ha, Hr'.
  Qed.

  (** ** Construction *)
  Lemma prog_pile_spec ps : forall d, NoDup (dkeys d) ->
    match prog_pile d ps with
    | Ret d' => NoDup (map pg_id ps) /\ (forall p, In p ps -> ~ In (pg_id p) (dkeys d)) /\ d' = d ++ map (fun p => (pg_id p, p)) ps
    | Raise e => e = ExistsError /\ ~ (NoDup (map pg_id ps) /\ forall p, In p ps -> ~ In (pg_id p) (dkeys d))
    end.
  Proof.
    induction ps as [|p ps IH]; intros d Hd; cbn [prog_pile].
    - rewrite app_nil_r. repeat split; [constructor|intros ? []].
    - destruct (dmem (pg_id p) d) eqn:E.
      + split; [reflexivity|]. intros [_ H]. apply dmem_true in E. exact (H p (or_introl eq_refl) E).
      + apply dmem_false in E. specialize (IH _ (dkeys_dset_NoDup (pg_id p) p d Hd)).
        assert (K : forall q, In (pg_id q) (dkeys (dset (pg_id p) p d)) <-> pg_id q = pg_id p \/ In (pg_id q) (dkeys d)).
        { intros q. rewrite dkeys_dset_notin by exact E. rewrite dkeys_app, in_app_iff. cbn. intuition congruence. }
        destruct (prog_pile (dset (pg_id p) p d) ps) as [d'|e].
        * destruct IH as (I1 & I2 & ->). repeat split.
          -- cbn. constructor; [|exact I1]. intros Hin. apply in_map_iff in Hin. destruct Hin as (q & Hq & Hin).
             apply (I2 q Hin). apply K. left. exact Hq.
          -- intros q [<- | Hin]; [exact E|]. intros Hk. apply (I2 q Hin), K. right. exact Hk.
          -- rewrite dkeys_dset_notin by exact E. rewrite <- app_assoc. reflexivity.
        * destruct IH as [-> I2]. split; [reflexivity|]. intros [N1 N2]. apply I2. cbn in N1. inversion N1 as [|? ? Nin N1']; subst.
          split; [exact N1'|]. intros q Hin Hk. apply K in Hk. destruct Hk as [Hk|Hk].
          -- apply Nin. rewrite <- Hk. apply in_map, Hin.
          -- apply (N2 q (or_intror Hin) Hk).
  Qed.
  Lemma index_names_last ps a p b s : ps = a ++ p :: b -> carries p s -> (forall q, In q b -> ~ carries q s) ->
    dget s (index_names ps) = Some (pg_id p).
  Proof.
    intros -> Hc Hb. unfold index_names. rewrite fold_left_app. cbn [fold_left].
    rewrite (proj2 (truthy_carries p s) Hc).
    assert (G : forall b d, (forall q, In q b -> ~ carries q s) -> dget s (fold_left (fun d p => match truthy_name (pg_name p) with
                          | Some s => dset s (pg_id p) d | None => d end) b d) = dget s d).
    { clear. induction b as [|q b IH]; intros d Hb; [reflexivity|]. cbn [fold_left]. rewrite IH by (intros; apply Hb; right; assumption).
      destruct (truthy_name (pg_name q)) as [n|] eqn:E; [|reflexivity]. apply dget_dset_other. intros ->.
      apply (Hb q (or_introl eq_refl)). apply truthy_carries, E. }
    rewrite G by exact Hb. apply dget_dset_same.
  Qed.
  Lemma index_names_none ps s : (forall q, In q ps -> ~ carries q s) -> dget s (index_names ps) = None.
  Proof.
    unfold index_names. assert (G : forall d, (forall q, In q ps -> ~ carries q s) -> dget s d = None -> dget s (fold_left (fun d p => match truthy_name (pg_name p) with
                          | Some s => dset s (pg_id p) d | None => d end) ps d) = None).
    { induction ps as [|q b IH]; intros d Hb Hd; [exact Hd|]. cbn [fold_left]. apply IH; [intros; apply Hb; right; assumption|].
      destruct (truthy_name (pg_name q)) as [n|] eqn:E; [|exact Hd]. rewrite dget_dset_other; [exact Hd|]. intros ->.
      apply (Hb q (or_introl eq_refl)). apply truthy_carries, E. }
    intros H. apply G; [exact H|reflexivity].
  Qed.

  Theorem constructed its ps : reachable sub its ->
    match flow_new its ps with
    | Ret f => NoDup (map pg_id ps) /\ f_items f = its /\ (forall p, held f p <-> In p ps) /\ integrity f /\
               (forall p, In p ps -> get_progression f (FId (pg_id p)) = Ret (FProgV p)) /\
               (forall a p b s parsed, ps = a ++ p :: b -> carries p s -> (forall q, In q b -> ~ carries q s) ->
                  get_progression f (FStr s parsed) = Ret (FProgV p)) /\
               (forall s, (forall p, In p ps -> ~ carries p s) -> get_progression f (FStr s None) = Raise KeyError)
    | Raise e => (e = ExistsError /\ ~ NoDup (map pg_id ps)) \/
                 (e = NotFoundError /\ NoDup (map pg_id ps) /\
                  exists p u, In p ps /\ In u (pg_order p) /\ pile_contains its (RId u) = false)
    end.
  Proof.
    intros Hr. unfold flow_new. pose proof (prog_pile_spec ps [] (NoDup_nil _)) as S.
    destruct (prog_pile [] ps) as [d|e]; cbn [bind].
    2:{ destruct S as [-> N]. left. split; [reflexivity|]. intros H. apply N. split; [exact H|]. intros ? _ []. }
    destruct S as (N & _ & Ed). cbn [app] in Ed. set (f := Flow its d (index_names ps)).
    assert (Kd : dkeys d = map pg_id ps) by (rewrite Ed; unfold dkeys; rewrite map_map; reflexivity).
    assert (Hn : NoDup (dkeys d)) by (rewrite Kd; exact N).
    assert (Hi : forall p, In p ps -> dget (pg_id p) d = Some p).
    { intros p Hp. apply In_dget; [exact Hn|]. rewrite Ed. apply in_map_iff. eauto. }
    assert (Hh : forall p, held f p <-> In p ps).
    { intros p. unfold held. cbn [f f_progs]. rewrite Ed. unfold dvals. rewrite map_map. cbn. rewrite map_id. tauto. }
    destruct (reachable_rep sub its Hr) as [l Hl].
    assert (M : forall p, missing_refs f p = false <-> forall u, In u (pg_order p) -> pile_contains its (RId u) = true).
    { intros p. apply (missing_refs_spec f p). exists l. exact Hl. }
    destruct (existsb (missing_refs f) ps) eqn:E.
    - right. apply existsb_exists in E. destruct E as (p & Hp & Hm). split; [reflexivity|]. split; [exact N|].
      exists p. unfold missing_refs in Hm. apply existsb_exists in Hm. destruct Hm as (u & Hu & Hk). exists u. split; [exact Hp|]. split; [exact Hu|].
      destruct (pile_contains its (RId u)) eqn:D; [|reflexivity]. exfalso. change (dmem u (p_items its) = true) in D.
      rewrite (rep_dmem sub _ _ u Hl) in D. destruct Hl as [Ho _]. cbn [f f_items] in Hk. unfold pile_keys in Hk. rewrite Ho in Hk.
      apply shas_In in D. apply memb_In in D. rewrite D in Hk. discriminate.
    - split; [exact N|]. split; [reflexivity|]. split; [exact Hh|]. split; [|split; [|split]].
      + intros p u Hp Hu. apply Hh in Hp. assert (Hm : missing_refs f p = false).
        { destruct (missing_refs f p) eqn:X; [|reflexivity]. assert (existsb (missing_refs f) ps = true) by (apply existsb_exists; eauto). congruence. }
        exact (proj1 (M p) Hm u Hu).
      + intros p Hp. cbn. rewrite (Hi p Hp). reflexivity.
      + intros a p b s parsed Heq Hc Hb. cbn. rewrite (index_names_last ps a p b s Heq Hc Hb), Hi; [reflexivity|].
        rewrite Heq. apply in_or_app. right. left. reflexivity.
      + intros s Hs. cbn. rewrite (index_names_none ps s Hs). reflexivity.
  Qed.
End P.
