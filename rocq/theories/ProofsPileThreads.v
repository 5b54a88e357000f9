(** Proofs about ModelPileThreads: lock invariant, linearizability, iteration. *)
From Coq Require Import List ZArith Bool Lia Arith Permutation.
From Verif Require Import PyBase PyFacts ModelProgression SpecProgression ProofsProgression
  ModelPile SpecPile ProofsPile ModelPileThreads SpecPileThreads.
Import ListNotations.

Section P.
  Variable sub : cls -> cls -> bool.
  Notation rep := (rep sub).
  Notation tstep := (tstep sub).
  Notation trun := (trun sub).

  Definition holding (q : pc) : bool :=
    match q with Body _ _ => true | q => mid_write q end.

  (** The continuation belongs to the operation. *)
  Definition kok (o : pile_op) (k : cont) : Prop :=
    match k with
    | KNone => True
    | KInc a => o = PAdd a /\ exists u, oid_of a = Some u
    | KExc u => o = PRemove (RId u)
    end.

  Definition pc_ok (q : pc) : Prop :=
    match q with
    | Want o k | Body o k => is_locked o = true /\ kok o k
    | AddMid x k => kok (PAdd (OElem x)) k
    | RemMid o u _ k => kok o k /\
        exists r, coerce_id r = Ret u /\ (o = PRemove r \/ exists d, o = PPop r d)
    | ClearMid k => k = KNone
    | IncChk o => exists u, oid_of o = Some u
    | _ => True
    end.

  (** Shape of the stores for the control state of the lock holder. *)
  Definition shape (p : pile) (q : pc) (l : list item) : Prop :=
    match q with
    | AddMid x _ => exists d, p_items p = dset (iid x) x d /\
        rep (set_stores p d (p_order p)) l /\ ~ In (iid x) (map iid l) /\
        allowed sub (p_types p) (p_strict p) x
    | RemMid _ u x _ => exists d, p_items p = ddel u d /\
        rep (set_stores p d (p_order p)) l /\ sget l u = Some x
    | ClearMid _ => p_items p = [] /\ exists d, rep (set_stores p d (p_order p)) l
    | _ => rep p l
    end.

  Record Inv (c : cfg) (l : list item) : Prop := {
    i_shape : match c_lock c with
              | None => rep (c_pile c) l
              | Some t => shape (c_pile c) (c_pcs c t) l
              end;
    i_hold : forall t, holding (c_pcs c t) = true <-> c_lock c = Some t;
    i_ok : forall t, pc_ok (c_pcs c t)
  }.

  Lemma upd_same : forall f t q, upd f t q t = q.
  Proof. intros; unfold upd; rewrite Nat.eqb_refl; reflexivity. Qed.
  Lemma upd_other : forall f t q t', t' <> t -> upd f t q t' = f t'.
  Proof. intros; unfold upd; destruct (Nat.eqb_spec t' t); congruence. Qed.

  Lemma rep_set_eta : forall p l, rep (set_stores p (p_items p) (p_order p)) l <-> rep p l.
  Proof. intros [a b c d] l; reflexivity. Qed.

  (** A step that only moves a thread between non-holding states. *)
  Lemma Inv_move : forall c l t q, Inv c l -> holding (c_pcs c t) = false ->
    holding q = false -> pc_ok q -> Inv (set_pc c t q) l.
  Proof.
    intros c l t q [Hs Hh Ho] H1 H2 H3. constructor; simpl.
    - destruct (c_lock c) as [t0|] eqn:El; [|exact Hs].
      rewrite upd_other; [exact Hs|]. intros ->. assert (holding (c_pcs c t) = true) by (apply Hh; reflexivity). congruence.
    - intros t0. destruct (Nat.eq_dec t0 t) as [->|Hne].
      + rewrite upd_same, <- Hh, H1, H2. reflexivity.
      + rewrite upd_other by exact Hne. apply Hh.
    - intros t0. destruct (Nat.eq_dec t0 t) as [->|Hne];
        [rewrite upd_same; exact H3 | rewrite upd_other by exact Hne; apply Ho].
  Qed.

  (** Releasing the lock. *)
  Lemma Inv_finish : forall c l t p o v k l', Inv c l -> c_lock c = Some t ->
    rep p l' -> Inv (fst (finish c t p o v k)) l'.
  Proof.
    intros c l t p o v k l' [Hs Hh Ho] Hl Hr. constructor; simpl.
    - exact Hr.
    - intros t0. destruct (Nat.eq_dec t0 t) as [->|Hne].
      + rewrite upd_same. simpl. split; discriminate.
      + rewrite upd_other by exact Hne. rewrite Hh. split; [congruence | discriminate].
    - intros t0. destruct (Nat.eq_dec t0 t) as [->|Hne];
        [rewrite upd_same; exact I | rewrite upd_other by exact Hne; apply Ho].
  Qed.

  (** The lock holder moves to another holding state. *)
  Lemma Inv_hold : forall c l t p q, Inv c l -> c_lock c = Some t ->
    holding q = true -> pc_ok q -> shape p q l ->
    Inv (Cfg p (c_lock c) (upd (c_pcs c) t q)) l.
  Proof.
    intros c l t p q [Hs Hh Ho] Hl Hq Hok Hsh. constructor; simpl.
    - rewrite Hl, upd_same. exact Hsh.
    - intros t0. destruct (Nat.eq_dec t0 t) as [->|Hne].
      + rewrite upd_same, Hq. rewrite Hl; tauto.
      + rewrite upd_other by exact Hne. apply Hh.
    - intros t0. destruct (Nat.eq_dec t0 t) as [->|Hne];
        [rewrite upd_same; exact Hok | rewrite upd_other by exact Hne; apply Ho].
  Qed.

  Lemma done_finish : forall c t p o v k,
    done_ops (snd (finish c t p o v k)) = [o] /\ done_vals (snd (finish c t p o v k)) = [v].
  Proof. intros; destruct k; split; reflexivity. Qed.

  (** Configuration of the pile is constant along a run. *)
  Definition cfg_ty (c : cfg) := p_types (c_pile c).
  Definition cfg_st (c : cfg) := p_strict (c_pile c).

  Definition step_ok (c : cfg) (l : list item) (r : cfg * list event) : Prop :=
    let ops := done_ops (snd r) in
    Inv (fst r) (srun sub (cfg_ty c) (cfg_st c) l ops) /\
    Forall2 (fun v s => agrees v s (cfg_ty c) (cfg_st c)) (done_vals (snd r))
            (souts sub (cfg_ty c) (cfg_st c) l ops) /\
    cfg_ty (fst r) = cfg_ty c /\ cfg_st (fst r) = cfg_st c.

  Lemma step_ok_quiet : forall c l c' es, Inv c' l -> done_ops es = [] -> done_vals es = [] ->
    p_types (c_pile c') = p_types (c_pile c) -> p_strict (c_pile c') = p_strict (c_pile c) ->
    step_ok c l (c', es).
  Proof.
    intros c l c' es Hi He Hv Ht Hs. unfold step_ok; simpl. rewrite He, Hv. simpl.
    repeat split; auto; apply Hi.
  Qed.

  Lemma step_ok_finish : forall c l t p o v k, Inv c l -> c_lock c = Some t ->
    rep p (fst (sstep sub (cfg_ty c) (cfg_st c) l o)) ->
    agrees v (snd (sstep sub (cfg_ty c) (cfg_st c) l o)) (cfg_ty c) (cfg_st c) ->
    p_types p = cfg_ty c -> p_strict p = cfg_st c ->
    step_ok c l (finish c t p o v k).
  Proof.
    intros c l t p o v k Hi Hl Hr Ha Ht Hs. unfold step_ok.
    destruct (done_finish c t p o v k) as [H1 H2]. rewrite H1, H2. simpl.
    split; [apply (Inv_finish c l t p o v k); auto|]. split; [constructor; [exact Ha | constructor]|].
    split; auto.
  Qed.

  (** A one-shot locked method. *)
  Lemma step_ok_atomic : forall c l t o k, Inv c l -> c_lock c = Some t ->
    rep (c_pile c) l ->
    step_ok c l (finish c t (fst (pile_step sub (c_pile c) o)) o (snd (pile_step sub (c_pile c) o)) k).
  Proof.
    intros c l t o k Hi Hl Hr.
    pose proof (pile_step_refines sub (c_pile c) l o Hr) as Hs.
    fold (cfg_ty c) (cfg_st c) in Hs.
    destruct (pile_step sub (c_pile c) o) as [p' v]. simpl.
    destruct (sstep sub (cfg_ty c) (cfg_st c) l o) as [l' s] eqn:E.
    destruct Hs as [H1 [H2 [H3 H4]]].
    apply step_ok_finish; auto; rewrite E; auto.
  Qed.

  Theorem tstep_ok : forall c l t a, Inv c l -> step_ok c l (tstep c t a).
  Proof.
    intros c l t a Hi. pose proof Hi as [Hs Hh Ho]. pose proof (Ho t) as Hok.
    unfold ModelPileThreads.tstep. destruct (c_pcs c t) as [|o k|o k|x k|o u x k|k|o|u|n|n u] eqn:Ep.
    - (* idle *)
      destruct a as [o|o|r|].
      + destruct (is_locked o) eqn:El; apply step_ok_quiet; auto.
        apply Inv_move; simpl; auto; rewrite Ep; reflexivity.
      + destruct (oid_of o) eqn:Eo; apply step_ok_quiet; auto.
        apply Inv_move; simpl; eauto; rewrite Ep; reflexivity.
      + destruct (coerce_id r) eqn:Eo; apply step_ok_quiet; auto.
        apply Inv_move; simpl; eauto; rewrite Ep; reflexivity.
      + apply step_ok_quiet; auto. apply Inv_move; simpl; auto; rewrite Ep; reflexivity.
    - (* want *)
      destruct (c_lock c) as [t0|] eqn:El; apply step_ok_quiet; auto.
      constructor; simpl.
      + rewrite upd_same. simpl. exact Hs.
      + intros t0. destruct (Nat.eq_dec t0 t) as [->|Hne].
        * rewrite upd_same. simpl; tauto.
        * rewrite upd_other by exact Hne. rewrite Hh. split; congruence.
      + intros t0. destruct (Nat.eq_dec t0 t) as [->|Hne];
          [rewrite upd_same; exact Hok | rewrite upd_other by exact Hne; apply Ho].
    - (* body *)
      assert (Hl : c_lock c = Some t) by (apply Hh; rewrite Ep; reflexivity).
      rewrite Hl, Ep in Hs. simpl in Hs. destruct Hok as [Hlk Hk].
      unfold body. destruct o; try discriminate Hlk;
        try (apply step_ok_atomic; assumption).
      + (* add *)
        destruct (validate_type sub (c_pile c) o) as [x|e] eqn:Ev.
        * destruct o as [x0|]; [|discriminate].
          rewrite validate_elem in Ev.
          destruct (allowedb sub (p_types (c_pile c)) (p_strict (c_pile c)) x0) eqn:Ea;
            [|discriminate]. inversion Ev; subst x0.
          rewrite (rep_dmem sub _ _ (iid x) Hs). destruct (shas l (iid x)) eqn:Es.
          -- apply step_ok_finish; auto; simpl; unfold cfg_ty, cfg_st; rewrite Ea, Es; simpl; auto.
          -- apply step_ok_quiet; auto. apply Inv_hold; auto. simpl.
             exists (p_items (c_pile c)). split; [reflexivity|]. split.
             ++ destruct (c_pile c); exact Hs.
             ++ split; [|apply allowedb_spec; exact Ea].
                intros Hc. apply (shas_In) in Hc. congruence.
        * destruct o as [x0|].
          -- rewrite validate_elem in Ev.
             destruct (allowedb sub (p_types (c_pile c)) (p_strict (c_pile c)) x0) eqn:Ea;
               [discriminate|]. inversion Ev; subst.
             apply step_ok_finish; auto; simpl; unfold cfg_ty, cfg_st; rewrite Ea; simpl; auto.
          -- inversion Ev; subst. apply step_ok_finish; simpl; auto.
      + (* remove *)
        destruct (coerce_id r) as [u|e] eqn:Er.
        * rewrite (rep_dget sub _ _ u Hs). destruct (sget l u) as [x|] eqn:Eg.
          -- apply step_ok_quiet; auto. apply Inv_hold; auto.
             ++ simpl. split; [exact Hk|]. exists r. auto.
             ++ simpl. exists (p_items (c_pile c)). split; [reflexivity|].
                split; [destruct (c_pile c); exact Hs | exact Eg].
          -- apply step_ok_finish; auto; simpl; rewrite Er, Eg; simpl; auto.
        * apply step_ok_finish; auto; simpl; rewrite Er; simpl; auto.
      + (* pop *)
        destruct (coerce_id r) as [u|e] eqn:Er.
        * rewrite (rep_dget sub _ _ u Hs). destruct (sget l u) as [x|] eqn:Eg.
          -- apply step_ok_quiet; auto. apply Inv_hold; auto.
             ++ simpl. split; [exact Hk|]. exists r. eauto.
             ++ simpl. exists (p_items (c_pile c)). split; [reflexivity|].
                split; [destruct (c_pile c); exact Hs | exact Eg].
          -- apply step_ok_finish; auto; simpl; rewrite Er, Eg; simpl; auto. destruct d; simpl; auto.
        * apply step_ok_finish; auto; simpl; rewrite Er; simpl; auto.
      + (* clear *)
        apply step_ok_quiet; auto. apply Inv_hold; auto.
        * simpl. destruct k; simpl in Hk; auto; [destruct Hk; discriminate | discriminate].
        * simpl. split; [reflexivity|]. exists (p_items (c_pile c)).
          destruct (c_pile c); exact Hs.
    - (* add, second half *)
      assert (Hl : c_lock c = Some t) by (apply Hh; rewrite Ep; reflexivity).
      rewrite Hl, Ep in Hs. destruct Hs as [d [Hd [Hr [Hni Ha]]]].
      pose proof (rep_add sub _ _ x Hr Ha Hni) as Hr'.
      apply step_ok_finish; auto; unfold cfg_ty, cfg_st; simpl.
      + rewrite (proj2 (allowedb_spec _ _ _ _) Ha). simpl.
        destruct (shas l (iid x)) eqn:Es; [apply shas_In in Es; contradiction|].
        simpl. rewrite Hd. simpl in Hr'. exact Hr'.
      + rewrite (proj2 (allowedb_spec _ _ _ _) Ha). simpl.
        destruct (shas l (iid x)) eqn:Es; [apply shas_In in Es; contradiction|]. exact I.
    - (* remove, second half *)
      assert (Hl : c_lock c = Some t) by (apply Hh; rewrite Ep; reflexivity).
      rewrite Hl, Ep in Hs. destruct Hs as [d [Hd [Hr Hg]]].
      destruct (rep_del sub _ _ _ _ Hr Hg) as [o' [Hrm Hr']]. simpl in Hrm. rewrite Hrm.
      destruct Hok as [_ [r [Hr1 Hr2]]].
      apply step_ok_finish; auto.
      + destruct Hr2 as [->|[dd ->]]; simpl; rewrite Hr1, Hg, Hd; exact Hr'.
      + destruct Hr2 as [->|[dd ->]]; simpl; rewrite Hr1, Hg; reflexivity.
    - (* clear, second half *)
      assert (Hl : c_lock c = Some t) by (apply Hh; rewrite Ep; reflexivity).
      rewrite Hl, Ep in Hs. destruct Hs as [Hd [d Hr]].
      apply step_ok_finish; auto; simpl; auto.
      rewrite Hd. repeat split; simpl; try tauto; try constructor.
    - (* include check *)
      destruct Hok as [u Hu]. rewrite Hu.
      destruct (dmem u (p_items (c_pile c))); apply step_ok_quiet; auto;
        apply Inv_move; simpl; eauto; rewrite Ep; reflexivity.
    - (* exclude check *)
      destruct (dmem u (p_items (c_pile c))); apply step_ok_quiet; auto;
        apply Inv_move; simpl; eauto; rewrite Ep; reflexivity.
    - destruct (nth_error _ _); apply step_ok_quiet; auto;
        apply Inv_move; simpl; eauto; rewrite Ep; reflexivity.
    - destruct (dget _ _); apply step_ok_quiet; auto;
        apply Inv_move; simpl; eauto; rewrite Ep; reflexivity.
  Qed.

  Lemma done_ops_app : forall a b, done_ops (a ++ b) = done_ops a ++ done_ops b.
  Proof. induction a as [|ev a IH]; intros b; [reflexivity|]; destruct ev; simpl; rewrite ?IH; reflexivity. Qed.
  Lemma done_vals_app : forall a b, done_vals (a ++ b) = done_vals a ++ done_vals b.
  Proof. induction a as [|ev a IH]; intros b; [reflexivity|]; destruct ev; simpl; rewrite ?IH; reflexivity. Qed.
  Lemma souts_app : forall ty st a b l, souts sub ty st l (a ++ b) =
    souts sub ty st l a ++ souts sub ty st (srun sub ty st l a) b.
  Proof.
    intros ty st a; induction a as [|o t IH]; intros b l; simpl; [reflexivity|].
    rewrite IH; reflexivity.
  Qed.
  Lemma srun_app : forall ty st a b l, srun sub ty st l (a ++ b) =
    srun sub ty st (srun sub ty st l a) b.
  Proof. intros; unfold srun; apply fold_left_app. Qed.

  Theorem trun_ok : forall s c l, Inv c l -> step_ok c l (trun c s).
  Proof.
    induction s as [|[t a] s IH]; intros c l Hi; simpl.
    - apply step_ok_quiet; auto.
    - pose proof (tstep_ok c l t a Hi) as Hst. destruct (tstep c t a) as [c1 e1].
      destruct Hst as [H1 [H2 [H3 H4]]]. simpl in *.
      pose proof (IH c1 _ H1) as Hst. destruct (trun c1 s) as [c2 e2].
      destruct Hst as [H5 [H6 [H7 H8]]]. simpl in *.
      rewrite H3, H4 in *. unfold step_ok; simpl.
      rewrite done_ops_app, done_vals_app, srun_app, souts_app.
      split; [exact H5|]. split; [apply Forall2_app; assumption|]. split; congruence.
  Qed.

  Lemma Inv_init : forall p l, rep p l -> Inv (tinit p) l.
  Proof.
    intros p l Hr. constructor; simpl; auto. intros t; split; discriminate.
  Qed.

  Lemma treach_Inv : forall p0 s c es, treach sub p0 s c es ->
    exists l0, pile_iter p0 = Ret l0 /\
      Inv c (srun sub (p_types p0) (p_strict p0) l0 (done_ops es)) /\
      Forall2 (fun v x => agrees v x (p_types p0) (p_strict p0)) (done_vals es)
              (souts sub (p_types p0) (p_strict p0) l0 (done_ops es)).
  Proof.
    intros p0 s c es [Hr Ht]. destruct (reachable_rep sub p0 Hr) as [l0 Hl].
    pose proof (trun_ok s (tinit p0) l0 (Inv_init p0 l0 Hl)) as Hst. rewrite Ht in Hst.
    destruct Hst as [H1 [H2 _]]. exists l0. split; [eapply rep_iter; eauto|]. auto.
  Qed.

  (** Linearizability. *)
  Theorem linearizable : forall p0 s c es l0, treach sub p0 s c es -> pile_iter p0 = Ret l0 ->
    Forall2 (fun v x => agrees v x (p_types p0) (p_strict p0)) (done_vals es)
            (souts sub (p_types p0) (p_strict p0) l0 (done_ops es)) /\
    (quiet c -> coherent (c_pile c) /\
       pile_iter (c_pile c) = Ret (srun sub (p_types p0) (p_strict p0) l0 (done_ops es))).
  Proof.
    intros p0 s c es l0 Ht Hi. destruct (treach_Inv _ _ _ _ Ht) as [l [H1 [H2 H3]]].
    rewrite Hi in H1; inversion H1; subst l. split; [exact H3|].
    intros Hq. assert (Hr : rep (c_pile c) (srun sub (p_types p0) (p_strict p0) l0 (done_ops es))).
    { destruct H2 as [Hs Hh _]. destruct (c_lock c) as [t|] eqn:El; [|exact Hs].
      specialize (Hq t). assert (El' : holding (c_pcs c t) = true) by (apply Hh; reflexivity). destruct (c_pcs c t); simpl in *; try discriminate; exact Hs. }
    split; [eapply rep_coherent; eauto | eapply rep_iter; eauto].
  Qed.

  (** Mutual exclusion and progress of the lock holder. *)
  Theorem mutex : forall p0 s c es t1 t2, treach sub p0 s c es ->
    mid_write (c_pcs c t1) = true -> mid_write (c_pcs c t2) = true -> t1 = t2.
  Proof.
    intros p0 s c es t1 t2 Ht H1 H2. destruct (treach_Inv _ _ _ _ Ht) as [l [_ [[_ Hh _] _]]].
    assert (G : forall t, mid_write (c_pcs c t) = true -> c_lock c = Some t).
    { intros t Hm. apply Hh. destruct (c_pcs c t); simpl in *; auto. }
    apply G in H1; apply G in H2; congruence.
  Qed.

  Theorem holder_releases : forall p0 s c es t a b, treach sub p0 s c es -> c_lock c = Some t ->
    c_lock (fst (tstep c t a)) = None \/
    c_lock (fst (tstep (fst (tstep c t a)) t b)) = None.
  Proof.
    intros p0 s c es t a b Ht Hl. destruct (treach_Inv _ _ _ _ Ht) as [l [_ [Hi _]]].
    pose proof Hi as [_ Hh _]. pose proof (proj2 (Hh t) Hl) as Hp.
    assert (Hmid : forall c0 t0 a0, mid_write (c_pcs c0 t0) = true ->
              c_lock (fst (tstep c0 t0 a0)) = None).
    { intros c0 t0 a0 Hm. unfold ModelPileThreads.tstep.
      destruct (c_pcs c0 t0); simpl in Hm; try discriminate; try reflexivity.
      destruct (remove_first _ _); reflexivity. }
    destruct (mid_write (c_pcs c t)) eqn:Em; [left; auto|].
    destruct (c_pcs c t) eqn:Ep; simpl in Hp, Em; try discriminate.
    unfold ModelPileThreads.tstep at 1. rewrite Ep.
    destruct (body sub c t o k) as [c1 e1] eqn:Eb.
    assert (Hcase : c_lock c1 = None \/ mid_write (c_pcs c1 t) = true).
    { unfold body in Eb.
      destruct o; simpl in Eb;
        repeat match type of Eb with context [match ?x with _ => _ end] => destruct x end;
        inversion Eb; subst; simpl; rewrite ?upd_same; auto. }
    destruct Hcase as [Hc|Hc]; [left; exact Hc|]. right.
    unfold ModelPileThreads.tstep at 2. rewrite Ep, Eb. apply Hmid; exact Hc.
  Qed.

  (** include / exclude return values. *)
  Lemma add_mid_mem : forall c l t x k, Inv c l -> c_pcs c t = AddMid x k ->
    dmem (iid x) (p_items (c_pile c)) = true.
  Proof.
    intros c l t x k [Hs Hh _] Ep.
    assert (Hl : c_lock c = Some t) by (apply Hh; rewrite Ep; reflexivity).
    rewrite Hl, Ep in Hs. destruct Hs as [d [Hd _]]. rewrite Hd.
    apply dmem_true. rewrite In_dkeys_dset. auto.
  Qed.

  Definition inc_meaning (c c' : cfg) (t : tid) (e : event) : Prop :=
    match e with
    | EInc _ o true => exists u, oid_of o = Some u /\ pile_contains (c_pile c') (RId u) = true
    | EInc _ o false =>
        match o with
        | OOther _ => True
        | OElem x => ~ allowed sub (cfg_ty c) (cfg_st c) x \/
                     pile_contains (c_pile c') (RId (iid x)) = true
        end
    | EExc _ (Some u) _ => pile_contains (c_pile c') (RId u) = false
    | EExc _ None b => b = false
    | _ => True
    end.

  Lemma finish_meaning : forall c c0 t p o v k,
    c_pile c0 = c_pile c ->
    match k with
    | KNone => True
    | KInc a => inc_meaning c (fst (finish c0 t p o v k)) t (EInc t a (negb (is_raise v)))
    | KExc u => inc_meaning c (fst (finish c0 t p o v k)) t (EExc t (Some u) (negb (is_raise v)))
    end ->
    Forall (inc_meaning c (fst (finish c0 t p o v k)) t) (snd (finish c0 t p o v k)).
  Proof.
    intros c c0 t p o v k He Hk. destruct k; simpl; repeat constructor; auto; try exact Hk.
  Qed.

  Theorem step_meaning : forall c l t a, Inv c l ->
    Forall (inc_meaning c (fst (tstep c t a)) t) (snd (tstep c t a)).
  Proof.
    intros c l t a Hi. pose proof Hi as [Hs Hh Ho]. pose proof (Ho t) as Hok.
    pose proof (tstep_ok c l t a Hi) as Hst.
    unfold ModelPileThreads.tstep in *.
    destruct (c_pcs c t) as [|o k|o k|x k|o u x k|k|o|u|n|n u] eqn:Ep.
    - destruct a as [o|o|r|]; simpl.
      + destruct (is_locked o); constructor.
      + destruct (oid_of o) eqn:Eo; simpl; repeat constructor.
        simpl. destruct o; [discriminate | exact I].
      + destruct (coerce_id r); simpl; repeat constructor.
      + repeat constructor.
    - destruct (c_lock c); constructor.
    - assert (Hl : c_lock c = Some t) by (apply Hh; rewrite Ep; reflexivity).
      rewrite Hl, Ep in Hs. simpl in Hs. destruct Hok as [Hlk Hk].
      unfold body. destruct o; try discriminate Hlk;
        try (apply finish_meaning; [reflexivity|]; destruct k; simpl in Hk;
             [exact I | destruct Hk; discriminate | discriminate]).
      + destruct (validate_type sub (c_pile c) o) as [x|e] eqn:Ev.
        * destruct o as [x0|]; [|discriminate]. rewrite validate_elem in Ev.
          destruct (allowedb _ _ _ x0) eqn:Ea; [|discriminate]. inversion Ev; subst x0.
          destruct (dmem (iid x) (p_items (c_pile c))) eqn:Em; [|constructor].
          apply finish_meaning; [reflexivity|]. destruct k; simpl in Hk;
            [exact I | | discriminate].
          destruct Hk as [Hk _]. inversion Hk; subst. simpl. right.
          unfold pile_contains; simpl. exact Em.
        * apply finish_meaning; [reflexivity|]. destruct k; simpl in Hk;
            [exact I | | discriminate].
          destruct Hk as [Hk _]. inversion Hk; subst. simpl.
          destruct o0 as [x0|]; [|exact I]. left. rewrite validate_elem in Ev.
          destruct (allowedb _ _ _ x0) eqn:Ea; [discriminate|].
          intros Hc. apply allowedb_spec in Hc. unfold cfg_ty, cfg_st in Hc. congruence.
      + destruct (coerce_id r) as [u|e] eqn:Er.
        * destruct (dget u (p_items (c_pile c))) eqn:Eg; [constructor|].
          apply finish_meaning; [reflexivity|]. destruct k; simpl in Hk;
            [exact I | destruct Hk; discriminate |].
          inversion Hk; subst. simpl in Er. inversion Er; subst.
          simpl. unfold pile_contains; simpl. apply dmem_false. apply dget_None. exact Eg.
        * apply finish_meaning; [reflexivity|]. destruct k; simpl in Hk;
            [exact I | destruct Hk; discriminate |].
          inversion Hk; subst. discriminate Er.
      + destruct (coerce_id r) as [u|e] eqn:Er.
        * destruct (dget u (p_items (c_pile c))) eqn:Eg; [constructor|].
          apply finish_meaning; [reflexivity|]. destruct k; simpl in Hk;
            [exact I | destruct Hk; discriminate | discriminate].
        * apply finish_meaning; [reflexivity|]. destruct k; simpl in Hk;
            [exact I | destruct Hk; discriminate | discriminate].
      + constructor.
    - apply finish_meaning; [reflexivity|]. destruct k; simpl in Hok;
        [exact I | | discriminate].
      destruct Hok as [Hk _]. inversion Hk; subst. simpl.
      exists (iid x). split; [reflexivity|]. unfold pile_contains; simpl.
      eapply add_mid_mem; eauto.
    - assert (Hl : c_lock c = Some t) by (apply Hh; rewrite Ep; reflexivity).
      rewrite Hl, Ep in Hs. destruct Hs as [d [Hd [Hr Hg]]].
      destruct (rep_del sub _ _ _ _ Hr Hg) as [o' [Hrm Hr']]. simpl in Hrm. rewrite Hrm.
      destruct Hok as [Hk [r [Hr1 Hr2]]].
      apply finish_meaning; [reflexivity|]. destruct k; simpl in Hk; [exact I | |].
      + destruct Hk as [Hk _]. destruct Hr2 as [Hr2|[dd Hr2]]; congruence.
      + destruct Hr2 as [Hr2|[dd Hr2]]; [|congruence].
        assert (u = u0) by (subst o; inversion Hr2; subst; simpl in Hr1; congruence). subst u0.
        simpl. unfold pile_contains; simpl.
        destruct Hr as (_ & _ & _ & _ & Hnd & _). simpl in Hnd.
        rewrite Hd. apply dmem_false. rewrite In_dkeys_ddel by exact Hnd. tauto.
    - apply finish_meaning; [reflexivity|]. simpl in Hok; subst; exact I.
    - destruct Hok as [u Hu]. rewrite Hu.
      destruct (dmem u (p_items (c_pile c))) eqn:Em; simpl; repeat constructor.
      exists u. split; [exact Hu | exact Em].
    - destruct (dmem u (p_items (c_pile c))) eqn:Em; simpl; repeat constructor. exact Em.
    - destruct (nth_error _ _); simpl; repeat constructor.
    - destruct (dget _ _); simpl; repeat constructor.
  Qed.

  Theorem reach_meaning : forall p0 s c es t a, treach sub p0 s c es ->
    Forall (inc_meaning c (fst (tstep c t a)) t) (snd (tstep c t a)).
  Proof.
    intros p0 s c es t a Ht. destruct (treach_Inv _ _ _ _ Ht) as [l [_ [Hi _]]].
    eapply step_meaning; eauto.
  Qed.

  Theorem include_true : forall p0 s c es t a t' o, treach sub p0 s c es ->
    In (EInc t' o true) (snd (tstep c t a)) ->
    exists u, oid_of o = Some u /\ pile_contains (c_pile (fst (tstep c t a))) (RId u) = true.
  Proof.
    intros p0 s c es t a t' o Ht Hin. pose proof (reach_meaning _ _ _ _ t a Ht) as Hf.
    rewrite Forall_forall in Hf. apply (Hf _ Hin).
  Qed.

  Theorem include_false : forall p0 s c es t a t' x, treach sub p0 s c es ->
    In (EInc t' (OElem x) false) (snd (tstep c t a)) ->
    ~ allowed sub (cfg_ty c) (cfg_st c) x \/
    pile_contains (c_pile (fst (tstep c t a))) (RId (iid x)) = true.
  Proof.
    intros p0 s c es t a t' x Ht Hin. pose proof (reach_meaning _ _ _ _ t a Ht) as Hf.
    rewrite Forall_forall in Hf. apply (Hf _ Hin).
  Qed.

  Theorem exclude_any : forall p0 s c es t a t' u b, treach sub p0 s c es ->
    In (EExc t' (Some u) b) (snd (tstep c t a)) ->
    pile_contains (c_pile (fst (tstep c t a))) (RId u) = false.
  Proof.
    intros p0 s c es t a t' u b Ht Hin. pose proof (reach_meaning _ _ _ _ t a Ht) as Hf.
    rewrite Forall_forall in Hf. apply (Hf _ Hin).
  Qed.

  (** Iteration while the pile only grows. *)
  Lemma grow_step : forall c l t a, Inv c l -> (forall t', grow_pc (c_pcs c t') = true) ->
    grow_call a = true ->
    (forall t', grow_pc (c_pcs (fst (tstep c t a)) t') = true) /\
    exists e, p_order (c_pile (fst (tstep c t a))) = p_order (c_pile c) ++ e.
  Proof.
    intros c l t a Hi Hg Ha. pose proof (Hg t) as Hgt.
    pose proof Hi as [_ _ Ho]. specialize (Ho t).
    assert (Hup : forall q, grow_pc q = true ->
              forall t', grow_pc (upd (c_pcs c) t q t') = true).
    { intros q Hq t'. unfold upd. destruct (t' =? t); auto. }
    assert (Hnil : exists e, p_order (c_pile c) = p_order (c_pile c) ++ e)
      by (exists []; rewrite app_nil_r; reflexivity).
    unfold ModelPileThreads.tstep.
    destruct (c_pcs c t) as [|o k|o k|x k|o u x k|k|o|u|n|n u] eqn:Ep; simpl in Hgt; try discriminate.
    - destruct a as [o|o|r|]; simpl in Ha; try discriminate.
      + destruct (is_locked o); split; auto. simpl; apply Hup; exact Ha.
      + destruct (oid_of o); split; auto; try (simpl; apply Hup; reflexivity).
      + split; auto. simpl; apply Hup; reflexivity.
    - destruct (c_lock c); split; auto. simpl; apply Hup; exact Hgt.
    - destruct Ho as [Hlk _]. unfold body. destruct o; try discriminate; simpl;
        try (split; [simpl; apply Hup; reflexivity | exact Hnil]).
      + destruct (validate_type sub (c_pile c) o) as [x|]; simpl;
          [destruct (dmem _ _); simpl|]; (split; [simpl; apply Hup; reflexivity | exact Hnil]).
      + split; [simpl; apply Hup; reflexivity|]. unfold pile_update.
        destruct (validate_type sub (c_pile c) o) as [x|]; [|exact Hnil].
        destruct (dmem _ _); exact Hnil.
    - simpl. split; [simpl; apply Hup; reflexivity|]. eauto.
    - destruct (oid_of o) as [u|]; [destruct (dmem u _)|]; split; auto; simpl; apply Hup; reflexivity.
    - destruct (nth_error _ _); split; auto; simpl; apply Hup; reflexivity.
    - destruct (dget _ _); split; auto; simpl; apply Hup; reflexivity.
  Qed.

  Lemma order_in_items : forall c l u, Inv c l -> (forall t', grow_pc (c_pcs c t') = true) ->
    In u (p_order (c_pile c)) -> exists x, dget u (p_items (c_pile c)) = Some x /\ iid x = u.
  Proof.
    intros c l u [Hs Hh Ho] Hg Hu.
    assert (Hrep : forall p, rep p l -> In u (p_order p) ->
              exists x, dget u (p_items p) = Some x /\ iid x = u).
    { intros p (H1 & _ & H2 & _) Hin. rewrite H1 in Hin. apply in_map_iff in Hin.
      destruct Hin as [x [Hx Hin]]. exists x. rewrite <- Hx. auto. }
    destruct (c_lock c) as [t|] eqn:El; [|apply Hrep; assumption].
    pose proof (Hg t) as Hgt. assert (El' : holding (c_pcs c t) = true) by (apply Hh; reflexivity).
    destruct (c_pcs c t) eqn:Ep; simpl in *; try discriminate; try (apply Hrep; assumption).
    destruct Hs as [d [Hd [Hr [Hni _]]]].
    destruct (Hrep _ Hr Hu) as [y [Hy He]]. simpl in Hy. exists y. rewrite Hd.
    rewrite dget_dset_other; [auto|]. intros Hc. apply Hni. rewrite <- Hc.
    destruct Hr as (H1 & _). simpl in H1. rewrite <- H1. exact Hu.
  Qed.

  Lemma order_NoDup : forall c l, Inv c l -> NoDup (p_order (c_pile c)).
  Proof.
    intros c l [Hs Hh _].
    assert (Hrep : forall p, rep p l -> NoDup (p_order p)) by (intros p (-> & H & _); exact H).
    destruct (c_lock c) as [t|]; [|auto].
    destruct (c_pcs c t); simpl in Hs; auto.
    - destruct Hs as [d [_ [Hr _]]]. apply (Hrep _ Hr).
    - destruct Hs as [d [_ [Hr _]]]. apply (Hrep _ Hr).
    - destruct Hs as [_ [d Hr]]. apply (Hrep _ Hr).
  Qed.

  Definition other_tid (t : tid) (e : event) : Prop :=
    match e with EYield t' _ | EStop t' | EIterErr t' => t' <> t | _ => True end.

  Lemma iter_scan_skip : forall t es r, Forall (other_tid t) es ->
    iter_scan t (es ++ r) = iter_scan t r.
  Proof.
    intros t es r Hf; induction Hf as [|e es He Hf IH]; [reflexivity|].
    destruct e; simpl in *; try exact IH;
      (destruct (Nat.eqb_spec t0 t); [contradiction | exact IH]).
  Qed.

  Lemma step_other_events : forall c t a t0, t0 <> t ->
    Forall (other_tid t0) (snd (tstep c t a)).
  Proof.
    intros c t a t0 Hne. unfold ModelPileThreads.tstep, body, finish.
    destruct (c_pcs c t) as [|o k|o k|x k|o u x k|k|o|u|n|n u];
      try destruct a; try destruct o; simpl;
      repeat match goal with |- context [match ?x with _ => _ end] => destruct x; simpl end;
      repeat constructor; simpl; auto.
  Qed.

  Lemma step_other_pc : forall c t a t0, t0 <> t ->
    c_pcs (fst (tstep c t a)) t0 = c_pcs c t0.
  Proof.
    intros c t a t0 Hne. unfold ModelPileThreads.tstep, body, finish.
    destruct (c_pcs c t) as [|o k|o k|x k|o u x k|k|o|u|n|n u];
      try destruct a; try destruct o; simpl;
      repeat match goal with |- context [match ?x with _ => _ end] => destruct x; simpl end;
      rewrite ?upd_other by exact Hne; reflexivity.
  Qed.

  Definition iter_pos (c : cfg) (t : tid) (n : nat) : Prop :=
    n <= length (p_order (c_pile c)) /\
    (c_pcs c t = It n \/
     exists u, c_pcs c t = ItK n u /\ nth_error (p_order (c_pile c)) n = Some u).

  Lemma firstn_S_nth : forall {A} (l : list A) n x, nth_error l n = Some x ->
    firstn (S n) l = firstn n l ++ [x].
  Proof.
    induction l as [|y l IH]; intros [|n] x Hn; simpl in *; try discriminate.
    - inversion Hn; reflexivity.
    - f_equal. apply IH; exact Hn.
  Qed.

  Theorem iter_grow_gen : forall s c l t n, Inv c l ->
    (forall t', grow_pc (c_pcs c t') = true) ->
    Forall (fun sa => grow_call (snd sa) = true) s -> iter_pos c t n ->
    let (ys, b) := iter_scan t (snd (trun c s)) in
    b <> Some false /\
    exists e, firstn n (p_order (c_pile c)) ++ map iid ys =
      firstn (n + length ys) (p_order (c_pile c) ++ e) /\
      NoDup (p_order (c_pile c) ++ e) /\
      (b = Some true -> n + length ys = length (p_order (c_pile c) ++ e)).
  Proof.
    induction s as [|[t1 a] s IH]; intros c l t n Hi Hg Hs Hp.
    - simpl. split; [discriminate|]. exists [].
      rewrite app_nil_r. simpl. rewrite app_nil_r, Nat.add_0_r.
      split; [reflexivity|]. split; [eapply order_NoDup; eauto | discriminate].
    - inversion Hs as [|? ? Ha Hs']; subst. simpl in Ha.
      pose proof (grow_step c l t1 a Hi Hg Ha) as [Hg' [e0 He0]].
      pose proof (tstep_ok c l t1 a Hi) as Hst.
      assert (Hi' : exists l', Inv (fst (tstep c t1 a)) l')
        by (destruct Hst as [H1 _]; eauto).
      destruct Hi' as [l' Hi'].
      assert (Hnd' : NoDup (p_order (c_pile (fst (tstep c t1 a))))) by (eapply order_NoDup; eauto).
      (* generic continuation, once the new position is known *)
      assert (Hcont : forall n' zs,
        iter_pos (fst (tstep c t1 a)) t n' ->
        (forall r, iter_scan t (snd (tstep c t1 a) ++ r) =
                   (zs ++ fst (iter_scan t r), snd (iter_scan t r))) ->
        n' = n + length zs ->
        firstn n (p_order (c_pile c)) ++ map iid zs =
          firstn n' (p_order (c_pile (fst (tstep c t1 a)))) ->
        let (ys, b) := iter_scan t (snd (trun c ((t1, a) :: s))) in
        b <> Some false /\
        exists e, firstn n (p_order (c_pile c)) ++ map iid ys =
          firstn (n + length ys) (p_order (c_pile c) ++ e) /\
          NoDup (p_order (c_pile c) ++ e) /\
          (b = Some true -> n + length ys = length (p_order (c_pile c) ++ e))).
      { intros n' zs Hp' Hsc Hn' Hfn.
        specialize (IH _ _ t n' Hi' Hg' Hs' Hp'). simpl.
        destruct (tstep c t1 a) as [c1 e1]. simpl in *.
        destruct (trun c1 s) as [c2 e2]. simpl in *. rewrite Hsc.
        destruct (iter_scan t e2) as [ys b]. simpl in *.
        destruct IH as [Hb [e [H1 [H2 H3]]]]. split; [exact Hb|].
        exists (e0 ++ e). rewrite He0 in *. rewrite app_assoc.
        rewrite map_app, app_assoc, Hfn, H1, app_length, Hn'.
        split; [f_equal; lia|]. split; [exact H2|]. intros Hbt. rewrite <- (H3 Hbt). lia. }
      destruct (Nat.eq_dec t1 t) as [->|Hne].
      + destruct Hp as [Hle [Hit|[u [Hit Hnth]]]].
        * (* fetch *)
          destruct (nth_error (p_order (c_pile c)) n) as [u|] eqn:En.
          -- apply (Hcont n []); try (unfold ModelPileThreads.tstep; rewrite Hit, En; simpl).
             ++ split; [exact Hle|]. right. exists u. simpl. rewrite upd_same. auto.
             ++ intros r. destruct (iter_scan t r); reflexivity.
             ++ simpl; lia.
             ++ simpl. apply app_nil_r.
          -- simpl. unfold ModelPileThreads.tstep. rewrite Hit, En.
             destruct (trun (set_pc c t Idle) s) as [c2 e2]. simpl. rewrite Nat.eqb_refl.
             split; [discriminate|]. exists []. apply nth_error_None in En.
             simpl. rewrite !app_nil_r, Nat.add_0_r.
             split; [reflexivity|]. split; [eapply order_NoDup; eauto|]. intros _; lia.
        * (* lookup *)
          destruct (order_in_items c l u Hi Hg) as [x [Hx Hxu]];
            [eapply nth_error_In; eauto|].
          apply (Hcont (S n) [x]); try (unfold ModelPileThreads.tstep; rewrite Hit, Hx; simpl).
          -- split; [|left; simpl; apply upd_same]. simpl. assert (n < length (p_order (c_pile c))) by (apply nth_error_Some; congruence). lia.
          -- intros r. rewrite Nat.eqb_refl. destruct (iter_scan t r); reflexivity.
          -- simpl; lia.
          -- rewrite Hxu. symmetry. apply firstn_S_nth. exact Hnth.
      + apply (Hcont n []).
        * destruct Hp as [Hle Hp]. split; [rewrite He0, app_length; lia|].
          rewrite (step_other_pc c t1 a t) by congruence.
          destruct Hp as [Hp|[u [Hp1 Hp2]]]; [left; exact Hp|]. right. exists u.
          split; [exact Hp1|]. rewrite He0. rewrite nth_error_app1; [exact Hp2|].
          apply nth_error_Some; congruence.
        * intros r. rewrite iter_scan_skip; [destruct (iter_scan t r); reflexivity|].
          apply step_other_events. congruence.
        * simpl; lia.
        * simpl. rewrite app_nil_r, He0, firstn_app.
          replace (n - length (p_order (c_pile c))) with 0 by (destruct Hp; lia).
          simpl. rewrite app_nil_r. reflexivity.
  Qed.

  Theorem iter_grow : forall p0 s0 c es s t,
    treach sub p0 s0 c es -> (forall t', grow_pc (c_pcs c t') = true) ->
    c_pcs c t = It 0 -> Forall (fun sa => grow_call (snd sa) = true) s ->
    snd (iter_scan t (snd (trun c s))) <> Some false /\
    (snd (iter_scan t (snd (trun c s))) = Some true ->
     exists added, map iid (fst (iter_scan t (snd (trun c s)))) = pile_keys (c_pile c) ++ added /\
       NoDup (map iid (fst (iter_scan t (snd (trun c s)))))).
  Proof.
    intros p0 s0 c es s t Ht Hg Hit Hs. destruct (treach_Inv _ _ _ _ Ht) as [l [_ [Hi _]]].
    pose proof (iter_grow_gen s c _ t 0 Hi Hg Hs) as H.
    assert (Hp : iter_pos c t 0) by (split; [lia | left; exact Hit]).
    specialize (H Hp). destruct (iter_scan t (snd (trun c s))) as [ys b].
    destruct H as [Hb [e [H1 [H2 H3]]]]. simpl in *. split; [exact Hb|].
    intros Hbt. exists e. rewrite (H3 Hbt), firstn_all in H1. rewrite H1.
    split; [reflexivity | exact H2].
  Qed.
End P.
