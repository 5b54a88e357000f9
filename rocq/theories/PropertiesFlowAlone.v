(** C101, continued: a call that no other call overlaps does what the method does without
    threads (ModelFlow, whose behaviour C05 and the other flow claims state). *)
From Coq Require Import String.
From Coq Require Import List Bool Arith Lia.
From Verif Require Import PyBase PyFacts ModelProgression ModelPile ModelFlow ModelFlowThreads
  PropertiesFlowThreads.
Import ListNotations.
#[local] Arguments eqb : simpl never.

(** ** Reading the shared store as a flow *)
Record matches (s : store) (f : flow) : Prop := {
  m_progs : f_progs f = progs s;
  m_names : f_names f = names s;
  m_order : p_order (f_items f) = items s;
  m_types : p_types (f_items f) = None;
  m_items : forall u, dmem u (p_items (f_items f)) = memb u (items s);
  m_keys : NoDup (dkeys (p_items (f_items f)));
  m_iid : forall u x, dget u (p_items (f_items f)) = Some x -> iid x = u
}.
Inductive ref_is : pref -> fref -> Prop :=
| ref_text n q : ref_is (ByText n q) (FStr n q)
| ref_id u : ref_is (ById u) (FId u)
| ref_obj p : ref_is (ByObj (pg_id p)) (FInst p true).
Inductive call_is : call -> flow_op -> Prop :=
| is_add p : call_is (AddProg p) (FAddProg p)
| is_rem r q : ref_is r q -> call_is (RemProg r) (FRemProg q)
| is_get_text n q : call_is (GetProg (ByText n q)) (FGetProg (FStr n q))
| is_get_id u : call_is (GetProg (ById u)) (FGetProg (FId u))
| is_add_item x rs qs : Forall2 ref_is rs qs -> call_is (AddItem (iid x) rs) (FAddItem (OElem x) qs)
| is_rem_item x : call_is (RemItem x) (FRemItem (RId x)).
Inductive answer_is : outcome answer -> outcome fval -> Prop :=
| ans_unit : answer_is (Ret OK) (Ret FUnit)
| ans_prog p : answer_is (Ret (Prog_ p)) (Ret (FProgV p))
| ans_item x : answer_is (Ret (ModelFlowThreads.Item (iid x))) (Ret (FItemV x))
| ans_raise e : answer_is (Raise e) (Raise e).

(** ** Running one thread *)
Section Alone.
  Variable t : tid.
  Variable a : call.
  Variable p0 : tid -> pc.

  Record at_ (c : cfg) (s : store) (l : option tid) (x : pc) (lg : list (tid * outcome answer)) : Prop := {
    at_st : st c = s; at_lock : lock c = l; at_pc : pcs c t = x; at_log : log c = lg;
    at_other : forall t', t' <> t -> pcs c t' = p0 t'
  }.
  (** Steps of [t] alone lead from the one to the other; no call ends on the way. *)
  Definition reach s l x lg s' l' x' lg' : Prop :=
    forall c, at_ c s l x lg -> exists k, at_ (trun c (repeat (t, a) k)) s' l' x' lg' /\
      forall j, j < k -> log (trun c (repeat (t, a) j)) = lg.

  Lemma trun_app c l1 l2 : trun c (l1 ++ l2) = trun (trun c l1) l2.
  Proof. revert c. induction l1 as [|[t' b] l1 IH]; intros c; cbn; auto. Qed.
  Lemma reach_trans s l x lg s1 l1 x1 s2 l2 x2 lg2 :
    reach s l x lg s1 l1 x1 lg -> reach s1 l1 x1 lg s2 l2 x2 lg2 -> reach s l x lg s2 l2 x2 lg2.
  Proof.
    intros H1 H2 c H. destruct (H1 c H) as (k1 & A1 & B1). destruct (H2 _ A1) as (k2 & A2 & B2).
    exists (k1 + k2). rewrite repeat_app, trun_app. split; [exact A2|].
    intros j Hj. destruct (Nat.lt_ge_cases j k1) as [L|L]; [auto|].
    replace j with (k1 + (j - k1)) by lia. rewrite repeat_app, trun_app. apply B2. lia.
  Qed.
  Lemma reach_step s l x lg s' l' x' lg' :
    (forall c, at_ c s l x lg -> at_ (tstep c t a) s' l' x' lg') -> reach s l x lg s' l' x' lg'.
  Proof.
    intros H c Hc. exists 1. split; [apply H, Hc|]. intros j Hj. replace j with 0 by lia. apply Hc.
  Qed.

  Lemma at_to c s l x lg s' x' : at_ c s l x lg -> at_ (to c t s' x') s' l x' lg.
  Proof.
    intros []. constructor; cbn; auto; [unfold upd; rewrite Nat.eqb_refl; reflexivity|].
    intros t' H. unfold upd. apply Nat.eqb_neq in H as H'. rewrite H'. auto.
  Qed.
  Lemma at_stop c s l x lg s' r : at_ c s l x lg -> at_ (stop c t s' r) s' l Idle (lg ++ [(t, r)]).
  Proof.
    intros []. constructor; cbn; auto; [unfold upd; rewrite Nat.eqb_refl; reflexivity|congruence|].
    intros t' H. unfold upd. apply Nat.eqb_neq in H as H'. rewrite H'. auto.
  Qed.
  Lemma at_free c s l x lg : at_ c s l x lg -> at_ (free c) s None x lg.
  Proof. intros []. constructor; cbn; auto. Qed.
  Lemma at_take c s x lg x' : at_ c s None x lg -> at_ (take c t x') s (Some t) x' lg.
  Proof.
    intros []. unfold take. rewrite at_lock0. constructor; cbn; auto; [unfold upd; rewrite Nat.eqb_refl; reflexivity|].
    intros t' H. unfold upd. apply Nat.eqb_neq in H as H'. rewrite H'. auto.
  Qed.
End Alone.

Ltac open_step :=
  let c := fresh "c" in let H := fresh "H" in
  apply reach_step; intros c H; unfold tstep; rewrite (at_pc _ _ _ _ _ _ _ H); cbv zeta;
  rewrite ?(at_st _ _ _ _ _ _ _ H).
Ltac fin :=
  repeat first [ eassumption | eapply at_to | eapply at_free; eapply at_stop
               | eapply at_stop | eapply at_free; eapply at_to | eapply at_take ].
Ltac stepw tac := open_step; tac; fin.

Ltac next := eapply reach_trans; [stepw idtac|].

Section Ops.
  Variable sub : cls -> cls -> bool.
  Variable t : tid.
  Variable p0 : tid -> pc.
  Variable lg : list (tid * outcome answer).

  (** What the call [a] leads to, run alone from the store [s]. *)
  Definition does (a : call) (s : store) (f : flow) (o : flow_op) : Prop :=
    exists s' r, reach t a p0 s None Idle lg s' None Idle (lg ++ [(t, r)]) /\
      matches s' (fst (flow_step sub f o)) /\ answer_is r (snd (flow_step sub f o)).

  Lemma matches_missing s f p : matches s f -> missing_refs f p = missing s p.
  Proof. intros M. unfold missing_refs, missing, pile_keys. rewrite (m_order _ _ M). reflexivity. Qed.
  Lemma matches_more s s' f ps ns : matches s f -> items s' = items s -> progs s' = ps -> names s' = ns ->
    matches s' (Flow (f_items f) ps ns).
  Proof. intros [] E <- <-. constructor; cbn; rewrite ?E; auto. Qed.

  Lemma does_add p s f : matches s f -> does (AddProg p) s f (FAddProg p).
  Proof.
    intros M. unfold does. cbn [flow_step]. unfold add_progression.
    rewrite (matches_missing _ _ _ M), (m_progs _ _ M), (m_names _ _ M).
    assert (G : forall s' r, reach t (AddProg p) p0 s (Some t) (AP1 p) lg s' None Idle (lg ++ [(t, r)]) ->
                reach t (AddProg p) p0 s None Idle lg s' None Idle (lg ++ [(t, r)])).
    { intros s' r H. next. next. exact H. }
    assert (G2 : (forall n, truthy_name (pg_name p) = Some n -> dmem n (names s) = false) -> forall s' r,
                reach t (AddProg p) p0 s (Some t) (AP2 p) lg s' None Idle (lg ++ [(t, r)]) ->
                reach t (AddProg p) p0 s None Idle lg s' None Idle (lg ++ [(t, r)])).
    { intros Hn s' r H. apply G. eapply reach_trans; [|exact H].
      destruct (truthy_name (pg_name p)) as [n|] eqn:E; stepw ltac:(rewrite E, ?(Hn n eq_refl)). }
    destruct (truthy_name (pg_name p)) as [n|] eqn:E.
    - destruct (dmem n (names s)) eqn:D.
      { do 2 eexists. split; [|split; [exact M|constructor]]. apply G. stepw ltac:(rewrite E, D). }
      specialize (G2 ltac:(intros ? [= <-]; exact D)).
      destruct (missing s p) eqn:Mi.
      { do 2 eexists. split; [|split; [exact M|constructor]]. apply G2. stepw ltac:(rewrite Mi). }
      destruct (dmem (pg_id p) (progs s)) eqn:Dp.
      { do 2 eexists. split; [|split; [exact M|constructor]]. apply G2.
        eapply reach_trans; [stepw ltac:(rewrite Mi)|]. stepw ltac:(rewrite Dp). }
      do 2 eexists. split; [|split; [|constructor]].
      + apply G2. eapply reach_trans; [stepw ltac:(rewrite Mi)|].
        eapply reach_trans; [stepw ltac:(rewrite Dp)|]. stepw ltac:(rewrite E).
      + apply (matches_more s); auto.
    - specialize (G2 ltac:(discriminate)). unfold ModelFlow.set_progs. rewrite (m_names _ _ M).
      destruct (missing s p) eqn:Mi.
      { do 2 eexists. split; [|split; [exact M|constructor]]. apply G2. stepw ltac:(rewrite Mi). }
      destruct (dmem (pg_id p) (progs s)) eqn:Dp.
      { do 2 eexists. split; [|split; [exact M|constructor]]. apply G2.
        eapply reach_trans; [stepw ltac:(rewrite Mi)|]. stepw ltac:(rewrite Dp). }
      do 2 eexists. split; [|split; [|constructor]].
      + apply G2. eapply reach_trans; [stepw ltac:(rewrite Mi)|].
        eapply reach_trans; [stepw ltac:(rewrite Dp)|]. stepw ltac:(rewrite E).
      + apply (matches_more s); auto.
  Qed.

  Lemma does_rem_id r q u s f : matches s f ->
    (forall s' x, reach t (RemProg r) p0 s (Some t) (RQ1 u) lg s' None Idle (lg ++ [(t, x)]) ->
       reach t (RemProg r) p0 s None Idle lg s' None Idle (lg ++ [(t, x)])) ->
    coerce_fref q = Ret u -> (forall n w, q = FStr n w -> dget n (names s) = None) ->
    does (RemProg r) s f (FRemProg q).
  Proof.
    intros M G Hu Hn. unfold does. cbn [flow_step].
    assert (E : remove_progression f q = remove_by_id f q).
    { unfold remove_progression. destruct q; try reflexivity. rewrite (m_names _ _ M), (Hn _ _ eq_refl). reflexivity. }
    rewrite E. unfold remove_by_id. rewrite Hu, (m_progs _ _ M), (m_names _ _ M).
    destruct (dget u (progs s)) as [p|] eqn:D.
    - cbn [fst snd]. destruct (truthy_name (pg_name p)) as [n|] eqn:En; [destruct (dmem n (names s)) eqn:Dn|];
        (do 2 eexists; split; [|split; [|constructor]];
         [apply G; eapply reach_trans; [stepw ltac:(rewrite D)|];
          eapply reach_trans; [stepw ltac:(rewrite ?En, ?Dn)|];
          stepw ltac:(cbn [progs set_names]; rewrite D)
         |apply (matches_more s); auto]).
    - do 2 eexists. split; [|split; [exact M|constructor]]. apply G. stepw ltac:(rewrite D).
  Qed.

  Lemma does_rem r q s f : matches s f -> ref_is r q -> does (RemProg r) s f (FRemProg q).
  Proof.
    intros M R.
    assert (G : forall s' x, reach t (RemProg r) p0 s (Some t) (RP1 r) lg s' None Idle (lg ++ [(t, x)]) ->
       reach t (RemProg r) p0 s None Idle lg s' None Idle (lg ++ [(t, x)])).
    { intros s' x H. next. next. exact H. }
    inversion R; subst.
    - destruct (dget n (names s)) as [u|] eqn:D.
      + unfold does. cbn [flow_step]. unfold remove_progression. rewrite (m_names _ _ M), (m_progs _ _ M), D.
        assert (G' : forall s' x, reach t (RemProg (ByText n q0)) p0 (set_names (ddel n (names s)) s) (Some t) (RP3 u) lg
                       s' None Idle (lg ++ [(t, x)]) ->
                     reach t (RemProg (ByText n q0)) p0 s None Idle lg s' None Idle (lg ++ [(t, x)])).
        { intros s' x H. apply G. eapply reach_trans; [stepw ltac:(rewrite D)|]. next. exact H. }
        destruct (dget u (progs s)) as [p|] eqn:Dp.
        * do 2 eexists. split; [|split; [|constructor]].
          -- apply G'. eapply reach_trans; [stepw ltac:(unfold dmem; cbn [progs set_names]; rewrite Dp)|].
             stepw ltac:(cbn [progs set_names]; rewrite Dp).
          -- apply (matches_more s); auto.
        * do 2 eexists. split; [|split; [|constructor]].
          -- apply G'. stepw ltac:(unfold dmem; cbn [progs set_names]; rewrite Dp).
          -- apply (matches_more s); auto.
      + destruct q0 as [u|] eqn:Q.
        * apply (does_rem_id _ _ u); auto; [|intros ? ? [= <- <-]; exact D].
          intros s' x H. apply G. eapply reach_trans; [stepw ltac:(rewrite D)|]. exact H.
        * unfold does. cbn [flow_step]. unfold remove_progression, remove_by_id.
          rewrite (m_names _ _ M), D. do 2 eexists. split; [|split; [exact M|constructor]].
          apply G. stepw ltac:(rewrite D).
    - apply (does_rem_id _ _ u); auto; [|discriminate]. intros s' x H. apply G. next. exact H.
    - apply (does_rem_id _ _ (pg_id p)); auto; [|discriminate]. intros s' x H. apply G. next. exact H.
  Qed.

  Lemma does_get_text n q s f : matches s f -> does (GetProg (ByText n q)) s f (FGetProg (FStr n q)).
  Proof.
    intros M. unfold does. cbn [flow_step fst snd get_progression]. rewrite (m_names _ _ M), (m_progs _ _ M).
    assert (G : forall u s' x, (dget n (names s) = Some u \/ dget n (names s) = None /\ q = Some u) ->
       reach t (GetProg (ByText n q)) p0 s (Some t) (GP2 u) lg s' None Idle (lg ++ [(t, x)]) ->
       reach t (GetProg (ByText n q)) p0 s None Idle lg s' None Idle (lg ++ [(t, x)])).
    { intros u s' x Hu H. next. next. eapply reach_trans; [|exact H].
      destruct Hu as [Hu|[Hu ->]]; stepw ltac:(rewrite Hu). }
    destruct (dget n (names s)) as [u|] eqn:D.
    - destruct (dget u (progs s)) as [p|] eqn:Dp; do 2 eexists; (split; [|split; [exact M|constructor]]);
        (apply (G u); [auto|]); stepw ltac:(rewrite Dp).
    - destruct q as [u|].
      + destruct (dget u (progs s)) as [p|] eqn:Dp; do 2 eexists; (split; [|split; [exact M|constructor]]);
          (apply (G u); [auto|]); stepw ltac:(rewrite Dp).
      + do 2 eexists. split; [|split; [exact M|constructor]]. next. next. stepw ltac:(rewrite D).
  Qed.
  Lemma does_get_id u s f : matches s f -> does (GetProg (ById u)) s f (FGetProg (FId u)).
  Proof.
    intros M. unfold does. cbn [flow_step fst snd get_progression]. rewrite (m_progs _ _ M).
    destruct (dget u (progs s)) as [p|] eqn:Dp; do 2 eexists; (split; [|split; [exact M|constructor]]);
      next; next; next; stepw ltac:(rewrite Dp).
  Qed.

  (** *** add_item *)
  Definition own (s : store) : Prop := forall u p, dget u (progs s) = Some p -> pg_id p = u.
  Lemma own_append s u p x : own s -> dget u (progs s) = Some p ->
    own (set_progs (dset u (append_to x p) (progs s)) s).
  Proof.
    intros O D v q. cbn [progs set_progs]. rewrite dget_dset. destruct (eqb v u) eqn:E.
    - apply eqb_eq in E as ->. intros [= <-]. cbn. apply O. exact D.
    - apply O.
  Qed.

  Lemma does_attach a x rs qs : Forall2 ref_is rs qs -> forall s f, matches s f -> own s ->
    exists s' r, reach t a p0 s None (AI1 x rs) lg s' None Idle (lg ++ [(t, r)]) /\
      matches s' (fst (attach_all f x qs)) /\ answer_is r (snd (attach_all f x qs)).
  Proof.
    induction 1 as [|r q rs qs R _ IH]; intros s f M O.
    { do 2 eexists. split; [|split; [exact M|constructor]]. stepw idtac. }
    (* once the progression is found *)
    assert (ON : forall u p, dget u (progs s) = Some p ->
       attach f x q = (ModelFlow.set_progs f (dset u (append_to x p) (f_progs f)), Ret FUnit) ->
       (forall s' y, reach t a p0 s None (AIA x u rs) lg s' None Idle (lg ++ [(t, y)]) ->
                     reach t a p0 s None (AI1 x (r :: rs)) lg s' None Idle (lg ++ [(t, y)])) ->
       exists s' y, reach t a p0 s None (AI1 x (r :: rs)) lg s' None Idle (lg ++ [(t, y)]) /\
         matches s' (fst (attach_all f x (q :: qs))) /\ answer_is y (snd (attach_all f x (q :: qs)))).
    { intros u p D Ea G. cbn [attach_all]. rewrite Ea.
      destruct (IH (set_progs (dset u (append_to x p) (progs s)) s)
                   (ModelFlow.set_progs f (dset u (append_to x p) (f_progs f)))) as (s' & y & H1 & H2 & H3).
      - unfold ModelFlow.set_progs. apply (matches_more s); auto; cbn; [rewrite (m_progs _ _ M); reflexivity|].
        rewrite (m_names _ _ M). reflexivity.
      - apply own_append; auto.
      - exists s', y. split; [|auto]. apply G. eapply reach_trans; [|exact H1]. stepw ltac:(rewrite D). }
    (* get_progression inside add_item *)
    assert (NO : forall e, (forall u, r <> ByObj u) ->
       reach t a p0 s (Some t) (AIG x r rs) lg s None Idle (lg ++ [(t, Raise e)]) ->
       attach f x q = (f, Raise e) ->
       exists s' y, reach t a p0 s None (AI1 x (r :: rs)) lg s' None Idle (lg ++ [(t, y)]) /\
         matches s' (fst (attach_all f x (q :: qs))) /\ answer_is y (snd (attach_all f x (q :: qs)))).
    { intros e Hr H Ea. cbn [attach_all]. rewrite Ea. exists s, (Raise e). split; [|split; [exact M|constructor]].
      destruct r as [n w|u|u]; [| |congruence]; next; next; exact H. }
    inversion R; subst.
    - (* a text *)
      assert (G : forall u, (dget n (names s) = Some u \/ dget n (names s) = None /\ q0 = Some u) ->
         reach t a p0 s (Some t) (AIG x (ByText n q0) rs) lg s (Some t) (AIH x u rs) lg).
      { intros u [Hu|[Hu ->]]; stepw ltac:(rewrite Hu). }
      assert (L : forall u, (dget n (names s) = Some u \/ dget n (names s) = None /\ q0 = Some u) ->
         exists s' y, reach t a p0 s None (AI1 x (ByText n q0 :: rs)) lg s' None Idle (lg ++ [(t, y)]) /\
         matches s' (fst (attach_all f x (FStr n q0 :: qs))) /\ answer_is y (snd (attach_all f x (FStr n q0 :: qs)))).
      { intros u Hu. destruct (dget u (progs s)) as [p|] eqn:Dp.
        - apply (ON u p Dp).
          + cbn [attach get_progression]. rewrite (m_names _ _ M), (m_progs _ _ M).
            destruct Hu as [Hu|[Hu ->]]; rewrite Hu, Dp, (O u p Dp); reflexivity.
          + intros s' y H. next. next. eapply reach_trans; [apply (G u Hu)|]. eapply reach_trans; [|exact H].
            stepw ltac:(unfold dmem; rewrite Dp).
        - apply (NO NotFoundError); [discriminate| |].
          + eapply reach_trans; [apply (G u Hu)|]. stepw ltac:(unfold dmem; rewrite Dp).
          + cbn [attach get_progression]. rewrite (m_names _ _ M), (m_progs _ _ M).
            destruct Hu as [Hu|[Hu ->]]; rewrite Hu, Dp; reflexivity. }
      destruct (dget n (names s)) as [u|] eqn:D; [apply (L u); auto|].
      destruct q0 as [u|]; [apply (L u); auto|].
      apply (NO KeyError); [discriminate| |].
      + stepw ltac:(rewrite D).
      + cbn [attach get_progression]. rewrite (m_names _ _ M), D. reflexivity.
    - (* an id *)
      destruct (dget u (progs s)) as [p|] eqn:Dp.
      + apply (ON u p Dp).
        * cbn [attach get_progression]. rewrite (m_progs _ _ M), Dp, (O u p Dp). reflexivity.
        * intros s' y H. next. next. next. eapply reach_trans; [|exact H]. stepw ltac:(unfold dmem; rewrite Dp).
      + apply (NO NotFoundError); [discriminate| |].
        * next. stepw ltac:(unfold dmem; rewrite Dp).
        * cbn [attach get_progression]. rewrite (m_progs _ _ M), Dp. reflexivity.
    - (* the stored object *)
      destruct (dget (pg_id p) (progs s)) as [w|] eqn:Dp.
      + apply (ON (pg_id p) w Dp).
        * cbn [attach]. rewrite (m_progs _ _ M), Dp. reflexivity.
        * intros s' y H. next. exact H.
      + cbn [attach_all attach]. rewrite (m_progs _ _ M), Dp.
        destruct (IH s f M O) as (s' & y & H1 & H2 & H3). exists s', y. split; [|auto].
        next. eapply reach_trans; [|exact H1]. stepw ltac:(rewrite Dp).
  Qed.

  Lemma memb_app (u : uuid) l x : memb u (l ++ [x]) = memb u l || eqb u x.
  Proof. unfold memb. rewrite existsb_app. cbn. rewrite orb_false_r. reflexivity. Qed.

  Lemma does_add_item x rs qs s f : matches s f -> own s -> Forall2 ref_is rs qs ->
    does (AddItem (iid x) rs) s f (FAddItem (OElem x) qs).
  Proof.
    intros M O R. unfold does. cbn [flow_step]. unfold add_item, pile_add, validate_type.
    rewrite (m_types _ _ M), (m_items _ _ M). destruct (memb (iid x) (items s)) eqn:E.
    { do 2 eexists. split; [|split; [exact M|constructor]]. next. stepw ltac:(rewrite E). }
    destruct (does_attach (AddItem (iid x) rs) (iid x) rs qs R (set_items (items s ++ [iid x]) s)
      (Flow (set_stores (f_items f) (dset (iid x) x (p_items (f_items f))) (p_order (f_items f) ++ [iid x]))
            (f_progs f) (f_names f))) as (s' & y & H1 & H2 & H3).
    - destruct M as [M1 M2 M3 M4 M5 M6 M7].
      assert (Nx : ~ In (iid x) (dkeys (p_items (f_items f)))) by (apply dmem_false; rewrite M5; exact E).
      constructor; cbn [p_items p_order f_items f_progs f_names p_types set_stores items progs names set_items]; auto.
      + congruence.
      + intros u. rewrite memb_app, <- M5. unfold dmem. rewrite dget_dset.
        destruct (eqb u (iid x)); [rewrite orb_true_r; reflexivity|rewrite orb_false_r; reflexivity].
      + apply dkeys_dset_NoDup. exact M6.
      + intros u y. rewrite dget_dset. destruct (eqb u (iid x)) eqn:Eu; [|apply M7].
        apply eqb_eq in Eu as ->. intros [= <-]. reflexivity.
    - exact O.
    - exists s', y. split; [|auto]. next. eapply reach_trans; [|exact H1]. stepw ltac:(rewrite E).
  Qed.

  (** *** remove_item *)
  Definition strip_all (x : uuid) (d : dict uuid prog) : dict uuid prog :=
    map (fun kv => (fst kv, strip x (snd kv))) d.
  Lemma strip_keys x d : dkeys (strip_all x d) = dkeys d.
  Proof. unfold strip_all, dkeys. rewrite map_map. reflexivity. Qed.
  Lemma dget_mid (u : uuid) (p : prog) d1 d2 : ~ In u (dkeys d1) -> dget u (d1 ++ (u, p) :: d2) = Some p.
  Proof.
    induction d1 as [|[v q] d1 IH]; cbn; intros H.
    - rewrite eqb_refl. reflexivity.
    - destruct (eqb u v) eqn:E; [apply eqb_eq in E; subst; tauto|]. auto.
  Qed.
  Lemma dset_mid (u : uuid) (p p' : prog) d1 d2 : ~ In u (dkeys d1) ->
    dset u p' (d1 ++ (u, p) :: d2) = d1 ++ (u, p') :: d2.
  Proof.
    induction d1 as [|[v q] d1 IH]; cbn; intros H.
    - rewrite eqb_refl. reflexivity.
    - destruct (eqb u v) eqn:E; [apply eqb_eq in E; subst; tauto|]. rewrite IH; auto.
  Qed.

  Lemma does_strip a x its ns d2 : forall d1, NoDup (dkeys (d1 ++ d2)) ->
    reach t a p0 (Store its (strip_all x d1 ++ d2) ns) None (RI1 x (length d1)) lg
                 (Store its (strip_all x (d1 ++ d2)) ns) None (RI5 x) lg.
  Proof.
    induction d2 as [|[u p] d2 IH]; intros d1 N.
    - rewrite !app_nil_r. stepw ltac:(cbn [progs]; rewrite strip_keys).
      destruct (nth_error (dkeys d1) (length d1)) eqn:E.
      { exfalso. assert (length d1 < length (dkeys d1)) by (apply nth_error_Some; congruence).
        unfold dkeys in *. rewrite map_length in *. lia. }
      fin.
    - assert (Nu : ~ In u (dkeys (strip_all x d1))).
      { rewrite strip_keys. rewrite dkeys_app in N. cbn in N. apply NoDup_remove_2 in N. intros H. apply N.
        apply in_or_app. auto. }
      specialize (IH (d1 ++ [(u, p)])). rewrite <- app_assoc in IH. specialize (IH N).
      unfold strip_all in IH at 1. rewrite map_app, <- app_assoc, app_length in IH. cbn [map app fst snd length] in IH.
      rewrite Nat.add_1_r in IH. fold (strip_all x d1) in IH.
      eapply reach_trans.
      { stepw ltac:(cbn [progs]). replace (nth_error _ _) with (Some u); [fin|].
        rewrite dkeys_app, strip_keys. rewrite nth_error_app2 by (unfold dkeys; rewrite map_length; lia).
        unfold dkeys. rewrite map_length, Nat.sub_diag. reflexivity. }
      eapply reach_trans; [stepw ltac:(unfold dmem; cbn [progs]; rewrite dget_mid by exact Nu)|].
      destruct (memb x (pg_order p)) eqn:E.
      + assert (In x (pg_order p)) by (apply memb_In; exact E).
        destruct (remove_first x (pg_order p)) as [o|] eqn:Er; [|apply remove_first_None in Er; contradiction].
        eapply reach_trans; [stepw ltac:(cbn [progs]; rewrite dget_mid by exact Nu; rewrite E)|].
        eapply reach_trans; [stepw ltac:(cbn [progs]; rewrite dget_mid by exact Nu; rewrite Er)|].
        unfold set_progs. cbn [items progs names]. rewrite dset_mid by exact Nu.
        replace (Prog (pg_id p) (pg_name p) o) with (strip x p); [exact IH|]. unfold strip. rewrite Er. reflexivity.
      + eapply reach_trans; [stepw ltac:(cbn [progs]; rewrite dget_mid by exact Nu; rewrite E)|].
        replace (strip x p) with p in IH; [exact IH|]. unfold strip.
        assert (Er : remove_first x (pg_order p) = None) by (apply remove_first_None, memb_notIn; exact E).
        rewrite Er. reflexivity.
  Qed.

  Lemma does_rem_item x s f : matches s f -> NoDup (dkeys (progs s)) -> NoDup (items s) ->
    does (RemItem x) s f (FRemItem (RId x)).
  Proof.
    intros M N Ni. unfold does. cbn [flow_step]. unfold remove_item. cbn [coerce_id]. cbv zeta.
    assert (G : forall s' y, reach t (RemItem x) p0 (Store (items s) (strip_all x (progs s)) (names s)) None (RI5 x) lg
                   s' None Idle (lg ++ [(t, y)]) ->
                 reach t (RemItem x) p0 s None Idle lg s' None Idle (lg ++ [(t, y)])).
    { intros s' y H. next. eapply reach_trans; [|exact H]. destruct s as [i ps ns].
      apply (does_strip (RemItem x) x i ns ps []). exact N. }
    unfold pile_remove. cbn [coerce_id]. fold (strip_all x (f_progs f)).
    assert (Mx := m_items _ _ M x). unfold dmem in Mx.
    destruct (dget x (p_items (f_items f))) as [y|] eqn:D.
    - symmetry in Mx. rewrite (m_order _ _ M).
      destruct (remove_first x (items s)) as [l|] eqn:Er;
        [|apply remove_first_None in Er; apply memb_In in Mx; contradiction].
      cbn [fst snd].
      assert (Ey : iid y = x) by (apply (m_iid _ _ M); exact D).
      exists (Store l (strip_all x (progs s)) (names s)), (Ret (ModelFlowThreads.Item (iid y))).
      split; [|split; [|constructor]].
      + apply G. rewrite Ey. stepw ltac:(cbn [items]; rewrite Er).
      + destruct M as [M1 M2 M3 M4 M5 M6 M7]. constructor; cbn [p_items p_order f_items f_progs f_names p_types set_stores items progs names set_items]; auto; try congruence.
        * intros u. destruct (Nat.eq_dec u x) as [->|Hn].
          -- unfold dmem. rewrite dget_ddel_same by exact M6. symmetry. apply memb_notIn. intros H.
             apply remove_first_Some in Er as (l1 & l2 & E1 & E2 & _). subst l.
             rewrite E1 in Ni. apply NoDup_remove_2 in Ni. contradiction.
          -- unfold dmem. rewrite dget_ddel_other by congruence. fold (dmem u (p_items (f_items f))). rewrite M5.
             apply remove_first_Some in Er as (l1 & l2 & E1 & E2 & _). subst l. rewrite E1.
             unfold memb. rewrite !existsb_app. cbn [existsb]. apply eqb_neq in Hn. unfold uuid in *. rewrite Hn. reflexivity.
        * apply dkeys_ddel_NoDup. exact M6.
        * intros u z. destruct (Nat.eq_dec u x) as [->|Hn].
          -- rewrite dget_ddel_same by exact M6. discriminate.
          -- rewrite dget_ddel_other by congruence. apply M7.
    - cbn [fst snd]. exists (Store (items s) (strip_all x (progs s)) (names s)), (Raise NotFoundError).
      split; [|split; [|constructor]].
      + apply G. symmetry in Mx. stepw ltac:(cbn [items]).
        assert (Er : remove_first x (items s) = None) by (apply remove_first_None, memb_notIn; exact Mx).
        rewrite Er. fin.
      + apply (matches_more s); auto; cbn; [rewrite (m_progs _ _ M); reflexivity|symmetry; apply (m_names _ _ M)].
  Qed.
End Ops.

(** ** C101: calls that do not overlap *)

(** In any state reached by any interleaving: a call by an idle thread that runs from start to
    end without another thread moving (and with the lock free: nobody stopped inside a locked
    method) ends, answers what the method answers without threads, and leaves the flow as it
    does; nothing else moves. *)
Theorem C101_alone sub s sched t a o f : good s -> let c := trun (init s) sched in
  lock c = None -> pcs c t = Idle -> matches (st c) f -> call_is a o ->
  exists k r, let c' := trun c (repeat (t, a) k) in
    log c' = log c ++ [(t, r)] /\ answer_is r (snd (flow_step sub f o)) /\
    matches (st c') (fst (flow_step sub f o)) /\
    lock c' = None /\ (forall t', pcs c' t' = pcs c t').
Proof.
  intros G c Hl Ht M A. assert (HI : inv c) by (apply inv_run, good_inv, G). clearbody c.
  assert (K := i_keyed _ HI).
  assert (D : does sub t (pcs c) (log c) a (st c) f o).
  { inversion A; subst.
    - apply does_add; exact M.
    - apply does_rem; assumption.
    - apply does_get_text; exact M.
    - apply does_get_id; exact M.
    - apply does_add_item; auto. exact (k_id _ K).
    - apply does_rem_item; auto; apply K. }
  destruct D as (s' & r & H1 & H2 & H3).
  destruct (H1 c) as (k & Hk & _); [constructor; auto|].
  exists k, r. destruct Hk as [B1 B2 B3 B4 B5]. cbv zeta. rewrite B1, B2, B4.
  split; [reflexivity|]. split; [exact H3|]. split; [exact H2|]. split; [reflexivity|].
  intros t'. destruct (Nat.eq_dec t' t) as [->|Hn]; [congruence|auto].
Qed.
Print Assumptions C101_alone.

(** The flow that a store without items stands for, and two calls on it. *)
Example C101_ex_alone :
  matches s2 (Flow (Pile [] [] None false) (progs s2) (names s2)) /\
  (let c := trun (init s2) (repeat (1, AddItem 7 [ById 20; ByText "b" None]) 10) in
   (log c, pcs c 1, items (st c), progs (st c)) =
   ([(1, Raise KeyError)], Idle, [7], [(20, Prog 20 (Some "a"%string) [7])])) /\
  (let r := flow_step (fun _ _ => true) (Flow (Pile [] [] None false) (progs s2) (names s2))
              (FAddItem (OElem (ModelPile.Item 7 0 0)) [FId 20; FStr "b" None]) in
   (snd r, f_progs (fst r)) = (Raise KeyError, [(20, Prog 20 (Some "a"%string) [7])])).
Proof.
  split; [|split; vm_compute; reflexivity].
  constructor; cbn; auto; try constructor; discriminate.
Qed.
