(** What becomes of stored events. *)
From Coq Require Import List Bool Arith ZArith Lia Permutation ZifyBool.
From Verif Require Import PyBase PyFacts ModelHeap SpecHeap ProofsHeap ModelEvent ModelProcessor SpecProcessor
  ProofsPQueue ProofsEvent ProofsProcessor ProofsProcessorRun ProofsProcessorDeny.
Import ListNotations.
#[local] Arguments eqb : simpl never.

Section Fate.
  Variable k : cfg.

  Definition wit (s : pst) (u : uuid) (p : tpc) : Prop :=
    In u (early p) \/ In u (refused p) \/ (streaming s u = true /\ In u (over p)).
  Definition wit2 (s : pst) (u : uuid) (p : tpc) : Prop :=
    In u (late p) \/ (streaming s u = true /\ In u (over p)).
  Definition cov (s : pst) (u : uuid) : Prop :=
    In u (map snd (queue s)) \/ exists t p, nth_error (tasks s) t = Some p /\ wit s u p.
  Definition cov2 (s : pst) (u : uuid) : Prop :=
    exists t p, nth_error (tasks s) t = Some p /\ wit2 s u p.
  Definition final (x : status) : bool :=
    match x with COMPLETED | FAILED | CANCELLED | SKIPPED => true | _ => false end.
  Definition tok_ok (s : pst) (p : tpc) : Prop :=
    match p with
    | KRun _ id false => streaming s id = false -> status_of s id <> PENDING
    | KUpd _ id => streaming s id = false -> status_of s id <> PENDING /\ status_of s id <> PROCESSING
    | _ => True
    end.

  Record FI (s : pst) : Prop := {
    f_obj : forall u, In u (items s) -> dmem u (objs s) = true;
    f_ok : forall t p, nth_error (tasks s) t = Some p -> tok_ok s p;
    f_pend : started s = true -> forall u, In u (progs s PENDING) -> cov s u;
    f_proc : forall u, In u (progs s PROCESSING) -> cov2 s u;
    f_set : forall x u, final x = true -> In u (progs s x) -> status_of s u = x
  }.

  Lemma streaming_set : forall s id x u, streaming (set_status s id x) u = streaming s u.
  Proof.
    intros s id x u. unfold set_status. destruct (dget id (objs s)) as [e|] eqn:E; [|reflexivity].
    unfold streaming. simpl. rewrite dget_dset. destruct (eqb_spec u id) as [Hu|]; [subst u|reflexivity].
    rewrite E. reflexivity.
  Qed.
  Lemma status_set : forall s id x u, status_of (set_status s id x) u = if (u =? id) && dmem id (objs s) then x else status_of s u.
  Proof.
    intros s id x u. unfold set_status, dmem. destruct (dget id (objs s)) as [e|] eqn:E; [|rewrite andb_false_r; reflexivity].
    unfold status_of. simpl. rewrite dget_dset. unfold eqb, EqB_nat. destruct (u =? id); reflexivity.
  Qed.
  Lemma dmem_set : forall s id x u, dmem u (objs (set_status s id x)) = dmem u (objs s).
  Proof.
    intros s id x u. unfold set_status. destruct (dget id (objs s)) as [e|] eqn:E; [|reflexivity].
    unfold dmem. simpl. rewrite dget_dset. destruct (eqb_spec u id) as [Hu|]; [subst u|reflexivity]. rewrite E. reflexivity.
  Qed.

  Lemma cov_upd : forall s s' t p p' u, nth_error (tasks s) t = Some p -> tasks s' = upd t p' (tasks s) ->
    (forall v, streaming s' v = streaming s v) ->
    (In u (map snd (queue s)) -> In u (map snd (queue s')) \/ wit s u p') ->
    (wit s u p -> In u (map snd (queue s')) \/ wit s u p') -> cov s u -> cov s' u.
  Proof.
    intros s s' t p p' u Ht T Hs H1 H2 Hc.
    assert (W : forall q, wit s u q -> wit s' u q) by (intros q; unfold wit; rewrite Hs; tauto).
    assert (N : wit s u p' -> cov s' u).
    { intros Hw. right. exists t, p'. rewrite T, (nth_upd _ _ _ _ _ _ Ht), Nat.eqb_refl. split; [reflexivity | apply W, Hw]. }
    destruct Hc as [Hc|(t0 & q & Hq & Hw)].
    - destruct (H1 Hc) as [H|H]; [left; exact H | apply N, H].
    - destruct (Nat.eqb_spec t0 t) as [->|Hne].
      + rewrite Ht in Hq. injection Hq as <-. destruct (H2 Hw) as [H|H]; [left; exact H | apply N, H].
      + right. exists t0, q. rewrite T, (nth_upd _ _ _ _ _ _ Ht). destruct (Nat.eqb_spec t0 t); [contradiction|]. split; [exact Hq | apply W, Hw].
  Qed.
  Lemma cov2_upd : forall s s' t p p' u, nth_error (tasks s) t = Some p -> tasks s' = upd t p' (tasks s) ->
    (forall v, streaming s' v = streaming s v) -> (wit2 s u p -> wit2 s u p') -> cov2 s u -> cov2 s' u.
  Proof.
    intros s s' t p p' u Ht T Hs H2 (t0 & q & Hq & Hw).
    assert (W : forall q, wit2 s u q -> wit2 s' u q) by (intros q'; unfold wit2; rewrite Hs; tauto).
    destruct (Nat.eqb_spec t0 t) as [->|Hne].
    - rewrite Ht in Hq. injection Hq as <-. exists t, p'. rewrite T, (nth_upd _ _ _ _ _ _ Ht), Nat.eqb_refl. auto.
    - exists t0, q. rewrite T, (nth_upd _ _ _ _ _ _ Ht). destruct (Nat.eqb_spec t0 t); [contradiction | auto].
  Qed.
  Lemma cov_app : forall s s' p u, tasks s' = tasks s ++ [p] -> (In u (items s) -> streaming s' u = streaming s u) ->
    queue s' = queue s -> In u (items s) -> cov s u -> cov s' u.
  Proof.
    intros s s' p u T Hs Q Hi [Hc|(t & q & Hq & Hw)]; [left; rewrite Q; exact Hc|].
    right. exists t, q. rewrite T. split; [apply nth_app_keep; exact Hq|]. unfold wit. rewrite (Hs Hi). exact Hw.
  Qed.
  Lemma cov2_app : forall s s' p u, tasks s' = tasks s ++ [p] -> (In u (items s) -> streaming s' u = streaming s u) ->
    In u (items s) -> cov2 s u -> cov2 s' u.
  Proof.
    intros s s' p u T Hs Hi (t & q & Hq & Hw).
    exists t, q. rewrite T. split; [apply nth_app_keep; exact Hq|]. unfold wit2. rewrite (Hs Hi). exact Hw.
  Qed.
  Lemma cov_last : forall s' l p u, tasks s' = l ++ [p] -> wit s' u p -> cov s' u.
  Proof.
    intros s' l p u T W. right. exists (length l), p. rewrite T, nth_error_app2, Nat.sub_diag by lia. auto.
  Qed.
  Lemma cov2_last : forall s' l p u, tasks s' = l ++ [p] -> wit2 s' u p -> cov2 s' u.
  Proof.
    intros s' l p u T W. exists (length l), p. rewrite T, nth_error_app2, Nat.sub_diag by lia. auto.
  Qed.

  Lemma prog_item : forall s x u, SI s -> In u (progs s x) -> In u (items s).
  Proof. intros s x u (H & _) Hu. apply (i_mem _ _ _ _ H). eauto. Qed.

  (** Fields untouched but for one finished call at the end. *)
  Lemma FI_new : forall s s' p, SI s -> FI s -> tasks s' = tasks s ++ [p] -> items s' = items s -> progs s' = progs s ->
    queue s' = queue s -> objs s' = objs s -> (started s' = started s) -> tok_ok s p -> FI s'.
  Proof.
    intros s s' p HS [A B C D E] T I1 P Q O St Tp.
    assert (Sm : forall u, streaming s' u = streaming s u) by (intros u; unfold streaming; rewrite O; reflexivity).
    assert (Sx : forall u, status_of s' u = status_of s u) by (intros u; unfold status_of; rewrite O; reflexivity).
    assert (Tk : forall q, tok_ok s q -> tok_ok s' q).
    { intros q. unfold tok_ok. destruct q as [| | | | | | | | |par id []|par id| | |]; auto; rewrite Sm, Sx; auto. }
    constructor.
    - rewrite I1, O. exact A.
    - intros t q Hq. rewrite T in Hq. apply nth_error_In in Hq. apply in_app_iff in Hq. apply Tk. destruct Hq as [Hq|[<-|[]]]; [|exact Tp].
      apply In_nth_error in Hq. destruct Hq as [t' Hq]. eapply B; eauto.
    - rewrite St, P. intros H u Hu. apply (cov_app s s' p); auto. eapply prog_item; eauto.
    - rewrite P. intros u Hu. apply (cov2_app s s' p); auto. eapply prog_item; eauto.
    - rewrite P. intros x u Hx Hu. rewrite Sx. apply E; assumption.
  Qed.

  (** One task moves, objects untouched. *)
  Lemma FI_upd : forall s s' t p p', SI s -> FI s -> nth_error (tasks s) t = Some p -> tasks s' = upd t p' (tasks s) ->
    items s' = items s -> objs s' = objs s -> started s' = started s -> tok_ok s p' ->
    (forall u, In u (progs s' PENDING) -> (In u (progs s PENDING) /\
        (In u (map snd (queue s)) -> In u (map snd (queue s')) \/ wit s u p') /\
        (wit s u p -> In u (map snd (queue s')) \/ wit s u p')) \/ wit s u p') ->
    (forall u, In u (progs s' PROCESSING) -> (In u (progs s PROCESSING) /\ (wit2 s u p -> wit2 s u p')) \/ wit2 s u p') ->
    (forall x u, final x = true -> In u (progs s' x) -> In u (progs s x) \/ status_of s u = x) -> FI s'.
  Proof.
    intros s s' t p p' HS [A B C D E] Ht T I1 O St Tp H1 H2 H3.
    assert (Sm : forall u, streaming s' u = streaming s u) by (intros u; unfold streaming; rewrite O; reflexivity).
    assert (Sx : forall u, status_of s' u = status_of s u) by (intros u; unfold status_of; rewrite O; reflexivity).
    assert (Tk : forall q, tok_ok s q -> tok_ok s' q).
    { intros q. unfold tok_ok. destruct q as [| | | | | | | | |par id []|par id| | |]; auto; rewrite Sm, Sx; auto. }
    constructor.
    - rewrite I1, O. exact A.
    - intros t0 q Hq. rewrite T, (nth_upd _ _ _ _ _ _ Ht) in Hq. apply Tk. destruct (t0 =? t); [injection Hq as <-; exact Tp | eapply B; eauto].
    - rewrite St. intros H u Hu. destruct (H1 u Hu) as [(G1 & G2 & G3)|G].
      + eapply cov_upd; eauto.
      + right. exists t, p'. rewrite T, (nth_upd _ _ _ _ _ _ Ht), Nat.eqb_refl. split; [reflexivity|]. unfold wit in *. rewrite Sm. exact G.
    - intros u Hu. destruct (H2 u Hu) as [(G1 & G2)|G].
      + eapply cov2_upd; eauto.
      + exists t, p'. rewrite T, (nth_upd _ _ _ _ _ _ Ht), Nat.eqb_refl. split; [reflexivity|]. unfold wit2 in *. rewrite Sm. exact G.
    - intros x u Hx Hu. rewrite Sx. destruct (H3 x u Hx Hu) as [G|G]; auto.
  Qed.

  (** A running task changes its event's status. *)
  Lemma running_in : forall s t p u, nth_error (tasks s) t = Some p -> In u (late p) -> In u (running_ids s).
  Proof. intros s t p u H Hu. unfold running_ids. apply in_flat_map. exists p. split; [eapply nth_error_In; eauto | exact Hu]. Qed.

  Lemma one_runner : forall s t u p q id, SI s -> nth_error (tasks s) t = Some p -> nth_error (tasks s) u = Some q ->
    In id (late p) -> In id (late q) -> t = u.
  Proof.
    intros s t u p q id HS Hp Hq Ip Iq. destruct (Nat.eq_dec t u) as [E|Hne]; [exact E|]. exfalso.
    destruct HS as (H & _). pose proof (i_tok _ _ _ _ H) as N. apply NoDup_app_l in N. unfold running_ids in N.
    clear H. revert t u Hne Hp Hq. induction (tasks s) as [|a l IH]; intros [|t] [|u] Hne Hp Hq; simpl in *; try discriminate.
    - destruct (Hne eq_refl).
    - injection Hp as ->. eapply nodup_disj; [exact N | exact Ip|]. apply in_flat_map. exists q. split; [eapply nth_error_In; eauto | exact Iq].
    - injection Hq as ->. eapply nodup_disj; [exact N | exact Iq|]. apply in_flat_map. exists p. split; [eapply nth_error_In; eauto | exact Ip].
    - apply NoDup_app_l in N. eapply (IH N t u); eauto.
  Qed.

  Lemma FI_status : forall s s' t p p' id x, SI s -> FI s -> nth_error (tasks s) t = Some p -> late p = [id] -> over p = [] ->
    early p = [] -> refused p = [] -> late p' = [id] ->
    tasks s' = upd t p' (tasks s) -> items s' = items s -> objs s' = objs (set_status s id x) -> started s' = started s ->
    progs s' = progs s -> queue s' = queue s -> tok_ok s' p' -> FI s'.
  Proof.
    intros s s' t p p' id x HS HF Ht L Ov Er Rf L' T I1 O St P Q Tp. pose proof HF as [A B C D E]. pose proof HS as (HP & _).
    assert (Hr : In id (running_ids s)) by (eapply running_in; [exact Ht | rewrite L; left; reflexivity]).
    assert (Sm : forall u, streaming s' u = streaming s u).
    { intros u. rewrite <- (streaming_set s id x u). unfold streaming. rewrite O. reflexivity. }
    assert (Sx : forall u, u <> id -> status_of s' u = status_of s u).
    { intros u Hu. transitivity (status_of (set_status s id x) u); [unfold status_of; rewrite O; reflexivity|].
      rewrite status_set. destruct (Nat.eqb_spec u id); [contradiction | reflexivity]. }
    constructor.
    - intros u Hu. rewrite I1 in Hu. rewrite O, dmem_set. auto.
    - intros t0 q Hq. rewrite T, (nth_upd _ _ _ _ _ _ Ht) in Hq. destruct (Nat.eqb_spec t0 t) as [->|Hne]; [injection Hq as <-; exact Tp|].
      pose proof (B t0 q Hq) as Hk.
      assert (Hu : ~ In id (late q)).
      { intros Hc. apply Hne. eapply (one_runner s); [exact HS | exact Hq | exact Ht | exact Hc | rewrite L; left; reflexivity]. }
      unfold tok_ok in *. destruct q as [| | | | | | | | |par u []|par u| | |]; auto; simpl in Hu;
        rewrite Sm, Sx by (intros ->; apply Hu; auto); exact Hk.
    - rewrite St, P. intros H u Hu. eapply cov_upd; [exact Ht | exact T | exact Sm | | | auto].
      + rewrite Q. auto.
      + unfold wit. rewrite Er, Rf, Ov. simpl. tauto.
    - rewrite P. intros u Hu. eapply cov2_upd; [exact Ht | exact T | exact Sm | | auto].
      unfold wit2. rewrite L, L', Ov. simpl. tauto.
    - rewrite P. intros y u Hy Hu. rewrite Sx; [auto|]. intros ->.
      apply (i_r _ _ _ _ HP) in Hr. pose proof (i_one _ _ _ _ HP _ _ _ Hu Hr). subst y. discriminate.
  Qed.

  Lemma top_parts : forall s n, early (top s n) = [] /\ late (top s n) = [] /\ refused (top s n) = [] /\ over (top s n) = [] /\
    forall s', tok_ok s' (top s n).
  Proof. intros s n. unfold top. destruct (_ && _); repeat split. Qed.

  Lemma back_parts : forall s ids s' q, back k s ids = (s', q) ->
    objs s' = objs s /\ items s' = items s /\ progs s' = progs s /\ queue s' = queue s /\ tasks s' = tasks s /\ started s' = started s /\
    (forall u, In u ids -> In u (early q) \/ In u (refused q)) /\ forall s0, tok_ok s0 q.
  Proof.
    intros s [|u r] s' q H; simpl in H; [injection H as <- <-; repeat split; intros u []|].
    destruct (enq_check k s u PNone); injection H as <- <-; simpl; repeat split; auto.
  Qed.

  Lemma final_ne : forall x, final x = true -> x <> PENDING /\ x <> PROCESSING /\ x <> ABORTED.
  Proof. intros []; simpl; intros H; try discriminate; repeat split; discriminate. Qed.

  Lemma FI_step : forall s t, SI s -> FI s -> FI (step k s t).
  Proof.
    intros s t HS HF. unfold step. destruct (nth_error (tasks s) t) as [p|] eqn:Ht; [|exact HF].
    pose proof HS as (HP & _ & Hh). pose proof HF as [A B C D E].
    assert (Nd : forall x, NoDup (progs s x)) by apply (i_p _ _ _ _ HP).
    destruct p as [p id|p id rest|n|n p id|n id|n id|n p id|n|par id|par id mine|par id|par id| |e l]; try exact HF.
    - eapply (FI_upd s _ t _ ADone); eauto; try reflexivity; simpl; auto.
      + intros u Hu. left. split; [exact Hu|].
        pose proof (push_perm s p id Hh) as Pp. simpl in Pp. symmetry in Pp. split; intros Hc; left; apply (Permutation_in u Pp).
        * right; exact Hc.
        * left. unfold wit in Hc. simpl in Hc. tauto.
    - destruct (back k (push s p id) rest) as [s1 q] eqn:Eb.
      destruct (back_parts _ _ _ _ Eb) as (G1 & G2 & G3 & G4 & G5 & G6 & G7 & G8).
      eapply (FI_upd s _ t _ q); eauto; try reflexivity; simpl; rewrite ?G3; auto.
      + rewrite G5. reflexivity.
      + intros u Hu. left. split; [exact Hu|]. rewrite G4.
        pose proof (push_perm s p id Hh) as Pp. symmetry in Pp. split; intros Hc.
        * left. apply (Permutation_in u Pp). right; exact Hc.
        * unfold wit in Hc. simpl in Hc. destruct Hc as [[->|Hc]|[[]|[_ []]]].
          -- left. apply (Permutation_in u Pp). left; reflexivity.
          -- right. unfold wit. destruct (G7 u Hc); auto.
      + intros u Hu. left. split; [exact Hu|]. unfold wit2. simpl. tauto.
    - destruct (heappop qlt (queue s)) as [[[p id] h]|] eqn:Ep; [|exact HF].
      pose proof (heap_pop qlt qlt_weak _ Hh) as Pp. rewrite Ep in Pp. destruct Pp as (_ & Pp & _). apply (Permutation_map snd) in Pp. simpl in Pp.
      destruct (memb id (items s)) eqn:Em.
      + eapply (FI_upd s _ t _ (LPerm n p id)); eauto; try reflexivity; simpl; auto.
        intros u Hu. left. split; [exact Hu|]. split; [|unfold wit; simpl; tauto].
        intros Hc. apply (Permutation_in u Pp) in Hc. destruct Hc as [->|Hc]; [right; left; left; reflexivity | left; exact Hc].
      + match goal with |- FI (set_task ?s2 t ?q) => set (q0 := q) end.
        destruct (top_parts (w_denial (w_queue s h) (ddel id (denial s))) n) as (T1 & T2 & T3 & T4 & T5). fold q0 in T1, T2, T3, T4, T5.
        eapply (FI_upd s _ t _ q0); eauto; try reflexivity; simpl; auto.
        intros u Hu. left. split; [exact Hu|]. split; [|unfold wit; simpl; tauto].
        intros Hc. apply (Permutation_in u Pp) in Hc. destruct Hc as [->|Hc]; [|left; exact Hc].
        apply memb_notIn in Em. destruct Em. eapply prog_item; eauto.
        intros u Hu. left. split; [exact Hu|]. unfold wit2. simpl. tauto.
    - set (s1 := w_avail (w_progs s (move_to id PROCESSING (progs s))) (avail s - 1)%Z).
      destruct (top_parts s1 (S n)) as (T1 & T2 & T3 & T4 & T5).
      set (q := top s1 (S n)) in *.
      constructor; simpl.
      + exact A.
      + intros t0 q0 Hq. apply nth_error_In in Hq. apply in_app_iff in Hq. destruct Hq as [Hq|[<-|[]]]; [|exact Logic.I].
        apply In_nth_error in Hq. destruct Hq as [t1 Hq]. rewrite (nth_upd _ _ _ _ _ _ Ht) in Hq.
        destruct (t1 =? t); [injection Hq as <-; apply T5 | apply (B t1 q0 Hq)].
      + intros Hs u Hu. apply move_In in Hu; [|exact Nd]. destruct Hu as [[Hu Hne]|[_ Hc]]; [|discriminate].
        apply (cov_app (set_task s1 t q) _ (KSem t id)); [reflexivity | reflexivity | reflexivity | apply (prog_item s PENDING u HS Hu)|].
        eapply (cov_upd s); [exact Ht | reflexivity | reflexivity | auto | | auto]. unfold wit. simpl. intros [[->|[]]|[[]|[_ []]]]. contradiction.
      + intros u Hu. apply move_In in Hu; [|exact Nd]. destruct Hu as [[Hu Hne]|[-> _]].
        * apply (cov2_app (set_task s1 t q) _ (KSem t id)); [reflexivity | reflexivity | apply (prog_item s PROCESSING u HS Hu)|].
          eapply (cov2_upd s); [exact Ht | reflexivity | reflexivity | | auto]. unfold wit2. simpl. tauto.
        * eapply cov2_last; [reflexivity|]. left. left. reflexivity.
      + intros x u Hx Hu. apply move_In in Hu; [|exact Nd]. destruct (final_ne x Hx) as (N1 & N2 & N3).
        destruct Hu as [[Hu Hne]|[_ Hc]]; [|contradiction]. exact (E x u Hx Hu).
    - eapply (FI_upd s _ t _ (LJoin n)); eauto; try reflexivity; simpl.
      + intros u Hu. apply move_In in Hu; [|exact Nd]. destruct Hu as [[Hu Hne]|[_ Hc]]; [|discriminate].
        left. split; [exact Hu|]. split; [auto|]. unfold wit. simpl. intros [[->|[]]|[[]|[_ []]]]. contradiction.
      + intros u Hu. apply move_In in Hu; [|exact Nd]. destruct Hu as [[Hu Hne]|[_ Hc]]; [|discriminate]. auto.
      + intros x u Hx Hu. apply move_In in Hu; [|exact Nd]. destruct (final_ne x Hx) as (N1 & N2 & N3).
        destruct Hu as [[Hu Hne]|[_ Hc]]; [auto | contradiction].
    - eapply (FI_upd s _ t _ (LJoin n)); eauto; try reflexivity; simpl; auto.
      intros u Hu. left. split; [exact Hu|].
      pose proof (push_perm s p id Hh) as Pp. simpl in Pp. symmetry in Pp. split; intros Hc; left; apply (Permutation_in u Pp).
      + right; exact Hc.
      + left. unfold wit in Hc. simpl in Hc. tauto.
    - destruct (existsb _ _); [exact HF|]. destruct (0 <? n); eapply (FI_upd s _ t _ ADone); eauto; try reflexivity; simpl; auto;
        intros u Hu; left; (split; [exact Hu|]); unfold wit, wit2; simpl; tauto.
    - destruct (sem s) as [|m]; [exact HF|].
      assert (Hi : dmem id (objs s) = true).
      { apply A. apply (prog_item s PROCESSING); [exact HS|]. apply (i_r _ _ _ _ HP). eapply running_in; [exact Ht | left; reflexivity]. }
      destruct (negb (streaming s id) && eqb (status_of s id) PENDING) eqn:Ec.
      + destruct (set_status_fields (w_sem s m) id PROCESSING) as (G1 & G2 & G3 & G4 & G5 & _).
        eapply (FI_status s _ t _ (KRun par id true) id PROCESSING); eauto; try reflexivity.
        * simpl. rewrite G5. reflexivity.
        * simpl. unfold set_status. simpl. destruct (dget id (objs s)); reflexivity.
      + eapply (FI_upd s _ t _ (KRun par id false)); eauto; try reflexivity; simpl; auto.
        * intros Hs Hc. rewrite Hs, Hc in Ec. discriminate.
    - pose proof (B t _ Ht) as Tk. simpl in Tk.
      eapply (FI_upd s _ t _ (KDone par id)); eauto; try reflexivity; simpl.
      + intros u Hu. apply move_In in Hu; [|exact Nd]. destruct Hu as [[Hu Hne]|[-> Hc]].
        * left. split; [exact Hu|]. unfold wit. simpl. tauto.
        * right. right; right. simpl. split; [|auto]. destruct (streaming s id); [reflexivity|]. destruct (Tk eq_refl) as [K1 K2]. congruence.
      + intros u Hu. apply move_In in Hu; [|exact Nd]. destruct Hu as [[Hu Hne]|[-> Hc]].
        * left. split; [exact Hu|]. unfold wit2. simpl. intros [[->|[]]|[_ []]]. contradiction.
        * right. right. simpl. split; [|auto]. destruct (streaming s id); [reflexivity|]. destruct (Tk eq_refl) as [K1 K2]. congruence.
      + intros x u Hx Hu. apply move_In in Hu; [|exact Nd]. destruct Hu as [[Hu Hne]|[-> Hc]]; auto.
  Qed.

  Lemma FI_grant : forall s t b, SI s -> FI s -> FI (grant k s t b).
  Proof.
    intros s t b HS HF. unfold grant. destruct (nth_error (tasks s) t) as [p|] eqn:Ht; [|exact HF].
    destruct p as [p id|p id rest|n|n p id|n id|n id|n p id|n|par id|par id mine|par id|par id| |e l]; try exact HF.
    destruct b; [|destruct (3 <=? _)].
    - eapply (FI_upd s _ t _ (LUpd n id)); eauto; try reflexivity; simpl; auto.
    - eapply (FI_upd s _ t _ (LAbort n id)); eauto; try reflexivity; simpl; auto.
    - eapply (FI_upd s _ t _ (LRequeue n _ id)); eauto; try reflexivity; simpl; auto.
  Qed.

  (** An event found in the middle of being processed is being processed. *)
  Definition BI (s : pst) : Prop :=
    forall u, streaming s u = false -> status_of s u = PROCESSING -> existsb (runs u) (tasks s) = true.

  Lemma BI_same : forall s s', BI s -> objs s' = objs s -> (forall u, existsb (runs u) (tasks s) = true -> existsb (runs u) (tasks s') = true) -> BI s'.
  Proof. intros s s' H Ho Ht u. unfold streaming, status_of. rewrite Ho. intros A B. apply Ht, H; assumption. Qed.
  Lemma runs_upd : forall l t p p' u, nth_error l t = Some p -> runs u p = false -> existsb (runs u) l = true ->
    existsb (runs u) (upd t p' l) = true.
  Proof.
    induction l as [|x l IH]; intros [|t] p p' u H Hp; simpl in *; try discriminate.
    - injection H as ->. rewrite Hp. simpl. intros ->. apply orb_true_r.
    - rewrite !orb_true_iff. intros [A|A]; [auto|]. right. eapply IH; eauto.
  Qed.
  Lemma runs_at : forall l t p u, nth_error l t <> None -> runs u p = true -> existsb (runs u) (upd t p l) = true.
  Proof.
    induction l as [|x l IH]; intros [|t] p u H Hp; simpl in *; try congruence.
    - rewrite Hp. reflexivity.
    - rewrite IH; auto. apply orb_true_r.
  Qed.

  Lemma BI_pact : forall s a, normal a -> BI s -> BI (pact k s a).
  Proof.
    intros s a Hn H.
    assert (New : forall s' p, objs s' = objs s -> tasks s' = tasks s ++ [p] -> BI s').
    { intros s' p Ho Ht. apply (BI_same s); auto. intros u A. rewrite Ht, existsb_app, A. reflexivity. }
    assert (Upd : forall s' t p p', objs s' = objs s -> nth_error (tasks s) t = Some p -> (forall u, runs u p = false) ->
       tasks s' = upd t p' (tasks s) -> BI s').
    { intros s' t p p' Ho Hp Hr Ht. apply (BI_same s); auto. intros u A. rewrite Ht. eapply runs_upd; eauto. }
    destruct a as [c|t|t b|t x|l|]; cbn [pact].
    - unfold spawn. destruct c as [id e p|id p| |].
      + destruct (memb id (items s)); [eapply New; reflexivity|].
        set (s2 := if dmem id (objs s) then _ else _).
        assert (B2 : BI s2).
        { unfold s2. destruct (dmem id (objs s)) eqn:Ed; [exact H|]. intros u. unfold streaming, status_of. cbn [objs w_objs tasks w_items].
          rewrite dget_dset. destruct (eqb_spec u id) as [->|Hne]; [intros _ C; destruct (Hn C) | apply H]. }
        assert (N2 : forall p', BI (new_task s2 p')).
        { intros p'. apply (BI_same s2); auto. intros u A. simpl. rewrite existsb_app, A. reflexivity. }
        destruct (started s); [destruct (enq_check k s2 id p)|]; apply N2.
      + destruct Hn.
      + destruct (started s); [eapply New; reflexivity|]. destruct (forallb _ _); [|eapply New; reflexivity].
        destruct (back k (w_started s) (progs s PENDING)) as [s2 q] eqn:Eb. unfold back in Eb.
        destruct (progs s PENDING) as [|v r]; [injection Eb as <- <-; eapply New; reflexivity|].
        destruct (enq_check k (w_started s) v PNone); injection Eb as <- <-; eapply New; reflexivity.
      + destruct (started s); eapply New; reflexivity.
    - unfold step. destruct (nth_error (tasks s) t) as [p|] eqn:Ht; [|exact H].
      destruct p as [p id|p id rest|n|n p id|n id|n id|n p id|n|par id|par id mine|par id|par id| |e l]; try exact H;
        try (eapply Upd; [reflexivity | exact Ht | reflexivity | reflexivity]).
      + destruct (back k (push s p id) rest) as [s1 q] eqn:Eb. unfold back in Eb.
        destruct rest as [|v r]; [injection Eb as <- <-; eapply Upd; [reflexivity | exact Ht | reflexivity | reflexivity]|].
        destruct (enq_check k (push s p id) v PNone); injection Eb as <- <-; (eapply Upd; [reflexivity | exact Ht | reflexivity | reflexivity]).
      + destruct (heappop qlt (queue s)) as [[[p id] h]|]; [|exact H].
        destruct (memb id (items s)); (eapply Upd; [reflexivity | exact Ht | reflexivity | reflexivity]).
      + apply (BI_same s); auto. intros u A. simpl. rewrite existsb_app. erewrite runs_upd; eauto.
      + destruct (existsb _ _); [exact H|]. destruct (0 <? n); (eapply Upd; [reflexivity | exact Ht | reflexivity | reflexivity]).
      + destruct (sem s) as [|m]; [exact H|]. destruct (_ && _); [|eapply Upd; [reflexivity | exact Ht | reflexivity | reflexivity]].
        intros u A B. destruct (set_status_fields (w_sem s m) id PROCESSING) as (_ & _ & _ & _ & G & _).
        cbn [set_task w_tasks tasks]. rewrite G. cbn [tasks w_sem].
        destruct (Nat.eq_dec u id) as [->|Hne]; [apply runs_at; [congruence | apply Nat.eqb_refl]|].
        eapply runs_upd; [exact Ht | reflexivity|]. apply H.
        * change (streaming (set_status (w_sem s m) id PROCESSING) u = false) in A. rewrite streaming_set in A. exact A.
        * change (status_of (set_status (w_sem s m) id PROCESSING) u = PROCESSING) in B. rewrite status_set in B.
          destruct (Nat.eqb_spec u id); [contradiction | exact B].
    - unfold grant. destruct (nth_error (tasks s) t) as [p|] eqn:Ht; [|exact H].
      destruct p; try exact H. destruct b; [|destruct (3 <=? _)]; (eapply Upd; [reflexivity | exact Ht | reflexivity | reflexivity]).
    - unfold finish_ev. destruct (nth_error (tasks s) t) as [p|] eqn:Ht; [|exact H].
      destruct p as [p id|p id rest|n|n p id|n id|n id|n p id|n|par id|par id mine|par id|par id| |e l]; try exact H.
      assert (G : streaming s id = true \/ x <> PROCESSING -> BI (set_task (set_status s id x) t (KUpd par id))).
      { intros Hx u A B. change (streaming (set_status s id x) u = false) in A. rewrite streaming_set in A.
        change (status_of (set_status s id x) u = PROCESSING) in B. rewrite status_set in B.
        destruct (set_status_fields s id x) as (_ & _ & _ & _ & E & _). cbn [set_task w_tasks tasks]. rewrite E.
        destruct (Nat.eqb_spec u id) as [->|Hne].
        - exfalso. destruct Hx as [Hx|Hx]; [congruence|]. destruct (dmem id (objs s)) eqn:Ed; [contradiction|].
          simpl in B. unfold status_of in B. unfold dmem in Ed. destruct (dget id (objs s)); discriminate.
        - eapply runs_upd; [exact Ht | | apply H; assumption]. simpl. destruct mine; [|reflexivity].
          apply Nat.eqb_neq. congruence. }
      destruct (streaming s id); [apply G; auto|]. destruct mine.
      + destruct x; try exact H; apply G; right; discriminate.
      + destruct (existsb _ _); [exact H|]. eapply Upd; [reflexivity | exact Ht | reflexivity | reflexivity].
    - destruct (cleanup_fields l s 0) as (_ & G2 & _ & _ & G3 & _). apply (BI_same s); auto. rewrite G2. auto.
    - destruct (started s); [apply (BI_same s); auto | exact H].
  Qed.

  Lemma FI_finish : forall s t x, SI s -> FI s -> BI s -> FI (finish_ev s t x).
  Proof.
    intros s t x HS HF HB. unfold finish_ev. destruct (nth_error (tasks s) t) as [p|] eqn:Ht; [|exact HF].
    pose proof HS as (HP & _). pose proof HF as [A B C D E].
    destruct p as [p id|p id rest|n|n p id|n id|n id|n p id|n|par id|par id mine|par id|par id| |e l]; try exact HF.
    assert (Hi : dmem id (objs s) = true).
    { apply A. apply (prog_item s PROCESSING); [exact HS|]. apply (i_r _ _ _ _ HP). eapply running_in; [exact Ht | left; reflexivity]. }
    assert (G : streaming s id = true \/ (x <> PENDING /\ x <> PROCESSING) -> FI (set_task (set_status s id x) t (KUpd par id))).
    { intros Hx. destruct (set_status_fields s id x) as (G1 & G2 & G3 & G4 & G5 & _).
      eapply (FI_status s _ t _ (KUpd par id) id x); eauto; try reflexivity.
      - simpl. rewrite G5. reflexivity.
      - simpl. intros Hs. destruct Hx as [Hx|Hx].
        + change (streaming (set_status s id x) id = false) in Hs. rewrite streaming_set in Hs. congruence.
        + change (status_of (set_status s id x) id <> PENDING /\ status_of (set_status s id x) id <> PROCESSING).
          rewrite status_set, Nat.eqb_refl, Hi. exact Hx. }
    destruct (streaming s id) eqn:Es; [apply G; auto|]. destruct mine.
    - destruct x; try exact HF; apply G; right; split; discriminate.
    - destruct (existsb (runs id) (tasks s)) eqn:Hr; [exact HF|].
      assert (Hp : status_of s id <> PROCESSING) by (intros Hp; rewrite (HB id Es Hp) in Hr; discriminate).
      pose proof (B t _ Ht) as Tk. simpl in Tk.
      eapply (FI_upd s _ t _ (KUpd par id)); eauto; try reflexivity; simpl; auto.
  Qed.

  Lemma FI_spawn : forall s c, SI s -> FI s -> (forall id p, c <> CEnqueue id p) -> FI (spawn k s c).
  Proof.
    intros s c HS HF Hc. pose proof HF as [A B C D E]. pose proof HS as (HP & H2 & _). destruct c as [id e p|id p| |]; simpl.
    - destruct (memb id (items s)) eqn:Em; [eapply (FI_new s); eauto; reflexivity|].
      apply memb_notIn in Em.
      set (s1 := w_items s (items s ++ [id]) (fun x => if eqb x PENDING then progs s x ++ [id] else progs s x)).
      set (s2 := if dmem id (objs s) then s1 else w_objs s1 (dset id e (objs s))).
      assert (F : items s2 = items s ++ [id] /\ progs s2 = progs s1 /\ queue s2 = queue s /\ started s2 = started s /\ tasks s2 = tasks s)
        by (unfold s2; destruct (dmem id (objs s)); auto).
      destruct F as (F1 & F2 & F3 & F4 & F5).
      assert (Fo : forall u, u <> id -> dget u (objs s2) = dget u (objs s)).
      { intros u Hu. unfold s2. destruct (dmem id (objs s)); [reflexivity|]. simpl. apply dget_dset_other. exact Hu. }
      assert (Fd : dmem id (objs s2) = true).
      { unfold s2. destruct (dmem id (objs s)) eqn:Ed; [exact Ed|]. simpl. unfold dmem. rewrite dget_dset_same. reflexivity. }
      assert (Fm : dmem id (objs s) = true -> objs s2 = objs s) by (intros Hd; unfold s2; rewrite Hd; reflexivity).
      assert (G : forall q, (started s = true -> In id (early q) \/ In id (refused q)) -> (forall s0, tok_ok s0 q) -> FI (new_task s2 q)).
      { intros q Hq Tq. constructor; simpl.
        - intros u Hu. rewrite F1 in Hu. apply in_app_iff in Hu. destruct (Nat.eq_dec u id) as [->|Hne]; [exact Fd|].
          destruct Hu as [Hu|[->|[]]]; [|contradiction]. unfold dmem. rewrite (Fo u Hne). apply A. exact Hu.
        - intros t0 q0 Hq0. rewrite F5 in Hq0. apply nth_error_In in Hq0. apply in_app_iff in Hq0.
          destruct Hq0 as [Hq0|[<-|[]]]; [|apply Tq]. apply In_nth_error in Hq0. destruct Hq0 as [t1 Ht1].
          pose proof (B t1 q0 Ht1) as Tk. pose proof (running_in s t1 q0) as Hr.
          assert (Hu : forall u, In u (late q0) -> u <> id).
          { intros u Hu ->. apply Em. eapply (prog_item s PROCESSING); [exact HS|]. apply (i_r _ _ _ _ HP). apply Hr; assumption. }
          unfold tok_ok in *. destruct q0 as [| | | | | | | | |par u []|par u| | |]; auto; simpl in Hu;
            unfold streaming, status_of in *; simpl; rewrite Fo by (apply Hu; auto); exact Tk.
        - intros Hs u Hu. rewrite F4 in Hs. rewrite F2 in Hu. simpl in Hu. apply in_app_iff in Hu.
          destruct Hu as [Hu|[<-|[]]].
          + assert (Hi : In u (items s)) by (eapply prog_item; eauto).
            assert (Hne : u <> id) by (intros ->; contradiction).
            apply (cov_app s _ q); auto.
            * simpl. rewrite F5. reflexivity.
            * intros _. unfold streaming. simpl. rewrite Fo by exact Hne. reflexivity.
          + eapply cov_last; [reflexivity|]. unfold wit. destruct (Hq Hs); auto.
        - intros u Hu. rewrite F2 in Hu. simpl in Hu.
          assert (Hi : In u (items s)) by (eapply prog_item; eauto).
          assert (Hne : u <> id) by (intros ->; contradiction).
          apply (cov2_app s _ q); auto.
          + simpl. rewrite F5. reflexivity.
          + intros _. unfold streaming. simpl. rewrite Fo by exact Hne. reflexivity.
        - intros x u Hx Hu. rewrite F2 in Hu. simpl in Hu. destruct (final_ne x Hx) as (N1 & _).
          destruct (eqb_spec x PENDING) as [Hc'|_]; [contradiction|].
          assert (Hi : In u (items s)) by (eapply prog_item; eauto).
          assert (Hne : u <> id) by (intros ->; contradiction).
          unfold status_of. simpl. rewrite Fo by exact Hne. apply (E x u Hx Hu). }
      destruct (started s); [destruct (enq_check k s2 id p)|]; apply G; simpl; auto; discriminate.
    - destruct (Hc id p eq_refl).
    - destruct (started s) eqn:Es; [eapply (FI_new s); eauto; reflexivity|].
      assert (G : forall s2 q, tasks s2 = tasks s -> items s2 = items s -> progs s2 = progs s -> queue s2 = queue s -> objs s2 = objs s ->
         (forall u, In u (progs s PENDING) -> In u (early q) \/ In u (refused q)) -> (forall s0, tok_ok s0 q) -> FI (new_task s2 q)).
      { intros s2 q T I1 P Q O Hq Tq. constructor; simpl.
        - rewrite I1, O. exact A.
        - intros t0 q0 Hq0. rewrite T in Hq0. apply nth_error_In in Hq0. apply in_app_iff in Hq0.
          destruct Hq0 as [Hq0|[<-|[]]]; [|apply Tq]. apply In_nth_error in Hq0. destruct Hq0 as [t1 Ht1].
          pose proof (B t1 q0 Ht1) as Tk. unfold tok_ok, streaming, status_of in *. simpl. rewrite O. exact Tk.
        - intros _ u Hu. rewrite P in Hu. eapply cov_last; [reflexivity|]. unfold wit. destruct (Hq u Hu); auto.
        - intros u Hu. rewrite P in Hu. apply (cov2_app s _ q); auto.
          + simpl. rewrite T. reflexivity.
          + intros _. unfold streaming. simpl. rewrite O. reflexivity.
          + eapply prog_item; eauto.
        - intros x u Hx Hu. rewrite P in Hu. unfold status_of. simpl. rewrite O. apply (E x u Hx Hu). }
      destruct (forallb _ _); [|apply G; simpl; auto].
      destruct (back k (w_started s) (progs s PENDING)) as [s2 q] eqn:Eb.
      destruct (back_parts _ _ _ _ Eb) as (G1 & G2 & G3 & G4 & G5 & G6 & G7 & G8). apply G; auto.
    - destruct (started s); eapply (FI_new s); eauto; try reflexivity. apply (top_parts s 0).
  Qed.

  Lemma FI_sub : forall s s', FI s -> tasks s' = tasks s -> queue s' = queue s -> objs s' = objs s -> started s' = started s ->
    (forall u, In u (items s') -> In u (items s)) -> (forall x u, In u (progs s' x) -> In u (progs s x)) -> FI s'.
  Proof.
    intros s s' [A B C D E] T Q O St I1 P.
    assert (Sm : forall u, streaming s' u = streaming s u) by (intros u; unfold streaming; rewrite O; reflexivity).
    assert (Sx : forall u, status_of s' u = status_of s u) by (intros u; unfold status_of; rewrite O; reflexivity).
    constructor.
    - intros u Hu. rewrite O. auto.
    - intros t p Ht. rewrite T in Ht. pose proof (B t p Ht) as Tk. unfold tok_ok in *.
      destruct p as [| | | | | | | | |par u []|par u| | |]; auto; rewrite Sm, Sx; exact Tk.
    - rewrite St. intros Hs u Hu. destruct (C Hs u (P _ _ Hu)) as [Hc|(t & p & Ht & Hw)]; [left; rewrite Q; exact Hc|].
      right. exists t, p. rewrite T. unfold wit. rewrite Sm. auto.
    - intros u Hu. destruct (D u (P _ _ Hu)) as (t & p & Ht & Hw). exists t, p. rewrite T. unfold wit2. rewrite Sm. auto.
    - intros x u Hx Hu. rewrite Sx. auto.
  Qed.

  Lemma clean_sub : forall ids s n, let s' := fst (clean_ids s ids n) in
    (forall u, In u (items s') -> In u (items s)) /\ (forall x u, In u (progs s' x) -> In u (progs s x)).
  Proof.
    assert (S1 : forall id l u, In u (strip1 id l) -> In u l).
    { intros id l u. unfold strip1. destruct (remove_first id l) as [l'|] eqn:E; [|auto]. intros H. eapply remove_first_In; eauto. }
    induction ids as [|id t IH]; intros s n; simpl; [auto|].
    destruct (remove_first id (items s)) as [l|] eqn:Er.
    - destruct (IH (w_items (w_denial s (if started s then ddel id (denial s) else denial s)) l (fun x => strip1 id (progs s x))) (S n)) as [I1 I2].
      split.
      + intros u Hu. apply I1 in Hu. simpl in Hu. eapply remove_first_In; eauto.
      + intros x u Hu. apply I2 in Hu. simpl in Hu. eapply S1; eauto.
    - simpl. split; [auto|]. intros x u Hu. eapply S1; eauto.
  Qed.
  Lemma cleanup_sub : forall l s n, let s' := fst (cleanup s l n) in
    (forall u, In u (items s') -> In u (items s)) /\ (forall x u, In u (progs s' x) -> In u (progs s x)).
  Proof.
    induction l as [|x t IH]; intros s n; simpl; [auto|]. destruct (forallb _ _); [|simpl; auto].
    pose proof (clean_sub (progs s x) s n) as H. destruct (clean_ids s (progs s x) n) as [s' [m|e]]; simpl in *; [|exact H].
    destruct H as [H1 H2]. destruct (IH s' m) as [I1 I2]. split; [auto|]. intros y u Hu. apply H2, I2, Hu.
  Qed.

  Lemma FI_pact : forall s a, normal a -> SI s -> FI s -> BI s -> FI (pact k s a).
  Proof.
    intros s [c|t|t b|t x|l|] Hn HS HF HB; cbn [pact].
    - apply FI_spawn; auto. intros id p ->. exact Hn.
    - apply FI_step; assumption.
    - apply FI_grant; assumption.
    - apply FI_finish; assumption.
    - destruct (cleanup_fields l s 0) as (G1 & G2 & _ & _ & G3 & G4). destruct (cleanup_sub l s 0). apply (FI_sub s); assumption.
    - destruct (started s) eqn:Es; [apply (FI_sub s); auto | exact HF].
  Qed.

  Lemma FI_0 : FI (pst0 k).
  Proof.
    constructor; simpl.
    - intros u [].
    - intros [|t] p H; discriminate.
    - discriminate.
    - intros u [].
    - intros x u _ [].
  Qed.

  Lemma FBI_reach : forall s, reach k normal s -> SI s /\ FI s /\ BI s.
  Proof.
    apply reach_inv; [split; [apply SI_0 | split; [apply FI_0 | intros u _; discriminate]]|].
    intros s a Hn (HS & HF & HB). split; [apply SI_pact; assumption|]. split; [apply FI_pact; assumption | apply BI_pact; assumption].
  Qed.
  Lemma FI_reach : forall s, reach k normal s -> SI s /\ FI s.
  Proof. intros s H. destruct (FBI_reach s H) as (A & B & _). auto. Qed.
End Fate.
