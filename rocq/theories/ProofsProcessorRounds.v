(** What one forward() call after the other achieves. *)
From Coq Require Import List Bool Arith ZArith Lia Permutation ZifyBool.
From Verif Require Import PyBase PyFacts ModelHeap SpecHeap ProofsHeap ModelEvent ModelProcessor SpecProcessor SpecProcessorLive
  ProofsPQueue ProofsPQueueWake ProofsEvent ProofsProcessor ProofsProcessorRun ProofsProcessorDeny ProofsProcessorFate ProofsProcessorCap
  ProofsProcessorLive.
Import ListNotations.
#[local] Arguments eqb : simpl never.

(** Tasks that touch neither queue, capacity nor denial tracker. *)
Definition calm (p : tpc) : bool :=
  match p with KSem _ _ | KRun _ _ _ | KUpd _ _ | KDone _ _ | ADone | AErr _ _ => true | _ => false end.
Definition target (a : action) : nat := match a with Step t | Grant t _ | Finish t _ => t | _ => 0 end.

Section Rounds.
  Variable k : cfg.

  (** ** Capacity is whole again when nothing is under way *)
  Definition whole (s : pst) : Prop := (forall p, In p (tasks s) -> loop_count p = 0) -> avail s = Z.of_nat (k_cap k).
  Lemma whole_step : forall s a, whole s -> whole (pact k s a).
  Proof.
    intros s a H. unfold whole in *.
    assert (U : forall t p p', nth_error (tasks s) t = Some p -> (loop_count p' = 0 -> loop_count p = 0) ->
       (forall q, In q (upd t p' (tasks s)) -> loop_count q = 0) -> forall q, In q (tasks s) -> loop_count q = 0).
    { intros t p p' Ht Hp Hq q Hin. apply In_nth_error in Hin. destruct Hin as [u Hu].
      destruct (Nat.eq_dec u t) as [->|Hne].
      - rewrite Ht in Hu. injection Hu as <-. apply Hp, Hq. apply (nth_error_In _ t). rewrite (nth_upd _ _ _ _ _ _ Ht), Nat.eqb_refl. reflexivity.
      - apply Hq. apply (nth_error_In _ u). rewrite (nth_upd _ _ _ _ _ _ Ht). destruct (Nat.eqb_spec u t); [contradiction | exact Hu]. }
    destruct (tk_step k s a) as [T V|p T V L S|T V|t p p' Ht T V L L' S C|t p p' Ht T V L L' C A|t n id p' Ht T V L C A|t n Ht T V E];
      rewrite T; try rewrite V; intros Hp.
    - apply H. exact Hp.
    - apply H. intros q Hq. apply Hp, in_or_app. auto.
    - apply H. intros q Hq. apply Hp, in_or_app. auto.
    - apply H. eapply U; [exact Ht | | exact Hp]. intros _. destruct p; try discriminate; reflexivity.
    - apply H. eapply U; [exact Ht | | exact Hp]. congruence.
    - exfalso. assert (I : In p' (upd t p' (tasks s) ++ [KSem t id])).
      { apply in_or_app. left. apply (nth_error_In _ t). rewrite (nth_upd _ _ _ _ _ _ Ht), Nat.eqb_refl. reflexivity. }
      specialize (Hp p' I). congruence.
    - destruct (Nat.ltb_spec 0 n); [reflexivity|]. apply H. eapply U; [exact Ht | | exact Hp]. simpl. lia.
  Qed.
  Lemma whole_reach : forall s, reach k anything s -> whole s.
  Proof. apply reach_inv; [intros _; reflexivity | intros s a _; apply whole_step]. Qed.

  (** ** One call and the tasks it started, everything else being over *)
  Lemma calm_step : forall s a p, inner a -> nth_error (tasks s) (target a) = Some p -> calm p = true ->
    let s' := pact k s a in queue s' = queue s /\ denial s' = denial s /\ avail s' = avail s /\
    (tasks s' = tasks s \/ exists p', calm p' = true /\ tasks s' = upd (target a) p' (tasks s)).
  Proof.
    intros s a p Ha Ht Hp. destruct a as [c|t|t b|t x|l|]; try destruct Ha; cbn [pact target] in *.
    - unfold step. rewrite Ht. destruct p as [p id|p id rest|n|n p id|n id|n id|n p id|n|par id|par id mine|par id|par id| |e l]; try discriminate; auto.
      + destruct (sem s) as [|m]; [auto|]. destruct (_ && _).
        * destruct (set_status_fields (w_sem s m) id PROCESSING) as (_ & _ & A & _ & B & C & D & _). cbn [set_task w_tasks queue denial avail tasks].
          rewrite A, B, C, D. repeat split. right. exists (KRun par id true). auto.
        * repeat split. right. exists (KRun par id false). auto.
      + repeat split. right. exists (KDone par id). auto.
    - unfold grant. rewrite Ht. destruct p; try discriminate; auto.
    - unfold finish_ev. rewrite Ht. destruct p as [p id|p id rest|n|n p id|n id|n id|n p id|n|par id|par id mine|par id|par id| |e l]; try discriminate; auto.
      assert (G : let s' := set_task (set_status s id x) t (KUpd par id) in queue s' = queue s /\ denial s' = denial s /\ avail s' = avail s /\
        (tasks s' = tasks s \/ exists p', calm p' = true /\ tasks s' = upd t p' (tasks s))).
      { destruct (set_status_fields s id x) as (_ & _ & A & _ & B & C & D & _). cbn [set_task w_tasks queue denial avail tasks].
        rewrite A, B, C, D. repeat split. right. exists (KUpd par id). auto. }
      destruct (streaming s id); [exact G|]. destruct mine; [destruct x; auto|]. destruct (existsb _ _); [auto|].
      repeat split. right. exists (KUpd par id). auto.
  Qed.

  Definition alone (t : nat) (s : pst) (p : tpc) : Prop :=
    nth_error (tasks s) t = Some p /\ forall u q, u <> t -> nth_error (tasks s) u = Some q -> calm q = true.

  Lemma alone_upd : forall t s s' p p', alone t s p -> tasks s' = upd t p' (tasks s) -> alone t s' p'.
  Proof.
    intros t s s' p p' [A B] E. split; [rewrite E, (nth_upd _ _ _ _ _ _ A), Nat.eqb_refl; reflexivity|].
    intros u q Hne Hu. rewrite E, (nth_upd _ _ _ _ _ _ A) in Hu. destruct (Nat.eqb_spec u t); [contradiction|]. eapply B; eauto.
  Qed.
  Lemma alone_app : forall t s s' p p' q, alone t s p -> calm q = true -> tasks s' = upd t p' (tasks s) ++ [q] -> alone t s' p'.
  Proof.
    intros t s s' p p' q0 [A B] Hq E. assert (L : t < length (tasks s)) by (apply nth_error_Some; congruence).
    split; [rewrite E, nth_error_app1 by (rewrite upd_length; exact L); rewrite (nth_upd _ _ _ _ _ _ A), Nat.eqb_refl; reflexivity|].
    intros u q Hne Hu. rewrite E in Hu. destruct (lt_dec u (length (tasks s))) as [Hl|Hl].
    - rewrite nth_error_app1 in Hu by (rewrite upd_length; exact Hl). rewrite (nth_upd _ _ _ _ _ _ A) in Hu.
      destruct (Nat.eqb_spec u t); [contradiction|]. eapply B; eauto.
    - rewrite nth_error_app2 in Hu by (rewrite upd_length; lia). rewrite upd_length in Hu.
      destruct (u - length (tasks s)) as [|[|]]; simpl in Hu; try discriminate. injection Hu as <-. exact Hq.
  Qed.
  Lemma alone_same : forall t s s' p, alone t s p -> tasks s' = tasks s -> alone t s' p.
  Proof. intros t s s' p [A B] E. split; rewrite E; assumption. Qed.

  (** A condition on queue, tracker, capacity and the call that the call keeps is
      kept. *)
  Lemma round_inv : forall (ok : action -> Prop) (P : list (Z * uuid) -> dict uuid nat -> Z -> tpc -> Prop) t,
    (forall a, ok a -> inner a) ->
    (forall s a p, ok a -> target a = t -> heap qlt (queue s) -> alone t s p -> P (queue s) (denial s) (avail s) p ->
       exists p', alone t (pact k s a) p' /\ P (queue (pact k s a)) (denial (pact k s a)) (avail (pact k s a)) p') ->
    forall l s p, Forall ok l -> heap qlt (queue s) -> alone t s p -> P (queue s) (denial s) (avail s) p ->
    exists p', alone t (pexec k s l) p' /\ P (queue (pexec k s l)) (denial (pexec k s l)) (avail (pexec k s l)) p'.
  Proof.
    intros ok P t Hok Hstep. induction l as [|a l IH]; intros s p Hf Hh Hal HP; [exists p; auto|].
    inversion Hf as [|? ? Ha Hl]; subst. change (pexec k s (a :: l)) with (pexec k (pact k s a) l).
    assert (H1 : exists p', alone t (pact k s a) p' /\ P (queue (pact k s a)) (denial (pact k s a)) (avail (pact k s a)) p').
    { destruct (Nat.eq_dec (target a) t) as [E|Hne]; [eapply Hstep; eauto|].
      destruct (nth_error (tasks s) (target a)) as [q|] eqn:Eq.
      - pose proof Hal as [A B].
        destruct (calm_step s a q (Hok a Ha) Eq (B _ _ Hne Eq)) as (Q1 & Q2 & Q3 & Q4). exists p.
        rewrite Q1, Q2, Q3. split; [|exact HP]. destruct Q4 as [Q4|(p' & C & Q4)]; [apply (alone_same t s); assumption|].
        split.
        + rewrite Q4, (nth_upd _ _ _ _ _ _ Eq). destruct (Nat.eqb_spec t (target a)); [congruence | exact A].
        + intros u r Hu Hr. rewrite Q4, (nth_upd _ _ _ _ _ _ Eq) in Hr. destruct (Nat.eqb_spec u (target a)); [congruence | eapply B; eauto].
      - exists p. assert (E : pact k s a = s); [|rewrite E; auto].
        specialize (Hok a Ha). destruct a as [c|u|u b|u x|m|]; try destruct Hok; cbn [pact target] in *;
          [unfold step | unfold grant | unfold finish_ev]; rewrite Eq; reflexivity. }
    destruct H1 as (p' & A' & P'). eapply IH; eauto. apply heap_step; exact Hh.
  Qed.

  Lemma granting_inner : forall a, granting a -> inner a.
  Proof. intros [c|u|u b|u x|m|]; simpl; auto. Qed.

  (** ** With every permission granted *)
  Definition G (q0 : nat) (q : list (Z * uuid)) (d : dict uuid nat) (av : Z) (p : tpc) : Prop :=
    match p with
    | LGet n => av = (Z.of_nat (k_cap k) - Z.of_nat n)%Z /\ length q + n <= q0 /\ q <> []
    | LPerm n _ _ | LUpd n _ => av = (Z.of_nat (k_cap k) - Z.of_nat n)%Z /\ S (length q + n) <= q0
    | LJoin n => length q + n <= q0 /\ (k_cap k <= n \/ q = [])
    | ADone => length q <= q0 - k_cap k
    | _ => False
    end.
  Lemma G_top : forall q0 s n, avail s = (Z.of_nat (k_cap k) - Z.of_nat n)%Z -> length (queue s) + n <= q0 ->
    G q0 (queue s) (denial s) (avail s) (top s n).
  Proof.
    intros q0 s n Ha Hl. unfold top. destruct (Z.ltb_spec 0 (avail s)); simpl.
    - destruct (queue s) as [|x q]; simpl in *; [auto|]. repeat split; auto. discriminate.
    - split; [exact Hl|]. left. lia.
  Qed.
  Lemma G_step : forall q0 t s a p, granting a -> target a = t -> heap qlt (queue s) -> alone t s p ->
    G q0 (queue s) (denial s) (avail s) p ->
    exists p', alone t (pact k s a) p' /\ G q0 (queue (pact k s a)) (denial (pact k s a)) (avail (pact k s a)) p'.
  Proof.
    intros q0 t s a p Ha Et Hh Hal HG. pose proof Hal as [Ht _].
    assert (Z : exists p', alone t s p' /\ G q0 (queue s) (denial s) (avail s) p') by eauto.
    destruct a as [c|u|u b|u x|m|]; cbn [granting] in Ha; [destruct Ha | | | |destruct Ha|destruct Ha]; cbn [target] in Et; subst u; cbn [pact].
    - unfold step. rewrite Ht.
      destruct p as [p id|p id rest|n|n p id|n id|n id|n p id|n|par id|par id mine|par id|par id| |e l]; try destruct HG; auto.
      + destruct H0 as [Hl _]. destruct (heappop qlt (queue s)) as [[[p id] h]|] eqn:Ep; [|exact Z].
        apply (heappop_length qlt qlt_weak _ _ _ Hh) in Ep. destruct (memb id (items s)).
        * exists (LPerm n p id). split; [eapply alone_upd; [exact Hal | reflexivity]|]. simpl. split; [exact H | lia].
        * match goal with |- context [set_task ?s1 t ?r] => exists r; split; [eapply alone_upd; [exact Hal | reflexivity]|];
            apply (G_top q0 s1 n) end; cbn [w_denial w_queue avail queue]; [exact H | lia].
      + match goal with |- context [set_task ?s1 t ?r] => exists r; split; [eapply alone_app; [exact Hal | | reflexivity]; reflexivity|];
            apply (G_top q0 s1 (S n)) end; cbn [w_progs w_avail avail queue]; lia.
      + destruct (existsb _ _); [exact Z|]. exists ADone. destruct (0 <? n).
        * split; [eapply alone_upd; [exact Hal | reflexivity]|]. cbn [set_task w_tasks queue w_avail G]. destruct H0 as [H0| ->]; simpl; lia.
        * split; [eapply alone_upd; [exact Hal | reflexivity]|]. cbn [set_task w_tasks queue G]. destruct H0 as [H0|H0]; [lia | rewrite H0; simpl; lia].
    - subst b. unfold grant. rewrite Ht.
      destruct p as [p id|p id rest|n|n p id|n id|n id|n p id|n|par id|par id mine|par id|par id| |e l]; try (destruct HG; fail); auto.
      exists (LUpd n id). split; [eapply alone_upd; [exact Hal | reflexivity] | exact HG].
    - unfold finish_ev. rewrite Ht. destruct p; try (destruct HG; fail); auto.
  Qed.

  Lemma idle_alone : forall s p, idle s -> calm p = true \/ True -> alone (length (tasks s)) (new_task s p) p.
  Proof.
    intros s p Hi _. split; [simpl; rewrite nth_error_app2, Nat.sub_diag by lia; reflexivity|].
    intros u q Hne Hu. simpl in Hu. destruct (lt_dec u (length (tasks s))) as [Hl|Hl].
    - rewrite nth_error_app1 in Hu by exact Hl. apply nth_error_In in Hu. specialize (Hi q Hu). destruct q; try discriminate; reflexivity.
    - rewrite nth_error_app2 in Hu by lia. destruct (u - length (tasks s)) as [|[|]] eqn:E; simpl in Hu; try discriminate. lia.
  Qed.
  Lemma idle_whole : forall s, whole s -> idle s -> avail s = Z.of_nat (k_cap k).
  Proof. intros s H Hi. apply H. intros p Hp. specialize (Hi p Hp). destruct p; try discriminate; reflexivity. Qed.

  Lemma round_granting : forall s l, heap qlt (queue s) -> whole s -> idle s -> started s = true -> Forall granting l ->
    let s' := pexec k (pact k s (Spawn CForward)) l in idle s' -> length (queue s') <= length (queue s) - k_cap k.
  Proof.
    intros s l Hh Hw Hi Hs Hf s' Hi'. subst s'. cbn [pact spawn] in *. rewrite Hs in *.
    destruct (round_inv granting (G (length (queue s))) (length (tasks s)) granting_inner
      (G_step (length (queue s)) (length (tasks s))) l (new_task s (top s 0)) (top s 0) Hf Hh) as (p' & [A _] & B).
    - apply idle_alone; auto.
    - apply (G_top (length (queue s)) s 0); [rewrite (idle_whole s Hw Hi); lia | lia].
    - specialize (Hi' p' (nth_error_In _ _ A)). destruct p'; try discriminate; try (destruct B; fail). exact B.
  Qed.

  (** ** Whatever the answers *)
  Definition chances (d : dict uuid nat) (q : list (Z * uuid)) : nat :=
    fold_right (fun x n => 3 - strikes d (snd x) + n) 0 q.
  Lemma chances_cons : forall d z u q, chances d ((z, u) :: q) = 3 - strikes d u + chances d q.
  Proof. reflexivity. Qed.
  Lemma chances_perm : forall d q q', Permutation q q' -> chances d q = chances d q'.
  Proof. intros d q q' P. induction P; simpl; lia. Qed.
  Lemma chances_ext : forall d d' q, (forall u, In u (map snd q) -> strikes d u = strikes d' u) -> chances d q = chances d' q.
  Proof.
    intros d d' q. induction q as [|[z u] q IH]; intros H; simpl; [reflexivity|].
    rewrite (H u) by (left; reflexivity). rewrite IH; [reflexivity|]. intros v Hv. apply H. right; exact Hv.
  Qed.
  Lemma chances_bound : forall d q, chances d q <= 3 * length q.
  Proof. intros d q. induction q as [|[z u] q IH]; [simpl; lia|]. change (3 - strikes d u + chances d q <= 3 * S (length q)). lia. Qed.
  Lemma chances_none : forall d q, (forall u, strikes d u <= 2) -> chances d q = 0 -> q = [].
  Proof. intros d [|[z u] q] H E; [reflexivity|]. change (3 - strikes d u + chances d q = 0) in E. specialize (H u). lia. Qed.

  Variable K : list uuid.
  Definition D (c0 : nat) (q : list (Z * uuid)) (d : dict uuid nat) (av : Z) (p : tpc) : Prop :=
    NoDup (dkeys d) /\ incl (dkeys d) K /\ incl (map snd q) K /\ NoDup (map snd q) /\
    match p with
    | LGet n => (forall u, strikes d u <= 2) /\ q <> [] /\ chances d q <= c0
    | LPerm n _ id => (forall u, strikes d u <= 2) /\ In id K /\ ~ In id (map snd q) /\ chances d q + (3 - strikes d id) <= c0
    | LUpd n _ | LJoin n => (forall u, strikes d u <= 2) /\ chances d q < c0
    | LAbort n id => (forall u, u <> id -> strikes d u <= 2) /\ ~ In id (map snd q) /\ chances d q < c0
    | LRequeue n _ id => (forall u, strikes d u <= 2) /\ In id K /\ ~ In id (map snd q) /\ chances d q + (3 - strikes d id) < c0
    | ADone => (forall u, strikes d u <= 2) /\ chances d q < c0
    | _ => False
    end.

  Lemma D_top : forall c0 s n, NoDup (dkeys (denial s)) -> incl (dkeys (denial s)) K -> incl (map snd (queue s)) K -> NoDup (map snd (queue s)) ->
    (forall u, strikes (denial s) u <= 2) -> chances (denial s) (queue s) < c0 -> D c0 (queue s) (denial s) (avail s) (top s n).
  Proof.
    intros c0 s n A B C E F H. unfold D. repeat (split; [assumption|]). unfold top. destruct (0 <? avail s)%Z; simpl; [|auto].
    destruct (queue s) as [|x q]; simpl in *; [auto|]. split; [exact F|]. split; [discriminate | lia].
  Qed.
  Lemma del_other : forall d id q, NoDup (dkeys d) -> ~ In id (map snd q) -> chances (ddel id d) q = chances d q.
  Proof.
    intros d id q Hn Hi. apply chances_ext. intros u Hu. rewrite strikes_del by exact Hn.
    destruct (Nat.eqb_spec u id) as [->|]; [contradiction | reflexivity].
  Qed.
  Lemma del_two : forall d id, NoDup (dkeys d) -> (forall u, u <> id -> strikes d u <= 2) -> forall u, strikes (ddel id d) u <= 2.
  Proof. intros d id Hn H u. rewrite strikes_del by exact Hn. destruct (Nat.eqb_spec u id); [lia | auto]. Qed.
  Lemma del_incl : forall (d : dict uuid nat) id L, NoDup (dkeys d) -> incl (dkeys d) L -> incl (dkeys (ddel id d)) L.
  Proof. intros d id L Hn H u Hu. apply H. apply In_dkeys_ddel in Hu; tauto. Qed.

  Lemma D_step : length K < k_maxd k -> forall c0 t s a p, inner a -> target a = t -> heap qlt (queue s) -> alone t s p ->
    D c0 (queue s) (denial s) (avail s) p ->
    exists p', alone t (pact k s a) p' /\ D c0 (queue (pact k s a)) (denial (pact k s a)) (avail (pact k s a)) p'.
  Proof.
    intros HK c0 t s a p Ha Et Hh Hal HD. pose proof Hal as [Ht _].
    assert (Z : exists p', alone t s p' /\ D c0 (queue s) (denial s) (avail s) p') by eauto.
    destruct HD as (Nd & Kd & Kq & Nq & HD).
    assert (Pop : forall z id h, heappop qlt (queue s) = Some ((z, id), h) ->
       Permutation (queue s) ((z, id) :: h) /\ In id K /\ incl (map snd h) K /\ NoDup (map snd h) /\ ~ In id (map snd h)).
    { intros z id h Ep. pose proof (heap_pop qlt qlt_weak _ Hh) as P. rewrite Ep in P. destruct P as (_ & P & _).
      pose proof (Permutation_map snd P) as Q. simpl in Q. pose proof (Permutation_NoDup Q Nq) as N. inversion N; subst.
      split; [exact P|]. split; [apply Kq; apply (Permutation_in _ (Permutation_sym Q)); left; reflexivity|].
      split; [intros u Hu; apply Kq; apply (Permutation_in _ (Permutation_sym Q)); right; exact Hu|]. auto. }
    assert (Ev : evict k s = denial s).
    { unfold evict. destruct (Nat.leb_spec (k_maxd k) (length (denial s))) as [Hle|]; [|reflexivity].
      pose proof (NoDup_incl_length Nd Kd) as L. unfold dkeys in L. rewrite map_length in L. lia. }
    destruct a as [c|u|u b|u x|m|]; cbn [inner] in Ha; [destruct Ha | | | |destruct Ha|destruct Ha]; cbn [target] in Et; subst u; cbn [pact].
    - unfold step. rewrite Ht.
      destruct p as [p id|p id rest|n|n p id|n id|n id|n p id|n|par id|par id mine|par id|par id| |e l]; try (destruct HD; fail); auto.
      + destruct HD as (H2 & Hq & Hc). destruct (heappop qlt (queue s)) as [[[p id] h]|] eqn:Ep; [|exact Z].
        destruct (Pop p id h eq_refl) as (P & I1 & I2 & I3 & I4). rewrite (chances_perm _ _ _ P), chances_cons in Hc. pose proof (H2 id).
        destruct (memb id (items s)).
        * exists (LPerm n p id). split; [eapply alone_upd; [exact Hal | reflexivity]|].
          cbn [set_task w_tasks queue denial w_queue D]. repeat (split; [assumption|]). lia.
        * match goal with |- context [set_task ?s1 t ?r] => exists r; split; [eapply alone_upd; [exact Hal | reflexivity]|];
            apply (D_top c0 s1 n) end; cbn [w_denial w_queue denial queue]; auto.
          -- apply dkeys_ddel_NoDup; exact Nd.
          -- apply del_incl; assumption.
          -- apply del_two; auto.
          -- rewrite del_other by assumption. lia.
      + destruct HD as (H2 & Hc).
        match goal with |- context [set_task ?s1 t ?r] => exists r; split; [eapply alone_app; [exact Hal | | reflexivity]; reflexivity|];
            apply (D_top c0 s1 (S n)) end; auto.
      + destruct HD as (H2 & Hi & Hc). exists (LJoin n). split; [eapply alone_upd; [exact Hal | reflexivity]|].
        cbn [set_task w_tasks queue denial w_denial w_progs D]. split; [apply dkeys_ddel_NoDup; exact Nd|]. split; [apply del_incl; assumption|].
        split; [exact Kq|]. split; [exact Nq|]. split; [apply del_two; auto|]. rewrite del_other by assumption. exact Hc.
      + destruct HD as (H2 & Hk & Hi & Hc). exists (LJoin n). split; [eapply alone_upd; [exact Hal | reflexivity]|].
        cbn [set_task w_tasks]. destruct (heap_push qlt qlt_weak (queue s) (p, id) Hh) as [_ P].
        pose proof (Permutation_map snd P) as Q. simpl in Q. unfold D. cbn [queue denial push w_queue].
        split; [exact Nd|]. split; [exact Kd|]. split; [|split; [|split; [exact H2|]]].
        * intros u Hu. apply (Permutation_in _ Q) in Hu. destruct Hu as [<-|Hu]; auto.
        * apply (Permutation_NoDup (Permutation_sym Q)). constructor; assumption.
        * rewrite (chances_perm _ _ _ P), chances_cons. cbn [set_task w_tasks denial push w_queue]. lia.
      + destruct (existsb _ _); [exact Z|]. exists ADone.
        destruct (0 <? n); (split; [eapply alone_upd; [exact Hal | reflexivity]|]); unfold D; cbn [set_task w_tasks queue denial w_avail]; auto.
    - unfold grant. rewrite Ht, Ev.
      destruct p as [p id|p id rest|n|n p id|n id|n id|n p id|n|par id|par id mine|par id|par id| |e l]; try (destruct HD; fail); auto.
      destruct HD as (H2 & Hk & Hi & Hc). pose proof (H2 id) as Hid. destruct b.
      + exists (LUpd n id). split; [eapply alone_upd; [exact Hal | reflexivity]|]. unfold D. cbn [set_task w_tasks queue denial w_denial].
        split; [apply dkeys_ddel_NoDup; exact Nd|]. split; [apply del_incl; assumption|].
        split; [exact Kq|]. split; [exact Nq|]. split; [apply del_two; auto|]. rewrite del_other by assumption. lia.
      + assert (N : NoDup (dkeys (dset id (S (strikes (denial s) id)) (denial s)))) by (apply dkeys_dset_NoDup; exact Nd).
        assert (L : incl (dkeys (dset id (S (strikes (denial s) id)) (denial s))) K).
        { intros u Hu. apply In_dkeys_dset in Hu. destruct Hu as [->|Hu]; auto. }
        assert (C : chances (dset id (S (strikes (denial s) id)) (denial s)) (queue s) = chances (denial s) (queue s)).
        { apply chances_ext. intros u Hu. rewrite strikes_set. destruct (Nat.eqb_spec u id) as [->|]; [contradiction | reflexivity]. }
        destruct (Nat.leb_spec 3 (S (strikes (denial s) id))).
        * exists (LAbort n id). split; [eapply alone_upd; [exact Hal | reflexivity]|]. unfold D. cbn [set_task w_tasks queue denial w_denial].
          repeat (split; [assumption|]). split; [|split; [assumption | rewrite C; lia]].
          intros u Hu. rewrite strikes_set. destruct (Nat.eqb_spec u id); [contradiction | apply H2].
        * match goal with |- context [set_task ?s1 t ?r] => exists r; split; [eapply alone_upd; [exact Hal | reflexivity]|] end.
          unfold D. cbn [set_task w_tasks queue denial w_denial].
          repeat (split; [assumption|]). split; [|split; [assumption|split; [assumption|]]].
          -- intros u. rewrite strikes_set. destruct (Nat.eqb_spec u id); [lia | apply H2].
          -- rewrite C, strikes_set, Nat.eqb_refl. lia.
    - unfold finish_ev. rewrite Ht. destruct p; try (destruct HD; fail); auto.
  Qed.

  Lemma round_deciding : length K < k_maxd k -> 1 <= k_cap k -> forall s l, heap qlt (queue s) -> whole s -> idle s -> started s = true ->
    NoDup (dkeys (denial s)) -> incl (dkeys (denial s)) K -> incl (map snd (queue s)) K -> NoDup (map snd (queue s)) ->
    (forall u, strikes (denial s) u <= 2) -> queue s <> [] -> Forall inner l ->
    let s' := pexec k (pact k s (Spawn CForward)) l in idle s' ->
    chances (denial s') (queue s') < chances (denial s) (queue s) /\ NoDup (dkeys (denial s')) /\ incl (dkeys (denial s')) K /\
    incl (map snd (queue s')) K /\ (forall u, strikes (denial s') u <= 2).
  Proof.
    intros HK Hcap s l Hh Hw Hi Hs Nd Kd Kq Nq H2 Hq Hf s' Hi'. subst s'. cbn [pact spawn] in *. rewrite Hs in *.
    destruct (round_inv inner (D (chances (denial s) (queue s))) (length (tasks s)) (fun a H => H)
      (D_step HK (chances (denial s) (queue s)) (length (tasks s))) l (new_task s (top s 0)) (top s 0) Hf Hh) as (p' & [A _] & B).
    - apply idle_alone; auto.
    - unfold D. cbn [new_task w_tasks queue denial]. repeat (split; [assumption|]). unfold top.
      pose proof (idle_whole s Hw Hi). destruct (Z.ltb_spec 0 (avail s)); [|lia]. destruct (queue s); [congruence|]. simpl. auto.
    - destruct B as (B1 & B2 & B3 & _ & B). specialize (Hi' p' (nth_error_In _ _ A)). destruct p'; try discriminate; try (destruct B; fail). destruct B. auto.
  Qed.
End Rounds.

Section More.
  Variable k : cfg.

  (** At most two denials are on record for an event that is not being aborted. *)
  Definition sane (s : pst) : Prop := NoDup (dkeys (denial s)) /\
    forall u, strikes (denial s) u <= 2 \/ exists t n, nth_error (tasks s) t = Some (LAbort n u).

  Lemma clean_strikes : forall ids s n, NoDup (dkeys (denial s)) -> let s' := fst (clean_ids s ids n) in
    NoDup (dkeys (denial s')) /\ forall u, strikes (denial s') u <= strikes (denial s) u.
  Proof.
    induction ids as [|v ids IH]; intros s n Hn; simpl; [auto|].
    set (d := if started s then ddel v (denial s) else denial s).
    assert (Nd : NoDup (dkeys d)) by (unfold d; destruct (started s); [apply dkeys_ddel_NoDup|]; exact Hn).
    assert (Sd : forall u, strikes d u <= strikes (denial s) u).
    { intros u. unfold d. destruct (started s); [|lia]. rewrite strikes_del by exact Hn. destruct (u =? v); lia. }
    destruct (remove_first v (items s)) as [l|]; [|simpl; auto].
    destruct (IH (w_items (w_denial s d) l (fun x => strip1 v (progs s x))) (S n) Nd) as [A B]. split; [exact A|].
    intros u. etransitivity; [apply B | apply Sd].
  Qed.
  Lemma cleanup_strikes : forall l s n, NoDup (dkeys (denial s)) -> let s' := fst (cleanup s l n) in
    NoDup (dkeys (denial s')) /\ forall u, strikes (denial s') u <= strikes (denial s) u.
  Proof.
    induction l as [|x l IH]; intros s n Hn; simpl; [auto|]. destruct (forallb _ _); [|simpl; auto].
    pose proof (clean_strikes (progs s x) s n Hn) as H. destruct (clean_ids s (progs s x) n) as [s' [m|e]]; simpl in *; [|exact H].
    destruct H as [A B]. destruct (IH s' m A) as [C E]. split; [exact C|]. intros u. etransitivity; [apply E | apply B].
  Qed.

  Lemma sane_step : forall s a, sane s -> sane (pact k s a).
  Proof.
    intros s a [Nd H].
    assert (Low : NoDup (dkeys (denial (pact k s a))) -> (forall u, strikes (denial (pact k s a)) u <= strikes (denial s) u) ->
       (forall t n u, a = Step t -> nth_error (tasks s) t = Some (LAbort n u) -> strikes (denial (pact k s a)) u <= 2) -> sane (pact k s a)).
    { intros N L A. split; [exact N|]. intros u. destruct (H u) as [H2|(t & n & Ht)]; [left; specialize (L u); lia|].
      destruct (abort_keep k s a t n u Ht) as [E|E]; [left; eapply A; eauto | right; eauto]. }
    destruct a as [c|t|t b|t x|l|].
    - assert (E : denial (pact k s (Spawn c)) = denial s).
      { cbn [pact]. unfold spawn. destruct c as [u e p|u p| |].
        + destruct (memb u (items s)); [reflexivity|]. set (s2 := if dmem u (objs s) then _ else _).
          assert (E2 : denial s2 = denial s) by (unfold s2; destruct (dmem u (objs s)); reflexivity).
          destruct (started s); [destruct (enq_check k s2 u p)|]; exact E2.
        + destruct (started s); [destruct (enq_check k s u p)|]; reflexivity.
        + destruct (started s); [reflexivity|]. destruct (forallb _ _); [|reflexivity].
          destruct (back k (w_started s) (progs s PENDING)) as [s2 q] eqn:Eb. destruct (back_denial k _ _ _ _ Eb) as [B _]. exact B.
        + destruct (started s); reflexivity. }
      apply Low; rewrite E; [exact Nd | lia | discriminate].
    - destruct (nth_error (tasks s) t) as [p|] eqn:Ht.
      2:{ cbn [pact] in *. unfold step in *. rewrite Ht in *. split; [exact Nd | exact H]. }
      assert (Same : denial (step k s t) = denial s -> (forall n u, p <> LAbort n u) -> sane (step k s t)).
      { intros E Hp. apply Low; cbn [pact]; rewrite ?E; [exact Nd | lia|]. intros t' n u Et Hu. injection Et as <-. rewrite Ht in Hu. injection Hu as ->. destruct (Hp n u eq_refl). }
      cbn [pact]. destruct p as [p id|p id rest|n|n p id|n id|n id|n p id|n|par id|par id mine|par id|par id| |e l];
        try (apply Same; [unfold step; rewrite Ht; reflexivity | discriminate]).
      + apply Same; [|discriminate]. unfold step. rewrite Ht. destruct (back k (push s p id) rest) as [s1 q] eqn:Eb.
        destruct (back_denial k _ _ _ _ Eb) as [B _]. exact B.
      + assert (C : denial (step k s t) = denial s \/ exists id, denial (step k s t) = ddel id (denial s)).
        { unfold step. rewrite Ht. destruct (heappop qlt (queue s)) as [[[p id] h]|]; [|auto]. destruct (memb id (items s)); [auto|]. right. exists id. reflexivity. }
        destruct C as [C|[id C]]; [apply Same; [exact C | discriminate]|]. apply Low; cbn [pact]; rewrite C.
        * apply dkeys_ddel_NoDup; exact Nd.
        * intros u. rewrite strikes_del by exact Nd. destruct (u =? id); lia.
        * intros t' m u Et Hu. injection Et as <-. congruence.
      + assert (C : denial (step k s t) = ddel id (denial s)) by (unfold step; rewrite Ht; reflexivity).
        apply Low; cbn [pact]; rewrite C.
        * apply dkeys_ddel_NoDup; exact Nd.
        * intros u. rewrite strikes_del by exact Nd. destruct (u =? id); lia.
        * intros t' m u Et Hu. injection Et as <-. rewrite Ht in Hu. injection Hu as <- <-. rewrite strikes_del, Nat.eqb_refl by exact Nd. lia.
      + apply Same; [|discriminate]. unfold step. rewrite Ht. destruct (existsb _ _); [reflexivity|]. destruct (0 <? n); reflexivity.
      + apply Same; [|discriminate]. unfold step. rewrite Ht. destruct (sem s) as [|m]; [reflexivity|]. destruct (_ && _); [|reflexivity].
        destruct (set_status_fields (w_sem s m) id PROCESSING) as (_ & _ & _ & _ & _ & C & _). exact C.
    - destruct (nth_error (tasks s) t) as [p|] eqn:Ht.
      2:{ cbn [pact] in *. unfold grant in *. rewrite Ht in *. split; [exact Nd | exact H]. }
      destruct p as [p id|p id rest|n|n p id|n id|n id|n p id|n|par id|par id mine|par id|par id| |e l];
        try (cbn [pact] in *; unfold grant in *; rewrite Ht in *; split; [exact Nd | exact H]).
      destruct b.
      + assert (C : denial (pact k s (Grant t true)) = ddel id (denial s)) by (cbn [pact]; unfold grant; rewrite Ht; reflexivity).
        apply Low; rewrite ?C; [apply dkeys_ddel_NoDup; exact Nd | | discriminate].
        intros u. rewrite strikes_del by exact Nd. destruct (u =? id); lia.
      + assert (Ne : NoDup (dkeys (evict k s))).
        { unfold evict. destruct (_ <=? _); [|exact Nd]. destruct (denial s) as [|[o c] d] eqn:E; [constructor|]. rewrite <- E in *. apply dkeys_ddel_NoDup; exact Nd. }
        assert (Se : forall u, strikes (evict k s) u <= strikes (denial s) u).
        { intros u. unfold evict. destruct (_ <=? _); [|lia]. destruct (denial s) as [|[o c] d] eqn:E; [lia|]. rewrite <- E in *.
          rewrite strikes_del by exact Nd. destruct (u =? o); lia. }
        assert (C : denial (pact k s (Grant t false)) = dset id (S (strikes (evict k s) id)) (evict k s)).
        { cbn [pact]. unfold grant. rewrite Ht. destruct (3 <=? _); reflexivity. }
        split; [rewrite C; apply dkeys_dset_NoDup; exact Ne|]. intros u. destruct (Nat.eq_dec u id) as [->|Hne].
        * destruct (Nat.leb_spec 3 (S (strikes (evict k s) id))) as [H3|H3].
          -- right. exists t, n. cbn [pact]. unfold grant. rewrite Ht. destruct (Nat.leb_spec 3 (S (strikes (evict k s) id))); [|lia].
             simpl. rewrite (nth_upd _ _ _ _ _ _ Ht), Nat.eqb_refl. reflexivity.
          -- left. rewrite C, strikes_set, Nat.eqb_refl. lia.
        * destruct (H u) as [H2|(t' & m & Ht')].
          -- left. rewrite C, strikes_set. destruct (Nat.eqb_spec u id); [contradiction|]. specialize (Se u). lia.
          -- right. exists t', m. destruct (abort_keep k s (Grant t false) t' m u Ht') as [|E]; [discriminate | exact E].
    - assert (C : denial (pact k s (Finish t x)) = denial s).
      { cbn [pact]. unfold finish_ev. destruct (nth_error (tasks s) t) as [p|]; [|reflexivity].
        destruct p as [p id|p id rest|n|n p id|n id|n id|n p id|n|par id|par id mine|par id|par id| |e l]; try reflexivity.
        destruct (set_status_fields s id x) as (_ & _ & _ & _ & _ & C & _).
        destruct (streaming s id); [exact C|]. destruct mine; [destruct x; exact C || reflexivity | destruct (existsb _ _); reflexivity]. }
      apply Low; rewrite ?C; [exact Nd | lia | discriminate].
    - destruct (cleanup_strikes l s 0 Nd) as [A B]. apply Low; [exact A | exact B | discriminate].
    - cbn [pact] in *. destruct (started s); [|split; assumption]. split; [constructor|]. intros u. left. unfold strikes. simpl. lia.
  Qed.
  Lemma sane_reach : forall s, reach k anything s -> sane s.
  Proof.
    apply reach_inv; [split; [constructor | intros u; left; unfold strikes; simpl; lia]|]. intros s a _. apply sane_step.
  Qed.
  Lemma idle_two : forall s, sane s -> idle s -> forall u, strikes (denial s) u <= 2.
  Proof.
    intros s [_ H] Hi u. destruct (H u) as [H2|(t & n & Ht)]; [exact H2|].
    specialize (Hi _ (nth_error_In _ _ Ht)). discriminate.
  Qed.

  (** ** Reachability along *)
  Lemma reach_more : forall ok s l, reach k ok s -> Forall ok l -> reach k ok (pexec k s l).
  Proof.
    intros ok s l (m & Hm & ->) Hl. exists (m ++ l). split; [apply Forall_app; auto|]. unfold pexec. rewrite fold_left_app. reflexivity.
  Qed.
  Lemma reach_any : forall ok s, reach k ok s -> reach k anything s.
  Proof. intros ok s (l & _ & ->). exists l. split; [apply Forall_forall; intros; exact Logic.I | reflexivity]. Qed.
  Lemma inner_normal : forall a, inner a -> normal a.
  Proof. intros [c|u|u b|u x|m|]; simpl; tauto. Qed.
  Lemma started_inner : forall l s, Forall inner l -> started (pexec k s l) = started s.
  Proof.
    induction l as [|a l IH]; intros s Hf; [reflexivity|]. inversion Hf as [|? ? Ha Hl]; subst.
    change (pexec k s (a :: l)) with (pexec k (pact k s a) l). rewrite IH by exact Hl.
    destruct a as [c|t|t b|t x|m|]; try destruct Ha; cbn [pact].
    - unfold step. destruct (nth_error (tasks s) t) as [p|]; [|reflexivity].
      destruct p as [p id|p id rest|n|n p id|n id|n id|n p id|n|par id|par id mine|par id|par id| |e m]; try reflexivity.
      + destruct (back k (push s p id) rest) as [s1 q] eqn:Eb. destruct (back_denial k _ _ _ _ Eb) as (_ & _ & B). exact B.
      + destruct (heappop qlt (queue s)) as [[[p id] h]|]; [|reflexivity]. destruct (memb id (items s)); reflexivity.
      + destruct (existsb _ _); [reflexivity|]. destruct (0 <? n); reflexivity.
      + destruct (sem s) as [|m]; [reflexivity|]. destruct (_ && _); [|reflexivity].
        destruct (set_status_fields (w_sem s m) id PROCESSING) as (_ & _ & _ & C & _). exact C.
    - unfold grant. destruct (nth_error (tasks s) t) as [p|]; [|reflexivity]. destruct p; try reflexivity. destruct b; [|destruct (3 <=? _)]; reflexivity.
    - unfold finish_ev. destruct (nth_error (tasks s) t) as [p|]; [|reflexivity].
      destruct p as [p id|p id rest|n|n p id|n id|n id|n p id|n|par id|par id mine|par id|par id| |e m]; try reflexivity.
      destruct (set_status_fields s id x) as (_ & _ & _ & C & _).
      destruct (streaming s id); [exact C|]. destruct mine; [destruct x; exact C || reflexivity | destruct (existsb _ _); reflexivity].
  Qed.

  (** ** Rest *)
  Lemma all_or : forall A (P : A -> Prop) (Q : Prop) l, (forall x, In x l -> P x \/ Q) -> (forall x, In x l -> P x) \/ Q.
  Proof.
    intros A P Q l. induction l as [|x l IH]; intros H; [left; intros x []|].
    destruct (H x (or_introl eq_refl)) as [Hx|Hq]; [|auto]. destruct IH as [I|I]; [intros y Hy; apply H; right; exact Hy | | auto].
    left. intros y [<-|Hy]; auto.
  Qed.
  Lemma stuck_or : forall s, reach k normal s -> 1 <= k_conc k ->
    (forall p, In p (tasks s) -> stuck s p) \/ exists a, granting a /\ pact k s a <> s.
  Proof.
    intros s Hr Hc. apply all_or. intros p Hp. apply In_nth_error in Hp. destruct Hp as [t Ht].
    eapply live; eauto; [apply (SI_reach k s Hr) | apply sem_reach; apply (reach_any normal); exact Hr].
  Qed.
  Lemma stuck_quiet : forall s, (forall p, In p (tasks s) -> stuck s p) -> quiet k s.
  Proof.
    intros s H a Ha. destruct a as [c|t|t b|t x|l|]; try destruct Ha; cbn [pact]; [unfold step | unfold grant | unfold finish_ev];
      (destruct (nth_error (tasks s) t) as [p|] eqn:Ht; [|reflexivity]);
      (destruct (H p (nth_error_In _ _ Ht)) as [E|[[n ->] Eq]]; [destruct p; try discriminate; reflexivity | try reflexivity]).
    rewrite Eq. reflexivity.
  Qed.
  Lemma quiet_stuck : forall s, reach k normal s -> 1 <= k_conc k -> quiet k s -> forall p, In p (tasks s) -> stuck s p.
  Proof.
    intros s Hr Hc Hq. destruct (stuck_or s Hr Hc) as [H|(a & Ha & Hn)]; [exact H|]. destruct Hn. apply Hq, granting_inner, Ha.
  Qed.
  Lemma comes_to_rest : forall s, reach k normal s -> 1 <= k_conc k -> exists l, Forall granting l /\ quiet k (pexec k s l).
  Proof.
    intros s Hr Hc. remember (todo s) as n eqn:En. revert s En Hr. induction n as [n IH] using lt_wf_ind; intros s -> Hr.
    destruct (stuck_or s Hr Hc) as [H|(a & Ha & Hn)]; [exists []; split; [constructor | apply stuck_quiet; exact H]|].
    pose proof (granting_inner a Ha) as Hi.
    destruct (todo_step k s a (heap_any k s (reach_any _ _ Hr)) Hi) as [E|E]; [contradiction|].
    destruct (IH _ E (pact k s a) eq_refl) as (l & Hl & Hq).
    - apply (reach_more normal s [a] Hr). constructor; [apply inner_normal; exact Hi | constructor].
    - exists (a :: l). split; [constructor; assumption | exact Hq].
  Qed.

  (** A forward() call on its own is never left waiting for the queue. *)
  Definition W (q : list (Z * uuid)) (d : dict uuid nat) (av : Z) (p : tpc) : Prop :=
    match p with
    | LGet _ => q <> []
    | LPerm _ _ _ | LUpd _ _ | LAbort _ _ | LRequeue _ _ _ | LJoin _ | ADone => True
    | _ => False
    end.
  Lemma W_top : forall s n, W (queue s) (denial s) (avail s) (top s n).
  Proof. intros s n. unfold top. destruct (0 <? avail s)%Z; simpl; [|exact Logic.I]. destruct (queue s); simpl; [exact Logic.I | discriminate]. Qed.
  Lemma W_step : forall t s a p, inner a -> target a = t -> heap qlt (queue s) -> alone t s p ->
    W (queue s) (denial s) (avail s) p ->
    exists p', alone t (pact k s a) p' /\ W (queue (pact k s a)) (denial (pact k s a)) (avail (pact k s a)) p'.
  Proof.
    intros t s a p Ha Et Hh Hal HW. pose proof Hal as [Ht _].
    assert (Z : exists p', alone t s p' /\ W (queue s) (denial s) (avail s) p') by eauto.
    destruct a as [c|u|u b|u x|m|]; cbn [inner] in Ha; [destruct Ha | | | |destruct Ha|destruct Ha]; cbn [target] in Et; subst u; cbn [pact].
    - unfold step. rewrite Ht.
      destruct p as [p id|p id rest|n|n p id|n id|n id|n p id|n|par id|par id mine|par id|par id| |e l]; try (destruct HW; fail); auto.
      + destruct (heappop qlt (queue s)) as [[[p id] h]|]; [|exact Z]. destruct (memb id (items s)).
        * exists (LPerm n p id). split; [eapply alone_upd; [exact Hal | reflexivity] | exact Logic.I].
        * match goal with |- context [set_task ?s1 t ?r] => exists r; split; [eapply alone_upd; [exact Hal | reflexivity]|]; apply (W_top s1 n) end.
      + match goal with |- context [set_task ?s1 t ?r] => exists r; split; [eapply alone_app; [exact Hal | | reflexivity]; reflexivity|]; apply (W_top s1 (S n)) end.
      + exists (LJoin n). split; [eapply alone_upd; [exact Hal | reflexivity] | exact Logic.I].
      + exists (LJoin n). split; [eapply alone_upd; [exact Hal | reflexivity] | exact Logic.I].
      + destruct (existsb _ _); [exact Z|]. exists ADone.
        destruct (0 <? n); (split; [eapply alone_upd; [exact Hal | reflexivity] | exact Logic.I]).
    - unfold grant. rewrite Ht.
      destruct p as [p id|p id rest|n|n p id|n id|n id|n p id|n|par id|par id mine|par id|par id| |e l]; try (destruct HW; fail); auto.
      destruct b; [|destruct (3 <=? _)];
        (match goal with |- context [set_task ?s1 t ?r] => exists r; split; [eapply alone_upd; [exact Hal | reflexivity] | exact Logic.I] end).
    - unfold finish_ev. rewrite Ht. destruct p; try (destruct HW; fail); auto.
  Qed.
  Lemma forward_rest : forall s l, reach k normal s -> 1 <= k_conc k -> idle s -> Forall inner l ->
    let s' := pexec k (pact k s (Spawn CForward)) l in quiet k s' -> idle s'.
  Proof.
    intros s l Hr Hc Hi Hf s' Hq p Hp.
    assert (Hr' : reach k normal s').
    { apply (reach_more normal s (Spawn CForward :: l) Hr). constructor; [exact Logic.I|]. eapply Forall_impl; [|exact Hf]. apply inner_normal. }
    set (p0 := if started s then top s 0 else ADone).
    assert (E0 : pact k s (Spawn CForward) = new_task s p0) by (cbn [pact spawn]; unfold p0; destruct (started s); reflexivity).
    assert (W0 : W (queue s) (denial s) (avail s) p0) by (unfold p0; destruct (started s); [apply W_top | exact Logic.I]).
    destruct (round_inv k inner W (length (tasks s)) (fun a H => H) (W_step (length (tasks s))) l (new_task s p0) p0 Hf
      (heap_any k s (reach_any _ _ Hr)) (idle_alone s p0 Hi (or_intror Logic.I)) W0) as (p' & [A B] & C).
    rewrite <- E0 in A, B, C. fold s' in A, B, C.
    destruct (quiet_stuck s' Hr' Hc Hq p Hp) as [E|[[n ->] Eq]]; [exact E|]. exfalso.
    apply In_nth_error in Hp. destruct Hp as [u Hu]. destruct (Nat.eq_dec u (length (tasks s))) as [->|Hne].
    - rewrite A in Hu. injection Hu as ->. apply C. exact Eq.
    - specialize (B u _ Hne Hu). discriminate.
  Qed.

  (** With nothing queued it does nothing. *)
  Lemma round_nothing : forall s l, heap qlt (queue s) -> idle s -> queue s = [] -> Forall inner l ->
    let s' := pexec k (pact k s (Spawn CForward)) l in queue s' = [] /\ denial s' = denial s.
  Proof.
    intros s l Hh Hi Hq Hf s'. set (p0 := if started s then LJoin 0 else ADone).
    assert (E0 : pact k s (Spawn CForward) = new_task s p0).
    { cbn [pact spawn]. unfold p0. destruct (started s); [|reflexivity]. unfold top. rewrite Hq. rewrite andb_false_r. reflexivity. }
    destruct (round_inv k inner (fun q d _ p => q = [] /\ d = denial s /\ match p with LJoin _ | ADone => True | _ => False end)
      (length (tasks s)) (fun a H => H)) with (l := l) (s := new_task s p0) (p := p0) as (p' & _ & A & B & _); auto.
    - intros s1 a p Ha Et Hh1 Hal (A & B & C). pose proof Hal as [Ht _].
      destruct a as [c|u|u b|u x|m|]; cbn [inner] in Ha; [destruct Ha | | | |destruct Ha|destruct Ha]; cbn [target] in Et; subst u; cbn [pact];
        [unfold step | unfold grant | unfold finish_ev]; rewrite Ht; destruct p; try (destruct C; fail);
        try (eexists; split; [exact Hal | auto]; fail).
      destruct (existsb _ _); [eexists; split; [exact Hal | auto]|]. exists ADone.
      destruct (0 <? n); (split; [eapply alone_upd; [exact Hal | reflexivity] | auto]).
    - apply idle_alone; auto.
    - split; [exact Hq|]. split; [reflexivity|]. unfold p0. destruct (started s); exact Logic.I.
    - unfold s'. rewrite E0. auto.
  Qed.

  Lemma rounds_reach : forall (ok : action -> Prop), (forall a, ok a -> inner a) -> forall n s s', rounds k ok n s s' ->
    reach k normal s -> reach k normal s' /\ started s' = started s /\ (idle s -> idle s').
  Proof.
    intros ok Hok n s s' H. induction H as [s|n s l s' s'' Hl -> Hi Hr IH]; intros R; [auto|].
    assert (Hf : Forall inner l) by (eapply Forall_impl; [|exact Hl]; exact Hok).
    destruct IH as (A & B & C).
    - apply (reach_more normal s (Spawn CForward :: l) R). constructor; [exact Logic.I|]. eapply Forall_impl; [|exact Hf]. apply inner_normal.
    - split; [exact A|]. split; [|auto]. rewrite B, started_inner by exact Hf. cbn [pact spawn]. destruct (started s) eqn:E; simpl; auto.
  Qed.
End More.
