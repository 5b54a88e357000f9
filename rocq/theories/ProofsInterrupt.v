(** Proofs about process() calls that are cut short. *)
From Coq Require Import List Bool Arith ZArith Lia Permutation ZifyBool.
From Verif Require Import PyBase PyFacts ModelHeap SpecHeap ProofsPQueue ModelEvent ProofsEvent ModelProcessor SpecProcessor
  ProofsProcessor ProofsProcessorRun ProofsProcessorDeny ProofsProcessorCap ModelInterrupt SpecInterrupt.
Import ListNotations.
Local Open Scope nat_scope.
#[local] Arguments eqb : simpl never.

Section Int.
  Variable k : cfg.

  (** *** Partition *)
  Lemma SI_forget : forall s s' t p p', SI s -> nth_error (tasks s) t = Some p -> tasks s' = upd t p' (tasks s) ->
    items s' = items s -> progs s' = progs s -> queue s' = queue s -> started s' = started s ->
    early p' = [] -> late p' = [] -> SI s'.
  Proof.
    intros s s' t p p' H Ht T I P Q S E' L'. destruct (SI_open s t p Ht H) as (E & L & HP & HE & HB).
    pose proof H as (_ & _ & Hh).
    apply (HB s' p' T S); [| |rewrite Q; exact Hh].
    - rewrite E', L', I, P, Q. simpl.
      assert (HP1 : PI (items s) (progs s) (map snd (queue s) ++ E) (late p ++ L)).
      { apply (PI_drop _ _ _ _ (early p) (map snd (queue s) ++ E) HP).
        rewrite !app_assoc. apply Permutation_app_tail, Permutation_app_comm. }
      destruct HP1 as [A B C D F G J]. constructor; auto.
      + apply (NoDup_app_l _ (late p)). eapply Permutation_NoDup; [|exact F].
        apply Permutation_app_swap_app.
      + intros u Hu. apply J. apply in_or_app. right; exact Hu.
    - intros Hs. destruct (HE Hs) as (Hq & _). rewrite Q, Hq. auto.
  Qed.

  Lemma SI_break : forall s t par id mine st z, SI s -> nth_error (tasks s) t = Some (KRun par id mine) ->
    SI (set_task (w_sem (w_progs (set_status s id st) (move_to id z (progs (set_status s id st)))) (S (sem s))) t (KDone par id)).
  Proof.
    intros s t par id mine st z H Ht. destruct (SI_open s t _ Ht H) as (E & L & HP & HE & HB).
    pose proof H as (_ & _ & Hh). destruct (set_status_fields s id st) as (A & B & C & D & F & _).
    eapply (HB _ (KDone par id)); simpl; rewrite ?A, ?B, ?C, ?D, ?F; auto.
    - simpl in HP. apply PI_done. exact HP.
    - intros Hs. destruct (HE Hs) as (_ & _ & _ & Hc & _). discriminate.
  Qed.

  Lemma SI_iact : forall x a, inormal a -> SI (i_s x) -> SI (i_s (iact1 k x a)).
  Proof.
    intros x a Hn H. destruct a as [a|t|t|t st|t]; simpl.
    - destruct a as [c|t|t b|t y|l|]; [| |exact (SI_pact k _ (Grant t b) Hn H)|exact (SI_pact k _ (Finish t y) Hn H)
        |exact (SI_pact k _ (Cleanup l) Hn H)|exact (SI_pact k _ Stop Hn H)].
      + exact (SI_pact k _ (Spawn c) Hn H).
      + destruct (halted x t); [exact H | exact (SI_pact k _ (Step t) Hn H)].
    - unfold interrupt. destruct (nth_error (tasks (i_s x)) t) as [[]|]; exact H.
    - unfold fail. destruct (nth_error (tasks (i_s x)) t) as [p|] eqn:Ht; [|exact H].
      destruct p; try exact H. simpl. eapply SI_forget; try exact H; try exact Ht; try reflexivity.
    - unfold break. destruct (nth_error (tasks (i_s x)) t) as [p|] eqn:Ht; [|exact H].
      destruct p as [| | | | | | | | |par id mine| | | |]; try exact H.
      assert (G : forall z, SI (set_task (w_sem (set_status (i_s x) id z) (S (sem (i_s x)))) t (KDone par id))).
      { intros z. destruct (set_status_fields (i_s x) id z) as (A & B & C & D & F & _).
        eapply SI_forget; try exact H; try exact Ht; simpl; try rewrite F; try reflexivity; auto. }
      destruct (streaming (i_s x) id); [apply G|]. destruct mine; [|exact H].
      simpl. destruct (is_cut x par); [apply G | eapply SI_break; eauto].
    - unfold unwind. destruct (nth_error (tasks (i_s x)) t) as [p|] eqn:Ht; [|exact H].
      destruct p as [| |n|n p id|n id|n id|n p id|n|par id|par id mine|par id| | |]; try exact H;
        try (destruct (is_cut x _); [|exact H]; simpl; eapply SI_forget; try exact H; try exact Ht; reflexivity).
      + destruct (cut x t) as [w|]; [|exact H]. destruct (existsb _ _); [exact H|]. simpl. unfold leave.
        destruct w; [destruct (0 <? n)| |]; (eapply SI_forget; [exact H | exact Ht | reflexivity..]).
      + destruct (_ && _); [|exact H]. simpl. eapply SI_forget; try exact H; try exact Ht; reflexivity.
  Qed.

  Lemma ireach_inv : forall (ok : iact -> Prop) (P : ist -> Prop), P (ist0 k) ->
    (forall x a, ok a -> P x -> P (iact1 k x a)) -> forall x, ireach k ok x -> P x.
  Proof.
    intros ok P H0 HS x (l & Hl & ->). unfold irun. revert Hl. revert H0. generalize (ist0 k).
    induction l as [|a l IH]; intros y H0 Hl; simpl; [exact H0|]. inversion Hl; subst. apply IH; auto.
  Qed.
  Lemma SI_ireach : forall x, ireach k inormal x -> SI (i_s x).
  Proof. apply ireach_inv; [apply SI_0 | intros x a Ha; apply SI_iact; exact Ha]. Qed.

  (** *** What the new actions do to tasks, capacity and semaphore *)
  Inductive ik (s s' : pst) : Prop :=
  | ik_tk : tk k s s' -> ik s s'
  | ik_err t n e : nth_error (tasks s) t = Some (LJoin n) -> tasks s' = upd t (AErr e []) (tasks s) ->
      avail s' = avail s -> existsb (child_of t) (tasks s) = false -> ik s s'.

  Lemma ik_step : forall x a, ik (i_s x) (i_s (iact1 k x a)).
  Proof.
    intros x a. assert (Z : ik (i_s x) (i_s x)) by (apply ik_tk, tk_same; reflexivity).
    destruct a as [a|t|t|t st|t]; simpl.
    - destruct a as [c|t|t b|t y|l|]; [| |apply ik_tk, (tk_step k _ (Grant t b))|apply ik_tk, (tk_step k _ (Finish t y))
        |apply ik_tk, (tk_step k _ (Cleanup l))|apply ik_tk, (tk_step k _ Stop)].
      + apply ik_tk, (tk_step k _ (Spawn c)).
      + destruct (halted x t); [exact Z | apply ik_tk, (tk_step k _ (Step t))].
    - unfold interrupt. destruct (nth_error (tasks (i_s x)) t) as [[]|]; exact Z.
    - unfold fail. destruct (nth_error (tasks (i_s x)) t) as [p|] eqn:Ht; [|exact Z]. destruct p; try exact Z.
      simpl. apply ik_tk. eapply tk_loop; try exact Ht; try reflexivity. discriminate.
    - unfold break. destruct (nth_error (tasks (i_s x)) t) as [p|] eqn:Ht; [|exact Z].
      destruct p as [| | | | | | | | |par id mine| | | |]; try exact Z.
      assert (G : forall z, tasks (set_status (i_s x) id z) = tasks (i_s x) /\ avail (set_status (i_s x) id z) = avail (i_s x)).
      { intros z. destruct (set_status_fields (i_s x) id z) as (_ & _ & _ & _ & A & _ & B & _). auto. }
      destruct (streaming (i_s x) id); [destruct (G st) as [G1 G2] | destruct mine; [destruct (G CANCELLED) as [G1 G2]; destruct (is_cut x par) | exact Z]];
        simpl; apply ik_tk; (eapply tk_task; [exact Ht | simpl; rewrite G1; reflexivity | exact G2 | reflexivity..|]); intros u Hu; discriminate.
    - unfold unwind. destruct (nth_error (tasks (i_s x)) t) as [p|] eqn:Ht; [|exact Z].
      destruct p as [| |n|n p id|n id|n id|n p id|n|par id|par id mine|par id| | |]; try exact Z.
      1-5: destruct (is_cut x _); [|exact Z]; simpl; apply ik_tk; eapply tk_loop; try exact Ht; try reflexivity; discriminate.
      + destruct (cut x t) as [w|]; [|exact Z]. destruct (existsb _ _) eqn:Ex; [exact Z|]. simpl. unfold leave.
        destruct w.
        * apply ik_tk. eapply tk_leave; [exact Ht | | |exact Ex]; destruct (0 <? n); reflexivity.
        * eapply ik_err; [exact Ht | reflexivity | reflexivity | exact Ex].
        * eapply ik_err; [exact Ht | reflexivity | reflexivity | exact Ex].
      + destruct (is_cut x _); [|exact Z]. simpl. apply ik_tk. eapply tk_task; try exact Ht; try reflexivity. discriminate.
      + destruct (_ && _); [|exact Z]. simpl. apply ik_tk. eapply tk_task; try exact Ht; try reflexivity. discriminate.
      + destruct (is_cut x _); [|exact Z]. simpl. apply ik_tk. eapply tk_task; try exact Ht; try reflexivity. discriminate.
  Qed.

  Lemma joined_istep : forall s s', ik s s' -> joined s -> joined s'.
  Proof.
    intros s s' [H|t n e Ht T V Ex] J; [eapply joined_step; eauto|].
    intros u q Hq Hc. rewrite T in *. apply In_upd in Hq. destruct Hq as [-> |Hq]; [discriminate|].
    destruct (J u q Hq Hc) as (r & Hr & Lr). exists r. rewrite (nth_upd _ _ _ _ _ _ Ht).
    destruct (Nat.eqb_spec u t) as [->|]; [|auto]. exfalso.
    assert (X : existsb (child_of t) (tasks s) = true) by (apply existsb_exists; eauto). congruence.
  Qed.
  Lemma joined_ireach : forall ok x, ireach k ok x -> joined (i_s x).
  Proof.
    intros ok. apply ireach_inv; [intros t p []|]. intros x a _ J. eapply joined_istep; [apply ik_step | exact J].
  Qed.

  Lemma sem_istep : forall x a, sem (i_s x) + countp holds (i_s x) = k_conc k ->
    sem (i_s (iact1 k x a)) + countp holds (i_s (iact1 k x a)) = k_conc k.
  Proof.
    intros x a H. destruct a as [a|t|t|t st|t]; simpl.
    - destruct a as [c|t|t b|t y|l|]; [| |exact (sem_step k _ (Grant t b) H)|exact (sem_step k _ (Finish t y) H)
        |exact (sem_step k _ (Cleanup l) H)|exact (sem_step k _ Stop H)].
      + exact (sem_step k _ (Spawn c) H).
      + destruct (halted x t); [exact H | exact (sem_step k _ (Step t) H)].
    - unfold interrupt. destruct (nth_error (tasks (i_s x)) t) as [[]|]; exact H.
    - unfold fail. destruct (nth_error (tasks (i_s x)) t) as [p|] eqn:Ht; [|exact H]. destruct p as [| | |n p id| | | | | | | | | |]; try exact H.
      pose proof (countp_upd holds (i_s x) (set_task (i_s x) t (LJoin n)) t _ _ Ht eq_refl) as U. simpl in *. lia.
    - unfold break. destruct (nth_error (tasks (i_s x)) t) as [p|] eqn:Ht; [|exact H].
      destruct p as [| | | | | | | | |par id mine| | | |]; try exact H.
      assert (G : forall z, tasks (set_status (i_s x) id z) = tasks (i_s x)).
      { intros z. destruct (set_status_fields (i_s x) id z) as (_ & _ & _ & _ & A & _ & B & _). auto. }
      destruct (streaming (i_s x) id); [|destruct mine; [destruct (is_cut x par) | exact H]]; cbn [i_s];
        match goal with |- _ + countp holds ?s' = _ =>
          pose proof (countp_upd holds (i_s x) s' t _ (KDone par id) Ht ltac:(simpl; rewrite G; reflexivity)) as U end;
        simpl in *; lia.
    - unfold unwind. destruct (nth_error (tasks (i_s x)) t) as [p|] eqn:Ht; [|exact H].
      assert (U : forall s' p', tasks s' = upd t p' (tasks (i_s x)) -> countp holds s' + b2n (holds p) = countp holds (i_s x) + b2n (holds p')).
      { intros s' p' E. exact (countp_upd holds (i_s x) s' t _ _ Ht E). }
      destruct p as [| |n|n p id|n id|n id|n p id|n|par id|par id mine|par id| | |]; try exact H;
        try (destruct (is_cut x _); [|exact H]; cbn [i_s put];
             match goal with |- _ + countp holds (set_task ?s1 t ?q) = _ => pose proof (U (set_task s1 t q) q eq_refl) as V end; simpl in *; lia).
      + destruct (cut x t) as [w|]; [|exact H]. destruct (existsb _ _); [exact H|]. cbn [i_s put]. unfold leave.
        destruct w; [destruct (0 <? n)| |]; match goal with |- _ + countp holds (set_task ?s1 t ?q) = _ => pose proof (U (set_task s1 t q) q eq_refl) as V end; simpl in *; lia.
      + destruct (_ && _); [|exact H]. cbn [i_s put].
        match goal with |- _ + countp holds (set_task ?s1 t ?q) = _ => pose proof (U (set_task s1 t q) q eq_refl) as V end; simpl in *; lia.
  Qed.
  Lemma sem_ireach : forall ok x, ireach k ok x -> sem (i_s x) + countp holds (i_s x) = k_conc k.
  Proof. intros ok. apply ireach_inv; [unfold countp; simpl; lia|]. intros x a _. apply sem_istep. Qed.

  (** *** Capacity *)
  Record CJ (s : pst) : Prop := {
    j_par : forall u p, In p (tasks s) -> started_by u p = true -> u < length (tasks s);
    j_av : (0 <= avail s <= Z.of_nat (k_cap k))%Z;
    j_loop : forall t p, nth_error (tasks s) t = Some p -> is_loop p = true ->
      (avail s + Z.of_nat (loop_count p) <= Z.of_nat (k_cap k))%Z /\
      (active p = true -> (0 < avail s)%Z) /\ countp (started_by t) s = loop_count p;
    j_le : forall t, countp (started_by t) s <= k_cap k
  }.

  Lemma CJ_step : forall s s', ik s s' -> CJ s -> countp is_loop s <= 1 -> CJ s'.
  Proof.
    intros s s' Hk [A B C D] O1.
    assert (NL : forall u q, is_loop q = true -> started_by u q = false) by (intros u q; destruct q; simpl; try discriminate; reflexivity).
    destruct Hk as [[T V|p T V Lp Sp|T V|t p p' Ht T V L1 L2 Sb _|t p p' Ht T V L1 L2 Lc Ac|t n id p' Ht T V L1 Lc Ac|t n Ht T V _]|t n e Ht T V _].
    - unfold countp in *. constructor; unfold countp; rewrite ?T, ?V; auto.
    - constructor.
      + intros u q Hq Hs. rewrite T in *. rewrite app_length. simpl. apply in_app_iff in Hq. destruct Hq as [Hq|[<-|[]]].
        * pose proof (A u q Hq Hs). lia.
        * rewrite Sp in Hs. discriminate.
      + rewrite V. exact B.
      + intros t q Hq Lq. rewrite T in Hq. destruct (lt_dec t (length (tasks s))) as [Hlt|Hge].
        * rewrite nth_error_app1 in Hq by lia. rewrite (countp_app _ _ _ _ T), Sp, V. simpl.
          rewrite Nat.add_0_r. apply (C t q Hq Lq).
        * rewrite nth_error_app2 in Hq by lia. destruct (t - length (tasks s)) as [|[|]]; simpl in Hq; try discriminate.
          injection Hq as <-. congruence.
      + intros t. rewrite (countp_app _ _ _ _ T), Sp. simpl. specialize (D t). lia.
    - pose proof (top_loop s 0) as Tl. pose proof (top_count s 0) as Tc.
      constructor.
      + intros u q Hq Hs. rewrite T in *. rewrite app_length. simpl. apply in_app_iff in Hq. destruct Hq as [Hq|[<-|[]]].
        * pose proof (A u q Hq Hs). lia.
        * rewrite top_sb in Hs. discriminate.
      + rewrite V. exact B.
      + intros t q Hq Lq. rewrite T in Hq. destruct (lt_dec t (length (tasks s))) as [Hlt|Hge].
        * rewrite nth_error_app1 in Hq by lia. rewrite (countp_app _ _ _ _ T), top_sb, V. simpl.
          rewrite Nat.add_0_r. apply (C t q Hq Lq).
        * rewrite nth_error_app2 in Hq by lia. destruct (t - length (tasks s)) as [|[|]] eqn:Et; simpl in Hq; try discriminate.
          injection Hq as <-. rewrite Tc, V, (countp_app _ _ _ _ T), top_sb. simpl. split; [lia|]. split; [apply top_active|].
          rewrite Nat.add_0_r. apply filter_none. intros y Hy. destruct (started_by t y) eqn:Ey; [|reflexivity].
          pose proof (A t y Hy Ey). lia.
      + intros t. rewrite (countp_app _ _ _ _ T), top_sb. simpl. specialize (D t). lia.
    - assert (Cs : forall u, countp (started_by u) s' = countp (started_by u) s).
      { intros u. pose proof (countp_upd (started_by u) _ _ _ _ _ Ht T) as H. rewrite Sb in H. lia. }
      constructor.
      + intros u q Hq Hs. rewrite T in *. rewrite upd_length. apply In_upd in Hq. destruct Hq as [-> |Hq]; [|eauto].
        rewrite <- Sb in Hs. eapply A; [eapply nth_error_In; exact Ht | exact Hs].
      + rewrite V. exact B.
      + intros u q Hq Lq. rewrite T, (nth_upd _ _ _ _ _ _ Ht) in Hq. rewrite Cs, V. destruct (u =? t).
        * injection Hq as <-. congruence.
        * apply (C u q Hq Lq).
      + intros u. rewrite Cs. apply D.
    - assert (Cs : forall u, countp (started_by u) s' = countp (started_by u) s).
      { intros u. pose proof (countp_upd (started_by u) _ _ _ _ _ Ht T) as H. rewrite !NL in H by assumption. lia. }
      destruct (C t p Ht L1) as (C1 & C2 & C3).
      constructor.
      + intros u q Hq Hs. rewrite T in *. rewrite upd_length. apply In_upd in Hq. destruct Hq as [-> |Hq]; [|eauto].
        rewrite NL in Hs by assumption. discriminate.
      + rewrite V. exact B.
      + intros u q Hq Lq. rewrite T, (nth_upd _ _ _ _ _ _ Ht) in Hq. rewrite Cs, V. destruct (Nat.eqb_spec u t) as [->|].
        * injection Hq as <-. rewrite Lc. split; [exact C1|]. split; [|exact C3]. intros Ha. destruct (Ac Ha); auto.
        * apply (C u q Hq Lq).
      + intros u. rewrite Cs. apply D.
    - destruct (C t _ Ht eq_refl) as (C1 & C2 & C3). simpl in C1, C2, C3. specialize (C2 eq_refl).
      assert (Hl : t < length (tasks s)) by (apply nth_error_Some; rewrite Ht; discriminate).
      assert (Cs : forall u, countp (started_by u) s' = countp (started_by u) s + b2n (t =? u)).
      { intros u. unfold countp. rewrite T, filter_app, app_length. simpl.
        pose proof (filter_upd _ (started_by u) (tasks s) t _ p' Ht) as H. rewrite (NL u p' L1) in H. simpl in H.
        destruct (t =? u); simpl; lia. }
      constructor.
      + intros u q Hq Hs. rewrite T in *. rewrite app_length, upd_length. simpl. apply in_app_iff in Hq. destruct Hq as [Hq|[<-|[]]].
        * apply In_upd in Hq. destruct Hq as [-> |Hq]; [rewrite NL in Hs by assumption; discriminate|]. pose proof (A u q Hq Hs). lia.
        * simpl in Hs. apply Nat.eqb_eq in Hs. lia.
      + rewrite V. lia.
      + intros u q Hq Lq. rewrite T in Hq. assert (Hu : u = t).
        { destruct (Nat.eq_dec u t) as [|Hne]; [assumption|]. exfalso.
          destruct (lt_dec u (length (tasks s))) as [Hlt|Hge].
          - rewrite nth_error_app1 in Hq by (rewrite upd_length; lia). rewrite (nth_upd _ _ _ _ _ _ Ht) in Hq.
            apply Nat.eqb_neq in Hne. rewrite Hne in Hq.
            apply Nat.eqb_neq in Hne. apply Hne. eapply only_one; [exact O1 | exact Ht | reflexivity | exact Hq | exact Lq].
          - rewrite nth_error_app2 in Hq by (rewrite upd_length; lia). destruct (u - _) as [|[|]]; simpl in Hq; try discriminate.
            injection Hq as <-. discriminate. }
        subst u. rewrite nth_error_app1 in Hq by (rewrite upd_length; lia). rewrite (nth_upd _ _ _ _ _ _ Ht), Nat.eqb_refl in Hq.
        injection Hq as <-. rewrite Lc, Cs, Nat.eqb_refl. simpl. split; [lia|]. split; [exact Ac | lia].
      + intros u. rewrite Cs. destruct (Nat.eqb_spec t u) as [<-|]; simpl; [|specialize (D u); lia]. lia.
    - destruct (C t _ Ht eq_refl) as (C1 & C2 & C3). simpl in *.
      assert (Cs : forall u, countp (started_by u) s' = countp (started_by u) s).
      { intros u. pose proof (countp_upd (started_by u) _ _ _ _ _ Ht T) as H. simpl in H. lia. }
      constructor.
      + intros u q Hq Hs. rewrite T in *. rewrite upd_length. apply In_upd in Hq. destruct Hq as [-> |Hq]; [discriminate | eauto].
      + rewrite V. destruct (0 <? n); lia.
      + intros u q Hq Lq. rewrite T, (nth_upd _ _ _ _ _ _ Ht) in Hq. destruct (Nat.eqb_spec u t) as [->|Hne].
        * injection Hq as <-. discriminate.
        * destruct Hne. eapply only_one; [exact O1 | exact Ht | reflexivity | exact Hq | exact Lq].
      + intros u. rewrite Cs. apply D.
    - assert (Cs : forall u, countp (started_by u) s' = countp (started_by u) s).
      { intros u. pose proof (countp_upd (started_by u) _ _ _ _ _ Ht T) as H. simpl in H. lia. }
      constructor.
      + intros u q Hq Hs. rewrite T in *. rewrite upd_length. apply In_upd in Hq. destruct Hq as [-> |Hq]; [discriminate | eauto].
      + rewrite V. exact B.
      + intros u q Hq Lq. rewrite T, (nth_upd _ _ _ _ _ _ Ht) in Hq. rewrite Cs, V. destruct (Nat.eqb_spec u t) as [->|Hne].
        * injection Hq as <-. discriminate.
        * apply (C u q Hq Lq).
      + intros u. rewrite Cs. apply D.
  Qed.

  Lemma CJ_0 : CJ (pst0 k).
  Proof.
    constructor; simpl; auto.
    - intros u p [].
    - lia.
    - intros [|t] p H; discriminate.
    - intros t. unfold countp. simpl. lia.
  Qed.
  Lemma CJ_run : forall l x, CJ (i_s x) -> ialways k (fun s => countp is_loop s <= 1) x l -> CJ (i_s (irun k x l)).
  Proof.
    induction l as [|a l IH]; intros x H [H1 H2]; simpl; [exact H|]. apply IH; [|exact H2].
    eapply CJ_step; [apply ik_step | exact H | exact H1].
  Qed.

  (** *** A worn-out processor starts nothing *)
  Lemma quiet_step : forall s a, worn_out s -> worn_out (pact k s a) /\ avail (pact k s a) = avail s.
  Proof.
    intros s a [HA HQ].
    assert (TopQ : forall s', avail s' = avail s -> quiet (top s' 0) = true).
    { intros s' E. unfold top. rewrite E. replace (0 <? avail s)%Z with false by (symmetry; apply Z.ltb_ge; exact HA). reflexivity. }
    assert (NW : forall s' p, tasks s' = tasks s -> avail s' = avail s -> quiet p = true ->
      worn_out (new_task s' p) /\ avail (new_task s' p) = avail s).
    { intros s' p T V Q. split; [|exact V]. split; [simpl; rewrite V; exact HA|].
      simpl. rewrite T. intros q Hq. apply in_app_iff in Hq. destruct Hq as [Hq|[<-|[]]]; auto. }
    assert (UW : forall s' t p, tasks s' = tasks s -> avail s' = avail s -> quiet p = true ->
      worn_out (set_task s' t p) /\ avail (set_task s' t p) = avail s).
    { intros s' t p T V Q. split; [|exact V]. split; [simpl; rewrite V; exact HA|].
      simpl. rewrite T. intros q Hq. apply In_upd in Hq. destruct Hq as [-> |Hq]; auto. }
    assert (BK : forall s ids s' q, back k s ids = (s', q) -> tasks s' = tasks s /\ avail s' = avail s /\ quiet q = true).
    { intros s1 [|u r] s' q H; simpl in H; [injection H as <- <-; auto|].
      destruct (enq_check k s1 u PNone); injection H as <- <-; auto. }
    destruct a as [c|t|t b|t y|l|]; simpl.
    - unfold spawn. destruct c as [id e p|id p| |].
      + destruct (memb id (items s)); [apply NW; reflexivity|].
        set (s2 := if dmem id (objs s) then _ else _).
        assert (Q : tasks s2 = tasks s /\ avail s2 = avail s) by (unfold s2; destruct (dmem id (objs s)); auto).
        destruct Q as [Q1 Q2].
        destruct (started s); [destruct (enq_check k s2 id p)|]; apply NW; auto.
      + destruct (started s); [destruct (enq_check k s id p); apply NW; auto | split; [split; auto | reflexivity]].
      + destruct (started s); [apply NW; auto|]. destruct (forallb _ _); [|apply NW; auto].
        destruct (back k (w_started s) (progs s PENDING)) as [s2 q] eqn:Eb. destruct (BK _ _ _ _ Eb) as (A & B & C). apply NW; auto.
      + destruct (started s); apply NW; auto.
    - unfold step. destruct (nth_error (tasks s) t) as [p|] eqn:Ht; [|split; [split; auto | reflexivity]].
      pose proof (HQ p (nth_error_In _ _ Ht)) as Qp.
      destruct p as [p id|p id rest|n|n p id|n id|n id|n p id|[|n]|par id|par id mine|par id|par id| |e l]; try discriminate;
        try (split; [split; auto | reflexivity]).
      + apply UW; auto.
      + destruct (back k (push s p id) rest) as [s1 q] eqn:Eb. destruct (BK _ _ _ _ Eb) as (A & B & C). apply UW; auto.
      + destruct (existsb _ _); [split; [split; auto | reflexivity]|]. apply UW; auto.
    - unfold grant. destruct (nth_error (tasks s) t) as [p|] eqn:Ht; [|split; [split; auto | reflexivity]].
      pose proof (HQ p (nth_error_In _ _ Ht)) as Qp. destruct p; try discriminate; split; auto; split; auto.
    - unfold finish_ev. destruct (nth_error (tasks s) t) as [p|] eqn:Ht; [|split; [split; auto | reflexivity]].
      pose proof (HQ p (nth_error_In _ _ Ht)) as Qp. destruct p; try discriminate; split; auto; split; auto.
    - destruct (cleanup_fields l s 0) as (_ & B & _ & V & _). unfold worn_out. rewrite B, V. auto.
    - destruct (started s); split; auto; split; auto.
  Qed.

  Lemma worn_step : forall x a, worn_out (i_s x) -> worn_out (i_s (iact1 k x a)) /\ avail (i_s (iact1 k x a)) = avail (i_s x).
  Proof.
    intros x a H. assert (Z : worn_out (i_s x) /\ avail (i_s x) = avail (i_s x)) by auto. pose proof H as [HA HQ].
    destruct a as [a|t|t|t st|t]; simpl.
    - destruct a as [c|t|t b|t y|l|]; [| |exact (quiet_step _ (Grant t b) H)|exact (quiet_step _ (Finish t y) H)
        |exact (quiet_step _ (Cleanup l) H)|exact (quiet_step _ Stop H)].
      + exact (quiet_step _ (Spawn c) H).
      + destruct (halted x t); [exact Z | exact (quiet_step _ (Step t) H)].
    - unfold interrupt. destruct (nth_error (tasks (i_s x)) t) as [[]|]; exact Z.
    - unfold fail. destruct (nth_error (tasks (i_s x)) t) as [p|] eqn:Ht; [|exact Z].
      pose proof (HQ p (nth_error_In _ _ Ht)) as Qp. destruct p; try discriminate; exact Z.
    - unfold break. destruct (nth_error (tasks (i_s x)) t) as [p|] eqn:Ht; [|exact Z].
      pose proof (HQ p (nth_error_In _ _ Ht)) as Qp. destruct p; try discriminate; exact Z.
    - unfold unwind. destruct (nth_error (tasks (i_s x)) t) as [p|] eqn:Ht; [|exact Z].
      pose proof (HQ p (nth_error_In _ _ Ht)) as Qp.
      destruct p as [p id|p id rest|n|n p id|n id|n id|n p id|[|n]|par id|par id mine|par id|par id| |e l]; try discriminate; try exact Z.
      destruct (cut x t) as [w|]; [|exact Z]. destruct (existsb _ _); [exact Z|]. simpl.
      assert (W : forall p, quiet p = true -> worn_out (set_task (i_s x) t p) /\ avail (set_task (i_s x) t p) = avail (i_s x)).
      { intros p Q. split; [|reflexivity]. split; [exact HA|]. simpl. intros q Hq. apply In_upd in Hq. destruct Hq as [-> |Hq]; auto. }
      destruct w; apply W; reflexivity.
  Qed.

  Lemma worn_run : forall l x, worn_out (i_s x) -> worn_out (i_s (irun k x l)) /\ avail (i_s (irun k x l)) = avail (i_s x).
  Proof.
    induction l as [|a l IH]; intros x H; simpl; [auto|]. destruct (worn_step x a H) as [W E].
    destruct (IH (iact1 k x a) W) as [W2 E2]. split; [exact W2 | congruence].
  Qed.
  Lemma worn_running : forall s, worn_out s -> running_ids s = [].
  Proof.
    intros s [_ HQ]. unfold running_ids. induction (tasks s) as [|p l IH]; [reflexivity|]. simpl.
    rewrite IH by (intros q Hq; apply HQ; right; exact Hq).
    pose proof (HQ p (or_introl eq_refl)) as Q. destruct p; try discriminate; reflexivity.
  Qed.

  (** *** A call that is cut short can always end *)
  Lemma can_end : forall m x t p, nth_error (tasks (i_s x)) t = Some p -> is_loop p = true -> is_cut x t = true ->
    countp (child_of t) (i_s x) = m -> exists l q, Forall (fun a => match a with IUnwind _ | IBreak _ _ => True | _ => False end) l /\
    nth_error (tasks (i_s (irun k x l))) t = Some q /\ call_over q = true.
  Proof.
    assert (J : forall m x t n, nth_error (tasks (i_s x)) t = Some (LJoin n) -> is_cut x t = true ->
      countp (child_of t) (i_s x) = m -> exists l q, Forall (fun a => match a with IUnwind _ | IBreak _ _ => True | _ => False end) l /\
      nth_error (tasks (i_s (irun k x l))) t = Some q /\ call_over q = true).
    { induction m as [|m IH]; intros x t n Ht Hc Hm.
      - assert (Ex : existsb (child_of t) (tasks (i_s x)) = false).
        { destruct (existsb _ _) eqn:E; [|reflexivity]. apply existsb_exists in E. destruct E as (q & Hq & Cq).
          apply In_nth_error in Hq. destruct Hq as [u Hu]. pose proof (filter_pos _ (child_of t) _ _ _ Hu Cq). unfold countp in Hm. lia. }
        exists [IUnwind t]. unfold is_cut, dmem in Hc. simpl. unfold unwind. rewrite Ht. unfold cut.
        destruct (dget t (i_cut x)) as [w|]; [|discriminate]. rewrite Ex. simpl.
        exists (match w with ByChild => ADone | ByCaller => AErr OtherErr [] | ByError => AErr ExceptionGroupErr [] end).
        split; [repeat constructor|]. split; [|destruct w; reflexivity].
        unfold leave. destruct w; [destruct (0 <? n)| |]; simpl; rewrite (nth_upd _ _ _ _ _ _ Ht), Nat.eqb_refl; reflexivity.
      - assert (Ex : exists u q, nth_error (tasks (i_s x)) u = Some q /\ child_of t q = true).
        { unfold countp in Hm. destruct (filter (child_of t) (tasks (i_s x))) as [|q r] eqn:E; [discriminate|].
          assert (Hq : In q (filter (child_of t) (tasks (i_s x)))) by (rewrite E; left; reflexivity).
          apply filter_In in Hq. destruct Hq as [Hq Cq]. apply In_nth_error in Hq. destruct Hq as [u Hu]. eauto. }
        destruct Ex as (u & q & Hu & Cq).
        assert (K : exists a q', (match a with IUnwind _ | IBreak _ _ => True | _ => False end) /\
          tasks (i_s (iact1 k x a)) = upd u q' (tasks (i_s x)) /\ child_of t q' = false /\ is_cut (iact1 k x a) t = true).
        { destruct q as [| | | | | | | |par id|par id mine|par id| | |]; try discriminate; simpl in Cq; apply Nat.eqb_eq in Cq; subst par.
          - exists (IUnwind u), (KDone t id). simpl. unfold unwind. rewrite Hu, Hc. repeat split. exact Hc.
          - assert (G : forall z, tasks (set_status (i_s x) id z) = tasks (i_s x)).
            { intros z. destruct (set_status_fields (i_s x) id z) as (_ & _ & _ & _ & A & _). exact A. }
            assert (Hd : forall w, dmem t (cut_short x t w) = true).
            { intros w. unfold cut_short, dmem. rewrite dget_dset, eqb_refl. reflexivity. }
            destruct (streaming (i_s x) id) eqn:Es.
            + exists (IBreak u CANCELLED), (KDone t id). simpl. unfold break. rewrite Hu, Es. simpl. rewrite G. repeat split. apply Hd.
            + destruct mine.
              * exists (IBreak u CANCELLED), (KDone t id). simpl. unfold break. rewrite Hu, Es. simpl. rewrite Hc. simpl. rewrite G. repeat split. apply Hd.
              * exists (IUnwind u), (KDone t id). simpl. unfold unwind. rewrite Hu, Hc, Es. simpl. repeat split. exact Hc.
          - exists (IUnwind u), (KDone t id). simpl. unfold unwind. rewrite Hu, Hc. repeat split. exact Hc. }
        destruct K as (a & q' & Ka & Kt & Kc & Kcut).
        destruct (IH (iact1 k x a) t n) as (l & q2 & Hl & H2); [| exact Kcut | |].
        + rewrite Kt, (nth_upd _ _ _ _ _ _ Hu). destruct (Nat.eqb_spec t u) as [->|]; [|exact Ht].
          rewrite Ht in Hu. injection Hu as <-. discriminate.
        + pose proof (countp_upd (child_of t) _ _ _ _ _ Hu Kt) as U. rewrite Cq, Kc in U. simpl in U. lia.
        + exists (a :: l), q2. split; [constructor; assumption | exact H2]. }
    intros m x t p Ht Lp Hc Hm.
    assert (E : (exists n, p = LJoin n) \/ exists n, i_s (iact1 k x (IUnwind t)) = set_task (i_s x) t (LJoin n) /\ is_cut (iact1 k x (IUnwind t)) t = true).
    { simpl. unfold unwind. rewrite Ht. destruct p; try discriminate; rewrite ?Hc; eauto; right; eexists; split; try reflexivity; exact Hc. }
    destruct E as [[n ->]|(n & E & Hc')]; [eapply J; eauto|].
    destruct (J (countp (child_of t) (i_s (iact1 k x (IUnwind t)))) (iact1 k x (IUnwind t)) t n) as (l & q & Hl & Hq); auto.
    - rewrite E. simpl. rewrite (nth_upd _ _ _ _ _ _ Ht), Nat.eqb_refl. reflexivity.
    - exists (IUnwind t :: l), q. split; [constructor; [exact Logic.I | exact Hl] | exact Hq].
  Qed.
End Int.
