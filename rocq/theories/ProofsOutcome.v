(** How a process() call that is cut short ends. *)
From Coq Require Import List Bool Arith ZArith Lia Permutation ZifyBool.
From Verif Require Import PyBase PyFacts ModelHeap SpecHeap ModelEvent ProofsEvent ModelProcessor SpecProcessor
  ProofsProcessor ProofsProcessorRun ProofsProcessorDeny ProofsProcessorCap ModelInterrupt SpecInterrupt ProofsInterrupt.
Import ListNotations.
Local Open Scope nat_scope.
#[local] Arguments eqb : simpl never.

Section Outcome.
  Variable k : cfg.

  (** Actions other than a step of the call itself leave it under way. *)
  Lemma keeps_new : forall s s' p t q, tasks s' = tasks s -> nth_error (tasks s) t = Some q -> nth_error (tasks (new_task s' p)) t = Some q.
  Proof. intros s s' p t q T H. simpl. rewrite T. apply nth_app_keep. exact H. Qed.
  Lemma keeps_other : forall s s' u p p' t q, tasks s' = tasks s -> nth_error (tasks s) u = Some p -> u <> t ->
    nth_error (tasks s) t = Some q -> nth_error (tasks (set_task s' u p')) t = Some q.
  Proof.
    intros s s' u p p' t q T Hu Hne H. simpl. rewrite T, (nth_upd _ _ _ _ _ _ Hu).
    destruct (Nat.eqb_spec t u); [congruence | exact H].
  Qed.

  Lemma step_other : forall s u t q, u <> t -> nth_error (tasks s) t = Some q -> nth_error (tasks (step k s u)) t = Some q.
  Proof.
    intros s u t q Hne H. unfold step. destruct (nth_error (tasks s) u) as [p|] eqn:Hu; [|exact H].
    assert (O : forall s' p', tasks s' = tasks s -> nth_error (tasks (set_task s' u p')) t = Some q).
    { intros s' p' T. eapply keeps_other; eauto. }
    destruct p as [p id|p id rest|n|n p id|n id|n id|n p id|n|par id|par id mine|par id|par id| |e l]; try exact H; try (apply O; reflexivity).
    - destruct (back k (push s p id) rest) as [s1 r] eqn:Eb. apply O. destruct (back_shape k _ _ _ _ Eb) as (A & _). exact A.
    - destruct (heappop _ _) as [[[p id] h]|]; [|exact H]. destruct (memb id _); apply O; reflexivity.
    - eapply keeps_new; [reflexivity|]. apply O. reflexivity.
    - destruct (existsb _ _); [exact H|]. apply O. destruct (0 <? n); reflexivity.
    - destruct (sem s) as [|m]; [exact H|]. destruct (_ && _); apply O; [|reflexivity].
      destruct (set_status_fields (w_sem s m) id PROCESSING) as (_ & _ & _ & _ & A & _). exact A.
  Qed.

  Lemma pact_other : forall s a t q, (forall u, a <> Step u) -> nth_error (tasks s) t = Some q -> (is_loop q = true \/ call_over q = true) ->
    exists q', nth_error (tasks (pact k s a)) t = Some q' /\ (q' = q \/ is_loop q = true /\ is_loop q' = true).
  Proof.
    intros s a t q Ha H Hq.
    assert (Z : forall s', nth_error (tasks s') t = Some q -> exists q', nth_error (tasks s') t = Some q' /\ (q' = q \/ is_loop q = true /\ is_loop q' = true)).
    { intros s' E. exists q. auto. }
    destruct a as [c|u|u b|u y|l|]; simpl.
    - apply Z. unfold spawn. destruct c as [id e p|id p| |].
      + destruct (memb id _); [eapply keeps_new; eauto; reflexivity|]. set (s2 := if dmem id _ then _ else _).
        assert (Q : tasks s2 = tasks s) by (unfold s2; destruct (dmem id _); reflexivity).
        destruct (started s); [destruct (enq_check k s2 id p)|]; eapply keeps_new; eauto.
      + destruct (started s); [destruct (enq_check k s id p); eapply keeps_new; eauto | exact H].
      + destruct (started s); [eapply keeps_new; [|exact H]; reflexivity|]. destruct (forallb _ _); [|eapply keeps_new; eauto; reflexivity].
        destruct (back k (w_started s) (progs s PENDING)) as [s2 r] eqn:Eb. destruct (back_shape k _ _ _ _ Eb) as (A & _).
        eapply keeps_new; [exact A | exact H].
      + destruct (started s); eapply keeps_new; eauto.
    - destruct (Ha u eq_refl).
    - unfold grant. destruct (nth_error (tasks s) u) as [p|] eqn:Hu; [|apply Z, H].
      destruct p as [p id|p id rest|n|n p id|n id|n id|n p id|n|par id|par id mine|par id|par id| |e l]; try (apply Z, H).
      destruct (Nat.eq_dec u t) as [->|Hne].
      + rewrite Hu in H. injection H as <-.
        destruct b; [|destruct (3 <=? _)]; simpl; rewrite (nth_upd _ _ _ _ _ _ Hu), Nat.eqb_refl; eexists; (split; [reflexivity | auto]).
      + apply Z. destruct b; [|destruct (3 <=? _)]; eapply keeps_other; eauto; reflexivity.
    - unfold finish_ev. destruct (nth_error (tasks s) u) as [p|] eqn:Hu; [|apply Z, H].
      destruct p as [p id|p id rest|n|n p id|n id|n id|n p id|n|par id|par id mine|par id|par id| |e l]; try (apply Z, H).
      assert (Hne : u <> t) by (intros ->; rewrite Hu in H; injection H as <-; destruct Hq; discriminate).
      assert (G : forall v, nth_error (tasks (set_task (set_status s id v) u (KUpd par id))) t = Some q).
      { intros v. eapply keeps_other; [apply (set_status_fields s id v) | exact Hu | exact Hne | exact H]. }
      apply Z. destruct (streaming s id); [apply G|]. destruct mine; [destruct y; auto|]. destruct (existsb _ _); [exact H|].
      eapply keeps_other; eauto.
    - apply Z. destruct (cleanup_fields l s 0) as (_ & B & _). rewrite B. exact H.
    - apply Z. destruct (started s); exact H.
  Qed.

  (** At least as bad as [w]. *)
  Definition doomed (w : why) (t : nat) (x : ist) : Prop := exists q, nth_error (tasks (i_s x)) t = Some q /\
    ((is_loop q = true /\ exists v, cut x t = Some v /\ rank w <= rank v) \/
     (exists v, rank w <= rank v /\ q = match v with ByChild => ADone | ByCaller => AErr OtherErr [] | ByError => AErr ExceptionGroupErr [] end)).

  Lemma cut_short_rank : forall x t u w v, cut x t = Some v -> exists v', dget t (cut_short x u w) = Some v' /\ rank v <= rank v'.
  Proof.
    intros x t u w v H. unfold cut_short. rewrite dget_dset. destruct (eqb_spec t u) as [<-|]; [|exists v; auto].
    rewrite H. eexists. split; [reflexivity|]. unfold worse. destruct (rank v <? rank w) eqn:E; lia.
  Qed.

  Lemma doomed_step : forall w t x a, doomed w t x -> doomed w t (iact1 k x a).
  Proof.
    intros w t x a (q & Hq & HD).
    assert (Q : is_loop q = true \/ call_over q = true).
    { destruct HD as [[A _]|(v & _ & ->)]; [auto|]. right. destruct v; reflexivity. }
    assert (Keep : forall y, nth_error (tasks (i_s y)) t = Some q -> i_cut y = i_cut x -> doomed w t y).
    { intros y Hy C. exists q. split; [exact Hy|]. unfold cut in *. rewrite C. exact HD. }
    assert (KeepC : forall y u c, nth_error (tasks (i_s y)) t = Some q -> i_cut y = cut_short x u c -> doomed w t y).
    { intros y u c Hy C. exists q. split; [exact Hy|]. destruct HD as [(L & v & Hv & Hr)|HD]; [|right; exact HD]. left. split; [exact L|].
      destruct (cut_short_rank x t u c v Hv) as (v' & H1 & H2). exists v'. unfold cut. rewrite C. split; [exact H1 | lia]. }
    assert (Pact : forall b, (forall u, b <> Step u) -> doomed w t (put x (pact k (i_s x) b))).
    { intros b Hb. destruct (pact_other (i_s x) b t q Hb Hq Q) as (q' & H1 & [->|[L1 L2]]).
      - apply Keep; [exact H1 | reflexivity].
      - exists q'. split; [exact H1|]. left. split; [exact L2|]. destruct HD as [[_ HD]|(v & _ & ->)]; [exact HD|]. destruct v; discriminate. }
    destruct a as [a|u|u|u st|u]; simpl.
    - destruct a as [c|u|u b|u y|l|]; [| |apply (Pact (Grant u b)); discriminate|apply (Pact (Finish u y)); discriminate
        |apply (Pact (Cleanup l)); discriminate|apply (Pact Stop); discriminate].
      + apply (Pact (Spawn c)); discriminate.
      + destruct (halted x u) eqn:Eh; [exists q; auto|]. apply Keep; [|reflexivity]. simpl.
        destruct (Nat.eq_dec u t) as [->|Hne]; [|apply step_other; auto].
        destruct HD as [(L & v & Hv & _)|(v & _ & ->)].
        * exfalso. unfold halted in Eh. rewrite Hq in Eh. assert (C : is_cut x t = true) by (unfold is_cut, dmem; unfold cut in Hv; rewrite Hv; reflexivity).
          destruct q; try discriminate; congruence.
        * unfold step. rewrite Hq. destruct v; exact Hq.
    - unfold interrupt. destruct (nth_error (tasks (i_s x)) u) as [[]|]; try (exists q; auto; fail); eapply KeepC; try exact Hq; reflexivity.
    - unfold fail. destruct (nth_error (tasks (i_s x)) u) as [p|] eqn:Hu; [|exists q; auto].
      destruct p as [| | |n p id| | | | | | | | | |]; try (exists q; auto; fail).
      destruct (Nat.eq_dec u t) as [->|Hne]; [|eapply KeepC; [|reflexivity]; eapply keeps_other; eauto; reflexivity].
      rewrite Hq in Hu. injection Hu as ->. destruct HD as [(L & v & Hv & Hr)|(v & _ & E)]; [|destruct v; discriminate].
      destruct (cut_short_rank x t t ByError v Hv) as (v' & H1 & H2).
      exists (LJoin n). split; [simpl; rewrite (nth_upd _ _ _ _ _ _ Hq), Nat.eqb_refl; reflexivity|]. left. split; [reflexivity|]. exists v'. split; [exact H1 | lia].
    - unfold break. destruct (nth_error (tasks (i_s x)) u) as [p|] eqn:Hu; [|exists q; auto].
      destruct p as [| | | | | | | | |par id mine| | | |]; try (exists q; auto; fail).
      assert (Hne : u <> t) by (intros ->; rewrite Hu in Hq; injection Hq as <-; destruct Q; discriminate).
      assert (G : forall v, tasks (set_status (i_s x) id v) = tasks (i_s x)) by (intros v; apply (set_status_fields (i_s x) id v)).
      destruct (streaming _ _); [|destruct mine; [|exists q; auto]]; (eapply KeepC; [|reflexivity]);
        cbn [i_s]; (eapply keeps_other; [|exact Hu | exact Hne | exact Hq]); [apply G|]. destruct (is_cut x par); apply G.
    - unfold unwind. destruct (nth_error (tasks (i_s x)) u) as [p|] eqn:Hu; [|exists q; auto].
      destruct (Nat.eq_dec u t) as [->|Hne].
      + rewrite Hq in Hu. injection Hu as ->. destruct HD as [(L & v & Hv & Hr)|(v & Hr & ->)]; [|destruct v; eexists; split; eauto].
        assert (C : is_cut x t = true) by (unfold is_cut, dmem; unfold cut in Hv; rewrite Hv; reflexivity).
        destruct p as [| |n|n p id|n id|n id|n p id|n|par id|par id mine|par id| | |]; try discriminate; rewrite ?C, ?Hv;
          try (exists (LJoin n); split; [simpl; rewrite (nth_upd _ _ _ _ _ _ Hq), Nat.eqb_refl; reflexivity|]; left; split; [reflexivity | exists v; auto]).
        destruct (existsb _ _); [exists (LJoin n); split; [exact Hq|]; left; split; [reflexivity | exists v; auto]|].
        exists (match v with ByChild => ADone | ByCaller => AErr OtherErr [] | ByError => AErr ExceptionGroupErr [] end).
        split; [|right; exists v; auto]. unfold leave. destruct v; [destruct (0 <? n)| |]; simpl; rewrite (nth_upd _ _ _ _ _ _ Hq), Nat.eqb_refl; reflexivity.
      + assert (O : forall s' p', tasks s' = tasks (i_s x) -> nth_error (tasks (set_task s' u p')) t = Some q).
        { intros s' p' T. eapply keeps_other; eauto. }
        assert (ZZ : doomed w t x) by (exists q; auto).
        destruct p as [| |n|n p id|n id|n id|n p id|n|par id|par id mine|par id| | |]; try exact ZZ;
          try (destruct (is_cut x _); [|exact ZZ]; apply Keep; [apply O; reflexivity | reflexivity]).
        * destruct (cut x u) as [v|]; [|exact ZZ]. destruct (existsb _ _); [exact ZZ|]. apply Keep; [|reflexivity]. simpl. unfold leave.
          destruct v; [destruct (0 <? n)| |]; apply O; reflexivity.
        * destruct (_ && _); [|exact ZZ]. apply Keep; [apply O; reflexivity | reflexivity].
  Qed.
  Lemma doomed_run : forall l w t x, doomed w t x -> doomed w t (irun k x l).
  Proof. induction l as [|a l IH]; intros w t x H; simpl; [exact H|]. apply IH, doomed_step, H. Qed.
End Outcome.
