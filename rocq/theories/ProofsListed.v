(** Lists of events by final status, with process() calls that are cut short. *)
From Coq Require Import List Bool Arith ZArith Lia Permutation ZifyBool.
From Verif Require Import PyBase PyFacts ModelHeap SpecHeap ProofsHeap ProofsPQueue ModelEvent ProofsEvent ModelProcessor SpecProcessor
  ProofsProcessor ProofsProcessorRun ProofsProcessorDeny ProofsProcessorCap ProofsProcessorFate ModelInterrupt SpecInterrupt ProofsInterrupt ProofsStranded.
Import ListNotations.
Local Open Scope nat_scope.
#[local] Arguments eqb : simpl never.

Section Listed.
  Variable k : cfg.

  Definition FS (s : pst) : Prop := forall z u, final z = true -> In u (progs s z) -> status_of s u = z.

  Lemma FS_ext : forall s s', FS s -> (forall z u, final z = true -> In u (progs s' z) -> In u (progs s z)) ->
    (forall u z, final z = true -> In u (progs s z) -> status_of s' u = status_of s u) -> FS s'.
  Proof. intros s s' H P S z u Hz Hu. rewrite (S u z Hz); auto. Qed.
  Lemma FS_status : forall s s' id v t p, SI s -> FS s -> nth_error (tasks s) t = Some p -> late p = [id] ->
    (forall z, progs s' z = progs s z) -> (forall u, status_of s' u = status_of (set_status s id v) u) -> FS s'.
  Proof.
    intros s s' id v t p (HP & _) H Ht Hl P S. apply (FS_ext s); auto.
    - intros z u _ Hu. rewrite P in Hu. exact Hu.
    - intros u z Hz Hu. rewrite S. apply status_other. intros ->.
      destruct (token_here s t p id Ht) as [_ HR]. rewrite Hl in HR. specialize (HR (or_introl eq_refl)).
      apply (i_r _ _ _ _ HP) in HR. pose proof (i_one _ _ _ _ HP _ _ _ Hu HR). subst. discriminate.
  Qed.
  Lemma FS_move : forall s s' id z, SI s -> FS s -> (forall y, progs s' y = move_to id z (progs s) y) ->
    (forall u, status_of s' u = status_of s u) -> (final z = true -> status_of s id = z) -> FS s'.
  Proof.
    intros s s' id z (HP & _) H P S Hf y u Hy Hu. rewrite P in Hu. rewrite S. rewrite move_In in Hu by apply (i_p _ _ _ _ HP).
    destruct Hu as [[Hu _]|[-> ->]]; auto.
  Qed.

  Lemma FS_pact : forall s a, SI s -> FS s -> FS (pact k s a).
  Proof.
    intros s a HI H.
    assert (Same : forall s', progs s' = progs s -> objs s' = objs s -> FS s').
    { intros s' P O. apply (FS_ext s); auto; [intros z u _; rewrite P; auto | intros; unfold status_of; rewrite O; reflexivity]. }
    assert (BK : forall s ids s' q, back k s ids = (s', q) -> progs s' = progs s /\ objs s' = objs s).
    { intros s1 ids s' q Hb. destruct (back_spec k _ _ _ _ Hb) as ([->| ->] & _); auto. }
    destruct a as [c|t|t b|t z|l|]; simpl.
    - unfold spawn. destruct c as [id e p|id p| |].
      + destruct (memb id (items s)) eqn:Em; [apply Same; reflexivity|].
        set (s2 := if dmem id (objs s) then _ else _).
        assert (Q : FS s2).
        { assert (P : forall z u, final z = true -> In u (progs s2 z) -> In u (progs s z)).
          { intros z u Hz. unfold s2. destruct (dmem id (objs s)); simpl; (destruct (eqb_spec z PENDING) as [->|]; [discriminate | auto]). }
          apply (FS_ext s); auto. intros u z Hz Hu. unfold s2, status_of. destruct (dmem id (objs s)); [reflexivity|]. simpl.
          rewrite dget_dset. destruct (eqb_spec u id) as [->|]; [|reflexivity]. exfalso.
          destruct HI as (HP & _). assert (In id (items s)) as Hc by (apply (i_mem _ _ _ _ HP); eauto). apply memb_In in Hc. congruence. }
        destruct (started s); [destruct (enq_check k s2 id p)|]; exact Q.
      + destruct (started s); [destruct (enq_check k s id p); apply Same; reflexivity | exact H].
      + destruct (started s); [apply Same; reflexivity|]. destruct (forallb _ _); [|apply Same; reflexivity].
        destruct (back k (w_started s) (progs s PENDING)) as [s2 q] eqn:Eb. destruct (BK _ _ _ _ Eb) as [A B]. simpl in A, B. apply Same; simpl; congruence.
      + destruct (started s); apply Same; reflexivity.
    - unfold step. destruct (nth_error (tasks s) t) as [p|] eqn:Ht; [|exact H].
      destruct p as [p id|p id rest|n|n p id|n id|n id|n p id|n|par id|par id mine|par id|par id| |e l]; try exact H.
      + destruct (back k (push s p id) rest) as [s2 q] eqn:Eb. destruct (BK _ _ _ _ Eb) as [A B]. simpl in A, B. apply Same; simpl; congruence.
      + destruct (heappop qlt (queue s)) as [[[p id] h]|]; [|exact H]. destruct (memb id (items s)); apply Same; reflexivity.
      + apply (FS_move s _ id PROCESSING); auto. discriminate.
      + apply (FS_move s _ id ABORTED); auto. discriminate.
      + destruct (existsb _ _); [exact H|]. destruct (0 <? n); apply Same; reflexivity.
      + destruct (sem s) as [|m]; [exact H|]. destruct (_ && _); [|apply Same; reflexivity].
        apply (FS_status s _ id PROCESSING t _ HI H Ht eq_refl).
        * intros z. unfold set_status. simpl. destruct (dget id (objs s)); reflexivity.
        * intros u. unfold set_status. simpl. destruct (dget id (objs s)); reflexivity.
      + apply (FS_move s _ id (status_of s id)); auto.
    - unfold grant. destruct (nth_error (tasks s) t) as [p|] eqn:Ht; [|exact H].
      destruct p as [p id|p id rest|n|n p id|n id|n id|n p id|n|par id|par id mine|par id|par id| |e l]; try exact H.
      destruct b; [|destruct (3 <=? _)]; apply Same; reflexivity.
    - unfold finish_ev. destruct (nth_error (tasks s) t) as [p|] eqn:Ht; [|exact H].
      destruct p as [p id|p id rest|n|n p id|n id|n id|n p id|n|par id|par id mine|par id|par id| |e l]; try exact H.
      assert (G : FS (set_task (set_status s id z) t (KUpd par id))).
      { apply (FS_status s _ id z t _ HI H Ht eq_refl); intros; unfold set_status; destruct (dget id (objs s)); reflexivity. }
      destruct (streaming s id); [exact G|]. destruct mine; [destruct z; auto|]. destruct (existsb _ _); [exact H|]. apply Same; reflexivity.
    - destruct (cleanup_sub l s 0) as [_ B]. destruct (cleanup_fields l s 0) as (_ & _ & _ & _ & A & _).
      apply (FS_ext s); [exact H | intros z u _; apply B | intros; unfold status_of; rewrite A; reflexivity].
    - destruct (started s); [apply Same; reflexivity | exact H].
  Qed.

  (** Every listed event exists. *)
  Definition OB (s : pst) : Prop := forall u, In u (items s) -> dmem u (objs s) = true.
  Lemma OB_ext : forall s s', OB s -> (forall u, In u (items s') -> In u (items s)) ->
    (forall u, dmem u (objs s) = true -> dmem u (objs s') = true) -> OB s'.
  Proof. intros s s' H A B u Hu. auto. Qed.
  Lemma OB_pact : forall s a, OB s -> OB (pact k s a).
  Proof.
    intros s a H.
    assert (Same : forall s', items s' = items s -> objs s' = objs s -> OB s').
    { intros s' A B. apply (OB_ext s); auto; rewrite ?A, ?B; auto. }
    assert (SetS : forall s1 s' id z, items s1 = items s -> objs s1 = objs s -> items s' = items (set_status s1 id z) -> objs s' = objs (set_status s1 id z) -> OB s').
    { intros s1 s' id z A1 B1 A B. apply (OB_ext s); auto.
      - intros u. rewrite A. destruct (set_status_fields s1 id z) as (F & _). rewrite F, A1. auto.
      - intros u. rewrite B, dmem_set, B1. auto. }
    assert (BK : forall s ids s' q, back k s ids = (s', q) -> items s' = items s /\ objs s' = objs s).
    { intros s1 ids s' q Hb. destruct (back_spec k _ _ _ _ Hb) as ([->| ->] & _); auto. }
    destruct a as [c|t|t b|t z|l|]; simpl.
    - unfold spawn. destruct c as [id e p|id p| |].
      + destruct (memb id (items s)) eqn:Em; [apply Same; reflexivity|].
        set (s2 := if dmem id (objs s) then _ else _).
        assert (Q : OB s2).
        { intros u. unfold s2. destruct (dmem id (objs s)) eqn:Ed; simpl; rewrite in_app_iff; simpl; intros [Hu|[<-|[]]]; auto.
          - unfold dmem. rewrite dget_dset. destruct (eqb u id); [reflexivity | apply H, Hu].
          - unfold dmem. rewrite dget_dset, eqb_refl. reflexivity. }
        destruct (started s); [destruct (enq_check k s2 id p)|]; exact Q.
      + destruct (started s); [destruct (enq_check k s id p); apply Same; reflexivity | exact H].
      + destruct (started s); [apply Same; reflexivity|]. destruct (forallb _ _); [|apply Same; reflexivity].
        destruct (back k (w_started s) (progs s PENDING)) as [s2 q] eqn:Eb. destruct (BK _ _ _ _ Eb) as [A B]. simpl in A, B. apply Same; simpl; congruence.
      + destruct (started s); apply Same; reflexivity.
    - unfold step. destruct (nth_error (tasks s) t) as [p|] eqn:Ht; [|exact H].
      destruct p as [p id|p id rest|n|n p id|n id|n id|n p id|n|par id|par id mine|par id|par id| |e l]; try exact H.
      + destruct (back k (push s p id) rest) as [s2 q] eqn:Eb. destruct (BK _ _ _ _ Eb) as [A B]. simpl in A, B. apply Same; simpl; congruence.
      + destruct (heappop qlt (queue s)) as [[[p id] h]|]; [|exact H]. destruct (memb id (items s)); apply Same; reflexivity.
      + destruct (existsb _ _); [exact H|]. destruct (0 <? n); apply Same; reflexivity.
      + destruct (sem s) as [|m]; [exact H|]. destruct (_ && _); [|apply Same; reflexivity].
        eapply (SetS (w_sem s m)); reflexivity.
    - unfold grant. destruct (nth_error (tasks s) t) as [p|] eqn:Ht; [|exact H].
      destruct p as [p id|p id rest|n|n p id|n id|n id|n p id|n|par id|par id mine|par id|par id| |e l]; try exact H.
      destruct b; [|destruct (3 <=? _)]; apply Same; reflexivity.
    - unfold finish_ev. destruct (nth_error (tasks s) t) as [p|] eqn:Ht; [|exact H].
      destruct p as [p id|p id rest|n|n p id|n id|n id|n p id|n|par id|par id mine|par id|par id| |e l]; try exact H.
      assert (G : OB (set_task (set_status s id z) t (KUpd par id))) by (eapply (SetS s); reflexivity).
      destruct (streaming s id); [exact G|]. destruct mine; [destruct z; auto|]. destruct (existsb _ _); [exact H|]. apply Same; reflexivity.
    - destruct (cleanup_sub l s 0) as (A & B). destruct (cleanup_fields l s 0) as (_ & _ & _ & _ & C & _).
      apply (OB_ext s); auto; rewrite ?C; auto.
    - destruct (started s); [apply Same; reflexivity | exact H].
  Qed.
  Lemma OB_iact : forall x a, OB (i_s x) -> OB (i_s (iact1 k x a)).
  Proof.
    intros x a H. set (s := i_s x) in *.
    assert (Same : forall s', items s' = items s -> objs s' = objs s -> OB s').
    { intros s' A B. apply (OB_ext s); auto; rewrite ?A, ?B; auto. }
    destruct a as [a|t|t|t z|t]; simpl.
    - destruct a as [c|t|t b|t z|l|]; [| |exact (OB_pact _ (Grant t b) H)|exact (OB_pact _ (Finish t z) H)
        |exact (OB_pact _ (Cleanup l) H)|exact (OB_pact _ Stop H)].
      + exact (OB_pact _ (Spawn c) H).
      + destruct (halted x t); [exact H | exact (OB_pact _ (Step t) H)].
    - unfold interrupt. fold s. destruct (nth_error (tasks s) t) as [[]|]; exact H.
    - unfold fail. fold s. destruct (nth_error (tasks s) t) as [[]|]; try exact H.
    - unfold break. fold s. destruct (nth_error (tasks s) t) as [p|] eqn:Ht; [|exact H].
      destruct p as [| | | | | | | | |par id mine| | | |]; try exact H.
      assert (SetS : forall s' v, items s' = items (set_status s id v) -> objs s' = objs (set_status s id v) -> OB s').
      { intros s' v A B. apply (OB_ext s); auto.
        - intros u. rewrite A. destruct (set_status_fields s id v) as (F & _). rewrite F. auto.
        - intros u. rewrite B, dmem_set. auto. }
      destruct (streaming s id); [eapply SetS; reflexivity|]. destruct mine; [|exact H]. simpl.
      destruct (is_cut x par); eapply (SetS _ CANCELLED); reflexivity.
    - unfold unwind. fold s. destruct (nth_error (tasks s) t) as [p|] eqn:Ht; [|exact H].
      destruct p as [| |n|n p id|n id|n id|n p id|n|par id|par id mine|par id| | |]; try exact H;
        try (destruct (is_cut x _); [|exact H]; apply Same; reflexivity).
      + destruct (cut x t) as [w|]; [|exact H]. destruct (existsb _ _); [exact H|]. simpl. unfold leave.
        destruct w; [destruct (0 <? n)| |]; apply Same; reflexivity.
      + destruct (_ && _); [|exact H]. apply Same; reflexivity.
  Qed.

  Lemma FS_iact : forall x a, SI (i_s x) -> OB (i_s x) -> FS (i_s x) -> FS (i_s (iact1 k x a)).
  Proof.
    intros x a HI HO H. set (s := i_s x) in *.
    assert (Same : forall s', progs s' = progs s -> objs s' = objs s -> FS s').
    { intros s' P O. apply (FS_ext s); auto; [intros z u _; rewrite P; auto | intros; unfold status_of; rewrite O; reflexivity]. }
    destruct a as [a|t|t|t z|t]; simpl.
    - destruct a as [c|t|t b|t z|l|]; [| |exact (FS_pact _ (Grant t b) HI H)|exact (FS_pact _ (Finish t z) HI H)
        |exact (FS_pact _ (Cleanup l) HI H)|exact (FS_pact _ Stop HI H)].
      + exact (FS_pact _ (Spawn c) HI H).
      + destruct (halted x t); [exact H | exact (FS_pact _ (Step t) HI H)].
    - unfold interrupt. fold s. destruct (nth_error (tasks s) t) as [[]|]; exact H.
    - unfold fail. fold s. destruct (nth_error (tasks s) t) as [[]|]; try exact H.
    - unfold break. fold s. destruct (nth_error (tasks s) t) as [p|] eqn:Ht; [|exact H].
      destruct p as [| | | | | | | | |par id mine| | | |]; try exact H.
      assert (GS : forall v c, FS (set_task (w_sem (set_status s id v) c) t (KDone par id))).
      { intros v c. apply (FS_status s _ id v t _ HI H Ht eq_refl); intros; unfold set_status; destruct (dget id (objs s)); reflexivity. }
      destruct (streaming s id); [apply GS|]. destruct mine; [|exact H]. simpl. destruct (is_cut x par); [apply GS|].
      intros y u Hy Hu. simpl in Hu. destruct (set_status_fields s id CANCELLED) as (_ & F2 & _). rewrite F2 in Hu.
      pose proof HI as (HP & _). rewrite move_In in Hu by apply (i_p _ _ _ _ HP).
      change (status_of (set_status s id CANCELLED) u = y). destruct Hu as [[Hu Hne]|[-> ->]].
      + rewrite status_other by exact Hne. auto.
      + unfold status_of, set_status. destruct (dget id (objs s)) as [e|] eqn:Eo.
        * simpl. rewrite dget_dset, eqb_refl. reflexivity.
        * exfalso. assert (Hc : dmem id (objs s) = true).
          { apply HO. apply (i_mem _ _ _ _ HP). exists PROCESSING. apply (i_r _ _ _ _ HP).
            apply (token_here s t _ id Ht). left; reflexivity. }
          unfold dmem in Hc. rewrite Eo in Hc. discriminate.
    - unfold unwind. fold s. destruct (nth_error (tasks s) t) as [p|] eqn:Ht; [|exact H].
      destruct p as [| |n|n p id|n id|n id|n p id|n|par id|par id mine|par id| | |]; try exact H;
        try (destruct (is_cut x _); [|exact H]; apply Same; reflexivity).
      + destruct (cut x t) as [w|]; [|exact H]. destruct (existsb _ _); [exact H|]. simpl. unfold leave.
        destruct w; [destruct (0 <? n)| |]; apply Same; reflexivity.
      + destruct (_ && _); [|exact H]. apply Same; reflexivity.
  Qed.

  Lemma FS_ireach : forall x, ireach k inormal x -> FS (i_s x).
  Proof.
    intros x Hr. assert (G : SI (i_s x) /\ OB (i_s x) /\ FS (i_s x)); [|apply G]. revert x Hr. apply ireach_inv.
    - split; [apply SI_0|]. split; [intros u []|]. intros z u _ [].
    - intros x a Ha (A & B & C). split; [apply SI_iact; auto|]. split; [apply OB_iact; auto | apply FS_iact; auto].
  Qed.
End Listed.
