(** Proofs about execute() over process() calls that may be cut short. *)
From Coq Require Import List Bool Arith ZArith Lia Permutation.
From Verif Require Import PyBase PyFacts ModelHeap SpecHeap ModelEvent ProofsEvent ModelProcessor SpecProcessor
  ProofsProcessor ProofsProcessorRun ProofsProcessorDeny ProofsProcessorCap ModelInterrupt SpecInterrupt ProofsInterrupt
  ProofsOutcome ModelExecuteCut.
Import ListNotations.
Local Open Scope nat_scope.
#[local] Arguments eqb : simpl never.

Definition result (v : why) : tpc :=
  match v with ByChild => ADone | ByCaller => AErr OtherErr [] | ByError => AErr ExceptionGroupErr [] end.

Section Mild.
  Variable k : cfg.

  (** Call [t] is under way, or over; at most as bad as [w]. *)
  Definition mild (w : why) (t : nat) (x : ist) : Prop := exists q, nth_error (tasks (i_s x)) t = Some q /\
    ((is_loop q = true /\ forall v, cut x t = Some v -> rank v <= rank w) \/
     (exists v, rank v <= rank w /\ q = result v)).

  Lemma cut_short_mild x t u c w : (forall v, cut x t = Some v -> rank v <= rank w) -> (u = t -> rank c <= rank w) ->
    forall v, dget t (cut_short x u c) = Some v -> rank v <= rank w.
  Proof.
    intros H C v. unfold cut_short. rewrite dget_dset. destruct (eqb_spec t u) as [<-|]; [|apply H].
    specialize (C eq_refl). intros [= <-]. destruct (cut x t) as [v|]; [|exact C]. specialize (H v eq_refl).
    unfold worse. destruct (rank v <? rank c); assumption.
  Qed.

  Lemma mild_step w t x a : (a = IInterrupt t -> rank ByCaller <= rank w) -> (a = IFail t -> rank ByError <= rank w) ->
    mild w t x -> mild w t (iact1 k x a).
  Proof.
    intros HI HF (q & Hq & HD).
    assert (Q : is_loop q = true \/ call_over q = true).
    { destruct HD as [[A _]|(v & _ & ->)]; [auto|]. right. destruct v; reflexivity. }
    assert (ZZ : mild w t x) by (exists q; auto).
    assert (Keep : forall y, nth_error (tasks (i_s y)) t = Some q -> i_cut y = i_cut x -> mild w t y).
    { intros y Hy C. exists q. split; [exact Hy|]. unfold cut in *. rewrite C. exact HD. }
    assert (KeepC : forall y u c, nth_error (tasks (i_s y)) t = Some q -> i_cut y = cut_short x u c ->
              (u = t -> rank c <= rank w) -> mild w t y).
    { intros y u c Hy C Hc. exists q. split; [exact Hy|]. destruct HD as [(L & Hv)|HD]; [|right; exact HD]. left. split; [exact L|].
      unfold cut. rewrite C. apply cut_short_mild; assumption. }
    assert (Pact : forall b, (forall u, b <> Step u) -> mild w t (put x (pact k (i_s x) b))).
    { intros b Hb. destruct (pact_other k (i_s x) b t q Hb Hq Q) as (q' & H1 & [->|[L1 L2]]).
      - apply Keep; [exact H1 | reflexivity].
      - exists q'. split; [exact H1|]. left. split; [exact L2|]. destruct HD as [[_ HD]|(v & _ & ->)]; [exact HD|]. destruct v; discriminate. }
    destruct a as [a|u|u|u st|u]; simpl.
    - destruct a as [c|u|u b|u y|l|]; [| |apply (Pact (Grant u b)); discriminate|apply (Pact (Finish u y)); discriminate
        |apply (Pact (Cleanup l)); discriminate|apply (Pact Stop); discriminate].
      + apply (Pact (Spawn c)); discriminate.
      + destruct (halted x u) eqn:Eh; [exact ZZ|].
        destruct (Nat.eq_dec u t) as [->|Hne]; [|apply Keep; [apply step_other; auto | reflexivity]].
        destruct HD as [(L & Hv)|(v & _ & ->)].
        * assert (LP : forall s' q', tasks s' = tasks (i_s x) -> is_loop q' = true -> mild w t (put x (set_task s' t q'))).
          { intros s' q' T L'. exists q'. split; [simpl; rewrite T, (nth_upd _ _ _ _ _ _ Hq), Nat.eqb_refl; reflexivity|]. left. split; [exact L' | exact Hv]. }
          unfold step. rewrite Hq. destruct q as [p id|p id rest|n|n p id|n id|n id|n p id|n|par id|par id mine|par id|par id| |e l]; try discriminate.
          -- destruct (heappop _ _) as [[[p id] h]|]; [|apply Keep; [exact Hq | reflexivity]].
             destruct (memb id _); apply LP; try reflexivity. apply top_loop.
          -- apply Keep; [exact Hq | reflexivity].
          -- destruct (LP (w_avail (w_progs (i_s x) (move_to id PROCESSING (progs (i_s x)))) (avail (i_s x) - 1)%Z)
               (top (w_avail (w_progs (i_s x) (move_to id PROCESSING (progs (i_s x)))) (avail (i_s x) - 1)%Z) (S n)) eq_refl (top_loop _ _)) as (q' & H1 & H2).
             exists q'. split; [|exact H2]. simpl. apply nth_app_keep. exact H1.
          -- apply LP; reflexivity.
          -- apply LP; reflexivity.
          -- destruct (existsb _ _); [apply Keep; [exact Hq | reflexivity]|].
             exists ADone. split; [destruct (0 <? n); simpl; rewrite (nth_upd _ _ _ _ _ _ Hq), Nat.eqb_refl; reflexivity|].
             right. exists ByChild. split; [simpl; lia | reflexivity].
        * apply Keep; [|reflexivity]. simpl. unfold step. rewrite Hq. destruct v; exact Hq.
    - unfold interrupt. destruct (nth_error (tasks (i_s x)) u) as [[]|] eqn:Hu; try exact ZZ;
        (eapply KeepC; [exact Hq | reflexivity|]; intros ->; apply HI; reflexivity).
    - unfold fail. destruct (nth_error (tasks (i_s x)) u) as [p|] eqn:Hu; [|exact ZZ].
      destruct p as [| | |n p id| | | | | | | | | |]; try exact ZZ.
      destruct (Nat.eq_dec u t) as [->|Hne].
      + exists (LJoin n). split; [simpl; rewrite (nth_upd _ _ _ _ _ _ Hu), Nat.eqb_refl; reflexivity|]. left. split; [reflexivity|].
        rewrite Hq in Hu. injection Hu as ->. destruct HD as [(L & Hv)|(v & _ & E)]; [|destruct v; discriminate].
        intros v. unfold cut. simpl. apply cut_short_mild; auto.
      + eapply KeepC; [|reflexivity|congruence]. eapply keeps_other; eauto; reflexivity.
    - unfold break. destruct (nth_error (tasks (i_s x)) u) as [p|] eqn:Hu; [|exact ZZ].
      destruct p as [| | | | | | | | |par id mine| | | |]; try exact ZZ.
      assert (Hne : u <> t) by (intros ->; rewrite Hu in Hq; injection Hq as <-; destruct Q; discriminate).
      assert (G : forall v, tasks (set_status (i_s x) id v) = tasks (i_s x)) by (intros v; apply (set_status_fields (i_s x) id v)).
      destruct (streaming _ _); [|destruct mine; [|exact ZZ]]; (eapply KeepC; [|reflexivity|simpl; lia]);
        cbn [i_s]; (eapply keeps_other; [|exact Hu | exact Hne | exact Hq]); [apply G|]. destruct (is_cut x par); apply G.
    - unfold unwind. destruct (nth_error (tasks (i_s x)) u) as [p|] eqn:Hu; [|exact ZZ].
      destruct (Nat.eq_dec u t) as [->|Hne].
      + rewrite Hq in Hu. injection Hu as ->. destruct HD as [(L & Hv)|(v & Hr & ->)]; [|destruct v; exact ZZ].
        destruct p as [| |n|n p id|n id|n id|n p id|n|par id|par id mine|par id| | |]; try discriminate;
          try (destruct (is_cut x t); [|exact ZZ]; exists (LJoin n); split; [simpl; rewrite (nth_upd _ _ _ _ _ _ Hq), Nat.eqb_refl; reflexivity|]; left; split; [reflexivity | exact Hv]).
        destruct (cut x t) as [v|] eqn:C; [|exact ZZ]. destruct (existsb _ _); [exact ZZ|].
        exists (result v). split; [|right; exists v; split; [apply Hv; reflexivity | reflexivity]].
        unfold leave. destruct v; [destruct (0 <? n)| |]; simpl; rewrite (nth_upd _ _ _ _ _ _ Hq), Nat.eqb_refl; reflexivity.
      + assert (O : forall s' p', tasks s' = tasks (i_s x) -> nth_error (tasks (set_task s' u p')) t = Some q).
        { intros s' p' T. eapply keeps_other; eauto. }
        destruct p as [| |n|n p id|n id|n id|n p id|n|par id|par id mine|par id| | |]; try exact ZZ;
          try (destruct (is_cut x _); [|exact ZZ]; apply Keep; [apply O; reflexivity | reflexivity]).
        * destruct (cut x u) as [v|]; [|exact ZZ]. destruct (existsb _ _); [exact ZZ|]. apply Keep; [|reflexivity]. simpl. unfold leave.
          destruct v; [destruct (0 <? n)| |]; apply O; reflexivity.
        * destruct (_ && _); [|exact ZZ]. apply Keep; [apply O; reflexivity | reflexivity].
  Qed.

  (** The list of tasks only grows, and only calls that exist are cut short. *)
  Lemma ik_length s s' : ik k s s' -> length (tasks s) <= length (tasks s').
  Proof.
    intros [[T V|p T V Lp Sp|T V|t p p' Ht T V L1 L2 Sb _|t p p' Ht T V L1 L2 Lc Ac|t n id p' Ht T V L1 Lc Ac|t n Ht T V _]|t n e Ht T V Ex];
      rewrite T, ?app_length, ?upd_length; simpl; lia.
  Qed.

  Definition known (x : ist) : Prop := joined (i_s x) /\ forall t v, cut x t = Some v -> t < length (tasks (i_s x)).
  Lemma known_step x a : known x -> known (iact1 k x a).
  Proof.
    intros [J C]. pose proof (ik_step k x a) as K. split; [eapply joined_istep; eauto|].
    pose proof (ik_length _ _ K) as L.
    assert (S : forall t u w v, u < length (tasks (i_s x)) -> dget t (cut_short x u w) = Some v -> t < length (tasks (i_s x))).
    { intros t u w v Hu. unfold cut_short. rewrite dget_dset. destruct (eqb_spec t u) as [->|]; [auto|apply C]. }
    assert (N : forall u p, nth_error (tasks (i_s x)) u = Some p -> u < length (tasks (i_s x))).
    { intros u p H. apply nth_error_Some. congruence. }
    intros t v H. apply (Nat.lt_le_trans _ (length (tasks (i_s x)))); [|exact L]. clear L K. revert H.
    destruct a as [a|u|u|u st|u]; simpl.
    - destruct a; try apply C. destruct (halted x t0); apply C.
    - unfold interrupt. destruct (nth_error (tasks (i_s x)) u) as [p|] eqn:Hu; [|apply C].
      destruct p; try apply C; unfold cut; simpl; eapply S; eauto.
    - unfold fail. destruct (nth_error (tasks (i_s x)) u) as [p|] eqn:Hu; [|apply C].
      destruct p; try apply C; unfold cut; simpl; eapply S; eauto.
    - unfold break. destruct (nth_error (tasks (i_s x)) u) as [p|] eqn:Hu; [|apply C].
      destruct p as [| | | | | | | | |par id mine| | | |]; try apply C.
      destruct (J par (KRun par id mine) (nth_error_In _ _ Hu)) as (q & Hp & _); [simpl; apply Nat.eqb_refl|].
      destruct (streaming _ _); [|destruct mine; [|apply C]]; unfold cut; simpl; eapply S; eauto.
    - unfold unwind. destruct (nth_error (tasks (i_s x)) u) as [p|]; [|apply C].
      destruct p; try apply C; try (destruct (is_cut x _); apply C).
      + destruct (cut x u); [|apply C]. destruct (existsb _ _); apply C.
      + destruct (_ && _); apply C.
  Qed.

  (** *** What an action on execute() does underneath *)
  Definition under (x : yst) (a : yact) : list iact :=
    match a with
    | YDo (IInterrupt t) => if awaited t (y_loops x) then [] else [IInterrupt t]
    | YDo a => [a]
    | YExecute => []
    | YLoop i =>
        match nth_error (y_loops x) i with
        | Some YNew => [IDo (Spawn CStart)]
        | Some YCheck => if stopped (i_s (y_i x)) then [] else [IDo (Spawn CForward)]
        | _ => []
        end
    | YCancel i =>
        match nth_error (y_loops x) i with
        | Some (YWait t) =>
            match nth_error (tasks (i_s (y_i x))) t with Some ADone | Some (AErr _ _) => [] | _ => [IInterrupt t] end
        | _ => []
        end
    end.
  Lemma under_ok x a : y_i (yact1 k x a) = irun k (y_i x) (under x a).
  Proof.
    destruct a as [a| |i|i].
    - destruct a; try reflexivity. cbn [yact1 under]. destruct (awaited t (y_loops x)); reflexivity.
    - simpl. destruct (started _); reflexivity.
    - simpl. unfold ystep. destruct (nth_error (y_loops x) i) as [q|]; [|reflexivity]. destruct q; try reflexivity.
      + destruct (stopped _); reflexivity.
      + destruct (nth_error _ _) as [[]|]; reflexivity.
    - simpl. unfold ycancel. destruct (nth_error (y_loops x) i) as [q|]; [|reflexivity]. destruct q; try reflexivity.
      destruct (nth_error _ _) as [[]|]; reflexivity.
  Qed.

  Lemma known_run l : forall x, known x -> known (irun k x l).
  Proof. induction l as [|a l IH]; intros x H; [exact H|]. apply IH, known_step, H. Qed.
  Lemma known_y l : forall x, known (y_i x) -> known (y_i (yrun k x l)).
  Proof.
    induction l as [|a l IH]; intros x H; [exact H|]. apply (IH (yact1 k x a)). rewrite under_ok. apply known_run, H.
  Qed.
  Lemma known_0 : known (ist0 k).
  Proof. split; [intros t p [] | intros t v; discriminate]. Qed.

  Lemma upd_nth A (l : list A) i j x q : nth_error (upd i x l) j = Some q -> (j = i /\ q = x) \/ (j <> i /\ nth_error l j = Some q).
  Proof.
    revert l j. induction i as [|i IH]; intros [|y l] [|j]; simpl; intros H; try discriminate.
    - injection H as <-. auto.
    - right. split; [discriminate | exact H].
    - right. split; [discriminate | exact H].
    - destruct (IH l j H) as [[-> ->]|[N E]]; auto.
  Qed.

  (** Every call that an execute() is in is a process() call. *)
  Definition calls (w : why) (x : yst) : Prop := forall i t, nth_error (y_loops x) i = Some (YWait t) -> mild w t (y_i x).

  Definition gentle (a : yact) : Prop :=
    match a with YCancel _ | YDo (IFail _) => False | _ => True end.

  Lemma calls_step w x a : (w = ByError \/ gentle a) -> known (y_i x) -> calls w x -> calls w (yact1 k x a).
  Proof.
    intros W K H.
    assert (OLD : forall i t, nth_error (y_loops x) i = Some (YWait t) -> mild w t (y_i (yact1 k x a))).
    { intros i t E. rewrite under_ok. specialize (H i t E).
      assert (M : forall b, under x a = [b] -> b <> IInterrupt t \/ w = ByError -> b <> IFail t \/ w = ByError -> mild w t (irun k (y_i x) [b])).
      { intros b _ B1 B2. simpl. apply mild_step; [| |exact H].
        - intros ->. destruct B1 as [B1 | ->]; [congruence | simpl; lia].
        - intros ->. destruct B2 as [B2 | ->]; [congruence | simpl; lia]. }
      destruct (under x a) as [|b [|c l]] eqn:U.
      - exact H.
      - apply (M b eq_refl).
        + destruct W as [->|G]; [auto|]. left. intros ->. destruct a as [a| |j|j]; simpl in *; try discriminate; try contradiction.
          * destruct a; try discriminate. destruct (awaited _ _) eqn:A; [discriminate|]. injection U as ->.
            unfold awaited in A. apply nth_error_In in E.
            assert (X : existsb (fun q => match q with YWait u => u =? t | _ => false end) (y_loops x) = true)
              by (apply existsb_exists; exists (YWait t); split; [exact E | apply Nat.eqb_refl]). congruence.
          * destruct (nth_error (y_loops x) j) as [[]|]; try discriminate. destruct (stopped (i_s (y_i x))); discriminate.
        + destruct W as [->|G]; [auto|]. left. intros ->. destruct a as [a| |j|j]; simpl in *; try discriminate; try contradiction.
          * destruct a; try discriminate; try contradiction. destruct (awaited _ _); discriminate.
          * destruct (nth_error (y_loops x) j) as [[]|]; try discriminate. destruct (stopped (i_s (y_i x))); discriminate.
      - exfalso. destruct a as [a| |j|j]; simpl in U; try discriminate.
        + destruct a; try discriminate. destruct (awaited _ _); discriminate.
        + destruct (nth_error (y_loops x) j) as [[]|]; try discriminate. destruct (stopped (i_s (y_i x))); discriminate.
        + destruct (nth_error (y_loops x) j) as [q|]; try discriminate. destruct q as [| |u| | |e]; try discriminate.
          destruct (nth_error (tasks (i_s (y_i x))) u) as [[]|]; discriminate. }
    intros i t E. destruct a as [a| |j|j].
    - apply (OLD i). destruct a; try exact E. simpl in E. destruct (awaited _ _); exact E.
    - apply (OLD i). simpl in E. destruct (started _); [|exact E]. simpl in E.
      destruct (Nat.lt_ge_cases i (length (y_loops x))) as [L|L].
      + rewrite nth_error_app1 in E by exact L. exact E.
      + rewrite nth_error_app2 in E by exact L. destruct (i - length (y_loops x)) as [|m]; [discriminate|]. destruct m; discriminate.
    - simpl in E. unfold ystep in E. destruct (nth_error (y_loops x) j) as [q|] eqn:Hj; [|apply (OLD i); exact E].
      destruct q as [| |u| | |e]; try (apply (OLD i); exact E).
      + apply upd_nth in E. destruct E as [[_ E]|[_ E]]; [discriminate | apply (OLD i); exact E].
      + destruct (stopped (i_s (y_i x))) eqn:S.
        * apply upd_nth in E. destruct E as [[_ E]|[_ E]]; [discriminate | apply (OLD i); exact E].
        * apply upd_nth in E. destruct E as [[_ E]|[_ E]]; [|apply (OLD i); exact E]. injection E as ->.
          simpl. unfold ystep. rewrite Hj, S. simpl. unfold mild. simpl.
          destruct (started (i_s (y_i x))); simpl; rewrite nth_error_app2, Nat.sub_diag by lia; simpl; eexists; (split; [reflexivity|]).
          -- left. split; [apply top_loop|]. intros v C. exfalso. apply (proj2 K) in C. lia.
          -- right. exists ByChild. split; [simpl; lia | reflexivity].
      + destruct (nth_error (tasks (i_s (y_i x))) u) as [p|] eqn:Hu; [|apply (OLD i); exact E].
        destruct p; try (apply (OLD i); exact E);
          (apply upd_nth in E; destruct E as [[_ E]|[_ E]]; [discriminate | apply (OLD i); exact E]).
      + apply upd_nth in E. destruct E as [[_ E]|[_ E]]; [discriminate | apply (OLD i); exact E].
    - simpl in E. unfold ycancel in E. destruct (nth_error (y_loops x) j) as [q|] eqn:Hj; [|apply (OLD i); exact E].
      destruct q as [| |u| | |e]; try (apply (OLD i); exact E);
        try (apply upd_nth in E; destruct E as [[_ E]|[_ E]]; [discriminate | apply (OLD i); exact E]).
      destruct (nth_error (tasks (i_s (y_i x))) u) as [p|] eqn:Hu; [|apply (OLD i); exact E].
      destruct p; try (apply (OLD i); exact E).
      apply upd_nth in E; destruct E as [[_ E]|[_ E]]; [discriminate | apply (OLD i); exact E].
  Qed.

  Lemma calls_run w l : Forall (fun a => w = ByError \/ gentle a) l -> forall x, known (y_i x) -> calls w x -> calls w (yrun k x l).
  Proof.
    induction 1 as [|a l Ha Hl IH]; intros x K H; [exact H|]. apply (IH (yact1 k x a)).
    - rewrite under_ok. apply known_run, K.
    - apply calls_step; assumption.
  Qed.
  Lemma calls_0 w : calls w (yst0 k).
  Proof. intros [|i] t; discriminate. Qed.
End Mild.
