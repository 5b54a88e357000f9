(** C117: execute() when it is cancelled or when process() raises in it. *)
From Coq Require Import List Bool Arith ZArith Lia Permutation.
From Verif Require Import PyBase PyFacts ModelHeap SpecHeap ProofsHeap ModelEvent ProofsEvent ModelProcessor SpecProcessor
  ProofsProcessor ProofsProcessorRun ProofsProcessorDeny ProofsProcessorCap ModelInterrupt SpecInterrupt ProofsInterrupt
  ProofsOutcome PropertiesInterrupt ModelExecuteCut ProofsExecuteCut.
From Verif Require PropertiesExecute.
Import ListNotations.
Local Open Scope nat_scope.
#[local] Arguments eqb : simpl never.

(** *** Specification *)
Definition ylive (q : ypc) : bool := match q with YDone | YErr _ => false | _ => true end.
Definition yreach (k : cfg) (x : yst) : Prop := exists l, x = yrun k (yst0 k) l.
Definition calls_execute (a : yact) : bool := match a with YExecute => true | _ => false end.
(** A cancellation of an execute(), or a request_permission that raises. *)
Definition harm (a : yact) : bool := match a with YCancel _ | YDo (IFail _) => true | _ => false end.
(** execute() or forward() is called. *)
Definition begins (a : yact) : bool := match a with YExecute | YDo (IDo (Spawn CForward)) => true | _ => false end.

(** No event runs and no process() call is under way. *)
Definition at_rest (x : yst) : Prop :=
  (forall q, In q (y_loops x) -> ylive q = false) /\
  forall p, In p (tasks (i_s (y_i x))) -> is_loop p = false /\ late p = [].

(** *** Proofs *)
Lemma reach_known k x : yreach k x -> known (y_i x).
Proof. intros (l & ->). apply known_y, known_0. Qed.
Lemma reach_calls k x : yreach k x -> calls ByError x.
Proof.
  intros (l & ->). apply calls_run; [|apply known_0|apply calls_0]. apply Forall_forall. auto.
Qed.

(** How a call of execute() ends: it returns only when stop() was called, and
    switches execution_mode off; it raises only the cancellation or the exception
    group of process(), and changes nothing else then. *)
Theorem C117_ends k x a i q q' : yreach k x ->
  nth_error (y_loops x) i = Some q -> ylive q = true ->
  nth_error (y_loops (yact1 k x a)) i = Some q' -> ylive q' = false ->
  (q' = YDone /\ a = YLoop i /\ stopped (i_s (y_i x)) = true /\ y_mode (yact1 k x a) = false /\ y_i (yact1 k x a) = y_i x) \/
  (exists e, q' = YErr e /\ (e = OtherErr \/ e = ExceptionGroupErr) /\ (a = YLoop i \/ a = YCancel i) /\
     y_mode (yact1 k x a) = y_mode x /\ y_i (yact1 k x a) = y_i x).
Proof.
  intros R Hq Lq Hq' Lq'. pose proof (reach_calls k x R) as C.
  assert (SAME : nth_error (y_loops x) i = Some q' -> False) by (intros E; rewrite Hq in E; injection E as ->; congruence).
  destruct a as [a| |j|j].
  - exfalso. apply SAME. destruct a; try exact Hq'. simpl in Hq'. destruct (awaited _ _); exact Hq'.
  - exfalso. simpl in Hq'. destruct (started _); [|auto]. apply SAME. simpl in Hq'.
    assert (i < length (y_loops x)) by (apply nth_error_Some; congruence). rewrite nth_error_app1 in Hq' by assumption. exact Hq'.
  - simpl in *. unfold ystep in *. destruct (nth_error (y_loops x) j) as [r|] eqn:Hj; [|destruct (SAME Hq')].
    destruct r as [| |t| | |e]; try (destruct (SAME Hq')).
    + apply upd_nth in Hq'. destruct Hq' as [[_ ->]|[_ E]]; [discriminate | destruct (SAME E)].
    + destruct (stopped (i_s (y_i x))) eqn:S.
      * apply upd_nth in Hq'. destruct Hq' as [[-> ->]|[_ E]]; [|destruct (SAME E)]. left. auto.
      * apply upd_nth in Hq'. destruct Hq' as [[_ ->]|[_ E]]; [discriminate | destruct (SAME E)].
    + destruct (C j t Hj) as (p & Hp & D). rewrite Hp in *. destruct D as [[L _]|(v & _ & ->)].
      * destruct p; try discriminate; destruct (SAME Hq').
      * destruct v; simpl in *; (apply upd_nth in Hq'; destruct Hq' as [[-> ->]|[_ E]]; [|destruct (SAME E)]); [discriminate| |];
          right; eexists; (split; [reflexivity|]); auto.
    + apply upd_nth in Hq'. destruct Hq' as [[_ ->]|[_ E]]; [discriminate | destruct (SAME E)].
  - simpl in *. unfold ycancel in *. destruct (nth_error (y_loops x) j) as [r|] eqn:Hj; [|destruct (SAME Hq')].
    destruct r as [| |t| | |e]; try (destruct (SAME Hq'));
      try (apply upd_nth in Hq'; destruct Hq' as [[-> ->]|[_ E]]; [right; exists OtherErr; auto 6 | destruct (SAME E)]).
    destruct (nth_error (tasks (i_s (y_i x))) t) as [p|]; [|destruct (SAME Hq')].
    destruct p; try (destruct (SAME Hq')).
    apply upd_nth in Hq'; destruct Hq' as [[-> ->]|[_ E]]; [right; exists OtherErr; auto 6 | destruct (SAME E)].
Qed.
Print Assumptions C117_ends.

(** Nothing but stop() makes is_stopped() true, so no loop ends itself. *)
Lemma flag_iact k x a : stopped (i_s x) = false -> a <> IDo Stop -> stopped (i_s (iact1 k x a)) = false.
Proof.
  intros H N. assert (P : forall b, b <> Stop -> stopped (pact k (i_s x) b) = false).
  { intros b. apply PropertiesExecute.pact_flag_false, H. }
  destruct a as [a|t|t|t st|t]; simpl.
  - destruct a as [c|t|t b|t y|l|]; try (apply P; discriminate); [|congruence]. destruct (halted x t); [exact H | apply (P (Step t)); discriminate].
  - unfold interrupt. destruct (nth_error _ _) as [[]|]; exact H.
  - unfold fail. destruct (nth_error _ _) as [[]|]; exact H.
  - unfold break. destruct (nth_error _ _) as [[]|]; try exact H.
    assert (G : forall v, stopped (set_status (i_s x) id v) = stopped (i_s x)) by (intros v; apply (PropertiesExecute.set_status_same (i_s x) id v)).
    destruct (streaming _ _); [simpl; rewrite G; exact H|]. destruct mine; [|exact H]. destruct (is_cut x par); simpl; rewrite G; exact H.
  - unfold unwind. destruct (nth_error _ _) as [[]|]; try exact H; try (destruct (is_cut x _); exact H).
    + destruct (cut x t) as [w|]; [|exact H]. destruct (existsb _ _); [exact H|]. unfold leave. destruct w; [destruct (0 <? n)| |]; exact H.
    + destruct (_ && _); exact H.
Qed.
Theorem C117_flag k x a : stopped (i_s (y_i x)) = false -> stopped (i_s (y_i (yact1 k x a))) = true -> a = YDo (IDo Stop).
Proof.
  intros H1 H2. rewrite under_ok in H2.
  destruct a as [a| |i|i].
  - destruct (match a with IDo Stop => true | _ => false end) eqn:E; [destruct a as [[]| | | |]; try discriminate; reflexivity|].
    assert (N : a <> IDo Stop) by (intros ->; discriminate).
    assert (G : under x (YDo a) = [a] \/ under x (YDo a) = []) by (destruct a; simpl; auto; destruct (awaited _ _); auto).
    destruct G as [G|G]; rewrite G in H2; simpl in H2; [rewrite flag_iact in H2 by assumption|]; congruence.
  - simpl in H2. congruence.
  - assert (G : forall b, In b (under x (YLoop i)) -> b <> IDo Stop) by
      (simpl; destruct (nth_error (y_loops x) i) as [[]|]; simpl; try (destruct (stopped _)); simpl; intros b Hb; repeat destruct Hb as [<-|Hb]; try discriminate; try contradiction).
    exfalso. revert G H1 H2. generalize (y_i x). induction (under x (YLoop i)) as [|b m IH]; intros z G H1 H2; simpl in H2; [congruence|].
    apply (IH (iact1 k z b)); [intros c Hc; apply G; right; exact Hc| |exact H2]. apply flag_iact; [exact H1 | apply G; left; reflexivity].
  - assert (G : forall b, In b (under x (YCancel i)) -> b <> IDo Stop) by
      (simpl; destruct (nth_error (y_loops x) i) as [[]|]; simpl; try (destruct (nth_error _ _) as [[]|]); simpl; intros b Hb; repeat destruct Hb as [<-|Hb]; try discriminate; try contradiction).
    exfalso. revert G H1 H2. generalize (y_i x). induction (under x (YCancel i)) as [|b m IH]; intros z G H1 H2; simpl in H2; [congruence|].
    apply (IH (iact1 k z b)); [intros c Hc; apply G; right; exact Hc| |exact H2]. apply flag_iact; [exact H1 | apply G; left; reflexivity].
Qed.
Print Assumptions C117_flag.

(** Nothing else makes it raise: without a cancellation of execute() and without a
    failing request_permission it does not, whatever the operations do. *)
Theorem C117_survives k l : Forall (fun a => harm a = false) l ->
  forall e, ~ In (YErr e) (y_loops (yrun k (yst0 k) l)).
Proof.
  intros H.
  assert (G : forall x, known (y_i x) -> calls ByChild x -> (forall e, ~ In (YErr e) (y_loops x)) ->
            forall e, ~ In (YErr e) (y_loops (yrun k x l))).
  { induction H as [|a l Ha Hl IH]; intros x K C N; [exact N|]. apply (IH (yact1 k x a)).
    - rewrite under_ok. apply known_run, K.
    - apply calls_step; [|exact K|exact C]. right. destruct a as [[]| | |]; simpl; try exact I; discriminate.
    - intros e I. destruct a as [a| |i|i]; try discriminate.
      + apply (N e). destruct a; try exact I. simpl in I. destruct (awaited _ _); exact I.
      + simpl in I. destruct (started _); [|apply (N e I)]. simpl in I. apply in_app_or in I.
        destruct I as [I|[I|[]]]; [apply (N e I) | discriminate].
      + simpl in I. unfold ystep in I. destruct (nth_error (y_loops x) i) as [q|] eqn:Hi; [|apply (N e I)].
        destruct q as [| |t| | |e']; try (apply (N e I)).
        * apply In_upd in I. destruct I as [I|I]; [discriminate | apply (N e I)].
        * destruct (stopped _); (apply In_upd in I; destruct I as [I|I]; [discriminate | apply (N e I)]).
        * destruct (C i t Hi) as (p & Hp & D). rewrite Hp in I. destruct D as [[L _]|(v & Hv & ->)].
          -- destruct p; try discriminate; apply (N e I).
          -- destruct v; simpl in Hv; try lia. simpl in I. apply In_upd in I. destruct I as [I|I]; [discriminate | apply (N e I)].
        * apply In_upd in I. destruct I as [I|I]; [discriminate | apply (N e I)]. }
  apply G; [apply known_0 | apply calls_0 | intros e []].
Qed.
Print Assumptions C117_survives.

(** A call that is bound to raise. *)
Definition bound (w : why) (i t : nat) (x : yst) : Prop :=
  (nth_error (y_loops x) i = Some (YWait t) /\ doomed w t (y_i x)) \/
  (exists e v, nth_error (y_loops x) i = Some (YErr e) /\ rank w <= rank v /\ result v = AErr e []).

Lemma doomed_list k l : forall w t x, doomed w t x -> doomed w t (irun k x l).
Proof. intros w t x. apply doomed_run. Qed.

Lemma bound_step k w i t x a : 1 <= rank w -> bound w i t x -> bound w i t (yact1 k x a).
Proof.
  intros W [[Hi D]|(e & v & Hi & Hv & E)].
  - assert (D' : doomed w t (y_i (yact1 k x a))) by (rewrite under_ok; apply doomed_list, D).
    destruct a as [a| |j|j].
    + left. split; [|exact D']. destruct a; try exact Hi. simpl. destruct (awaited _ _); exact Hi.
    + left. split; [|exact D']. simpl. destruct (started _); [|exact Hi]. simpl. rewrite nth_error_app1; [exact Hi|].
      apply nth_error_Some. congruence.
    + destruct (Nat.eq_dec j i) as [->|N].
      * destruct D as (q & Hq & D). simpl in *. unfold ystep in *. rewrite Hi in *. rewrite Hq in *. destruct D as [(L & _)|(v & Hv & ->)].
        -- destruct q; try discriminate; (left; split; [exact Hi | exact D']).
        -- destruct v; simpl in Hv; [lia| |]; right; eexists; [exists ByCaller | exists ByError]; simpl;
             rewrite (nth_upd _ _ _ _ _ _ Hi), Nat.eqb_refl; split; try reflexivity; split; try exact Hv; reflexivity.
      * left. split; [|exact D']. simpl. unfold ystep.
        assert (U : forall r q, nth_error (y_loops x) j = Some q -> nth_error (upd j r (y_loops x)) i = Some (YWait t)).
        { intros r q Hj. rewrite (nth_upd _ _ _ _ _ _ Hj). destruct (Nat.eqb_spec i j); [congruence | exact Hi]. }
        destruct (nth_error (y_loops x) j) as [q|] eqn:Hj; [|exact Hi]. destruct q as [| |u| | |e]; try exact Hi; try (eapply U; reflexivity).
        -- destruct (stopped _); eapply U; reflexivity.
        -- destruct (nth_error _ u) as [[]|]; try exact Hi; eapply U; reflexivity.
    + destruct (Nat.eq_dec j i) as [->|N].
      * destruct D as (q & Hq & D). left. split; [|exact D']. simpl. unfold ycancel. rewrite Hi, Hq. destruct D as [(L & _)|(v & Hv & ->)].
        -- destruct q; try discriminate; exact Hi.
        -- destruct v; simpl in Hv; [lia| |]; exact Hi.
      * left. split; [|exact D']. simpl. unfold ycancel.
        assert (U : forall r q, nth_error (y_loops x) j = Some q -> nth_error (upd j r (y_loops x)) i = Some (YWait t)).
        { intros r q Hj. rewrite (nth_upd _ _ _ _ _ _ Hj). destruct (Nat.eqb_spec i j); [congruence | exact Hi]. }
        destruct (nth_error (y_loops x) j) as [q|] eqn:Hj; [|exact Hi]. destruct q as [| |u| | |e]; try exact Hi; try (eapply U; reflexivity).
        destruct (nth_error _ u) as [[]|]; try exact Hi; eapply U; reflexivity.
  - right. exists e, v. split; [|auto].
    assert (U : forall j r q, nth_error (y_loops x) j = Some q -> ylive q = true -> nth_error (upd j r (y_loops x)) i = Some (YErr e)).
    { intros j r q Hj L. rewrite (nth_upd _ _ _ _ _ _ Hj). destruct (Nat.eqb_spec i j) as [->|]; [|exact Hi].
      rewrite Hi in Hj. injection Hj as <-. discriminate. }
    destruct a as [a| |j|j].
    + destruct a; try exact Hi. simpl. destruct (awaited _ _); exact Hi.
    + simpl. destruct (started _); [|exact Hi]. simpl. rewrite nth_error_app1; [exact Hi|]. apply nth_error_Some. congruence.
    + simpl. unfold ystep. destruct (nth_error (y_loops x) j) as [q|] eqn:Hj; [|exact Hi].
      destruct q as [| |u| | |e']; try exact Hi; try (eapply U; [exact Hj | reflexivity]).
      * destruct (stopped _); eapply U; eauto.
      * destruct (nth_error _ u) as [[]|]; try exact Hi; eapply U; eauto.
    + simpl. unfold ycancel. destruct (nth_error (y_loops x) j) as [q|] eqn:Hj; [|exact Hi].
      destruct q as [| |u| | |e']; try exact Hi; try (eapply U; [exact Hj | reflexivity]).
      destruct (nth_error _ u) as [[]|]; try exact Hi; eapply U; eauto.
Qed.

Lemma bound_run k l : forall w i t x, 1 <= rank w -> bound w i t x -> bound w i t (yrun k x l).
Proof.
  induction l as [|a l IH]; intros w i t x W B; [exact B|]. apply (IH w i t (yact1 k x a) W). apply bound_step; assumption.
Qed.

(** While it is in process(), a cancelled execute() begins no other process() and
    can only raise; so does one in which request_permission raises, and then it is
    the exception group.  It can always get there without waiting for anybody. *)
Theorem C117_cut_short k x i t p a l : nth_error (y_loops x) i = Some (YWait t) ->
  nth_error (tasks (i_s (y_i x))) t = Some p -> is_loop p = true ->
  a = YCancel i \/ (a = YDo (IFail t) /\ exists n z u, p = LPerm n z u) ->
  let y := yrun k (yact1 k x a) l in
  (nth_error (y_loops y) i = Some (YWait t) \/ nth_error (y_loops y) i = Some (YErr ExceptionGroupErr) \/
   (a = YCancel i /\ nth_error (y_loops y) i = Some (YErr OtherErr))) /\
  exists l' e, Forall (fun b => match b with YDo (IUnwind _) | YDo (IBreak _ _) => True | _ => b = YLoop i end) l' /\
    nth_error (y_loops (yrun k y l')) i = Some (YErr e).
Proof.
  intros Hi Hp L Ha y.
  assert (R : forall w, exists v, dget t (cut_short (y_i x) t w) = Some v /\ rank w <= rank v).
  { intros w. unfold cut_short. rewrite dget_dset, eqb_refl. eexists. split; [reflexivity|].
    destruct (cut (y_i x) t) as [v|]; [|lia]. unfold worse. destruct (rank v <? rank w) eqn:E; [lia|]. apply Nat.ltb_ge in E. exact E. }
  assert (B : exists w, bound w i t (yact1 k x a) /\ 1 <= rank w /\ (a <> YCancel i -> w = ByError)).
  { destruct Ha as [->|[-> (n & z & u & ->)]].
    - exists ByCaller. split; [|split; [simpl; lia | congruence]]. left. simpl. unfold ycancel. rewrite Hi, Hp.
      assert (E : (match p with
        | ADone => YSt (y_i x) (upd i (YErr OtherErr) (y_loops x)) (y_mode x)
        | AErr _ _ => x
        | _ => YSt (interrupt (y_i x) t) (y_loops x) (y_mode x)
        end) = YSt (interrupt (y_i x) t) (y_loops x) (y_mode x)) by (destruct p; try discriminate; reflexivity).
      simpl iact1. rewrite E. simpl. split; [exact Hi|]. unfold interrupt. rewrite Hp.
      exists p. destruct p; try discriminate; (split; [exact Hp|]; left; split; [reflexivity | apply (R ByCaller)]).
    - exists ByError. split; [|split; [simpl; lia | reflexivity]]. left. simpl. split; [exact Hi|]. unfold fail. rewrite Hp.
      exists (LJoin n). simpl. rewrite (nth_upd _ _ _ _ _ _ Hp), Nat.eqb_refl. split; [reflexivity|]. left. split; [reflexivity | apply (R ByError)]. }
  destruct B as (w & B & W & WE). apply (bound_run k l) in B; [|exact W]. fold y in B. split.
  - destruct B as [[B _]|(e & v & B & Hv & E)]; [auto|]. right.
    destruct v; simpl in *; [lia| |]; injection E as <-.
    + right. split; [|exact B]. destruct Ha as [->|[-> _]]; [reflexivity|]. rewrite WE in Hv by discriminate. simpl in Hv. lia.
    + left. exact B.
  - destruct B as [[B D]|(e & v & B & _)]; [|exists [], e; split; [constructor | exact B]].
    assert (LIFT : forall m z, Forall (fun b => match b with IUnwind _ | IBreak _ _ => True | _ => False end) m ->
              y_loops (yrun k z (map YDo m)) = y_loops z /\ y_i (yrun k z (map YDo m)) = irun k (y_i z) m).
    { induction m as [|b m IH]; intros z F; [split; reflexivity|]. inversion F; subst. simpl map.
      destruct (IH (yact1 k z (YDo b)) H2) as [E1 E2]. destruct b; try contradiction; split; assumption. }
    assert (FIN : forall z, nth_error (y_loops z) i = Some (YWait t) -> doomed w t (y_i z) ->
              (exists q, nth_error (tasks (i_s (y_i z))) t = Some q /\ call_over q = true) ->
              exists e, nth_error (y_loops (yact1 k z (YLoop i))) i = Some (YErr e)).
    { intros z Hz (q & Hq & Dq) (q' & Hq' & O). rewrite Hq in Hq'. injection Hq' as <-.
      destruct Dq as [(L' & _)|(v & Hv & ->)]; [destruct q; discriminate|].
      simpl. unfold ystep. rewrite Hz, Hq. destruct v; simpl in Hv; [lia| |]; simpl;
        rewrite (nth_upd _ _ _ _ _ _ Hz), Nat.eqb_refl; eauto. }
    assert (ALL : forall m, Forall (fun b => match b with IUnwind _ | IBreak _ _ => True | _ => False end) m ->
              Forall (fun b => match b with YDo (IUnwind _) | YDo (IBreak _ _) => True | _ => b = YLoop i end) (map YDo m ++ [YLoop i])).
    { intros m F. apply Forall_app. split; [|repeat constructor]. rewrite Forall_map. eapply Forall_impl; [|exact F].
      intros b Hb. destruct b; try contradiction; exact I. }
    assert (SPLIT : forall z m, yrun k z (map YDo m ++ [YLoop i]) = yact1 k (yrun k z (map YDo m)) (YLoop i)).
    { intros z m. unfold yrun. rewrite fold_left_app. reflexivity. }
    destruct D as (q & Hq & D). destruct D as [(Lq & v & Hv & Hr)|(v & Hr & ->)].
    + destruct (C115_ends k (y_i y) t q Hq Lq) as (m & q' & F & Hq' & O).
      { unfold is_cut, dmem. unfold cut in Hv. rewrite Hv. reflexivity. }
      destruct (LIFT m y F) as [E1 E2].
      destruct (FIN (yrun k y (map YDo m))) as (e & He).
      * rewrite E1. exact B.
      * rewrite E2. apply doomed_list. exists q. eauto 6.
      * rewrite E2. eauto.
      * exists (map YDo m ++ [YLoop i]), e. split; [apply ALL, F|]. rewrite SPLIT. exact He.
    + destruct (FIN y B) as (e & He).
      * exists (result v). split; [exact Hq|]. right. eauto.
      * exists (result v). split; [exact Hq | destruct v; reflexivity].
      * exists [YLoop i], e. split; [repeat constructor | exact He].
Qed.
Print Assumptions C117_cut_short.

(** execution_mode before any execute(): off. *)
Theorem C117_off k l : Forall (fun a => calls_execute a = false) l ->
  y_loops (yrun k (yst0 k) l) = [] /\ y_mode (yrun k (yst0 k) l) = false.
Proof.
  intros F. assert (G : forall x, y_loops x = [] /\ y_mode x = false -> y_loops (yrun k x l) = [] /\ y_mode (yrun k x l) = false).
  { induction F as [|a l Ha Hl IH]; intros x H; [exact H|]. apply (IH (yact1 k x a)). destruct H as [H1 H2].
    destruct a as [a| |i|i]; try discriminate.
    - destruct a; simpl; rewrite ?H1; auto.
    - simpl. unfold ystep. rewrite H1. destruct i; auto.
    - simpl. unfold ycancel. rewrite H1. destruct i; auto. }
  apply G. split; reflexivity.
Qed.
Print Assumptions C117_off.

(** execution_mode after one execute(): off once it has returned, and on for ever
    after it has raised, until execute() is called again. *)
Theorem C117_mode k x q l : y_loops x = [q] -> ylive q = true -> q <> YNew -> y_mode x = true ->
  Forall (fun a => calls_execute a = false) l ->
  exists q', y_loops (yrun k x l) = [q'] /\ (y_mode (yrun k x l) = false <-> q' = YDone).
Proof.
  intros H1 H2 H3 H4 F.
  assert (G : forall x, (exists q, y_loops x = [q] /\ q <> YNew /\ (y_mode x = false <-> q = YDone)) ->
            exists q', y_loops (yrun k x l) = [q'] /\ (y_mode (yrun k x l) = false <-> q' = YDone)).
  { clear x q H1 H2 H3 H4. induction F as [|a l Ha Hl IH]; intros x (q & Q & N & M); [eauto|]. apply (IH (yact1 k x a)).
    assert (Z : exists q, y_loops x = [q] /\ q <> YNew /\ (y_mode x = false <-> q = YDone)) by eauto.
    assert (ON : q <> YDone -> y_mode x = true).
    { intros D. destruct (y_mode x); [reflexivity|]. destruct D. apply M. reflexivity. }
    destruct a as [a| |i|i]; try discriminate.
    - destruct a; try exact Z. simpl. destruct (awaited _ _); exact Z.
    - simpl. unfold ystep. rewrite Q. destruct i as [|i]; [|destruct i; exact Z]. simpl.
      assert (K : forall q', q <> YDone -> q' <> YDone -> q' <> YNew -> exists q0, [q'] = [q0] /\ q0 <> YNew /\ (y_mode x = false <-> q0 = YDone)).
      { intros q' D1 D2 D3. exists q'. split; [reflexivity|]. split; [exact D3|]. rewrite (ON D1). split; [discriminate | contradiction]. }
      destruct q as [| |t| | |e]; try exact Z; try congruence.
      + destruct (stopped _); simpl; [|apply K; discriminate]. exists YDone. split; [reflexivity|]. split; [discriminate|]. tauto.
      + destruct (nth_error _ t) as [[]|]; try exact Z; apply K; discriminate.
      + apply K; discriminate.
    - simpl. unfold ycancel. rewrite Q. destruct i as [|i]; [|destruct i; exact Z]. simpl.
      assert (K : forall q', q <> YDone -> q' <> YDone -> q' <> YNew -> exists q0, [q'] = [q0] /\ q0 <> YNew /\ (y_mode x = false <-> q0 = YDone)).
      { intros q' D1 D2 D3. exists q'. split; [reflexivity|]. split; [exact D3|]. rewrite (ON D1). split; [discriminate | contradiction]. }
      destruct q as [| |t| | |e]; try exact Z; try congruence; try (apply K; discriminate).
      destruct (nth_error _ t) as [[]|]; try exact Z; apply K; discriminate. }
  apply G. exists q. split; [exact H1|]. split; [exact H3|]. rewrite H4. split; [discriminate|]. intros ->. discriminate.
Qed.
Print Assumptions C117_mode.

Lemma heap_iact k x a : heap qlt (queue (i_s x)) -> heap qlt (queue (i_s (iact1 k x a))).
Proof.
  intros H. destruct a as [a|t|t|t st|t]; simpl.
  - destruct a as [c|t|t b|t y|l|]; [exact (heap_step k _ (Spawn c) H)| |exact (heap_step k _ (Grant t b) H)
      |exact (heap_step k _ (Finish t y) H)|exact (heap_step k _ (Cleanup l) H)|exact (heap_step k _ Stop H)].
    destruct (halted x t); [exact H | exact (heap_step k _ (Step t) H)].
  - unfold interrupt. destruct (nth_error _ _) as [[]|]; exact H.
  - unfold fail. destruct (nth_error _ _) as [[]|]; exact H.
  - unfold break. destruct (nth_error _ _) as [[]|]; try exact H.
    assert (G : forall v, queue (set_status (i_s x) id v) = queue (i_s x)) by (intros v; apply (set_status_fields (i_s x) id v)).
    destruct (streaming _ _); [simpl; rewrite G; exact H|]. destruct mine; [|exact H]. destruct (is_cut x par); simpl; rewrite G; exact H.
  - unfold unwind. destruct (nth_error _ _) as [[]|]; try exact H; try (destruct (is_cut x _); exact H).
    + destruct (cut x t) as [w|]; [|exact H]. destruct (existsb _ _); [exact H|]. unfold leave. destruct w; [destruct (0 <? n)| |]; exact H.
    + destruct (_ && _); exact H.
Qed.
Lemma heap_reach k x : yreach k x -> heap qlt (queue (i_s (y_i x))).
Proof.
  intros (l & ->).
  assert (G : forall m z, heap qlt (queue (i_s z)) -> heap qlt (queue (i_s (irun k z m)))).
  { induction m as [|a m IH]; intros z H; [exact H|]. apply (IH (iact1 k z a)), heap_iact, H. }
  assert (G2 : forall z, heap qlt (queue (i_s (y_i z))) -> heap qlt (queue (i_s (y_i (yrun k z l))))).
  { induction l as [|a l IH]; intros z H; [exact H|]. apply (IH (yact1 k z a)). rewrite under_ok. apply G, H. }
  apply G2. apply heap_nil.
Qed.

(** When execute() has ended, by returning or raising, and no process() call is
    under way, events stay in the queue and unchanged until execute() or forward()
    is called. *)
Theorem C117_left k x l : yreach k x -> at_rest x -> Forall (fun a => begins a = false) l ->
  let s := i_s (y_i x) in let s' := i_s (y_i (yrun k x l)) in
  running_ids s' = [] /\ (forall e, In e (queue s) -> In e (queue s')) /\
  (forall u e, dget u (objs s) = Some e -> dget u (objs s') = Some e) /\
  y_loops (yrun k x l) = y_loops x /\ y_mode (yrun k x l) = y_mode x.
Proof.
  intros R A F. apply heap_reach in R. cbn zeta. revert x R A. induction F as [|a l Ha Hl IH]; intros x R [A1 A2].
  - simpl. repeat split; auto. unfold running_ids. induction (tasks (i_s (y_i x))) as [|p t IHt]; [reflexivity|]. simpl.
    rewrite (proj2 (A2 p (or_introl eq_refl))). apply IHt. intros q Hq. apply A2. right. exact Hq.
  - assert (LV : forall i q, nth_error (y_loops x) i = Some q -> ylive q = false) by (intros i q H; apply A1; eapply nth_error_In; eauto).
    assert (ONE : y_loops (yact1 k x a) = y_loops x /\ y_mode (yact1 k x a) = y_mode x /\
      heap qlt (queue (i_s (y_i (yact1 k x a)))) /\
      (forall p, In p (tasks (i_s (y_i (yact1 k x a)))) -> is_loop p = false /\ late p = []) /\
      (forall e, In e (queue (i_s (y_i x))) -> In e (queue (i_s (y_i (yact1 k x a))))) /\
      (forall u e, dget u (objs (i_s (y_i x))) = Some e -> dget u (objs (i_s (y_i (yact1 k x a)))) = Some e)).
    { assert (H := heap_iact k (y_i x)). 
      assert (Z : y_loops x = y_loops x /\ y_mode x = y_mode x /\ heap qlt (queue (i_s (y_i x))) /\
        (forall p, In p (tasks (i_s (y_i x))) -> is_loop p = false /\ late p = []) /\
        (forall e, In e (queue (i_s (y_i x))) -> In e (queue (i_s (y_i x)))) /\
        (forall u e, dget u (objs (i_s (y_i x))) = Some e -> dget u (objs (i_s (y_i x))) = Some e)) by (repeat split; auto; apply A2; auto).
      assert (NT : forall (s' : pst) p, tasks s' = tasks (i_s (y_i x)) -> is_loop p = false -> late p = [] ->
         forall q, In q (tasks (new_task s' p)) -> is_loop q = false /\ late q = []).
      { intros s' p T L1 L2 q Hq. simpl in Hq. rewrite T in Hq. apply in_app_or in Hq. destruct Hq as [Hq|[<-|[]]]; auto. }
      assert (UT : forall (s' : pst) t p, tasks s' = tasks (i_s (y_i x)) -> is_loop p = false -> late p = [] ->
         forall q, In q (tasks (set_task s' t p)) -> is_loop q = false /\ late q = []).
      { intros s' t p T L1 L2 q Hq. simpl in Hq. rewrite T in Hq. apply In_upd in Hq. destruct Hq as [->|Hq]; auto. }
      assert (BK : forall s ids s' q, back k s ids = (s', q) ->
         tasks s' = tasks s /\ queue s' = queue s /\ objs s' = objs s /\ is_loop q = false /\ late q = []).
      { intros s1 [|u r] s' q E; simpl in E; [injection E as <- <-; auto 6|].
        destruct (enq_check k s1 u PNone); injection E as <- <-; auto 6. }
      assert (PU : forall p id e, In e (queue (i_s (y_i x))) -> In e (queue (push (i_s (y_i x)) p id))).
      { intros p id e He. unfold push. simpl. destruct (heap_push qlt qlt_weak (queue (i_s (y_i x))) (p, id) R) as [_ P].
        eapply Permutation_in; [symmetry; exact P|]. right. exact He. }
      destruct a as [a| |i|i]; try discriminate.
      - destruct a as [a|t|t|t st|t].
        + cbn [yact1]. split; [reflexivity|]. split; [reflexivity|]. split; [apply H, R|]. cbn [y_i].
          destruct a as [c|t|t b|t y|m|]; cbn [iact1].
          * cbn [pact put i_s]. unfold spawn. destruct c as [id e p|id p| |].
            -- destruct (memb id _); [split; [apply NT; reflexivity | split; auto]|]. cbv zeta.
               set (s2 := if dmem id (objs (i_s (y_i x))) then _ else _).
               assert (Q : tasks s2 = tasks (i_s (y_i x)) /\ queue s2 = queue (i_s (y_i x)) /\
                           forall u e0, dget u (objs (i_s (y_i x))) = Some e0 -> dget u (objs s2) = Some e0).
               { unfold s2, dmem. destruct (dget id (objs (i_s (y_i x)))) eqn:D; simpl; repeat split; auto.
                 intros u e0 E0. rewrite dget_dset. destruct (eqb_spec u id) as [->|]; [congruence | exact E0]. }
               destruct Q as (Q1 & Q2 & Q3).
               destruct (started _); [destruct (enq_check k s2 id p)|]; (split; [apply NT; auto|]); simpl; rewrite Q2; auto.
            -- destruct (started _); [destruct (enq_check k _ id p)|]; (split; [try (apply NT; reflexivity); exact A2 | auto]).
            -- destruct (started _); [split; [apply NT; reflexivity | auto]|]. destruct (forallb _ _); [|split; [apply NT; reflexivity | auto]].
               destruct (back k (w_started (i_s (y_i x))) (progs (i_s (y_i x)) PENDING)) as [s2 q] eqn:Eb.
               destruct (BK _ _ _ _ Eb) as (B1 & B2 & B3 & B4 & B5). split; [apply NT; auto|]. simpl. rewrite B2, B3. auto.
            -- discriminate.
          * destruct (halted (y_i x) t); [apply Z|]. cbn [put i_s]. unfold step.
            destruct (nth_error (tasks (i_s (y_i x))) t) as [p|] eqn:Ht; [|apply Z].
            destruct (A2 p (nth_error_In _ _ Ht)) as [P1 P2].
            destruct p as [p id|p id rest|n|n p id|n id|n id|n p id|n|par id|par id mine|par id|par id| |e m]; try discriminate; try apply Z.
            -- split; [apply UT; reflexivity|]. split; [apply PU | auto].
            -- destruct (back k (push (i_s (y_i x)) p id) rest) as [s2 q] eqn:Eb.
               destruct (BK _ _ _ _ Eb) as (B1 & B2 & B3 & B4 & B5). split; [apply UT; auto|]. simpl. rewrite B2, B3. split; [apply PU | auto].
          * cbn [pact put i_s]. unfold grant. destruct (nth_error (tasks (i_s (y_i x))) t) as [p|] eqn:Ht; [|apply Z].
            destruct (A2 p (nth_error_In _ _ Ht)) as [P1 P2]. destruct p; try discriminate; apply Z.
          * cbn [pact put i_s]. unfold finish_ev. destruct (nth_error (tasks (i_s (y_i x))) t) as [p|] eqn:Ht; [|apply Z].
            destruct (A2 p (nth_error_In _ _ Ht)) as [P1 P2]. destruct p; try discriminate; apply Z.
          * cbn [pact put i_s]. destruct (cleanup_fields m (i_s (y_i x)) 0) as (B1 & B2 & _ & _ & B3 & _). rewrite B1, B2, B3. apply Z.
          * cbn [pact put i_s]. destruct (started _); apply Z.
        + cbn [yact1]. destruct (awaited t (y_loops x)); [apply Z|]. simpl. unfold interrupt. destruct (nth_error _ _) as [[]|]; apply Z.
        + simpl. unfold fail. destruct (nth_error (tasks (i_s (y_i x))) t) as [p|] eqn:Ht; [|apply Z].
          destruct (A2 p (nth_error_In _ _ Ht)) as [P1 P2]. destruct p; try discriminate; apply Z.
        + simpl. unfold break. destruct (nth_error (tasks (i_s (y_i x))) t) as [p|] eqn:Ht; [|apply Z].
          destruct (A2 p (nth_error_In _ _ Ht)) as [P1 P2]. destruct p; try discriminate; apply Z.
        + simpl. unfold unwind. destruct (nth_error (tasks (i_s (y_i x))) t) as [p|] eqn:Ht; [|apply Z].
          destruct (A2 p (nth_error_In _ _ Ht)) as [P1 P2]. destruct p; try discriminate; apply Z.
      - simpl. unfold ystep. destruct (nth_error (y_loops x) i) as [q|] eqn:Hi; [|apply Z].
        specialize (LV i q Hi). destruct q; try discriminate; apply Z.
      - simpl. unfold ycancel. destruct (nth_error (y_loops x) i) as [q|] eqn:Hi; [|apply Z].
        specialize (LV i q Hi). destruct q; try discriminate; apply Z. }
    destruct ONE as (O1 & O2 & O3 & O4 & O5 & O6).
    destruct (IH (yact1 k x a) O3) as (I1 & I2 & I3 & I4 & I5).
    { split; [rewrite O1; exact A1 | exact O4]. }
    change (yrun k x (a :: l)) with (yrun k (yact1 k x a) l).
    split; [exact I1|]. split; [auto|]. split; [auto|]. split; congruence.
Qed.
Print Assumptions C117_left.

(** Calling execute() again does not help a processor whose capacity is used up. *)
Theorem C117_worn_out k x l : worn_out (i_s (y_i x)) -> running_ids (i_s (y_i (yrun k x l))) = [].
Proof.
  intros H.
  assert (G : worn_out (i_s (y_i (yrun k x l)))); [|apply worn_running; exact G].
  revert x H. induction l as [|a l IH]; intros x H; [exact H|]. apply (IH (yact1 k x a)). rewrite under_ok. apply worn_run, H.
Qed.
Print Assumptions C117_worn_out.

(** *** Examples *)
Definition k1 : cfg := Cfg 1 1 9 9.
Definition begin1 : list yact :=
  [YDo (IDo (Spawn CStart)); YDo (IDo (app 1 5)); YDo (IDo (Step 1)); YDo (IDo (app 2 6)); YDo (IDo (Step 2));
   YExecute; YLoop 0; YLoop 0].
(** request_permission raises: execute() ends, yet execution_mode stays on and
    is_stopped() is false, with an event left in the queue. *)
Definition permission_raises : list yact := begin1 ++ [YDo (IDo (Step 4)); YDo (IFail 4); YDo (IUnwind 4); YLoop 0].
Example C117_ex_permission :
  let x := yrun k1 (yst0 k1) permission_raises in
  y_loops x = [YErr ExceptionGroupErr] /\ y_mode x = true /\ stopped (i_s (y_i x)) = false /\
  queue (i_s (y_i x)) = [(6%Z, 2)] /\ at_rest x.
Proof.
  cbn zeta. repeat match goal with |- _ /\ _ => split end; try (vm_compute; reflexivity).
  split.
  - intros q Hq. vm_compute in Hq. destruct Hq as [<-|[]]. reflexivity.
  - intros p Hp. vm_compute in Hp. repeat (destruct Hp as [<-|Hp]; [split; reflexivity|]). destruct Hp.
Qed.

(** So execution_mode does not tell whether an execute() is under way. *)
Theorem C117_mode_refuted : exists k l, let x := yrun k (yst0 k) l in
  y_mode x = true /\ (forall q, In q (y_loops x) -> ylive q = false) /\
  forall l', Forall (fun a => begins a = false) l' -> y_mode (yrun k x l') = true.
Proof.
  exists k1, permission_raises. destruct C117_ex_permission as (_ & M & _ & _ & A). cbn zeta. split; [exact M|]. split; [exact (proj1 A)|].
  intros l' F. destruct (C117_left k1 _ l' (ex_intro _ permission_raises eq_refl) A F) as (_ & _ & _ & _ & E). rewrite E. exact M.
Qed.
Print Assumptions C117_mode_refuted.

(** execute() is cancelled once while an event runs: whatever is called then, also
    execute() again, no event runs any more. *)
Definition cancelled : list yact := begin1 ++
  [YDo (IDo (Step 4)); YDo (IDo (Grant 4 true)); YDo (IDo (Step 4)); YDo (IDo (Step 5)); YCancel 0; YDo (IBreak 5 CANCELLED);
   YDo (IUnwind 4); YLoop 0].
Theorem C117_again_refuted : exists k l, 1 <= k_cap k /\ 1 <= k_conc k /\
  length (filter harm l) = 1 /\ let x := yrun k (yst0 k) l in
  y_loops x = [YErr OtherErr] /\ queue (i_s (y_i x)) = [(6%Z, 2)] /\
  forall l', running_ids (i_s (y_i (yrun k x (YExecute :: l')))) = [].
Proof.
  exists k1, cancelled. split; [simpl; lia|]. split; [simpl; lia|]. split; [reflexivity|]. cbn zeta.
  split; [vm_compute; reflexivity|]. split; [vm_compute; reflexivity|]. intros l'. apply C117_worn_out.
  vm_compute. split; [discriminate|]. intros p Hp. repeat (destruct Hp as [<-|Hp]; [reflexivity|]). destruct Hp.
Qed.
Print Assumptions C117_again_refuted.

(** An operation that raises the cancellation does not end execute(). *)
Example C117_ex_survives :
  let x := yrun k1 (yst0 k1) (begin1 ++ [YDo (IDo (Step 4)); YDo (IDo (Grant 4 true)); YDo (IDo (Step 4)); YDo (IDo (Step 5));
    YDo (IBreak 5 CANCELLED); YDo (IUnwind 4); YLoop 0; YLoop 0; YLoop 0]) in
  y_loops x = [YWait 6] /\ avail (i_s (y_i x)) = 1%Z.
Proof. vm_compute. auto. Qed.
