(** Proofs about race, CompletionStream, retry and bcall. *)
From Coq Require Import String.
From Coq Require Import List Bool Arith ZArith QArith Qminmax Lia Permutation.
From Verif Require Import PyBase ModelHeap ModelExc SpecExc ModelGroup ProofsGroup ModelStream ModelRetry SpecStream.
Import ListNotations.
Local Close Scope Q_scope.
Local Open Scope nat_scope.
Local Open Scope list_scope.

(** ** race *)
Section Race.
Context {V : Type}.

Record RI (n : nat) (s : rst V) : Prop := {
  ri_len : length (r_tasks s) = n;
  ri_run : forall i, nth_error (r_tasks s) i = Some RRun -> ~ In i (map fst (r_log s));
  ri_end : forall i p, nth_error (r_tasks s) i = Some p -> p <> RRun -> In i (map fst (r_log s));
  ri_nodup : NoDup (map fst (r_log s));
  ri_none : r_over s = false -> r_queue s = r_log s /\ forall i, nth_error (r_tasks s) i <> Some RDone;
  ri_first : forall x, r_first s = Some x -> exists i l, r_log s = (i, x) :: l;
  ri_in : forall i, In i (map fst (r_log s)) -> i < n
}.

Lemma rinit_RI n s : rinit (V:=V) n = Ret s -> RI n s.
Proof.
  unfold rinit. destruct (n =? 0); [discriminate|]. intros [= <-]. constructor; simpl; auto.
  - apply repeat_length.
  - intros i p E N. apply nth_repeat_some in E. destruct E as [E _]. now subst.
  - constructor.
  - intros _. split; auto. intros i E. apply nth_repeat_some in E. destruct E as [E _]. discriminate.
  - discriminate.
  - contradiction.
Qed.

Lemma NoDup_snoc {A} (l : list A) x : NoDup l -> ~ In x l -> NoDup (l ++ [x]).
Proof.
  intros H N. apply Permutation_NoDup with (x :: l); [|now constructor].
  apply Permutation_cons_append.
Qed.

Lemma rstep_RI n s a : RI n s -> RI n (rstep s a).
Proof.
  intros [L R E D N F B]. destruct a as [i r| |i|]; simpl.
  - destruct (nth_error (r_tasks s) i) as [[]|] eqn:T; try (constructor; assumption).
    assert (Hi : i < n) by (rewrite <- L; apply nth_error_Some; congruence).
    assert (X : forall q p, q <> RRun -> (forall j, nth_error (upd i q (r_tasks s)) j = Some p -> p = RRun -> i <> j /\ nth_error (r_tasks s) j = Some p)).
    { intros q p Hq j Hj Hp. apply nth_upd_iff in Hj. destruct Hj as [(-> & -> & _)|(Hj & K)]; [now subst|].
      split; auto. intros ->. specialize (K eq_refl). lia. }
    assert (Y : forall q j p, nth_error (upd i q (r_tasks s)) j = Some p -> p <> RRun -> In j (map fst (r_log s ++ [(i, r)]))).
    { intros q j p Hj Hp. rewrite map_app. apply in_or_app. apply nth_upd_iff in Hj.
      destruct Hj as [(-> & _)|(Hj & _)]; [right; simpl; auto|left; eauto]. }
    assert (Z : NoDup (map fst (r_log s ++ [(i, r)]))).
    { rewrite map_app. apply NoDup_snoc; auto. }
    assert (W : forall j, In j (map fst (r_log s ++ [(i, r)])) -> j < n).
    { intros j Hj. rewrite map_app in Hj. apply in_app_or in Hj. destruct Hj as [Hj|[<-|[]]]; auto. }
    assert (FX : forall x, r_first s = Some x -> exists k l, r_log s ++ [(i, r)] = (k, x) :: l).
    { intros x Hx. destruct (F x Hx) as (k & l & ->). simpl. eauto. }
    destruct (r_over s) eqn:OV; constructor; cbn [r_tasks r_queue r_first r_log]; auto.
    + now rewrite upd_len'.
    + intros j Hj. destruct (X RDone RRun ltac:(discriminate) j Hj eq_refl) as (NE & Hj').
      rewrite map_app. intros I. apply in_app_or in I. destruct I as [I|[<-|[]]]; [eapply R; eauto|now apply NE].
    + intros j p Hj Hp. eapply Y; eauto.
    + unfold r_over in *. cbn [r_first r_outer]. congruence.
    + now rewrite upd_len'.
    + intros j Hj. destruct (X RSend RRun ltac:(discriminate) j Hj eq_refl) as (NE & Hj').
      rewrite map_app. intros I. apply in_app_or in I. destruct I as [I|[<-|[]]]; [eapply R; eauto|now apply NE].
    + intros j p Hj Hp. eapply Y; eauto.
    + intros _. destruct (N eq_refl) as (-> & ND). split; auto. intros j Hj. apply nth_upd_iff in Hj.
      destruct Hj as [(_ & X' & _)|(Hj & _)]; [discriminate|eapply ND; eauto].
  - destruct (r_over s) eqn:OV; [constructor; auto; rewrite OV; auto|].
    destruct (r_queue s) as [|(i, r) q] eqn:Q; [constructor; auto; rewrite ?Q, ?OV; auto|].
    destruct (N eq_refl) as (QL & ND). constructor; cbn [r_tasks r_queue r_first r_log]; auto.
    + now rewrite upd_len'.
    + intros j Hj. apply nth_upd_iff in Hj. destruct Hj as [(_ & X & _)|(Hj & _)]; [discriminate|auto].
    + intros j p Hj Hp. apply nth_upd_iff in Hj. destruct Hj as [(<- & _)|(Hj & _)]; [|eauto].
      rewrite <- QL. simpl; auto.
    + discriminate.
    + intros x [= <-]. rewrite <- QL. eauto.
  - destruct (r_over s) eqn:OV; [|constructor; auto; rewrite ?OV; auto].
    destruct (nth_error (r_tasks s) i) as [[]|] eqn:T; try (constructor; auto; rewrite ?OV; auto; fail).
    constructor; cbn [r_tasks r_queue r_first r_log]; auto.
    + now rewrite upd_len'.
    + intros j Hj. apply nth_upd_iff in Hj. destruct Hj as [(_ & X & _)|(Hj & _)]; [discriminate|auto].
    + intros j p Hj Hp. apply nth_upd_iff in Hj. destruct Hj as [(<- & _)|(Hj & _)]; [|eauto].
      eapply E; eauto. discriminate.
    + unfold r_over in *. cbn [r_first r_outer]. congruence.
  - constructor; cbn [r_tasks r_queue r_first r_log]; auto.
    unfold r_over. cbn [r_first r_outer]. destruct (r_first s); discriminate.
Qed.

Lemma rrun_RI n (s : rst V) ops : RI n s -> RI n (rrun s ops).
Proof. revert s. induction ops as [|a ops IH]; simpl; intros s H; auto. apply IH, rstep_RI, H. Qed.

Lemma outer_mono (s : rst V) ops : r_outer s = true -> r_outer (rrun s ops) = true.
Proof.
  revert s. induction ops as [|a ops IH]; simpl; intros s H; auto. apply IH. destruct a as [i r| |i|]; simpl; auto.
  - destruct (nth_error (r_tasks s) i) as [[]|]; auto. destruct (r_over s); auto.
  - destruct (r_over s); auto. destruct (r_queue s) as [|(i, r) q]; auto.
  - destruct (r_over s); auto. destruct (nth_error (r_tasks s) i) as [[]|]; auto.
Qed.
Lemma outer_iff (s : rst V) ops : r_outer s = false -> (r_outer (rrun s ops) = true <-> In ROuter ops).
Proof.
  revert s. induction ops as [|a ops IH]; simpl; intros s H; [rewrite H; split; [discriminate|contradiction]|].
  assert (K : a <> ROuter -> r_outer (rstep s a) = false).
  { intros N. destruct a as [i r| |i|]; simpl; auto; [| | |congruence].
    - destruct (nth_error (r_tasks s) i) as [[]|]; auto. destruct (r_over s); auto.
    - destruct (r_over s); auto. destruct (r_queue s) as [|(i, r) q]; auto.
    - destruct (r_over s); auto. destruct (nth_error (r_tasks s) i) as [[]|]; auto. }
  destruct a as [i r| |i|]; try (rewrite IH by (apply K; discriminate); split; [auto|intros [X|X]; [discriminate|auto]]).
  split; auto. intros _. apply outer_mono. reflexivity.
Qed.

(** The outcome of race is the outcome of the awaitable that ended first, or the
    cancellation of the caller. *)
Lemma race_first n (s0 : rst V) ops : rinit n = Ret s0 ->
  let s := rrun s0 ops in
  rfinal s <> RPending ->
  Permutation (map fst (r_log s)) (seq 0 n) /\
  (In ROuter ops -> rfinal s = RRaise (Cancelled EmptyString)) /\
  (~ In ROuter ops -> exists i x rest, r_log s = (i, x) :: rest /\
    rfinal s = match x with Val v => RReturn v | Err e => RRaise e end).
Proof.
  intros H s. pose proof (rrun_RI n s0 ops (rinit_RI n s0 H)) as I. fold s in I.
  assert (O : r_outer s = true <-> In ROuter ops).
  { apply outer_iff. unfold rinit in H. destruct (n =? 0); [discriminate|]. injection H as <-. reflexivity. }
  unfold rfinal. destruct (forallb r_done (r_tasks s)) eqn:Q; [|congruence]. intros NP. split; [|split].
  - apply NoDup_Permutation; [apply I|apply seq_NoDup|]. intros j. rewrite in_seq. split.
    + intros J. apply (ri_in _ _ I) in J. lia.
    + intros J. destruct (nth_error (r_tasks s) j) as [p|] eqn:T.
      * eapply (ri_end _ _ I); eauto. rewrite forallb_forall in Q.
        apply nth_error_In in T. specialize (Q p T). destruct p; discriminate.
      * apply nth_error_None in T. rewrite (ri_len _ _ I) in T. lia.
  - intros X. apply O in X. now rewrite X.
  - intros X. destruct (r_outer s); [exfalso; apply X, O; reflexivity|].
    destruct (r_first s) as [x|] eqn:F; [|congruence].
    destruct (ri_first _ _ I x F) as (i & rest & L). exists i, x, rest. split; auto.
Qed.

(** race is never stuck. *)
Lemma race_progress n (s0 : rst V) ops : rinit (V:=V) n = Ret s0 ->
  let s := rrun s0 ops in
  rfinal s = RPending -> exists a, a <> ROuter /\ rstep s a <> s.
Proof.
  intros H s. pose proof (rrun_RI n s0 ops (rinit_RI n s0 H)) as I. fold s in I. unfold rfinal.
  assert (n <> 0) by (intros ->; discriminate).
  assert (UL : forall i p (t : list rpc) q, nth_error t i = Some p -> upd i q t = t -> q = p).
  { intros i p t q N U. assert (nth_error (upd i q t) i = Some q) by (apply nth_upd_eq; apply nth_error_Some; congruence).
    rewrite U in H1. congruence. }
  destruct (forallb r_done (r_tasks s)) eqn:Q.
  - destruct (r_outer s) eqn:O; [discriminate|]. destruct (r_first s) as [[]|] eqn:F; try discriminate. intros _.
    assert (OV : r_over s = false) by (unfold r_over; now rewrite F).
    destruct (ri_none _ _ I OV) as (_ & ND).
    destruct (nth_error (r_tasks s) 0) as [p|] eqn:T.
    + rewrite forallb_forall in Q. pose proof T as T'. apply nth_error_In in T. specialize (Q p T).
      destruct p; try discriminate. exfalso. eapply ND; eauto.
    + apply nth_error_None in T. rewrite (ri_len _ _ I) in T. lia.
  - intros _. assert (E : exists i p, nth_error (r_tasks s) i = Some p /\ r_done p = false).
    { clear - Q. induction (r_tasks s) as [|p t IH]; simpl in Q; [discriminate|].
      destruct (r_done p) eqn:D; [|exists 0, p; auto].
      destruct (IH Q) as (i & q & X & Y). exists (S i), q; auto. }
    destruct E as (i & p & T & D). destruct p; try discriminate.
    + exists (RAwaited i (Err (Cancelled EmptyString))). split; [discriminate|]. simpl. rewrite T.
      destruct (r_over s) eqn:F; intros X; apply (f_equal (@r_log V)) in X; simpl in X;
        apply (f_equal (@length _)) in X; rewrite app_length in X; simpl in X; lia.
    + destruct (r_over s) eqn:F.
      * exists (RCancelled i). split; [discriminate|]. simpl. rewrite T, F. intros X. apply (f_equal (@r_tasks V)) in X. simpl in X.
        apply UL with (p := RSend) in X; auto. discriminate.
      * destruct (ri_none _ _ I F) as (QL & _). exists RReceive. split; [discriminate|]. simpl. rewrite F.
        pose proof (ri_end _ _ I i RSend T ltac:(discriminate)) as J. rewrite <- QL in J.
        destruct (r_queue s) as [|(k, r) q]; [contradiction|].
        intros X. apply (f_equal (@r_first V)) in X. simpl in X. unfold r_over in F. rewrite <- X in F. discriminate.
Qed.
End Race.

(** ** CompletionStream *)
Section CStream.
Context {V : Type}.
Variable lim : option nat.

Lemma successes_app (l l' : list (nat * res V)) : successes (l ++ l') = successes l ++ successes l'.
Proof. induction l as [|[i [v|e]] l IH]; simpl; auto. now rewrite IH. Qed.
Lemma failures_app (l l' : list (nat * res V)) : failures (l ++ l') = failures l ++ failures l'.
Proof. induction l as [|[i [v|e]] l IH]; simpl; auto. rewrite IH. now destruct (is_cancelled e). Qed.
Lemma any_failure_snoc (l : list (nat * res V)) p :
  any_failure (l ++ [p]) = any_failure l || match snd p with Val _ => false | Err _ => true end.
Proof. unfold any_failure. rewrite existsb_app. simpl. now rewrite orb_false_r. Qed.

Definition act (t : list spc) : nat :=
  count_occ (fun a b : bool => bool_dec a b) (map (fun p => match p with SRun => true | _ => false end) t) true.
Definition b2 (p : spc) : nat := match p with SRun => 1 | _ => 0 end.
Lemma act_upd t i p q : nth_error t i = Some p -> act (upd i q t) + b2 p = act t + b2 q.
Proof.
  revert i; induction t as [|x t IH]; intros [|i] E; simpl in *; try discriminate.
  - injection E as ->. unfold act. simpl. destruct p, q; simpl; lia.
  - specialize (IH i E). unfold act in *. simpl. destruct x; simpl; lia.
Qed.

Record SI (n : nat) (s : sst V) : Prop := {
  si_len : length (s_tasks s) = n;
  si_wait : forall i, nth_error (s_tasks s) i = Some SWait -> ~ In i (s_begun s);
  si_run : forall i, nth_error (s_tasks s) i = Some SRun -> In i (s_begun s) /\ ~ In i (map fst (s_done s));
  si_done : forall i, nth_error (s_tasks s) i = Some SDone -> In i (map fst (s_done s)) \/ (s_cancel s = true /\ ~ In i (s_begun s));
  si_sub : forall i, In i (map fst (s_done s)) -> In i (s_begun s);
  si_dup : NoDup (map fst (s_done s));
  si_bdup : NoDup (s_begun s);
  si_in : forall i, In i (s_begun s) -> i < n;
  si_cancel : s_cancel s = any_failure (s_done s) || s_outer s || (match s_raised s with Some _ => true | None => false end);
  si_errs : exists a b, failures (s_done s) = a ++ b /\
              s_errs s = a ++ (match s_raised s with Some e => [e] | None => [] end) ++ b;
  si_block : s_raised s <> None -> s_cons s = CLeft;
  si_flow : exists a b, s_done s = a ++ b /\ any_failure a = false /\ s_got s ++ s_buf s = successes a /\
              (s_cancel s = false -> b = []);
  si_slot : match lim with Some l => s_free s + act (s_tasks s) = l | None => True end
}.

Lemma act_repeat n : act (repeat SWait n) = 0.
Proof. induction n; simpl; auto. Qed.

Lemma sinit_SI n : SI n (sinit lim n).
Proof.
  assert (X : forall i p, nth_error (repeat SWait n) i = Some p -> p = SWait).
  { intros i p E. apply nth_repeat_some in E. tauto. }
  constructor; simpl; auto; try contradiction.
  - apply repeat_length.
  - intros i E. apply X in E. discriminate.
  - intros i E. apply X in E. discriminate.
  - constructor.
  - constructor.
  - exists [], []. auto.
  - exists [], []. auto.
  - destruct lim; auto. rewrite act_repeat. lia.
Qed.

Lemma fst_snoc (l : list (nat * res V)) i r : map fst (l ++ [(i, r)]) = map fst l ++ [i].
Proof. now rewrite map_app. Qed.

Lemma sstep_SI n s a : SI n s -> SI n (fst (sstep lim s a)).
Proof.
  intros H. pose proof H as [L W R D Sb Nd Bd In_ C E BK F SL].
  destruct s as [tasks free buf got errs canc who begun done outer raised]. simpl in *.
  destruct a as [i|i r|i| | |e|]; simpl.
  - (* SStart *)
    destruct (nth_error tasks i) as [[]|] eqn:T; try exact H.
    assert (Hi : i < n) by (rewrite <- L; apply nth_error_Some; congruence).
    assert (G : forall f, (match lim with Some l => f + act (upd i SRun tasks) = l | None => True end) ->
      SI n (Build_sst (upd i SRun tasks) f buf got errs canc who (begun ++ [i]) done outer raised)).
    { intros f Hf. constructor; simpl; auto.
      - now rewrite upd_len'.
      - intros j Hj. apply nth_upd_iff in Hj. destruct Hj as [(_ & X & _)|(Hj & K)]; [discriminate|].
        intros I. apply in_app_or in I. destruct I as [I|[<-|[]]]; [eapply W; eauto|]. specialize (K eq_refl). lia.
      - intros j Hj. apply nth_upd_iff in Hj. destruct Hj as [(<- & _ & _)|(Hj & K)].
        + split; [apply in_or_app; simpl; auto|]. intros I. eapply W; eauto.
        + destruct (R j Hj). split; auto. apply in_or_app; auto.
      - intros j Hj. apply nth_upd_iff in Hj. destruct Hj as [(_ & X & _)|(Hj & K)]; [discriminate|].
        destruct (D j Hj) as [|(D1 & D2)]; auto. right. split; auto. intros I. apply in_app_or in I.
        destruct I as [I|[<-|[]]]; auto. congruence.
      - intros j Hj. apply in_or_app. auto.
      - apply NoDup_snoc; auto.
      - intros j Hj. apply in_app_or in Hj. destruct Hj as [Hj|[<-|[]]]; auto. }
    pose proof (act_upd tasks i SWait SRun T) as AU. simpl in AU.
    destruct lim as [l|]; [|apply G; auto]. destruct free as [|f]; [exact H|]. apply G. lia.
  - (* SEnd *)
    destruct (nth_error tasks i) as [[]|] eqn:T; try exact H.
    assert (Hi : i < n) by (rewrite <- L; apply nth_error_Some; congruence).
    destruct (R i T) as (Ib & Nd').
    pose proof (act_upd tasks i SRun SDone T) as AU. simpl in AU.
    set (rz := match raised with Some _ => true | None => false end) in *.
    set (rl := match raised with Some e => [e] | None => [] end) in *.
    assert (G : forall buf' errs' canc',
      canc' = any_failure (done ++ [(i, r)]) || outer || rz ->
      (exists a b, failures (done ++ [(i, r)]) = a ++ b /\ errs' = a ++ rl ++ b) ->
      (exists a b, done ++ [(i, r)] = a ++ b /\ any_failure a = false /\ got ++ buf' = successes a /\ (canc' = false -> b = [])) ->
      SI n (Build_sst (upd i SDone tasks) (match lim with Some _ => S free | None => free end) buf' got errs' canc' who begun
              (done ++ [(i, r)]) outer raised)).
    { intros buf' errs' canc' Hc He Hf. constructor; cbn [s_tasks s_free s_buf s_got s_errs s_cancel s_begun s_done s_outer s_raised s_cons]; auto.
      - now rewrite upd_len'.
      - intros j Hj. apply nth_upd_iff in Hj. destruct Hj as [(_ & X & _)|(Hj & K)]; [discriminate|]. auto.
      - intros j Hj. apply nth_upd_iff in Hj. destruct Hj as [(_ & X & _)|(Hj & K)]; [discriminate|].
        destruct (R j Hj) as (R1 & R2). split; auto. rewrite fst_snoc. intros I. apply in_app_or in I.
        destruct I as [I|[<-|[]]]; auto. specialize (K eq_refl). lia.
      - intros j Hj. rewrite fst_snoc. apply nth_upd_iff in Hj. destruct Hj as [(<- & _ & _)|(Hj & K)].
        + left. apply in_or_app; simpl; auto.
        + destruct (D j Hj) as [|(D1 & D2)]; [left; apply in_or_app; auto|]. right. split; auto.
          rewrite Hc, any_failure_snoc. rewrite D1 in C. symmetry in C. rewrite !orb_true_iff in *. tauto.
      - intros j Hj. rewrite fst_snoc in Hj. apply in_app_or in Hj. destruct Hj as [Hj|[<-|[]]]; auto.
      - rewrite fst_snoc. apply NoDup_snoc; auto.
      - destruct lim; auto. lia. }
    destruct E as (ea & eb & E1 & E2). destruct F as (fa & fb & F1 & F2 & F3 & F4).
    destruct r as [v|e]; simpl; apply G; rewrite ?any_failure_snoc, ?failures_app; simpl.
    + rewrite orb_false_r. auto.
    + rewrite app_nil_r. eauto.
    + destruct canc.
      * exists fa, (fb ++ [(i, Val v)]). rewrite F1, app_assoc. repeat split; auto. discriminate.
      * rewrite (F4 eq_refl), app_nil_r in F1. subst fa. exists (done ++ [(i, Val v)]), [].
        rewrite app_nil_r, any_failure_snoc, F2, successes_app, <- F3, app_assoc. auto.
    + now rewrite orb_true_r.
    + destruct (is_cancelled e); [rewrite app_nil_r; eauto|]. exists ea, (eb ++ [e]). rewrite E1, E2, !app_assoc. auto.
    + exists fa, (fb ++ [(i, Err e)]). rewrite F1, app_assoc. repeat split; auto. discriminate.
  - (* SAbort *)
    destruct canc; [|exact H]. destruct (nth_error tasks i) as [[]|] eqn:T; try exact H.
    pose proof (act_upd tasks i SWait SDone T) as AU. simpl in AU.
    constructor; simpl; auto.
    + now rewrite upd_len'.
    + intros j Hj. apply nth_upd_iff in Hj. destruct Hj as [(_ & X & _)|(Hj & K)]; [discriminate|]. auto.
    + intros j Hj. apply nth_upd_iff in Hj. destruct Hj as [(_ & X & _)|(Hj & K)]; [discriminate|]. auto.
    + intros j Hj. apply nth_upd_iff in Hj. destruct Hj as [(<- & _ & _)|(Hj & K)]; auto.
    + destruct lim; auto. lia.
  - (* SNext *)
    destruct who; [|exact H]. destruct (length tasks <=? length got); [exact H|].
    destruct canc; [constructor; simpl; auto|].
    destruct buf as [|p b]; [exact H|]. constructor; simpl; auto. now rewrite <- app_assoc.
  - destruct who; [|exact H]. constructor; simpl; auto.
  - (* SFail *)
    destruct who; [|exact H]. destruct (is_cancelled e); [exact H|].
    assert (raised = None) by (destruct raised; auto; discriminate BK; discriminate). subst raised.
    constructor; simpl; auto.
    + intros j Hj. destruct (D j Hj) as [|(_ & X)]; auto.
    + now rewrite orb_true_r.
    + destruct E as (ea & eb & E1 & E2). exists (ea ++ eb), []. simpl in *. rewrite app_nil_r, E1, E2. auto.
    + destruct F as (fa & fb & F1 & F2 & F3 & F4). exists fa, fb. repeat split; auto. discriminate.
  - (* SOuter *)
    constructor; simpl; auto.
    + intros j Hj. destruct (D j Hj) as [|(_ & X)]; auto.
    + now rewrite orb_true_r.
    + destruct F as (fa & fb & F1 & F2 & F3 & F4). exists fa, fb. repeat split; auto. discriminate.
Qed.

Lemma srun_cons s a ops :
  srun lim s (a :: ops) =
  (fst (srun lim (fst (sstep lim s a)) ops), snd (sstep lim s a) :: snd (srun (V:=V) lim (fst (sstep lim s a)) ops)).
Proof. simpl. destruct (sstep lim s a) as (s1, o). simpl. destruct (srun lim s1 ops); auto. Qed.

Lemma srun_SI n s ops : SI n s -> SI n (fst (srun lim s ops)).
Proof.
  revert s. induction ops as [|a ops IH]; intros s H; auto. rewrite srun_cons. simpl. apply IH, sstep_SI, H.
Qed.
Lemma reach_SI n ops : SI n (fst (srun (V:=V) lim (sinit lim n) ops)).
Proof. apply srun_SI, sinit_SI. Qed.

Lemma sstep_got s a : s_got (fst (sstep (V:=V) lim s a)) = s_got s ++ items [snd (sstep lim s a)].
Proof.
  destruct s as [tasks free buf got errs canc who begun done outer raised]. destruct a as [i|i r|i| | |e|]; simpl.
  - destruct (nth_error tasks i) as [[]|]; simpl; rewrite ?app_nil_r; auto.
    destruct lim; [destruct free|]; simpl; rewrite ?app_nil_r; auto.
  - destruct (nth_error tasks i) as [[]|]; simpl; rewrite ?app_nil_r; auto.
    destruct r; simpl; rewrite ?app_nil_r; auto.
  - destruct canc; simpl; rewrite ?app_nil_r; auto.
    destruct (nth_error tasks i) as [[]|]; simpl; rewrite ?app_nil_r; auto.
  - destruct who; simpl; rewrite ?app_nil_r; auto. destruct (length tasks <=? length got); simpl; rewrite ?app_nil_r; auto.
    destruct canc; simpl; rewrite ?app_nil_r; auto. destruct buf; simpl; rewrite ?app_nil_r; auto.
  - destruct who; simpl; rewrite ?app_nil_r; auto.
  - destruct who, (is_cancelled e); simpl; rewrite ?app_nil_r; auto.
  - now rewrite app_nil_r.
Qed.
Lemma items_cons (o : sout V) l : items (o :: l) = items [o] ++ items l.
Proof. destruct o; auto. Qed.
Lemma srun_got s ops : s_got (fst (srun (V:=V) lim s ops)) = s_got s ++ items (snd (srun lim s ops)).
Proof.
  revert s. induction ops as [|a ops IH]; intros s; [simpl; now rewrite app_nil_r|].
  rewrite srun_cons. cbn [fst snd]. rewrite IH, items_cons, sstep_got. now rewrite app_assoc.
Qed.

(** What was yielded: a prefix of the successes before the first failure and before
    the group was cancelled. *)
Lemma yields n ops :
  let '(s, outs) := srun (V:=V) lim (sinit lim n) ops in
  exists a b, s_done s = a ++ b /\ any_failure a = false /\ successes a = items outs ++ s_buf s /\ (s_cancel s = false -> b = []).
Proof.
  pose proof (reach_SI n ops) as I. pose proof (srun_got (sinit lim n) ops) as G.
  destruct (srun lim (sinit lim n) ops) as (s, outs). simpl in *.
  destruct (si_flow _ _ I) as (a & b & H1 & H2 & H3 & H4). exists a, b. repeat split; auto. rewrite <- H3, G. reflexivity.
Qed.

Lemma successes_in (l : list (nat * res V)) i v : In (i, v) (successes l) <-> In (i, Val v) l.
Proof.
  induction l as [|[k [x|e]] l IH]; simpl; [tauto| |].
  - rewrite IH. split; intros [X|X]; auto; left; congruence.
  - rewrite IH. split; auto. intros [X|X]; auto. discriminate.
Qed.
Lemma successes_fst (l : list (nat * res V)) i : In i (map fst (successes l)) -> In i (map fst l).
Proof.
  rewrite !in_map_iff. intros ([k v] & <- & X). apply successes_in in X. exists (k, Val v). auto.
Qed.
Lemma successes_nodup (l : list (nat * res V)) : NoDup (map fst l) -> NoDup (map fst (successes l)).
Proof.
  induction l as [|[k [x|e]] l IH]; simpl; auto; intros H; inversion H; subst; auto.
  constructor; auto. intros I. apply successes_fst in I. auto.
Qed.
Lemma nodup_prefix {A} (l l' : list A) : NoDup (l ++ l') -> NoDup l.
Proof. induction l; simpl; intros H; [constructor|]. inversion H; subst. constructor; auto. intros I; apply H2, in_or_app; auto. Qed.

Lemma yields_nodup n ops :
  let '(s, outs) := srun (V:=V) lim (sinit lim n) ops in
  NoDup (map fst (items outs)) /\
  forall i v, In (i, v) (items outs) -> i < n /\ In (i, Val v) (s_done s).
Proof.
  pose proof (reach_SI n ops) as I. pose proof (yields n ops) as Y.
  destruct (srun lim (sinit lim n) ops) as (s, outs). simpl in *. destruct Y as (a & l' & P & _ & E & _). split.
  - apply nodup_prefix with (map fst (s_buf s)). rewrite <- map_app, <- E. apply successes_nodup.
    apply nodup_prefix with (map fst l'). rewrite <- map_app, <- P. apply I.
  - intros i v J. assert (K : In (i, Val v) (s_done s)).
    { rewrite P. apply in_or_app. left. apply successes_in. rewrite E. apply in_or_app; auto. }
    split; auto. apply (si_in _ _ I), (si_sub _ _ I). apply in_map_iff. now exists (i, Val v).
Qed.

Lemma nodup_full n l : NoDup l -> (forall i, In i l -> i < n) -> n <= length l -> Permutation l (seq 0 n).
Proof.
  intros D B L. apply NoDup_Permutation_bis; auto; [rewrite seq_length; auto|].
  intros i J. apply in_seq. specialize (B i J). lia.
Qed.

(** Iteration stops by itself exactly when all n results have been yielded. *)
Lemma stops n ops :
  let '(s, outs) := srun (V:=V) lim (sinit lim n) ops in
  s_cons s = CReading ->
  (snd (sstep lim s SNext) = SStop <-> Permutation (map fst (items outs)) (seq 0 n)) /\
  (snd (sstep lim s SNext) = SStop -> items outs = successes (s_done s) /\ any_failure (s_done s) = false /\ length (s_done s) = n).
Proof.
  pose proof (reach_SI n ops) as I. pose proof (yields_nodup n ops) as N.
  pose proof (srun_got (sinit lim n) ops) as G. pose proof (yields n ops) as Y.
  destruct (srun lim (sinit lim n) ops) as (s, outs). simpl in G. simpl in I. cbn [fst snd] in *.
  destruct N as (N & B). intros R.
  assert (K : snd (sstep lim s SNext) = SStop <-> n <= length (items outs)).
  { rewrite <- G. destruct s as [tasks free buf got errs canc who begun done outer raised]. simpl in *. subst who.
    pose proof (si_len _ _ I) as LN. simpl in LN. rewrite LN. simpl.
    destruct (Nat.leb_spec n (length got)); simpl; [split; auto|].
    destruct canc; simpl; [split; [discriminate|lia]|]. destruct buf; simpl; split; try discriminate; lia. }
  assert (P : n <= length (items outs) -> Permutation (map fst (items outs)) (seq 0 n)).
  { intros L. apply nodup_full; auto; [|now rewrite map_length].
    intros i J. apply in_map_iff in J. destruct J as ((k & v) & <- & J). apply (B k v J). }
  split.
  - rewrite K. split; auto. intros Q. apply Permutation_length in Q. rewrite seq_length, map_length in Q. lia.
  - intros T. apply K in T. destruct Y as (a & l' & Q & NF & E & _).
    assert (LD : length (s_done s) <= n).
    { pose proof (NoDup_incl_length (si_dup _ _ I) (l' := seq 0 n)) as X. rewrite map_length, seq_length in X.
      apply X. intros j J. apply in_seq. apply (si_sub _ _ I), (si_in _ _ I) in J. lia. }
    assert (LS : forall l : list (nat * res V), length (successes l) <= length l).
    { intros l. induction l as [|[k [v|e]] l IH]; simpl; lia. }
    pose proof (f_equal (@length _) E) as E'. rewrite app_length in E'.
    pose proof (LS a) as L1. pose proof (f_equal (@length _) Q) as L2. rewrite app_length in L2.
    assert (l' = []) by (destruct l'; auto; simpl in L2; lia). subst l'. rewrite app_nil_r in Q.
    assert (X : s_buf s = []) by (destruct (s_buf s); auto; simpl in E'; lia). rewrite X, app_nil_r, <- Q in E.
    split; [auto|]. split; [congruence|lia].
Qed.

(** In a reading, uncancelled stream a blocked consumer means that some awaitable
    is running or can start. *)
Lemma stream_progress n ops :
  lim <> Some 0 ->
  let s := fst (srun (V:=V) lim (sinit lim n) ops) in
  snd (sstep lim s SNext) = SBlocked -> s_active s = 0 -> exists i, sstep lim s (SStart i) <> (s, SNone).
Proof.
  intros L0 s. pose proof (reach_SI n ops) as I. fold s in I. clearbody s.
  destruct s as [tasks free buf got errs canc who begun done outer raised]. unfold s_active. simpl.
  destruct who; simpl; [|discriminate].
  destruct (Nat.leb_spec (length tasks) (length got)); simpl; [discriminate|].
  destruct canc; simpl; [discriminate|]. destruct buf; simpl; [|discriminate]. intros _ A. fold (act tasks) in A.
  assert (E : In SWait tasks \/ forall p, In p tasks -> p = SDone).
  { clear - A. induction tasks as [|p t IH]; simpl; [right; contradiction|].
    destruct p; auto; unfold act in *; simpl in *; [discriminate|].
    destruct (IH A) as [|X]; auto. right. intros p [<-|J]; auto. }
  destruct E as [E|E].
  - apply In_nth_error in E. destruct E as (i & E). exists i. rewrite E.
    assert (NE : upd i SRun tasks <> tasks).
    { intros X. assert (nth_error (upd i SRun tasks) i = Some SRun) by (apply nth_upd_eq; apply nth_error_Some; congruence).
      rewrite X in H0. congruence. }
    pose proof (si_slot _ _ I) as SL. simpl in SL.
    destruct lim as [l|]; [destruct free; [exfalso; apply L0; f_equal; lia|]|]; intros X; apply (f_equal fst) in X; simpl in X;
      apply (f_equal (@s_tasks V)) in X; simpl in X; contradiction.
  - exfalso. destruct (si_flow _ _ I) as (fa & fb & F1 & C & F & F4). pose proof (si_len _ _ I) as LN.
    simpl in *. rewrite (F4 eq_refl), app_nil_r in F1. subst fa. rewrite app_nil_r in F.
    assert (LS : length (successes done) = length done).
    { clear - C. induction done as [|[k [v|e]] l IH]; simpl in *; auto. discriminate. }
    rewrite <- F in LS.
    assert (n <= length done).
    { pose proof (NoDup_incl_length (seq_NoDup n 0) (l' := map fst done)) as X. rewrite seq_length, map_length in X. apply X.
      intros j J. apply in_seq in J. destruct (nth_error tasks j) as [p|] eqn:T.
      - pose proof (nth_error_In _ _ T) as T'. apply E in T'. subst p.
        destruct (si_done _ _ I j T) as [|(X' & _)]; auto. discriminate.
      - apply nth_error_None in T. lia. }
    lia.
Qed.

(** After the block was left the rest is never stuck. *)
Lemma leave_progress n ops :
  lim <> Some 0 ->
  let s := fst (srun (V:=V) lim (sinit lim n) ops) in
  s_cons s = CLeft -> sfinal s = XPending -> exists a, a <> SOuter /\ fst (sstep lim s a) <> s.
Proof.
  intros L0 s. pose proof (reach_SI n ops) as I. fold s in I. clearbody s.
  destruct s as [tasks free buf got errs canc who begun done outer raised]. simpl. intros ->.
  unfold sfinal. cbn [s_cons]. destruct (s_quiet _) eqn:Q;
    [cbn [s_errs s_outer]; destruct errs; [destruct outer|]; discriminate|]. intros _.
  unfold s_quiet in Q. cbn [s_tasks] in Q.
  assert (NE : forall i p q, nth_error tasks i = Some p -> p <> q -> upd i q tasks <> tasks).
  { intros i p q T D X. assert (nth_error (upd i q tasks) i = Some q) by (apply nth_upd_eq; apply nth_error_Some; congruence).
    congruence. }
  assert (E : (exists i, nth_error tasks i = Some SRun) \/ (exists i, nth_error tasks i = Some SWait) /\ act tasks = 0).
  { clear - Q. induction tasks as [|p t IH]; simpl in Q; [discriminate|]. destruct p.
    - destruct (forallb (fun p => match p with SDone => true | _ => false end) t) eqn:Z.
      + right. split; [exists 0; auto|]. clear - Z. unfold act. simpl. induction t as [|p t IH]; auto.
        simpl in Z. destruct p; try discriminate. simpl. auto.
      + destruct (IH eq_refl) as [(i & X)|((i & X) & Y)]; [left; exists (S i); auto|right; split; [exists 0; auto|exact Y]].
    - left. exists 0. auto.
    - destruct (IH Q) as [(i & X)|((i & X) & Y)]; [left; exists (S i); auto|right; split; [exists (S i); auto|exact Y]]. }
  destruct E as [(i & T)|((i & T) & A)].
  - exists (SEnd i (Err (Cancelled EmptyString))). split; [discriminate|]. simpl. rewrite T. simpl. intros X.
    apply (f_equal (@s_tasks V)) in X. simpl in X. eapply NE; eauto. discriminate.
  - exists (SStart i). split; [discriminate|]. simpl. rewrite T. pose proof (si_slot _ _ I) as SL. simpl in SL.
    destruct lim as [l|]; [destruct free; [exfalso; apply L0; f_equal; lia|]|]; simpl; intros X;
      apply (f_equal (@s_tasks V)) in X; simpl in X; eapply NE; eauto; discriminate.
Qed.

Lemma stream_bounded n ops l :
  lim = Some l -> s_active (fst (srun (V:=V) lim (sinit lim n) ops)) <= l.
Proof.
  intros E. pose proof (si_slot _ _ (reach_SI n ops)) as S. unfold act in S. unfold s_active.
  destruct lim as [l0|]; [|discriminate]. injection E as ->. lia.
Qed.

(** Leaving the context: all awaitables started have ended, and the errors raised
    are exactly those of the awaitables and of the block. *)
Lemma leaving n ops :
  let s := fst (srun (V:=V) lim (sinit lim n) ops) in
  (sfinal s = XLeave -> failures (s_done s) = [] /\ s_raised s = None /\ s_outer s = false) /\
  (forall e, sfinal s = XRaise e ->
     (exists a b, failures (s_done s) = a ++ b /\
        let l := a ++ (match s_raised s with Some x => [x] | None => [] end) ++ b in
        l <> [] /\ e = Group 0 group_msg l) \/
     (failures (s_done s) = [] /\ s_raised s = None /\ s_outer s = true /\ e = Cancelled EmptyString)) /\
  (sfinal s <> XPending -> forall i, In i (s_begun s) -> In i (map fst (s_done s))) /\
  (sfinal s <> XPending -> any_failure (s_done s) = false -> s_raised s = None -> s_outer s = false ->
   Permutation (map fst (s_done s)) (seq 0 n)).
Proof.
  intros s. pose proof (reach_SI n ops) as I. fold s in I. clearbody s. unfold sfinal.
  destruct (si_errs _ _ I) as (a & b & E1 & E2).
  destruct (s_cons s); [repeat split; try discriminate; congruence|].
  destruct (s_quiet s) eqn:Q; [|repeat split; try discriminate; congruence].
  assert (X : forall i p, nth_error (s_tasks s) i = Some p -> p = SDone).
  { intros i p T. unfold s_quiet in Q. rewrite forallb_forall in Q. apply nth_error_In in T. specialize (Q p T).
    destruct p; try discriminate; auto. }
  assert (K : forall i, i < n -> nth_error (s_tasks s) i = Some SDone).
  { intros i Hi. destruct (nth_error (s_tasks s) i) as [p|] eqn:T; [f_equal; eauto|].
    apply nth_error_None in T. rewrite (si_len _ _ I) in T. lia. }
  assert (NIL : s_errs s = [] -> failures (s_done s) = [] /\ s_raised s = None).
  { rewrite E1, E2. intros Z. apply app_eq_nil in Z. destruct Z as (-> & Z). apply app_eq_nil in Z. destruct Z as (Z & ->).
    split; auto. now destruct (s_raised s). }
  split; [|split; [|split]].
  - destruct (s_errs s); [|discriminate]. destruct (s_outer s); [discriminate|]. intros _. destruct (NIL eq_refl). auto.
  - intros e. destruct (s_errs s) as [|x l] eqn:ER.
    + destruct (s_outer s); [|discriminate]. intros [= <-]. destruct (NIL eq_refl). auto.
    + intros [= <-]. left. exists a, b. split; auto. cbv zeta. rewrite <- E2. split; [discriminate|auto].
  - intros _ i J. destruct (si_done _ _ I i (K i (si_in _ _ I i J))) as [|(_ & Y)]; auto. contradiction.
  - intros _ C RN ON. pose proof (si_cancel _ _ I) as CC. rewrite C, RN, ON in CC. simpl in CC. apply nodup_full; [apply I| |].
    + intros i J. apply (si_in _ _ I), (si_sub _ _ I), J.
    + pose proof (NoDup_incl_length (seq_NoDup n 0) (l' := map fst (s_done s))) as Y. rewrite seq_length in Y. apply Y.
      intros j J. apply in_seq in J. destruct (si_done _ _ I j (K j ltac:(lia))) as [|(Z & _)]; auto. congruence.
Qed.

(** Where the block's error stands, and that nothing else is lost by it. *)
Lemma later_errs n s ops x : SI n s -> s_raised s = Some x ->
  let s' := fst (srun (V:=V) lim s ops) in
  s_raised s' = Some x /\ s_cons s' = CLeft /\
  exists b, s_errs s' = s_errs s ++ b /\ failures (s_done s') = failures (s_done s) ++ b.
Proof.
  revert s. induction ops as [|a ops IH]; intros s I R.
  - simpl. repeat split; auto; [apply (si_block _ _ I); congruence|]. exists []. now rewrite !app_nil_r.
  - rewrite srun_cons. cbn [fst].
    assert (X : s_raised (fst (sstep lim s a)) = Some x /\
      exists b, s_errs (fst (sstep lim s a)) = s_errs s ++ b /\ failures (s_done (fst (sstep lim s a))) = failures (s_done s) ++ b).
    { pose proof (si_block _ _ I) as BK.
      destruct s as [tasks free buf got errs canc who begun done outer raised]. simpl in *. subst raised.
      assert (who = CLeft) by (apply BK; discriminate). subst who.
      assert (N : forall l : list pyexc, exists b, l = l ++ b /\ failures done = failures done ++ b).
      { intros l. exists []. now rewrite !app_nil_r. }
      destruct a as [i|i r|i| | |e|]; simpl; auto.
      - destruct (nth_error tasks i) as [[]|]; simpl; auto. destruct lim; [destruct free|]; simpl; auto.
      - destruct (nth_error tasks i) as [[]|]; simpl; auto. destruct r as [v|e]; simpl; rewrite failures_app; simpl; split; auto.
        + exists []. now rewrite !app_nil_r.
        + destruct (is_cancelled e); [exists []; now rewrite !app_nil_r|exists [e]; auto].
      - destruct canc, (nth_error tasks i) as [[]|]; simpl; auto. }
    destruct X as (X1 & b & X2 & X3).
    destruct (IH _ (sstep_SI n s a I) X1) as (Y1 & Y2 & b' & Y3 & Y4).
    repeat split; auto. exists (b ++ b'). rewrite !app_assoc, <- X2, <- X3. auto.
Qed.

Lemma stream_app (s : sst V) o1 o2 : fst (srun lim s (o1 ++ o2)) = fst (srun lim (fst (srun lim s o1)) o2).
Proof.
  revert s. induction o1 as [|a o1 IH]; intros s; auto.
  rewrite <- app_comm_cons, !srun_cons. cbn [fst]. apply IH.
Qed.

Lemma block_raises n ops1 ops2 e :
  let s1 := fst (srun (V:=V) lim (sinit lim n) ops1) in
  let s2 := fst (srun lim (sinit lim n) (ops1 ++ SFail e :: ops2)) in
  s_cons s1 = CReading -> is_cancelled e = false ->
  s_cancel (fst (sstep lim s1 (SFail e))) = true /\
  (sfinal s2 <> XPending -> exists b, failures (s_done s2) = failures (s_done s1) ++ b /\
     sfinal s2 = XRaise (Group 0 group_msg (failures (s_done s1) ++ e :: b))).
Proof.
  intros s1 s2 R NC. pose proof (reach_SI n ops1) as I. fold s1 in I.
  assert (Z : s2 = fst (srun lim (fst (sstep lim s1 (SFail e))) ops2)).
  { unfold s2. rewrite stream_app. fold s1. now rewrite srun_cons. }
  assert (RN : s_raised s1 = None).
  { pose proof (si_block _ _ I) as BK. destruct (s_raised s1); auto. rewrite BK in R; discriminate. }
  assert (ER : s_errs s1 = failures (s_done s1)).
  { destruct (si_errs _ _ I) as (a & b & -> & ->). now rewrite RN. }
  pose proof (sstep_SI n s1 (SFail e) I) as I2.
  assert (X : s_raised (fst (sstep lim s1 (SFail e))) = Some e /\ s_errs (fst (sstep lim s1 (SFail e))) = s_errs s1 ++ [e] /\
    s_done (fst (sstep lim s1 (SFail e))) = s_done s1 /\ s_cancel (fst (sstep lim s1 (SFail e))) = true).
  { destruct s1 as [tasks free buf got errs canc who begun done outer raised]. simpl in *. subst who. rewrite NC. auto. }
  destruct X as (X1 & X2 & X3 & X4). split; auto.
  destruct (later_errs n _ ops2 e I2 X1) as (Y1 & Y2 & b & Y3 & Y4). rewrite <- Z in *.
  unfold sfinal. rewrite Y2. destruct (s_quiet s2); [|congruence]. intros _. exists b.
  rewrite Y4, X3. split; auto. rewrite Y3, X2, ER, <- app_assoc. simpl. destruct (failures (s_done s1)); reflexivity.
Qed.

Lemma outer_iff_s s ops : s_outer s = false -> (s_outer (fst (srun (V:=V) lim s ops)) = true <-> In SOuter ops).
Proof.
  assert (K : forall s a, s_outer (fst (sstep (V:=V) lim s a)) = true <-> s_outer s = true \/ a = SOuter).
  { intros [tasks free buf got errs canc who begun done outer raised] a.
    assert (A : forall b : sop V, b <> SOuter -> (outer = true <-> outer = true \/ b = SOuter)) by tauto.
    destruct a as [i|i r|i| | |e|]; simpl; try (match goal with |- context [?x = SOuter] => specialize (A x ltac:(discriminate)) end).
    - destruct (nth_error tasks i) as [[]|]; simpl; auto. destruct lim; [destruct free|]; simpl; auto.
    - destruct (nth_error tasks i) as [[]|]; simpl; auto. destruct r; simpl; auto.
    - destruct canc, (nth_error tasks i) as [[]|]; simpl; auto.
    - destruct who; simpl; auto. destruct (length tasks <=? length got); simpl; auto. destruct canc; simpl; auto. destruct buf; simpl; auto.
    - destruct who; simpl; auto.
    - destruct who, (is_cancelled e); simpl; auto.
    - tauto. }
  assert (G : forall ops s, s_outer (fst (srun (V:=V) lim s ops)) = true <-> s_outer s = true \/ In SOuter ops).
  { induction ops0 as [|a l IH]; intros s0; [simpl; tauto|]. rewrite srun_cons. cbn [fst]. rewrite IH, K. simpl.
    split; intros [X|X]; auto; destruct X; auto. }
  intros H. rewrite G, H. split; [intros [X|X]; [discriminate|auto]|auto].
Qed.

Lemma stream_once n ops : NoDup (s_begun (fst (srun (V:=V) lim (sinit lim n) ops))).
Proof. apply (si_bdup _ _ (reach_SI n ops)). Qed.
End CStream.

(** ** retry *)
Section RetryP.
Context {V : Type}.
Variable c : rcfg.
Variable w : world V.

(** After the failure of call j everything allows one more call. *)
Definition goes_on (j : nat) : Prop :=
  retryable (y_retry_on c) (w_call w j) = true /\ (Z.of_nat j < y_attempts c)%Z /\
  (y_float c = true -> j <= 1024) /\ w_sleep w j = None /\
  (forall dl, y_deadline c = Some dl -> (w_before w j < dl)%Q /\ (w_after w j < dl)%Q).

(** How retry ends after call m, and whether it slept after it. *)
Inductive ending (m : nat) : bool -> res V -> Prop :=
| end_final : retryable (y_retry_on c) (w_call w m) = false -> ending m false (w_call w m)
| end_last : retryable (y_retry_on c) (w_call w m) = true -> (y_attempts c <= Z.of_nat m)%Z -> ending m false (w_call w m)
| end_late dl : retryable (y_retry_on c) (w_call w m) = true -> y_deadline c = Some dl -> (dl <= w_before w m)%Q ->
    ending m false (w_call w m)
| end_slept dl : retryable (y_retry_on c) (w_call w m) = true -> y_deadline c = Some dl -> (dl <= w_after w m)%Q ->
    ending m true (w_call w m)
| end_interrupted x : retryable (y_retry_on c) (w_call w m) = true -> w_sleep w m = Some x -> ending m true (Err x)
| end_overflow : retryable (y_retry_on c) (w_call w m) = true -> y_float c = true -> 1024 < m ->
    (Z.of_nat m < y_attempts c)%Z -> ending m false (Err overflow).

Definition round (j : nat) : list (rev V) := [YCall (w_call w j); YSleep (y_delay c w j)].

Lemma retry_loop_spec fuel k :
  0 < fuel -> 0 < k -> (y_attempts c < Z.of_nat (k + fuel))%Z ->
  exists m (b : bool) r, k <= m /\
    retry_loop c w fuel k =
      (flat_map round (seq k (m - k)) ++ YCall (w_call w m) :: (if b then [YSleep (y_delay c w m)] else []), Some r) /\
    ending m b r /\ (forall j, k <= j < m -> goes_on j).
Proof.
  revert k. induction fuel as [|fuel IH]; intros k Hf Hk Ha; [lia|]. cbn [retry_loop].
  assert (stop : forall (b : bool) r, ending k b r ->
    exists m (b' : bool) r', k <= m /\
      (YCall (w_call w k) :: (if b then [YSleep (y_delay c w k)] else []), Some r) =
      (flat_map round (seq k (m - k)) ++ YCall (w_call w m) :: (if b' then [YSleep (y_delay c w m)] else []), Some r') /\
      ending m b' r' /\ (forall j, k <= j < m -> goes_on j)).
  { intros b r E. exists k, b, r. rewrite Nat.sub_diag. simpl. repeat split; auto; lia. }
  case_eq (w_call w k); [intros v W|intros e W].
  { rewrite <- W. apply (stop false). constructor. now rewrite W. }
  destruct (y_retry_on c e) eqn:RO; cbn [negb].
  2: { rewrite <- W. apply (stop false). constructor. now rewrite W. }
  assert (RT : retryable (y_retry_on c) (w_call w k) = true) by now rewrite W.
  destruct (Z.leb_spec (y_attempts c) (Z.of_nat k)).
  { rewrite <- W. apply (stop false). now apply end_last. }
  destruct (y_float c && (1024 <=? k - 1)) eqn:OV.
  { rewrite <- W. apply (stop false). apply andb_true_iff in OV. destruct OV as (OV1 & OV2). apply Nat.leb_le in OV2.
    apply end_overflow; auto; lia. }
  assert (more : goes_on k -> exists m (b : bool) r, k <= m /\
     (let '(l, o) := retry_loop c w fuel (S k) in (YCall (Err e) :: YSleep (y_delay c w k) :: l, o)) =
      (flat_map round (seq k (m - k)) ++ YCall (w_call w m) :: (if b then [YSleep (y_delay c w m)] else []), Some r) /\
      ending m b r /\ (forall j, k <= j < m -> goes_on j)).
  { intros G. destruct (IH (S k)) as (m & b & r & Lm & -> & E & A); [lia|lia|lia|].
    exists m, b, r. split; [lia|]. split; [|split; auto].
    - replace (m - k) with (S (m - S k)) by lia. simpl. now rewrite W.
    - intros j Hj. destruct (Nat.eq_dec j k) as [->|]; auto. apply A. lia. }
  assert (FL : y_float c = true -> k <= 1024).
  { intros F. rewrite F in OV. cbn [andb] in OV. destruct (Nat.leb_spec 1024 (k - 1)); [discriminate|]. lia. }
  destruct (y_deadline c) as [dl|] eqn:DL.
  - destruct (Qle_bool (dl - w_before w k) 0) eqn:QB.
    { rewrite <- W. apply (stop false). apply Qle_bool_iff in QB. eapply end_late; eauto.
      apply Qplus_le_r with (-(w_before w k))%Q. setoid_replace (- w_before w k + w_before w k)%Q with 0%Q by ring.
      setoid_replace (- w_before w k + dl)%Q with (dl - w_before w k)%Q by ring. auto. }
    assert (B : (w_before w k < dl)%Q).
    { apply Qnot_le_lt. intros X. assert (Y : (dl - w_before w k <= 0)%Q).
      { setoid_replace 0%Q with (w_before w k - w_before w k)%Q by ring. apply Qplus_le_compat; auto. apply Qle_refl. }
      apply Qle_bool_iff in Y. congruence. }
    destruct (w_sleep w k) as [x|] eqn:SL.
    { rewrite <- W. apply (stop true). now apply end_interrupted. }
    destruct (Qle_bool dl (w_after w k)) eqn:QA.
    { rewrite <- W. apply (stop true). apply Qle_bool_iff in QA. eapply end_slept; eauto. }
    apply more. repeat split; auto; intros; replace dl0 with dl in * by congruence; auto.
    apply Qnot_le_lt. intros X. apply Qle_bool_iff in X. congruence.
  - destruct (w_sleep w k) as [x|] eqn:SL.
    { rewrite <- W. apply (stop true). now apply end_interrupted. }
    apply more. repeat split; auto; congruence.
Qed.

Lemma retry_spec :
  exists m (b : bool) r, 1 <= m /\
    retry_run c w =
      (flat_map round (seq 1 (m - 1)) ++ YCall (w_call w m) :: (if b then [YSleep (y_delay c w m)] else []), Some r) /\
    ending m b r /\ (forall j, 1 <= j < m -> goes_on j).
Proof. apply retry_loop_spec; lia. Qed.

Lemma calls_app (l l' : list (rev V)) : calls (l ++ l') = calls l ++ calls l'.
Proof. induction l as [|[r|d] l IH]; simpl; auto. now rewrite IH. Qed.
Lemma sleeps_app (l l' : list (rev V)) : sleeps (l ++ l') = sleeps l ++ sleeps l'.
Proof. induction l as [|[r|d] l IH]; simpl; auto. now rewrite IH. Qed.
Lemma calls_rounds k n : calls (flat_map round (seq k n)) = map (w_call w) (seq k n).
Proof. revert k; induction n; intros k; simpl; auto. now rewrite IHn. Qed.
Lemma sleeps_rounds k n : sleeps (flat_map round (seq k n)) = map (y_delay c w) (seq k n).
Proof. revert k; induction n; intros k; simpl; auto. now rewrite IHn. Qed.
End RetryP.

(** ** bcall *)
Lemma ProofsStream_skipn {A} (l : list A) a b : skipn a (skipn b l) = skipn (b + a) l.
Proof. revert l; induction b; intros l; simpl; auto. destruct l; auto. now destruct a. Qed.

Lemma chunks_cut {A} (st : nat) : 0 < st -> forall (l : list A) k off,
  k = (length l + st - 1) / st ->
  forall full, skipn (off * st) full = l ->
  cut st l (map (batch_at full st) (map (fun j => j * st) (seq off k))).
Proof.
  intros P. induction l as [l IH] using (induction_ltof1 _ (@length A)). unfold ltof in IH.
  intros k off -> full E.
  destruct l as [|x t] eqn:EL.
  - replace ((length (@nil A) + st - 1) / st) with 0 by (symmetry; apply Nat.div_small; simpl; lia).
    simpl. split; [reflexivity|]. split; [auto|]. intros b rest pre Hb. destruct pre; discriminate.
  - rewrite <- EL in *. assert (L : 0 < length l) by (rewrite EL; simpl; lia).
    assert (Q : (length l + st - 1) / st = S ((length (skipn st l) + st - 1) / st)).
    { rewrite skipn_length. destruct (le_lt_dec st (length l)).
      - replace (length l + st - 1) with ((length l - st + st - 1) + 1 * st) by lia.
        rewrite Nat.div_add by lia. lia.
      - replace (length l - st) with 0 by lia. replace (length l + st - 1) with ((length l - 1) + 1 * st) by lia.
        rewrite Nat.div_add, !Nat.div_small by lia. lia. }
    rewrite Q. simpl. unfold batch_at at 1. rewrite E.
    assert (SK : skipn (S off * st) full = skipn st l).
    { rewrite <- E. rewrite ProofsStream_skipn. f_equal. simpl. lia. }
    destruct (IH (skipn st l)) with (off := S off) (full := full) (k := (length (skipn st l) + st - 1) / st) as (C & N & F); auto.
    { rewrite skipn_length. lia. }
    split; [|split].
    + simpl. rewrite C. apply firstn_skipn.
    + intros [X|X]; [|contradiction]. apply (f_equal (@length A)) in X. rewrite firstn_length in X. simpl in X. lia.
    + intros b rest pre Hb. destruct pre as [|p pre]; simpl in Hb.
      * injection Hb as <- <-. rewrite firstn_length. split; [lia|]. intros NE.
        destruct (le_lt_dec st (length l)); [lia|]. exfalso. apply NE.
        replace ((length (skipn st l) + st - 1) / st) with 0; auto.
        rewrite skipn_length. symmetry. apply Nat.div_small. lia.
      * injection Hb as _ Hb. eapply F; eauto.
Qed.
