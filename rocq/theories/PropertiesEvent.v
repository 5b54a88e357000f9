(** Properties C23-C25 and C74: Event.  [V] is any type of responses. *)
From Coq Require Import String.
From Coq Require Import List Bool Arith ZArith Lia.
From Verif Require Import PyBase PyFacts ModelHeap ModelExc SpecExc ProofsExc ModelEvent SpecEvent
  ProofsPQueue ProofsEvent.
Import ListNotations.

(** C23: any number of callers, any schedule, any outcomes and cancellations. *)
Theorem C23_at_most_once : forall (V : Type) (x : execution V) n s,
  let c := erun (einit x n) s in
  e_starts c <= 1 /\ (x_status x <> PENDING -> e_starts c = 0 /\ e_exec c = x).
Proof.
  intros V x n s c. destruct (erun_EI s x _ (einit_EI x n)) as [_ H]. fold c in H.
  destruct H as [(S0 & X & _)|[(S1 & P & _)|(S1 & P & _)]].
  - split; [lia | auto].
  - split; [lia | intros N; contradiction].
  - split; [lia | intros N; contradiction].
Qed.
Print Assumptions C23_at_most_once.
Example C23_ex : let c := erun (einit (V:=nat) exec0 3)
    [EStep 1; EStep 0; EStep 1; EStep 2; EStep 0; EFinish 1 (Returned 7) 4%Z; EStep 2; EStep 2; EStep 0; ECancel 0] in
  e_starts c = 1 /\ e_tasks c = [EGone; EDone None; EDone None] /\
  e_exec c = Exec COMPLETED (Some 4%Z) (Some 7) ENone (Some false).
Proof. repeat split; reflexivity. Qed.

(** At most one caller is past the lock. *)
Theorem C23_exclusive : forall (V : Type) (x : execution V) n s t u p q,
  let c := erun (einit x n) s in
  nth_error (e_tasks c) t = Some p -> nth_error (e_tasks c) u = Some q ->
  p = EHold \/ p = ERun -> q = EHold \/ q = ERun -> t = u.
Proof.
  intros V x n s t u p q c Hp Hq P Q. destruct (erun_EI s x _ (einit_EI x n)) as [H _]. fold c in H.
  assert (A : e_owner c = Some t) by (apply H; destruct P as [-> | ->]; auto).
  assert (B : e_owner c = Some u) by (apply H; destruct Q as [-> | ->]; auto). congruence.
Qed.
Print Assumptions C23_exclusive.

(** Once the operation has ended, no schedule of the remaining callers changes
    anything, and they all return normally. *)
Theorem C23_later_calls_noop : forall (V : Type) (x : execution V) n s s',
  let c := erun (einit x n) s in let c' := erun c s' in
  e_starts c = 1 -> (forall t, nth_error (e_tasks c) t <> Some ERun) ->
  e_exec c' = e_exec c /\ e_starts c' = 1 /\
  (forall t r, nth_error (e_tasks c') t = Some (EDone r) -> nth_error (e_tasks c) t = Some (EDone r) \/ r = None).
Proof.
  intros V x n s s' c c' Hs Hr.
  assert (G : forall s' (c : econf V), EI x c -> e_starts c = 1 -> (forall t, nth_error (e_tasks c) t <> Some ERun) ->
    let c' := erun c s' in e_exec c' = e_exec c /\ e_starts c' = 1 /\
    (forall t r, nth_error (e_tasks c') t = Some (EDone r) -> nth_error (e_tasks c) t = Some (EDone r) \/ r = None)).
  { clear. induction s' as [|a s' IH]; intros c HI Hs Hr c'; [subst c'; simpl; auto|].
    assert (Np : x_status (e_exec c) <> PENDING).
    { destruct HI as [_ [(S0 & _)|[(_ & _ & _ & [w R] & _)|(_ & _ & _ & d & dur & r & w & S & _)]]].
      - congruence.
      - exfalso. eapply Hr; eauto.
      - pose proof (settle_not_pending (begin x) d dur) as N. rewrite S in N. apply N. discriminate. }
    assert (K : e_exec (estep c a) = e_exec c /\ e_starts (estep c a) = e_starts c /\
      (forall t, nth_error (e_tasks (estep c a)) t <> Some ERun) /\
      (forall t r, nth_error (e_tasks (estep c a)) t = Some (EDone r) -> nth_error (e_tasks c) t = Some (EDone r) \/ r = None)).
    { destruct a as [t|t d dur|t]; simpl; destruct (nth_error (e_tasks c) t) as [p|] eqn:E; try (repeat split; auto; fail);
        destruct p; try (repeat split; auto; fail); try (exfalso; eapply Hr; eauto; fail).
      - destruct (e_owner c); [repeat split; auto|]. simpl. repeat split; auto; intros u;
          rewrite (nth_upd _ _ _ u _ _ E); destruct (u =? t); try discriminate; auto.
      - destruct (x_status (e_exec c)); [contradiction| | | | | |]; simpl; (repeat split; auto; intros u;
          rewrite (nth_upd _ _ _ u _ _ E); destruct (u =? t); try discriminate; auto; intros r [= <-]; auto).
      - simpl. repeat split; auto; intros u; rewrite (nth_upd _ _ _ u _ _ E); destruct (u =? t); try discriminate; auto.
      - simpl. repeat split; auto; intros u; rewrite (nth_upd _ _ _ u _ _ E); destruct (u =? t); try discriminate; auto. }
    destruct K as (K1 & K2 & K3 & K4).
    destruct (IH (estep c a) (estep_EI x c a HI)) as (A1 & A2 & A3); [congruence | exact K3 |].
    subst c'. split; [rewrite <- K1; exact A1|]. split; [exact A2|].
    intros t r Ht. destruct (A3 t r Ht) as [?|?]; auto. }
  apply G; auto. apply erun_EI, einit_EI.
Qed.
Print Assumptions C23_later_calls_noop.

(** Callers always come to rest once the operation ends; at rest every caller has
    returned or was cancelled, and if one returned from a PENDING event the operation
    ran exactly once and the recorded state is what that run left. *)
Theorem C23_at_rest : forall (V : Type) (x : execution V) n s,
  let c := erun (einit x n) s in e_rest c ->
  (forall t p, nth_error (e_tasks c) t = Some p -> p = EGone \/ exists r, p = EDone r) /\
  (x_status x = PENDING -> (exists t r, nth_error (e_tasks c) t = Some (EDone r)) ->
     e_starts c = 1 /\ exists d dur r t, e_exec c = fst (fst (invoke x d dur)) /\
       nth_error (e_tasks c) t = Some (EDone r) /\ r = snd (fst (invoke x d dur)) /\
       forall u r', nth_error (e_tasks c) u = Some (EDone r') -> u <> t -> r' = None).
Proof.
  intros V x n s c Hrest. destruct (erun_EI s x _ (einit_EI x n)) as [H1 H2]. fold c in H1, H2.
  assert (Ho : e_owner c = None).
  { destruct (e_owner c) as [t|] eqn:Eo; [|reflexivity]. exfalso. destruct (proj2 (H1 t) eq_refl) as [E'|E'];
      apply Hrest in E'; tauto. }
  split.
  - intros t p Hp. destruct (Hrest t p Hp) as (A & B & C). specialize (C Ho). destruct p; try contradiction; eauto.
  - intros P [t0 [r0 Hd]]. destruct H2 as [(_ & _ & _ & D)|[(_ & _ & _ & [w R] & _)|(S1 & _ & _ & d & dur & r & w & S & W & O)]].
    + exfalso. eapply D; eauto.
    + exfalso. apply Hrest in R. tauto.
    + split; [exact S1|]. exists d, dur, r, w. unfold invoke. rewrite P, S. simpl.
      split; [reflexivity|]. split; [exact W|]. split; [reflexivity|].
      intros u r' Hu Hne. destruct (O u r' Hu); [contradiction | assumption].
Qed.
Print Assumptions C23_at_rest.

Theorem C23_terminates : forall (V : Type) (x : execution V) n s,
  ebusy (einit x n) s -> List.length s <= 3 * n.
Proof.
  intros V x n s Hb. rewrite <- (emass_init x n). revert Hb. generalize (einit x n).
  induction s as [|a s IH]; intros c Hb; simpl; [lia|]. destruct Hb as [Hn Hb].
  destruct (estep_mass c a) as [E|E]; [contradiction|]. specialize (IH _ Hb). lia.
Qed.
Print Assumptions C23_terminates.

(** C24 *)
Theorem C24_outcome : forall (V : Type) (x : execution V) d dur, x_status x = PENDING ->
  let '(x', r, ran) := invoke x d dur in
  ran = true /\ expected d x' r /\ x_duration x' = Some dur.
Proof.
  intros V x d dur Hp. unfold invoke. rewrite Hp. destruct (settle (begin x) d dur) as [x' r] eqn:E.
  split; [reflexivity|].
  assert (Hdur : x_duration x' = Some dur).
  { destruct d as [v|e|]; simpl in E; [injection E as <- <-; reflexivity| |injection E as <- <-; reflexivity].
    destruct e as [| | | | |o m l]; simpl in E; try (injection E as <- <-; reflexivity).
    destruct (forallb is_exception l); injection E as <- <-; reflexivity. }
  split; [|exact Hdur]. split; [|split; [|split]].
  - intros v ->. injection E as <- <-. auto.
  - intros [-> | [m ->]]; injection E as <- <-; simpl; unfold timeout_error; eauto 10.
  - intros e -> Hn He. destruct e as [| m| | | |o m l]; simpl in *; try discriminate; try (injection E as <- <-; simpl; eauto 10; fail).
    + exfalso. apply Hn. right. eauto.
    + rewrite He in E. injection E as <- <-. simpl. eauto 10.
  - intros m ->. injection E as <- <-. simpl. auto.
Qed.
Print Assumptions C24_outcome.
Example C24_ex :
  (let '(x, r, _) := invoke (V:=nat) exec0 (Threw (Lion "ValidationError" "bad" false)) 3%Z in
   x = Exec FAILED (Some 3%Z) None (EExc (Lion "ValidationError" "bad" false)) (Some false) /\ r = None) /\
  (let '(x, r, _) := invoke (V:=nat) exec0 Expired 9%Z in x_status x = CANCELLED /\ x_retryable x = Some true /\ r = None) /\
  (let '(x, r, _) := invoke (V:=nat) exec0 (Threw (Cancelled "")) 2%Z in x_status x = CANCELLED /\ r = Some (Cancelled "")).
Proof. repeat split. Qed.

(** The retryable flag of a failure that is not a group is the error's own. *)
Theorem C24_retryable : forall (V : Type) (x : execution V) e dur, x_status x = PENDING ->
  is_exception e = true -> ~ is_group e ->
  let '(x', _, _) := invoke x (Threw e) dur in
  x_retryable x' = Some (match e with Lion _ _ b => b | _ => true end).
Proof.
  intros V x e dur Hp He Hg. unfold invoke. rewrite Hp.
  destruct e as [| m| | | |o m l]; simpl; try discriminate; try reflexivity.
  exfalso. apply Hg. unfold is_group. eauto.
Qed.
Print Assumptions C24_retryable.

(** An event that is not PENDING is left as it is. *)
Theorem C24_terminal_stable : forall (V : Type) (x : execution V) d dur, x_status x <> PENDING ->
  invoke x d dur = (x, None, false).
Proof. intros V x d dur H. unfold invoke. destruct (x_status x); try reflexivity. contradiction. Qed.
Print Assumptions C24_terminal_stable.

(** An error of the builtin TimeoutError class raised by the operation itself is
    reported as a timeout although no deadline was set, and is not kept. *)
Theorem C24_user_timeout_kept_refuted : exists e,
  is_exception e = true /\
  fst (fst (invoke (V:=nat) exec0 (Threw e) 1%Z)) =
    Exec CANCELLED (Some 1%Z) None (EExc timeout_error) (Some true) /\ e <> timeout_error.
Proof. exists (Timeout "upstream"). repeat split; discriminate. Qed.
Print Assumptions C24_user_timeout_kept_refuted.

(** C25: groups.  The flag looks at direct members only. *)
Theorem C25_group : forall (V : Type) (x : execution V) o m l dur, x_status x = PENDING ->
  is_exception (Group o m l) = true ->
  let '(x', _, _) := invoke x (Threw (Group o m l)) dur in
  (x_retryable x' = Some false <-> exists e, In e l /\ non_retryable e = true) /\
  (x_retryable x' = Some true <-> forall e, In e l -> non_retryable e = false) /\
  (x_retryable x' = Some false -> exists e, In e (leaves (Group o m l)) /\ non_retryable e = true).
Proof.
  intros V x o m l dur Hp He. unfold invoke. rewrite Hp. simpl in He. simpl. rewrite He. simpl.
  unfold classify. simpl. rewrite He.
  assert (F : (fun x0 => match x0 with Lion _ _ r => negb r | _ => false end) = non_retryable -> True) by auto.
  assert (G : forall l', existsb (fun x0 => match x0 with Lion _ _ r => negb r | _ => false end) l' = existsb non_retryable l').
  { induction l' as [|a t IH]; [reflexivity|]. simpl. rewrite IH. destruct a; reflexivity. }
  rewrite G. clear F G.
  assert (A : existsb non_retryable l = true <-> exists e, In e l /\ non_retryable e = true) by apply existsb_exists.
  assert (L : forall e, In e l -> non_retryable e = true -> In e (leaves (Group o m l))).
  { intros e Hin Hn. rewrite leaves_group. apply in_flat_map. exists e. split; [exact Hin|].
    destruct e; try discriminate. left. reflexivity. }
  destruct (existsb non_retryable l) eqn:E; simpl.
  - destruct (proj1 A eq_refl) as [e [H1 H2]]. split; [|split].
    + split; [eauto | reflexivity].
    + split; [discriminate|]. intros H. rewrite (H e H1) in H2. discriminate.
    + eauto.
  - split; [|split].
    + split; [discriminate|]. intros H. apply A in H. discriminate.
    + split; [|reflexivity]. intros _ e Hin. destruct (non_retryable e) eqn:En; [|reflexivity].
      assert (false = true) by (apply A; eauto). discriminate.
    + discriminate.
Qed.
Print Assumptions C25_group.

(** For flat groups that is the whole truth. *)
Theorem C25_flat_group : forall (V : Type) (x : execution V) o m l dur, x_status x = PENDING ->
  is_exception (Group o m l) = true -> (forall e, In e l -> ~ is_group e) ->
  let '(x', _, _) := invoke x (Threw (Group o m l)) dur in
  x_retryable x' = Some (negb (existsb non_retryable (leaves (Group o m l)))).
Proof.
  intros V x o m l dur Hp He Hf. pose proof (C25_group V x o m l dur Hp He) as H.
  destruct (invoke x (Threw (Group o m l)) dur) as [[x' r] ran]. destruct H as (H1 & H2 & _).
  assert (L : leaves (Group o m l) = l).
  { rewrite leaves_group. clear - Hf. induction l as [|a t IH]; [reflexivity|]. simpl.
    rewrite IH by (intros; apply Hf; right; assumption).
    assert (N : ~ is_group a) by (apply Hf; left; reflexivity).
    destruct a; try reflexivity. exfalso. apply N. unfold is_group. eauto. }
  rewrite L. destruct (existsb non_retryable l) eqn:E; simpl.
  - apply H1. apply existsb_exists in E. exact E.
  - apply H2. intros e He'. destruct (non_retryable e) eqn:En; [|reflexivity].
    assert (existsb non_retryable l = true) by (apply existsb_exists; eauto). congruence.
Qed.
Print Assumptions C25_flat_group.
Example C25_ex :
  let g := Group 1 "g" [Plain "OSError" "x"; Lion "ValidationError" "bad" false] in
  x_retryable (fst (fst (invoke (V:=nat) exec0 (Threw g) 0%Z))) = Some false.
Proof. reflexivity. Qed.

(** A non-retryable error one level down is missed. *)
Theorem C25_nested_refuted : exists e, is_exception e = true /\
  (exists l, In l (leaves e) /\ non_retryable l = true) /\
  x_retryable (fst (fst (invoke (V:=nat) exec0 (Threw e) 0%Z))) = Some true.
Proof.
  exists (Group 1 "outer" [Group 2 "inner" [Lion "ValidationError" "bad" false]]).
  split; [reflexivity|]. split; [|reflexivity].
  exists (Lion "ValidationError" "bad" false). split; [left; reflexivity | reflexivity].
Qed.
Print Assumptions C25_nested_refuted.

(** Anything else propagates: the event keeps status PROCESSING and every later
    invoke is a no-op.  This includes groups that contain a cancellation. *)
Theorem C25_base_exception_stuck : forall (V : Type) (x : execution V) e dur, x_status x = PENDING ->
  is_exception e = false -> (forall m, e <> Cancelled m) ->
  let '(x', r, _) := invoke x (Threw e) dur in
  x_status x' = PROCESSING /\ r = Some e /\ x_error x' = x_error x /\
  forall d dur', invoke x' d dur' = (x', None, false).
Proof.
  intros V x e dur Hp He Hc. unfold invoke. rewrite Hp.
  destruct e as [| m|c m b|m|c m|o m l]; simpl in *; try discriminate.
  - exfalso. eapply Hc; reflexivity.
  - repeat split.
  - rewrite He. repeat split.
Qed.
Print Assumptions C25_base_exception_stuck.
Example C25_stuck_ex :
  x_status (fst (fst (invoke (V:=nat) exec0 (Threw (Group 1 "g" [Cancelled ""; Plain "ValueError" "v"])) 5%Z))) = PROCESSING.
Proof. reflexivity. Qed.

(** C74: as_fresh_event *)
Theorem C74_fresh : forall (V : Type) (e : event V) newid now copy,
  let f := as_fresh_event newid now e copy in
  ev_id f = newid /\ ev_exec f = exec0 /\ x_status (ev_exec f) = PENDING /\
  ev_timeout f = ev_timeout e /\ ev_fields f = ev_fields e /\
  dget "original"%string (ev_meta f) = Some (MOriginal (ev_id e) (ev_created e)) /\
  (forall k, k <> "original"%string -> dget k (ev_meta f) = if copy then dget k (ev_meta e) else None).
Proof.
  intros V e newid now copy f. subst f. unfold as_fresh_event. cbn [ev_id ev_exec ev_timeout ev_fields ev_meta].
  split; [reflexivity|]. split; [reflexivity|]. split; [reflexivity|].
  split; [destruct (ev_timeout e); reflexivity|]. split; [reflexivity|]. split; [apply dget_dset_same|].
  intros k Hk. rewrite dget_dset_other by congruence. destruct copy; reflexivity.
Qed.
Print Assumptions C74_fresh.
Example C74_ex :
  let e := Event 5 100%Z [("k"%string, MUser 1); ("original"%string, MOriginal 3 50%Z)]
             (Exec FAILED (Some 2%Z) None (EExc (Plain "E" "m")) (Some true)) (Some 30%Z) false [("a"%string, 9)] in
  as_fresh_event 6 120%Z e true =
  Event 6 120%Z [("k"%string, MUser 1); ("original"%string, MOriginal 5 100%Z)] exec0 (Some 30%Z) false [("a"%string, 9)].
Proof. reflexivity. Qed.

(** A fresh copy runs again, whatever became of the first. *)
Theorem C74_retry : forall (V : Type) (e : event V) newid now copy d dur,
  snd (invoke (ev_exec (as_fresh_event newid now e copy)) d dur) = true.
Proof. intros. unfold invoke, as_fresh_event. simpl. destruct (settle _ d dur). reflexivity. Qed.
Print Assumptions C74_retry.

(** [streaming] is not carried over. *)
Theorem C74_streaming_kept_refuted : exists (e : event nat) newid now copy,
  ev_streaming e = true /\ ev_streaming (as_fresh_event newid now e copy) = false.
Proof. exists (Event 1 0%Z [] exec0 None true []), 2, 1%Z, true. split; reflexivity. Qed.
Print Assumptions C74_streaming_kept_refuted.
