(** Properties C36, C37 and C40: gather, bounded_map, alcall.  [V] is any type of
    results; [n] is the number of items; [ops] is any interleaving together with
    the outcomes of the calls.  [quiet s] says that all children have ended. *)
From Coq Require Import String.
From Coq Require Import List Bool Arith ZArith QArith Lia Permutation.
From Verif Require Import PyBase ModelHeap ModelExc SpecExc ModelGroup SpecGroup ProofsGroup.
Import ListNotations.
Local Close Scope Q_scope.
Local Open Scope string_scope.
Local Open Scope nat_scope.

Lemma settles_once V (l : list (res V)) x : settles 0 None l x <-> l = [x].
Proof.
  split.
  - intros (fs & r & -> & _ & L & H). destruct fs; [|simpl in L; lia]. simpl. f_equal.
    destruct r as [v|e]; [congruence|]. destruct (is_exception e); [destruct H|]; congruence.
  - intros ->. exists [], x. repeat split; auto; [simpl; lia|].
    destruct x as [v|e]; auto. destruct (is_exception e); auto.
Qed.

(** ** C36: gather *)

(** With return_exceptions every outcome is at its own position, whatever the
    interleaving; each awaitable is run exactly once. *)
Theorem C36_return_exceptions : forall V n (ops : list (gop V)),
  let c := gather_cfg true in let s := grun c (ginit c n) ops in
  ~ In GOuter ops -> quiet s = true ->
  exists l, gfinal c s = GReturn l /\ length l = n /\
    forall i, i < n -> exists x, nth_error l i = Some (Some x) /\ ends i (g_log s) = [x] /\ begins i (g_log s) = 1.
Proof.
  intros V n ops c s NO Q. destruct (collects c n ops eq_refl NO Q) as (F & L & C).
  exists (g_out s). repeat split; auto. intros i Hi.
  destruct (settled c n ops i Q C Hi) as (x & X & S & B & _). exists x.
  apply settles_once in S. split; auto. split; auto. fold s in S, B. now rewrite B, S.
Qed.
Print Assumptions C36_return_exceptions.

(** Without: a returned list holds the values, each at its own position. *)
Theorem C36_values : forall V n (ops : list (gop V)) l,
  let c := gather_cfg false in let s := grun c (ginit c n) ops in
  ~ In GOuter ops -> ~ self_cancelled (g_log s) -> gfinal c s = GReturn l ->
  length l = n /\
  forall i, i < n -> exists v, nth_error l i = Some (Some (Val v)) /\ ends i (g_log s) = [Val v].
Proof.
  intros V n ops l c s NO NC F.
  destruct (returns_values c n ops l eq_refl NO F NC) as (-> & C & Q & NE). split; [apply (gi_olen _ _ _ (reach_GI c n ops))|].
  intros i Hi. destruct (settled c n ops i Q C Hi) as (x & X & S & _). apply settles_once in S.
  destruct x as [v|e]; [eauto|]. exfalso. eapply NE; eauto.
Qed.
Print Assumptions C36_values.

(** If some awaitable raises (not a cancellation), gather raises one group that
    holds exactly the exceptions raised, each by its awaitable. *)
Theorem C36_raises : forall V n (ops : list (gop V)),
  let c := gather_cfg false in let s := grun c (ginit c n) ops in
  quiet s = true -> errors_of (g_out s) <> [] ->
  (forall i e, In (LEnd i (Err e)) (g_log s) -> proper e) ->
  exists errs, gfinal c s = GRaise (Group 0 group_msg errs) /\ Permutation errs (errors_of (g_out s)) /\
    (forall e, In e errs -> exists i, ends i (g_log s) = [Err e]).
Proof.
  intros V n ops c s Q NE P. destruct (raises_group c n ops eq_refl Q NE P) as (F & PE). fold s in F, PE.
  exists (g_errs s). repeat split; auto. intros e I.
  apply (Permutation_in _ PE) in I. apply in_errors_of in I. destruct I as (C & i & N).
  exists i. destruct (in_out_ends c n ops i (Err e)) as [S|(m & X)]; auto.
  - fold s. destruct (g_cancel s); auto.
  - apply settles_once in S. exact S.
  - injection X as ->. discriminate.
Qed.
Print Assumptions C36_raises.

(** An awaitable that raises an Exception: its error is among those raised. *)
Theorem C36_no_error_lost : forall V n (ops : list (gop V)) i e,
  let c := gather_cfg false in let s := grun c (ginit c n) ops in
  In (LEnd i (Err e)) (g_log s) -> is_cancelled e = false -> In e (errors_of (g_out s)).
Proof.
  intros V n ops i e c s I C. pose proof (reach_GI c n ops) as G. fold s in G.
  apply In_ends in I.
  destruct (nth_error (g_tasks s) i) as [p|] eqn:E.
  - destruct (gi_task _ _ _ G i p E) as (o & O & T). destruct p; simpl in T.
    + destruct T as (E' & _). rewrite E' in I. contradiction.
    + destruct T as (E' & _). rewrite E' in I. contradiction.
    + destruct T as ((A & _ & B) & _). simpl in B. destruct (ends i (g_log s)); [contradiction|simpl in A; lia].
    + destruct T as ((A & _ & B) & _). simpl in B. destruct (ends i (g_log s)); [contradiction|simpl in A; lia].
    + destruct T as (_ & [(x & -> & S & _)|(_ & (A & _ & B) & _)]).
      * apply settles_once in S. rewrite S in I. destruct I as [->|[]]. apply in_errors_of; eauto.
      * simpl in B. destruct (ends i (g_log s)); [contradiction|simpl in B; lia].
  - exfalso. apply In_ends in I. revert I. apply nth_error_None in E. rewrite (gi_len _ _ _ G) in E.
    assert (K : forall l x, length (g_tasks x) = n -> ends i (g_log x) = [] -> ends i (g_log (grun c x l)) = []).
    { induction l as [|a l IH]; simpl; intros x Lx B; auto.
      destruct (gstep_cases c x a) as [->|[M|[(_ & ->)|(_ & _ & _ & ->)]]]; auto.
      set (x' := gstep c x a) in *. clearbody x'.
      destruct M as (j & p & p' & o & evs & e' & N & T & _ & Ht & _ & Hl & _).
      apply IH; [rewrite Ht, upd_len'; auto|]. rewrite Hl, ends_app, B. simpl.
      assert (j <> i) by (assert (j < length (g_tasks x)) by (apply nth_error_Some; congruence); lia).
      destruct (about_other j i evs) as (-> & _ & _); auto. eapply tr_about; eauto. }
    intros I. apply In_ends in I. unfold s in I. rewrite K in I; auto. simpl. apply repeat_length.
Qed.
Print Assumptions C36_no_error_lost.

(** A cancelled caller never gets a result. *)
Theorem C36_outer_cancelled : forall V n (ops : list (gop V)) rexc,
  let c := gather_cfg rexc in let s := grun c (ginit c n) ops in
  In GOuter ops -> quiet s = true -> exists e, gfinal c s = GRaise e.
Proof. intros V n ops rexc c s. apply outer_raises. Qed.
Print Assumptions C36_outer_cancelled.

(** Three awaitables ending in the order 2, 0, 1. *)
Example C36_ex :
  let c := gather_cfg true in
  let s := grun c (ginit c 3) [GStart 1; GStart 0; GStart 2; GEnd 2 (Val 12); GEnd 0 (Err (Plain "E" "x")); GEnd 1 (Val 11)] in
  gfinal c s = GReturn [Some (Err (Plain "E" "x")); Some (Val 11); Some (Val 12)] /\
  let c := gather_cfg false in
  let s := grun c (ginit c 3) [GStart 1; GStart 0; GStart 2; GEnd 2 (Val 12); GEnd 0 (Err (Plain "E" "x")); GEnd 1 (Err (Cancelled ""))] in
  gfinal c s = GRaise (Group 0 group_msg [Plain "E" "x"]) /\
  gfinal c (grun c (ginit (V:=nat) c 0) []) = GReturn [].
Proof. repeat split; reflexivity. Qed.

(** An awaitable that raises a cancellation by itself: gather without
    return_exceptions returns normally, with exceptions among the results. *)
Theorem C36_self_cancel_refuted : exists ops,
  let c := gather_cfg false in let s := grun c (ginit (V:=nat) c 2) ops in
  ~ In GOuter ops /\ gfinal c s = GReturn [Some (Err (Cancelled "mine")); Some (Err (Cancelled ""))].
Proof.
  exists [GStart 0; GStart 1; GEnd 0 (Err (Cancelled "mine")); GEnd 1 (Err (Cancelled ""))].
  split; [|reflexivity]. simpl; intuition discriminate.
Qed.
Print Assumptions C36_self_cancel_refuted.

(** ** C37: bounded_map *)
Theorem C37_bound : forall V n limit rexc (c : cfg V) ops,
  bounded_map_cfg limit rexc = Ret c ->
  let s := grun c (ginit c n) ops in
  (Z.of_nat (active s) <= limit)%Z /\ (0 < limit)%Z.
Proof.
  intros V n limit rexc c ops E s. unfold bounded_map_cfg in E.
  destruct (Z.leb_spec limit 0); [discriminate|]. split; auto.
  assert (X : c_limit c = Some (Z.to_nat limit)) by (injection E as <-; reflexivity).
  pose proof (bounded c n ops (Z.to_nat limit) X) as B. fold s in B. lia.
Qed.
Print Assumptions C37_bound.

Theorem C37_bad_limit : forall V limit rexc,
  (limit <= 0)%Z -> bounded_map_cfg (V:=V) limit rexc = Raise ValueError.
Proof. intros V limit rexc H. unfold bounded_map_cfg. apply Z.leb_le in H. now rewrite H. Qed.
Print Assumptions C37_bad_limit.

(** The function is called at most once per item in any execution. *)
Theorem C37_once : forall V n limit rexc (c : cfg V) ops i,
  bounded_map_cfg limit rexc = Ret c ->
  begins i (g_log (grun c (ginit c n) ops)) <= 1.
Proof.
  intros V n limit rexc c ops i E. pose proof (attempts c n ops i) as A. unfold bounded_map_cfg in E.
  destruct (Z.leb_spec limit 0); [discriminate|]. injection E as <-. simpl in A. lia.
Qed.
Print Assumptions C37_once.

Theorem C37_return_exceptions : forall V n limit (c : cfg V) ops,
  bounded_map_cfg limit true = Ret c ->
  let s := grun c (ginit c n) ops in
  ~ In GOuter ops -> quiet s = true ->
  exists l, gfinal c s = GReturn l /\ length l = n /\
    forall i, i < n -> exists x, nth_error l i = Some (Some x) /\ ends i (g_log s) = [x] /\ begins i (g_log s) = 1.
Proof.
  intros V n limit c ops E s NO Q. unfold bounded_map_cfg in E.
  destruct (Z.leb_spec limit 0); [discriminate|]. assert (R : c_rexc c = true /\ c_retry c = 0%Z /\ c_default c = None) by (injection E as <-; auto).
  destruct R as (R & R1 & R2). destruct (collects c n ops R NO Q) as (F & L & C).
  exists (g_out s). repeat split; auto. intros i Hi.
  destruct (settled c n ops i Q C Hi) as (x & X & S & B & _). exists x. rewrite R1, R2 in S.
  apply settles_once in S. split; auto. split; auto. fold s in S, B. now rewrite B, S.
Qed.
Print Assumptions C37_return_exceptions.

Theorem C37_values : forall V n limit (c : cfg V) ops l,
  bounded_map_cfg limit false = Ret c ->
  let s := grun c (ginit c n) ops in
  ~ In GOuter ops -> ~ self_cancelled (g_log s) -> gfinal c s = GReturn l ->
  length l = n /\
  forall i, i < n -> exists v, nth_error l i = Some (Some (Val v)) /\ ends i (g_log s) = [Val v] /\ begins i (g_log s) = 1.
Proof.
  intros V n limit c ops l E s NO NC F. unfold bounded_map_cfg in E.
  destruct (Z.leb_spec limit 0); [discriminate|]. assert (R : c_rexc c = false /\ c_retry c = 0%Z /\ c_default c = None) by (injection E as <-; auto).
  destruct R as (R & R1 & R2). destruct (returns_values c n ops l R NO F NC) as (-> & C & Q & NE).
  split; [apply (gi_olen _ _ _ (reach_GI c n ops))|].
  intros i Hi. destruct (settled c n ops i Q C Hi) as (x & X & S & B & _). rewrite R1, R2 in S. apply settles_once in S.
  destruct x as [v|e]; [|exfalso; eapply NE; eauto]. exists v. repeat split; auto. fold s in S, B. now rewrite B, S.
Qed.
Print Assumptions C37_values.

Theorem C37_raises : forall V n limit (c : cfg V) ops,
  bounded_map_cfg limit false = Ret c ->
  let s := grun c (ginit c n) ops in
  quiet s = true -> errors_of (g_out s) <> [] ->
  (forall i e, In (LEnd i (Err e)) (g_log s) -> proper e) ->
  exists errs, gfinal c s = GRaise (Group 0 group_msg errs) /\ Permutation errs (errors_of (g_out s)).
Proof.
  intros V n limit c ops E s Q NE P. unfold bounded_map_cfg in E.
  destruct (Z.leb_spec limit 0); [discriminate|]. assert (R : c_rexc c = false) by (injection E as <-; auto).
  destruct (raises_group c n ops R Q NE P) as (F & PE). eauto.
Qed.
Print Assumptions C37_raises.

(** Slots are never lost: when nothing runs and items are left, one can start. *)
Theorem C37_progress : forall V n limit rexc (c : cfg V) ops,
  bounded_map_cfg limit rexc = Ret c ->
  let s := grun c (ginit c n) ops in
  quiet s = false -> active s = 0 -> exists i, gstep c s (GStart i) <> s.
Proof.
  intros V n limit rexc c ops E s Q A. unfold bounded_map_cfg in E.
  destruct (Z.leb_spec limit 0); [discriminate|].
  destruct (progress c n ops Q A) as [P|P]; auto.
  - injection E as <-. simpl. intros [= X]. lia.
  - exfalso. apply P. cbn [gstep]. fold s. destruct (g_stop s); auto.
    destruct (first_new (g_tasks s)) as [i|] eqn:F; auto. exfalso. apply first_new_Some in F.
    assert (K : forall l x, ~ In TNew (g_tasks x) -> ~ In TNew (g_tasks (grun c x l))).
    { induction l as [|a l IH]; simpl; intros x Nx; auto. apply IH.
      destruct (gstep_cases c x a) as [->|[M|[(_ & ->)|(_ & _ & _ & ->)]]]; auto.
      set (x' := gstep c x a) in *. clearbody x'.
      destruct M as (j & p & p' & o & evs & e' & N & T & _ & Ht & _ & Hl & _).
      rewrite Ht. intros I. apply In_nth_error in I. destruct I as (q & Iq). apply nth_upd_iff in Iq.
      destruct Iq as [(_ & Ip & _)|(Iq & _)]; [rewrite <- Ip in T; inversion T; subst; apply nth_error_In in N; auto|].
      apply nth_error_In in Iq. auto. }
    apply nth_error_In in F. revert F. apply K. injection E as <-. simpl.
    intros I. apply repeat_spec in I. discriminate.
Qed.
Print Assumptions C37_progress.

Example C37_ex :
  match bounded_map_cfg 2 true with
  | Ret c =>
      let s := grun c (ginit c 3) [GStart 2; GStart 0; GStart 1] in
      active s = 2 /\
      let s := grun c s [GEnd 2 (Val 12); GStart 1; GEnd 1 (Val 11); GEnd 0 (Err (Plain "E" "x"))] in
      gfinal c s = GReturn [Some (Err (Plain "E" "x")); Some (Val 11); Some (Val 12)]
  | Raise _ => False
  end.
Proof. repeat split; reflexivity. Qed.

(** ** C40: alcall (before its output options) *)

(** A negative limit is refused, any other accepted. *)
Theorem C40_refuses : forall V mc retry (default : option V) rexc delay backoff throttle x,
  alcall_cfg mc retry default rexc delay backoff throttle = Raise x <->
  x = ValueError /\ exists m, mc = Some m /\ (m < 0)%Z.
Proof.
  intros. unfold alcall_cfg. destruct mc as [m|].
  - destruct (Z.ltb_spec m 0).
    + split; [intros [= <-]; eauto|]. now intros [-> _].
    + split; [discriminate|]. intros (_ & m' & [= <-] & L). lia.
  - split; [discriminate|]. intros (_ & m' & H & _). discriminate.
Qed.
Print Assumptions C40_refuses.

(** One result per item at its own position; each settled by its own calls, at
    most 1 + retry_attempts of them, with the stated pauses between them. *)
Theorem C40_return_exceptions : forall V n mc retry default delay backoff throttle (c : cfg V) ops,
  alcall_cfg mc retry default true delay backoff throttle = Ret c ->
  let s := grun c (ginit c n) ops in
  ~ In GOuter ops -> quiet s = true ->
  exists l, gfinal c s = GReturn l /\ length l = n /\
    forall i, i < n -> exists x, nth_error l i = Some (Some x) /\ settles retry default (ends i (g_log s)) x /\
      Forall2 Qeq (naps i (g_log s)) (pauses delay backoff (pred (length (ends i (g_log s))))).
Proof.
  intros V n mc retry default delay backoff throttle c ops E s NO Q.
  assert (X : c_rexc c = true /\ c_retry c = retry /\ c_default c = default /\ c_delay c = delay /\ c_backoff c = backoff).
  { unfold alcall_cfg in E. destruct mc as [m|]; [destruct (m <? 0)%Z|]; try discriminate; injection E as <-; auto. }
  destruct X as (R & <- & <- & <- & <-).
  destruct (collects c n ops R NO Q) as (F & L & C).
  exists (g_out s). repeat split; auto. intros i Hi.
  destruct (settled c n ops i Q C Hi) as (x & X & S & B & N). exists x. auto.
Qed.
Print Assumptions C40_return_exceptions.

Theorem C40_values : forall V n mc retry default delay backoff throttle (c : cfg V) ops l,
  alcall_cfg mc retry default false delay backoff throttle = Ret c ->
  let s := grun c (ginit c n) ops in
  ~ In GOuter ops -> ~ self_cancelled (g_log s) -> gfinal c s = GReturn l ->
  length l = n /\
  forall i, i < n -> exists v, nth_error l i = Some (Some (Val v)) /\ settles retry default (ends i (g_log s)) (Val v) /\
      Forall2 Qeq (naps i (g_log s)) (pauses delay backoff (pred (length (ends i (g_log s))))).
Proof.
  intros V n mc retry default delay backoff throttle c ops l E s NO NC F.
  assert (X : c_rexc c = false /\ c_retry c = retry /\ c_default c = default /\ c_delay c = delay /\ c_backoff c = backoff).
  { unfold alcall_cfg in E. destruct mc as [m|]; [destruct (m <? 0)%Z|]; try discriminate; injection E as <-; auto. }
  destruct X as (R & <- & <- & <- & <-).
  destruct (returns_values c n ops l R NO F NC) as (-> & C & Q & NE).
  split; [apply (gi_olen _ _ _ (reach_GI c n ops))|].
  intros i Hi. destruct (settled c n ops i Q C Hi) as (x & X & S & B & N).
  destruct x as [v|e]; [|exfalso; eapply NE; eauto]. eauto.
Qed.
Print Assumptions C40_values.

(** An item fails for good exactly as [settles] says, and then alcall raises one
    group of all those errors. *)
Theorem C40_raises : forall V n mc retry default delay backoff throttle (c : cfg V) ops,
  alcall_cfg mc retry default false delay backoff throttle = Ret c ->
  let s := grun c (ginit c n) ops in
  quiet s = true -> errors_of (g_out s) <> [] ->
  (forall i e, In (LEnd i (Err e)) (g_log s) -> proper e) ->
  exists errs, gfinal c s = GRaise (Group 0 group_msg errs) /\ Permutation errs (errors_of (g_out s)) /\
    forall e, In e errs -> exists i, settles retry default (ends i (g_log s)) (Err e).
Proof.
  intros V n mc retry default delay backoff throttle c ops E s Q NE P.
  assert (X : c_rexc c = false /\ c_retry c = retry /\ c_default c = default).
  { unfold alcall_cfg in E. destruct mc as [m|]; [destruct (m <? 0)%Z|]; try discriminate; injection E as <-; auto. }
  destruct X as (R & <- & <-).
  destruct (raises_group c n ops R Q NE P) as (F & PE). fold s in F, PE. exists (g_errs s). repeat split; auto.
  intros e I. apply (Permutation_in _ PE) in I. apply in_errors_of in I. destruct I as (C & i & N).
  exists i. destruct (in_out_ends c n ops i (Err e)) as [S|(m & X)]; auto.
  - fold s. destruct (g_cancel s); auto.
  - injection X as ->. discriminate.
Qed.
Print Assumptions C40_raises.

(** In every execution, also a failing or cancelled one: attempts and concurrency. *)
Theorem C40_bounds : forall V n mc retry default rexc delay backoff throttle (c : cfg V) ops,
  alcall_cfg mc retry default rexc delay backoff throttle = Ret c ->
  let s := grun c (ginit c n) ops in
  (forall i, Z.of_nat (begins i (g_log s)) <= 1 + Z.max 0 retry)%Z /\
  (forall m, mc = Some m -> (0 < m)%Z -> (Z.of_nat (active s) <= m)%Z).
Proof.
  intros V n mc retry default rexc delay backoff throttle c ops E s. split.
  - intros i. pose proof (attempts c n ops i) as A. fold s in A.
    replace (c_retry c) with retry in A; auto.
    unfold alcall_cfg in E. destruct mc as [m|]; [destruct (m <? 0)%Z|]; try discriminate; injection E as <-; auto.
  - intros m -> Hm. unfold alcall_cfg in E. destruct (Z.ltb_spec m 0); [lia|].
    destruct (Z.eqb_spec m 0); [lia|]. assert (X : c_limit c = Some (Z.to_nat m)) by (injection E as <-; reflexivity).
    pose proof (bounded c n ops (Z.to_nat m) X) as B. fold s in B. lia.
Qed.
Print Assumptions C40_bounds.

(** No slot is wasted: an item that waits can start when fewer than
    max_concurrent have one, and always without a limit (None or 0); and when no
    item has a slot but not all are settled, another can be spawned or start. *)
Theorem C40_progress : forall V n mc retry default rexc delay backoff throttle (c : cfg V) ops,
  alcall_cfg mc retry default rexc delay backoff throttle = Ret c ->
  let s := grun c (ginit c n) ops in
  (forall i, nth_error (g_tasks s) i = Some TWait ->
     (forall m, mc = Some m -> m <> 0%Z -> (Z.of_nat (active s) < m)%Z) ->
     g_log (gstep c s (GStart i)) = (g_log s ++ [LBegin i])%list) /\
  (quiet s = false -> active s = 0 -> gstep c s GSpawn <> s \/ exists i, gstep c s (GStart i) <> s).
Proof.
  intros V n mc retry default rexc delay backoff throttle c ops E s.
  assert (L : match c_limit c with
              | None => mc = None \/ mc = Some 0%Z
              | Some k => exists m, mc = Some m /\ m <> 0%Z /\ (0 <= m)%Z /\ k = Z.to_nat m
              end).
  { unfold alcall_cfg in E. destruct mc as [m|]; [|injection E as <-; simpl; auto].
    destruct (Z.ltb_spec m 0); [discriminate|]. destruct (Z.eqb_spec m 0) as [->|]; injection E as <-; simpl; eauto 6. }
  split.
  - intros i N A. cbn [gstep]. rewrite N.
    assert (can_start c s = true) as ->.
    { unfold can_start. destruct (c_limit c) as [k|] eqn:K; [|reflexivity].
      destruct L as (m & -> & M & P & ->). specialize (A m eq_refl M).
      pose proof (gi_limit _ _ _ (reach_GI c n ops)) as G. unfold limit_ok in G. rewrite K in G.
      rewrite active_wsum in A. fold s in G. apply Nat.ltb_lt. lia. }
    unfold add_log, set_task, take. destruct (c_limit c); reflexivity.
  - intros Q A. apply (progress c n ops Q A). intros K. rewrite K in L. destruct L as (m & _ & M & P & H). lia.
Qed.
Print Assumptions C40_progress.

(** [settles] read out: a default is the result exactly when there is one and all
    1 + retry_attempts calls failed. *)
Theorem C40_default : forall V retry (d : V) l x,
  settles retry (Some d) l x ->
  (forall r, In r l -> failed r = true) ->
  x = Val d /\ Z.of_nat (length l) = (1 + Z.max 0 retry)%Z.
Proof.
  intros V retry d l x (fs & r & -> & F & L & H) A.
  assert (R : failed r = true) by (apply A; apply in_or_app; simpl; auto).
  destruct r as [v|e]; simpl in R; [discriminate|]. rewrite R in H. destruct H as (H & ->).
  split; auto. rewrite app_length. simpl length. lia.
Qed.
Print Assumptions C40_default.

Theorem C40_success_or_fatal : forall V retry (d : option V) l x r,
  settles retry d l x -> In r l -> failed r = false -> x = r /\ exists fs, l = (fs ++ [r])%list.
Proof.
  intros V retry d l x r (fs & y & -> & F & L & H) I N.
  apply in_app_or in I. destruct I as [I|[->|[]]].
  - rewrite Forall_forall in F. rewrite (F r I) in N. discriminate.
  - destruct r as [v|e]; simpl in N; [subst; eauto|]. rewrite N in H. subst; eauto.
Qed.
Print Assumptions C40_success_or_fatal.

(** Two items, at most one at a time, one retry: item 1 succeeds at its second
    call after a pause of 3, item 0 fails twice and gets the default. *)
Example C40_ex :
  match alcall_cfg (Some 1%Z) 1 (Some 99) true 3%Q 2%Q 0%Q with
  | Ret c =>
      let e := Err (Plain "E" "x") in
      let s := grun c (ginit c 2) [GStart 1; GStart 0; GEnd 1 e; GWake 1; GEnd 1 (Val 11);
                 GStart 0; GEnd 0 e; GWake 0; GEnd 0 e] in
      gfinal c s = GReturn [Some (Val 99); Some (Val 11)] /\ naps 0 (g_log s) = [3%Q] /\
      ends 1 (g_log s) = [e; Val 11]
  | Raise _ => False
  end.
Proof. repeat split; reflexivity. Qed.

(** alcall has the same hole as gather: a call that raises a cancellation by
    itself makes it return, here with a None for an item never called. *)
Theorem C40_self_cancel_refuted : exists ops,
  match alcall_cfg (V:=nat) None 0 None false 0%Q 1%Q 1%Q with
  | Ret c => let s := grun c (ginit c 2) ops in ~ In GOuter ops /\
      gfinal c s = GReturn [Some (Err (Cancelled "mine")); None] /\ begins 1 (g_log s) = 0
  | Raise _ => False
  end.
Proof.
  exists [GSpawn; GStart 0; GEnd 0 (Err (Cancelled "mine")); GStop].
  split; [|split; reflexivity]. simpl; intuition discriminate.
Qed.
Print Assumptions C40_self_cancel_refuted.
