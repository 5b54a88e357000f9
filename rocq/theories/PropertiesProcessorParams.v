(** C116: the parameters of a processor. *)
From Coq Require Import List ZArith QArith Qround Bool Arith Lia Lqa.
From Verif Require Import PyBase ModelProcessorParams.
Import ListNotations.
Local Open Scope nat_scope.

(** *** Specification *)

(** A number of the range, or NaN. *)
Inductive within (lo hi : Q) : num -> Prop :=
| w_int z : (lo <= inject_Z z <= hi)%Q -> within lo hi (Int z)
| w_flt q : (lo <= q <= hi)%Q -> within lo hi (Flt q)
| w_nan : within lo hi NaN.
(** A number, infinity included, that is at least 1, or NaN. *)
Inductive from_one : num -> Prop :=
| o_int z : (1 <= z)%Z -> from_one (Int z)
| o_flt q : (1 <= q)%Q -> from_one (Flt q)
| o_inf : from_one PInf
| o_nan : from_one NaN.

Definition near_hundredth : Q := 5764607523034235 # 576460752303423488.

Definition in_bounds (p : params) : Prop :=
  within 1 10000 (queue_capacity p) /\ within near_hundredth 3600 (capacity_refresh_time p) /\
  from_one (concurrency_limit p) /\ from_one (max_queue_size p) /\ from_one (max_denial_tracking p).

(** The whole number from [a] upwards. *)
Definition up (a : num) : option nat :=
  match a with
  | Int z => Some (Z.to_nat z)
  | Flt q => Some (Z.to_nat (Qceiling q))
  | _ => None
  end.

(** *** Proofs *)

Lemma qle_z a b : Qle_bool (inject_Z a) (inject_Z b) = (a <=? b)%Z.
Proof. unfold Qle_bool. cbn. rewrite !Z.mul_1_r. reflexivity. Qed.
Lemma qlt_dec p q : negb (Qle_bool q p) = true <-> (p < q)%Q.
Proof.
  rewrite negb_true_iff. split.
  - intros H. apply Qnot_le_lt. intro L. apply Qle_bool_iff in L. congruence.
  - intros H. destruct (Qle_bool q p) eqn:E; [|reflexivity]. apply Qle_bool_iff in E. lra.
Qed.

Lemma nlt_vals a b p q : val a = Some p -> val b = Some q -> (nlt a b = true <-> (p < q)%Q).
Proof.
  intros A B. rewrite <- qlt_dec. destruct a, b; try discriminate; cbn in *; injection A as <-; injection B as <-; reflexivity.
Qed.

Lemma between lo hi a p q : val lo = Some p -> val hi = Some q ->
  (nlt a lo = false /\ nlt hi a = false <-> within p q a).
Proof.
  intros A B. split.
  - intros [L H].
    assert (F : forall v, val a = Some v -> (p <= v <= q)%Q).
    { intros v V. split; apply Qnot_lt_le; intro N.
      - apply (nlt_vals a lo v p V A) in N. congruence.
      - apply (nlt_vals hi a q v B V) in N. congruence. }
    destruct a; try (constructor; apply F; reflexivity); try (constructor; fail).
    + destruct hi; try discriminate; discriminate.
    + destruct lo; try discriminate; discriminate.
  - intros W.
    assert (F : forall v, val a = Some v -> (p <= v <= q)%Q -> nlt a lo = false /\ nlt hi a = false).
    { intros v V [V1 V2]. split; apply not_true_is_false; intro N.
      - apply (nlt_vals a lo v p V A) in N. lra.
      - apply (nlt_vals hi a q v B V) in N. lra. }
    destruct W; try (eapply F; eauto; reflexivity). split; [reflexivity|]. destruct hi; reflexivity.
Qed.

Lemma one_up a : nlt a (Int 1) = false <-> from_one a.
Proof.
  split.
  - intros H. destruct a; cbn in H; try discriminate; try (constructor; fail).
    + constructor. apply negb_false_iff in H. rewrite (qle_z 1 z) in H. now apply Z.leb_le.
    + constructor. apply negb_false_iff in H. now apply Qle_bool_iff in H.
  - intros [z H|q H| |]; cbn; try reflexivity; apply negb_false_iff.
    + rewrite (qle_z 1 z). now apply Z.leb_le.
    + now apply Qle_bool_iff.
Qed.

Lemma one_not_neg a : from_one a -> nlt a (Int 0) = false.
Proof.
  intros [z H|q H| |]; cbn; try reflexivity; apply negb_false_iff.
  - rewrite (qle_z 0 z). apply Z.leb_le. lia.
  - apply Qle_bool_iff. change (inject_Z 0) with 0%Q. lra.
Qed.

(** Accepted are exactly the parameters within the bounds, NaN counting as
    within, with an integer concurrency limit; ValueError otherwise, and
    TypeError if only that integer is missing. *)
Theorem C116_accepts p :
  (create p = Ret p <-> in_bounds p /\ exists z, concurrency_limit p = Int z) /\
  (create p = Raise TypeError <-> in_bounds p /\ forall z, concurrency_limit p <> Int z) /\
  (create p = Raise ValueError <-> ~ in_bounds p).
Proof.
  assert (D : (in_bounds p /\ create p = if is_int (concurrency_limit p) then Ret p else Raise TypeError) \/
              (~ in_bounds p /\ create p = Raise ValueError)).
  { unfold create, in_bounds.
    rewrite <- (between (Int 1) (Int 10000) (queue_capacity p) 1 10000 eq_refl eq_refl).
    rewrite <- (between hundredth (Int 3600) (capacity_refresh_time p) near_hundredth 3600 eq_refl eq_refl).
    rewrite <- !one_up.
    destruct (nlt (queue_capacity p) (Int 1)); [right; split; [intuition discriminate|reflexivity]|].
    destruct (nlt (Int 10000) (queue_capacity p)); [right; split; [intuition discriminate|reflexivity]|].
    destruct (nlt (capacity_refresh_time p) hundredth); [right; split; [intuition discriminate|reflexivity]|].
    destruct (nlt (Int 3600) (capacity_refresh_time p)); [right; split; [intuition discriminate|reflexivity]|].
    destruct (nlt (concurrency_limit p) (Int 1)) eqn:L; [right; split; [intuition discriminate|reflexivity]|].
    destruct (nlt (max_queue_size p) (Int 1)); [right; split; [intuition discriminate|reflexivity]|].
    destruct (nlt (max_denial_tracking p) (Int 1)); [right; split; [intuition discriminate|reflexivity]|].
    rewrite (one_not_neg _ (proj1 (one_up _) L)). left. split; [auto|].
    destruct (is_int (concurrency_limit p)); reflexivity. }
  destruct D as [[B ->]|[B ->]].
  - destruct (concurrency_limit p) as [z| | | |] eqn:L; cbn; (split; [|split]).
    1: split; [eauto|reflexivity].
    1: split; [discriminate|intros [_ H]; destruct (H z eq_refl)].
    1: split; [discriminate|tauto].
    all: (split; [discriminate|intros [_ [z H]]; discriminate]) || (split; [intros _; split; [exact B|discriminate]|reflexivity]) ||
         (split; [discriminate|tauto]).
  - repeat split; try discriminate; try tauto.
Qed.

Section Effects.
  Context {E : Type}.

  Lemma ceil_pred q : Qceiling (q - 1) = (Qceiling q - 1)%Z.
  Proof.
    pose proof (Qle_ceiling q) as A. pose proof (Qceiling_lt q) as B.
    pose proof (Qle_ceiling (q - 1)) as C. pose proof (Qceiling_lt (q - 1)) as D.
    set (a := Qceiling q) in *. set (b := Qceiling (q - 1)) in *.
    assert (inject_Z (a - 1) == inject_Z a - 1)%Q as Ha by (unfold Z.sub; rewrite inject_Z_plus; reflexivity).
    assert (inject_Z (b - 1) == inject_Z b - 1)%Q as Hb by (unfold Z.sub; rewrite inject_Z_plus; reflexivity).
    assert (inject_Z b < inject_Z a)%Q as X1 by lra.
    assert (inject_Z a < inject_Z b + 2)%Q as X2 by lra.
    rewrite <- Zlt_Qlt in X1. change 2%Q with (inject_Z 2) in X2. rewrite <- inject_Z_plus, <- Zlt_Qlt in X2. lia.
  Qed.

  Lemma up_pred a n : up a = Some n -> up (pred_num a) = Some (pred n).
  Proof.
    destruct a as [z|q| | |]; cbn; try discriminate; intros [= <-]; f_equal.
    - lia.
    - rewrite ceil_pred. lia.
  Qed.

  Lemma up_pos a n : up a = Some n -> nlt (Int 0) a = negb (n =? 0).
  Proof.
    destruct a as [z|q| | |]; cbn; try discriminate; intros [= <-].
    - rewrite (qle_z z 0). destruct (Z.leb_spec z 0), (Nat.eqb_spec (Z.to_nat z) 0); cbn; lia || reflexivity.
    - destruct (Qle_bool q (inject_Z 0)) eqn:L; cbn.
      + apply Qle_bool_iff in L. apply Qceiling_resp_le in L. rewrite Qceiling_Z in L.
        replace (Z.to_nat (Qceiling q)) with 0 by lia. reflexivity.
      + destruct (Nat.eqb_spec (Z.to_nat (Qceiling q)) 0) as [H|H]; [|reflexivity].
        pose proof (Qle_ceiling q) as A. assert (Qceiling q <= 0)%Z as B by lia.
        rewrite Zle_Qle in B. assert (q <= inject_Z 0)%Q as C by lra. apply Qle_bool_iff in C. congruence.
  Qed.

  Lemma batch_up : forall (q : list E) a n, up a = Some n ->
    exists c, batch a q = (firstn n q, skipn n q, c) /\ (firstn n q = [] -> c = a).
  Proof.
    induction q as [|e t IH]; intros a n U; cbn [batch].
    - exists a. rewrite firstn_nil, skipn_nil. auto.
    - rewrite (up_pos a n U). destruct n as [|n]; cbn; [eauto|].
      destruct (IH _ _ (up_pred _ _ U)) as (c & -> & _). cbn. exists c. split; [reflexivity|discriminate].
  Qed.

  Lemma skip_add a b : forall q : list E, skipn (a + b) q = skipn b (skipn a q).
  Proof. induction a as [|a IH]; intros [|e q]; cbn; rewrite ?skipn_nil; auto. Qed.
  Lemma first_add a b : forall q : list E, firstn (a + b) q = firstn a q ++ firstn b (skipn a q).
  Proof. induction a as [|a IH]; intros [|e q]; cbn; rewrite ?firstn_nil; auto. now rewrite IH. Qed.

  (** A batch starts the next [up queue_capacity] events of the queue, and the
      capacity is the full one before every batch. *)
  Theorem C116_batches p c n (q : list E) : up (queue_capacity p) = Some c ->
    exists ss, processes p n (q, queue_capacity p) = (ss, (skipn (n * c) q, queue_capacity p)) /\
      concat ss = firstn (n * c) q /\ Forall (fun s => length s <= c) ss.
  Proof.
    intros U. revert q. induction n as [|n IH]; intros q; cbn [processes Nat.mul].
    - exists []. cbn. auto.
    - unfold process. cbn [fst snd]. destruct (batch_up q _ _ U) as (d & -> & D).
      assert (match firstn c q with [] => d | _ => queue_capacity p end = queue_capacity p) as ->
        by (destruct (firstn c q); auto).
      destruct (IH (skipn c q)) as (ss & -> & S1 & S2).
      exists (firstn c q :: ss). split; [|split].
      + rewrite skip_add. reflexivity.
      + cbn. rewrite S1, first_add. reflexivity.
      + constructor; [rewrite firstn_length; lia|exact S2].
  Qed.

  (** All accepted capacities but NaN start at least one event per batch. *)
  Theorem C116_progress p : in_bounds p -> queue_capacity p <> NaN ->
    exists c, up (queue_capacity p) = Some c /\ (1 <= Z.of_nat c <= 10000)%Z.
  Proof.
    intros (H & _) N. destruct H as [z H|q H|]; [| |congruence]; cbn; eexists; (split; [reflexivity|]).
    - change 1%Q with (inject_Z 1) in H. change 10000%Q with (inject_Z 10000) in H. rewrite <- !Zle_Qle in H. lia.
    - destruct H as [H1 H2]. apply Qceiling_resp_le in H1. apply Qceiling_resp_le in H2.
      change 1%Q with (inject_Z 1) in H1. change 10000%Q with (inject_Z 10000) in H2. rewrite Qceiling_Z in H1, H2. lia.
  Qed.

  (** With NaN as capacity no event is ever started. *)
  Theorem C116_nan_capacity p n (q : list E) : queue_capacity p = NaN ->
    processes p n (q, queue_capacity p) = (repeat [] n, (q, NaN)).
  Proof.
    intros ->. assert (B : batch NaN q = ([], q, NaN)) by (destruct q; reflexivity).
    induction n as [|n IH]; [reflexivity|]. cbn [processes]. unfold process. cbn [fst snd]. rewrite B.
    rewrite IH. reflexivity.
  Qed.

  Lemma full_up m n k : up m = Some n -> nge (Int (Z.of_nat k)) m = (n <=? k).
  Proof.
    destruct m as [z|q| | |]; cbn; try discriminate; intros [= <-]; rewrite negb_involutive.
    - rewrite (qle_z z (Z.of_nat k)). destruct (Z.leb_spec z (Z.of_nat k)), (Nat.leb_spec (Z.to_nat z) k); lia || reflexivity.
    - destruct (Nat.leb_spec (Z.to_nat (Qceiling q)) k) as [H|H].
      + apply Qle_bool_iff. pose proof (Qle_ceiling q) as A. assert (Qceiling q <= Z.of_nat k)%Z as B by lia.
        rewrite Zle_Qle in B. lra.
      + destruct (Qle_bool q _) eqn:L; [|reflexivity]. apply Qle_bool_iff in L. apply Qceiling_resp_le in L.
        rewrite Qceiling_Z in L. lia.
  Qed.

  (** The queue takes [up max_queue_size] entries and refuses further ones; with
      infinity or NaN as size it takes all. *)
  Theorem C116_queue p (es : list E) :
    (forall n, up (max_queue_size p) = Some n -> enqueue_all p [] es = firstn n es) /\
    (max_queue_size p = PInf \/ max_queue_size p = NaN -> enqueue_all p [] es = es).
  Proof.
    assert (A : forall (l q : list E) n, up (max_queue_size p) = Some n -> length q <= n ->
              enqueue_all p q l = q ++ firstn (n - length q) l).
    { induction l as [|e l IH]; intros q n U L; cbn [enqueue_all fold_left]; [now rewrite firstn_nil, app_nil_r|].
      unfold enqueue. rewrite (full_up _ _ _ U). destruct (Nat.leb_spec n (length q)); cbn [fst].
      - change (enqueue_all p q l = q ++ firstn (n - length q) (e :: l)). rewrite (IH _ _ U L).
        replace (n - length q) with 0 by lia. reflexivity.
      - change (enqueue_all p (q ++ [e]) l = q ++ firstn (n - length q) (e :: l)).
        rewrite (IH (q ++ [e]) n U) by (rewrite app_length; cbn; lia).
        rewrite app_length. cbn [length]. replace (n - length q) with (S (n - (length q + 1))) by lia.
        cbn. rewrite <- app_assoc. reflexivity. }
    assert (B : forall (l q : list E), max_queue_size p = PInf \/ max_queue_size p = NaN -> enqueue_all p q l = q ++ l).
    { induction l as [|e l IH]; intros q H; cbn [enqueue_all fold_left]; [now rewrite app_nil_r|].
      unfold enqueue. replace (nge _ (max_queue_size p)) with false by (destruct H as [-> | ->]; reflexivity).
      cbn [fst]. change (enqueue_all p (q ++ [e]) l = q ++ e :: l). rewrite (IH _ H), <- app_assoc. reflexivity. }
    split.
    - intros n U. rewrite (A es [] n U) by (cbn; lia). cbn. now rewrite Nat.sub_0_r.
    - apply (B es []).
  Qed.

  Lemma backfill_all p : forall (es q : list E),
    fst (backfill p q es) = enqueue_all p q es /\
    (snd (backfill p q es) = Ret tt /\ enqueue_all p q es = q ++ es \/
     snd (backfill p q es) = Raise QueueFullError /\ length (enqueue_all p q es) < length (q ++ es)).
  Proof.
    assert (K : forall (es q : list E), length (enqueue_all p q es) <= length q + length es).
    { induction es as [|e es IH]; intros q; [cbn; lia|]. cbn [enqueue_all fold_left].
      etransitivity; [apply IH|]. unfold enqueue. destruct (nge _ _); cbn [fst length]; [lia|]. rewrite app_length. cbn. lia. }
    assert (S : forall (es q : list E), nge (Int (Z.of_nat (length q))) (max_queue_size p) = true -> enqueue_all p q es = q).
    { induction es as [|e es IH]; intros q F; [reflexivity|]. cbn. unfold enqueue. rewrite F. cbn. now apply IH. }
    induction es as [|e es IH]; intros q.
    - cbn. rewrite app_nil_r. auto.
    - cbn [backfill]. change (enqueue_all p q (e :: es)) with (enqueue_all p (fst (enqueue p q e)) es).
      unfold enqueue. destruct (nge _ _) eqn:F.
      + cbn [fst snd]. rewrite (S es q F). split; [reflexivity|]. right. split; [reflexivity|]. rewrite app_length. cbn. lia.
      + cbn [fst]. destruct (IH (q ++ [e])) as [-> R]. split; [reflexivity|].
        rewrite <- app_assoc in R. exact R.
  Qed.

  (** start() raises and changes nothing, every time, when the parameters are
      refused. *)
  Theorem C116_start_refused (e : executor E) : e_proc e = None ->
    (e_config e = None -> start e = (e, Raise TypeError)) /\
    (forall p x, e_config e = Some p -> create p = Raise x -> start e = (e, Raise x)) /\
    (forall e', fst (start e) = e' -> e_proc e' <> None -> exists p, e_config e = Some p /\ create p = Ret p).
  Proof.
    unfold start. intros P. rewrite P. split; [now intros ->|]. split; [now intros p x -> ->|].
    intros e' <- N. destruct (e_config e) as [p|]; [|destruct (N P)].
    destruct (create p) as [q|] eqn:Q; [|destruct (N P)]. exists p. split; [reflexivity|]. rewrite Q. f_equal.
    unfold create in Q. repeat match type of Q with (if ?b then _ else _) = _ => destruct b; [discriminate|] end. congruence.
  Qed.

  (** With accepted parameters the queue gets as many of the pending events as
      it takes; if that is not all of them start() raises QueueFullError, and no
      later start() queues the others. *)
  Theorem C116_start (e : executor E) p : e_proc e = None -> e_config e = Some p -> create p = Ret p ->
    exists q r, start e = (Ex (e_config e) (e_pending e) (Some (p, q)), r) /\
      (r = Ret tt /\ q = e_pending e \/
       r = Raise QueueFullError /\ exists c, up (max_queue_size p) = Some c /\ c < length (e_pending e) /\ q = firstn c (e_pending e)) /\
      forall n, starts (S n) e = Ex (e_config e) (e_pending e) (Some (p, q)).
  Proof.
    intros P C A. unfold starts. fold (@starts E). unfold start. rewrite P, C, A.
    destruct (backfill_all p (e_pending e) []) as [F R].
    destruct (backfill p [] (e_pending e)) as [q r]. cbn [fst snd] in *. subst q.
    exists (enqueue_all p [] (e_pending e)), r. split; [reflexivity|]. split.
    - destruct R as [[-> R]|[-> R]]; [left; auto|right]. split; [reflexivity|].
      destruct (C116_queue p (e_pending e)) as [Q1 Q2]. cbn [app] in R.
      assert (up (max_queue_size p) = None -> max_queue_size p = PInf \/ max_queue_size p = NaN) as U.
      { apply C116_accepts in A. destruct A as [(_ & _ & _ & A & _) _]. destruct A; auto; discriminate. }
      destruct (up (max_queue_size p)) as [c|].
      + exists c. specialize (Q1 c eq_refl). rewrite Q1 in *. rewrite firstn_length in R. split; [reflexivity|]. split; [lia|reflexivity].
      + rewrite (Q2 (U eq_refl)) in R. lia.
    - induction n as [|n IH]; [reflexivity|]. cbn [starts] in *. exact IH.
  Qed.
End Effects.
Print Assumptions C116_accepts.
Print Assumptions C116_batches.
Print Assumptions C116_progress.
Print Assumptions C116_nan_capacity.
Print Assumptions C116_queue.
Print Assumptions C116_start_refused.
Print Assumptions C116_start.

(** NaN passes the bounds that the documentation promises. *)
Definition nans : params := Params NaN NaN (Int 100) NaN NaN.
Theorem C116_bounds_refuted :
  ~ (forall p, create p = Ret p -> exists c, up (queue_capacity p) = Some c /\ (1 <= Z.of_nat c <= 10000)%Z).
Proof. intros H. destruct (H nans eq_refl) as (c & C & _). discriminate C. Qed.
Print Assumptions C116_bounds_refuted.

Definition usual : params := Params (Int 2) (Flt (1 # 2)) (Int 100) (Int 1000) (Int 10000).
Definition half : params := Params (Flt (5 # 2)) (Int 1) (Int 1) (Flt (3 # 2)) PInf.
Example C116_ex :
  create usual = Ret usual /\ create half = Ret half /\ create nans = Ret nans /\
  create (Params (Int 2) (Flt (1 # 128)) (Int 100) (Int 1000) (Int 10000)) = Raise ValueError /\
  create (Params (Int 2) (Int 1) (Flt 2) (Int 1000) (Int 10000)) = Raise TypeError /\
  create (Params PInf (Int 1) (Int 2) (Int 1000) (Int 10000)) = Raise ValueError /\
  fst (processes half 2 ([1; 2; 3; 4; 5; 6; 7], queue_capacity half)) = [[1; 2; 3]; [4; 5; 6]] /\
  enqueue_all half [] [1; 2; 3] = [1; 2] /\
  start (Ex (Some (Params (Int 0) (Int 1) (Int 2) (Int 1000) (Int 10000))) [1] None)
    = (Ex (Some (Params (Int 0) (Int 1) (Int 2) (Int 1000) (Int 10000))) [1] None, Raise ValueError) /\
  start (Ex (Some half) [1; 2; 3] None) = (Ex (Some half) [1; 2; 3] (Some (half, [1; 2])), Raise QueueFullError) /\
  start (Ex (Some half) [1; 2; 3] (Some (half, [1; 2]))) = (Ex (Some half) [1; 2; 3] (Some (half, [1; 2])), Ret tt).
Proof. repeat split; reflexivity. Qed.
