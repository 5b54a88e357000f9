(** Facts about the binary64 operations of ModelSimFloat, for C103. *)
From Coq Require Import List Bool Arith ZArith Reals Lra Lia Psatz.
From Flocq Require Import Core IEEE754.BinarySingleNaN.
From Flocq Require Import Sterbenz.
From Verif Require Import PyBase ModelSim ModelSimFloat.
Local Open Scope R_scope.

Notation fx := (SpecFloat.fexp 53 1024).
Definition rnd (x : R) : R := round radix2 fx (round_mode mode_NE) x.
Definition repr (x : R) : Prop := generic_format radix2 fx x.
Definition val (f : float) (r : R) : Prop := is_finite f = true /\ B2R f = r.

#[local] Instance fx_valid : Valid_exp fx := fexp_correct 53 1024 prec_gt.
#[local] Instance fx_monotone : Monotone_exp fx.
Proof. unfold SpecFloat.fexp. apply FLT_exp_monotone. Qed.

Lemma rnd_le x y : x <= y -> rnd x <= rnd y.
Proof. intros H. apply round_le; [apply fx_valid|apply valid_rnd_round_mode|exact H]. Qed.
Lemma rnd_repr x : repr x -> rnd x = x.
Proof. intros H. apply round_generic; [apply valid_rnd_round_mode|exact H]. Qed.
Lemma repr_rnd x : repr (rnd x).
Proof. apply generic_format_round; [apply fx_valid|apply valid_rnd_round_mode]. Qed.

Lemma repr_F2R m e : (Z.abs m < 2 ^ 53)%Z -> (-1074 <= e)%Z -> repr (F2R (Float radix2 m e)).
Proof. intros Hm He. apply generic_format_FLT. exists (Float radix2 m e); cbn; auto. Qed.
Lemma repr_nat n : (Z.of_nat n < 2 ^ 53)%Z -> repr (INR n).
Proof.
  intros H. rewrite INR_IZR_INZ. replace (IZR (Z.of_nat n)) with (F2R (Float radix2 (Z.of_nat n) 0)).
  - apply repr_F2R; lia.
  - unfold F2R. cbn. ring.
Qed.
Lemma repr_0 : repr 0.
Proof. apply generic_format_0. Qed.
Lemma repr_1 : repr 1.
Proof. change 1 with (INR 1). apply repr_nat. lia. Qed.
Lemma repr_3 : repr 3.
Proof. replace 3 with (INR 3) by (cbn; lra). apply repr_nat. lia. Qed.
Lemma repr_4 : repr 4.
Proof. replace 4 with (INR 4) by (cbn; lra). apply repr_nat. lia. Qed.
Lemma repr_2 : repr 2.
Proof. replace 2 with (INR 2) by (cbn; lra). apply repr_nat. lia. Qed.

Lemma rnd_between a b x : repr a -> repr b -> a <= x <= b -> a <= rnd x <= b.
Proof.
  intros Ha Hb [H1 H2]. split.
  - rewrite <- (rnd_repr a Ha). apply rnd_le. exact H1.
  - rewrite <- (rnd_repr b Hb). apply rnd_le. exact H2.
Qed.
Lemma repr_opp x : repr x -> repr (- x).
Proof. apply generic_format_opp. Qed.

(** Nothing of size at most 4 overflows. *)
Lemma no_overflow x : Rabs x <= 4 -> Rlt_bool (Rabs (rnd x)) (bpow radix2 1024) = true.
Proof.
  intros H. apply Rlt_bool_true. apply Rle_lt_trans with (bpow radix2 2).
  - change (bpow radix2 2) with 4. apply Rabs_le. apply Rabs_le_inv in H.
    apply rnd_between; [apply repr_opp, repr_4|apply repr_4|exact H].
  - apply bpow_lt. lia.
Qed.

Lemma val_add x y a b : val x a -> val y b -> Rabs (a + b) <= 4 -> val (fadd x y) (rnd (a + b)).
Proof.
  intros [Fx Vx] [Fy Vy] H. pose proof (Bplus_correct 53 1024 prec_gt prec_lt mode_NE x y Fx Fy) as C.
  rewrite Vx, Vy in C. change (round radix2 fx (round_mode mode_NE) (a + b)) with (rnd (a + b)) in C.
  rewrite (no_overflow _ H) in C. destruct C as (C1 & C2 & _). split; assumption.
Qed.
Lemma val_sub x y a b : val x a -> val y b -> Rabs (a - b) <= 4 -> val (fsub x y) (rnd (a - b)).
Proof.
  intros [Fx Vx] [Fy Vy] H. pose proof (Bminus_correct 53 1024 prec_gt prec_lt mode_NE x y Fx Fy) as C.
  rewrite Vx, Vy in C. change (round radix2 fx (round_mode mode_NE) (a - b)) with (rnd (a - b)) in C.
  rewrite (no_overflow _ H) in C. destruct C as (C1 & C2 & _). split; assumption.
Qed.
Lemma val_mul x y a b : val x a -> val y b -> Rabs (a * b) <= 4 -> val (fmul x y) (rnd (a * b)).
Proof.
  intros [Fx Vx] [Fy Vy] H. pose proof (Bmult_correct 53 1024 prec_gt prec_lt mode_NE x y) as C.
  rewrite Vx, Vy in C. change (round radix2 fx (round_mode mode_NE) (a * b)) with (rnd (a * b)) in C.
  rewrite (no_overflow _ H) in C. destruct C as (C1 & C2 & _). split; [|exact C1].
  unfold fmul. rewrite C2, Fx, Fy. reflexivity.
Qed.
Lemma val_div x y a b : val x a -> val y b -> b <> 0 -> Rabs (a / b) <= 4 -> val (fdiv x y) (rnd (a / b)).
Proof.
  intros [Fx Vx] [Fy Vy] Hb H. rewrite <- Vy in Hb.
  pose proof (Bdiv_correct 53 1024 prec_gt prec_lt mode_NE x y Hb) as C.
  rewrite Vx, Vy in C. change (round radix2 fx (round_mode mode_NE) (a / b)) with (rnd (a / b)) in C.
  rewrite (no_overflow _ H) in C. destruct C as (C1 & C2 & _). split; [|exact C1].
  unfold fdiv. rewrite C2. exact Fx.
Qed.
Lemma val_nat n : (Z.of_nat n < 2 ^ 53)%Z -> val (of_nat n) (INR n).
Proof.
  intros H. unfold of_nat.
  pose proof (binary_normalize_correct 53 1024 prec_gt prec_lt mode_NE (Z.of_nat n) 0 false) as C.
  cbn zeta in C.
  replace (F2R (Float radix2 (Z.of_nat n) 0)) with (INR n) in C
    by (rewrite INR_IZR_INZ; unfold F2R; cbn; ring).
  change (round radix2 fx (round_mode mode_NE) (INR n)) with (rnd (INR n)) in C.
  rewrite (rnd_repr _ (repr_nat n H)) in C. rewrite Rlt_bool_true in C.
  - destruct C as (C1 & C2 & _). split; assumption.
  - rewrite Rabs_pos_eq by apply pos_INR. rewrite INR_IZR_INZ.
    apply Rlt_trans with (bpow radix2 53); [|apply bpow_lt; lia].
    change (bpow radix2 53) with (IZR (2 ^ 53)). apply IZR_lt. exact H.
Qed.
Lemma val_one : val one 1.
Proof. change 1 with (INR 1). apply val_nat. lia. Qed.
Lemma val_zero : val zero 0.
Proof. change 0 with (INR 0). apply val_nat. lia. Qed.

Lemma fle_val x y a b : val x a -> val y b -> fle x y = true <-> a <= b.
Proof.
  intros [Fx Vx] [Fy Vy]. unfold fle. rewrite Bleb_correct by assumption. rewrite Vx, Vy.
  destruct (Rle_bool_spec a b); split; auto; [discriminate|lra].
Qed.
Lemma feq_val x y a b : val x a -> val y b -> feq x y = true <-> a = b.
Proof.
  intros [Fx Vx] [Fy Vy]. unfold feq. rewrite Beqb_correct by assumption. rewrite Vx, Vy.
  destruct (Req_bool_spec a b); split; auto; discriminate.
Qed.
Lemma flt_val x y a b : val x a -> val y b -> flt x y = true <-> a < b.
Proof.
  intros [Fx Vx] [Fy Vy]. unfold flt. rewrite Bltb_correct by assumption. rewrite Vx, Vy.
  destruct (Rlt_bool_spec a b); split; auto; [discriminate|lra].
Qed.
Lemma finite_val x : is_finite x = true -> val x (B2R x).
Proof. intros H. split; auto. Qed.
Lemma val_repr x a : val x a -> repr a.
Proof. intros [_ <-]. apply generic_format_B2R. Qed.

(** The quotient of a count and a length. *)
Lemma ratio_bounds a b : (0 < b)%nat -> (a <= b)%nat -> 0 <= INR a / INR b <= 1.
Proof.
  intros Hb Hab. apply lt_0_INR in Hb. apply le_INR in Hab. pose proof (pos_INR a). split.
  - apply Rmult_le_pos; [assumption|]. apply Rlt_le, Rinv_0_lt_compat. assumption.
  - apply Rmult_le_reg_r with (INR b); [assumption|]. unfold Rdiv. rewrite Rmult_assoc, Rinv_l; lra.
Qed.
Lemma val_ratio a b : (Z.of_nat b < 2 ^ 53)%Z -> (0 < b)%nat -> (a <= b)%nat ->
  val (fdiv (of_nat a) (of_nat b)) (rnd (INR a / INR b)) /\ 0 <= rnd (INR a / INR b) <= 1.
Proof.
  intros Hb H0 Hab. pose proof (ratio_bounds a b H0 Hab) as B. split.
  - apply val_div; [apply val_nat; lia|apply val_nat; lia| |].
    + apply lt_0_INR in H0. lra.
    + rewrite Rabs_pos_eq; lra.
  - apply rnd_between; [apply repr_0|apply repr_1|exact B].
Qed.

(** Next to 1. *)
Lemma repr_below_1 : repr (1 - bpow radix2 (-53)).
Proof.
  replace (1 - bpow radix2 (-53)) with (F2R (Float radix2 (2 ^ 53 - 1) (-53))).
  - apply repr_F2R; [lia|lia].
  - unfold F2R. cbn [Fnum Fexp]. rewrite minus_IZR. change (IZR (2 ^ 53)) with (bpow radix2 53).
    replace 1 with (bpow radix2 53 * bpow radix2 (-53)) at 2 by (rewrite <- bpow_plus; reflexivity). ring.
Qed.
Lemma repr_tiny : repr (bpow radix2 (-53)).
Proof. apply generic_format_bpow. cbv. discriminate. Qed.

Lemma ulp_1 : ulp radix2 fx 1 = bpow radix2 (-52).
Proof. change 1 with (bpow radix2 0). rewrite ulp_bpow. reflexivity. Qed.
Lemma rnd_just_above x : x < 1 + bpow radix2 (-53) -> rnd x <= 1.
Proof.
  intros H. unfold rnd. apply round_N_le_midp; [apply fx_valid|apply repr_1|].
  rewrite succ_eq_pos by lra. rewrite ulp_1. replace (bpow radix2 (-52)) with (2 * bpow radix2 (-53)); [lra|].
  change 2 with (bpow radix2 1). rewrite <- bpow_plus. reflexivity.
Qed.
(** 1 - j, rounded, is near. *)
Lemma one_minus j : 0 <= j <= 1 -> repr j -> 0 <= rnd (1 - j) <= 1 /\ j + rnd (1 - j) < 1 + bpow radix2 (-53).
Proof.
  intros Hj Rj. split; [apply rnd_between; [apply repr_0|apply repr_1|lra]|].
  assert (B0 : 0 < bpow radix2 (-53)) by apply bpow_gt_0.
  destruct (Rle_lt_dec (1 / 2) j) as [H|H].
  - rewrite rnd_repr; [lra|]. replace (1 - j) with (-(j - 1)) by ring. apply repr_opp.
    apply sterbenz; [apply fx_valid|apply fx_monotone|exact Rj|apply repr_1|lra].
  - destruct (Rle_lt_or_eq_dec 0 j (proj1 Hj)) as [Hp|<-].
    + pose proof (error_le_half_ulp radix2 fx (fun x => negb (Z.even x)) (1 - j)) as E.
      change (round radix2 fx (Znearest (fun x => negb (Z.even x))) (1 - j)) with (rnd (1 - j)) in E.
      assert (U : ulp radix2 fx (1 - j) = bpow radix2 (-53)).
      { rewrite ulp_neq_0 by lra. unfold cexp. rewrite (mag_unique radix2 (1 - j) 0); [reflexivity|].
        rewrite Rabs_pos_eq by lra. change (bpow radix2 (0 - 1)) with (/ 2). change (bpow radix2 0) with 1. lra. }
      rewrite U in E. apply Rabs_le_inv in E. lra.
    + rewrite Rminus_0_r, (rnd_repr 1 repr_1). lra.
Qed.

(** The error of one rounding. *)
Lemma rnd_error k x : (-1000 <= k <= 1000)%Z -> Rabs x <= bpow radix2 k -> Rabs (rnd x - x) <= bpow radix2 (k - 54).
Proof.
  intros Hk Hx. destruct (Req_dec x 0) as [->|N0].
  { rewrite (rnd_repr 0 repr_0). replace (0 - 0) with 0 by ring. rewrite Rabs_R0. apply bpow_ge_0. }
  destruct (Rle_lt_or_eq_dec _ _ Hx) as [L|E].
  - pose proof (error_le_half_ulp radix2 fx (fun x => negb (Z.even x)) x) as Er.
    change (round radix2 fx (Znearest (fun x => negb (Z.even x))) x) with (rnd x) in Er.
    apply Rle_trans with (1 := Er). rewrite ulp_neq_0 by exact N0.
    replace (bpow radix2 (k - 54)) with (/ 2 * bpow radix2 (k - 53)).
    + apply Rmult_le_compat_l; [lra|]. apply bpow_le. unfold cexp.
      pose proof (mag_le_bpow radix2 x k N0 L) as M. unfold SpecFloat.fexp, SpecFloat.emin. lia.
    + change (/ 2) with (bpow radix2 (-1)). rewrite <- bpow_plus. f_equal. lia.
  - assert (R : repr x).
    { assert (P : repr (bpow radix2 k)).
      { apply generic_format_bpow. unfold SpecFloat.fexp, SpecFloat.emin. lia. }
      unfold Rabs in E. destruct (Rcase_abs x); [|rewrite E; exact P].
      replace x with (- bpow radix2 k) by lra. apply repr_opp, P. }
    rewrite (rnd_repr x R). replace (x - x) with 0 by ring. rewrite Rabs_R0. apply bpow_ge_0.
Qed.
