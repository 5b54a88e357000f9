(** Facts about ModelRetryFloat, for C106. *)
From Coq Require Import List Bool Arith ZArith QArith Qreals Reals Lra Lia Psatz.
From Flocq Require Import Core IEEE754.BinarySingleNaN.
From Flocq Require Import Relative Plus_error.
From Verif Require Import PyBase ModelNum ModelSimFloat ModelNumFloat ModelRetryFloat ProofsSimFloat ProofsNumFloat.
Local Open Scope R_scope.

(** The number that an int or a finite float is. *)
Definition is (n : pynum) (r : R) : Prop := match n with PyInt z => IZR z = r | PyFloat x => val x r end.

Lemma fmul_spec x y a b : val x a -> val y b ->
  (~ big (a * b) -> val (fmul x y) (rnd (a * b))) /\
  (big (a * b) -> fmul x y = B754_infinity (xorb (Bsign x) (Bsign y))).
Proof.
  intros [Fx Vx] [Fy Vy]. pose proof (Bmult_correct 53 1024 prec_gt prec_lt mode_NE x y) as C.
  rewrite Vx, Vy in C. change (round radix2 fx (round_mode mode_NE) (a * b)) with (rnd (a * b)) in C.
  unfold big. destruct (Rlt_bool_spec (Rabs (rnd (a * b))) (bpow radix2 1024)) as [L|L].
  - destruct C as (C1 & C2 & _). split; [intros _|intros B; lra]. split; [|exact C1].
    unfold fmul. rewrite C2, Fx, Fy. reflexivity.
  - split; [intros B; lra|intros _]. apply B2SF_inj. exact C.
Qed.
Lemma fadd_spec x y a b : val x a -> val y b -> 0 <= a -> 0 <= b ->
  (~ big (a + b) -> val (fadd x y) (rnd (a + b))) /\ (big (a + b) -> fadd x y = B754_infinity (Bsign x)).
Proof.
  intros [Fx Vx] [Fy Vy] Ha Hb. pose proof (Bplus_correct 53 1024 prec_gt prec_lt mode_NE x y Fx Fy) as C.
  rewrite Vx, Vy in C. change (round radix2 fx (round_mode mode_NE) (a + b)) with (rnd (a + b)) in C.
  unfold big. destruct (Rlt_bool_spec (Rabs (rnd (a + b))) (bpow radix2 1024)) as [L|L].
  - destruct C as (C1 & C2 & _). split; [intros _|intros B; lra]. split; assumption.
  - split; [intros B; lra|intros _]. apply B2SF_inj. exact (proj1 C).
Qed.

Lemma Q2R_inject z : Q2R (inject_Z z) = IZR z.
Proof. unfold Q2R. cbn. field. Qed.

Lemma pow2_repr n : (n < 1024)%nat -> repr (bpow radix2 (Z.of_nat n)).
Proof. intros H. apply generic_format_bpow. unfold SpecFloat.fexp, SpecFloat.emin. lia. Qed.
Lemma pow2_not_big n : (n < 1024)%nat -> ~ big (bpow radix2 (Z.of_nat n)).
Proof.
  intros H. unfold big. rewrite (rnd_repr _ (pow2_repr n H)), Rabs_pos_eq by apply bpow_ge_0.
  apply Rlt_not_le, bpow_lt. lia.
Qed.
Lemma pow2_IZR n : IZR (2 ^ Z.of_nat n) = bpow radix2 (Z.of_nat n).
Proof. change 2%Z with (radix_val radix2). rewrite IZR_Zpower by lia. reflexivity. Qed.
Lemma as_float_pow2 n : (n < 1024)%nat ->
  exists x, as_float (PyInt (2 ^ Z.of_nat n)) = Ret x /\ val x (bpow radix2 (Z.of_nat n)).
Proof.
  intros H. cbn [as_float value_f]. assert (V : val (of_Q (inject_Z (2 ^ Z.of_nat n))) (bpow radix2 (Z.of_nat n))).
  { rewrite <- (rnd_repr _ (pow2_repr n H)), <- pow2_IZR, <- Q2R_inject. apply of_Q_val.
    rewrite Q2R_inject, pow2_IZR. apply pow2_not_big, H. }
  rewrite (proj1 V). eauto.
Qed.
Lemma big_1024 r : bpow radix2 1024 <= r -> big r.
Proof.
  intros H. unfold big. assert (Hp := bpow_ge_0 radix2 1024).
  assert (R1 : repr (bpow radix2 1024)) by (apply generic_format_bpow; unfold SpecFloat.fexp, SpecFloat.emin; lia).
  pose proof (rnd_le _ _ H) as L. rewrite (rnd_repr _ R1) in L. rewrite Rabs_pos_eq; lra.
Qed.
Lemma as_float_pow2_big n : (1024 <= n)%nat -> as_float (PyInt (2 ^ Z.of_nat n)) = Raise OtherErr.
Proof.
  intros H. cbn [as_float value_f]. rewrite of_Q_big; [destruct (Rlt_dec _ 0); reflexivity|].
  rewrite Q2R_inject, pow2_IZR. apply big_1024. apply bpow_le. lia.
Qed.

(** Multiplying by a power of two is exact unless it overflows. *)
Lemma repr_scale x n : repr x -> repr (x * bpow radix2 (Z.of_nat n)).
Proof.
  intros H. apply FLT_format_generic in H; [|reflexivity]. destruct H as [f E Hm He].
  rewrite E. replace (F2R f * bpow radix2 (Z.of_nat n)) with (F2R (Float radix2 (Fnum f) (Fexp f + Z.of_nat n))).
  - apply repr_F2R; [exact Hm|]. change (-1074 <= Fexp f)%Z in He. lia.
  - unfold F2R. cbn [Fnum Fexp]. rewrite bpow_plus. ring.
Qed.
Lemma repr_big x : repr x -> 0 <= x -> big x -> bpow radix2 1024 <= x.
Proof. intros H H0 B. unfold big in B. rewrite (rnd_repr x H), Rabs_pos_eq in B by exact H0. exact B. Qed.

(** Comparisons are exact. *)
Lemma exact_is n r : is n r -> exists q, exact n = Fin q /\ Q2R q = r.
Proof.
  destruct n as [z|x]; cbn [is exact].
  - intros <-. exists (inject_Z z). split; [reflexivity|apply Q2R_inject].
  - intros [F <-]. apply to_Q_finite, F.
Qed.
Lemma gt_Fin p q : gt (Fin p) (Fin q) = true <-> Q2R q < Q2R p.
Proof.
  cbn. rewrite negb_true_iff. destruct (Qle_bool p q) eqn:E.
  - apply Qle_bool_iff, Qle_Rle in E. split; [discriminate|lra].
  - split; auto. intros _. apply Rnot_le_lt. intros L. apply Rle_Qle, Qle_bool_iff in L. congruence.
Qed.
Lemma py_min_is a b x y : is a x -> is b y -> is (py_min a b) (Rmin x y).
Proof.
  intros Ha Hb. destruct (exact_is a x Ha) as (p & Ep & Vp). destruct (exact_is b y Hb) as (q & Eq & Vq).
  unfold py_min. rewrite Ep, Eq. destruct (gt (Fin p) (Fin q)) eqn:G.
  - apply gt_Fin in G. rewrite Rmin_right by lra. exact Hb.
  - rewrite Rmin_left; [exact Ha|]. apply Rnot_lt_le. intros L. rewrite <- Vp, <- Vq in L. apply gt_Fin in L. congruence.
Qed.

Lemma sign_pos (x : float) r : val x r -> 0 < r -> Bsign x = false.
Proof.
  intros [F V] P. destruct x as [s|s| |s m e H]; try discriminate; cbn in *; [lra|]. destruct s; [|reflexivity].
  exfalso. assert (B2R (B754_finite true m e H) <= 0); [|cbn in *; lra]. cbn. apply F2R_le_0. cbn. lia.
Qed.

(** The delay before the jitter. *)
Lemma backoff base m b mx n : is base b -> is m mx -> 0 <= b -> (n < 1024)%nat /\ mx < bpow radix2 1024 \/ (exists z, base = PyInt z) ->
  exists p, py_mul base (PyInt (2 ^ Z.of_nat n)) = Ret p /\ is (py_min m p) (Rmin mx (b * bpow radix2 (Z.of_nat n))).
Proof.
  intros Hb Hm Pb Hn. destruct base as [z|x].
  - eexists. split; [reflexivity|]. apply py_min_is; [exact Hm|]. cbn in *. rewrite mult_IZR, pow2_IZR, Hb. reflexivity.
  - destruct Hn as [[Hn Hx]|[z E]]; [|discriminate]. cbn [is] in Hb.
    destruct (as_float_pow2 n Hn) as (y & Ey & Vy). unfold py_mul. rewrite Ey. cbn [as_float value_f bind].
    eexists. split; [reflexivity|]. destruct (fmul_spec x y _ _ Hb Vy) as [S1 S2].
    assert (R := repr_scale b n (val_repr x b Hb)). assert (P : 0 <= b * bpow radix2 (Z.of_nat n)).
    { apply Rmult_le_pos; [exact Pb|apply bpow_ge_0]. }
    destruct (big_dec (b * bpow radix2 (Z.of_nat n))) as [B|B].
    + rewrite (S2 B). assert (L := repr_big _ R P B).
      assert (Pb' : 0 < b).
      { destruct (Req_dec b 0) as [->|]; [|lra]. rewrite Rmult_0_l in L. pose proof (bpow_gt_0 radix2 1024). lra. }
      rewrite (sign_pos x b Hb Pb'), (sign_pos y _ Vy (bpow_gt_0 _ _)). cbn [xorb].
      unfold py_min. destruct (exact_is m mx Hm) as (q & Eq & Vq). rewrite Eq. cbn [exact to_Q gt].
      rewrite Rmin_left by lra. exact Hm.
    + apply py_min_is; [exact Hm|]. cbn [is]. rewrite <- (rnd_repr _ R). apply S1, B.
Qed.

(** An int as a float. *)
Lemma as_float_val n r x : is n r -> as_float n = Ret x -> val x (rnd r) /\ ~ big r.
Proof.
  destruct n as [z|y]; cbn [is as_float value_f].
  - intros <-. destruct (is_finite (of_Q (inject_Z z))) eqn:F; [|discriminate]. intros [= <-].
    rewrite <- Q2R_inject. apply of_Q_finite, F.
  - intros V [= <-]. pose proof (val_repr y r V) as H. rewrite (rnd_repr r H). split; [exact V|].
    destruct V as [F <-]. apply float_not_big, F.
Qed.
Lemma as_float_ok n r : is n r -> ~ big r -> exists x, as_float n = Ret x /\ val x (rnd r).
Proof.
  destruct n as [z|y]; cbn [is as_float value_f].
  - intros <- B. assert (V : val (of_Q (inject_Z z)) (rnd (IZR z))).
    { rewrite <- Q2R_inject. apply of_Q_val. rewrite Q2R_inject. exact B. }
    rewrite (proj1 V). eauto.
  - intros V _. exists y. split; [reflexivity|]. rewrite (rnd_repr r (val_repr y r V)). exact V.
Qed.

Lemma one_is : is (PyInt 1) 1.
Proof. reflexivity. Qed.
Lemma not_big_le a b : 0 <= a <= b -> ~ big b -> ~ big a.
Proof. intros H N B. apply N. eapply big_mono; eassumption. Qed.
Lemma not_big_succ (x : float) r : val x r -> 0 <= r -> ~ big (1 + r).
Proof.
  intros V P B. pose proof (rnd_nearest (1 + r) r (val_repr x r V)) as N.
  pose proof (abs_B2R_le_emax_minus_prec 53 1024 prec_gt x) as M. rewrite (proj2 V), (Rabs_pos_eq r P) in M.
  replace (r - (1 + r)) with (-1) in N by ring. rewrite (Rabs_left (-1)) in N by lra.
  unfold big in B. assert (P1 : 0 <= rnd (1 + r)).
  { rewrite <- (rnd_repr 0 repr_0). apply rnd_le. lra. }
  rewrite (Rabs_pos_eq _ P1) in B. apply Rabs_le_inv in N.
  assert (bpow radix2 2 <= bpow radix2 (1024 - 53)) by (apply bpow_le; lia). change (bpow radix2 2) with 4 in *. lra.
Qed.

(** The factor 1 + r * jitter. *)
Lemma factor jitter j jf r p : is jitter j -> 0 <= j -> as_float jitter = Ret jf -> val r p -> 0 <= p <= 1 ->
  exists f, bind (py_mul (PyFloat r) jitter) (fun x => py_add (PyInt 1) x) = Ret (PyFloat f) /\
            val f (rnd (1 + rnd (p * rnd j))) /\ val (fadd one jf) (rnd (1 + rnd j)) /\
            1 <= rnd (1 + rnd (p * rnd j)) <= rnd (1 + rnd j).
Proof.
  intros Hj Pj Ej Vr Pp. destruct (as_float_val jitter j jf Hj Ej) as [Vj Bj].
  assert (P1 : 0 <= rnd j) by (rewrite <- (rnd_repr 0 repr_0); apply rnd_le; exact Pj).
  assert (P2 : 0 <= p * rnd j <= rnd j) by nra.
  assert (B1 : ~ big (rnd j)) by (rewrite <- (proj2 Vj); apply float_not_big, Vj).
  destruct (fmul_spec r jf p (rnd j) Vr Vj) as [S1 _]. specialize (S1 (not_big_le _ _ P2 B1)).
  assert (P3 : 0 <= rnd (p * rnd j) <= rnd j).
  { apply rnd_between; [apply repr_0|apply repr_rnd|exact P2]. }
  assert (E1 : exists o, as_float (PyInt 1) = Ret o /\ val o 1).
  { destruct (as_float_ok (PyInt 1) 1 one_is) as (o & Eo & Vo).
    - unfold big. rewrite (rnd_repr 1 repr_1), Rabs_pos_eq by lra.
      apply Rlt_not_le. change 1 with (bpow radix2 0). apply bpow_lt. lia.
    - exists o. split; [exact Eo|]. rewrite (rnd_repr 1 repr_1) in Vo. exact Vo. }
  destruct E1 as (o & Eo & Vo).
  exists (fadd o (fmul r jf)). repeat split.
  - unfold py_mul. rewrite Ej. cbn [as_float value_f bind]. unfold py_add. rewrite Eo. reflexivity.
  - apply (proj1 (fadd_spec o (fmul r jf) 1 _ Vo S1 ltac:(lra) (proj1 P3))).
    apply (not_big_succ (fmul r jf)); [exact S1|lra].
  - apply (proj1 (fadd_spec o (fmul r jf) 1 _ Vo S1 ltac:(lra) (proj1 P3))).
    apply (not_big_succ (fmul r jf)); [exact S1|lra].
  - apply (proj1 (fadd_spec one jf 1 _ val_one Vj ltac:(lra) P1)). apply (not_big_succ jf); assumption.
  - apply (proj1 (fadd_spec one jf 1 _ val_one Vj ltac:(lra) P1)). apply (not_big_succ jf); assumption.
  - rewrite <- (rnd_repr 1 repr_1) at 1. apply rnd_le. lra.
  - apply rnd_le. lra.
Qed.

Lemma nonzero_is n r : is n r -> nonzero n = true <-> r <> 0.
Proof.
  destruct n as [z|x]; cbn [is nonzero]; rewrite negb_true_iff.
  - intros <-. rewrite Z.eqb_neq. split; intros H E; apply H; [apply eq_IZR|]; [exact E|]. rewrite E. reflexivity.
  - intros V. pose proof (feq_val x zero r 0 V val_zero) as I. destruct (feq x zero).
    + split; [discriminate|]. intros H. destruct (H (proj1 I eq_refl)).
    + split; auto. intros _ E. apply I in E. discriminate.
Qed.

(** Comparisons with a possibly infinite product. *)
Lemma fle_inf x : is_nan x = false -> fle x (B754_infinity false) = true.
Proof. destruct x as [[]|[]| |[] m e H]; try discriminate; reflexivity. Qed.
Lemma fle_mul y f g a b c : val y a -> val f b -> val g c -> 0 <= a -> 0 < b <= c -> fle (fmul y f) (fmul y g) = true.
Proof.
  intros Vy Vf Vg Pa Pb. destruct (fmul_spec y f a b Vy Vf) as [F1 F2]. destruct (fmul_spec y g a c Vy Vg) as [G1 G2].
  assert (P : 0 <= a * b <= a * c) by nra.
  destruct (big_dec (a * c)) as [B|B].
  - rewrite (G2 B). assert (Pa' : 0 < a).
    { destruct (Req_dec a 0) as [->|]; [|lra]. rewrite Rmult_0_l in B. destruct (not_big_0 B). }
    rewrite (sign_pos y a Vy Pa'), (sign_pos g c Vg) by lra. apply fle_inf.
    destruct (big_dec (a * b)) as [B'|B']; [rewrite (F2 B'); reflexivity|].
    destruct (F1 B') as [F _]. destruct (fmul y f); try discriminate; reflexivity.
  - specialize (G1 B). specialize (F1 (not_big_le _ _ P B)). apply (fle_val _ _ _ _ F1 G1), rnd_le. lra.
Qed.
Lemma fle_mul_1 y f a b : val y a -> val f b -> 0 <= a -> 1 <= b -> fle y (fmul y f) = true.
Proof.
  intros Vy Vf Pa Pb. destruct (fmul_spec y f a b Vy Vf) as [F1 F2]. destruct (big_dec (a * b)) as [B|B].
  - rewrite (F2 B). assert (Pa' : 0 < a).
    { destruct (Req_dec a 0) as [->|]; [|lra]. rewrite Rmult_0_l in B. destruct (not_big_0 B). }
    rewrite (sign_pos y a Vy Pa'), (sign_pos f b Vf) by lra. apply fle_inf.
    destruct Vy as [F _]. destruct y; try discriminate; reflexivity.
  - apply (fle_val _ _ _ _ Vy (F1 B)). rewrite <- (rnd_repr a (val_repr y a Vy)) at 1. apply rnd_le. nra.
Qed.

(** Errors. *)
Lemma rnd_rel x : bpow radix2 (-1022) <= Rabs x -> Rabs (rnd x - x) <= bpow radix2 (-53) * Rabs x.
Proof.
  intros H. pose proof (relative_error_N_FLT radix2 (-1074) 53 eq_refl (fun x => negb (Z.even x)) x H) as E.
  replace (bpow radix2 (-53)) with (/ 2 * bpow radix2 (-53 + 1)); [exact E|].
  change (/ 2) with (bpow radix2 (-1)). rewrite <- bpow_plus. reflexivity.
Qed.
Lemma rnd_err x : Rabs (rnd x - x) <= bpow radix2 (-53) * Rabs x + bpow radix2 (-1075).
Proof.
  pose proof (bpow_ge_0 radix2 (-1075)). pose proof (bpow_ge_0 radix2 (-53)). pose proof (Rabs_pos x).
  destruct (Rle_lt_dec (bpow radix2 (-1022)) (Rabs x)) as [L|L]; [pose proof (rnd_rel x L); lra|].
  destruct (error_N_FLT radix2 (-1074) 53 eq_refl (fun x => negb (Z.even x)) x) as (e & h & He & Hh & _ & E).
  change (rnd x = x * (1 + e) + h) in E. rewrite E. replace (x * (1 + e) + h - x) with (x * e + h) by ring.
  eapply Rle_trans; [apply Rabs_triang|]. rewrite Rabs_mult. apply Rplus_le_compat.
  - rewrite (Rmult_comm (bpow radix2 (-53))). apply Rmult_le_compat_l; [apply Rabs_pos|].
    eapply Rle_trans; [exact He|]. change (/ 2) with (bpow radix2 (-1)). rewrite <- bpow_plus. apply bpow_le. lia.
  - eapply Rle_trans; [exact Hh|]. change (/ 2) with (bpow radix2 (-1)). rewrite <- bpow_plus. apply bpow_le. lia.
Qed.

Lemma factor_error p j : 0 <= p <= 1 -> 0 <= j ->
  Rabs (rnd (1 + rnd (p * rnd j)) - (1 + p * j)) <= 4 * bpow radix2 (-53) * (1 + p * j).
Proof.
  intros Pp Pj. pose proof (rnd_err j) as E1. pose proof (rnd_err (p * rnd j)) as E2.
  assert (P1 : 0 <= rnd j) by (rewrite <- (rnd_repr 0 repr_0); apply rnd_le; exact Pj).
  assert (P2 : 0 <= p * rnd j) by nra.
  assert (P3 : 0 <= rnd (p * rnd j)) by (rewrite <- (rnd_repr 0 repr_0); apply rnd_le; exact P2).
  assert (E3 : Rabs (rnd (1 + rnd (p * rnd j)) - (1 + rnd (p * rnd j))) <= bpow radix2 (-53) * Rabs (1 + rnd (p * rnd j))).
  { apply rnd_rel. rewrite Rabs_pos_eq by lra. apply Rle_trans with (bpow radix2 0); [apply bpow_le; lia|]. cbn. lra. }
  rewrite (Rabs_pos_eq _ Pj) in E1. rewrite (Rabs_pos_eq _ P2) in E2. rewrite (Rabs_pos_eq (1 + _)) in E3 by lra.
  set (A := rnd j) in *. set (B := rnd (p * A)) in *. set (F := rnd (1 + B)) in *.
  assert (T : bpow radix2 (-1075) <= bpow radix2 (-53) / 8).
  { apply Rle_trans with (bpow radix2 (-56)); [apply bpow_le; lia|]. replace (bpow radix2 (-56)) with (bpow radix2 (-53) * bpow radix2 (-3)) by (rewrite <- bpow_plus; reflexivity).
    change (bpow radix2 (-3)) with (/ 8). lra. }
  assert (U : 0 < bpow radix2 (-53) <= / 1024).
  { split; [apply bpow_gt_0|]. change (/ 1024) with (bpow radix2 (-10)). apply bpow_le. lia. }
  pose proof (bpow_ge_0 radix2 (-1075)) as T0.
  set (u := bpow radix2 (-53)) in *. set (t := bpow radix2 (-1075)) in *.
  apply Rabs_le_inv in E1, E2, E3. apply Rabs_le.
  (* p * A against p * j *)
  assert (H1 : - (u * (p * j) + t) <= p * A - p * j <= u * (p * j) + t).
  { assert (0 <= t * (1 - p)) by (apply Rmult_le_pos; lra).
    assert (p * (A - j) <= p * (u * j + t)) by (apply Rmult_le_compat_l; lra).
    assert (p * - (u * j + t) <= p * (A - j)) by (apply Rmult_le_compat_l; lra). split; nra. }
  assert (X0 : 0 <= p * j) by nra. set (X := p * j) in *. set (Y := p * A) in *.
  assert (UX : 0 <= u * X <= X / 1024) by nra.
  assert (Y1 : Y <= X + X / 1024 + u / 8) by lra.
  assert (UY : u * Y <= u * X + u * X / 1024 + u * u / 8) by nra.
  assert (UU : u * u <= u / 1024) by nra.
  assert (H2 : - (2 * (u * X) + u * X / 1024 + u / 2) <= B - X <= 2 * (u * X) + u * X / 1024 + u / 2) by (split; lra).
  assert (UB : u * B <= u * X + u * (2 * (u * X) + u * X / 1024 + u / 2)) by nra.
  assert (UUX : u * (u * X) <= u * X / 1024) by nra.
  assert (UB' : u * B <= u * X + 4 * (u * X / 1024) + u / 1024) by nra.
  split; lra.
Qed.

Lemma product_error D G F : bpow radix2 (-1000) <= D -> 1 <= G -> 1 <= F ->
  Rabs (F - G) <= 4 * bpow radix2 (-53) * G -> Rabs (rnd (rnd D * F) - D * G) <= bpow radix2 (-50) * (D * G).
Proof.
  intros HD HG HF E1. assert (D0 : 0 < D) by (eapply Rlt_le_trans; [apply bpow_gt_0|exact HD]).
  assert (E2 : Rabs (rnd D - D) <= bpow radix2 (-53) * Rabs D).
  { apply rnd_rel. rewrite Rabs_pos_eq by lra. eapply Rle_trans; [|exact HD]. apply bpow_le. lia. }
  rewrite (Rabs_pos_eq D) in E2 by lra.
  assert (Y0 : bpow radix2 (-1000) <= rnd D).
  { rewrite <- (rnd_repr (bpow radix2 (-1000))) at 1; [apply rnd_le, HD|]. apply generic_format_bpow. unfold SpecFloat.fexp, SpecFloat.emin. lia. }
  assert (P0 := bpow_gt_0 radix2 (-1000)).
  assert (E3 : Rabs (rnd (rnd D * F) - rnd D * F) <= bpow radix2 (-53) * Rabs (rnd D * F)).
  { apply rnd_rel. rewrite Rabs_pos_eq by nra. apply Rle_trans with (bpow radix2 (-1000)); [apply bpow_le; lia|]. nra. }
  rewrite (Rabs_pos_eq (rnd D * F)) in E3 by nra.
  replace (bpow radix2 (-50)) with (8 * bpow radix2 (-53)) by (change 8 with (bpow radix2 3); rewrite <- bpow_plus; reflexivity).
  assert (U : 0 < bpow radix2 (-53) <= / 1024).
  { split; [apply bpow_gt_0|]. change (/ 1024) with (bpow radix2 (-10)). apply bpow_le. lia. }
  set (u := bpow radix2 (-53)) in *. set (Y := rnd D) in *. set (X := rnd (Y * F)) in *. clearbody X Y u.
  apply Rabs_le_inv in E1, E2, E3. apply Rabs_le.
  assert (DG : 0 < D * G) by nra. set (W := D * G) in *.
  assert (H1 : Y * F <= (1 + 6 * u) * W).
  { assert (Y <= D * (1 + u)) by lra. assert (F <= G * (1 + 4 * u)) by lra.
    assert (Y * F <= (D * (1 + u)) * (G * (1 + 4 * u))) by (apply Rmult_le_compat; lra).
    replace (D * (1 + u) * (G * (1 + 4 * u))) with (W * (1 + 5 * u + 4 * (u * u))) in * by (unfold W; ring).
    assert (u * u <= u / 1024) by nra. nra. }
  assert (H2 : (1 - 6 * u) * W <= Y * F).
  { assert (D * (1 - u) <= Y) by lra. assert (G * (1 - 4 * u) <= F) by lra.
    assert ((D * (1 - u)) * (G * (1 - 4 * u)) <= Y * F) by (apply Rmult_le_compat; try lra; nra).
    replace (D * (1 - u) * (G * (1 - 4 * u))) with (W * (1 - 5 * u + 4 * (u * u))) in * by (unfold W; ring). nra. }
  assert (H3 : u * (Y * F) <= u * ((1 + 6 * u) * W)) by (apply Rmult_le_compat_l; lra).
  assert (H4 : u * ((1 + 6 * u) * W) <= 2 * u * W) by nra.
  split; lra.
Qed.

(** The sign of a difference survives rounding. *)
Lemma rnd_sub_pos a b : repr a -> repr b -> rnd (a - b) <= 0 <-> a <= b.
Proof.
  intros Ha Hb. split; intros H.
  - apply Rnot_lt_le. intros L. assert (P : 0 <= rnd (a - b)) by (rewrite <- (rnd_repr 0 repr_0); apply rnd_le; lra).
    assert (Z : rnd (a - b) = 0) by lra.
    assert (N : rnd (a + - b) <> 0).
    { unfold rnd, SpecFloat.fexp. apply round_plus_neq_0; try lra.
      - apply FLT_exp_valid. reflexivity.
      - apply monotone_exp_not_FTZ; [apply FLT_exp_valid; reflexivity|apply FLT_exp_monotone].
      - apply valid_rnd_round_mode.
      - exact Ha.
      - apply repr_opp, Hb. }
    apply N. exact Z.
  - rewrite <- (rnd_repr 0 repr_0). apply rnd_le. lra.
Qed.
