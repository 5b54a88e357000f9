(** C106: the delays and the deadline test of retry in floating point. *)
From Coq Require Import List Bool Arith ZArith QArith Qminmax Qreals Reals Lra Lia Psatz.
From Flocq Require Import Core IEEE754.BinarySingleNaN.
From Verif Require Import PyBase ModelNum ModelRetry ModelSimFloat ModelNumFloat ModelRetryFloat ProofsSimFloat ProofsNumFloat ProofsRetryFloat.
Import ListNotations.
Local Open Scope R_scope.

(** Without jitter a delay is exact: no rounding, and an overflow of the product is capped by
    max_delay.  An int base_delay has no limit on the number of attempts. *)
Theorem C106_backoff base maxd jitter r b m k : is base b -> is maxd m -> is jitter 0 -> 0 <= b -> (1 <= k)%nat ->
  (k <= 1024)%nat /\ m < 2 ^ 1024 \/ (exists z, base = PyInt z) ->
  exists d, delay_f base maxd jitter r k = Ret d /\ is d (Rmin m (b * 2 ^ (k - 1))).
Proof.
  intros Hb Hm Hj Pb Hk Hn. unfold delay_f. replace (Z.of_nat k - 1)%Z with (Z.of_nat (k - 1)) by lia.
  destruct (backoff base maxd b m (k - 1) Hb Hm Pb) as (p & Ep & Vp).
  { destruct Hn as [[H1 H2]|H]; [left|right; exact H]. split; [lia|]. replace (bpow radix2 1024) with (2 ^ 1024); [exact H2|].
    change 1024%Z with (Z.of_nat 1024). rewrite bpow_powerRZ, <- pow_powerRZ. reflexivity. }
  rewrite Ep. cbn [bind]. destruct (nonzero jitter) eqn:N.
  - apply (nonzero_is jitter 0 Hj) in N. lra.
  - eexists. split; [reflexivity|]. rewrite bpow_powerRZ, <- pow_powerRZ in Vp. exact Vp.
Qed.

(** Hence they never shrink and never exceed max_delay. *)
Theorem C106_growth base maxd jitter r s b m k d e : is base b -> is maxd m -> is jitter 0 -> 0 <= b -> (1 <= k)%nat ->
  (k < 1024)%nat /\ m < 2 ^ 1024 \/ (exists z, base = PyInt z) ->
  delay_f base maxd jitter r k = Ret d -> delay_f base maxd jitter s (S k) = Ret e ->
  gt (exact d) (exact e) = false /\ gt (exact e) (exact maxd) = false.
Proof.
  intros Hb Hm Hj Pb Hk Hn Ed Ee.
  destruct (C106_backoff base maxd jitter r b m k Hb Hm Hj Pb Hk) as (d' & Ed' & Vd).
  { destruct Hn as [[? ?]|?]; [left; split; [lia|assumption]|right; assumption]. }
  destruct (C106_backoff base maxd jitter s b m (S k) Hb Hm Hj Pb ltac:(lia)) as (e' & Ee' & Ve).
  { destruct Hn as [[? ?]|?]; [left; split; [lia|assumption]|right; assumption]. }
  rewrite Ed in Ed'. injection Ed' as <-. rewrite Ee in Ee'. injection Ee' as <-.
  destruct (exact_is _ _ Vd) as (p & -> & Vp). destruct (exact_is _ _ Ve) as (q & -> & Vq).
  destruct (exact_is _ _ Hm) as (x & -> & Vx).
  assert (P : b * 2 ^ (k - 1) <= b * 2 ^ (S k - 1)).
  { apply Rmult_le_compat_l; [exact Pb|]. apply Rle_pow; [lra|lia]. }
  split; apply not_true_iff_false; intros G; apply gt_Fin in G; rewrite Vp in G || idtac; rewrite Vq in G; rewrite ?Vx in G;
    revert G; unfold Rmin; repeat destruct Rle_dec; lra.
Qed.

(** They are the delays of C38. *)
Theorem C106_agrees {V} (c : rcfg) (w : world V) base maxd jitter r k : (1 <= k)%nat ->
  exact base = Fin (y_base c) -> exact maxd = Fin (y_max c) -> exact jitter = Fin (y_jitter c) ->
  (y_jitter c == 0)%Q -> (0 <= y_base c)%Q ->
  (k <= 1024)%nat /\ Q2R (y_max c) < 2 ^ 1024 \/ (exists z, base = PyInt z) ->
  exists d q, delay_f base maxd jitter r k = Ret d /\ exact d = Fin q /\ (q == y_delay c w k)%Q.
Proof.
  assert (I : forall n q, exact n = Fin q -> is n (Q2R q)).
  { intros [z|x] q; cbn [exact is].
    - intros [= <-]. symmetry. apply Q2R_inject.
    - intros E. destruct (to_Q_Fin x q E) as [F E']. split; auto. }
  intros Hk Eb Em Ej J0 B0 Hn. assert (Hj := I _ _ Ej). rewrite (Qeq_eqR _ _ J0), RMicromega.Q2R_0 in Hj.
  assert (B0' := Qle_Rle _ _ B0). rewrite RMicromega.Q2R_0 in B0'.
  destruct (C106_backoff base maxd jitter r _ _ k (I _ _ Eb) (I _ _ Em) Hj B0' Hk Hn) as (d & Ed & Vd).
  destruct (exact_is _ _ Vd) as (q & Eq & Vq). exists d, q. repeat split; [exact Ed|exact Eq|].
  apply eqR_Qeq. rewrite Vq. unfold y_delay. rewrite (proj2 (Qeq_bool_iff _ _) J0).
  assert (T : forall n, Q2R (two n) = 2 ^ n).
  { induction n as [|n IH]; cbn [two pow]; [apply RMicromega.Q2R_1|]. rewrite Q2R_mult, IH. f_equal. unfold Q2R. cbn. lra. }
  assert (E : Q2R (y_base c * two (k - 1)) = Q2R (y_base c) * 2 ^ (k - 1)) by (rewrite Q2R_mult, T; reflexivity).
  destruct (Q.min_spec (y_max c) (y_base c * two (k - 1))) as [[L ->]|[L ->]].
  - apply Rmin_left. rewrite <- E. apply Qle_Rle, Qlt_le_weak, L.
  - rewrite Rmin_right; [symmetry; exact E|]. rewrite <- E. apply Qle_Rle, L.
Qed.

(** With jitter a delay is at least the one without, y, and at most y times 1 + jitter (both
    rounded): the random number, below 1, cannot push it outside. *)
Theorem C106_jitter base maxd jitter r b m j p k d y jf :
  is base b -> is maxd m -> is jitter j -> val r p -> 0 <= b -> 0 <= m -> 0 < j -> 0 <= p < 1 ->
  delay_f base maxd (PyInt 0) r k = Ret d -> (1 <= k)%nat ->
  (k <= 1024)%nat /\ m < 2 ^ 1024 \/ (exists z, base = PyInt z) ->
  as_float d = Ret y -> as_float jitter = Ret jf ->
  exists x, delay_f base maxd jitter r k = Ret (PyFloat x) /\
            fle y x = true /\ fle x (fmul y (fadd one jf)) = true.
Proof.
  intros Hb Hm Hj Vr Pb Pm Pj Pp Ed Hk Hn Ey Ejf.
  destruct (C106_backoff base maxd (PyInt 0) r b m k Hb Hm eq_refl Pb Hk Hn) as (d' & Ed' & Vd).
  rewrite Ed in Ed'. injection Ed' as <-.
  assert (N : nonzero jitter = true) by (apply (nonzero_is _ _ Hj); lra).
  destruct (factor jitter j jf r p Hj (Rlt_le _ _ Pj) Ejf Vr ltac:(lra)) as (f & Ef & Vf & Vg & Hf).
  destruct (as_float_val _ _ _ Vd Ey) as [Vy _].
  assert (P : 0 <= rnd (Rmin m (b * 2 ^ (k - 1)))).
  { rewrite <- (rnd_repr 0 repr_0). apply rnd_le. apply Rmin_glb; [exact Pm|]. apply Rmult_le_pos; [exact Pb|]. apply pow_le. lra. }
  exists (fmul y f). split; [|split].
  - revert Ed. unfold delay_f. destruct (py_mul base _) as [v|]; [|discriminate]. cbn [bind nonzero Z.eqb negb].
    intros [= <-]. rewrite N. revert Ef. destruct (py_mul (PyFloat r) jitter) as [v'|]; [|discriminate]. cbn [bind].
    intros ->. cbn [bind]. unfold py_mul. destruct (py_min maxd v); rewrite Ey; reflexivity.
  - apply (fle_mul_1 y f _ _ Vy Vf P (proj1 Hf)).
  - apply (fle_mul y f (fadd one jf) _ _ _ Vy Vf Vg P). lra.
Qed.

(** It differs from min(max_delay, base * 2^(k-1)) * (1 + r * jitter) by at most one part in
    2^50 (unless it is below 2^-1000 seconds). *)
Theorem C106_error base maxd jitter r b m j p k x :
  is base b -> is maxd m -> is jitter j -> val r p -> 0 <= b -> 0 < j -> 0 <= p < 1 -> (1 <= k)%nat ->
  (k <= 1024)%nat /\ m < 2 ^ 1024 \/ (exists z, base = PyInt z) ->
  delay_f base maxd jitter r k = Ret (PyFloat x) -> is_finite x = true ->
  let e := Rmin m (b * 2 ^ (k - 1)) * (1 + p * j) in
  bpow radix2 (-1000) <= Rmin m (b * 2 ^ (k - 1)) ->
  Rabs (B2R x - e) <= bpow radix2 (-50) * e.
Proof.
  intros Hb Hm Hj Vr Pb Pj Pp Hk Hn Ex Fx e HD. unfold e.
  assert (N : nonzero jitter = true) by (apply (nonzero_is _ _ Hj); lra).
  destruct (C106_backoff base maxd (PyInt 0) r b m k Hb Hm eq_refl Pb Hk Hn) as (d & Ed & Vd).
  set (D := Rmin m (b * 2 ^ (k - 1))) in *.
  unfold delay_f in Ex, Ed. destruct (py_mul base _) as [v|]; [|discriminate]. cbn [bind nonzero Z.eqb negb] in Ex, Ed.
  injection Ed as <-. rewrite N in Ex.
  destruct (as_float jitter) as [jf|] eqn:Ejf.
  2:{ unfold py_mul in Ex. destruct jitter; rewrite Ejf in Ex; discriminate Ex. }
  destruct (factor jitter j jf r p Hj (Rlt_le _ _ Pj) Ejf Vr ltac:(lra)) as (f & Ef & Vf & Vg & Hf).
  destruct (py_mul (PyFloat r) jitter) as [v'|]; [|discriminate]. cbn [bind] in Ex, Ef. rewrite Ef in Ex. cbn [bind] in Ex.
  assert (Ey : exists y, as_float (py_min maxd v) = Ret y /\ x = fmul y f).
  { unfold py_mul in Ex. destruct (py_min maxd v) as [z|y].
    - destruct (as_float (PyInt z)) as [y|]; [|discriminate Ex]. cbn [bind as_float value_f] in Ex. injection Ex as <-. eauto.
    - cbn [bind as_float value_f] in Ex. injection Ex as <-. cbn [as_float value_f]. eauto. }
  destruct Ey as (y & Ey & ->). destruct (as_float_val _ _ _ Vd Ey) as [Vy _].
  destruct (fmul_spec y f _ _ Vy Vf) as [S1 S2]. destruct (big_dec (rnd D * rnd (1 + rnd (p * rnd j)))) as [B|B].
  { rewrite (S2 B) in Fx. discriminate. }
  rewrite (proj2 (S1 B)). apply product_error; [exact HD|nra|apply Hf|]. apply factor_error; lra.
Qed.

(** When a delay cannot be computed: with a float base_delay and float arguments, from the
    1025th failure on, whatever max_delay is; with an int base_delay never. *)
Theorem C106_overflow base maxd jitter r k : (1 <= k)%nat ->
  ((exists e, delay_f (PyFloat base) (PyFloat maxd) (PyFloat jitter) r k = Raise e) <-> (1025 <= k)%nat) /\
  (forall m j, (1025 <= k)%nat -> delay_f (PyFloat base) m j r k = Raise OtherErr).
Proof.
  intros Hk. assert (O : forall m j, (1025 <= k)%nat -> delay_f (PyFloat base) m j r k = Raise OtherErr).
  { intros m j H. unfold delay_f. replace (Z.of_nat k - 1)%Z with (Z.of_nat (k - 1)) by lia.
    unfold py_mul at 1. rewrite (as_float_pow2_big (k - 1)) by lia. reflexivity. }
  split; [|exact O]. split; [|intros H; eexists; apply O, H].
  intros [e E]. destruct (le_lt_dec 1025 k) as [L|L]; [exact L|exfalso]. unfold delay_f in E.
  replace (Z.of_nat k - 1)%Z with (Z.of_nat (k - 1)) in E by lia.
  destruct (as_float_pow2 (k - 1) ltac:(lia)) as (y & Ey & _). unfold py_mul at 1 in E. rewrite Ey in E. cbn [as_float value_f bind] in E.
  destruct (nonzero (PyFloat jitter)); [|discriminate]. unfold py_mul at 1 in E. cbn [as_float value_f bind] in E.
  unfold py_add in E. destruct (as_float_ok (PyInt 1) 1 one_is) as (o & Eo & _).
  { apply (pow2_not_big 0). lia. }
  rewrite Eo in E. cbn [as_float value_f bind] in E. unfold py_min in E. destruct (gt _ _); discriminate.
Qed.
Theorem C106_int z m j r k : (0 <= z)%Z -> is_finite m = true -> (1 <= k)%nat ->
  exists d, delay_f (PyInt z) (PyFloat m) (PyFloat j) r k = Ret d.
Proof.
  intros Hz Fm Hk. unfold delay_f. unfold py_mul at 1. cbn [bind].
  destruct (nonzero (PyFloat j)); [|eauto]. unfold py_mul at 1. cbn [as_float value_f bind].
  unfold py_add. destruct (as_float_ok (PyInt 1) 1 one_is) as (o & Eo & _).
  { apply (pow2_not_big 0). lia. }
  rewrite Eo. cbn [as_float value_f bind]. unfold py_min. destruct (gt _ _) eqn:G; [|cbn; eauto].
  set (n := (z * 2 ^ (Z.of_nat k - 1))%Z) in *.
  destruct (exact_is (PyFloat m) (B2R m) (finite_val m Fm)) as (q & Eq & Vq). rewrite Eq in G. apply gt_Fin in G.
  rewrite Q2R_inject, Vq in G.
  destruct (as_float_ok (PyInt n) (IZR n) eq_refl) as (y & Ey & _).
  { apply (not_big_le _ (B2R m)); [|apply float_not_big, Fm]. split; [|lra]. apply IZR_le. apply Z.mul_nonneg_nonneg; [exact Hz|]. apply Z.pow_nonneg. lia. }
  unfold py_mul. rewrite Ey. cbn. eauto.
Qed.

(** The rounding of deadline - now never makes the deadline test wrong. *)
Theorem C106_deadline deadline now : is_finite deadline = true -> is_finite now = true ->
  out_of_time deadline now = fle deadline now.
Proof.
  intros Fd Fn. apply eq_true_iff_eq. rewrite (fle_val deadline now _ _ (finite_val _ Fd) (finite_val _ Fn)).
  unfold out_of_time. pose proof (Bminus_correct 53 1024 prec_gt prec_lt mode_NE deadline now Fd Fn) as C.
  change (round radix2 fx (round_mode mode_NE) (B2R deadline - B2R now)) with (rnd (B2R deadline - B2R now)) in C.
  assert (R1 := val_repr _ _ (finite_val _ Fd)). assert (R2 := val_repr _ _ (finite_val _ Fn)).
  rewrite <- (rnd_sub_pos _ _ R1 R2).
  destruct (Rlt_bool_spec (Rabs (rnd (B2R deadline - B2R now))) (bpow radix2 1024)) as [L|L].
  - destruct C as (C1 & C2 & _). apply (fle_val _ _ _ _ (conj C2 C1) val_zero).
  - destruct C as [C1 C2]. assert (E : fsub deadline now = B754_infinity (Bsign deadline)) by (apply B2SF_inj; exact C1).
    rewrite E. rewrite (rnd_sub_pos _ _ R1 R2).
    assert (S : forall x : float, is_finite x = true -> if Bsign x then B2R x <= 0 else 0 <= B2R x).
    { intros [[]|s| |[] ? ? ?] F; try discriminate; cbn; try lra; [apply F2R_le_0|apply F2R_ge_0]; cbn; lia. }
    pose proof (S _ Fd) as S1. pose proof (S _ Fn) as S2. rewrite C2 in S1 |- *. destruct (Bsign now); cbn [negb] in *.
    + split; [intros X; discriminate X|]. intros H. assert (B2R deadline - B2R now = 0) by lra.
      rewrite H0, (rnd_repr 0 repr_0), Rabs_R0 in L. pose proof (bpow_gt_0 radix2 1024). lra.
    + split; [intros _|reflexivity]. lra.
Qed.
Theorem C106_no_deadline now : is_finite now = true -> out_of_time (B754_infinity false) now = false.
Proof. destruct now as [[]|[]| |[] m e H]; try discriminate; reflexivity. Qed.

(** The binary64 floats of some decimals, for examples. *)
Definition tenth : float := of_Q (1 # 10).
Definition f (q : Q) : pynum := PyFloat (of_Q q).
(** What a result is, as an exact fraction. *)
Definition shown (o : outcome pynum) : option Q :=
  match o with Ret d => match exact d with Fin q => Some (Qred q) | _ => None end | _ => None end.

(** A jittered delay can exceed max_delay ... *)
Theorem C106_ceiling_refuted : exists base maxd jitter r k d,
  fle zero r = true /\ flt r one = true /\ delay_f base maxd jitter r k = Ret d /\ gt (exact d) (exact maxd) = true.
Proof.
  exists (f (1 # 10)), (f 2), (f (1 # 10)), (of_Q (1 # 2)), 8%nat. eexists. repeat split; vm_compute; reflexivity.
Qed.
(** ... can be smaller than the one before ... *)
Theorem C106_growth_refuted : exists base maxd jitter r s k d e,
  fle zero r = true /\ flt r one = true /\ fle zero s = true /\ flt s one = true /\
  delay_f base maxd jitter r k = Ret d /\ delay_f base maxd jitter s (S k) = Ret e /\ gt (exact d) (exact e) = true.
Proof.
  exists (f (1 # 10)), (f 2), (f (1 # 10)), (of_Q (1 # 2)), (of_Q (1 # 4)), 8%nat. do 2 eexists. repeat split; vm_compute; reflexivity.
Qed.
(** ... and can reach 1 + jitter times the delay, although the random number is below 1. *)
Theorem C106_strict_refuted : exists base maxd jitter r k d y,
  flt r one = true /\ delay_f base maxd (PyFloat jitter) r k = Ret (PyFloat d) /\
  delay_f base maxd (PyInt 0) r k = Ret (PyFloat y) /\ feq d (fmul y (fadd one jitter)) = true.
Proof.
  set (r := of_Q (1 - 1 / (2 ^ 53 # 1))).
  assert (C : match delay_f (f 1) (f 2) (PyFloat tenth) r 1, delay_f (f 1) (f 2) (PyInt 0) r 1 with
              | Ret (PyFloat d), Ret (PyFloat y) => flt r one && feq d (fmul y (fadd one tenth))
              | _, _ => false
              end = true) by (vm_compute; reflexivity).
  exists (f 1), (f 2), tenth, r, 1%nat. revert C.
  generalize (delay_f (f 1) (f 2) (PyFloat tenth) r 1) (delay_f (f 1) (f 2) (PyInt 0) r 1) (fadd one tenth) (flt r one).
  intros [[?|d]|] [[?|y]|] g b C; try discriminate C.
  apply andb_true_iff in C. exists d, y. tauto.
Qed.

(** retry's defaults: 0.1 and 2.0, doubling exactly to 1.6 (the float), then 2. *)
Example C106_ex_defaults :
  map (fun k => shown (delay_f (f (1 # 10)) (f 2) (PyInt 0) zero k)) [1; 2; 5; 6; 1024; 1025]%nat =
  [Some (3602879701896397 # 36028797018963968); Some (3602879701896397 # 18014398509481984);
   Some (3602879701896397 # 2251799813685248); Some 2; Some 2; None]%Q.
Proof. vm_compute. reflexivity. Qed.
Example C106_ex_int :
  map (fun k => shown (delay_f (PyInt 1) (PyInt 10) (PyInt 0) zero k)) [1; 4; 5; 2000]%nat = [Some 1; Some 8; Some 10; Some 10]%Q /\
  shown (delay_f (PyInt 1) (PyInt 10) (f (1 # 2)) (of_Q (1 # 2)) 4) = Some 10%Q.
Proof. split; vm_compute; reflexivity. Qed.
(** A max_delay that is NaN is slept; a base_delay that is NaN never is. *)
Example C106_ex_nan :
  delay_f (f 1) (PyFloat B754_nan) (PyInt 0) zero 1 = Ret (PyFloat B754_nan) /\
  shown (delay_f (PyFloat B754_nan) (f 2) (PyInt 0) zero 1) = Some 2%Q.
Proof. split; vm_compute; reflexivity. Qed.
(** A negative jitter shortens delays. *)
Example C106_ex_negative :
  shown (delay_f (f 1) (f 2) (f (- 1 # 2)) (of_Q (1 # 2)) 1) = Some (3 # 4)%Q /\
  shown (delay_f (f 1) (f 2) (PyInt (-1)) (of_Q (1 # 2)) 1) = Some (1 # 2)%Q.
Proof. split; vm_compute; reflexivity. Qed.
(** Two deadlines one spacing apart near a large clock reading. *)
Example C106_ex_deadline :
  map (fun q => out_of_time (of_Q q) (of_Q 1000000)) [1000000; 1000000 + (1 # 8589934592); 999999]%Q = [true; false; true].
Proof. vm_compute. reflexivity. Qed.

Print Assumptions C106_backoff.
Print Assumptions C106_growth.
Print Assumptions C106_agrees.
Print Assumptions C106_jitter.
Print Assumptions C106_error.
Print Assumptions C106_overflow.
Print Assumptions C106_int.
Print Assumptions C106_deadline.
Print Assumptions C106_no_deadline.
Print Assumptions C106_ceiling_refuted.
Print Assumptions C106_growth_refuted.
Print Assumptions C106_strict_refuted.
