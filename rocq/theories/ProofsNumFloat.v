(** Facts about ModelNumFloat, for C104. *)
From Coq Require Import List Bool Arith ZArith QArith Qround Qabs Qreals Qpower Reals Lra Lia Psatz.
From Flocq Require Import Core IEEE754.BinarySingleNaN.
From Verif Require Import PyBase ModelNum PropertiesNum ModelSimFloat ModelNumFloat ProofsSimFloat.
Local Open Scope R_scope.

(** The exact value of a finite float. *)
Lemma to_Q_finite x : is_finite x = true -> exists q, to_Q x = Fin q /\ Q2R q = B2R x.
Proof.
  destruct x as [s|s| |s m e H]; try discriminate; intros _.
  - exists 0%Q. split; [reflexivity|]. apply RMicromega.Q2R_0.
  - eexists. split; [reflexivity|]. unfold B2R, F2R. cbn [Fnum Fexp].
    set (z := SpecFloat.cond_Zopp s (Z.pos m)). destruct e as [|p|p]; unfold Q2R; cbn [Qnum Qden].
    + cbn. field.
    + rewrite mult_IZR, <- (IZR_Zpower radix2 (Zpos p)) by discriminate. change (radix_val radix2) with 2%Z. cbn [Rinv]. field.
    + change (bpow radix2 (Zneg p)) with (bpow radix2 (- Zpos p)). rewrite bpow_opp. f_equal. f_equal.
      rewrite <- (IZR_Zpower radix2 (Zpos p)) by discriminate. change (radix_val radix2) with 2%Z.
      rewrite Pos2Z.inj_pow. reflexivity.
Qed.
Lemma to_Q_Fin x q : to_Q x = Fin q -> is_finite x = true /\ Q2R q = B2R x.
Proof.
  intros H. assert (F : is_finite x = true) by (destruct x as [s|[]| |s m e B]; try discriminate; reflexivity).
  split; [exact F|]. destruct (to_Q_finite x F) as (q' & E & V). congruence.
Qed.

Definition big (r : R) : Prop := bpow radix2 1024 <= Rabs (rnd r).
Lemma SF2B_spec z P r s :
  (if Rlt_bool (Rabs (rnd r)) (bpow radix2 1024)
   then SF2R radix2 z = rnd r /\ is_finite_SF z = true /\ sign_SF z = xorb s false
   else z = binary_overflow 53 1024 mode_NE (xorb s false)) ->
  (~ big r -> val (@SF2B 53 1024 z P) (rnd r)) /\ (big r -> @SF2B 53 1024 z P = B754_infinity s).
Proof.
  unfold big. destruct (Rlt_bool_spec (Rabs (rnd r)) (bpow radix2 1024)) as [L|L].
  - intros (V & F & _). split; [intros _|intros B; lra]. split.
    + rewrite is_finite_SF2B. exact F.
    + rewrite B2R_SF2B. exact V.
  - intros E. split; [intros B; lra|intros _]. apply B2SF_inj. rewrite B2SF_SF2B, E, xorb_false_r. reflexivity.
Qed.
Lemma ratio_spec s m d : let r := IZR (SpecFloat.cond_Zopp s (Zpos m)) / IZR (Zpos d) in
  (~ big r -> val (ratio s m d) (rnd r)) /\ (big r -> ratio s m d = B754_infinity s).
Proof.
  cbn zeta. apply SF2B_spec.
  assert (E : IZR (SpecFloat.cond_Zopp s (Zpos m)) / IZR (Zpos d) =
    F2R (Float radix2 (SpecFloat.cond_Zopp s (Zpos m)) 0) / F2R (Float radix2 (SpecFloat.cond_Zopp false (Zpos d)) 0)).
  { unfold F2R. cbn [Fnum Fexp SpecFloat.cond_Zopp]. change (bpow radix2 0) with 1. rewrite !Rmult_1_r. reflexivity. }
  rewrite E. apply (proj2 (Bdiv_correct_aux 53 1024 prec_gt prec_lt mode_NE s m 0 false d 0)).
Qed.

(** of_Q is the nearest float, or an infinity. *)
Lemma not_big_0 : ~ big 0.
Proof. unfold big. rewrite (rnd_repr 0 repr_0), Rabs_R0. apply Rlt_not_le, bpow_gt_0. Qed.
Lemma of_Q_val q : ~ big (Q2R q) -> val (of_Q q) (rnd (Q2R q)).
Proof.
  unfold of_Q, Q2R. destruct q as [[|m|m] d]; cbn [Qnum Qden]; intros B.
  - rewrite Rmult_0_l, (rnd_repr 0 repr_0). split; reflexivity.
  - apply (ratio_spec false m d), B.
  - apply (ratio_spec true m d), B.
Qed.
Lemma of_Q_big q : big (Q2R q) -> of_Q q = B754_infinity (if Rlt_dec (Q2R q) 0 then true else false).
Proof.
  unfold of_Q, Q2R. destruct q as [[|m|m] d]; cbn [Qnum Qden]; intros B.
  - exfalso. rewrite Rmult_0_l in B. apply not_big_0, B.
  - assert (P : 0 < IZR (Zpos m) * / IZR (Zpos d)).
    { apply Rmult_lt_0_compat; [apply IZR_lt; reflexivity|]. apply Rinv_0_lt_compat, IZR_lt. reflexivity. }
    destruct (Rlt_dec _ 0); [lra|]. apply (ratio_spec false m d), B.
  - assert (P : IZR (Zneg m) * / IZR (Zpos d) < 0).
    { assert (IZR (Zneg m) < 0) by (apply IZR_lt; reflexivity).
      assert (0 < / IZR (Zpos d)) by (apply Rinv_0_lt_compat, IZR_lt; reflexivity). nra. }
    destruct (Rlt_dec _ 0); [|lra]. apply (ratio_spec true m d), B.
Qed.
Lemma big_dec r : {big r} + {~ big r}.
Proof. unfold big. destruct (Rle_dec (bpow radix2 1024) (Rabs (rnd r))); auto. Qed.
Lemma of_Q_finite q : is_finite (of_Q q) = true -> val (of_Q q) (rnd (Q2R q)) /\ ~ big (Q2R q).
Proof.
  intros F. destruct (big_dec (Q2R q)) as [B|B].
  - rewrite (of_Q_big q B) in F. discriminate.
  - split; [apply of_Q_val|]; exact B.
Qed.
Lemma float_not_big (x : float) : is_finite x = true -> ~ big (B2R x).
Proof.
  intros F. unfold big. rewrite (rnd_repr _ (val_repr x _ (finite_val x F))). apply Rlt_not_le, abs_B2R_lt_emax.
Qed.
(** Rounding is monotone; what lies between two floats does not overflow. *)
Lemma big_mono a b : big a -> 0 <= a <= b -> big b.
Proof.
  unfold big. intros B [H1 H2]. pose proof (rnd_le _ _ H1) as R1. pose proof (rnd_le _ _ H2) as R2. rewrite (rnd_repr 0 repr_0) in R1.
  rewrite (Rabs_pos_eq (rnd a)) in B by lra. rewrite (Rabs_pos_eq (rnd b)) by lra. lra.
Qed.

(** A number beyond the floats. *)
Lemma big_above r (x : float) : big r -> is_finite x = true -> 0 < r -> B2R x < r.
Proof.
  intros B F P. apply Rnot_le_lt. intros L. apply (float_not_big x F). eapply big_mono; [exact B|lra].
Qed.
Lemma rnd_opp r : rnd (- r) = - rnd r.
Proof. unfold rnd. apply round_NE_opp. Qed.
Lemma big_opp r : big r -> big (- r).
Proof. unfold big. rewrite rnd_opp, Rabs_Ropp. auto. Qed.
Lemma big_below r (x : float) : big r -> is_finite x = true -> r < 0 -> r < B2R x.
Proof.
  intros B F P. apply Rnot_le_lt. intros L. apply (float_not_big x F).
  rewrite <- (Ropp_involutive (B2R x)). apply big_opp. eapply big_mono; [apply big_opp, B|lra].
Qed.

(** Nearest. *)
Lemma rnd_nearest r y : repr y -> Rabs (rnd r - r) <= Rabs (y - r).
Proof.
  intros Hy. pose proof (@round_N_pt radix2 fx (fexp_correct 53 1024 prec_gt) (fun x => negb (Z.even x)) r) as [_ H].
  exact (H y Hy).
Qed.

(** half_even is monotone. *)
Lemma half_even_mono a b : (a <= b)%Q -> (half_even a <= half_even b)%Z.
Proof.
  intros H. pose proof (Qfloor_resp_le _ _ H) as F. unfold half_even.
  destruct (Z.eq_dec (Qfloor a) (Qfloor b)) as [E|N].
  - rewrite <- E. set (f := Qfloor a).
    assert (D : (a - inject_Z f <= b - inject_Z f)%Q) by (apply Qplus_le_l; exact H).
    destruct (Qle_bool (a - inject_Z f) (1 # 2)) eqn:A.
    + destruct (Qle_bool (b - inject_Z f) (1 # 2)) eqn:B.
      * destruct (Qeq_bool (a - inject_Z f) (1 # 2)) eqn:A'.
        -- apply Qeq_bool_iff in A'. apply Qle_bool_iff in B. rewrite A' in D.
           assert (B' : Qeq_bool (b - inject_Z f) (1 # 2) = true) by (apply Qeq_bool_iff, Qle_antisym; assumption).
           rewrite B'. lia.
        -- destruct (Qeq_bool (b - inject_Z f) (1 # 2)); [destruct (Z.even f); lia|lia].
      * destruct (Qeq_bool (a - inject_Z f) (1 # 2)); [destruct (Z.even f); lia|lia].
    + assert (B : Qle_bool (b - inject_Z f) (1 # 2) = false).
      { apply not_true_iff_false. intros X. apply Qle_bool_iff in X. apply not_true_iff_false in A. apply A.
        apply Qle_bool_iff. eapply Qle_trans; [exact D|exact X]. }
      rewrite B. lia.
  - repeat match goal with |- context [if ?c then _ else _] => destruct c end; lia.
Qed.
