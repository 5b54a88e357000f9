(** C104: to_num in floating point. *)
From Coq Require Import List Bool Arith ZArith QArith Qround Qabs Qreals Qpower Reals Lra Lia Psatz.
From Flocq Require Import Core IEEE754.BinarySingleNaN.
From Verif Require Import PyBase ModelNum PropertiesNum ModelSimFloat ModelNumFloat ProofsSimFloat ProofsNumFloat.
Import ListNotations.
Local Open Scope R_scope.

(** The number that an argument stands for. *)
Inductive means_f : input_f -> num -> Prop :=
| mf_int z : means_f (FInt z) (Fin (inject_Z z))
| mf_float x : means_f (FFloat x) (to_Q x)
| mf_decimal n : means_f (FDecimal n) n
| mf_text n : means_f (FText false (Some n)) n.
(** No float is nearer to q than x. *)
Definition nearest (q : Q) (x : float) : Prop :=
  is_finite x = true /\ forall y : float, is_finite y = true -> Rabs (B2R x - Q2R q) <= Rabs (B2R y - Q2R q).
(** x stands for n: the nearest float, or the infinity for a number beyond all floats. *)
Definition stands (n : num) (x : float) : Prop :=
  match n with
  | Fin q => nearest q x \/
             (x = B754_infinity false /\ forall y : float, is_finite y = true -> B2R y < Q2R q) \/
             (x = B754_infinity true /\ forall y : float, is_finite y = true -> Q2R q < B2R y)
  | _ => to_Q x = n
  end.
Definition upto (b : option bound) (x : float) : Prop := at_most (option_map bval b) (to_Q x).
Definition from (b : option bound) (x : float) : Prop := at_least (option_map bval b) (to_Q x).

Lemma nearest_rnd q x : val x (rnd (Q2R q)) -> nearest q x.
Proof.
  intros [F V]. split; [exact F|]. intros y Fy. rewrite V. apply rnd_nearest, (val_repr y), finite_val, Fy.
Qed.
Lemma stands_of_Q q : stands (Fin q) (of_Q q).
Proof.
  cbn. destruct (big_dec (Q2R q)) as [B|B].
  - right. rewrite (of_Q_big q B). destruct (Rlt_dec (Q2R q) 0) as [L|L].
    + right. split; [reflexivity|]. intros y Fy. apply big_below; assumption.
    + left. split; [reflexivity|]. intros y Fy. apply big_above; try assumption.
      destruct (Req_dec (Q2R q) 0) as [Z|Z]; [|lra]. rewrite Z in B. destruct (not_big_0 B).
  - left. apply nearest_rnd, of_Q_val, B.
Qed.
Lemma stands_self x : stands (to_Q x) x.
Proof.
  destruct (to_Q x) as [q| | |] eqn:E; try exact E. left. destruct (to_Q_Fin x q E) as [F V].
  split; [exact F|]. intros y _. rewrite V. replace (B2R x - B2R x) with 0 by ring. rewrite Rabs_R0. apply Rabs_pos.
Qed.
Lemma stands_of_num n : stands n (of_num n).
Proof. destruct n as [q| | |]; [apply stands_of_Q| | |]; reflexivity. Qed.
Lemma value_stands i x : value_f i = Ret x -> exists n, means_f i n /\ stands n x.
Proof.
  destruct i as [z|y|n|[] [n|]|]; cbn; try discriminate.
  - destruct (is_finite (of_Q (inject_Z z))); [|discriminate]. intros [= <-].
    eexists. split; [constructor|apply stands_of_Q].
  - intros [= <-]. eexists. split; [constructor|apply stands_self].
  - intros [= <-]. eexists. split; [constructor|apply stands_of_num].
  - intros [= <-]. eexists. split; [constructor|apply stands_of_num].
Qed.

Lemma bounds_ok u l x :
  match u with Some u => gt (to_Q x) (bval u) | None => false end = false ->
  match l with Some l => gt (bval l) (to_Q x) | None => false end = false -> upto u x /\ from l x.
Proof.
  intros U L. split.
  - destruct u as [u|]; [apply gt_false_upper, U|]. unfold upto. cbn. destruct (to_Q x); exact I.
  - destruct l as [l|]; [apply gt_false_lower, L|]. unfold from. cbn. destruct (to_Q x); exact I.
Qed.

(** Without a precision a returned float is the one nearest to the number given, and within the
    bounds; a returned int is that float cut towards zero. *)
Theorem C104_value i u l p is_int r : to_num_f i u l is_int p = Ret r -> is_int = true \/ p = None ->
  exists n x, means_f i n /\ stands n x /\ upto u x /\ from l x /\
    match r with
    | FRFloat y => is_int = false /\ y = x
    | FRInt z => is_int = true /\ is_finite x = true /\ Rabs (IZR z) <= Rabs (B2R x) /\ Rabs (B2R x - IZR z) < 1
    end.
Proof.
  unfold to_num_f. intros H Hp. destruct (value_f i) as [x|e] eqn:V; [|discriminate]. cbn [bind] in H.
  destruct (value_stands i x V) as (n & M & S). exists n, x. split; [exact M|]. split; [exact S|].
  destruct (match u with Some u => gt (to_Q x) (bval u) | None => false end) eqn:U; [discriminate|].
  destruct (match l with Some l => gt (bval l) (to_Q x) | None => false end) eqn:L; [discriminate|].
  destruct (bounds_ok u l x U L) as [BU BL]. split; [exact BU|]. split; [exact BL|].
  assert (E : match p with Some p => if is_int then Ret x else round_f p x | None => Ret x end = Ret x).
  { destruct p; [|reflexivity]. destruct Hp as [->|]; [reflexivity|discriminate]. }
  rewrite E in H. cbn [bind] in H. destruct is_int.
  - destruct (to_Q x) as [q| | |] eqn:Q; try discriminate. injection H as <-. split; [reflexivity|].
    destruct (to_Q_Fin x q Q) as [F <-]. split; [exact F|]. clear -n.
    assert (EZ : forall z, IZR z = Q2R (inject_Z z)) by (intros z; unfold Q2R, inject_Z; cbn; field).
    destruct (trunc_spec q) as [TP TN]. rewrite EZ. destruct (Qlt_le_dec q 0) as [N|N].
    + destruct (TN (Qlt_le_weak _ _ N)) as (A & B & C). apply Qle_Rle in A. apply Qlt_Rlt in B.
      rewrite Q2R_minus, RMicromega.Q2R_1 in B. apply Qlt_Rlt in N. rewrite RMicromega.Q2R_0 in N.
      rewrite <- EZ in *. apply IZR_le in C. rewrite !Rabs_left1 by lra. split; lra.
    + destruct (TP N) as (A & B & C). apply Qle_Rle in A. apply Qlt_Rlt in B.
      rewrite Q2R_plus, RMicromega.Q2R_1 in B. apply Qle_Rle in N. rewrite RMicromega.Q2R_0 in N.
      rewrite <- EZ in *. apply IZR_le in C. rewrite !Rabs_pos_eq by lra. split; lra.
  - injection H as <-. split; reflexivity.
Qed.
Print Assumptions C104_value.

(** Every number is accepted if there are no bounds, but for ints beyond all floats: those raise
    OverflowError. *)
Theorem C104_accepts i n : means_f i n ->
  (exists x, to_num_f i None None false None = Ret (FRFloat x) /\ stands n x /\
     forall z, i = FInt z -> is_finite x = true) \/
  (exists z, i = FInt z /\ to_num_f i None None false None = Raise OtherErr /\
     forall y : float, is_finite y = true -> Rabs (B2R y) < Rabs (IZR z)).
Proof.
  intros M. unfold to_num_f. destruct M; cbn [value_f].
  - cbv zeta. destruct (is_finite (of_Q (inject_Z z))) eqn:F; cbn [bind].
    + left. eexists. split; [reflexivity|]. split; [apply stands_of_Q|]. intros _ _. exact F.
    + right. exists z. split; [reflexivity|]. split; [reflexivity|]. intros y Fy.
      assert (EZ : Q2R (inject_Z z) = IZR z) by (unfold Q2R, inject_Z; cbn; field).
      destruct (big_dec (Q2R (inject_Z z))) as [B|B].
      * rewrite EZ in B. assert (N : IZR z <> 0) by (intros E; rewrite E in B; exact (not_big_0 B)).
        assert (Fo : is_finite (Bopp y) = true) by (rewrite is_finite_Bopp; exact Fy).
        destruct (Rlt_dec (IZR z) 0) as [L|L].
        -- pose proof (big_below _ y B Fy L) as H1. pose proof (big_below _ _ B Fo L) as H2. rewrite B2R_Bopp in H2.
           rewrite (Rabs_left (IZR z)) by exact L. apply Rabs_lt. lra.
        -- assert (P : 0 < IZR z) by lra. pose proof (big_above _ y B Fy P) as H1. pose proof (big_above _ _ B Fo P) as H2.
           rewrite B2R_Bopp in H2. rewrite (Rabs_pos_eq (IZR z)) by lra. apply Rabs_lt. lra.
      * rewrite (proj1 (of_Q_val _ B)) in F. discriminate.
  - left. eexists. split; [reflexivity|]. split; [apply stands_self|]. intros z [=].
  - left. eexists. split; [reflexivity|]. split; [apply stands_of_num|]. intros z [=].
  - left. eexists. split; [reflexivity|]. split; [apply stands_of_num|]. intros z [=].
Qed.
Print Assumptions C104_accepts.

(** Ints up to 2^53 are exact: returned if and only if within the bounds. *)
Lemma exact_int z : (Z.abs z <= 2 ^ 53)%Z -> exists q, is_finite (of_Q (inject_Z z)) = true /\
  to_Q (of_Q (inject_Z z)) = Fin q /\ (q == inject_Z z)%Q.
Proof.
  intros Hz. assert (R : repr (Q2R (inject_Z z))).
  { unfold Q2R, inject_Z. cbn [Qnum Qden]. replace (IZR z * / 1) with (IZR z) by field.
    destruct (Z.eq_dec (Z.abs z) (2 ^ 53)) as [E|N].
    - assert (P : repr (bpow radix2 53)).
      { apply generic_format_bpow. unfold SpecFloat.fexp, SpecFloat.emin. lia. }
      change (bpow radix2 53) with (IZR (2 ^ 53)) in P. destruct (Z_le_dec 0 z).
      + replace z with (2 ^ 53)%Z by lia. exact P.
      + replace z with (- 2 ^ 53)%Z by lia. rewrite opp_IZR. apply repr_opp, P.
    - replace (IZR z) with (F2R (Float radix2 z 0)) by (unfold F2R; cbn; ring). apply repr_F2R; lia. }
  assert (B : ~ big (Q2R (inject_Z z))).
  { unfold big. rewrite (rnd_repr _ R). unfold Q2R, inject_Z. cbn [Qnum Qden]. replace (IZR z * / 1) with (IZR z) by field.
    rewrite <- abs_IZR. apply Rlt_not_le. apply Rle_lt_trans with (bpow radix2 53).
    - change (bpow radix2 53) with (IZR (2 ^ 53)). apply IZR_le, Hz.
    - apply bpow_lt. lia. }
  destruct (of_Q_val _ B) as [F V]. destruct (to_Q_finite _ F) as (q & E & Q). exists q. split; [exact F|]. split; [exact E|].
  apply eqR_Qeq. rewrite Q, V. apply rnd_repr, R.
Qed.
Theorem C104_small_ints z u l : (Z.abs z <= 2 ^ 53)%Z ->
  (to_num_f (FInt z) (Some (BInt u)) (Some (BInt l)) true None = if (l <=? z)%Z && (z <=? u)%Z then Ret (FRInt z) else Raise ValueError) /\
  (forall r, to_num_f (FInt z) (Some (BInt u)) (Some (BInt l)) false None = r ->
     if (l <=? z)%Z && (z <=? u)%Z then exists x q, r = Ret (FRFloat x) /\ to_Q x = Fin q /\ (q == inject_Z z)%Q
     else r = Raise ValueError).
Proof.
  intros Hz. destruct (exact_int z Hz) as (q & F & E & Q).
  assert (U : gt (Fin q) (Fin (inject_Z u)) = negb (z <=? u)%Z).
  { cbn. f_equal. apply eq_true_iff_eq. rewrite Qle_bool_iff, Q, <- Zle_Qle, Z.leb_le. reflexivity. }
  assert (L : gt (Fin (inject_Z l)) (Fin q) = negb (l <=? z)%Z).
  { cbn. f_equal. apply eq_true_iff_eq. rewrite Qle_bool_iff, Q, <- Zle_Qle, Z.leb_le. reflexivity. }
  assert (T : trunc q = z).
  { destruct q as [a b]. unfold Qeq, inject_Z in Q. cbn in Q. unfold trunc. cbn [Qnum Qden].
    rewrite Z.mul_1_r in Q. rewrite Q. apply Z.quot_mul. discriminate. }
  unfold to_num_f, value_f. cbv zeta. rewrite F. cbn [bind]. rewrite E. cbn [bval]. rewrite U, L.
  destruct (z <=? u)%Z; cbn [negb].
  - destruct (l <=? z)%Z; cbn [negb andb bind]; [|split; [reflexivity|auto]].
    rewrite T. split; [reflexivity|]. intros r <-. do 2 eexists. split; [reflexivity|]. split; [exact E|exact Q].
  - rewrite andb_false_r. split; [reflexivity|auto].
Qed.
Print Assumptions C104_small_ints.

(** Rounding to float is monotone, so a number within float bounds is never refused for them. *)
Lemma of_Q_mono a b : (a <= b)%Q -> at_most (Some (to_Q (of_Q b))) (to_Q (of_Q a)).
Proof.
  intros H. apply Qle_Rle in H.
  destruct (big_dec (Q2R a)) as [A|A]; [rewrite (of_Q_big a A); destruct (Rlt_dec (Q2R a) 0) as [La|La]|];
  (destruct (big_dec (Q2R b)) as [B|B]; [rewrite (of_Q_big b B); destruct (Rlt_dec (Q2R b) 0) as [Lb|Lb]|]); cbn; auto.
  - destruct (to_Q_finite _ (proj1 (of_Q_val b B))) as (q & -> & _). exact I.
  - lra.
  - exfalso. apply B. eapply big_mono; [exact A|lra].
  - exfalso. apply A. rewrite <- (Ropp_involutive (Q2R a)). apply big_opp.
    apply (big_mono (- Q2R b)); [apply big_opp, B|lra].
  - destruct (of_Q_val a A) as [Fa Va]. destruct (of_Q_val b B) as [Fb Vb].
    destruct (to_Q_finite _ Fa) as (qa & -> & Qa). destruct (to_Q_finite _ Fb) as (qb & -> & Qb). cbn.
    apply Rle_Qle. rewrite Qa, Qb, Va, Vb. apply rnd_le, H.
Qed.
Lemma of_Q_to_Q x q : to_Q x = Fin q -> exists q', to_Q (of_Q q) = Fin q' /\ (q' == q)%Q.
Proof.
  intros E. destruct (to_Q_Fin x q E) as [F V].
  assert (B : ~ big (Q2R q)) by (rewrite V; apply float_not_big, F).
  destruct (of_Q_val q B) as [F' V']. destruct (to_Q_finite _ F') as (q' & E' & Q'). exists q'. split; [exact E'|].
  apply eqR_Qeq. rewrite Q', V'. apply rnd_repr. rewrite V. apply (val_repr x), finite_val, F.
Qed.
Lemma of_num_upto n x : at_most (Some (to_Q x)) n -> at_most (Some (to_Q x)) (to_Q (of_num n)).
Proof.
  destruct n as [q| | |]; cbn [of_num]; try (intros H; exact H).
  destruct (to_Q x) as [u| | |] eqn:E; try (cbn; auto).
  - intros H. apply of_Q_mono in H. destruct (of_Q_to_Q x u E) as (u' & Eu & Qu). rewrite Eu in H.
    destruct (to_Q (of_Q q)) as [v| | |]; cbn in *; auto. rewrite <- Qu. exact H.
  - contradiction.
Qed.
Lemma of_num_from n x : at_least (Some (to_Q x)) n -> at_least (Some (to_Q x)) (to_Q (of_num n)).
Proof.
  destruct n as [q| | |]; cbn [of_num]; try (intros H; exact H).
  destruct (to_Q x) as [u| | |] eqn:E; try (cbn; auto).
  - intros H. apply of_Q_mono in H. destruct (of_Q_to_Q x u E) as (u' & Eu & Qu). rewrite Eu in H.
    destruct (to_Q (of_Q q)) as [v| | |]; cbn in *; auto. rewrite <- Qu. exact H.
  - contradiction.
Qed.
Theorem C104_float_bounds i n u l : means_f i n -> at_most (Some (to_Q u)) n -> at_least (Some (to_Q l)) n ->
  to_num_f i (Some (BFloat u)) (Some (BFloat l)) false None <> Raise ValueError.
Proof.
  intros M HU HL. assert (V : value_f i = Raise OtherErr \/ exists x, value_f i = Ret x /\ (to_Q x = n \/ x = of_num n)).
  { destruct M; cbn.
    - destruct (is_finite _); [right; eexists; split; [reflexivity|right; reflexivity]|left; reflexivity].
    - right. eauto.
    - right. eauto.
    - right. eauto. }
  unfold to_num_f. destruct V as [->|(x & -> & X)]; [discriminate|]. cbn [bind bval].
  assert (U : gt (to_Q x) (to_Q u) = false) by (apply gt_false_upper; destruct X as [->| ->]; [exact HU|apply of_num_upto, HU]).
  assert (L : gt (to_Q l) (to_Q x) = false) by (apply gt_false_lower; destruct X as [->| ->]; [exact HL|apply of_num_from, HL]).
  rewrite U, L. discriminate.
Qed.
Print Assumptions C104_float_bounds.

(** With a precision p the result is the float nearest to the nearest multiple of 10^-p, and stays
    within every float bound that rounding to p digits leaves unchanged. *)
Definition stable (p : Z) (b : option bound) : Prop :=
  match b with
  | Some (BFloat x) => exists y, to_num_f (FFloat x) None None false (Some p) = Ret (FRFloat y) /\ feq x y = true
  | Some (BInt z) => (0 <= p)%Z /\ (Z.abs z <= 2 ^ 53)%Z
  | None => True
  end.
Lemma pow10_int p : (0 <= p)%Z -> exists k, (pow10 p == inject_Z k)%Q /\ (0 < k)%Z.
Proof.
  intros H. exists (10 ^ p)%Z. split; [|apply Z.pow_pos_nonneg; lia]. unfold pow10. change (10 # 1)%Q with (inject_Z 10). rewrite Zpower_Qpower by exact H. reflexivity.
Qed.
Lemma half_even_int q z : (q == inject_Z z)%Q -> half_even q = z.
Proof.
  intros H. assert (A : (half_even q <= z)%Z) by (apply half_even_le; rewrite H; apply Qle_refl).
  assert (B : (z <= half_even q)%Z) by (apply half_even_ge; rewrite H; apply Qle_refl). lia.
Qed.
Theorem C104_round i u l p x : to_num_f i u l false (Some p) = Ret (FRFloat x) -> (-308 <= p <= 323)%Z ->
  exists n v, means_f i n /\ stands n v /\ upto u v /\ from l v /\
    match to_Q v with
    | Fin q => exists k : Z, (Qabs (inject_Z k / pow10 p - q) <= (1 # 2) / pow10 p)%Q /\ nearest (inject_Z k / pow10 p) x /\
        (stable p u -> upto u x) /\ (stable p l -> from l x)
    | _ => x = v
    end.
Proof.
  unfold to_num_f. intros H Hp. destruct (value_f i) as [v|e] eqn:V; [|discriminate]. cbn [bind] in H.
  destruct (value_stands i v V) as (n & M & S). exists n, v. split; [exact M|]. split; [exact S|].
  destruct (match u with Some u => gt (to_Q v) (bval u) | None => false end) eqn:U; [discriminate|].
  destruct (match l with Some l => gt (bval l) (to_Q v) | None => false end) eqn:L; [discriminate|].
  destruct (bounds_ok u l v U L) as [BU BL]. split; [exact BU|]. split; [exact BL|].
  assert (P1 : (323 <? p)%Z = false) by (apply Z.ltb_ge; lia). assert (P2 : (p <? -308)%Z = false) by (apply Z.ltb_ge; lia).
  unfold round_f in H. destruct (to_Q v) as [q| | |] eqn:Q; try (injection H as <-; reflexivity).
  rewrite P1, P2 in H. cbv zeta in H. set (k := half_even (q * pow10 p)) in *.
  destruct (is_finite (of_Q (inject_Z k / pow10 p))) eqn:F; [|discriminate]. cbn [bind] in H. injection H as <-.
  exists k. pose proof (pow10_pos p) as P. split; [|split; [apply nearest_rnd, of_Q_finite, F|]].
  { pose proof (half_even_close (q * pow10 p)) as C. fold k in C.
    assert (E : (inject_Z k / pow10 p - q == (inject_Z k - q * pow10 p) * / pow10 p)%Q).
    { field. intros Z. rewrite Z in P. apply Qlt_irrefl in P. exact P. }
    rewrite E, Qabs_Qmult. rewrite (Qabs_pos (/ pow10 p)) by (apply Qlt_le_weak, Qinv_lt_0_compat; auto).
    unfold Qdiv. apply Qmult_le_compat_r; auto. apply Qlt_le_weak, Qinv_lt_0_compat; auto. }
  assert (MONO : forall a b, (a <= b)%Q ->
     at_most (Some (to_Q (of_Q (inject_Z (half_even (b * pow10 p)) / pow10 p))))
             (to_Q (of_Q (inject_Z (half_even (a * pow10 p)) / pow10 p)))).
  { intros a b AB. apply of_Q_mono. unfold Qdiv. apply Qmult_le_compat_r; [|apply Qlt_le_weak, Qinv_lt_0_compat; auto].
    rewrite <- Zle_Qle. apply half_even_mono. apply Qmult_le_compat_r; [exact AB|apply Qlt_le_weak, P]. }
  assert (ST : forall b bq, stable p (Some b) -> bval b = Fin bq ->
     exists q', to_Q (of_Q (inject_Z (half_even (bq * pow10 p)) / pow10 p)) = Fin q' /\ (q' == bq)%Q).
  { intros b bq SB EB. destruct b as [z|y].
    - cbn in SB, EB. injection EB as <-. destruct SB as [P0 Z0]. destruct (pow10_int p P0) as (t & T & T0).
      assert (HE : half_even (inject_Z z * pow10 p) = (z * t)%Z) by (apply half_even_int; rewrite T, inject_Z_mult; reflexivity).
      rewrite HE. destruct (exact_int z Z0) as (q' & F' & E' & Q').
      assert (EQ : (inject_Z (z * t) / pow10 p == inject_Z z)%Q).
      { rewrite inject_Z_mult, T. field. intros X. change 0%Q with (inject_Z 0) in X. apply (proj1 (inject_Z_injective _ _)) in X. lia. }
      assert (RR : Q2R (inject_Z (z * t) / pow10 p) = Q2R (inject_Z z)) by (apply Qeq_eqR, EQ).
      destruct (of_Q_finite _ F') as [[_ V'] NB]. rewrite <- RR in NB. destruct (of_Q_val _ NB) as [F2 V2].
      destruct (to_Q_finite _ F2) as (q2 & E2 & Q2). exists q2. split; [exact E2|]. rewrite <- Q'.
      apply eqR_Qeq. rewrite Q2, V2, RR, <- V'. symmetry. apply (to_Q_Fin _ _ E').
    - cbn [bval] in EB. destruct SB as (y' & SB & EY). unfold to_num_f, value_f, round_f in SB. cbn [bind] in SB.
      rewrite EB, P1, P2 in SB. cbv zeta in SB. destruct (is_finite (of_Q (inject_Z (half_even (bq * pow10 p)) / pow10 p))) eqn:F2; [|discriminate]. cbn [bind] in SB.
      injection SB as <-. destruct (to_Q_finite _ F2) as (q2 & E2 & Q2). exists q2. split; [exact E2|].
      destruct (to_Q_Fin y bq EB) as [Fy Vy]. apply eqR_Qeq. rewrite Q2, Vy. symmetry.
      apply (feq_val _ _ _ _ (finite_val y Fy) (finite_val _ F2)), EY. }
  destruct (to_Q_finite _ F) as (r & Er & _). unfold upto, from in *. rewrite Er. split; intros SB.
  - destruct u as [u|]; cbn [option_map] in *; [|exact I]. destruct (bval u) as [uq| | |] eqn:EB; cbn in *; auto; try contradiction.
    + rewrite Q in BU. cbn in BU. destruct (ST u uq SB EB) as (q' & E' & Q'). pose proof (MONO q uq BU) as MM.
      fold k in MM. rewrite Er, E' in MM. cbn in MM. rewrite <- Q'. exact MM.
    + rewrite Q in BU. exact BU.
  - destruct l as [l|]; cbn [option_map] in *; [|exact I]. destruct (bval l) as [lq| | |] eqn:EB; cbn in *; auto; try contradiction.
    + rewrite Q in BL. cbn in BL. destruct (ST l lq SB EB) as (q' & E' & Q'). pose proof (MONO lq q BL) as MM.
      fold k in MM. rewrite Er, E' in MM. cbn in MM. rewrite <- Q'. exact MM.
    + rewrite Q in BL. exact BL.
Qed.
Print Assumptions C104_round.

(** What is refused, in terms of the float x that to_num makes of the argument alone. *)
Lemma upto_dec u x : match u with Some u => gt (to_Q x) (bval u) | None => false end = true <-> ~ upto u x.
Proof.
  unfold upto. destruct u as [u|]; cbn [option_map].
  - rewrite <- gt_false_upper. destruct (gt _ _); split; congruence.
  - split; [discriminate|]. intros H. exfalso. apply H. destruct (to_Q x); exact I.
Qed.
Lemma from_dec l x : match l with Some l => gt (bval l) (to_Q x) | None => false end = true <-> ~ from l x.
Proof.
  unfold from. destruct l as [l|]; cbn [option_map].
  - rewrite <- gt_false_lower. destruct (gt _ _); split; congruence.
  - split; [discriminate|]. intros H. exfalso. apply H. destruct (to_Q x); exact I.
Qed.
Theorem C104_refusal i u l is_int p :
  (to_num_f i u l is_int p = Raise TypeError <-> i = FOther) /\
  (to_num_f i u l is_int p = Raise ValueError <->
    (exists n, i = FText true n) \/ i = FText false None \/
    exists x, to_num_f i None None false None = Ret (FRFloat x) /\
      (~ upto u x \/ ~ from l x \/ (is_int = true /\ to_Q x = NaN))).
Proof.
  assert (V : (value_f i = Raise TypeError /\ i = FOther) \/
              (value_f i = Raise ValueError /\ ((exists n, i = FText true n) \/ i = FText false None)) \/
              (value_f i = Raise OtherErr /\ exists z, i = FInt z) \/
              (exists x, value_f i = Ret x /\ i <> FOther /\ (forall n, i <> FText true n) /\ i <> FText false None)).
  { destruct i as [z|x|n|[] [n|]|]; cbn.
    - destruct (is_finite _); [right; right; right|right; right; left; split; [reflexivity|eauto]].
      eexists. split; [reflexivity|]. repeat split; intros; discriminate.
    - right; right; right. eexists. split; [reflexivity|]. repeat split; intros; discriminate.
    - right; right; right. eexists. split; [reflexivity|]. repeat split; intros; discriminate.
    - right; left. split; [reflexivity|]. eauto.
    - right; left. split; [reflexivity|]. eauto.
    - right; right; right. eexists. split; [reflexivity|]. repeat split; intros; discriminate.
    - right; left. split; [reflexivity|]. eauto.
    - left. auto. }
  unfold to_num_f. destruct V as [[-> ->]|[[-> T]|[[-> (z & ->)]|(x & -> & N1 & N2 & N3)]]]; cbn [bind].
  - split; [tauto|]. split; [discriminate|]. intros [(n & [=])|[[=]|(x & [=] & _)]].
  - split; [|split; [intros _; tauto|reflexivity]]. split; [discriminate|]. intros ->. destruct T as [(n & [=])|[=]].
  - split; [split; discriminate|]. split; [discriminate|]. intros [(n & [=])|[[=]|(x & [=] & _)]].
  - pose proof (upto_dec u x) as DU. pose proof (from_dec l x) as DL.
    assert (R : bind (match p with Some p => if is_int then Ret x else round_f p x | None => Ret x end) (fun value =>
        if is_int then match to_Q value with Fin q => Ret (FRInt (trunc q)) | NaN => Raise ValueError | _ => Raise OtherErr end
        else Ret (FRFloat value)) =
      if is_int then match to_Q x with Fin q => Ret (FRInt (trunc q)) | NaN => Raise ValueError | _ => Raise OtherErr end
      else match p with Some p => bind (round_f p x) (fun y => Ret (FRFloat y)) | None => Ret (FRFloat x) end).
    { destruct is_int; destruct p; reflexivity. }
    rewrite R. clear R.
    assert (RF : forall p e, bind (round_f p x) (fun y => Ret (FRFloat y)) = Raise e -> e = OtherErr).
    { intros p' e. unfold round_f. destruct (to_Q x); cbn [bind]; try discriminate.
      destruct (323 <? p')%Z; [discriminate|]. destruct (p' <? -308)%Z; [discriminate|]. cbv zeta.
      destruct (is_finite (of_Q _)); cbn [bind]; [discriminate|congruence]. }
    destruct (match u with Some u => _ | None => _ end).
    { split; [split; [discriminate|contradiction]|]. split; [|reflexivity]. intros _. right. right. exists x.
      split; [reflexivity|]. left. apply DU. reflexivity. }
    destruct (match l with Some l => _ | None => _ end).
    { split; [split; [discriminate|contradiction]|]. split; [|reflexivity]. intros _. right. right. exists x.
      split; [reflexivity|]. right. left. apply DL. reflexivity. }
    split.
    + split; [|contradiction]. destruct is_int.
      * destruct (to_Q x); discriminate.
      * destruct p as [p|]; [|discriminate]. intros H. apply RF in H. discriminate.
    + split.
      * destruct is_int.
        -- destruct (to_Q x) eqn:E; try discriminate. intros _. right. right. exists x. split; [reflexivity|]. auto.
        -- destruct p as [p|]; [|discriminate]. intros H. apply RF in H. discriminate.
      * intros [(n & ->)|[->|(y & [= <-] & [H|[H|[-> H]]])]].
        -- destruct (N2 n eq_refl).
        -- contradiction.
        -- apply DU in H. discriminate.
        -- apply DL in H. discriminate.
        -- rewrite H. reflexivity.
Qed.
Print Assumptions C104_refusal.

(** Ints beyond 2^53 are changed on the way, and bounds are checked after the change. *)
Theorem C104_int_refuted : to_num_f (FInt (2 ^ 53 + 1)) None None true None = Ret (FRInt (2 ^ 53)).
Proof. vm_compute. reflexivity. Qed.
Print Assumptions C104_int_refuted.
Theorem C104_bound_refuted :
  to_num_f (FInt (2 ^ 53 + 1)) (Some (BInt (2 ^ 53))) None true None = Ret (FRInt (2 ^ 53)) /\
  to_num_f (FInt (2 ^ 54 - 1)) (Some (BInt (2 ^ 54 - 1))) None true None = Raise ValueError.
Proof. vm_compute. auto. Qed.
Print Assumptions C104_bound_refuted.
(** 0.99999999999999999 is 1.0 and becomes the int 1. *)
Theorem C104_trunc_refuted : exists q, (q < 1)%Q /\ trunc q = 0%Z /\
  to_num_f (FText false (Some (Fin q))) None None true None = Ret (FRInt 1).
Proof. exists (99999999999999999 # 100000000000000000). vm_compute. auto. Qed.
Print Assumptions C104_trunc_refuted.
(** 2.675 with two digits is 2.67: the float is below the number. *)
Theorem C104_half_refuted :
  match to_num_f (FText false (Some (Fin (2675 # 1000)))) None None false (Some 2%Z),
        to_num_f (FText false (Some (Fin (267 # 100)))) None None false None with
  | Ret (FRFloat x), Ret (FRFloat y) => feq x y = true
  | _, _ => False
  end /\ half_even ((2675 # 1000) * pow10 2) = 268%Z.
Proof. vm_compute. auto. Qed.
Print Assumptions C104_half_refuted.

(** 0.1 + 0.2 given as the text 0.30000000000000004, precision 2, upper bound 0.3: refused; with
    upper bound 1: the float 0.3. *)
Example C104_ex :
  let i := FText false (Some (Fin (30000000000000004 # 100000000000000000))) in
  let b := of_Q (3 # 10) in
  to_num_f i (Some (BFloat b)) None false (Some 2%Z) = Raise ValueError /\
  match to_num_f i (Some (BInt 1)) (Some (BInt 0)) false (Some 2%Z) with
  | Ret (FRFloat x) => feq x b = true
  | _ => False
  end /\
  to_num_f (FInt (2 ^ 1024)) None None false None = Raise OtherErr.
Proof. vm_compute. auto. Qed.
Example C104_stable_ex : stable 1 (Some (BFloat (of_Q (1 # 10)))) /\ stable 3 (Some (BInt (-7))).
Proof.
  split; [|split; [lia|vm_compute; discriminate]]. eexists. split; [reflexivity|]. vm_compute. reflexivity.
Qed.
