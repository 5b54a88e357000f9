(** Property C49 (to_num). *)
From Coq Require Import List Bool Arith ZArith QArith Qround Qabs Qpower Lia Lqa.
From Verif Require Import PyBase ModelNum.
Import ListNotations.
Local Open Scope Q_scope.

(** The number an argument stands for. *)
Inductive means : input -> num -> Prop :=
| means_num n : means (INum n) n
| means_text n : means (IText false (Some n)) n.
Definition at_most (b : option num) (n : num) : Prop :=
  match b, n with
  | Some (Fin u), Fin q => q <= u
  | Some (Fin _), PosInf | Some NegInf, PosInf | Some NegInf, Fin _ => False
  | _, _ => True
  end.
Definition at_least (b : option num) (n : num) : Prop :=
  match b, n with
  | Some (Fin l), Fin q => l <= q
  | Some (Fin _), NegInf | Some PosInf, NegInf | Some PosInf, Fin _ => False
  | _, _ => True
  end.
(** Multiples of a step: decimal fractions with p digits, integers for step 1. *)
Definition multiple (step : Q) (b : option num) : Prop :=
  match b with Some (Fin q) => exists k : Z, q == inject_Z k * step | _ => True end.

Lemma pow10_pos p : 0 < pow10 p.
Proof.
  unfold pow10. assert (A : 0 <= (10 # 1) ^ p) by (apply Qpower_pos; discriminate).
  assert (B : ~ (10 # 1) ^ p == 0) by (apply Qpower_not_0; discriminate).
  destruct (Qlt_le_dec 0 ((10 # 1) ^ p)) as [|C]; auto. exfalso. apply B. now apply Qle_antisym.
Qed.
Lemma gt_false_upper u n : gt n u = false <-> at_most (Some u) n.
Proof.
  destruct n as [q| | |], u as [v| | |]; simpl; split; auto; try discriminate; try contradiction.
  - intros H. apply negb_false_iff, Qle_bool_iff in H. auto.
  - intros H. apply negb_false_iff, Qle_bool_iff. auto.
Qed.
Lemma gt_false_lower l n : gt l n = false <-> at_least (Some l) n.
Proof.
  destruct n as [q| | |], l as [v| | |]; simpl; split; auto; try discriminate; try contradiction.
  - intros H. apply negb_false_iff, Qle_bool_iff in H. auto.
  - intros H. apply negb_false_iff, Qle_bool_iff. auto.
Qed.
Lemma half_even_close q : Qabs (inject_Z (half_even q) - q) <= 1 # 2.
Proof.
  unfold half_even. pose proof (Qfloor_le q) as F. pose proof (Qlt_floor q) as G.
  rewrite inject_Z_plus in G. change (inject_Z 1) with 1 in G.
  destruct (Qle_bool (q - inject_Z (Qfloor q)) (1 # 2)) eqn:D.
  - apply Qle_bool_iff in D. destruct (Qeq_bool _ _) eqn:E.
    + apply Qeq_bool_iff in E. destruct (Z.even _); rewrite ?inject_Z_plus; change (inject_Z 1) with 1; apply Qabs_Qle_condition; split; lra.
    + apply Qabs_Qle_condition; split; lra.
  - assert (~ q - inject_Z (Qfloor q) <= 1 # 2) by (rewrite <- Qle_bool_iff; congruence).
    rewrite inject_Z_plus; change (inject_Z 1) with 1. apply Qabs_Qle_condition; split; lra.
Qed.
Lemma half_even_le q k : q <= inject_Z k -> (half_even q <= k)%Z.
Proof.
  intros H. pose proof (half_even_close q) as C. apply Qabs_Qle_condition in C.
  assert (X : inject_Z (half_even q) < inject_Z (k + 1)) by (rewrite inject_Z_plus; change (inject_Z 1) with 1; lra).
  rewrite <- Zlt_Qlt in X. lia.
Qed.
Lemma half_even_ge q k : inject_Z k <= q -> (k <= half_even q)%Z.
Proof.
  intros H. pose proof (half_even_close q) as C. apply Qabs_Qle_condition in C.
  assert (X : inject_Z k < inject_Z (half_even q + 1)) by (rewrite inject_Z_plus; change (inject_Z 1) with 1; lra).
  rewrite <- Zlt_Qlt in X. lia.
Qed.
Lemma trunc_spec q : (0 <= q -> inject_Z (trunc q) <= q /\ q < inject_Z (trunc q) + 1 /\ (0 <= trunc q)%Z) /\
  (q <= 0 -> q <= inject_Z (trunc q) /\ inject_Z (trunc q) - 1 < q /\ (trunc q <= 0)%Z).
Proof.
  destruct q as [a b]. unfold trunc, Qle, Qlt, inject_Z. simpl.
  pose proof (Z.quot_rem' a (Zpos b)) as E. pose proof (Z.rem_bound_abs a (Zpos b) ltac:(discriminate)) as B. simpl in B.
  split; intros H.
  - assert (A : (0 <= a)%Z) by lia. pose proof (Z.rem_nonneg a (Zpos b) ltac:(discriminate) A).
    pose proof (Z.quot_pos a (Zpos b) A ltac:(lia)). rewrite Z.abs_eq in B by auto. repeat split; nia.
  - assert (A : (a <= 0)%Z) by lia. pose proof (Z.rem_nonpos a (Zpos b) ltac:(discriminate) A).
    assert (Z.quot a (Zpos b) <= 0)%Z.
    { pose proof (Z.quot_opp_l (-a) (Zpos b) ltac:(discriminate)) as O. rewrite Z.opp_involutive in O. rewrite O.
      pose proof (Z.quot_pos (-a) (Zpos b) ltac:(lia) ltac:(lia)). lia. }
    rewrite Z.abs_neq in B by auto. repeat split; nia.
Qed.

(** Returned floats without precision are the value itself, within the bounds; with
    precision the value rounded to the nearest multiple of 10^-p. *)
Theorem C49_float : forall i u l p n,
  to_num i u l false p = Ret (RFloat n) ->
  exists v, means i v /\ at_most u v /\ at_least l v /\
    match p, v with
    | None, _ => n = v
    | Some p, Fin q => exists r (k : Z), n = Fin r /\ r == inject_Z k / pow10 p /\ Qabs (r - q) <= (1 # 2) / pow10 p /\
        (multiple (/ pow10 p) u -> at_most u n) /\ (multiple (/ pow10 p) l -> at_least l n)
    | Some _, _ => n = v
    end.
Proof.
  intros i u l p n H. unfold to_num in H.
  assert (V : exists v, means i v /\ bind (Ret v) (fun value =>
     if match u with Some u => gt value u | None => false end then Raise ValueError
     else if match l with Some l => gt l value | None => false end then Raise ValueError
     else Ret (RFloat (match p with Some p => round_to p value | None => value end))) = Ret (RFloat n)).
  { destruct i as [v| |[] [v|]|]; try discriminate; exists v; split; constructor || (cbn [bind] in *; exact H). }
  clear H. destruct V as (v & M & H). cbn [bind] in H. exists v. split; auto.
  destruct (match u with Some u => gt v u | None => false end) eqn:U; [discriminate|].
  destruct (match l with Some l => gt l v | None => false end) eqn:L; [discriminate|]. injection H as <-.
  assert (AU : at_most u v) by (destruct u; [now apply gt_false_upper|destruct v; exact I]).
  assert (AL : at_least l v) by (destruct l; [now apply gt_false_lower|destruct v; exact I]).
  split; auto. split; auto. destruct p as [p|]; auto. destruct v as [q| | |]; auto.
  set (k := half_even (q * pow10 p)). pose proof (pow10_pos p) as P.
  exists (inject_Z k / pow10 p), k. split; auto. split; [reflexivity|]. split.
  - pose proof (half_even_close (q * pow10 p)) as C. fold k in C.
    assert (E : inject_Z k / pow10 p - q == (inject_Z k - q * pow10 p) * / pow10 p) by (field; lra).
    rewrite E, Qabs_Qmult. rewrite (Qabs_pos (/ pow10 p)) by (apply Qlt_le_weak, Qinv_lt_0_compat; auto).
    unfold Qdiv. apply Qmult_le_compat_r; auto. apply Qlt_le_weak, Qinv_lt_0_compat; auto.
  - assert (S : forall a b, a <= b <-> a * pow10 p <= b * pow10 p) by (intros; symmetry; apply Qmult_le_r; auto).
    split; intros MU.
    + destruct u as [[x| | |]|]; try exact I; [|simpl in AU; auto]. simpl in *. destruct MU as (j & J).
      assert (X : (k <= j)%Z).
      { apply half_even_le. rewrite S in AU. rewrite J in AU. unfold Qdiv in AU. rewrite <- Qmult_assoc, (Qmult_comm (/ _)), Qmult_inv_r, Qmult_1_r in AU by lra. exact AU. }
      rewrite J. unfold Qdiv. apply Qmult_le_compat_r; [rewrite <- Zle_Qle; auto|apply Qlt_le_weak, Qinv_lt_0_compat; auto].
    + destruct l as [[x| | |]|]; try exact I; [|simpl in AL; auto]. simpl in *. destruct MU as (j & J).
      assert (X : (j <= k)%Z).
      { apply half_even_ge. rewrite S in AL. rewrite J in AL. unfold Qdiv in AL. rewrite <- Qmult_assoc, (Qmult_comm (/ _)), Qmult_inv_r, Qmult_1_r in AL by lra. exact AL. }
      rewrite J. unfold Qdiv. apply Qmult_le_compat_r; [rewrite <- Zle_Qle; auto|apply Qlt_le_weak, Qinv_lt_0_compat; auto].
Qed.
Print Assumptions C49_float.

(** Returned ints are the value cut towards zero; integer bounds hold for them. *)
Theorem C49_int : forall i u l p z,
  to_num i u l true p = Ret (RInt z) ->
  exists q, means i (Fin q) /\ at_most u (Fin q) /\ at_least l (Fin q) /\
    Qabs (inject_Z z) <= Qabs q /\ Qabs (q - inject_Z z) < 1 /\
    (multiple 1 u -> at_most u (Fin (inject_Z z))) /\ (multiple 1 l -> at_least l (Fin (inject_Z z))).
Proof.
  intros i u l p z H. unfold to_num in H.
  assert (V : exists v, means i v /\ bind (Ret v) (fun value =>
     if match u with Some u => gt value u | None => false end then Raise ValueError
     else if match l with Some l => gt l value | None => false end then Raise ValueError
     else match value with Fin q => Ret (RInt (trunc q)) | NaN => Raise ValueError | _ => Raise OtherErr end) = Ret (RInt z)).
  { destruct i as [v| |[] [v|]|]; try discriminate; exists v; (split; [constructor|]); destruct p; exact H. }
  clear H. destruct V as (v & M & H). cbn [bind] in H.
  destruct (match u with Some u => gt v u | None => false end) eqn:U; [discriminate|].
  destruct (match l with Some l => gt l v | None => false end) eqn:L; [discriminate|].
  assert (AU : at_most u v) by (destruct u; [now apply gt_false_upper|destruct v; exact I]).
  assert (AL : at_least l v) by (destruct l; [now apply gt_false_lower|destruct v; exact I]).
  destruct v as [q| | |]; try discriminate. injection H as <-. exists q. split; auto. split; auto. split; auto.
  destruct (trunc_spec q) as (TP & TN).
  assert (N0 : forall z, (0 <= z)%Z -> 0 <= inject_Z z) by (intros y Y; change 0 with (inject_Z 0); rewrite <- Zle_Qle; auto).
  assert (N1 : forall z, (z <= 0)%Z -> inject_Z z <= 0) by (intros y Y; change 0 with (inject_Z 0); rewrite <- Zle_Qle; auto).
  assert (LTZ : forall a b, inject_Z a < inject_Z b + 1 -> (a <= b)%Z).
  { intros a b X. change 1 with (inject_Z 1) in X. rewrite <- inject_Z_plus, <- Zlt_Qlt in X. lia. }
  assert (LEQ : forall a b, (a <= b)%Z -> inject_Z a <= inject_Z b) by (intros a b X; rewrite <- Zle_Qle; auto).
  split; [|split; [|split]].
  - destruct (Qlt_le_dec q 0) as [X|X].
    + destruct (TN ltac:(lra)) as (A & B & C). apply N1 in C. rewrite !Qabs_neg by lra. lra.
    + destruct (TP X) as (A & B & C). apply N0 in C. rewrite !Qabs_pos by lra. lra.
  - destruct (Qlt_le_dec q 0) as [X|X].
    + destruct (TN ltac:(lra)) as (A & B & C). apply Qabs_Qlt_condition. split; lra.
    + destruct (TP X) as (A & B & C). apply Qabs_Qlt_condition. split; lra.
  - destruct u as [[x| | |]|]; try (intros; exact I); [|simpl in AU; auto]. simpl in *. intros (k & K). rewrite Qmult_1_r in K.
    rewrite K in *. apply LEQ. apply LTZ. destruct (Qlt_le_dec q 0) as [X|X]; [destruct (TN ltac:(lra))|destruct (TP X)]; lra.
  - destruct l as [[x| | |]|]; try (intros; exact I); [|simpl in AL; auto]. simpl in *. intros (k & K). rewrite Qmult_1_r in K.
    rewrite K in *. apply LEQ. apply LTZ. destruct (Qlt_le_dec q 0) as [X|X]; [destruct (TN ltac:(lra))|destruct (TP X)]; lra.
Qed.
Print Assumptions C49_int.

(** When and how it raises. *)
Theorem C49_errors : forall i u l is_int p,
  match to_num i u l is_int p with
  | Ret r => exists n, means i n /\ at_most u n /\ at_least l n /\ (is_int = true -> exists z, r = RInt z) /\ (is_int = false -> exists m, r = RFloat m)
  | Raise TypeError => i = IOther
  | Raise ValueError => (forall n, ~ means i n) \/
      exists n, means i n /\ (~ at_most u n \/ ~ at_least l n \/ (is_int = true /\ n = NaN))
  | Raise e => e = OtherErr /\ (i = IHuge \/ (is_int = true /\ (means i PosInf \/ means i NegInf)))
  end.
Proof.
  intros i u l ii p. unfold to_num.
  assert (K : forall v, means i v ->
    match (if match u with Some u => gt v u | None => false end then Raise ValueError
           else if match l with Some l => gt l v | None => false end then Raise ValueError
           else let value := match p with Some p => if ii then v else round_to p v | None => v end in
             if ii then match value with Fin q => Ret (RInt (trunc q)) | NaN => Raise ValueError | _ => Raise OtherErr end
             else Ret (RFloat value)) with
  | Ret r => exists n, means i n /\ at_most u n /\ at_least l n /\ (ii = true -> exists z, r = RInt z) /\ (ii = false -> exists m, r = RFloat m)
  | Raise TypeError => i = IOther
  | Raise ValueError => (forall n, ~ means i n) \/ exists n, means i n /\ (~ at_most u n \/ ~ at_least l n \/ (ii = true /\ n = NaN))
  | Raise e => e = OtherErr /\ (i = IHuge \/ (ii = true /\ (means i PosInf \/ means i NegInf)))
  end).
  { intros v M. destruct (match u with Some u => gt v u | None => false end) eqn:U.
    { right. exists v. split; auto. left. destruct u; [|discriminate]. rewrite <- gt_false_upper. congruence. }
    destruct (match l with Some l => gt l v | None => false end) eqn:L.
    { right. exists v. split; auto. right. left. destruct l; [|discriminate]. rewrite <- gt_false_lower. congruence. }
    assert (AU : at_most u v) by (destruct u; [now apply gt_false_upper|destruct v; exact I]).
    assert (AL : at_least l v) by (destruct l; [now apply gt_false_lower|destruct v; exact I]).
    destruct ii.
    - assert (E : match p with Some _ => v | None => v end = v) by (destruct p; auto). rewrite E.
      destruct v as [q| | |].
      + exists (Fin q). split; auto. split; auto. split; auto. split; [intros _; eexists; reflexivity|discriminate].
      + cbn. auto.
      + cbn. auto.
      + right. exists NaN. auto.
    - exists v. split; auto. split; auto. split; auto. split; [discriminate|intros _; eexists; reflexivity]. }
  destruct i as [v| |[] [v|]|]; cbn [bind].
  - apply K. constructor.
  - auto.
  - left. intros n M; inversion M.
  - left. intros n M; inversion M.
  - apply K. constructor.
  - left. intros n M; inversion M.
  - reflexivity.
Qed.
Print Assumptions C49_errors.

(** 0.96 with upper bound 0.96 and one digit gives 1.0; 1.5 with lower bound 1.2 as int gives 1. *)
Theorem C49_bound_after_rounding_refuted :
  (exists r, to_num (INum (Fin (96 # 100))) (Some (Fin (96 # 100))) None false (Some 1%Z) = Ret (RFloat (Fin r)) /\ ~ r <= 96 # 100) /\
  (exists z, to_num (INum (Fin (3 # 2))) None (Some (Fin (12 # 10))) true None = Ret (RInt z) /\ ~ 12 # 10 <= inject_Z z).
Proof.
  split; eexists; (split; [vm_compute; reflexivity|]); unfold Qle; simpl; lia.
Qed.
Print Assumptions C49_bound_after_rounding_refuted.
(** NaN passes every bound check and is returned as a float. *)
Theorem C49_nan_in_bounds_refuted : forall u l p, to_num (INum NaN) u l false p = Ret (RFloat NaN).
Proof. intros [[]|] [[]|] [p|]; reflexivity. Qed.
Print Assumptions C49_nan_in_bounds_refuted.
(** Infinity as int and a huge int escape with OverflowError. *)
Theorem C49_documented_errors_refuted :
  to_num (INum PosInf) None None true None = Raise OtherErr /\ to_num IHuge None None false None = Raise OtherErr.
Proof. split; reflexivity. Qed.
Print Assumptions C49_documented_errors_refuted.
Example C49_example :
  (exists r, to_num (IText false (Some (Fin (314159 # 100000)))) (Some (Fin 4)) (Some (Fin 3)) false (Some 2%Z) = Ret (RFloat (Fin r)) /\ r == 314 # 100) /\
  to_num (INum (Fin (- (27 # 10)))) None None true None = Ret (RInt (-2)) /\
  to_num (INum (Fin 5)) (Some (Fin 4)) None false None = Raise ValueError /\
  to_num (IText true None) None None false None = Raise ValueError /\ to_num IOther None None true None = Raise TypeError /\
  (exists r, to_num (INum (Fin (5 # 2))) None None false (Some 0%Z) = Ret (RFloat (Fin r)) /\ r == 2).
Proof. repeat split; try (eexists; split; [vm_compute; reflexivity|reflexivity]). Qed.
