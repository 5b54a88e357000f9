(** C103: the similarity scores in floating point. *)
From Coq Require Import List Bool Arith ZArith QArith Qreals Reals Lra Lia Psatz.
From Flocq Require Import Core IEEE754.BinarySingleNaN.
From Verif Require Import PyBase ModelSim ModelSimFloat ProofsLev ProofsSim ProofsSimFloat.
Import ListNotations.
Local Open Scope R_scope.

(** Texts that fit a computer: fewer than 2^53 characters; characters are Unicode code points. *)
Definition small (s : pystr) : Prop := (Z.of_nat (length s) < 2 ^ 53)%Z.
Definition unicode (s : pystr) : Prop := Forall (fun c => (Z.of_nat c < 1114112)%Z) s.
(** A score: a finite float x with 0.0 <= x <= 1.0. *)
Definition score (x : float) : Prop := is_finite x = true /\ fle zero x = true /\ fle x one = true.
(** pow(n, 0.5) is one of the floats next to the square root, and exact if the root is a float. *)
Definition faithful (pow_half : float -> float) : Prop :=
  forall n, (0 < Z.of_nat n < 2 ^ 53)%Z ->
    let r := pow_half (of_nat n) in is_finite r = true /\
    forall y : float, is_finite y = true -> 0 <= B2R y ->
      (B2R y * B2R y <= INR n -> B2R y <= B2R r) /\ (INR n <= B2R y * B2R y -> B2R r <= B2R y).

Lemma score_val x a : val x a -> 0 <= a <= 1 -> score x.
Proof.
  intros V [H0 H1]. split; [apply V|]. split.
  - apply (fle_val zero x 0 a); [apply val_zero|exact V|exact H0].
  - apply (fle_val x one a 1); [exact V|apply val_one|exact H1].
Qed.
Lemma score_bounds x : score x -> 0 <= B2R x <= 1.
Proof.
  intros (F & A & B). apply finite_val in F. split.
  - apply (fle_val zero x 0 _ val_zero F). exact A.
  - apply (fle_val x one _ 1 F val_one). exact B.
Qed.

Lemma Q2R_ratio a b : (0 < b)%nat -> Q2R (qn a / qn b) = INR a / INR b.
Proof.
  intros H. assert (E : forall n, Q2R (qn n) = INR n).
  { intros n. unfold qn, Q2R, inject_Z. cbn. rewrite INR_IZR_INZ. field. }
  rewrite Q2R_div.
  - rewrite !E. reflexivity.
  - intros Z. apply qn_pos in H. rewrite Z in H. apply Qlt_irrefl in H. exact H.
Qed.

(** ** hamming *)
Lemma hamming_case s t : small s -> (val (hamming_f s t) 0 /\ hamming s t = 0%Q) \/
  exists a b, (0 < b)%nat /\ (a <= b)%nat /\ (Z.of_nat b < 2 ^ 53)%Z /\
    hamming s t = (qn a / qn b)%Q /\ hamming_f s t = fdiv (of_nat a) (of_nat b).
Proof.
  intros Hs. unfold hamming_f, hamming. destruct ((length s =? 0) || _ || _) eqn:E.
  - left. split; [apply val_zero|reflexivity].
  - right. apply orb_false_iff in E. destruct E as [E _]. apply orb_false_iff in E. destruct E as [E _].
    apply Nat.eqb_neq in E. do 2 eexists. split; [|split; [|split; [|split; reflexivity]]].
    + lia.
    + apply combine_filter_le.
    + exact Hs.
Qed.
Lemma hamming_val s t : small s -> val (hamming_f s t) (rnd (Q2R (hamming s t))) /\ 0 <= Q2R (hamming s t) <= 1.
Proof.
  intros Hs. destruct (hamming_case s t Hs) as [[V ->]|(a & b & Hb & Hab & Hz & -> & ->)].
  - rewrite RMicromega.Q2R_0, (rnd_repr 0 repr_0). split; [exact V|lra].
  - rewrite Q2R_ratio by exact Hb. split; [apply val_ratio; assumption|]. apply ratio_bounds; assumption.
Qed.

(** ** levenshtein *)
Lemma lev_case s t : small s -> small t -> (s = [] /\ t = []) \/ ((s = [] \/ t = []) /\ s <> t) \/
  exists m, (0 < m)%nat /\ (levenshtein s t <= m)%nat /\ (Z.of_nat m < 2 ^ 53)%Z /\ m = max (length s) (length t) /\
    levenshtein_similarity s t = (1 - qn (levenshtein s t) / qn m)%Q /\
    levenshtein_f s t = fsub one (fdiv (of_nat (levenshtein s t)) (of_nat m)).
Proof.
  intros Hs Ht. destruct s as [|x s]; [destruct t as [|y t]|].
  - left. auto.
  - right. left. split; [auto|discriminate].
  - destruct t as [|y t]; [right; left; split; [auto|discriminate]|].
    right. right. exists (max (length (x :: s)) (length (y :: t))).
    split; [cbn; lia|]. split; [apply lev_upper|]. split; [unfold small in *; lia|]. auto.
Qed.
Lemma lev_val s t : small s -> small t -> exists q, 0 <= q <= 1 /\ Q2R (levenshtein_similarity s t) = 1 - q /\
  val (levenshtein_f s t) (rnd (1 - rnd q)) /\ 0 <= rnd q <= 1.
Proof.
  intros Hs Ht. destruct (lev_case s t Hs Ht) as [[-> ->]|[[H N]|(m & H0 & Hle & Hz & _ & -> & ->)]].
  - exists 0. cbn. rewrite RMicromega.Q2R_1, (rnd_repr 0 repr_0), Rminus_0_r, (rnd_repr 1 repr_1).
    repeat split; try lra; apply val_one.
  - exists 1. assert (E : levenshtein_similarity s t = 0%Q /\ levenshtein_f s t = zero).
    { destruct s, t, H; try congruence; split; reflexivity. }
    destruct E as [-> ->]. rewrite RMicromega.Q2R_0, (rnd_repr 1 repr_1).
    replace (1 - 1) with 0 by ring. rewrite (rnd_repr 0 repr_0). repeat split; try lra; apply val_zero.
  - exists (INR (levenshtein s t) / INR m). pose proof (ratio_bounds _ _ H0 Hle) as B.
    destruct (val_ratio _ _ Hz H0 Hle) as [V V'].
    split; [exact B|]. split; [|split; [|exact V']].
    + rewrite Q2R_minus, RMicromega.Q2R_1, Q2R_ratio by exact H0. reflexivity.
    + apply val_sub; [apply val_one|exact V|]. rewrite Rabs_pos_eq; lra.
Qed.

(** ** jaro *)
Lemma jaro_val s t : small s -> small t ->
  (exists x, jaro_f s t = Ret x /\ ((jaro s t = Ret 1%Q /\ val x 1) \/ (jaro s t = Ret 0%Q /\ val x 0))) \/
  exists a b m k x, jaro_f s t = Ret x /\ (0 < m)%nat /\ (m <= a)%nat /\ (m <= b)%nat /\ (k <= m)%nat /\
    (s = t -> a = m /\ b = m /\ k = m) /\
    jaro s t = Ret ((qn m / qn a + qn m / qn b + qn k / qn m) / 3)%Q /\
    val x (rnd (rnd (rnd (rnd (INR m / INR a) + rnd (INR m / INR b)) + rnd (INR k / INR m)) / 3)).
Proof.
  intros Hs Ht. unfold jaro_f, jaro.
  destruct ((length s =? 0) && (length t =? 0))%nat eqn:E1.
  { left. exists one. split; [reflexivity|]. left. split; [reflexivity|apply val_one]. }
  destruct ((length s =? 0) || (length t =? 0))%nat eqn:E2.
  { left. exists zero. split; [reflexivity|]. right. split; [reflexivity|apply val_zero]. }
  apply orb_false_iff in E2. destruct E2 as [N1 N2]. apply Nat.eqb_neq in N1, N2.
  destruct (match_loop _ t s 0 (repeat false (length t))) as (sm, tm) eqn:M. pose proof M as M0.
  apply match_loop_spec in M. destruct M as (A & B & C). rewrite repeat_length in B. rewrite count_repeat in C. simpl in C.
  destruct (Nat.eqb_spec (count_true sm) 0) as [Z|NZ].
  { left. exists zero. split; [reflexivity|]. right. split; [reflexivity|apply val_zero]. }
  destruct (transpositions_ok s sm t tm) as (n & T & Hn); [lia|lia|]. rewrite T. cbn [bind].
  right. pose proof (count_le sm) as L1. pose proof (count_le tm) as L2.
  exists (length s), (length t), (count_true sm), (count_true sm - n / 2)%nat. eexists.
  split; [reflexivity|]. split; [lia|]. split; [lia|]. split; [lia|]. split; [apply Nat.le_sub_l|]. split; [|split; [reflexivity|]].
  - intros <-. pose proof (match_loop_self (max (length s) (length s) / 2 - 1) s []) as S.
    change (length (@nil nat)) with 0%nat in S. cbn [app repeat] in S. rewrite S in M0. injection M0 as <- <-.
    rewrite transpositions_self in T. injection T as <-. rewrite count_all. change (0 / 2)%nat with 0%nat.
    rewrite Nat.sub_0_r. auto.
  - unfold small in *.
    destruct (val_ratio (count_true sm) (length s)) as [V1 B1]; [lia|lia|lia|].
    destruct (val_ratio (count_true sm) (length t)) as [V2 B2]; [lia|lia|lia|].
    destruct (val_ratio (count_true sm - n / 2) (count_true sm)) as [V3 B3]; [lia|lia|apply Nat.le_sub_l|].
    pose proof (rnd_between 0 2 (rnd (INR (count_true sm) / INR (length s)) + rnd (INR (count_true sm) / INR (length t)))
                  repr_0 repr_2 ltac:(lra)) as B12.
    pose proof (val_add _ _ _ _ V1 V2 ltac:(rewrite Rabs_pos_eq; lra)) as V12.
    pose proof (val_add _ _ _ _ V12 V3 ltac:(rewrite Rabs_pos_eq; lra)) as V123.
    pose proof (rnd_between 0 3 (rnd (rnd (INR (count_true sm) / INR (length s)) + rnd (INR (count_true sm) / INR (length t))) +
                  rnd (INR (count_true sm - n / 2) / INR (count_true sm))) repr_0 repr_3 ltac:(lra)) as B123.
    assert (V4 : val (of_nat 3) 3) by (replace 3 with (INR 3) by (cbn; lra); apply val_nat; lia).
    apply val_div; [exact V123|exact V4|lra|]. rewrite Rabs_pos_eq; lra.
Qed.
Lemma jaro_bounds a b c : 0 <= a <= 1 -> 0 <= b <= 1 -> 0 <= c <= 1 ->
  0 <= rnd (rnd (rnd (a + b) + c) / 3) <= 1.
Proof.
  intros Ha Hb Hc. pose proof (rnd_between 0 2 (a + b) repr_0 repr_2 ltac:(lra)) as B1.
  pose proof (rnd_between 0 3 (rnd (a + b) + c) repr_0 repr_3 ltac:(lra)) as B2.
  apply rnd_between; [apply repr_0|apply repr_1|lra].
Qed.
Lemma jaro_score s t : small s -> small t -> exists x, jaro_f s t = Ret x /\ score x.
Proof.
  intros Hs Ht. destruct (jaro_val s t Hs Ht) as [(x & E & [[_ V]|[_ V]])|(a & b & m & k & x & E & H0 & Ha & Hb & Hk & _ & _ & V)].
  - exists x. split; [exact E|]. apply (score_val x 1 V). lra.
  - exists x. split; [exact E|]. apply (score_val x 0 V). lra.
  - exists x. split; [exact E|]. eapply score_val; [exact V|].
    apply jaro_bounds; apply rnd_between; try apply repr_0; try apply repr_1; apply ratio_bounds; lia.
Qed.

Lemma quarter_val : val quarter (/ 4).
Proof.
  unfold quarter. assert (V4 : val (of_nat 4) 4) by (replace 4 with (INR 4) by (cbn; lra); apply val_nat; lia).
  replace (/ 4) with (rnd (1 / 4)).
  - apply val_div; [apply val_one|exact V4|lra|]. rewrite Rabs_pos_eq; lra.
  - replace (1 / 4) with (/ 4) by field. apply rnd_repr. change (/ 4) with (bpow radix2 (-2)).
    apply generic_format_bpow. cbv. discriminate.
Qed.

(** Scaling accepted: between 0 and 1/4. *)
Lemma scaling_ok sc : fle zero sc && fle sc quarter = true -> exists r, val sc r /\ 0 <= r <= / 4.
Proof.
  intros H. apply andb_true_iff in H. destruct H as [H1 H2].
  assert (F : is_finite sc = true).
  { destruct sc as [[]|[]| |]; try reflexivity; vm_compute in H1, H2; discriminate. }
  apply finite_val in F. exists (B2R sc). split; [exact F|]. split.
  - apply (fle_val zero sc 0 _ val_zero F). exact H1.
  - apply (fle_val sc quarter _ (/ 4) F quarter_val). exact H2.
Qed.

Lemma jw_val j x p sc r : val x j -> 0 <= j <= 1 -> (p <= 4)%nat -> val sc r -> 0 <= r <= / 4 ->
  val (fadd x (fmul (fmul (of_nat p) sc) (fsub one x))) (rnd (j + rnd (rnd (INR p * r) * rnd (1 - j)))) /\
  j <= rnd (j + rnd (rnd (INR p * r) * rnd (1 - j))) <= 1.
Proof.
  intros Vx Hj Hp Vs Hr.
  assert (P0 : 0 <= INR p <= 4).
  { split; [apply pos_INR|]. apply le_INR in Hp. cbn in Hp. lra. }
  assert (R : 0 <= INR p * r <= 1) by (split; nra).
  pose proof (rnd_between 0 1 _ repr_0 repr_1 R) as RR.
  destruct (one_minus j Hj (val_repr _ _ Vx)) as [D DJ].
  assert (V1 : val (fmul (of_nat p) sc) (rnd (INR p * r))).
  { apply val_mul; [apply val_nat; lia|exact Vs|]. rewrite Rabs_pos_eq; lra. }
  assert (V2 : val (fsub one x) (rnd (1 - j))).
  { apply val_sub; [apply val_one|exact Vx|]. rewrite Rabs_pos_eq; lra. }
  assert (PD : 0 <= rnd (INR p * r) * rnd (1 - j) <= rnd (1 - j)) by (split; nra).
  pose proof (rnd_between 0 (rnd (1 - j)) _ repr_0 (repr_rnd _) PD) as B.
  assert (V3 : val (fmul (fmul (of_nat p) sc) (fsub one x)) (rnd (rnd (INR p * r) * rnd (1 - j)))).
  { apply val_mul; [exact V1|exact V2|]. rewrite Rabs_pos_eq; lra. }
  split.
  - apply val_add; [exact Vx|exact V3|]. rewrite Rabs_pos_eq; lra.
  - split.
    + rewrite <- (rnd_repr j (val_repr _ _ Vx)) at 1. apply rnd_le. lra.
    + apply rnd_just_above. lra.
Qed.

(** ** cosine *)
Lemma set_length N l : NoDup l -> Forall (fun c => (c < N)%nat) l -> (length l <= N)%nat.
Proof.
  intros Hn Hf. rewrite <- (seq_length N 0). apply NoDup_incl_length; [exact Hn|].
  intros c Hc. apply in_seq. rewrite Forall_forall in Hf. specialize (Hf c Hc). lia.
Qed.
Lemma unicode_set s : unicode s -> (Z.of_nat (length (nodup Nat.eq_dec s)) <= 1114112)%Z.
Proof.
  intros H. assert (L : (length (nodup Nat.eq_dec s) <= Z.to_nat 1114112)%nat).
  { apply set_length; [apply NoDup_nodup|]. apply Forall_forall. intros c Hc. apply nodup_In in Hc.
    unfold unicode in H. rewrite Forall_forall in H. specialize (H c Hc). cbv beta in H. lia. }
  lia.
Qed.
Lemma cosine_val pw s t : faithful pw -> unicode s -> unicode t -> s <> [] -> t <> [] ->
  exists k n r, cosine_f pw s t = fdiv (of_nat k) (pw (of_nat n)) /\ (0 < n)%nat /\ (k * k <= n)%nat /\
    (s = t -> (k * k = n)%nat) /\ (Z.of_nat k <= 1114112)%Z /\ (Z.of_nat n < 2 ^ 53)%Z /\
    cosine_f pw s t = cosine_f pw t s /\
    val (pw (of_nat n)) r /\ INR k <= r /\ 1 <= r /\ (k * k = n -> r = INR k)%nat.
Proof.
  intros F Us Ut Ns Nt. destruct s as [|x s]; [congruence|]. destruct t as [|y t]; [congruence|].
  pose proof (nodup_nonempty x s) as P1. pose proof (nodup_nonempty y t) as P2.
  pose proof (unicode_set _ Us) as L1. pose proof (unicode_set _ Ut) as L2.
  unfold cosine_f.
  rewrite (inter_sym (nodup Nat.eq_dec (y :: t)) (nodup Nat.eq_dec (x :: s))) by apply NoDup_nodup.
  rewrite (Nat.mul_comm (length (nodup Nat.eq_dec (y :: t)))).
  assert (K1 := inter_le_l (nodup Nat.eq_dec (x :: s)) (nodup Nat.eq_dec (y :: t))).
  assert (K2 := inter_le_r (nodup Nat.eq_dec (x :: s)) (nodup Nat.eq_dec (y :: t)) (NoDup_nodup _ _) (NoDup_nodup _ _)).
  assert (SELF : x :: s = y :: t ->
     length (filter (fun z => existsb (Nat.eqb z) (nodup Nat.eq_dec (y :: t))) (nodup Nat.eq_dec (x :: s))) =
     length (nodup Nat.eq_dec (x :: s))).
  { intros <-. assert (H : forall l, incl l (nodup Nat.eq_dec (x :: s)) ->
      filter (fun z => existsb (Nat.eqb z) (nodup Nat.eq_dec (x :: s))) l = l).
    { induction l as [|z l IH]; cbn [filter]; intros H; auto.
      assert (E : existsb (Nat.eqb z) (nodup Nat.eq_dec (x :: s)) = true) by (apply existsb_In, H; left; reflexivity).
      rewrite E, IH; auto. intros w W. apply H. right. exact W. }
    rewrite H; [reflexivity|apply incl_refl]. }
  set (k := length (filter _ (nodup Nat.eq_dec (x :: s)))) in *.
  assert (SN : x :: s = y :: t -> length (nodup Nat.eq_dec (y :: t)) = length (nodup Nat.eq_dec (x :: s)))
    by (intros <-; reflexivity).
  set (a := length (nodup Nat.eq_dec (x :: s))) in *. set (b := length (nodup Nat.eq_dec (y :: t))) in *.
  assert (Nz : (0 < Z.of_nat (a * b) < 2 ^ 53)%Z).
  { rewrite Nat2Z.inj_mul. split; [nia|]. apply Z.le_lt_trans with (1114112 * 1114112)%Z; [nia|reflexivity]. }
  destruct (F _ Nz) as [Ff Fr].
  exists k, (a * b)%nat, (B2R (pw (of_nat (a * b)))).
  split; [reflexivity|]. split; [nia|]. split; [nia|]. split; [intros E; rewrite (SN E), (SELF E); reflexivity|].
  split; [lia|]. split; [lia|]. split; [reflexivity|]. split; [split; [exact Ff|reflexivity]|].
  assert (Vk : val (of_nat k) (INR k)) by (apply val_nat; lia).
  assert (KK : INR k * INR k <= INR (a * b)) by (rewrite <- mult_INR; apply le_INR; nia).
  destruct (Fr (of_nat k) (proj1 Vk)) as [R1 R2]; [rewrite (proj2 Vk); apply pos_INR|]. rewrite (proj2 Vk) in R1, R2.
  destruct (Fr one (proj1 val_one)) as [O1 _]; [rewrite (proj2 val_one); lra|]. rewrite (proj2 val_one) in O1.
  split; [apply R1; exact KK|]. split.
  - apply O1. rewrite Rmult_1_l. change 1 with (INR 1). apply le_INR. nia.
  - intros E. apply Rle_antisym; [|apply R1; exact KK]. apply R2. rewrite <- E, mult_INR. lra.
Qed.
Lemma cosine_score pw s t : faithful pw -> unicode s -> unicode t -> score (cosine_f pw s t).
Proof.
  intros F Us Ut. destruct s as [|x s]; [apply (score_val zero 0 val_zero); lra|].
  destruct t as [|y t]; [apply (score_val zero 0 val_zero); lra|].
  destruct (cosine_val pw (x :: s) (y :: t) F Us Ut) as (k & n & r & -> & Hn & Hk & _ & Kz & Nz & _ & V & R & R1 & _); try discriminate.
  assert (B : 0 <= INR k / r <= 1).
  { pose proof (pos_INR k). split.
    - apply Rmult_le_pos; [assumption|]. apply Rlt_le, Rinv_0_lt_compat. lra.
    - apply Rmult_le_reg_r with r; [lra|]. unfold Rdiv. rewrite Rmult_assoc, Rinv_l; lra. }
  eapply score_val.
  - apply val_div; [apply val_nat; lia|exact V|lra|]. rewrite Rabs_pos_eq; lra.
  - apply rnd_between; [apply repr_0|apply repr_1|exact B].
Qed.

(** ** C103 *)

(** Every score is a float between 0.0 and 1.0; jaro_winkler is at least jaro, for every accepted
    scaling. *)
Theorem C103_range s t : small s -> small t ->
  score (hamming_f s t) /\ score (levenshtein_f s t) /\
  (exists j, jaro_f s t = Ret j /\ score j /\
     forall sc x, jaro_winkler_f s t sc = Ret x -> score x /\ fle j x = true) /\
  (forall pw, faithful pw -> unicode s -> unicode t -> score (cosine_f pw s t)).
Proof.
  intros Hs Ht. split; [|split; [|split]].
  - destruct (hamming_val s t Hs) as [V B]. eapply score_val; [exact V|].
    apply rnd_between; [apply repr_0|apply repr_1|exact B].
  - destruct (lev_val s t Hs Ht) as (q & _ & _ & V & B). eapply score_val; [exact V|].
    apply rnd_between; [apply repr_0|apply repr_1|lra].
  - destruct (jaro_score s t Hs Ht) as (j & E & S). exists j. split; [exact E|]. split; [exact S|].
    intros sc x. unfold jaro_winkler_f. destruct (fle zero sc && fle sc quarter) eqn:H; [|discriminate].
    rewrite E. cbn [negb bind]. intros [= <-].
    destruct (scaling_ok sc H) as (r & Vr & Hr). pose proof (score_bounds j S) as Bj.
    destruct (jw_val (B2R j) j (common_prefix 4 s t) sc r (finite_val j (proj1 S)) Bj (common_prefix_le 4 s t) Vr Hr) as [V B].
    split.
    + eapply score_val; [exact V|]. lra.
    + apply (fle_val _ _ _ _ (finite_val j (proj1 S)) V). lra.
  - intros pw F Us Ut. apply cosine_score; assumption.
Qed.
Print Assumptions C103_range.

(** jaro_winkler refuses exactly the scalings that are not between 0 and 0.25, NaN included. *)
Theorem C103_scaling s t sc : small s -> small t ->
  (jaro_winkler_f s t sc = Raise ValueError <-> fle zero sc && fle sc quarter = false) /\
  (jaro_winkler_f s t sc <> Raise ValueError -> exists x, jaro_winkler_f s t sc = Ret x).
Proof.
  intros Hs Ht. unfold jaro_winkler_f. destruct (fle zero sc && fle sc quarter); cbn [negb].
  - destruct (jaro_score s t Hs Ht) as (j & -> & _). cbn [bind].
    split; [split; discriminate|]. intros _. eexists. reflexivity.
  - split; [tauto|congruence].
Qed.
Print Assumptions C103_scaling.

(** A text is exactly 1.0 similar to itself (but for hamming and cosine of the empty text), and by
    levenshtein to nothing else. *)
Theorem C103_identity s t : small s -> small t ->
  (feq (levenshtein_f s t) one = true <-> s = t) /\
  (s <> [] -> feq (hamming_f s s) one = true) /\
  (exists x, jaro_f s s = Ret x /\ feq x one = true) /\
  (forall sc x, jaro_winkler_f s s sc = Ret x -> feq x one = true) /\
  (forall pw, faithful pw -> unicode s -> s <> [] -> feq (cosine_f pw s s) one = true).
Proof.
  intros Hs Ht.
  assert (J : exists x, jaro_f s s = Ret x /\ val x 1).
  { destruct (jaro_val s s Hs Hs) as [(x & E & [[_ V]|[H V]])|(a & b & m & k & x & E & H0 & Ha & Hb & Hk & S & _ & V)].
    - eauto.
    - exfalso. destruct (jaro_refl s) as (q & Hq & Q1). rewrite H in Hq. injection Hq as <-. discriminate Q1.
    - destruct (S eq_refl) as (-> & -> & ->). exists x. split; [exact E|].
      assert (D : INR m / INR m = 1) by (apply Rinv_r; apply not_0_INR; lia).
      rewrite D, !(rnd_repr 1 repr_1) in V. replace (1 + 1) with 2 in V by ring. rewrite (rnd_repr 2 repr_2) in V.
      replace (2 + 1) with 3 in V by ring. rewrite (rnd_repr 3 repr_3) in V. replace (3 / 3) with 1 in V by field.
      rewrite (rnd_repr 1 repr_1) in V. exact V. }
  split; [|split; [|split; [|split]]].
  - destruct (lev_case s t Hs Ht) as [[-> ->]|[[H N]|(m & H0 & Hle & Hz & Hm & _ & ->)]].
    + split; [reflexivity|]. intros _. apply (feq_val _ _ 1 1 val_one val_one). reflexivity.
    + assert (E : levenshtein_f s t = zero) by (destruct s, t, H; try congruence; reflexivity).
      rewrite E, (feq_val _ _ 0 1 val_zero val_one). split; [lra|contradiction].
    + destruct (val_ratio _ _ Hz H0 Hle) as [V V'].
      assert (V2 : val (fsub one (fdiv (of_nat (levenshtein s t)) (of_nat m))) (rnd (1 - rnd (INR (levenshtein s t) / INR m)))).
      { apply val_sub; [apply val_one|exact V|]. rewrite Rabs_pos_eq; lra. }
      rewrite (feq_val _ _ _ 1 V2 val_one). split.
      * intros E. apply lev_zero. destruct (levenshtein s t) as [|d] eqn:L; [reflexivity|]. exfalso.
        assert (LB : bpow radix2 (-53) <= INR (S d) / INR m).
        { apply Rle_trans with (1 / INR m).
          - apply Rmult_le_reg_r with (INR m); [apply lt_0_INR; lia|]. unfold Rdiv.
            rewrite Rmult_assoc, Rinv_l by (apply not_0_INR; lia).
            apply Rle_trans with (bpow radix2 (-53) * bpow radix2 53).
            + apply Rmult_le_compat_l; [apply bpow_ge_0|]. rewrite INR_IZR_INZ.
              change (bpow radix2 53) with (IZR (2 ^ 53)). apply IZR_le. lia.
            + rewrite <- bpow_plus. change (bpow radix2 (-53 + 53)) with 1. lra.
          - apply Rmult_le_compat_r; [apply Rlt_le, Rinv_0_lt_compat, lt_0_INR; lia|].
            rewrite S_INR. pose proof (pos_INR d). lra. }
        apply rnd_le in LB. rewrite (rnd_repr _ repr_tiny) in LB.
        assert (UB : rnd (1 - rnd (INR (S d) / INR m)) <= 1 - bpow radix2 (-53)).
        { rewrite <- (rnd_repr _ repr_below_1). apply rnd_le. lra. }
        assert (0 < bpow radix2 (-53)) by apply bpow_gt_0. lra.
      * intros ->. assert (E : levenshtein t t = 0%nat) by (apply lev_zero; reflexivity). rewrite E. cbn [INR].
        replace (0 / INR m) with 0 by (unfold Rdiv; ring). rewrite (rnd_repr 0 repr_0), Rminus_0_r. apply rnd_repr, repr_1.
  - intros Ns. destruct (hamming_val s s Hs) as [V _]. rewrite (feq_val _ _ _ 1 V val_one).
    rewrite (Qeq_eqR _ _ (hamming_refl s Ns)), RMicromega.Q2R_1. apply rnd_repr, repr_1.
  - destruct J as (x & E & V). exists x. split; [exact E|]. apply (feq_val _ _ 1 1 V val_one). reflexivity.
  - intros sc x. unfold jaro_winkler_f. destruct (fle zero sc && fle sc quarter) eqn:H; [|discriminate].
    destruct J as (j & -> & Vj). cbn [negb bind]. intros [= <-]. destruct (scaling_ok sc H) as (r & Vr & Hr).
    destruct (jw_val 1 j (common_prefix 4 s s) sc r Vj ltac:(lra) (common_prefix_le 4 s s) Vr Hr) as [V B].
    apply (feq_val _ _ _ 1 V val_one). lra.
  - intros pw F Us Ns. destruct (cosine_val pw s s F Us Us Ns Ns) as (k & n & r & -> & Hn & Hk & SS & Kz & Nz & _ & V & R & R1 & Rk).
    specialize (Rk (SS eq_refl)). assert (Ek : INR k / r = 1) by (rewrite Rk; apply Rinv_r; lra).
    assert (Vd : val (fdiv (of_nat k) (pw (of_nat n))) (rnd (INR k / r))).
    { apply val_div; [apply val_nat; lia|exact V|lra|]. rewrite Ek, Rabs_R1. lra. }
    apply (feq_val _ _ _ 1 Vd val_one). rewrite Ek. apply rnd_repr, repr_1.
Qed.
Print Assumptions C103_identity.

(** hamming, levenshtein and cosine do not depend on the order of the two texts. *)
Theorem C103_symmetry s t :
  hamming_f s t = hamming_f t s /\ levenshtein_f s t = levenshtein_f t s /\
  forall pw, cosine_f pw s t = cosine_f pw t s.
Proof.
  split; [|split].
  - unfold hamming_f. rewrite (Nat.eqb_sym (length s) (length t)), (orb_comm (length s =? 0)).
    destruct (_ || _ || _) eqn:E; [reflexivity|]. apply orb_false_iff in E. destruct E as [_ E].
    apply negb_false_iff, Nat.eqb_eq in E. rewrite E. f_equal. f_equal. clear E. revert t.
    induction s as [|x s IH]; intros [|y t]; try reflexivity. cbn. rewrite (Nat.eqb_sym y x).
    destruct (x =? y); cbn; rewrite IH; reflexivity.
  - unfold levenshtein_f. destruct s, t; try reflexivity. rewrite lev_sym, Nat.max_comm. reflexivity.
  - intros pw. unfold cosine_f. destruct s as [|x s]; [now destruct t|]. destruct t as [|y t]; [reflexivity|].
    rewrite inter_sym by apply NoDup_nodup. rewrite (Nat.mul_comm (length (nodup Nat.eq_dec (x :: s)))). reflexivity.
Qed.
Print Assumptions C103_symmetry.

(** By hamming and by levenshtein, candidates are ranked as by the exact scores, ties included. *)
Theorem C103_order s t s' t' : small s -> small t -> small s' -> small t' ->
  ((hamming s t <= hamming s' t')%Q -> fle (hamming_f s t) (hamming_f s' t') = true) /\
  ((levenshtein_similarity s t <= levenshtein_similarity s' t')%Q ->
     fle (levenshtein_f s t) (levenshtein_f s' t') = true).
Proof.
  intros Hs Ht Hs' Ht'. split; intros H; apply Qle_Rle in H.
  - destruct (hamming_val s t Hs) as [V _]. destruct (hamming_val s' t' Hs') as [V' _].
    apply (fle_val _ _ _ _ V V'). apply rnd_le. exact H.
  - destruct (lev_val s t Hs Ht) as (q & _ & E & V & _). destruct (lev_val s' t' Hs' Ht') as (q' & _ & E' & V' & _).
    apply (fle_val _ _ _ _ V V'). apply rnd_le. assert (L : rnd q' <= rnd q) by (apply rnd_le; lra). lra.
Qed.
Print Assumptions C103_order.

(** How far a score is from the exact one. *)
Theorem C103_error s t : small s -> small t ->
  Rabs (B2R (hamming_f s t) - Q2R (hamming s t)) <= bpow radix2 (-54) /\
  Rabs (B2R (levenshtein_f s t) - Q2R (levenshtein_similarity s t)) <= bpow radix2 (-53) /\
  (exists x q, jaro_f s t = Ret x /\ jaro s t = Ret q /\ Rabs (B2R x - Q2R q) <= bpow radix2 (-52)).
Proof.
  intros Hs Ht.
  assert (E0 : forall x, 0 <= x <= 1 -> Rabs (rnd x - x) <= bpow radix2 (-54)).
  { intros x Hx. apply (rnd_error 0); [lia|]. change (bpow radix2 0) with 1. rewrite Rabs_pos_eq; lra. }
  assert (P53 : bpow radix2 (-53) = 2 * bpow radix2 (-54)) by (change 2 with (bpow radix2 1); rewrite <- bpow_plus; reflexivity).
  assert (P52 : bpow radix2 (-52) = 4 * bpow radix2 (-54)) by (change 4 with (bpow radix2 2); rewrite <- bpow_plus; reflexivity).
  assert (Pp : 0 < bpow radix2 (-54)) by apply bpow_gt_0.
  split; [|split].
  - destruct (hamming_val s t Hs) as [[_ ->] B]. apply E0, B.
  - destruct (lev_val s t Hs Ht) as (q & B & -> & [_ ->] & B'). rewrite P53.
    pose proof (E0 q B) as X1. pose proof (E0 (1 - rnd q) ltac:(lra)) as X2.
    apply Rabs_le_inv in X1, X2. apply Rabs_le. lra.
  - destruct (jaro_val s t Hs Ht) as [(x & E & [[J [_ V]]|[J [_ V]]])|(a & b & m & k & x & E & H0 & Ha & Hb & Hk & _ & J & [_ V])].
    + exists x, 1%Q. split; [exact E|]. split; [exact J|]. rewrite V, RMicromega.Q2R_1.
      replace (1 - 1) with 0 by ring. rewrite Rabs_R0. apply bpow_ge_0.
    + exists x, 0%Q. split; [exact E|]. split; [exact J|]. rewrite V, RMicromega.Q2R_0.
      replace (0 - 0) with 0 by ring. rewrite Rabs_R0. apply bpow_ge_0.
    + do 2 eexists. split; [exact E|]. split; [exact J|]. rewrite V, P52.
      rewrite Q2R_div by discriminate. rewrite !Q2R_plus, !Q2R_ratio by lia.
      replace (Q2R 3) with 3 by (unfold Q2R; cbn; field).
      pose proof (ratio_bounds m a ltac:(lia) Ha) as A1. pose proof (ratio_bounds m b ltac:(lia) Hb) as A2.
      pose proof (ratio_bounds k m H0 Hk) as A3.
      set (u := INR m / INR a) in *. set (v := INR m / INR b) in *. set (w := INR k / INR m) in *.
      pose proof (rnd_between 0 1 u repr_0 repr_1 A1) as B1. pose proof (rnd_between 0 1 v repr_0 repr_1 A2) as B2.
      pose proof (rnd_between 0 1 w repr_0 repr_1 A3) as B3.
      pose proof (E0 u A1) as X1. pose proof (E0 v A2) as X2. pose proof (E0 w A3) as X3.
      pose proof (rnd_between 0 2 (rnd u + rnd v) repr_0 repr_2 ltac:(lra)) as B4.
      pose proof (rnd_error 1 (rnd u + rnd v) ltac:(lia) ltac:(change (bpow radix2 1) with 2; rewrite Rabs_pos_eq; lra)) as X4.
      pose proof (rnd_between 0 3 (rnd (rnd u + rnd v) + rnd w) repr_0 repr_3 ltac:(lra)) as B5.
      pose proof (rnd_error 2 (rnd (rnd u + rnd v) + rnd w) ltac:(lia) ltac:(change (bpow radix2 2) with 4; rewrite Rabs_pos_eq; lra)) as X5.
      pose proof (E0 (rnd (rnd (rnd u + rnd v) + rnd w) / 3) ltac:(lra)) as X6.
      change (1 - 54)%Z with (-53)%Z in X4. change (2 - 54)%Z with (-52)%Z in X5. rewrite P53 in X4. rewrite P52 in X5.
      apply Rabs_le_inv in X1, X2, X3, X4, X5, X6. apply Rabs_le. lra.
Qed.
Print Assumptions C103_error.

(** The square root rounded to nearest is faithful. *)
Theorem C103_faithful : faithful (Bsqrt (prec_gt_0_ := prec_gt) (prec_lt_emax_ := prec_lt) mode_NE).
Proof.
  intros n Hn. cbn zeta. destruct (val_nat n) as [Fn Vn]; [lia|].
  pose proof (Bsqrt_correct 53 1024 prec_gt prec_lt mode_NE (of_nat n)) as (C1 & C2 & _).
  assert (Pn : 0 < INR n) by (apply lt_0_INR; lia).
  split.
  - rewrite C2. destruct (of_nat n) as [| | |sg m e b] eqn:E; try discriminate; [reflexivity|]. destruct sg; [|reflexivity].
    exfalso. rewrite <- Vn in Pn. cbn in Pn. pose proof (F2R_lt_0 radix2 (Float radix2 (Z.neg m) e) ltac:(reflexivity)) as L.
    unfold SpecFloat.cond_Zopp in Pn. cbn in Pn, L. lra.
  - rewrite C1, Vn. intros y Fy Py. change (round radix2 fx (round_mode mode_NE) (sqrt (INR n))) with (rnd (sqrt (INR n))).
    pose proof (val_repr y _ (finite_val y Fy)) as Ry. split; intros H.
    + rewrite <- (rnd_repr _ Ry). apply rnd_le. rewrite <- (sqrt_square (B2R y)) by exact Py. apply sqrt_le_1_alt. exact H.
    + rewrite <- (rnd_repr _ Ry). apply rnd_le. rewrite <- (sqrt_square (B2R y)) by exact Py. apply sqrt_le_1_alt. exact H.
Qed.
Print Assumptions C103_faithful.

(** Rounding can rank candidates of equal exact score: abcdef against bcde and bbcdef. *)
Definition abcdef : pystr := [97; 98; 99; 100; 101; 102]%nat.
Definition bcde : pystr := [98; 99; 100; 101]%nat.
Definition bbcdef : pystr := [98; 98; 99; 100; 101; 102]%nat.
Theorem C103_jaro_order_refuted : exists q q' x x',
  jaro abcdef bcde = Ret q /\ jaro abcdef bbcdef = Ret q' /\ (q == q')%Q /\ (q == 8 # 9)%Q /\
  jaro_f abcdef bcde = Ret x /\ jaro_f abcdef bbcdef = Ret x' /\ flt x x' = true.
Proof.
  do 4 eexists. split; [vm_compute; reflexivity|]. split; [vm_compute; reflexivity|].
  split; [vm_compute; reflexivity|]. split; [vm_compute; reflexivity|].
  split; [reflexivity|]. split; [reflexivity|]. vm_compute. reflexivity.
Qed.
Print Assumptions C103_jaro_order_refuted.

(** A candidate of exact levenshtein similarity 1/10 misses a threshold below 1/10
    (0.09999999999999999): its score is 1 - 0.9 = 0.09999999999999998. *)
Definition nines (c : nat) : pystr := 0%nat :: repeat c 9.
Definition below_tenth : float := @B754_finite 53 1024 false 7205759403792793 (-56) eq_refl.
Theorem C103_threshold_refuted :
  (levenshtein_similarity (nines 1) (nines 2) == 1 # 10)%Q /\ B2R below_tenth < 1 / 10 /\
  fle below_tenth (levenshtein_f (nines 1) (nines 2)) = false.
Proof.
  split; [vm_compute; reflexivity|]. split.
  - unfold below_tenth, B2R, F2R. cbn [Fnum Fexp SpecFloat.cond_Zopp].
    apply Rmult_lt_reg_r with (bpow radix2 56); [apply bpow_gt_0|].
    rewrite Rmult_assoc, <- bpow_plus. change (bpow radix2 (-56 + 56)) with 1.
    change (bpow radix2 56) with (IZR (2 ^ 56)). change (2 ^ 56)%Z with 72057594037927936%Z. lra.
  - vm_compute. reflexivity.
Qed.
Print Assumptions C103_threshold_refuted.

(** MARTHA / MARHTA: 17/18 = 0.9444444444444445 and, with scaling 0.1, 0.9611111111111111. *)
Example C103_ex :
  let m := [77;65;82;84;72;65]%nat in let n := [77;65;82;72;84;65]%nat in
  match jaro_f m n, jaro_winkler_f m n (fdiv (of_nat 1) (of_nat 10)), jaro_winkler_f m n one with
  | Ret j, Ret w, Raise ValueError =>
      B2SF j = SpecFloat.S754_finite false 8506799296144271 (-53) /\
      B2SF w = SpecFloat.S754_finite false 8656919283723287 (-53)
  | _, _, _ => False
  end.
Proof. vm_compute. auto. Qed.
