(** C97: creation times from datetimes, numbers and texts. *)
From Coq Require Import String.
From Coq Require Import ZArith Bool List Lia.
From Verif Require Import ModelCreated.
Import ListNotations.
Open Scope Z_scope.

(** ** Rounding *)
Lemma nearest_spec a b : 0 < b -> 2 * Z.abs (nearest a b * b - a) <= b.
Proof.
  intro B. unfold nearest. assert (D := Z.div_mod a b ltac:(lia)). assert (R := Z.mod_pos_bound a b B).
  destruct (Z.ltb_spec (2 * (a mod b)) b); [|destruct (Z.ltb_spec b (2 * (a mod b)))]; [| |destruct (Z.even (a / b))]; nia.
Qed.
Lemma nearest_unique a b n : 0 < b -> 2 * Z.abs (n * b - a) < b -> nearest a b = n.
Proof.
  intros B H. assert (S := nearest_spec a b B). set (m := nearest a b) in *. assert (2 * Z.abs ((m - n) * b) < 2 * b) by lia.
  assert (Z.abs (m - n) < 1); [|lia]. rewrite Z.abs_mul in H0. nia.
Qed.
Lemma pow_pos k : 0 <= k -> 0 < 2 ^ k.
Proof. intro. apply Z.pow_pos_nonneg; lia. Qed.
(** What rounded gives: nearest with a scale k that uses 53 bits. *)
Lemma rounded_spec a b m k : 0 < b -> a <> 0 -> Z.log2 (Z.abs a) <= 52 + Z.log2 b -> rounded a b = (m, k) ->
  0 <= k /\ m = nearest (a * 2 ^ k) b /\ b * 2 ^ 52 <= Z.abs a * 2 ^ k.
Proof.
  intros B A L E. unfold rounded in E. destruct (Z.eqb_spec a 0) as [|_]; [contradiction|]. set (k0 := 52 + Z.log2 b - Z.log2 (Z.abs a)) in *.
  assert (K : 0 <= k0) by (unfold k0; lia).
  destruct (Z.ltb_spec (Z.abs a * 2 ^ k0) (b * 2 ^ 52)) as [H|H]; injection E as <- <-; [|repeat split; assumption].
  split; [lia|]. split; [reflexivity|]. rewrite Z.pow_add_r by lia. change (2 ^ 1) with 2.
  assert (LA := Z.log2_spec (Z.abs a) ltac:(lia)). assert (LB := Z.log2_spec b B).
  assert (P : 2 ^ Z.log2 (Z.abs a) * 2 ^ (k0 + 1) = 2 ^ Z.succ (Z.log2 b) * 2 ^ 52).
  { rewrite <- !Z.pow_add_r; try lia; try (unfold k0; assert (X := Z.log2_nonneg b); lia); try apply Z.log2_nonneg; try (assert (X := Z.log2_nonneg b); lia). f_equal. unfold k0. lia. }
  rewrite Z.pow_add_r in P by lia. change (2 ^ 1) with 2 in P. assert (0 < 2 ^ k0) by (apply pow_pos; lia). nia.
Qed.

(** The microseconds of a float: i whole seconds and r. *)
Lemma from_fin m k : 0 <= k -> exists i r, from_float (Fin m k) = from_micros i r /\ i = Z.quot m (2 ^ k) /\
  exists e, 2 ^ 33 <= e /\ exists m', (m' = 0 /\ Z.rem m (2 ^ k) = 0 \/ 2 * Z.abs (m' * 2 ^ k - Z.rem m (2 ^ k) * million * e) <= 2 ^ k) /\
    2 * Z.abs (r * e - m') <= e /\ (forall n, 2 * Z.abs (n * e - m') < e -> r = n).
Proof.
  intro K. assert (D : 0 < 2 ^ k) by (apply pow_pos, K). unfold from_float. destruct (rounded _ _) as [m' k'] eqn:E.
  eexists _, _. split; [reflexivity|]. split; [reflexivity|]. set (f := Z.rem m (2 ^ k)) in *.
  destruct (Z.eq_dec f 0) as [F|F].
  - rewrite F in E. cbn in E. injection E as <- <-. exists (2 ^ 33). split; [lia|]. exists 0. split; [left; auto|]. change (nearest 0 (2 ^ 0)) with 0. split; [lia|]. intros n H. rewrite Z.sub_0_r, Z.abs_mul in H. change (Z.abs (2 ^ 33)) with (2 ^ 33) in H. lia.
  - assert (A : Z.abs f < 2 ^ k) by (unfold f; assert (X := Z.rem_bound_abs m (2 ^ k) ltac:(lia)); lia).
    apply rounded_spec in E; [|lia|unfold million; lia|].
    + destruct E as (K' & -> & L). assert (D' : 0 < 2 ^ k') by (apply pow_pos, K').
      exists (2 ^ k'). split.
      * assert (H : 2 ^ 52 < million * 2 ^ k') by (unfold million in *; nia). 
        destruct (Z.le_gt_cases 33 k') as [G|G]; [apply Z.pow_le_mono_r; lia|]. exfalso.
        assert (2 ^ k' <= 2 ^ 32) by (apply Z.pow_le_mono_r; lia). unfold million in H. lia.
      * eexists. split; [right; apply (nearest_spec (f * million * 2 ^ k') (2 ^ k)); lia|].
        split; [apply nearest_spec; lia|]. intros n H. apply nearest_unique; [lia|exact H].
    + rewrite Z.log2_pow2 by exact K. apply Z.lt_succ_r. apply Z.log2_lt_pow2; [unfold million; lia|].
      replace (Z.succ (52 + k)) with (k + 53) by lia. rewrite Z.pow_add_r by lia. unfold million. nia.
Qed.

Lemma stamp n m k : n <> 0 -> Z.abs n < 2 ^ 52 * million -> timestamp n = Fin m k ->
  0 <= k /\ 2 * Z.abs (m * million - n * 2 ^ k) <= million /\ million * 2 ^ 52 <= Z.abs n * 2 ^ k.
Proof.
  intros N B E. unfold timestamp in E. destruct (rounded n million) as [m0 k0] eqn:R. injection E as -> ->.
  apply rounded_spec in R; [|unfold million; lia|exact N|].
  - destruct R as (K & -> & L). split; [exact K|]. split; [|exact L]. apply nearest_spec. unfold million; lia.
  - apply Z.lt_succ_r. change (Z.succ (52 + Z.log2 million)) with 72. apply Z.log2_lt_pow2; [lia|]. unfold million in B. lia.
Qed.

(** ** The claims *)

Definition instant (d : datetime) : option Z := match offset d with Some o => Some (wall d - o) | None => None end.
Definition valid (n : Z) : Prop := first_us <= n <= last_us.

Lemma core n : valid n -> exists i r, from_float (timestamp n) = from_micros i r /\ Z.abs (i * million + r - n) <= 15 /\ Z.abs i * million <= Z.abs n + million /\
  (Z.abs n < 2 ^ 33 * million -> i * million + r = n).
Proof.
  intros V. destruct (Z.eq_dec n 0) as [->|N].
  - exists 0, 0. split; [reflexivity|]. split; [cbn; lia|]. split; [unfold million; lia|reflexivity].
  - destruct (timestamp n) as [m k| |] eqn:E; [|unfold timestamp in E; destruct (rounded n million); discriminate..].
    assert (B : Z.abs n < 2 ^ 38 * million) by (unfold valid, first_us, last_us, million in *; lia).
    destruct (stamp n m k N ltac:(unfold million in *; lia) E) as (K & E1 & L).
    destruct (from_fin m k K) as (i & r & -> & I & e & HE & m' & E2 & E3 & U). exists i, r. split; [reflexivity|].
    assert (D : 0 < 2 ^ k) by (apply pow_pos, K). assert (Q := Z.quot_rem' m (2 ^ k)). rewrite <- I in Q. set (f := Z.rem m (2 ^ k)) in *. set (d := 2 ^ k) in *.
    set (N' := n - i * million).
    assert (E1' : 2 * Z.abs (f * million - N' * d) <= million).
    { replace (f * million - N' * d) with (m * million - n * d); [exact E1|]. rewrite Q. unfold N'. ring. }
    assert (D38 : 2 ^ 15 <= d).
    { destruct (Z.le_gt_cases 15 k) as [G|G]; [apply Z.pow_le_mono_r; lia|]. exfalso. assert (d <= 2 ^ 14) by (apply Z.pow_le_mono_r; lia). unfold million in *. nia. }
    assert (E4 : 2 * Z.abs (m' * d - N' * e * d) <= d + e * million).
    { destruct E2 as [[-> F]|E2].
      - rewrite F in E1'. replace (0 * d - N' * e * d) with (e * (0 * million - N' * d)) by ring. rewrite Z.abs_mul. nia.
      - assert (X : Z.abs (m' * d - N' * e * d) <= Z.abs (m' * d - f * million * e) + e * Z.abs (f * million - N' * d)).
        { replace (m' * d - N' * e * d) with ((m' * d - f * million * e) + e * (f * million - N' * d)) by ring. assert (T := Z.abs_triangle (m' * d - f * million * e) (e * (f * million - N' * d))). rewrite (Z.abs_mul e), (Z.abs_eq e) in T by lia. exact T. }
        nia. }
    split.
    + replace (i * million + r - n) with (r - N') by (unfold N'; ring).
      assert (X : 2 * (Z.abs (r - N') * (e * d)) <= e * d + d + e * million).
      { assert (Y : Z.abs (r - N') * (e * d) = Z.abs ((r - N') * (e * d))) by (rewrite (Z.abs_mul (r - N')), (Z.abs_eq (e * d)) by nia; reflexivity). rewrite Y.
        replace ((r - N') * (e * d)) with ((r * e - m') * d + (m' * d - N' * e * d)) by ring.
        assert (T := Z.abs_triangle ((r * e - m') * d) (m' * d - N' * e * d)). rewrite Z.abs_mul, (Z.abs_eq d) in T by lia.
        assert (E3' := Z.mul_le_mono_nonneg_r _ _ d ltac:(lia) E3). lia. }
      destruct (Z.le_gt_cases (Z.abs (r - N')) 15) as [G|G]; [exact G|]. exfalso.
      assert (P1 : e * 2 ^ 15 <= e * d) by (apply Z.mul_le_mono_nonneg_l; lia). assert (P2 : 2 ^ 33 * d <= e * d) by (apply Z.mul_le_mono_nonneg_r; lia).
      assert (P4 : 16 * (e * d) <= Z.abs (r - N') * (e * d)) by (apply Z.mul_le_mono_nonneg_r; lia).
      assert (P3 : 32 * (e * d) <= e * d + d + e * million) by lia. clear X P4.
      set (p := e * d) in *. unfold million in P3. lia.
    + split.
      { assert (Y : d * Z.abs i <= Z.abs m).
        { rewrite I, <- Z.quot_abs by lia. rewrite (Z.abs_eq d) by lia. apply Z.mul_quot_le; lia. }
        assert (E1a : 2 * Z.abs m * million <= 2 * Z.abs n * d + million).
        { assert (T := Z.abs_triangle (m * million - n * d) (n * d)). replace (m * million - n * d + n * d) with (m * million) in T by ring.
          rewrite (Z.abs_mul m), (Z.abs_mul n), (Z.abs_eq d), (Z.abs_eq million) in T by (unfold million; lia). lia. }
        apply (Z.mul_le_mono_pos_l _ _ d D). clear - Y E1a D. unfold million in *. lia. }
      intro B'. assert (D20 : 2 ^ 20 <= d).
      { destruct (Z.le_gt_cases 20 k) as [G|G]; [apply Z.pow_le_mono_r; lia|]. exfalso. assert (d <= 2 ^ 19) by (apply Z.pow_le_mono_r; lia). unfold million in *. nia. }
      assert (R : r = N'); [|unfold N' in R; lia]. apply U.
      assert (P1 : e * 2 ^ 20 <= e * d) by (apply Z.mul_le_mono_nonneg_l; lia). assert (P2 : 2 ^ 33 * d <= e * d) by (apply Z.mul_le_mono_nonneg_r; lia).
      assert (X : 2 * (Z.abs (N' * e - m') * d) < e * d).
      { assert (Y : Z.abs (N' * e - m') * d = Z.abs ((N' * e - m') * d)) by (rewrite (Z.abs_mul (N' * e - m')), (Z.abs_eq d) by lia; reflexivity). rewrite Y.
        replace ((N' * e - m') * d) with (- (m' * d - N' * e * d)) by ring. rewrite Z.abs_opp.
        set (p := e * d) in *. unfold million in E4. lia. }
      apply (Z.mul_lt_mono_pos_r d); [exact D|]. lia.
Qed.

Lemma micros i r n : valid n -> Z.abs i * million <= Z.abs n + 2 * million -> i * million + r = n -> from_micros i r = Ret (Datetime n (Some 0)).
Proof.
  intros V I E. unfold from_micros. rewrite E. unfold valid, first_us, last_us in *.
  assert (H1 : (- 2 ^ 63 <=? i) && (i <? 2 ^ 63) = true) by (apply andb_true_iff; unfold million in *; split; [apply Z.leb_le|apply Z.ltb_lt]; lia).
  assert (H2 : (first_tm <=? n / million) && (n / million <=? last_tm) = true).
  { apply andb_true_iff. unfold first_tm, last_tm, million in *. split; apply Z.leb_le; [apply Z.div_le_lower_bound; lia|apply Z.div_le_upper_bound; lia]. }
  assert (H3 : (-62135596800 * million <=? n) && (n <=? 253402300800 * million - 1) = true) by (apply andb_true_iff; split; apply Z.leb_le; lia).
  rewrite H1, H2, H3. reflexivity.
Qed.
Lemma micros_inv i r d : from_micros i r = Ret d -> d = Datetime (i * million + r) (Some 0) /\ valid (i * million + r).
Proof.
  unfold from_micros. destruct (negb _); [discriminate|]. destruct (negb _); [discriminate|]. destruct (negb _) eqn:E; [discriminate|].
  intro H. injection H as <-. split; [reflexivity|]. apply negb_false_iff, andb_true_iff in E. destruct E as [E1 E2]. apply Z.leb_le in E1, E2. split; assumption.
Qed.
Lemma micros_err i r e : from_micros i r = Raise e -> Z.abs r <= million + 1 -> e <> ValueError -> 67 * 10 ^ 15 <= Z.abs i.
Proof.
  unfold from_micros. intros E R N. destruct (negb _) eqn:E1.
  - apply negb_true_iff, andb_false_iff in E1. destruct E1 as [H|H]; [apply Z.leb_gt in H|apply Z.ltb_ge in H]; lia.
  - destruct (negb _) eqn:E2 in E; [|destruct (negb _) in E; congruence]. apply negb_true_iff, andb_false_iff in E2.
    assert (D := Z.div_mod (i * million + r) million ltac:(unfold million; lia)). assert (M := Z.mod_pos_bound (i * million + r) million ltac:(unfold million; lia)).
    unfold first_tm, last_tm, million in *. destruct E2 as [H|H]; apply Z.leb_gt in H; lia.
Qed.

Section C97.
  Variable float_of : string -> option float.
  Variable iso_of : string -> option datetime.
  Notation coerce := (coerce float_of iso_of).

  (** A timestamp is read back exactly until the year 2242, ... *)
  Theorem C97_timestamp n : valid n -> Z.abs n < 2 ^ 33 * million -> coerce (VFloat (timestamp n)) = Ret (Datetime n (Some 0)).
  Proof. intros V B. destruct (core n V) as (i & r & E & _ & I & H). cbn. rewrite E. apply micros; [exact V|unfold million in *; lia|apply H, B]. Qed.
  (** ... and always up to 15 microseconds, but for the ends of time. *)
  Theorem C97_timestamp_close n : first_us + 15 <= n <= last_us - 15 ->
    exists n', coerce (VFloat (timestamp n)) = Ret (Datetime n' (Some 0)) /\ Z.abs (n' - n) <= 15.
  Proof.
    intros V. destruct (core n ltac:(unfold valid; lia)) as (i & r & E & C & I & _). exists (i * million + r). cbn. rewrite E. split; [|exact C].
    apply micros; [unfold valid; lia|unfold million in *; lia|reflexivity].
  Qed.
  Theorem C97_exact_refuted : coerce (VFloat (timestamp (2 ^ 33 * million + 1))) = Ret (Datetime (2 ^ 33 * million + 2) (Some 0)).
  Proof. reflexivity. Qed.
  Theorem C97_last_refuted : valid last_us /\ coerce (VFloat (timestamp last_us)) = Raise ValueError.
  Proof. split; [unfold valid, first_us, last_us, million; lia|vm_compute; reflexivity]. Qed.

  (** Numbers are seconds since 1970 in UTC; floats are taken to the nearest microsecond. *)
  Theorem C97_int z d : coerce (VInt z) = Ret d <-> d = Datetime (z * million) (Some 0) /\ valid (z * million).
  Proof.
    cbn. split.
    - intro E. apply micros_inv in E. rewrite Z.add_0_r in E. exact E.
    - intros [-> V]. apply micros; [exact V| |lia]. unfold million in *. lia.
  Qed.
  Theorem C97_float m k d : 0 <= k -> coerce (VFloat (Fin m k)) = Ret d ->
    offset d = Some 0 /\ 2 ^ 34 * Z.abs (wall d * 2 ^ k - m * million) <= (2 ^ 33 + 1) * 2 ^ k.
  Proof.
    intros K E. cbn [ModelCreated.coerce] in E. destruct (from_fin m k K) as (i & r & F & I & e & HE & m' & E2 & E3 & _). rewrite F in E. apply micros_inv in E. destruct E as [-> _].
    split; [reflexivity|]. cbn [wall]. assert (D : 0 < 2 ^ k) by (apply pow_pos, K). assert (Q := Z.quot_rem' m (2 ^ k)). rewrite <- I in Q.
    set (f := Z.rem m (2 ^ k)) in *. set (d := 2 ^ k) in *. replace ((i * million + r) * d - m * million) with (r * d - f * million) by (rewrite Q; ring).
    destruct E2 as [[-> F0]|E2].
    - rewrite F0. assert (r = 0) by (rewrite Z.sub_0_r, Z.abs_mul, (Z.abs_eq e) in E3 by lia; assert (Z.abs r < 1) by nia; lia). subst r. cbn [Z.mul Z.sub Z.add Z.opp Z.abs]. lia.
    - assert (X : 2 * (Z.abs (r * d - f * million) * e) <= d * e + d).
      { assert (Y : Z.abs (r * d - f * million) * e = Z.abs ((r * d - f * million) * e)) by (rewrite (Z.abs_mul (r * d - f * million)), (Z.abs_eq e) by lia; reflexivity). rewrite Y.
        replace ((r * d - f * million) * e) with ((r * e - m') * d + (m' * d - f * million * e)) by ring.
        assert (T := Z.abs_triangle ((r * e - m') * d) (m' * d - f * million * e)). rewrite (Z.abs_mul (r * e - m')), (Z.abs_eq d) in T by lia.
        assert (E3' := Z.mul_le_mono_nonneg_r _ _ d ltac:(lia) E3). lia. }
      set (x := Z.abs (r * d - f * million)) in *. destruct (Z.le_gt_cases (2 ^ 34 * x) ((2 ^ 33 + 1) * d)) as [G|G]; [exact G|]. exfalso.
      assert (G' : (2 ^ 33 + 1) * d * e < 2 ^ 34 * x * e) by (apply Z.mul_lt_mono_pos_r; lia).
      assert (H : 2 ^ 33 * d <= e * d) by (apply Z.mul_le_mono_nonneg_r; lia). lia.
  Qed.

  (** Datetimes keep their clock; those without an offset are taken as UTC. *)
  Theorem C97_datetime d : exists d', coerce (VDatetime d) = Ret d' /\ wall d' = wall d /\ offset d' = Some match offset d with Some o => o | None => 0 end.
  Proof. destruct d as [w [o|]]; eexists; (split; [reflexivity|split; reflexivity]). Qed.
  (** Texts in ISO format mean what they say, if they are not numbers. *)
  Theorem C97_iso s d : float_of s = None -> iso_of s = Some d -> coerce (VStr s) = Ret d.
  Proof. intros F I. cbn. rewrite F, I. reflexivity. Qed.
  (** Only such a text gives a time without offset. *)
  Theorem C97_aware v d : coerce v = Ret d -> (exists o, offset d = Some o) \/ exists s, v = VStr s /\ iso_of s = Some d.
  Proof.
    destruct v as [d0|z|b|f|s|]; cbn; intro E.
    - injection E as <-. left. destruct (offset d0) eqn:O; [eauto|eexists; reflexivity].
    - apply micros_inv in E. destruct E as [-> _]. left. eexists; reflexivity.
    - apply micros_inv in E. destruct E as [-> _]. left. eexists; reflexivity.
    - left. unfold from_float in E. destruct f; [|discriminate..]. destruct (rounded _ _). apply micros_inv in E. destruct E as [-> _]. eexists; reflexivity.
    - destruct (float_of s) as [f|]; cbn in E.
      + destruct (from_float f) as [d'|[]] eqn:FE; try discriminate.
        * injection E as <-. left. unfold from_float in FE. destruct f; [|discriminate..]. destruct (rounded _ _). apply micros_inv in FE. destruct FE as [-> _]. eexists; reflexivity.
        * right. exists s. destruct (iso_of s); [injection E as <-; auto|discriminate].
      + right. exists s. destruct (iso_of s); [injection E as <-; auto|discriminate].
    - discriminate.
  Qed.
  Theorem C97_aware_refuted s w : float_of s = None -> iso_of s = Some (Datetime w None) ->
    coerce (VStr s) = Ret (Datetime w None) /\ coerce (VDatetime (Datetime w None)) = Ret (Datetime w (Some 0)).
  Proof. intros F I. cbn. rewrite F, I. split; reflexivity. Qed.

  (** What is not a number, or a text that is one, fails only with ValueError; numbers so if they are not astronomical. *)
  Definition seconds (v : value) : option float :=
    match v with VInt z => Some (Fin z 0) | VBool b => Some (Fin (if b then 1 else 0) 0) | VFloat f => Some f | VStr s => float_of s | _ => None end.
  Definition astronomical (f : float) : Prop := match f with Fin m k => 67 * 10 ^ 15 <= Z.abs (Z.quot m (2 ^ k)) | Inf _ => True | NaN => False end.
  Theorem C97_errors v e : (forall m k, seconds v = Some (Fin m k) -> 0 <= k) -> coerce v = Raise e -> e <> ValueError ->
    exists f, seconds v = Some f /\ astronomical f.
  Proof.
    intros W E N. cut (exists f, seconds v = Some f /\ (astronomical f \/ exists m k, f = Fin m k /\ k < 0)).
    { intros (f & S & [A|(m & k & -> & K)]); [eauto|]. specialize (W _ _ S). lia. }
    revert E N. clear W.
    assert (FF : forall f e, from_float f = Raise e -> e <> ValueError -> astronomical f \/ exists m k, f = Fin m k /\ k < 0).
    { intros [m k|b|] e0 E N; [|left; exact I|cbn in E; congruence]. destruct (Z.lt_ge_cases k 0) as [K|K]; [right; eauto|left].
      destruct (from_fin m k K) as (i & r & F & II & x & HE & m' & E2 & E3 & _). rewrite F in E. cbn. rewrite <- II. apply (micros_err _ _ _ E); [|exact N].
      assert (D : 0 < 2 ^ k) by (apply pow_pos, K). assert (RB := Z.rem_bound_abs m (2 ^ k) ltac:(lia)). set (f := Z.rem m (2 ^ k)) in *. set (d := 2 ^ k) in *. rewrite (Z.abs_eq d) in RB by lia.
      assert (MB : Z.abs m' <= million * x + 1).
      { destruct E2 as [[-> _]|E2]; [change (Z.abs 0) with 0; unfold million; lia|].
        assert (T := Z.abs_triangle (m' * d - f * million * x) (f * million * x)). replace (m' * d - f * million * x + f * million * x) with (m' * d) in T by ring.
        rewrite (Z.abs_mul m'), (Z.abs_mul (f * million)), (Z.abs_mul f), (Z.abs_eq d), (Z.abs_eq x), (Z.abs_eq million) in T by (unfold million; lia).
        apply (Z.mul_le_mono_pos_r _ _ d D). assert (H : Z.abs f * (million * x) <= (d - 1) * (million * x)) by (apply Z.mul_le_mono_nonneg_r; unfold million; lia). unfold million in *. lia. }
      assert (T := Z.abs_triangle (r * x - m') m'). replace (r * x - m' + m') with (r * x) in T by ring. rewrite (Z.abs_mul r), (Z.abs_eq x) in T by lia.
      apply (Z.mul_le_mono_pos_r _ _ x ltac:(lia)). lia. }
    destruct v as [d0|z|b|f|s|]; cbn; intros E N; try congruence.
    - eexists; split; [reflexivity|]. left. cbn. rewrite Z.quot_1_r. apply (micros_err _ _ _ E); [unfold million; cbn; lia|exact N].
    - exfalso. destruct b; cbn in E; discriminate.
    - eexists; split; [reflexivity|]. eapply FF; eassumption.
    - destruct (float_of s) as [f|]; [|destruct (iso_of s); congruence]. exists f. split; [reflexivity|].
      destruct (from_float f) as [d'|e'] eqn:FE; [discriminate|]. destruct e'; [destruct (iso_of s); congruence| |]; eapply FF; eauto; discriminate.
  Qed.
  Theorem C97_valueerror_refuted s b : float_of s = Some (Inf b) -> coerce (VStr s) = Raise OverflowError.
  Proof. intro F. cbn. rewrite F. reflexivity. Qed.

  (** A date in the basic ISO format is a number of eight digits, and taken for seconds: some day before March 3, 1973. *)
  Theorem C97_basic_date_refuted s z : float_of s = Some (Fin z 0) -> 0 <= z < 10 ^ 8 ->
    coerce (VStr s) = Ret (Datetime (z * million) (Some 0)).
  Proof.
    intros F Z. cbn. rewrite F. cbn. rewrite Z.rem_1_r, Z.quot_1_r. cbn. rewrite (micros z 0 (z * million)); [reflexivity| | |lia].
    - unfold valid, first_us, last_us, million. lia.
    - unfold million. lia.
  Qed.
End C97.

Print Assumptions C97_timestamp.
Print Assumptions C97_timestamp_close.
Print Assumptions C97_exact_refuted.
Print Assumptions C97_last_refuted.
Print Assumptions C97_int.
Print Assumptions C97_float.
(** True and False are the times 1 and 0. *)
Theorem C97_bool float_of iso_of b :
  coerce float_of iso_of (VBool b) = Ret (Datetime (if b then million else 0) (Some 0)).
Proof. destruct b; reflexivity. Qed.
Print Assumptions C97_bool.
Print Assumptions C97_datetime.
Print Assumptions C97_iso.
Print Assumptions C97_aware.
Print Assumptions C97_aware_refuted.
Print Assumptions C97_errors.
Print Assumptions C97_valueerror_refuted.
Print Assumptions C97_basic_date_refuted.

(** 2024-11-17T02:39:50.123456 to the 53 bits of a float and back, half a second before 1970, a float between two microseconds. *)
Example created_1 : timestamp 1731811190123456 = Fin 7263742601979572 22 /\
  from_float (Fin 7263742601979572 22) = Ret (Datetime 1731811190123456 (Some 0)) /\
  from_float (Fin (-1) 1) = Ret (Datetime (-500000) (Some 0)) /\
  from_float (Fin 3 21) = Ret (Datetime 1 (Some 0)).
Proof. repeat split. Qed.
(** A toy of the two readers of texts. *)
Definition ex_float (s : string) : option float :=
  if String.eqb s "20240101" then Some (Fin 20240101 0) else if String.eqb s "inf" then Some (Inf false) else if String.eqb s "1e17" then Some (Fin (10 ^ 17) 0) else None.
Definition ex_iso (s : string) : option datetime :=
  if String.eqb s "20240101" then Some (Datetime 1704067200000000 None)
  else if String.eqb s "2024-01-01T00:00+01:00" then Some (Datetime 1704067200000000 (Some 3600000000))
  else if String.eqb s "2024-01-01" then Some (Datetime 1704067200000000 None) else None.
Example created_2 : map (fun s => coerce ex_float ex_iso (VStr s)) ["20240101"; "2024-01-01"; "2024-01-01T00:00+01:00"; "inf"; "1e17"; "soon"]%string =
  [Ret (Datetime 20240101000000 (Some 0)); Ret (Datetime 1704067200000000 None); Ret (Datetime 1704067200000000 (Some 3600000000));
   Raise OverflowError; Raise OSError; Raise ValueError].
Proof. vm_compute. reflexivity. Qed.
Example created_3 : coerce ex_float ex_iso (VBool true) = Ret (Datetime 1000000 (Some 0)) /\ coerce ex_float ex_iso (VInt (10 ^ 12)) = Raise ValueError /\
  coerce ex_float ex_iso VOther = Raise ValueError.
Proof. repeat split. Qed.
