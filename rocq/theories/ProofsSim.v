(** Proofs about similarity scores, string_similarity, fuzzy_match_keys, get_bins. *)
From Coq Require Import List Bool Arith ZArith QArith Qabs Lia Permutation Sorted Lqa.
From Verif Require Import PyBase ModelHeap ProofsGroup ModelSim SpecSim ProofsLev.
Import ListNotations.
Local Close Scope Q_scope.
Local Open Scope nat_scope.
Local Open Scope list_scope.

(** ** Rationals *)
Lemma qn_pos n : 0 < n -> (0 < qn n)%Q.
Proof. intros H. unfold qn, Qlt. simpl. lia. Qed.
Lemma qn_nonneg n : (0 <= qn n)%Q.
Proof. unfold qn, Qle. simpl. lia. Qed.
Lemma qn_le a b : a <= b -> (qn a <= qn b)%Q.
Proof. intros H. unfold qn, Qle. simpl. lia. Qed.
Lemma qn_ratio a b : 0 < b -> a <= b -> unit_interval (qn a / qn b)%Q.
Proof.
  intros B L. split.
  - apply Qle_shift_div_l; [now apply qn_pos|]. rewrite Qmult_0_l. apply qn_nonneg.
  - apply Qle_shift_div_r; [now apply qn_pos|]. rewrite Qmult_1_l. now apply qn_le.
Qed.
Lemma qn_self a : 0 < a -> (qn a / qn a == 1)%Q.
Proof. intros H. field. apply qn_pos in H. intros E. rewrite E in H. now apply Qlt_irrefl in H. Qed.

(** ** hamming *)
Lemma combine_filter_le (s t : pystr) f : length (filter f (combine s t)) <= length s.
Proof.
  revert t; induction s as [|x s IH]; intros [|y t]; simpl; try lia.
  specialize (IH t). destruct (f (x, y)); simpl; lia.
Qed.
Lemma hamming_unit s t : unit_interval (hamming s t).
Proof.
  unfold hamming. destruct ((length s =? 0) || (length t =? 0) || negb (length s =? length t)) eqn:E; [split; discriminate|].
  apply orb_false_iff in E. destruct E as (E & _). apply orb_false_iff in E. destruct E as (E & _). apply Nat.eqb_neq in E.
  apply qn_ratio; [lia|]. apply combine_filter_le.
Qed.
Lemma hamming_sym s t : (hamming s t == hamming t s)%Q.
Proof.
  unfold hamming. rewrite (Nat.eqb_sym (length t) (length s)), (orb_comm (length t =? 0)).
  destruct (Nat.eqb_spec (length s) (length t)) as [E|]; [|rewrite !orb_true_r; reflexivity].
  destruct ((length s =? 0) || (length t =? 0) || negb true); [reflexivity|]. rewrite E.
  enough (X : length (filter (fun p => fst p =? snd p) (combine s t)) = length (filter (fun p => fst p =? snd p) (combine t s))) by (rewrite X; reflexivity).
  clear E. revert t; induction s as [|x s IH]; intros [|y t]; simpl; auto.
  rewrite (Nat.eqb_sym y x). destruct (x =? y); simpl; now rewrite IH.
Qed.
Lemma hamming_refl s : s <> [] -> (hamming s s == 1)%Q.
Proof.
  intros N. unfold hamming. rewrite Nat.eqb_refl. destruct s as [|x s]; [congruence|]. cbn [length Nat.eqb orb negb].
  replace (length (filter (fun p => fst p =? snd p) (combine (x :: s) (x :: s)))) with (S (length s)); [apply qn_self; lia|].
  change (S (length s)) with (length (x :: s)). generalize (x :: s) as l. clear.
  induction l as [|x l IH]; simpl; auto. rewrite Nat.eqb_refl. simpl. lia.
Qed.
Lemma hamming_agree s t : length s = length t -> s <> [] -> hamming s t = (qn (agree s t) / qn (length s))%Q.
Proof.
  intros E N. unfold hamming. rewrite <- E, Nat.eqb_refl. destruct (Nat.eqb_spec (length s) 0); [destruct s; simpl in *; congruence|].
  simpl. f_equal. f_equal. unfold agree. clear N n. revert t E. induction s as [|x s IH]; intros [|y t] E; simpl in *; try discriminate; auto.
  assert (X : length (filter (fun i => nth i (x :: s) 0 =? nth i (y :: t) 0) (seq 1 (length s))) =
              length (filter (fun i => nth i s 0 =? nth i t 0) (seq 0 (length s)))).
  { rewrite <- seq_shift. clear. induction (seq 0 (length s)) as [|k l IH]; simpl; auto.
    destruct (nth k s 0 =? nth k t 0); simpl; auto. }
  simpl in X. destruct (x =? y); simpl; rewrite X; rewrite IH; auto.
Qed.

(** ** cosine *)
Lemma inter_le_l (a b : list nat) : length (filter (fun x => existsb (Nat.eqb x) b) a) <= length a.
Proof. induction a as [|x a IH]; simpl; auto. destruct (existsb (Nat.eqb x) b); simpl; lia. Qed.
Lemma existsb_In x l : existsb (Nat.eqb x) l = true <-> In x l.
Proof.
  rewrite existsb_exists. split; [intros (y & I & E); apply Nat.eqb_eq in E; now subst|].
  intros I. exists x. split; auto. apply Nat.eqb_refl.
Qed.
Lemma inter_sym (a b : list nat) : NoDup a -> NoDup b ->
  length (filter (fun x => existsb (Nat.eqb x) b) a) = length (filter (fun x => existsb (Nat.eqb x) a) b).
Proof.
  intros A B. apply Permutation_length, NoDup_Permutation; try now apply NoDup_filter.
  intros x. rewrite !filter_In, !existsb_In. tauto.
Qed.
Lemma inter_le_r (a b : list nat) : NoDup a -> NoDup b -> length (filter (fun x => existsb (Nat.eqb x) b) a) <= length b.
Proof. intros A B. rewrite inter_sym; auto. apply inter_le_l. Qed.
Lemma nodup_nonempty (x : nat) s : 0 < length (nodup Nat.eq_dec (x :: s)).
Proof.
  destruct (nodup Nat.eq_dec (x :: s)) eqn:E; simpl; [|lia].
  assert (I : In x (nodup Nat.eq_dec (x :: s))) by (apply nodup_In; simpl; auto). rewrite E in I. contradiction.
Qed.
Lemma cosine_unit s t : unit_interval (cosine_sq s t).
Proof.
  unfold cosine_sq. destruct s as [|x s]; [split; discriminate|]. destruct t as [|y t]; [split; discriminate|].
  pose proof (nodup_nonempty x s). pose proof (nodup_nonempty y t).
  set (a := nodup Nat.eq_dec (x :: s)) in *. set (b := nodup Nat.eq_dec (y :: t)) in *.
  apply qn_ratio; [apply Nat.mul_pos_pos; auto|]. apply Nat.mul_le_mono; [apply inter_le_l|].
  apply inter_le_r; apply NoDup_nodup.
Qed.
Lemma cosine_sym s t : (cosine_sq s t == cosine_sq t s)%Q.
Proof.
  unfold cosine_sq. destruct s as [|x s]; [now destruct t|]. destruct t as [|y t]; [reflexivity|].
  rewrite inter_sym by apply NoDup_nodup. rewrite (Nat.mul_comm (length (nodup Nat.eq_dec (x :: s)))). reflexivity.
Qed.
Lemma cosine_refl s : s <> [] -> (cosine_sq s s == 1)%Q.
Proof.
  intros N. destruct s as [|x s]; [congruence|]. unfold cosine_sq. pose proof (nodup_nonempty x s) as P.
  set (a := nodup Nat.eq_dec (x :: s)) in *.
  replace (filter (fun z => existsb (Nat.eqb z) a) a) with a; [apply qn_self; apply Nat.mul_pos_pos; auto|].
  symmetry. clear P. assert (H : forall l, incl l a -> filter (fun z => existsb (Nat.eqb z) a) l = l).
  { induction l as [|z l IH]; simpl; intros H; auto. assert (E : existsb (Nat.eqb z) a = true) by (apply existsb_In, H; simpl; auto).
    rewrite E, IH; auto. intros w W. apply H. simpl; auto. }
  apply H, incl_refl.
Qed.

(** ** levenshtein similarity *)
Lemma levsim_unit s t : unit_interval (levenshtein_similarity s t).
Proof.
  unfold levenshtein_similarity. destruct s as [|x s]; [destruct t; split; discriminate|].
  destruct t as [|y t]; [split; discriminate|].
  set (m := max (length (x :: s)) (length (y :: t))).
  assert (0 < m) by (unfold m; simpl; lia).
  destruct (qn_ratio (levenshtein (x :: s) (y :: t)) m) as (A & B); auto; [apply lev_upper|].
  unfold unit_interval. lra.
Qed.
Lemma levsim_sym s t : (levenshtein_similarity s t == levenshtein_similarity t s)%Q.
Proof.
  unfold levenshtein_similarity. destruct s, t; try reflexivity. rewrite lev_sym, Nat.max_comm. reflexivity.
Qed.
Lemma levsim_one s t : (levenshtein_similarity s t == 1)%Q <-> s = t.
Proof.
  assert (NE : ~ (0 == 1)%Q) by (unfold Qeq; simpl; lia).
  unfold levenshtein_similarity. destruct s as [|x s]; [destruct t; split; auto; try reflexivity; [contradiction|discriminate]|].
  destruct t as [|y t]; [split; [contradiction|discriminate]|].
  set (m := max (length (x :: s)) (length (y :: t))). set (d := levenshtein (x :: s) (y :: t)).
  assert (M : 0 < m) by (unfold m; simpl; lia). pose proof (qn_pos m M) as P.
  assert (NZ : ~ (qn m == 0)%Q) by (intros E; rewrite E in P; now apply Qlt_irrefl in P).
  split.
  - intros E. apply lev_zero. fold d.
    assert (Z : (qn d / qn m == 0)%Q) by lra.
    assert (Z' : (qn d == 0)%Q).
    { setoid_replace (qn d) with (qn d / qn m * qn m)%Q by (field; auto). rewrite Z. ring. }
    unfold qn, Qeq in Z'. simpl in Z'. lia.
  - intros E. apply lev_zero in E. fold d in E. rewrite E. unfold qn at 1. simpl. field. auto.
Qed.

(** ** jaro *)
Lemma find_match_spec c t : forall tm j lo hi k,
  find_match c t tm j lo hi = Some k ->
  j <= k /\ nth_error tm (k - j) = Some false /\ nth_error t (k - j) = Some c /\ lo <= k < hi.
Proof.
  induction t as [|y t IH]; intros [|m tm] j lo hi k H; simpl in H; try discriminate.
  destruct ((lo <=? j) && (j <? hi) && negb (m || negb (c =? y))) eqn:E.
  - injection H as <-. apply andb_true_iff in E. destruct E as (E1 & E2). apply andb_true_iff in E1. destruct E1 as (E1 & E3).
    apply Nat.leb_le in E1. apply Nat.ltb_lt in E3. rewrite negb_orb, negb_involutive in E2.
    apply andb_true_iff in E2. destruct E2 as (E2 & E4). apply Nat.eqb_eq in E4. apply negb_true_iff in E2. subst.
    rewrite Nat.sub_diag. simpl. auto.
  - apply IH in H. destruct H as (H1 & H2 & H3 & H4). replace (k - j) with (S (k - S j)) by lia. simpl. repeat split; auto; lia.
Qed.

Lemma count_upd tm k : nth_error tm k = Some false -> count_true (upd k true tm) = S (count_true tm).
Proof.
  revert k; induction tm as [|m tm IH]; intros [|k] H; simpl in *; try discriminate.
  - injection H as ->. reflexivity.
  - unfold count_true in *. simpl. destruct m; simpl; rewrite IH; auto.
Qed.

Lemma match_loop_spec md t s : forall i tm sm tm',
  match_loop md t s i tm = (sm, tm') ->
  length sm = length s /\ length tm' = length tm /\ count_true tm' = count_true tm + count_true sm.
Proof.
  induction s as [|c s IH]; intros i tm sm tm' H; simpl in H.
  - injection H as <- <-. repeat split; auto.
  - destruct (find_match c t tm 0 (i - md) (min (i + md + 1) (length t))) as [j|] eqn:F.
    + destruct (match_loop md t s (S i) (upd j true tm)) as (sm0, tm0) eqn:R. injection H as <- <-.
      destruct (IH _ _ _ _ R) as (A & B & C). apply find_match_spec in F. destruct F as (_ & F & _).
      rewrite Nat.sub_0_r in F. rewrite count_upd in C by auto. rewrite upd_len' in B.
      simpl. repeat split; auto. unfold count_true in *. simpl. lia.
    + destruct (match_loop md t s (S i) tm) as (sm0, tm0) eqn:R. injection H as <- <-.
      destruct (IH _ _ _ _ R) as (A & B & C). simpl. repeat split; auto.
Qed.

Lemma count_repeat n : count_true (repeat false n) = 0.
Proof. induction n; auto. Qed.
Lemma count_le l : count_true l <= length l.
Proof. unfold count_true. induction l as [|[] l IH]; simpl; lia. Qed.

Lemma next_matched_ok t : forall tm, length t = length tm -> 0 < count_true tm ->
  exists y t' tm', next_matched t tm = Ret (y, t', tm') /\ length t' = length tm' /\ S (count_true tm') = count_true tm.
Proof.
  induction t as [|y t IH]; intros [|m tm] L C; simpl in *; try discriminate; [unfold count_true in C; simpl in C; lia|].
  destruct m.
  - exists y, t, tm. repeat split; auto.
  - change (count_true (false :: tm)) with (count_true tm) in *. apply IH; auto.
Qed.
Lemma transpositions_ok s : forall sm t tm,
  length t = length tm -> count_true sm <= count_true tm ->
  exists n, transpositions s sm t tm = Ret n /\ n <= count_true sm.
Proof.
  induction s as [|c s IH]; intros [|b sm] t tm L C; try (exists 0; split; [reflexivity|lia]).
  destruct b; simpl.
  - assert (C' : S (count_true sm) <= count_true tm) by exact C.
    destruct (next_matched_ok t tm L) as (y & t' & tm' & -> & L' & E); [lia|]. simpl.
    destruct (IH sm t' tm' L') as (n & -> & Hn); [lia|]. simpl. eexists; split; [reflexivity|].
    unfold count_true in *. simpl. destruct (c =? y); lia.
  - change (count_true (false :: sm)) with (count_true sm) in *. apply IH; auto.
Qed.

Lemma jaro_unit s t : exists q, jaro s t = Ret q /\ unit_interval q.
Proof.
  unfold jaro. destruct ((length s =? 0) && (length t =? 0)); [exists 1%Q; split; [reflexivity|split; discriminate]|].
  destruct ((length s =? 0) || (length t =? 0)) eqn:E; [exists 0%Q; split; [reflexivity|split; discriminate]|].
  apply orb_false_iff in E. destruct E as (E1 & E2). apply Nat.eqb_neq in E1. apply Nat.eqb_neq in E2.
  destruct (match_loop _ t s 0 (repeat false (length t))) as (sm, tm) eqn:M.
  apply match_loop_spec in M. destruct M as (A & B & C). rewrite repeat_length in B. rewrite count_repeat in C. simpl in C.
  destruct (Nat.eqb_spec (count_true sm) 0) as [Z|NZ]; [exists 0%Q; split; [reflexivity|split; discriminate]|].
  destruct (transpositions_ok s sm t tm) as (n & -> & Hn); [lia|lia|]. cbn [bind].
  eexists; split; [reflexivity|].
  pose proof (count_le sm) as L1. pose proof (count_le tm) as L2.
  destruct (qn_ratio (count_true sm) (length s)) as (X1 & X2); [lia|lia|].
  destruct (qn_ratio (count_true sm) (length t)) as (Y1 & Y2); [lia|lia|].
  destruct (qn_ratio (count_true sm - n / 2) (count_true sm)) as (Z1 & Z2); [lia|apply Nat.le_sub_l|].
  revert X1 X2 Y1 Y2 Z1 Z2.
  generalize (qn (count_true sm) / qn (length s))%Q as a. generalize (qn (count_true sm) / qn (length t))%Q as b.
  generalize (qn (count_true sm - n / 2) / qn (count_true sm))%Q as c. intros c b a X1 X2 Y1 Y2 Z1 Z2.
  unfold unit_interval. split.
  - apply Qle_shift_div_l; [reflexivity|]. lra.
  - apply Qle_shift_div_r; [reflexivity|]. lra.
Qed.

Lemma find_match_self c p s : forall r j lo hi, lo <= j + length p < hi ->
  find_match c (p ++ c :: s) (repeat true (length p) ++ false :: r) j lo hi = Some (j + length p).
Proof.
  induction p as [|x p IH]; intros r j lo hi H; simpl.
  - simpl in H. rewrite Nat.add_0_r in *. rewrite Nat.eqb_refl.
    destruct (Nat.leb_spec lo j); [|lia]. destruct (Nat.ltb_spec j hi); [|lia]. reflexivity.
  - rewrite andb_false_r. simpl in H. rewrite IH by lia. f_equal. lia.
Qed.
Lemma upd_mid {A} (p : list A) x y r : upd (length p) x (p ++ y :: r) = p ++ x :: r.
Proof. induction p; simpl; auto. now f_equal. Qed.
Lemma match_loop_self md s : forall p,
  match_loop md (p ++ s) s (length p) (repeat true (length p) ++ repeat false (length s)) =
  (repeat true (length s), repeat true (length (p ++ s))).
Proof.
  induction s as [|c s IH]; intros p; simpl.
  - now rewrite app_nil_r, app_nil_r.
  - rewrite find_match_self by (rewrite app_length; simpl; lia). simpl.
    replace (upd (length p) true (repeat true (length p) ++ false :: repeat false (length s)))
      with (repeat true (length (p ++ [c])) ++ repeat false (length s)).
    2: { pose proof (upd_mid (repeat true (length p)) true false (repeat false (length s))) as U. rewrite repeat_length in U. rewrite U, app_length. simpl.
         rewrite repeat_app, <- app_assoc. reflexivity. }
    replace (p ++ c :: s) with ((p ++ [c]) ++ s) by now rewrite <- app_assoc.
    replace (S (length p)) with (length (p ++ [c])) by (rewrite app_length; simpl; lia).
    rewrite IH. reflexivity.
Qed.
Lemma transpositions_self s : transpositions s (repeat true (length s)) s (repeat true (length s)) = Ret 0.
Proof. induction s as [|c s IH]; simpl; auto. rewrite IH. simpl. now rewrite Nat.eqb_refl. Qed.
Lemma count_all n : count_true (repeat true n) = n.
Proof. unfold count_true. induction n; simpl; auto. Qed.

Lemma jaro_refl s : exists q, jaro s s = Ret q /\ (q == 1)%Q.
Proof.
  unfold jaro. destruct s as [|x s]; [exists 1%Q; split; reflexivity|]. set (l := x :: s).
  assert (L : 0 < length l) by (unfold l; simpl; lia).
  destruct (Nat.eqb_spec (length l) 0); [lia|]. cbn [andb orb].
  pose proof (match_loop_self (max (length l) (length l) / 2 - 1) l []) as M. change (length (@nil nat)) with 0 in M. cbn [app repeat] in M.
  rewrite M. rewrite count_all.
  destruct (Nat.eqb_spec (length l) 0); [lia|]. rewrite transpositions_self. cbn [bind].
  eexists; split; [reflexivity|]. change (0 / 2) with 0. rewrite Nat.sub_0_r. rewrite qn_self by auto. reflexivity.
Qed.

Lemma common_prefix_le k s t : common_prefix k s t <= k.
Proof.
  revert s t; induction k as [|k IH]; intros [|x s] [|y t]; simpl; try lia.
  destruct (x =? y); [specialize (IH s t)|]; lia.
Qed.
Lemma common_prefix_spec k s t :
  firstn (common_prefix k s t) s = firstn (common_prefix k s t) t.
Proof.
  revert s t; induction k as [|k IH]; intros [|x s] [|y t]; simpl; auto.
  destruct (Nat.eqb_spec x y) as [->|]; auto. simpl. now rewrite IH.
Qed.

Lemma jw_unit s t sc : (0 <= sc)%Q -> (sc <= 1 # 4)%Q ->
  exists q j, jaro_winkler s t sc = Ret q /\ jaro s t = Ret j /\ unit_interval q /\ (j <= q)%Q.
Proof.
  intros A B. unfold jaro_winkler. apply Qle_bool_iff in A. apply Qle_bool_iff in B. rewrite A, B. cbn [andb negb].
  apply Qle_bool_iff in A. apply Qle_bool_iff in B.
  destruct (jaro_unit s t) as (j & -> & J0 & J1). cbn [bind]. do 2 eexists. split; [reflexivity|]. split; [reflexivity|].
  assert (P0 : (0 <= qn (common_prefix 4 s t))%Q) by apply qn_nonneg.
  assert (P1 : (qn (common_prefix 4 s t) <= 4)%Q) by (apply (qn_le _ 4), common_prefix_le).
  assert (X0 : (0 <= qn (common_prefix 4 s t) * sc)%Q) by now apply Qmult_le_0_compat.
  assert (X1 : (qn (common_prefix 4 s t) * sc <= 1)%Q).
  { apply Qle_trans with (4 * sc)%Q; [apply Qmult_le_compat_r; auto|]. lra. }
  revert X0 X1. generalize (qn (common_prefix 4 s t) * sc)%Q as x. intros x X0 X1.
  assert (Y0 : (0 <= x * (1 - j))%Q) by (apply Qmult_le_0_compat; lra).
  assert (Y1 : (x * (1 - j) <= 1 * (1 - j))%Q) by (apply Qmult_le_compat_r; lra).
  unfold unit_interval. repeat split; lra.
Qed.
Lemma jw_refl s sc : (0 <= sc)%Q -> (sc <= 1 # 4)%Q -> exists q, jaro_winkler s s sc = Ret q /\ (q == 1)%Q.
Proof.
  intros A B. unfold jaro_winkler. apply Qle_bool_iff in A. apply Qle_bool_iff in B. rewrite A, B. cbn [andb negb].
  destruct (jaro_refl s) as (q & -> & E). cbn [bind]. eexists; split; [reflexivity|]. rewrite E. ring.
Qed.

(** ** get_bins *)
Lemma bins_loop_app lens upper : forall idx cur bin bins,
  exists bs, bins_loop lens upper idx cur bin bins = bins ++ bs /\ concat bs = bin ++ seq idx (length lens).
Proof.
  induction lens as [|n lens IH]; intros idx cur bin bins; simpl.
  - destruct bin as [|x bin]; [exists []; rewrite app_nil_r; auto|].
    exists [x :: bin]. simpl. rewrite !app_nil_r. auto.
  - destruct (Z.of_nat (cur + n) <? upper)%Z.
    + destruct (IH (S idx) (cur + n) (bin ++ [idx]) bins) as (bs & -> & E). exists bs. split; auto.
      rewrite E, <- app_assoc. reflexivity.
    + destruct (IH (S idx) n [idx] (bins ++ [bin])) as (bs & -> & E). exists (bin :: bs).
      rewrite <- app_assoc. split; auto. simpl. now rewrite E.
Qed.

Section Bins.
Variable full : list nat.
Variable upper : Z.
Definition bin_ok (b : list nat) : Prop := length b <= 1 \/ (Z.of_nat (total full b) < upper)%Z.
Definition tight (b1 b2 : list nat) : Prop :=
  exists i rest, b2 = i :: rest /\ (upper <= Z.of_nat (total full b1 + nth i full 0%nat))%Z.

Lemma total_snoc b i : total full (b ++ [i]) = total full b + nth i full 0.
Proof. unfold total. rewrite map_app. clear. induction (map (fun i => nth i full 0) b) as [|x l IH]; simpl in *; lia. Qed.
Lemma neighbours_cons {A} (P : A -> A -> Prop) x l :
  neighbours P l -> (forall y l', l = y :: l' -> P x y) -> neighbours P (x :: l).
Proof.
  intros H Px pre a b post E. destruct pre as [|p pre]; simpl in E; injection E as -> E.
  - eapply Px; eauto.
  - eapply H; eauto.
Qed.

Lemma bins_facts lens : forall idx cur bin bins,
  skipn idx full = lens -> cur = total full bin -> bin_ok bin ->
  exists bs, bins_loop lens upper idx cur bin bins = bins ++ bs /\ concat bs = bin ++ seq idx (length lens) /\
    Forall bin_ok bs /\ neighbours tight bs /\ (bs = [] -> bin = [] /\ lens = []) /\
    (forall b0 rest, bs = b0 :: rest -> (exists more, b0 = bin ++ more) /\ Forall (fun b => b <> []) rest /\
       (b0 = [] <-> bin = [] /\ (upper <= Z.of_nat (hd 0%nat lens))%Z)).
Proof.
  induction lens as [|n lens IH]; intros idx cur bin bins SK CU OK; simpl.
  - destruct bin as [|x bin].
    + exists []. rewrite app_nil_r. repeat split; auto; try discriminate. intros pre x y post E. destruct pre; discriminate.
    + exists [x :: bin]. simpl. rewrite !app_nil_r. repeat split; auto; try discriminate.
      * intros pre a b post E. destruct pre as [|p [|]]; discriminate.
      * injection H as <- <-. exists []. now rewrite app_nil_r.
      * injection H as <- <-. constructor.
      * injection H as <- <-. discriminate.
      * injection H as <- <-. discriminate.
      * injection H as <- <-. intros (X & _). discriminate.
  - assert (NI : nth idx full 0%nat = n /\ skipn (S idx) full = lens).
    { clear - SK. revert full SK. induction idx; intros [|y l] SK; simpl in *; try discriminate; [injection SK as -> ->; auto|auto]. }
    destruct NI as (NI & SK').
    destruct (Z.ltb_spec (Z.of_nat (cur + n)) upper) as [L|L].
    + assert (OK' : bin_ok (bin ++ [idx])) by (right; rewrite total_snoc, NI; lia).
      destruct (IH (S idx) (cur + n) (bin ++ [idx]) bins SK' ltac:(rewrite total_snoc, NI; lia) OK') as (bs & -> & C & F & N & E & H).
      exists bs. split; auto. split; [rewrite C, <- app_assoc; reflexivity|]. split; auto. split; auto.
      split; [intros X; apply E in X; destruct X as (X & _); destruct bin; discriminate|].
      intros b0 rest X. destruct (H _ _ X) as ((more & ->) & H1 & _).
      split; [exists (idx :: more); now rewrite <- app_assoc|]. split; auto.
      split; [destruct bin; discriminate|]. intros (-> & U). exfalso. unfold total in CU. simpl in CU. subst cur. simpl in L. lia.
    + assert (OK' : bin_ok [idx]) by (left; simpl; lia).
      destruct (IH (S idx) n [idx] (bins ++ [bin]) SK' ltac:(unfold total; simpl; lia) OK') as (bs & -> & C & F & N & E & H).
      exists (bin :: bs). rewrite <- app_assoc. split; auto. split; [simpl; rewrite C; reflexivity|].
      split; [constructor; auto|]. split.
      { apply neighbours_cons; auto. intros y l' EQ. destruct (H _ _ EQ) as ((more & ->) & _).
        exists idx, more. split; auto. rewrite <- CU, NI. auto. }
      split; [discriminate|]. intros b0 rest [= <- <-]. split; [exists []; now rewrite app_nil_r|]. split.
      * destruct bs as [|b1 bs]; auto. destruct (H _ _ eq_refl) as ((more & ->) & H1 & _). constructor; auto. discriminate.
      * split; [|tauto]. intros ->. split; auto. unfold total in CU. simpl in CU. subst cur. auto.
Qed.
End Bins.
