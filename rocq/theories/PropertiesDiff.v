(** C111: sequence_matcher_similarity. *)
From Coq Require Import List Bool Arith QArith Lia Sorting.
From Verif Require Import ModelDiff.
Import ListNotations.
Local Open Scope nat_scope.

(** *** Specification *)

(** [w] is a common substring, at [i] in [x] and at [j] in [y]. *)
Definition at_ (x : list nat) (i : nat) (w : list nat) : Prop :=
  exists p q, x = p ++ w ++ q /\ length p = i.

(** [s] is what remains of [l] when some characters are taken out. *)
Inductive subseq : list nat -> list nat -> Prop :=
| sub_nil l : subseq [] l
| sub_keep c s l : subseq s l -> subseq (c :: s) (c :: l)
| sub_skip c s l : subseq s l -> subseq s (c :: l).

(** The blocks follow each other in both texts, from [i0], [j0] on. *)
Fixpoint in_order (i0 j0 : nat) (l : list cell) : Prop :=
  match l with
  | [] => True
  | (i, j, k) :: r => i0 <= i /\ j0 <= j /\ 0 < k /\ in_order (i + k) (j + k) r
  end.

(** A block marks the same text in both. *)
Definition matched (x y : list nat) (m : cell) : Prop :=
  let '(i, j, k) := m in exists w, length w = k /\ at_ x i w /\ at_ y j w.

(** No character that counts lies both in [x] from [i0] to [i1] and in [y] from [j0] to [j1]. *)
Definition nothing_common (skip : nat -> Prop) (x y : list nat) (i0 i1 j0 j1 : nat) : Prop :=
  forall s t c, i0 <= s < i1 -> j0 <= t < j1 -> nth_error x s = Some c -> nth_error y t = Some c -> skip c.

(** ... and so between any two blocks that follow each other. *)
Fixpoint gaps (skip : nat -> Prop) (x y : list nat) (i0 j0 : nat) (l : list cell) (i1 j1 : nat) : Prop :=
  match l with
  | [] => nothing_common skip x y i0 i1 j0 j1
  | (i, j, k) :: r => nothing_common skip x y i0 i j0 j /\ gaps skip x y (i + k) (j + k) r i1 j1
  end.

(** A character that makes up more than one percent of a text of at least 200
    (exactly: more than length // 100 + 1 times). *)
Definition frequent (b : list nat) (c : nat) : Prop :=
  200 <= length b /\ length b / 100 + 1 < count_occ Nat.eq_dec b c.

(** *** Runs *)

Lemma firstn_skipn_nth (x : list nat) : forall i k,
  i + k <= length x -> exists w, at_ x i w /\ length w = k /\ forall t, t < k -> nth_error w t = nth_error x (i + t).
Proof.
  intros i k H. exists (firstn k (skipn i x)). split; [|split].
  - exists (firstn i x), (skipn k (skipn i x)). split.
    + rewrite firstn_skipn. symmetry. apply firstn_skipn.
    + apply firstn_length_le. lia.
  - apply firstn_length_le. rewrite skipn_length. lia.
  - intros t Ht.
    assert (forall (l : list nat) n, t < n -> nth_error (firstn n l) t = nth_error l t) as F.
    { clear. induction t as [|t IH]; intros [|a l] [|n] L; cbn; try lia; auto. apply IH. lia. }
    assert (forall (l : list nat) n m, nth_error (skipn n l) m = nth_error l (n + m)) as G.
    { clear. intros l n. revert l. induction n as [|n IH]; intros l m; [reflexivity|].
      destruct l as [|a l]; [now destruct m|]. apply IH. }
    rewrite F by exact Ht. apply G.
Qed.

Lemma at_nth x i w t c : at_ x i w -> nth_error w t = Some c -> nth_error x (i + t) = Some c.
Proof.
  intros (p & q & -> & <-) H. rewrite nth_error_app2 by lia.
  replace (length p + t - length p) with t by lia. rewrite nth_error_app1; [exact H|].
  apply nth_error_Some. congruence.
Qed.

Lemma at_bound x i w : at_ x i w -> i + length w <= length x.
Proof. intros (p & q & -> & <-). rewrite !app_length. lia. Qed.

Lemma zeros (y : list nat) : forall n, map (fun _ => 0) y = map (fun _ : nat => 0) (seq n (length y)).
Proof. induction y as [|d y IH]; intros n; [reflexivity|]. cbn. f_equal. apply IH. Qed.

Section Region.
Variable pop : nat -> bool.

Section Fixed.
Variables x y : list nat.

(** How long the run of equal, not popular characters before (i, j) is. *)
Fixpoint L (i j : nat) : nat :=
  match i, j with
  | S i', S j' =>
      match nth_error x i', nth_error y j' with
      | Some c, Some d => if (c =? d) && negb (pop c) then S (L i' j') else 0
      | _, _ => 0
      end
  | _, _ => 0
  end.

Lemma L_le i : forall j, L i j <= i /\ L i j <= j.
Proof.
  induction i as [|i IH]; intros [|j]; cbn; try lia.
  destruct (nth_error x i), (nth_error y j); try lia. destruct (_ && _); [|lia].
  specialize (IH j). lia.
Qed.

Lemma L_run i : forall j t, t < L i j ->
  exists c, nth_error x (i - L i j + t) = Some c /\ nth_error y (j - L i j + t) = Some c /\ pop c = false.
Proof.
  induction i as [|i IH]; intros [|j] t H; cbn in *; try lia.
  destruct (nth_error x i) as [c|] eqn:Ex; [|lia]. destruct (nth_error y j) as [d|] eqn:Ey; [|lia].
  destruct ((c =? d) && negb (pop c)) eqn:M; [|lia].
  apply andb_true_iff in M. destruct M as [M P]. apply Nat.eqb_eq in M. subst d. apply negb_true_iff in P.
  destruct (L_le i j). cbn [Nat.sub].
  destruct (Nat.eq_dec t (L i j)) as [->|N].
  - exists c. replace (i - L i j + L i j) with i by lia. replace (j - L i j + L i j) with j by lia. auto.
  - apply IH. lia.
Qed.

Lemma L_max k : forall i j, k <= i -> k <= j ->
  (forall t, t < k -> exists c, nth_error x (i - k + t) = Some c /\ nth_error y (j - k + t) = Some c /\ pop c = false) ->
  k <= L i j.
Proof.
  induction k as [|k IH]; intros i j Hi Hj H; [lia|].
  destruct i as [|i]; [lia|]. destruct j as [|j]; [lia|]. cbn.
  destruct (H k) as (c & X & Y & P); [lia|].
  replace (S i - S k + k) with i in X by lia. replace (S j - S k + k) with j in Y by lia.
  rewrite X, Y, Nat.eqb_refl, P. cbn. apply le_n_S, IH; [lia|lia|].
  intros t Ht. destruct (H t) as (e & A & B & C); [lia|]. exists e. auto.
Qed.

Lemma row_L c i : nth_error x i = Some c -> forall y' y0 prev,
  y = y0 ++ y' -> prev = map (fun j => L i (S j)) (seq (length y0) (length y')) ->
  row pop c (L i (length y0)) prev y' = map (fun j => L (S i) (S j)) (seq (length y0) (length y')).
Proof.
  intros Hc. induction y' as [|d y' IH]; intros y0 prev Ey Ep; [reflexivity|].
  cbn [row length seq map] in *. subst prev. cbn [hd tl].
  assert (nth_error y (length y0) = Some d) as Hd
    by (rewrite Ey, nth_error_app2, Nat.sub_diag by lia; reflexivity).
  f_equal.
  - cbn. rewrite Hc, Hd. reflexivity.
  - specialize (IH (y0 ++ [d]) (map (fun j => L i (S j)) (seq (S (length y0)) (length y')))).
    rewrite app_length, Nat.add_1_r in IH. apply IH; [|reflexivity]. rewrite <- app_assoc. exact Ey.
Qed.

Definition all_cells : list cell :=
  flat_map (fun i => map (fun j => (i, j, L (S i) (S j))) (seq 0 (length y))) (seq 0 (length x)).

Lemma label_map i f n : forall j, label i j (map f (seq j n)) = map (fun j => (i, j, f j)) (seq j n).
Proof. induction n as [|n IH]; intros j; [reflexivity|]. cbn. f_equal. apply IH. Qed.

Lemma cells_L : cells pop 0 (map (fun _ => 0) y) x y = all_cells.
Proof.
  unfold all_cells.
  assert (forall x' x0 prev, x = x0 ++ x' -> prev = map (fun j => L (length x0) (S j)) (seq 0 (length y)) ->
    cells pop (length x0) prev x' y
    = flat_map (fun i => map (fun j => (i, j, L (S i) (S j))) (seq 0 (length y))) (seq (length x0) (length x'))) as G.
  { induction x' as [|c x' IH]; intros x0 prev Ex Ep; [reflexivity|].
    cbn [cells length seq flat_map].
    assert (nth_error x (length x0) = Some c) as Hc
      by (rewrite Ex, nth_error_app2, Nat.sub_diag by lia; reflexivity).
    pose proof (row_L c (length x0) Hc y [] prev eq_refl Ep) as R. cbn [length] in R.
    replace (L (length x0) 0) with 0 in R by now destruct (length x0).
    rewrite R, label_map. f_equal.
    specialize (IH (x0 ++ [c]) (map (fun j => L (S (length x0)) (S j)) (seq 0 (length y)))).
    rewrite app_length, Nat.add_1_r in IH. apply IH; [|reflexivity]. rewrite <- app_assoc. exact Ex. }
  apply (G x [] _ eq_refl). exact (zeros y 0).
Qed.

Lemma in_cells i j k : In (i, j, k) all_cells <-> i < length x /\ j < length y /\ k = L (S i) (S j).
Proof.
  unfold all_cells. rewrite in_flat_map. split.
  - intros (i' & Hi & H). apply in_map_iff in H. destruct H as (j' & E & Hj).
    injection E as <- <- <-. apply in_seq in Hi, Hj. repeat split; lia.
  - intros (Hi & Hj & ->). exists i. split; [apply in_seq; lia|]. apply in_map_iff. exists j.
    split; [reflexivity|]. apply in_seq. lia.
Qed.

Definition before (m m' : cell) : Prop :=
  fst (fst m) < fst (fst m') \/ (fst (fst m) = fst (fst m') /\ snd (fst m) < snd (fst m')).

Lemma sorted_app (R : cell -> cell -> Prop) l l' :
  StronglySorted R l -> StronglySorted R l' -> (forall a b, In a l -> In b l' -> R a b) ->
  StronglySorted R (l ++ l').
Proof.
  intros H. induction H as [|a l H IH F]; intros H' C; [exact H'|]. cbn. constructor.
  - apply IH; [exact H'|]. intros b c Hb Hc. apply C; [now right|exact Hc].
  - apply Forall_app. split; [exact F|]. apply Forall_forall. intros b Hb. apply C; [now left|exact Hb].
Qed.

Lemma sorted_cells : StronglySorted before all_cells.
Proof.
  unfold all_cells. generalize (length x) as n. intros n. generalize 0 at 2. induction n as [|n IH]; intros s; [constructor|].
  cbn [seq flat_map]. apply sorted_app; [|apply IH|].
  - generalize (length y) as m. intros m. generalize 0. induction m as [|m IHm]; intros j; [constructor|].
    cbn [seq map]. constructor; [apply IHm|]. apply Forall_forall. intros c Hc. apply in_map_iff in Hc.
    destruct Hc as (j' & <- & Hj). apply in_seq in Hj. right. cbn. lia.
  - intros a b Ha Hb. apply in_map_iff in Ha. destruct Ha as (j & <- & _).
    apply in_flat_map in Hb. destruct Hb as (i & Hi & Hb). apply in_map_iff in Hb. destruct Hb as (j' & <- & _).
    apply in_seq in Hi. left. cbn. lia.
Qed.

Lemma sorted_mid (R : cell -> cell -> Prop) p m q :
  StronglySorted R (p ++ m :: q) -> Forall (R m) q.
Proof.
  induction p as [|a p IH]; cbn; intros H; inversion H; subst; [assumption|now apply IH].
Qed.

Lemma best_spec l : forall i j k, fold_left better l (0, 0, 0) = (i, j, k) ->
  (i = 0 /\ j = 0 /\ k = 0 /\ forall m, In m l -> snd m = 0) \/
  exists p i1 j1 q, l = p ++ (i1, j1, k) :: q /\ 0 < k /\ i = S i1 - k /\ j = S j1 - k
    /\ (forall m, In m p -> snd m < k) /\ (forall m, In m q -> snd m <= k).
Proof.
  induction l as [|[[i2 j2] k2] l IH] using rev_ind; intros i j k E.
  - injection E as <- <- <-. left. repeat split. intros m [].
  - rewrite fold_left_app in E. cbn [fold_left] in E.
    destruct (fold_left better l (0, 0, 0)) as [[i0 j0] k0] eqn:F. unfold better in E. cbn [snd] in E.
    specialize (IH i0 j0 k0 eq_refl). destruct (Nat.ltb_spec k0 k2) as [Hk|Hk].
    + injection E as <- <- <-. right. exists l, i2, j2, []. split; [reflexivity|]. split; [lia|].
      split; [reflexivity|]. split; [reflexivity|]. split; [|intros m []].
      intros m Hm. destruct IH as [(_ & _ & -> & Z)|(p & i1 & j1 & q & -> & _ & _ & _ & A & B)].
      * rewrite (Z m Hm). lia.
      * apply in_app_or in Hm. destruct Hm as [Hm|[<-|Hm]]; [specialize (A m Hm)| |specialize (B m Hm)]; cbn; lia.
    + injection E as <- <- <-. destruct IH as [(-> & -> & -> & Z)|(p & i1 & j1 & q & -> & P & Ei & Ej & A & B)].
      * left. repeat split. intros m Hm. apply in_app_or in Hm. destruct Hm as [Hm|[<-|[]]]; [now apply Z|cbn; lia].
      * right. exists p, i1, j1, (q ++ [(i2, j2, k2)]). rewrite <- app_assoc. split; [reflexivity|].
        repeat split; try assumption. intros m Hm. apply in_app_or in Hm. destruct Hm as [Hm|[<-|[]]]; [now apply B|cbn; lia].
Qed.

(** What [longest_run] returns. *)
Lemma run_spec i j k : longest_run pop x y = (i, j, k) ->
  (i + k <= length x /\ j + k <= length y
   /\ forall t, t < k -> exists c, nth_error x (i + t) = Some c /\ nth_error y (j + t) = Some c /\ pop c = false)
  /\ (forall i' j' k', (forall t, t < k' -> exists c, nth_error x (i' + t) = Some c /\ nth_error y (j' + t) = Some c /\ pop c = false) -> k' <= k)
  /\ (x = y -> i = j).
Proof.
  unfold longest_run. rewrite cells_L. intros E. apply best_spec in E.
  assert (forall i' j' k', (forall t, t < k' -> exists c, nth_error x (i' + t) = Some c /\ nth_error y (j' + t) = Some c /\ pop c = false) ->
     k' = 0 \/ exists m, In m all_cells /\ k' <= snd m) as M.
  { intros i' j' [|k'] H; [now left|]. right. exists (i' + k', j' + k', L (S (i' + k')) (S (j' + k'))).
    destruct (H k') as (c & A & B & _); [lia|]. split.
    - apply in_cells. repeat split; apply nth_error_Some; congruence.
    - cbn [snd]. apply L_max; [lia|lia|]. intros t Ht. replace (S (i' + k') - S k' + t) with (i' + t) by lia.
      replace (S (j' + k') - S k' + t) with (j' + t) by lia. apply H, Ht. }
  destruct E as [(-> & -> & -> & Z)|(p & i1 & j1 & q & El & P & Ei & Ej & A & B)].
  - split; [|split; [|reflexivity]].
    + repeat split; try lia. 
    + intros i' j' k' H. destruct (M i' j' k' H) as [->|(m & Im & Hm)]; [lia|]. rewrite (Z m Im) in Hm. exact Hm.
  - assert (In (i1, j1, k) all_cells) as I by (rewrite El; apply in_or_app; right; now left).
    apply in_cells in I. destruct I as (I1 & I2 & I3). destruct (L_le (S i1) (S j1)) as [L1 L2].
    rewrite <- I3 in L1, L2. split; [|split].
    + subst i j. split; [lia|]. split; [lia|]. intros t Ht.
      pose proof (L_run (S i1) (S j1) t) as R. rewrite <- I3 in R. apply R, Ht.
    + intros i' j' k' H. destruct (M i' j' k' H) as [->|(m & Im & Hm)]; [lia|].
      rewrite El in Im. apply in_app_or in Im. destruct Im as [Im|[<-|Im]];
        [specialize (A m Im)| |specialize (B m Im)]; cbn in *; lia.
    + intros Exy. subst i j. enough (i1 = j1) by congruence.
      assert (forall i2, i2 < length x -> k <= L (S i2) (S i2) -> i1 < i2 \/ (i1 = i2 /\ j1 <= i2)) as D.
      { intros i2 H2 HL. assert (In (i2, i2, L (S i2) (S i2)) all_cells) as I by (apply in_cells; rewrite <- Exy; auto).
        pose proof sorted_cells as S. rewrite El in I, S. apply sorted_mid in S.
        apply in_app_or in I. destruct I as [I|[I|I]].
        - specialize (A _ I). cbn [snd] in A. lia.
        - injection I as -> -> _. lia.
        - rewrite Forall_forall in S. specialize (S _ I). unfold before in S. cbn in S. lia. }
      assert (forall i2, (forall t, t < k -> exists c, nth_error x (S i2 - k + t) = Some c /\ pop c = false) -> k <= S i2 -> k <= L (S i2) (S i2)) as D2.
      { intros i2 H Hk. apply L_max; [exact Hk|exact Hk|]. intros t Ht. destruct (H t Ht) as (c & X & Pc). exists c.
        repeat split; [exact X| |exact Pc]. rewrite <- Exy. exact X. }
      assert (i1 < i1 \/ (i1 = i1 /\ j1 <= i1)) as D3.
      { apply D; [exact I1|]. apply D2; [|exact L1]. intros t Ht.
        destruct (L_run (S i1) (S j1) t) as (c & X & _ & Pc); [lia|]. rewrite <- I3 in X. eauto. }
      assert (i1 < j1 \/ (i1 = j1 /\ j1 <= j1)) as D4.
      { apply D; [rewrite Exy; exact I2|]. apply D2; [|exact L2]. intros t Ht.
        destruct (L_run (S i1) (S j1) t) as (c & _ & Y & Pc); [lia|]. rewrite <- I3 in Y. rewrite <- Exy in Y. eauto. }
      lia.
Qed.

Lemma left_spec i : forall j k i2 j2 k2, extend_left x y i j k = (i2, j2, k2) ->
  i <= length x -> j <= length y ->
  exists d, i = i2 + d /\ j = j2 + d /\ k2 = k + d
    /\ (forall t, t < d -> nth_error x (i2 + t) = nth_error y (j2 + t))
    /\ (i2 = 0 \/ j2 = 0 \/ nth_error x (i2 - 1) <> nth_error y (j2 - 1)).
Proof.
  induction i as [|i IH]; intros j k i2 j2 k2 E Hi Hj.
  - cbn in E. injection E as <- <- <-. exists 0. repeat split; try lia.
  - destruct j as [|j]; cbn in E; [injection E as <- <- <-; exists 0; repeat split; try lia|].
    destruct (Nat.eqb_spec (nth i x 0) (nth j y 0)) as [Q|Q].
    + destruct (IH _ _ _ _ _ E) as (d & E1 & E2 & E3 & E4 & E5); [lia|lia|]. exists (S d).
      split; [lia|]. split; [lia|]. split; [lia|]. split; [|exact E5].
      intros t Ht. destruct (Nat.eq_dec t d) as [->|]; [|apply E4; lia].
      rewrite <- E1, <- E2. rewrite (nth_error_nth' x 0), (nth_error_nth' y 0) by lia. now rewrite Q.
    + injection E as <- <- <-. exists 0. split; [lia|]. split; [lia|]. split; [lia|]. split; [lia|]. right; right. cbn. rewrite !Nat.sub_0_r.
      rewrite (nth_error_nth' x 0), (nth_error_nth' y 0) by lia. congruence.
Qed.

End Fixed.

Lemma prefix_spec u : forall v,
  common_prefix u v <= length u /\ common_prefix u v <= length v
  /\ (forall t, t < common_prefix u v -> nth_error u t = nth_error v t).
Proof.
  induction u as [|c u IH]; intros [|d v]; cbn; try (repeat split; lia).
  destruct (Nat.eqb_spec c d) as [->|]; [|repeat split; lia].
  destruct (IH v) as (A & B & C). repeat split; try lia. intros [|t] Ht; [reflexivity|]. cbn. apply C. lia.
Qed.

Lemma prefix_same u : common_prefix u u = length u.
Proof. induction u as [|c u IH]; cbn; [reflexivity|]. now rewrite Nat.eqb_refl, IH. Qed.

Lemma nth_skip (l : list nat) n m : nth_error (skipn n l) m = nth_error l (n + m).
Proof.
  revert l. induction n as [|n IH]; intros l; [reflexivity|]. destruct l as [|a l]; [now destruct m|]. apply IH.
Qed.

(** What [find_longest_match] returns. *)
Lemma find_spec x y i j k : find_longest_match pop x y = (i, j, k) ->
  (i + k <= length x /\ j + k <= length y
   /\ forall t, t < k -> nth_error x (i + t) = nth_error y (j + t))
  /\ (forall i' j' k', (forall t, t < k' -> exists c, nth_error x (i' + t) = Some c /\ nth_error y (j' + t) = Some c /\ pop c = false) -> k' <= k)
  /\ (x = y -> (i, j, k) = (0, 0, length x)).
Proof.
  unfold find_longest_match. destruct (longest_run pop x y) as [[i1 j1] k1] eqn:E1.
  destruct (run_spec _ _ _ _ _ E1) as ((A1 & A2 & A3) & B & C).
  destruct (extend_left x y i1 j1 k1) as [[i2 j2] k2] eqn:E2. intros E. injection E as <- <- <-.
  destruct (left_spec x y _ _ _ _ _ _ E2) as (d & D1 & D2 & D3 & D4 & D5); [lia|lia|].
  destruct (prefix_spec (skipn (i2 + k2) x) (skipn (j2 + k2) y)) as (P1 & P2 & P3).
  set (e := common_prefix _ _) in *. rewrite !skipn_length in *.
  split; [|split].
  - repeat split; try lia. intros t Ht.
    destruct (Nat.lt_ge_cases t d) as [H|H]; [now apply D4|].
    destruct (Nat.lt_ge_cases t k2) as [H2|H2].
    + destruct (A3 (t - d)) as (c & X & Y & _); [lia|].
      replace (i2 + t) with (i1 + (t - d)) by lia. replace (j2 + t) with (j1 + (t - d)) by lia. congruence.
    + specialize (P3 (t - k2)). rewrite !nth_skip in P3.
      replace (i2 + t) with (i2 + k2 + (t - k2)) by lia. replace (j2 + t) with (j2 + k2 + (t - k2)) by lia.
      apply P3. lia.
  - intros i' j' k' H. specialize (B i' j' k' H). lia.
  - intros <-. specialize (C eq_refl). subst j1. assert (i2 = j2) by lia. subst j2.
    assert (i2 = 0) as -> by (destruct D5 as [?|[?|D5]]; [assumption|assumption|congruence]).
    unfold e. rewrite prefix_same, skipn_length. f_equal. lia.
Qed.

(** *** Blocks *)


End Region.

Lemma nth_error_ext (l : list nat) : forall l', (forall n, nth_error l n = nth_error l' n) -> l = l'.
Proof.
  induction l as [|a l IH]; intros [|b l'] H; [reflexivity|specialize (H 0); discriminate|specialize (H 0); discriminate|].
  f_equal; [specialize (H 0); cbn in H; congruence|]. apply IH. intros n. exact (H (S n)).
Qed.

Lemma same_text x y i j k : i + k <= length x -> j + k <= length y ->
  (forall t, t < k -> nth_error x (i + t) = nth_error y (j + t)) -> matched x y (i, j, k).
Proof.
  intros Hx Hy H. destruct (firstn_skipn_nth x i k Hx) as (w & A & B & C).
  destruct (firstn_skipn_nth y j k Hy) as (v & A' & B' & C'). exists w. split; [exact B|]. split; [exact A|].
  replace w with v; [exact A'|]. apply nth_error_ext. intros t.
  destruct (Nat.lt_ge_cases t k) as [L1|L1].
  - rewrite C, C' by exact L1. symmetry. now apply H.
  - rewrite (proj2 (nth_error_None v t)), (proj2 (nth_error_None w t)) by lia. reflexivity.
Qed.

Lemma at_firstn x n i w : at_ (firstn n x) i w -> at_ x i w.
Proof.
  intros (p & q & E & L1). exists p, (q ++ skipn n x). split; [|exact L1].
  rewrite <- (firstn_skipn n x) at 1. rewrite E, <- !app_assoc. reflexivity.
Qed.

Lemma at_skipn x n i w : n <= length x -> at_ (skipn n x) i w -> at_ x (n + i) w.
Proof.
  intros Hn (p & q & E & L1). exists (firstn n x ++ p), q. split.
  - rewrite <- (firstn_skipn n x) at 1. rewrite E, <- app_assoc. reflexivity.
  - rewrite app_length, firstn_length_le by exact Hn. lia.
Qed.

Lemma in_order_app a b c d l l' : in_order a b l ->
  Forall (fun m => fst (fst m) + snd m <= c /\ snd (fst m) + snd m <= d) l -> a <= c -> b <= d ->
  in_order c d l' -> in_order a b (l ++ l').
Proof.
  revert a b. induction l as [|[[i j] k] l IH]; intros a b O F Ha Hb O'; cbn in *.
  - destruct l' as [|[[i j] k] l']; cbn in *; [exact I|]. intuition lia.
  - inversion F as [|? ? F1 F2]; subst. cbn in F1. destruct O as (O1 & O2 & O3 & O4).
    repeat split; try assumption. apply IH; try assumption; lia.
Qed.

Lemma subseq_refl l : subseq l l.
Proof. induction l; constructor; assumption. Qed.
Lemma subseq_app s s' l l' : subseq s l -> subseq s' l' -> subseq (s ++ s') (l ++ l').
Proof.
  intros H. induction H as [l|c s l H IH|c s l H IH]; intros H'; cbn.
  - induction l as [|a l IH]; [exact H'|]. cbn. now constructor.
  - constructor. now apply IH.
  - constructor. now apply IH.
Qed.
Lemma subseq_length s l : subseq s l -> length s <= length l.
Proof. intros H. induction H; cbn; lia. Qed.
Lemma subseq_all s l : subseq s l -> length s = length l -> s = l.
Proof.
  intros H. induction H as [l|c s l H IH|c s l H IH]; cbn; intros E.
  - now destruct l.
  - f_equal. apply IH. lia.
  - apply subseq_length in H. lia.
Qed.

Lemma size_app l l' : size (l ++ l') = size l + size l'.
Proof. induction l as [|m l IH]; [reflexivity|]. unfold size in *. cbn [fold_right app]. rewrite IH. lia. Qed.

Lemma gaps_app skip x y l : forall i0 j0 i j k l' i1 j1,
  gaps skip x y i0 j0 l i j -> gaps skip x y (i + k) (j + k) l' i1 j1 ->
  gaps skip x y i0 j0 (l ++ (i, j, k) :: l') i1 j1.
Proof.
  induction l as [|[[i2 j2] k2] l IH]; intros i0 j0 i j k l' i1 j1 A B; cbn in *; [auto|].
  destruct A as [A1 A2]. split; [exact A1|]. now apply IH.
Qed.

Lemma gaps_impl (P Q : nat -> Prop) x y l : (forall c, P c -> Q c) -> forall i0 j0 i1 j1,
  gaps P x y i0 j0 l i1 j1 -> gaps Q x y i0 j0 l i1 j1.
Proof.
  intros H. induction l as [|[[i j] k] l IH]; intros i0 j0 i1 j1; cbn.
  - intros G s t c Hs Ht X Y. apply H. exact (G s t c Hs Ht X Y).
  - intros [G1 G2]. split; [|now apply IH]. intros s t c Hs Ht X Y. apply H. exact (G1 s t c Hs Ht X Y).
Qed.

Section Blocks.
Variable pop : nat -> bool.

Lemma blocks_order f : forall i0 j0 x y,
  in_order i0 j0 (blocks pop f i0 j0 x y)
  /\ Forall (fun m => fst (fst m) + snd m <= i0 + length x /\ snd (fst m) + snd m <= j0 + length y)
       (blocks pop f i0 j0 x y).
Proof.
  induction f as [|f IH]; intros i0 j0 x y; cbn [blocks]; [split; constructor|].
  destruct (find_longest_match pop x y) as [[i j] k] eqn:E.
  destruct (find_spec _ _ _ _ _ _ E) as ((A1 & A2 & A3) & _).
  destruct (Nat.eqb_spec k 0) as [|Hk]; [split; constructor|].
  set (l := if (0 <? i) && (0 <? j) then _ else _). set (r := if (i + k <? length x) && (j + k <? length y) then _ else _).
  assert (in_order i0 j0 l /\ Forall (fun m => fst (fst m) + snd m <= i0 + i /\ snd (fst m) + snd m <= j0 + j) l) as [L1 L2].
  { unfold l. destruct ((0 <? i) && (0 <? j)); [|split; constructor].
    specialize (IH i0 j0 (firstn i x) (firstn j y)). rewrite !firstn_length_le in IH by lia. exact IH. }
  assert (in_order (i0 + (i + k)) (j0 + (j + k)) r
          /\ Forall (fun m => fst (fst m) + snd m <= i0 + length x /\ snd (fst m) + snd m <= j0 + length y) r) as [R1 R2].
  { unfold r. destruct ((i + k <? length x) && (j + k <? length y)); [|split; constructor].
    specialize (IH (i0 + (i + k)) (j0 + (j + k)) (skipn (i + k) x) (skipn (j + k) y)).
    rewrite !skipn_length in IH. destruct IH as [I1 I2]. split; [exact I1|].
    eapply Forall_impl; [|exact I2]. cbn. lia. }
  split.
  - apply (in_order_app i0 j0 (i0 + i) (j0 + j)); [exact L1|exact L2|lia|lia|].
    cbn. repeat split; try lia. replace (i0 + i + k) with (i0 + (i + k)) by lia.
    replace (j0 + j + k) with (j0 + (j + k)) by lia. exact R1.
  - apply Forall_app. split; [eapply Forall_impl; [|exact L2]; cbn; lia|].
    constructor; [cbn; lia|exact R2].
Qed.

Lemma blocks_matched f : forall i0 j0 x y m, In m (blocks pop f i0 j0 x y) ->
  exists i j k, m = (i0 + i, j0 + j, k) /\ matched x y (i, j, k).
Proof.
  induction f as [|f IH]; intros i0 j0 x y m; cbn [blocks]; [intros []|].
  destruct (find_longest_match pop x y) as [[i j] k] eqn:E.
  destruct (find_spec _ _ _ _ _ _ E) as ((A1 & A2 & A3) & _).
  destruct (Nat.eqb_spec k 0) as [|Hk]; [intros []|]. intros H.
  apply in_app_or in H. destruct H as [H|[H|H]].
  - destruct (_ && _); [|destruct H]. destruct (IH _ _ _ _ _ H) as (i2 & j2 & k2 & -> & w & W1 & W2 & W3).
    exists i2, j2, k2. split; [reflexivity|]. exists w. split; [exact W1|]. split; eapply at_firstn; eauto.
  - exists i, j, k. split; [now symmetry|]. now apply same_text.
  - destruct ((i + k <? length x) && _) ; [|destruct H].
    destruct (IH _ _ _ _ _ H) as (i2 & j2 & k2 & -> & w & W1 & W2 & W3).
    exists (i + k + i2), (j + k + j2), k2. split; [f_equal; f_equal; lia|].
    exists w. split; [exact W1|]. split; apply at_skipn; assumption.
Qed.

Lemma blocks_common f : forall i0 j0 x y,
  exists s, subseq s x /\ subseq s y /\ length s = size (blocks pop f i0 j0 x y).
Proof.
  induction f as [|f IH]; intros i0 j0 x y; cbn [blocks]; [exists []; repeat constructor|].
  destruct (find_longest_match pop x y) as [[i j] k] eqn:E.
  destruct (find_spec _ _ _ _ _ _ E) as ((A1 & A2 & A3) & _).
  destruct (Nat.eqb_spec k 0) as [|Hk]; [exists []; repeat constructor|].
  destruct (same_text x y i j k A1 A2 A3) as (w & W1 & (p & q & Ex & Lp) & (p' & q' & Ey & Lp')).
  assert (firstn i x = p /\ skipn (i + k) x = q /\ firstn j y = p' /\ skipn (j + k) y = q') as (X1 & X2 & Y1 & Y2).
  { assert (forall (p w q : list nat) n m, length p = n -> length w = m ->
      firstn n (p ++ w ++ q) = p /\ skipn (n + m) (p ++ w ++ q) = q) as C.
    { clear. intros p w q n m <- <-. split.
      - rewrite firstn_app, firstn_all, Nat.sub_diag. cbn. apply app_nil_r.
      - rewrite app_assoc, <- app_length, skipn_app, skipn_all, Nat.sub_diag. reflexivity. }
    destruct (C p w q i k Lp W1) as [C1 C2]. destruct (C p' w q' j k Lp' W1) as [C3 C4].
    rewrite <- Ex in C1, C2. rewrite <- Ey in C3, C4. auto. }
  rewrite X1, X2, Y1, Y2, !size_app.
  set (l := if (0 <? i) && (0 <? j) then _ else _). set (r := if (i + k <? length x) && (j + k <? length y) then _ else _).
  assert (exists s, subseq s p /\ subseq s p' /\ length s = size l) as (s & S1 & S2 & S3).
  { unfold l. destruct ((0 <? i) && (0 <? j)); [apply IH|exists []; repeat constructor]. }
  assert (exists s, subseq s q /\ subseq s q' /\ length s = size r) as (s' & S1' & S2' & S3').
  { unfold r. destruct ((i + k <? length x) && (j + k <? length y)); [apply IH|exists []; repeat constructor]. }
  exists (s ++ w ++ s'). split; [|split].
  - rewrite Ex. apply subseq_app; [exact S1|]. apply subseq_app; [apply subseq_refl|exact S1'].
  - rewrite Ey. apply subseq_app; [exact S2|]. apply subseq_app; [apply subseq_refl|exact S2'].
  - rewrite !app_length, S3, S3', W1. cbn. lia.
Qed.

Lemma blocks_gaps a b f : forall i0 j0 x y, length x <= f ->
  (forall s, s < length x -> nth_error a (i0 + s) = nth_error x s) ->
  (forall s, s < length y -> nth_error b (j0 + s) = nth_error y s) ->
  gaps (fun c => pop c = true) a b i0 j0 (blocks pop f i0 j0 x y) (i0 + length x) (j0 + length y).
Proof.
  induction f as [|f IH]; intros i0 j0 x y Hf Ha Hb; cbn [blocks].
  - intros s t c Hs _ _ _. lia.
  - destruct (find_longest_match pop x y) as [[i j] k] eqn:E.
    destruct (find_spec _ _ _ _ _ _ E) as ((A1 & A2 & A3) & M & _).
    destruct (Nat.eqb_spec k 0) as [->|Hk].
    + intros s t c Hs Ht X Y. apply not_false_is_true. intros P.
      specialize (M (s - i0) (t - j0) 1). assert (1 <= 0); [|lia]. apply M. intros u Hu. exists c.
      replace u with 0 by lia. rewrite !Nat.add_0_r. rewrite <- Ha, <- Hb by lia.
      replace (i0 + (s - i0)) with s by lia. replace (j0 + (t - j0)) with t by lia. auto.
    + assert (forall (l : list nat) n t, t < n -> nth_error (firstn n l) t = nth_error l t) as F.
      { clear. intros l n t. revert l n. induction t as [|t IH]; intros [|d l] [|n] H; cbn; try lia; auto. apply IH. lia. }
      cbn [app]. apply gaps_app.
      * destruct (Nat.ltb_spec 0 i); [destruct (Nat.ltb_spec 0 j)|]; cbn [andb].
        -- specialize (IH i0 j0 (firstn i x) (firstn j y)). rewrite !firstn_length_le in IH by lia.
           apply IH; [lia| |]; intros s Hs; rewrite F by exact Hs; [apply Ha|apply Hb]; lia.
        -- intros s t c Hs Ht. lia.
        -- intros s t c Hs Ht. lia.
      * replace (i0 + i + k) with (i0 + (i + k)) by lia. replace (j0 + j + k) with (j0 + (j + k)) by lia.
        destruct (Nat.ltb_spec (i + k) (length x)); [destruct (Nat.ltb_spec (j + k) (length y))|]; cbn [andb].
        -- specialize (IH (i0 + (i + k)) (j0 + (j + k)) (skipn (i + k) x) (skipn (j + k) y)).
           rewrite !skipn_length in IH.
           replace (i0 + (i + k) + (length x - (i + k))) with (i0 + length x) in IH by lia.
           replace (j0 + (j + k) + (length y - (j + k))) with (j0 + length y) in IH by lia.
           apply IH; [lia| |]; intros s Hs; rewrite nth_skip, <- Nat.add_assoc; [apply Ha|apply Hb]; lia.
        -- intros s t c Hs Ht. lia.
        -- intros s t c Hs Ht. lia.
Qed.

End Blocks.

Lemma popular_iff b c : popular b c = true <-> frequent b c.
Proof.
  assert (forall l, occurrences c l = count_occ Nat.eq_dec l c) as O.
  { intros l. induction l as [|d l IH]; [reflexivity|]. cbn [occurrences count_occ]. rewrite IH.
    destruct (Nat.eqb_spec c d) as [Q|Q], (Nat.eq_dec d c); try congruence; reflexivity. }
  unfold popular, frequent. now rewrite andb_true_iff, Nat.leb_le, Nat.ltb_lt, O.
Qed.

(** *** Theorems *)

(** The blocks mark equal parts, in the same order in both texts, without overlap; and between
    two that follow each other the texts have no character in common that is not frequent. *)
Theorem C111_blocks a b :
  (forall m, In m (matching_blocks a b) -> matched a b m)
  /\ in_order 0 0 (matching_blocks a b)
  /\ gaps (frequent b) a b 0 0 (matching_blocks a b) (length a) (length b).
Proof.
  split; [|split].
  - intros m H. destruct (blocks_matched _ _ _ _ _ _ _ H) as (i & j & k & -> & M). exact M.
  - apply blocks_order.
  - pose proof (blocks_gaps (popular b) a b (length a) 0 0 a b (le_n _)) as G. cbn [Nat.add] in G.
    specialize (G (fun _ _ => eq_refl) (fun _ _ => eq_refl)).
    eapply gaps_impl; [|exact G]. intros c. apply popular_iff.
Qed.

(** Some block is at least as long as every common substring without frequent characters. *)
Theorem C111_longest a b i j w :
  at_ a i w -> at_ b j w -> (forall c, In c w -> ~ frequent b c) -> w <> [] ->
  exists m, In m (matching_blocks a b) /\ length w <= snd m.
Proof.
  intros A B N NE. unfold matching_blocks.
  pose proof (at_bound _ _ _ A) as La. destruct (length a) as [|n] eqn:En.
  { destruct w; [congruence|]. cbn in La. lia. }
  cbn [blocks]. destruct (find_longest_match (popular b) a b) as [[i1 j1] k1] eqn:E.
  destruct (find_spec _ _ _ _ _ _ E) as (_ & M & _).
  assert (length w <= k1) as H.
  { apply (M i j). intros t Ht. destruct (nth_error w t) as [c|] eqn:Ec; [|apply nth_error_None in Ec; lia].
    exists c. split; [exact (at_nth _ _ _ _ _ A Ec)|]. split; [exact (at_nth _ _ _ _ _ B Ec)|].
    apply not_true_is_false. intros P. apply popular_iff in P. exact (N c (nth_error_In _ _ Ec) P). }
  exists (i1, j1, k1). destruct (Nat.eqb_spec k1 0) as [->|_]; [destruct w; [congruence|cbn in H; lia]|].
  split; [|exact H]. apply in_or_app. right. left. reflexivity.
Qed.

(** The score is twice the length of a common subsequence by the sum of the lengths. *)
Theorem C111_score a b :
  exists s, subseq s a /\ subseq s b /\
    (sequence_matcher_similarity a b * inject_Z (Z.of_nat (length a + length b)) == inject_Z (Z.of_nat (2 * length s)))%Q
    /\ length s = fold_right (fun m n => snd m + n) 0 (matching_blocks a b).
Proof.
  destruct (blocks_common (popular b) (length a) 0 0 a b) as (s & S1 & S2 & S3). exists s.
  split; [exact S1|]. split; [exact S2|]. split; [|exact S3].
  unfold sequence_matcher_similarity, matching_blocks. rewrite <- S3.
  destruct (length a + length b) as [|n] eqn:E.
  - apply subseq_length in S1. replace (length s) with 0 by lia. reflexivity.
  - unfold Qeq, Qmult, inject_Z. cbn [Qnum Qden]. rewrite Pos.mul_1_r. lia.
Qed.

(** It is between 0 and 1, and 1 exactly for equal texts. *)
Theorem C111_range a b :
  (0 <= sequence_matcher_similarity a b <= 1)%Q
  /\ ((sequence_matcher_similarity a b == 1)%Q <-> a = b).
Proof.
  destruct (blocks_common (popular b) (length a) 0 0 a b) as (s & S1 & S2 & S3).
  pose proof (subseq_length _ _ S1) as L1. pose proof (subseq_length _ _ S2) as L2.
  unfold sequence_matcher_similarity, matching_blocks. rewrite <- S3.
  destruct (length a + length b) as [|n] eqn:E.
  - assert (length a = 0 /\ length b = 0) as [A B] by lia. destruct a, b; try discriminate.
    repeat split; discriminate || reflexivity.
  - repeat split.
    + unfold Qle. cbn [Qnum Qden]. lia.
    + unfold Qle. cbn [Qnum Qden]. lia.
    + unfold Qeq. cbn [Qnum Qden]. intros H. assert (length s = length a /\ length s = length b) as [A B] by lia.
      rewrite <- (subseq_all _ _ S1 A). exact (subseq_all _ _ S2 B).
    + intros <-. assert (length s = length a) as ->; [|unfold Qeq; cbn [Qnum Qden]; lia].
      rewrite S3. destruct (length a) as [|m] eqn:En; [lia|]. cbn [blocks].
      destruct (find_longest_match (popular a) a a) as [[i1 j1] k1] eqn:F.
      destruct (find_spec _ _ _ _ _ _ F) as (_ & _ & Q). injection (Q eq_refl) as -> -> ->.
      rewrite En.
      rewrite ?Nat.ltb_irrefl. cbn. lia.
Qed.

(** For a second text of less than 200 characters, the score is 0 exactly if the texts have no
    character in common (and are not both empty). *)
Theorem C111_zero a b : length b < 200 -> a ++ b <> [] ->
  ((sequence_matcher_similarity a b == 0)%Q <-> forall c, ~ (In c a /\ In c b)).
Proof.
  intros Hb NE. unfold sequence_matcher_similarity.
  destruct (length a + length b) as [|n] eqn:E; [destruct a, b; cbn in E; try discriminate; destruct NE; reflexivity|].
  assert ((Qmake (Z.of_nat (2 * size (matching_blocks a b))) (Pos.of_succ_nat n) == 0)%Q <-> size (matching_blocks a b) = 0) as Z.
  { unfold Qeq. cbn [Qnum Qden]. lia. }
  rewrite Z. split.
  - intros S c [A B]. apply in_split in A. destruct A as (p & q & ->). apply in_split in B. destruct B as (p' & q' & ->).
    destruct (C111_longest (p ++ c :: q) (p' ++ c :: q') (length p) (length p') [c]) as (m & Hm & L1).
    + now exists p, q.
    + now exists p', q'.
    + intros d _ [H _]. lia.
    + discriminate.
    + apply in_split in Hm. destruct Hm as (l & r & Em). rewrite Em, size_app in S. cbn in S, L1. lia.
  - intros H. destruct (matching_blocks a b) as [|[[i j] k] r] eqn:Em; [reflexivity|].
    destruct (C111_blocks a b) as (M & O & _). rewrite Em in M, O. destruct O as (_ & _ & O & _).
    destruct (M (i, j, k) (or_introl eq_refl)) as (w & W1 & (p & q & A & _) & (p' & q' & B & _)).
    destruct w as [|c w]; [cbn in W1; lia|]. destruct (H c). subst a b.
    split; apply in_or_app; right; left; reflexivity.
Qed.

Print Assumptions C111_blocks.
Print Assumptions C111_longest.
Print Assumptions C111_score.
Print Assumptions C111_range.
Print Assumptions C111_zero.

(** *** Examples and refutations: tide and diet *)

Definition tide := [116; 105; 100; 101].
Definition diet := [100; 105; 101; 116].

Example C111_ex :
  matching_blocks tide diet = [(0, 3, 1)]
  /\ matching_blocks diet tide = [(0, 2, 1); (2, 3, 1)]
  /\ matching_blocks [1; 2; 3; 4; 9; 5; 6] [0; 2; 3; 4; 5; 6; 7] = [(1, 1, 3); (5, 4, 2)]
  /\ (sequence_matcher_similarity diet tide == 1 # 2)%Q.
Proof. repeat split. Qed.

(** The score depends on the order of the arguments. *)
Theorem C111_symmetric_refuted :
  ~ (forall a b, sequence_matcher_similarity a b == sequence_matcher_similarity b a)%Q.
Proof. intros H. specialize (H tide diet). discriminate. Qed.
Print Assumptions C111_symmetric_refuted.

(** The common subsequence need not be a longest one. *)
Theorem C111_optimal_refuted :
  ~ (forall a b s, subseq s a -> subseq s b -> length s <= size (matching_blocks a b)).
Proof.
  intros H. specialize (H tide diet [105; 101]). cbn in H. assert (2 <= 1); [|lia].
  apply H; unfold tide, diet; repeat constructor.
Qed.
Print Assumptions C111_optimal_refuted.

(** A long text and the same text after one more character can score 0. *)
Theorem C111_insertion_refuted :
  ~ (forall a c, a <> [] -> (0 < sequence_matcher_similarity (c :: a) a)%Q).
Proof.
  intros H. specialize (H (repeat 97 200) 120). assert (Qlt 0 0); [|discriminate].
  refine (Qlt_le_trans _ _ _ (H _) _); [discriminate|]. vm_compute. discriminate.
Qed.
Print Assumptions C111_insertion_refuted.
