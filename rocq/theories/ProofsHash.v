(** Proofs about structural hashing. *)
From Coq Require Import String Ascii.
From Coq Require Import List Bool Arith ZArith Lia Permutation Sorted DecimalString DecimalZ.
From Coq Require DecimalFacts.
From Verif Require Import ModelHash SpecHash.
Import ListNotations.
Local Open Scope string_scope.
Local Open Scope nat_scope.
Local Open Scope list_scope.

(** *** Texts are totally ordered. *)
Lemma str_lt_irrefl a : str_lt a a = false.
Proof. induction a as [|c a IH]; simpl; auto. rewrite Nat.ltb_irrefl, Nat.eqb_refl. auto. Qed.
Lemma nat_of_ascii_inj x y : nat_of_ascii x = nat_of_ascii y -> x = y.
Proof. intros H. rewrite <- (ascii_nat_embedding x), <- (ascii_nat_embedding y). congruence. Qed.
Lemma str_lt_trans a b c : str_lt a b = true -> str_lt b c = true -> str_lt a c = true.
Proof.
  revert b c. induction a as [|x a IH]; intros [|y b] [|z c]; simpl; try discriminate; auto.
  destruct (Nat.ltb_spec (nat_of_ascii x) (nat_of_ascii y)), (Nat.ltb_spec (nat_of_ascii y) (nat_of_ascii z)),
    (Nat.ltb_spec (nat_of_ascii x) (nat_of_ascii z)); auto; try lia;
  destruct (Nat.eqb_spec (nat_of_ascii x) (nat_of_ascii y)), (Nat.eqb_spec (nat_of_ascii y) (nat_of_ascii z)),
    (Nat.eqb_spec (nat_of_ascii x) (nat_of_ascii z)); try discriminate; try lia.
  apply IH.
Qed.
Lemma str_lt_total a b : a <> b -> str_lt a b = true \/ str_lt b a = true.
Proof.
  revert b. induction a as [|x a IH]; intros [|y b] N; simpl; auto.
  destruct (Nat.ltb_spec (nat_of_ascii x) (nat_of_ascii y)); auto.
  destruct (Nat.ltb_spec (nat_of_ascii y) (nat_of_ascii x)); auto.
  assert (E : nat_of_ascii x = nat_of_ascii y) by lia. rewrite E, Nat.eqb_refl. apply nat_of_ascii_inj in E. subst.
  apply IH. congruence.
Qed.
Definition pair_ltb (a b : string * string) : bool :=
  if str_lt (fst a) (fst b) then true else if (fst a =? fst b)%string then str_lt (snd a) (snd b) else false.
Lemma pair_ltb_irrefl a : pair_ltb a a = false.
Proof. unfold pair_ltb. rewrite str_lt_irrefl, String.eqb_refl. apply str_lt_irrefl. Qed.
Lemma pair_ltb_trans a b c : pair_ltb a b = true -> pair_ltb b c = true -> pair_ltb a c = true.
Proof.
  unfold pair_ltb. destruct (str_lt (fst a) (fst b)) eqn:A, (str_lt (fst b) (fst c)) eqn:B; intros H J.
  - now rewrite (str_lt_trans _ _ _ A B).
  - destruct (String.eqb_spec (fst b) (fst c)); [|discriminate]. rewrite <- e, A. auto.
  - destruct (String.eqb_spec (fst a) (fst b)); [|discriminate]. rewrite e, B. auto.
  - destruct (String.eqb_spec (fst a) (fst b)); [|discriminate]. destruct (String.eqb_spec (fst b) (fst c)); [|discriminate].
    rewrite e, e0, str_lt_irrefl, String.eqb_refl. eapply str_lt_trans; eauto.
Qed.
Lemma pair_ltb_total a b : a <> b -> pair_ltb a b = true \/ pair_ltb b a = true.
Proof.
  unfold pair_ltb. intros N. destruct (String.string_dec (fst a) (fst b)) as [E|E].
  - rewrite E, str_lt_irrefl, String.eqb_refl. apply str_lt_total. destruct a, b; simpl in *; congruence.
  - destruct (str_lt_total _ _ E) as [->| ->]; auto.
Qed.

(** *** Sorting. *)
Section Sort.
Context {K B : Type}.
Variable lt : K -> K -> option bool.
Variable slt : K -> K -> bool.
Variable P : K -> Prop.
Hypothesis LT : forall a b, P a -> P b -> lt a b = Some (slt a b).
Hypothesis TR : forall a b c, slt a b = true -> slt b c = true -> slt a c = true.
Hypothesis IR : forall a, slt a a = false.
Definition R (x y : K * B) : Prop := slt (fst x) (fst y) = true.
Definition C (x y : K * B) : Prop := R x y \/ R y x.

Lemma insert_ok x l : P (fst x) -> Forall (fun y => P (fst y)) l -> Forall (C x) l -> StronglySorted R l ->
  exists l', insert lt x l = Some l' /\ Permutation (x :: l) l' /\ StronglySorted R l'.
Proof.
  intros PX. induction l as [|y l IH]; intros PL CL SL; cbn [insert].
  - exists [x]. repeat split; auto. repeat constructor.
  - inversion PL; subst. inversion CL; subst. apply StronglySorted_inv in SL. destruct SL as (SL & FL).
    rewrite LT by auto. destruct (slt (fst x) (fst y)) eqn:E.
    + exists (x :: y :: l). split; auto. split; auto. constructor; [constructor; auto|]. constructor; auto.
      eapply Forall_impl; [|exact FL]. intros z Z. unfold R in *. eapply TR; eauto.
    + destruct IH as (l' & -> & PE & S'); auto. exists (y :: l'). split; auto. split; [rewrite perm_swap; auto|]. constructor; auto.
      rewrite <- PE. constructor; auto. destruct H3 as [H3|H3]; auto. unfold R in H3. congruence.
Qed.
Lemma sort_from_ok l : forall acc, Forall (fun y => P (fst y)) (l ++ acc) -> ForallOrdPairs C (l ++ acc) -> StronglySorted R acc ->
  exists l', sort_from lt l acc = Some l' /\ Permutation (l ++ acc) l' /\ StronglySorted R l'.
Proof.
  induction l as [|x l IH]; intros acc PL CL SA; cbn [sort_from].
  - exists acc. auto.
  - simpl in PL, CL. inversion PL; subst. inversion CL; subst.
    assert (PA : Forall (fun y => P (fst y)) acc) by (apply Forall_app in H2; tauto).
    assert (CA : Forall (C x) acc) by (apply Forall_app in H3; tauto).
    destruct (insert_ok x acc) as (acc' & -> & PE & SA'); auto.
    destruct (IH acc') as (l' & E & PL' & S'); auto.
    + rewrite <- PE. change (x :: acc) with ([x] ++ acc). apply Forall_app in H2. apply Forall_app. split; [tauto|]. constructor; tauto.
    + assert (PM : Permutation (x :: l ++ acc) (l ++ acc')) by (rewrite <- PE; apply Permutation_middle).
      assert (SY : forall a b, C a b -> C b a) by (unfold C; tauto).
      clear - CL PM SY. revert CL. induction PM; intros F; auto.
      * inversion F; subst. constructor; auto. now rewrite <- PM.
      * inversion F; subst. inversion H2; subst. inversion H1; subst. constructor; [constructor; auto|constructor; auto].
    + exists l'. split; auto. split; auto. rewrite <- PL'. rewrite <- PE. change (x :: l ++ acc) with ((x :: l) ++ acc). apply Permutation_middle.
Qed.
Lemma sorted_ok l : Forall (fun y => P (fst y)) l -> ForallOrdPairs C l ->
  exists l', sorted lt l = Some l' /\ Permutation l l' /\ StronglySorted R l'.
Proof.
  intros PL CL. destruct (sort_from_ok l []) as (l' & E & PE & S); rewrite ?app_nil_r; auto; [constructor|].
  rewrite app_nil_r in PE. eauto.
Qed.
Lemma sorted_unique (a : list (K * B)) : forall b, StronglySorted R a -> StronglySorted R b -> Permutation a b -> a = b.
Proof.
  induction a as [|x a IH]; intros b SA SB PE.
  - apply Permutation_nil in PE. auto.
  - destruct b as [|y b]; [apply Permutation_sym, Permutation_nil in PE; discriminate|].
    apply StronglySorted_inv in SA, SB. destruct SA as (SA & FA), SB as (SB & FB).
    assert (E : x = y).
    { assert (IX : In x (y :: b)) by (rewrite <- PE; simpl; auto). assert (IY : In y (x :: a)) by (rewrite PE; simpl; auto).
      destruct IX as [->|IX]; auto. destruct IY as [->|IY]; auto. rewrite Forall_forall in FA, FB. apply FB in IX. apply FA in IY. unfold R in *.
      pose proof (TR _ _ _ IX IY) as H. rewrite IR in H. discriminate. }
    subst. f_equal. apply IH; auto. eapply Permutation_cons_inv; eauto.
Qed.
Lemma pairs_perm l l' : Permutation l l' -> ForallOrdPairs C l -> ForallOrdPairs C l'.
Proof.
  assert (SY : forall a b, C a b -> C b a) by (unfold C; tauto).
  induction 1; intros F; auto.
  - inversion F; subst. constructor; auto. now rewrite <- H.
  - inversion F; subst. inversion H2; subst. inversion H1; subst. constructor; [constructor; auto|constructor; auto].
Qed.
Lemma sorted_perm l l' : Forall (fun y => P (fst y)) l -> ForallOrdPairs C l -> Permutation l l' -> sorted lt l = sorted lt l'.
Proof.
  intros PL CL PE. destruct (sorted_ok l PL CL) as (a & -> & PA & SA).
  destruct (sorted_ok l') as (b & -> & PB & SB); [now rewrite <- PE|eapply pairs_perm; eauto|].
  f_equal. apply sorted_unique; auto. rewrite <- PA, PE. auto.
Qed.
End Sort.

(** *** Primitives. *)
Lemma int_str_inj a b : NilZero.string_of_int (Z.to_int a) = NilZero.string_of_int (Z.to_int b) -> a = b.
Proof.
  intros H. assert (E : forall z, NilZero.int_of_string (NilZero.string_of_int (Z.to_int z)) = Some (Z.to_int z)).
  { intros z. apply NilZero.isi; rewrite <- (DecimalZ.of_to z), DecimalZ.to_of; destruct (Z.to_int z) as [d|d]; simpl; try discriminate.
    - intros [= N]. now apply DecimalFacts.unorm_nonnil in N.
    - destruct (Decimal.nzhead d) eqn:Q; try discriminate; simpl; intros N; injection N; discriminate.
    - destruct (Decimal.nzhead d) eqn:Q; try discriminate. }
  pose proof (E a) as Ea. rewrite H, E in Ea. injection Ea as Ea. symmetry. now apply DecimalZ.to_int_inj.
Qed.
Lemma prim_key_inj obj_str p q : texts obj_str -> ~ nan p -> ~ nan q ->
  prim_type p = prim_type q -> hv_str obj_str (HPrim p) = hv_str obj_str (HPrim q) -> p = q.
Proof.
  intros TX NP NQ. destruct p as [|[]|z|f|s], q as [|[]|z'|f'|s']; simpl; intros T S; try discriminate; auto; try congruence.
  - f_equal. now apply int_str_inj.
  - f_equal. now apply TX.
Qed.
Lemma num_rep_inj a b : num_rep a = num_rep b -> a = b.
Proof. destruct a as [m [|k]| |], b as [n [|j]| |]; simpl; intros E; try discriminate; congruence. Qed.
Lemma prim_rep_num p n : num p = Some n -> prim_rep p = num_rep n.
Proof. destruct p; simpl; intros [= <-]; reflexivity. Qed.
Lemma prim_eq_rep p q : prim_eq p q <-> prim_rep p = prim_rep q.
Proof.
  assert (D : forall x : prim, (exists n, num x = Some n) \/ num x = None) by (intros x; destruct (num x); eauto).
  assert (NR : forall n, num_rep n <> RNone /\ forall s, num_rep n <> RStr s) by (intros [m [|k]| |]; split; discriminate).
  assert (E : prim_eq p q <-> match num p, num q with Some a, Some b => a = b | None, None => p = q | _, _ => False end).
  { destruct p, q; cbn [prim_eq num]; split; try tauto; try discriminate; try congruence;
      try (intros (x & [= <-] & [= <-]); reflexivity); try (intros (x & A & B); discriminate); intros H; eexists; split; f_equal; auto. }
  rewrite E. destruct (D p) as [(a & A)|A], (D q) as [(b & B)|B]; rewrite A, B.
  - rewrite (prim_rep_num p a A), (prim_rep_num q b B). split; [congruence|]. apply num_rep_inj.
  - rewrite (prim_rep_num p a A). split; [tauto|]. destruct (NR a) as (N1 & N2). destruct q; try discriminate; simpl; intros H; [now apply N1|now apply N2 in H].
  - rewrite (prim_rep_num q b B). split; [tauto|]. destruct (NR b) as (N1 & N2). destruct p; try discriminate; simpl; intros H; symmetry in H; [now apply N1|now apply N2 in H].
  - destruct p, q; try discriminate; simpl; split; congruence.
Qed.
(** Numbers are ordered. *)
Lemma pow2 k : (0 < 2 ^ Z.of_nat k)%Z.
Proof. apply Z.pow_pos_nonneg; lia. Qed.
Lemma number_trans a b c : ModelHash.num_lt a b = true -> ModelHash.num_lt b c = true -> ModelHash.num_lt a c = true.
Proof.
  destruct a as [m k|[]|], b as [n j|[]|], c as [o l|[]|]; simpl; try discriminate; auto.
  rewrite !Z.ltb_lt. pose proof (pow2 k). pose proof (pow2 j). pose proof (pow2 l).
  set (x := (2 ^ Z.of_nat k)%Z) in *. set (y := (2 ^ Z.of_nat j)%Z) in *. set (z := (2 ^ Z.of_nat l)%Z) in *. intros A B.
  apply (Zmult_lt_compat_r _ _ z) in A; auto. apply (Zmult_lt_compat_r _ _ x) in B; auto.
  apply (Z.mul_lt_mono_pos_r y); auto. nia.
Qed.
Lemma number_irrefl a : ModelHash.num_lt a a = false.
Proof. destruct a as [m k|[]|]; simpl; auto. apply Z.ltb_irrefl. Qed.
(** [num] gives lowest terms, so that equal values are equal numbers. *)
Lemma num_total p q a b : num p = Some a -> num q = Some b -> ~ nan p -> ~ nan q -> a <> b ->
  ModelHash.num_lt a b = true \/ ModelHash.num_lt b a = true.
Proof.
  intros A B NP NQ N.
  assert (LO : forall p m k, num p = Some (NFin m k) -> k = 0 \/ Z.odd m = true).
  { intros [| | |[| |x y| |]|] m k; cbn [num flt_num]; intros E; try discriminate E; try (left; congruence). right. apply Z.odd_spec. exists x. congruence. }
  assert (NN : forall p i, ~ nan p -> num p <> Some (NNaN i)).
  { intros [| | |[| | | |j]|] i X; simpl; try discriminate. exfalso. apply X. exists j. reflexivity. }
  destruct a as [m k|[]|i]; [|clear LO|clear LO|now apply NN in A].
  - destruct b as [n j|[]|i]; simpl; auto; [|now apply NN in B].
    rewrite !Z.ltb_lt. destruct (Z.lt_trichotomy (m * 2 ^ Z.of_nat j) (n * 2 ^ Z.of_nat k)) as [|[E|]]; auto. exfalso. apply N.
    apply LO in A, B. clear - A B E.
    assert (G : forall m n k j, (k = 0 \/ Z.odd m = true) -> (m * 2 ^ Z.of_nat j = n * 2 ^ Z.of_nat k)%Z -> k <= j).
    { clear. intros m n k j [->|O] E; [lia|]. destruct (Nat.le_gt_cases k j) as [|L]; auto. exfalso.
      replace (Z.of_nat k) with (Z.of_nat j + (1 + Z.of_nat (k - j - 1)))%Z in E by lia. rewrite Z.pow_add_r, Z.pow_add_r in E by lia.
      assert (E' : (m = 2 * (n * 2 ^ Z.of_nat (k - j - 1)))%Z).
      { apply (Z.mul_cancel_r _ _ (2 ^ Z.of_nat j)); [pose proof (pow2 j); lia|]. rewrite E. ring. }
      rewrite E', Z.odd_mul in O. discriminate. }
    pose proof (G m n k j A E). pose proof (G n m j k B (eq_sym E)). assert (k = j) by lia. subst j.
    apply Z.mul_cancel_r in E; [congruence|]. pose proof (pow2 k). lia.
  - destruct b as [n j|[]|i]; simpl; auto; try (now apply NN in B); congruence.
  - destruct b as [n j|[]|i]; simpl; auto; try (now apply NN in B); congruence.
Qed.
Lemma prim_eq_sym p q : prim_eq p q -> prim_eq q p.
Proof. rewrite !prim_eq_rep. auto. Qed.
Lemma prim_eq_refl p : prim_eq p p.
Proof. now apply prim_eq_rep. Qed.

Section Hash.
Variable obj_str obj_type : hv -> string.
Variable obj_lt : hv -> hv -> option bool.
Hypothesis TX : texts obj_str.
Notation represent := (represent obj_str obj_type obj_lt).
Notation hv_lt := (hv_lt obj_lt).
Notation sort_set := (sort_set obj_str obj_type obj_lt).

Definition is_num (x : hv) : Prop := exists p z, x = HPrim p /\ num p = Some z.
Definition is_str (x : hv) : Prop := exists s, x = HPrim (PStr s).
Definition is_prim (x : hv) : Prop := exists p, x = HPrim p.
Definition num_ltb (x y : hv) : bool :=
  match x, y with HPrim p, HPrim q => match num p, num q with Some a, Some b => ModelHash.num_lt a b | _, _ => false end | _, _ => false end.
Definition strv_ltb (x y : hv) : bool := match x, y with HPrim (PStr s), HPrim (PStr t) => str_lt s t | _, _ => false end.
Lemma num_hv_lt x y : is_num x -> is_num y -> hv_lt x y = Some (num_ltb x y).
Proof.
  intros (p & z & -> & E) (q & w & -> & F). unfold hv_lt, num_ltb. unfold prim_lt. rewrite E, F. destruct p; try discriminate; destruct q; try discriminate; auto.
Qed.
Lemma strv_lt x y : is_str x -> is_str y -> hv_lt x y = Some (strv_ltb x y).
Proof. intros (s & ->) (t & ->). reflexivity. Qed.
Lemma num_trans x y z : num_ltb x y = true -> num_ltb y z = true -> num_ltb x z = true.
Proof.
  unfold num_ltb. destruct x as [p| | | | | | |], y as [q| | | | | | |], z as [r| | | | | | |]; try discriminate.
  destruct (num p), (num q), (num r); try discriminate. apply number_trans.
Qed.
Lemma num_irrefl x : num_ltb x x = false.
Proof. unfold num_ltb. destruct x as [p| | | | | | |]; auto. destruct (num p); auto. apply number_irrefl. Qed.
Lemma strv_trans x y z : strv_ltb x y = true -> strv_ltb y z = true -> strv_ltb x z = true.
Proof.
  unfold strv_ltb. destruct x as [[]| | | | | | |], y as [[]| | | | | | |], z as [[]| | | | | | |]; try discriminate. apply str_lt_trans.
Qed.
Lemma strv_irrefl x : strv_ltb x x = false.
Proof. unfold strv_ltb. destruct x as [[]| | | | | | |]; auto. apply str_lt_irrefl. Qed.

(** Mixed elements cannot be sorted directly. *)
Lemma lt_class x y : is_prim x -> is_prim y -> hv_lt x y <> None -> (is_num x /\ is_num y) \/ (is_str x /\ is_str y).
Proof.
  intros (p & ->) (q & ->) H. cbn [ModelHash.hv_lt] in H. unfold prim_lt in H. unfold is_num, is_str.
  destruct p, q; cbn [num] in *; try congruence; eauto 10; left; split; eexists; eexists; split; reflexivity.
Qed.
Lemma class_lt_none x y : is_prim x -> is_prim y -> ~ ((is_num x /\ is_num y) \/ (is_str x /\ is_str y)) -> hv_lt x y = None.
Proof. intros X Y N. destruct (hv_lt x y) eqn:E; auto. exfalso. apply N, lt_class; auto. congruence. Qed.
Lemma num_not_str x : is_num x -> is_str x -> False.
Proof. intros (p & z & -> & E) (s & [= ->]). discriminate. Qed.

Lemma insert_perm {B} x (l l' : list (hv * B)) : insert hv_lt x l = Some l' -> Permutation (x :: l) l'.
Proof.
  revert l'. induction l as [|y l IH]; cbn [insert]; intros l' H; [injection H as <-; auto|].
  destruct (hv_lt (fst x) (fst y)) as [[]|]; try discriminate; [injection H as <-; auto|].
  destruct (insert hv_lt x l) as [m|]; [|discriminate]. injection H as <-. rewrite perm_swap. constructor. auto.
Qed.
Lemma sort_from_class {B} (Q : hv -> Prop) (l : list (hv * B)) :
  (forall x y, is_prim x -> is_prim y -> Q y -> hv_lt x y <> None -> Q x) ->
  forall acc r, acc <> [] -> Forall (fun e => is_prim (fst e)) (l ++ acc) -> Forall (fun e => Q (fst e)) acc ->
  sort_from hv_lt l acc = Some r -> Forall (fun e => Q (fst e)) (l ++ acc).
Proof.
  intros QC. induction l as [|x l IH]; intros acc r NE PL QA E; cbn [sort_from] in E; auto.
  destruct (insert hv_lt x acc) as [acc'|] eqn:I; [|discriminate]. simpl in PL. inversion PL; subst.
  assert (QX : Q (fst x)).
  { destruct acc as [|y acc]; [congruence|]. cbn [insert] in I. inversion QA; subst. apply Forall_app in H2. destruct H2 as (_ & H2). inversion H2; subst.
    eapply QC; [auto|exact H5|exact H3|]. intros N. rewrite N in I. discriminate. }
  apply insert_perm in I. specialize (IH acc' r).
  assert (F : Forall (fun e => Q (fst e)) (l ++ acc')).
  { apply IH; auto.
    - intros ->. apply Permutation_sym, Permutation_nil in I. discriminate.
    - rewrite <- I. apply Forall_app in H2. apply Forall_app. split; [tauto|]. constructor; tauto.
    - rewrite <- I. constructor; auto. }
  rewrite <- I in F. apply Forall_app in F. destruct F as (F1 & F2). inversion F2; subst. simpl. constructor; auto. apply Forall_app. auto.
Qed.
Lemma sorted_some {B} (l : list (hv * B)) r : Forall (fun e => is_prim (fst e)) l -> sorted hv_lt l = Some r ->
  length l <= 1 \/ Forall (fun e => is_num (fst e)) l \/ Forall (fun e => is_str (fst e)) l.
Proof.
  intros PL E. destruct l as [|x [|y l]]; [simpl; auto|simpl; auto|]. right. unfold sorted in E. cbn [sort_from insert] in E.
  inversion PL; subst. inversion H2; subst. destruct (hv_lt (fst y) (fst x)) as [b|] eqn:L; [|discriminate].
  assert (CL : (is_num (fst y) /\ is_num (fst x)) \/ (is_str (fst y) /\ is_str (fst x))) by (apply lt_class; auto; congruence).
  assert (PR : exists acc, Permutation [x; y] acc /\ sort_from hv_lt l acc = Some r).
  { destruct b; eexists; (split; [|exact E]); auto using perm_swap. }
  destruct PR as (acc & PE & E'). assert (NE : acc <> []) by (intros ->; apply Permutation_sym, Permutation_nil in PE; discriminate).
  assert (PA : Forall (fun e => is_prim (fst e)) (l ++ acc)) by (apply Forall_app; split; auto; rewrite <- PE; auto).
  destruct CL as [(Y & X)|(Y & X)]; [left|right].
  - assert (G : Forall (fun e => is_num (fst e)) (l ++ acc)).
    { eapply (sort_from_class is_num); eauto; [|rewrite <- PE; auto].
      intros a b0 A0 B0 N0 L0. destruct (lt_class a b0 A0 B0 L0) as [(? & ?)|(? & ?)]; auto. exfalso. eapply num_not_str; eauto. }
    apply Forall_app in G. constructor; auto. constructor; tauto.
  - assert (G : Forall (fun e => is_str (fst e)) (l ++ acc)).
    { eapply (sort_from_class is_str); eauto; [|rewrite <- PE; auto].
      intros a b0 A0 B0 N0 L0. destruct (lt_class a b0 A0 B0 L0) as [(? & ?)|(? & ?)]; auto. exfalso. eapply num_not_str; eauto. }
    apply Forall_app in G. constructor; auto. constructor; tauto.
Qed.

Lemma pairs_impl {A} (Q Q' : A -> A -> Prop) (S : A -> Prop) l : (forall a b, S a -> S b -> Q a b -> Q' a b) -> Forall S l -> ForallOrdPairs Q l -> ForallOrdPairs Q' l.
Proof.
  intros I F H. induction H; constructor.
  - inversion F; subst. rewrite Forall_forall in *. intros y Y. apply I; auto.
  - apply IHForallOrdPairs. now inversion F.
Qed.
Lemma pairs_map {A A'} (f : A -> A') (Q : A' -> A' -> Prop) l : ForallOrdPairs Q (map f l) <-> ForallOrdPairs (fun a b => Q (f a) (f b)) l.
Proof.
  induction l as [|x l IH]; simpl; split; intros H; try constructor; inversion H; subst.
  - rewrite Forall_map in H2. auto.
  - apply IH; auto.
  - rewrite Forall_map. auto.
  - apply IH; auto.
Qed.

(** The order in which the elements of a set of primitives are taken does not depend on
    the iteration order. *)
Definition setof (f : prim -> rep) (ps : list prim) : list (hv * rep) := map (fun p => (HPrim p, f p)) ps.
Lemma setof_prim f ps : Forall (fun e => is_prim (fst e)) (setof f ps).
Proof. apply Forall_map, Forall_forall. intros p _. eexists. reflexivity. Qed.
Lemma sort_set_ok f ps : distinct ps ->
  exists qs, Permutation ps qs /\ sort_set (setof f ps) = map f qs /\
    forall ps', Permutation ps ps' -> sort_set (setof f ps') = map f qs.
Proof.
  intros (D & NAN).
  assert (SY : forall ps', Permutation ps ps' -> Permutation (setof f ps) (setof f ps')) by (intros; now apply Permutation_map).
  assert (UN : forall l', Permutation (setof f ps) l' -> exists qs, Permutation ps qs /\ l' = setof f qs).
  { intros l' PE. apply Permutation_sym in PE. apply Permutation_map_inv in PE. destruct PE as (qs & -> & PE). exists qs. auto. }
  assert (MS : forall qs, map snd (setof f qs) = map f qs) by (intros; unfold setof; rewrite map_map; auto).
  assert (NUM : Forall (fun e => is_num (fst e)) (setof f ps) -> ForallOrdPairs (C (B := rep) num_ltb) (setof f ps)).
  { intros F. unfold setof. rewrite pairs_map. unfold setof in F; rewrite Forall_map in F.
    eapply (pairs_impl _ _ (fun p => is_num (HPrim p) /\ ~ nan p)); [|apply Forall_and; [exact F|exact NAN]|exact D].
    intros p q ((p' & z & [= <-] & E) & NP) ((q' & w & [= <-] & E') & NQ') NQ. unfold C, R, num_ltb. cbn [fst]. rewrite E, E'.
    apply (num_total p q); auto. intros ->. apply NQ, prim_eq_rep. now rewrite (prim_rep_num p w E), (prim_rep_num q w E'). }
  assert (STR : Forall (fun e => is_str (fst e)) (setof f ps) -> ForallOrdPairs (C (B := rep) strv_ltb) (setof f ps)).
  { intros F. unfold setof. rewrite pairs_map. eapply (pairs_impl _ _ (fun p => is_str (HPrim p))); [|unfold setof in F; rewrite Forall_map in F; exact F|exact D].
    intros p q (s & [= ->]) (t & [= ->]) NQ. unfold C, R, strv_ltb. cbn [fst]. apply str_lt_total. auto. }
  assert (KEY : ForallOrdPairs (C (B := rep) pair_ltb) (map (fun e => ((hv_type obj_type (fst e), hv_str obj_str (fst e)), snd e)) (setof f ps))).
  { unfold setof. rewrite map_map. rewrite pairs_map. cbn [fst snd]. eapply (pairs_impl _ _ (fun p => ~ nan p)); [|exact NAN|exact D].
    intros p q NP NQ' NQ. unfold C, R. cbn [fst]. apply pair_ltb_total. intros E. injection E as T S. apply NQ. rewrite (prim_key_inj obj_str p q TX NP NQ' T S). apply prim_eq_refl. }
  assert (ALT : forall ps', Permutation ps ps' -> sorted hv_lt (setof f ps') = sorted hv_lt (setof f ps)).
  { intros ps' PE. destruct (sorted hv_lt (setof f ps)) as [r|] eqn:E.
    - destruct (sorted_some _ _ (setof_prim f ps) E) as [L|[F|F]].
      + unfold setof in L. rewrite map_length in L. destruct ps as [|p [|p2 ps2]]; [|  |simpl in L; lia].
        * apply Permutation_nil in PE. subst. exact E.
        * apply Permutation_length_1_inv in PE. subst. exact E.
      + rewrite <- E. symmetry. apply (sorted_perm hv_lt num_ltb is_num num_hv_lt num_trans num_irrefl); auto.
      + rewrite <- E. symmetry. apply (sorted_perm hv_lt strv_ltb is_str strv_lt strv_trans strv_irrefl); auto.
    - destruct (sorted hv_lt (setof f ps')) as [r|] eqn:E'; auto. exfalso.
      destruct (sorted_some _ _ (setof_prim f ps') E') as [L|[F|F]].
      + unfold setof in L. rewrite map_length, <- (Permutation_length PE) in L. destruct ps as [|p [|p2 ps2]]; [discriminate|discriminate|simpl in L; lia].
      + rewrite <- (SY _ PE) in F. destruct (sorted_ok hv_lt num_ltb is_num num_hv_lt num_trans (setof f ps) F (NUM F)) as (x & X & _). congruence.
      + rewrite <- (SY _ PE) in F. destruct (sorted_ok hv_lt strv_ltb is_str strv_lt strv_trans (setof f ps) F (STR F)) as (x & X & _). congruence. }
  assert (R1 : exists qs, Permutation ps qs /\ sort_set (setof f ps) = map f qs).
  { unfold sort_set. destruct (sorted hv_lt (setof f ps)) as [r|] eqn:E.
    - assert (PR : Permutation (setof f ps) r).
      { destruct (sorted_some _ _ (setof_prim f ps) E) as [L|[F|F]].
        + unfold setof in L, E. rewrite map_length in L. destruct ps as [|p [|p2 ps2]]; [injection E as <-; auto|injection E as <-; auto|simpl in L; lia].
        + destruct (sorted_ok hv_lt num_ltb is_num num_hv_lt num_trans (setof f ps) F (NUM F)) as (x & X & PX & _). congruence.
        + destruct (sorted_ok hv_lt strv_ltb is_str strv_lt strv_trans (setof f ps) F (STR F)) as (x & X & PX & _). congruence. }
      destruct (UN r PR) as (qs & PQ & ->). exists qs. auto.
    - destruct (sorted_ok pair_lt pair_ltb (fun _ => True) (fun _ _ _ _ => eq_refl) pair_ltb_trans _ (proj2 (Forall_forall _ _) (fun _ _ => I)) KEY) as (x & -> & PX & _).
      unfold setof in PX. rewrite map_map in PX. cbn [fst snd] in PX. apply Permutation_sym in PX. apply Permutation_map_inv in PX. destruct PX as (qs & -> & PQ).
      exists qs. split; auto. rewrite map_map. auto. }
  destruct R1 as (qs & PQ & EQ). exists qs. split; auto. split; auto. intros ps' PE. rewrite <- EQ. unfold sort_set. rewrite (ALT ps' PE).
  destruct (sorted hv_lt (setof f ps)); auto.
  rewrite (sorted_perm pair_lt pair_ltb (fun _ => True) (fun _ _ _ _ => eq_refl) pair_ltb_trans pair_ltb_irrefl
     (map (fun e => ((hv_type obj_type (fst e), hv_str obj_str (fst e)), snd e)) (setof f ps)) (map (fun e => ((hv_type obj_type (fst e), hv_str obj_str (fst e)), snd e)) (setof f ps'))); auto.
  - now apply Forall_forall.
  - now apply Permutation_map, SY.
Qed.

(** Items of a dict. *)
Lemma str_key_ok {B} (l : list (string * B)) : NoDup (map fst l) ->
  exists r, str_key l = Some r /\ Permutation l r /\ forall l', Permutation l l' -> str_key l' = Some r.
Proof.
  intros N. assert (CL : ForallOrdPairs (C (B := B) str_lt) l).
  { assert (H : ForallOrdPairs (fun a b : string => a <> b) (map fst l)).
    { induction (map fst l) as [|x m IH]; constructor; apply NoDup_cons_iff in N; destruct N as (N1 & N2); auto. apply Forall_forall. intros y Y ->. auto. }
    rewrite pairs_map in H. eapply (pairs_impl _ _ (fun _ => True)); [|apply Forall_forall; auto|exact H]. intros a b _ _ NE. now apply str_lt_total. }
  destruct (sorted_ok (fun a b => Some (str_lt a b)) str_lt (fun _ => True) (fun _ _ _ _ => eq_refl) str_lt_trans l) as (r & E & PE & _); auto; [now apply Forall_forall|].
  exists r. split; auto. split; auto. intros l' PL. rewrite <- E. symmetry.
  apply (sorted_perm (fun a b => Some (str_lt a b)) str_lt (fun _ => True)); auto; [apply str_lt_trans|apply str_lt_irrefl|now apply Forall_forall].
Qed.

(** *** Induction. *)
Fixpoint hdepth (x : hv) : nat :=
  match x with
  | HDict kv => S (list_max (map (fun e => hdepth (snd e)) kv))
  | HList l | HTuple l => S (list_max (map hdepth l))
  | HModel d => S (hdepth d)
  | _ => 0
  end.
Definition sub (y x : hv) : Prop :=
  match x with
  | HDict kv => In y (map snd kv)
  | HList l | HTuple l => In y l
  | HModel d => y = d
  | _ => False
  end.
Lemma list_max_in y l : In y l -> y <= list_max l.
Proof. induction l as [|x l IH]; simpl; [contradiction|]. intros [->|I]; [lia|]. apply IH in I. lia. Qed.
Lemma hv_ind' (Q : hv -> Prop) : (forall x, (forall y, sub y x -> Q y) -> Q x) -> forall x, Q x.
Proof.
  intros H. assert (G : forall n x, hdepth x < n -> Q x).
  { induction n as [|n IH]; intros x L; [lia|]. apply H. intros y S. apply IH. destruct x; simpl in *; try contradiction.
    - apply in_map_iff in S. destruct S as (e & <- & S). assert (X : In (hdepth (snd e)) (map (fun e => hdepth (snd e)) kv)) by (apply in_map_iff; eauto). apply list_max_in in X. lia.
    - apply (in_map hdepth), list_max_in in S. lia.
    - apply (in_map hdepth), list_max_in in S. lia.
    - subst. lia. }
  intros x. apply (G (S (hdepth x))). lia.
Qed.

Lemma set_rep l ps : prims l ps -> map (fun e => (e, represent e)) l = setof prim_rep ps.
Proof. intros ->. unfold setof. rewrite map_map. auto. Qed.

Lemma same_represent a : forall b, good obj_str a -> same a b -> represent a = represent b.
Proof.
  induction a as [a IH] using hv_ind'. intros b G SM. destruct SM as [p q E|kv kv' kv2 PE F|l l' F|l l' F|l l' PE|l l' PE|d d' SD|t]; cbn [ModelHash.represent]; auto.
  - now apply prim_eq_rep.
  - inversion G as [|kv0 ps PK ND FG| | | | | |]; subst. cbn zeta.
    set (items := fun kv : list (hv * hv) => map (fun e => (hv_str obj_str (fst e), represent (snd e))) kv).
    assert (EQ : items kv2 = items kv').
    { assert (SUB : forall e, In e kv2 -> sub (snd e) (HDict kv) /\ good obj_str (snd e)).
      { intros e I. assert (J : In (snd e) (map snd kv)) by (apply in_map; rewrite PE; auto). split; auto. rewrite Forall_forall in FG. auto. }
      clear - IH F SUB. induction F as [|e e' k k' (E1 & E2) F IHF]; auto. cbn [items map]. rewrite E1. rewrite (IH (snd e)) with (b := snd e'); auto.
      + f_equal. apply IHF. intros; apply SUB; simpl; auto.
      + apply SUB; simpl; auto.
      + apply SUB; simpl; auto. }
    assert (N : NoDup (map fst (items kv))).
    { unfold items. rewrite map_map. cbn [fst]. rewrite <- (map_map fst (hv_str obj_str)). exact ND. }
    destruct (str_key_ok (items kv) N) as (r & E & _ & U). fold (items kv) (items kv'). rewrite E. rewrite <- EQ, (U (items kv2)); auto. now apply Permutation_map.
  - inversion G as [| |l0 FG| | | | |]; subst. do 4 f_equal. rewrite Forall_forall in FG.
    assert (IH' : forall y, In y l -> forall b, same y b -> represent y = represent b) by (intros; apply IH; auto). clear - F IH'.
    induction F; auto. cbn [map]. rewrite (IH' x) with (b := y) by (simpl; auto). f_equal. apply IHF. intros; apply IH'; simpl; auto.
  - inversion G as [| | |l0 FG| | | |]; subst. do 4 f_equal. rewrite Forall_forall in FG.
    assert (IH' : forall y, In y l -> forall b, same y b -> represent y = represent b) by (intros; apply IH; auto). clear - F IH'.
    induction F; auto. cbn [map]. rewrite (IH' x) with (b := y) by (simpl; auto). f_equal. apply IHF. intros; apply IH'; simpl; auto.
  - inversion G as [| | | |l0 ps PS D| | |]; subst. do 3 f_equal. assert (PS' : exists ps', Permutation ps ps' /\ prims l' ps').
    { unfold prims in *. subst l. apply Permutation_sym in PE. apply Permutation_map_inv in PE. destruct PE as (ps' & -> & PE). eauto. }
    destruct PS' as (ps' & PP & PS'). rewrite (set_rep l ps PS), (set_rep l' ps' PS'). destruct (sort_set_ok prim_rep ps D) as (qs & _ & -> & U). now rewrite U.
  - inversion G as [| | | | |l0 ps PS D| |]; subst. do 3 f_equal. assert (PS' : exists ps', Permutation ps ps' /\ prims l' ps').
    { unfold prims in *. subst l. apply Permutation_sym in PE. apply Permutation_map_inv in PE. destruct PE as (ps' & -> & PE). eauto. }
    destruct PS' as (ps' & PP & PS'). rewrite (set_rep l ps PS), (set_rep l' ps' PS'). destruct (sort_set_ok prim_rep ps D) as (qs & _ & -> & U). now rewrite U.
  - inversion G; subst. do 3 f_equal. apply IH; simpl; auto.
Qed.

Lemma plain_good x : plain x -> good obj_str x.
Proof.
  induction x as [x IH] using hv_ind'. intros P. inversion P as [p|kv ks E N F|l F|l F|l ps PS D B|l ps PS D B|d PD]; subst.
  - constructor.
  - apply (gd_dict obj_str kv (map PStr ks)); [unfold prims; rewrite map_map; auto|rewrite E, map_map; cbn; now rewrite map_id|].
    rewrite Forall_forall in *. intros y Y. apply IH; simpl; auto.
  - constructor. rewrite Forall_forall in *. intros y Y. apply IH; simpl; auto.
  - constructor. rewrite Forall_forall in *. intros y Y. apply IH; simpl; auto.
  - econstructor; eauto.
  - econstructor; eauto.
  - constructor. apply IH; simpl; auto.
Qed.

Lemma plain_rep_inj p q : ~ whole p -> ~ whole q -> prim_rep p = prim_rep q -> p = q.
Proof.
  assert (W1 : forall b, ~ ~ whole (PBool b)) by (intros b H; apply H; left; eauto).
  assert (W2 : forall z, ~ ~ whole (PFloat (FInt z))) by (intros b H; apply H; right; left; eauto).
  assert (W3 : ~ ~ whole (PFloat FNeg0)) by (intros H; apply H; right; right; eauto).
  intros A B E. destruct p as [|x|z|[z| |m k|n|i]|s]; try (exfalso; first [eapply W1; eassumption | eapply W2; eassumption | eapply W3; eassumption]); (destruct q as [|y|w|[w| |m' k'|n'|i']|t]; try (exfalso; first [eapply W1; eassumption | eapply W2; eassumption | eapply W3; eassumption]));
    cbn [prim_rep flt_num num_rep] in E; try discriminate E; auto; try congruence.
  assert (E1 : (2 * m + 1 = 2 * m' + 1)%Z) by congruence. assert (m = m') by lia. congruence.
Qed.
Lemma nonbool_inj ps qs : Forall (fun p => ~ whole p) ps -> Forall (fun p => ~ whole p) qs -> map prim_rep ps = map prim_rep qs -> ps = qs.
Proof.
  revert qs. induction ps as [|p ps IH]; intros [|q qs] A B E; try discriminate; auto. cbn [map] in E. injection E as E1 E2.
  inversion A; subst. inversion B; subst. f_equal; [now apply plain_rep_inj|auto].
Qed.
Lemma set_represent l l' ps ps' : prims l ps -> distinct ps -> Forall (fun p => ~ whole p) ps ->
  prims l' ps' -> distinct ps' -> Forall (fun p => ~ whole p) ps' ->
  sort_set (map (fun e => (e, represent e)) l) = sort_set (map (fun e => (e, represent e)) l') -> Permutation l l'.
Proof.
  intros P D NB P' D' NB' E. rewrite (set_rep l ps P), (set_rep l' ps' P') in E.
  destruct (sort_set_ok prim_rep ps D) as (qs & PQ & E1 & _). destruct (sort_set_ok prim_rep ps' D') as (qs' & PQ' & E2 & _).
  rewrite E1, E2 in E. apply nonbool_inj in E.
  - subst. unfold prims in *. subst. apply Permutation_map. rewrite PQ, PQ'. auto.
  - now rewrite <- PQ.
  - now rewrite <- PQ'.
Qed.

Lemma represent_same a : forall b, plain a -> plain b -> represent a = represent b -> same a b.
Proof.
  induction a as [a IH] using hv_ind'. intros b PA PB E.
  assert (L : forall l l', (forall y, In y l -> sub y a) -> Forall plain l -> Forall plain l' -> map represent l = map represent l' -> Forall2 same l l').
  { induction l as [|x l IHl]; intros [|y l'] SUB F F' M; try discriminate; constructor; inversion F; inversion F'; subst; cbn [map] in M; injection M as M1 M2.
    - apply IH; auto. apply SUB. simpl; auto.
    - apply IHl; auto. intros; apply SUB; simpl; auto. }
  inversion PA as [p|kv ks K N F|l F|l F|l ps PS D B|l ps PS D B|d PD]; subst; inversion PB as [p'|kv' ks' K' N' F'|l' F'|l' F'|l' ps' PS' D' B'|l' ps' PS' D' B'|d' PD']; subst;
    cbn [ModelHash.represent] in E; try discriminate E;
    try (destruct p as [|[]|z|[]|s]; discriminate E); try (destruct p' as [|[]|z|[]|s]; discriminate E).
  - constructor. now apply prim_eq_rep.
  - cbn zeta in E. set (items := fun kv : list (hv * hv) => map (fun e => (hv_str obj_str (fst e), represent (snd e))) kv) in *.
    assert (NK : forall kv ks, map fst kv = map (fun s => HPrim (PStr s)) ks -> map fst (items kv) = ks).
    { intros kv0 ks0 H. unfold items. rewrite map_map. cbn [fst]. rewrite <- (map_map fst (hv_str obj_str)), H, map_map. cbn. apply map_id. }
    assert (N1 : NoDup (map fst (items kv))) by (now rewrite (NK kv ks)). assert (N2 : NoDup (map fst (items kv'))) by (now rewrite (NK kv' ks')).
    destruct (str_key_ok (items kv) N1) as (r & E1 & P1 & _). destruct (str_key_ok (items kv') N2) as (r' & E2 & P2 & _).
    fold (items kv) (items kv') in E. rewrite E1, E2 in E. injection E as E.
    assert (ER : r = r').
    { clear - E. revert r' E. induction r as [|(s, x) r IH]; intros [|(s', x') r'] E; try discriminate; auto. cbn [map fst snd] in E. injection E as E1 E2 E3. subst. f_equal. auto. }
    subst r'. assert (PI : Permutation (items kv') (items kv)) by (rewrite P2, <- P1; auto).
    unfold items in PI. apply Permutation_map_inv in PI. destruct PI as (kv2 & EI & PK). apply (sm_dict kv kv' kv2); auto.
    assert (KS : forall e, In e kv2 -> exists s, fst e = HPrim (PStr s)).
    { intros e I. rewrite <- PK in I. apply (in_map fst) in I. rewrite K in I. apply in_map_iff in I. destruct I as (s & <- & _). eauto. }
    assert (KS' : forall e, In e kv' -> exists s, fst e = HPrim (PStr s)).
    { intros e I. apply (in_map fst) in I. rewrite K' in I. apply in_map_iff in I. destruct I as (s & <- & _). eauto. }
    assert (SUB : forall e, In e kv2 -> sub (snd e) (HDict kv) /\ plain (snd e)).
    { intros e I. rewrite <- PK in I. apply (in_map snd) in I. split; auto. rewrite Forall_forall in F. auto. }
    assert (SUB' : forall e, In e kv' -> plain (snd e)) by (intros e I; apply (in_map snd) in I; rewrite Forall_forall in F'; auto).
    clear - IH EI KS KS' SUB SUB'. revert kv' EI KS' SUB'. induction kv2 as [|e kv2 IHk]; intros [|e' kv'] EI KS' SUB'; try discriminate; constructor.
    + cbn [map] in EI. injection EI as A1 A2 A3. destruct (KS e (or_introl eq_refl)) as (s & Es). destruct (KS' e' (or_introl eq_refl)) as (s' & Es').
      rewrite Es, Es' in A1. cbn in A1. subst. split; [congruence|]. apply IH; [apply SUB; simpl; auto|apply SUB; simpl; auto|apply SUB'; simpl; auto|auto].
    + cbn [map] in EI. injection EI as A1 A2 A3. apply IHk; auto; intros; [apply KS|apply SUB|apply KS'|apply SUB']; simpl; auto.
  - constructor. injection E as E. apply L; auto.
  - constructor. injection E as E. apply L; auto.
  - constructor. injection E as E. eapply set_represent; eauto.
  - constructor. injection E as E. eapply set_represent; eauto.
  - constructor. injection E as E. apply IH; simpl; auto.
Qed.
End Hash.
