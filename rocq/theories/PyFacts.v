(** Facts about the Python built-ins of PyBase. *)
From Coq Require Import List ZArith Bool Lia Arith Permutation Sorted.
From Verif Require Import PyBase.
Import ListNotations.
Require Import ZifyBool.

Section ListFacts.
  Context {A : Type} `{EqB A}.

  Lemma eqb_refl : forall x : A, eqb x x = true.
  Proof. intros x; destruct (eqb_spec x x); congruence. Qed.

  Lemma eqb_eq : forall x y : A, eqb x y = true <-> x = y.
  Proof. intros x y; destruct (eqb_spec x y); split; congruence. Qed.

  Lemma eqb_neq : forall x y : A, eqb x y = false <-> x <> y.
  Proof. intros x y; destruct (eqb_spec x y); split; congruence. Qed.

  Lemma eq_dec_EqB : forall x y : A, {x = y} + {x <> y}.
  Proof. intros x y; destruct (eqb_spec x y); [left|right]; assumption. Qed.

  Lemma memb_In : forall (x : A) l, memb x l = true <-> In x l.
  Proof.
    intros x l; unfold memb; rewrite existsb_exists; split.
    - intros [y [Hy He]]; apply eqb_eq in He; subst; exact Hy.
    - intros Hx; exists x; split; [exact Hx | apply eqb_refl].
  Qed.

  Lemma memb_notIn : forall (x : A) l, memb x l = false <-> ~ In x l.
  Proof.
    intros x l; rewrite <- memb_In; destruct (memb x l); split; congruence.
  Qed.

  Lemma remove_first_Some : forall (x : A) l l',
    remove_first x l = Some l' ->
    exists l1 l2, l = l1 ++ x :: l2 /\ l' = l1 ++ l2 /\ ~ In x l1.
  Proof.
    induction l as [|y t IH]; simpl; intros l' Hr; [discriminate|].
    destruct (eqb_spec x y) as [He|He].
    - inversion Hr; subst. exists [], l'; simpl; auto.
    - destruct (remove_first x t) as [t'|] eqn:Ht; [|discriminate].
      inversion Hr; subst.
      destruct (IH t' eq_refl) as [l1 [l2 [H1 [H2 H3]]]]; subst.
      exists (y :: l1), l2; simpl; repeat split; auto.
      intros [Hc|Hc]; [congruence | contradiction].
  Qed.

  Lemma remove_first_None : forall (x : A) l,
    remove_first x l = None <-> ~ In x l.
  Proof.
    induction l as [|y t IH]; simpl; [tauto|].
    destruct (eqb_spec x y) as [He|He].
    - split; [discriminate | intros Hn; exfalso; apply Hn; left; congruence].
    - destruct (remove_first x t) as [t'|].
      + split; [discriminate|]. intros Hn. exfalso.
        destruct IH as [_ IH]. assert (Hx : ~ In x t) by tauto.
        specialize (IH Hx); discriminate.
      + split; [|reflexivity]. intros _ [Hc|Hc]; [congruence|].
        apply (proj1 IH eq_refl); exact Hc.
  Qed.

  Lemma remove_first_split : forall (x : A) l1 l2,
    ~ In x l1 -> remove_first x (l1 ++ x :: l2) = Some (l1 ++ l2).
  Proof.
    induction l1 as [|y t IH]; simpl; intros l2 Hn.
    - rewrite eqb_refl; reflexivity.
    - destruct (eqb_spec x y) as [He|He]; [exfalso; apply Hn; left; congruence|].
      rewrite IH; [reflexivity | tauto].
  Qed.

  Lemma remove_first_Perm : forall (x : A) l l',
    remove_first x l = Some l' -> Permutation l (x :: l').
  Proof.
    intros x l l' Hr; apply remove_first_Some in Hr.
    destruct Hr as [l1 [l2 [H1 [H2 _]]]]; subst.
    symmetry; apply Permutation_middle.
  Qed.

  Lemma remove_first_NoDup : forall (x : A) l l',
    NoDup l -> remove_first x l = Some l' -> NoDup l' /\ ~ In x l'.
  Proof.
    intros x l l' Hn Hr. apply remove_first_Perm in Hr.
    pose proof (Permutation_NoDup Hr Hn) as Hd. inversion Hd; auto.
  Qed.

  Lemma remove_first_In : forall (x : A) l l',
    remove_first x l = Some l' -> forall y, In y l' -> In y l.
  Proof.
    intros x l l' Hr y Hy. apply remove_first_Perm in Hr.
    apply (Permutation_in y (Permutation_sym Hr)). right; exact Hy.
  Qed.

  Lemma index_of_Some : forall (x : A) l k,
    index_of x l = Some k ->
    nth_error l k = Some x /\ forall j, j < k -> nth_error l j <> Some x.
  Proof.
    induction l as [|y t IH]; simpl; intros k Hk; [discriminate|].
    destruct (eqb_spec x y) as [He|He].
    - inversion Hk; subst; split; [reflexivity | intros j Hj; lia].
    - destruct (index_of x t) as [n|]; [|discriminate].
      inversion Hk; subst. destruct (IH n eq_refl) as [H1 H2].
      split; [exact H1|]. intros [|j] Hj; simpl; [congruence | apply H2; lia].
  Qed.

  Lemma index_of_None : forall (x : A) l, index_of x l = None <-> ~ In x l.
  Proof.
    induction l as [|y t IH]; simpl; [tauto|].
    destruct (eqb_spec x y) as [He|He].
    - split; [discriminate | intros Hn; exfalso; apply Hn; left; congruence].
    - destruct (index_of x t) as [n|].
      + split; [discriminate|]. intros Hn; exfalso.
        destruct IH as [_ IH]. assert (Hx : ~ In x t) by tauto.
        specialize (IH Hx); discriminate.
      + split; [|reflexivity]. intros _ [Hc|Hc]; [congruence|].
        apply (proj1 IH eq_refl); exact Hc.
  Qed.

  Lemma count_In : forall (x : A) l, In x l <-> count x l > 0.
  Proof.
    induction l as [|y t IH]; simpl; [split; [tauto|lia]|].
    destruct (eqb_spec x y) as [He|He].
    - split; [lia | left; congruence].
    - rewrite <- (Nat.add_0_l (count x t)) in IH. simpl in *. rewrite <- IH.
      split; [intros [Hc|Hc]; [congruence|exact Hc] | tauto].
  Qed.

  Lemma count_app : forall (x : A) l1 l2, count x (l1 ++ l2) = count x l1 + count x l2.
  Proof.
    induction l1 as [|y t IH]; simpl; intros l2; [reflexivity|].
    rewrite IH; lia.
  Qed.

  Lemma count_Permutation : forall (x : A) l l', Permutation l l' -> count x l = count x l'.
  Proof.
    intros x l l' Hp; induction Hp; simpl; try lia; congruence.
  Qed.

  Lemma NoDup_count : forall l : list A, NoDup l <-> forall x, count x l <= 1.
  Proof.
    induction l as [|y t IH]; simpl.
    - split; [intros; lia | constructor].
    - split.
      + intros Hn x. inversion Hn as [|? ? Hy Ht]; subst.
        destruct (eqb_spec x y) as [He|He].
        * subst. destruct (Nat.eq_dec (count y t) 0) as [H0|H0]; [lia|].
          exfalso; apply Hy; apply count_In; lia.
        * rewrite IH in Ht. specialize (Ht x); lia.
      + intros Hc. constructor.
        * intros Hy. apply count_In in Hy. specialize (Hc y).
          rewrite eqb_refl in Hc; lia.
        * apply IH. intros x. specialize (Hc x). lia.
  Qed.

  Lemma count_0 : forall (x : A) l, ~ In x l -> count x l = 0.
  Proof.
    intros x l Hn. destruct (count x l) eqn:Hc; [reflexivity|].
    exfalso; apply Hn; apply count_In; lia.
  Qed.
End ListFacts.

Section IndexFacts.
  Context {A : Type}.

  Lemma norm_index_Some : forall n i k,
    norm_index n i = Some k <->
    k < n /\ (i = Z.of_nat k \/ i = Z.of_nat k - Z.of_nat n)%Z.
  Proof.
    intros n i k; unfold norm_index.
    destruct (i <? 0)%Z eqn:Hi;
      match goal with |- context [if ?b then _ else _] => destruct b eqn:Hb end;
      split; intros Hx; try discriminate; try (inversion Hx; subst; lia);
      try (exfalso; lia); f_equal; lia.
  Qed.

  Lemma norm_index_None : forall n i,
    norm_index n i = None <-> (i < - Z.of_nat n \/ Z.of_nat n <= i)%Z.
  Proof.
    intros n i; unfold norm_index.
    destruct (i <? 0)%Z eqn:Hi;
      match goal with |- context [if ?b then _ else _] => destruct b eqn:Hb end;
      split; intros Hx; try discriminate; try reflexivity; try lia.
  Qed.

  Lemma clamp_index_le : forall n i, clamp_index n i <= n.
  Proof. intros n i; unfold clamp_index; destruct (i <? 0)%Z; lia. Qed.

  Lemma clamp_index_nat : forall n k, k <= n -> clamp_index n (Z.of_nat k) = k.
  Proof. intros n k Hk; unfold clamp_index; destruct (Z.of_nat k <? 0)%Z eqn:E; lia. Qed.

  Lemma insert_at_app : forall k (x : A) l, k <= length l ->
    insert_at k x l = firstn k l ++ x :: skipn k l.
  Proof.
    induction k as [|k IH]; intros x l Hk; [reflexivity|].
    destruct l as [|y t]; simpl in *; [lia|]. rewrite IH; [reflexivity|lia].
  Qed.

  Lemma delete_at_app : forall k (l : list A),
    delete_at k l = firstn k l ++ skipn (S k) l.
  Proof.
    induction k as [|k IH]; intros [|y t]; try reflexivity.
    change (y :: delete_at k t = y :: (firstn k t ++ skipn (S k) t)).
    rewrite IH; reflexivity.
  Qed.

  Lemma replace_at_app : forall k (x : A) l, k < length l ->
    replace_at k x l = firstn k l ++ x :: skipn (S k) l.
  Proof.
    induction k as [|k IH]; intros x [|y t] Hk; simpl in Hk; try lia; [reflexivity|].
    change (y :: replace_at k x t = y :: (firstn k t ++ x :: skipn (S k) t)).
    rewrite IH; [reflexivity|lia].
  Qed.

  Lemma length_replace_at : forall k (x : A) l, length (replace_at k x l) = length l.
  Proof. induction k as [|k IH]; intros x [|y t]; simpl; auto. Qed.

  Lemma length_insert_at : forall k (x : A) l, length (insert_at k x l) = S (length l).
  Proof. induction k as [|k IH]; intros x [|y t]; simpl; auto. Qed.

  Lemma length_delete_at : forall k (l : list A),
    k < length l -> length (delete_at k l) = length l - 1.
  Proof.
    induction k as [|k IH]; intros [|y t] Hk; simpl in *; try lia.
    rewrite IH; lia.
  Qed.

  Lemma nth_error_replace_at : forall k (x : A) l j, k < length l ->
    nth_error (replace_at k x l) j = if j =? k then Some x else nth_error l j.
  Proof.
    induction k as [|k IH]; intros x [|y t] j Hk; simpl in *; try lia.
    - destruct j; reflexivity.
    - destruct j as [|j]; [reflexivity|]. simpl. apply IH; lia.
  Qed.

  Lemma split_nth : forall (l : list A) k x,
    nth_error l k = Some x ->
    l = firstn k l ++ x :: skipn (S k) l /\ length (firstn k l) = k.
  Proof.
    induction l as [|y t IH]; intros [|k] x Hk; simpl in Hk; try discriminate.
    - inversion Hk; subst; split; reflexivity.
    - destruct (IH k x Hk) as [H1 H2]. split.
      + change (y :: t = y :: (firstn k t ++ x :: skipn (S k) t)).
        f_equal; exact H1.
      + simpl; f_equal; exact H2.
  Qed.

  Lemma delete_at_Perm : forall (l : list A) k x,
    nth_error l k = Some x -> Permutation l (x :: delete_at k l).
  Proof.
    intros l k x Hk. rewrite delete_at_app.
    destruct (split_nth l k x Hk) as [H1 _]. rewrite H1 at 1.
    symmetry; apply Permutation_middle.
  Qed.

  Lemma insert_at_Perm : forall k (x : A) l, Permutation (insert_at k x l) (x :: l).
  Proof.
    induction k as [|k IH]; intros x [|y t]; simpl; try reflexivity.
    rewrite IH; apply perm_swap.
  Qed.

  Lemma nth_error_lt : forall (l : list A) k, k < length l -> exists x, nth_error l k = Some x.
  Proof.
    intros l k Hk. destruct (nth_error l k) as [x|] eqn:E; [eauto|].
    apply nth_error_None in E; lia.
  Qed.
End IndexFacts.

Section DictFacts.
  Context {K : Type} `{EqB K} {V : Type}.
  Implicit Types d : dict K V.

  Lemma dget_In : forall k v d, dget k d = Some v -> In (k, v) d.
  Proof.
    induction d as [|[k' v'] t IH]; simpl; [discriminate|].
    destruct (eqb_spec k k') as [He|He]; intros Hg.
    - inversion Hg; subst; auto.
    - right; auto.
  Qed.

  Lemma dget_None : forall k d, dget k d = None <-> ~ In k (dkeys d).
  Proof.
    induction d as [|[k' v'] t IH]; simpl; [tauto|].
    destruct (eqb_spec k k') as [He|He].
    - split; [discriminate | intros Hn; exfalso; apply Hn; left; congruence].
    - rewrite IH. split; [intros Hn [Hc|Hc]; [congruence|tauto] | tauto].
  Qed.

  Lemma dget_Some_key : forall k v d, dget k d = Some v -> In k (dkeys d).
  Proof.
    intros k v d Hg. apply dget_In in Hg. apply in_map with (f := fst) in Hg. exact Hg.
  Qed.

  Lemma key_dget : forall k d, In k (dkeys d) -> exists v, dget k d = Some v.
  Proof.
    intros k d Hk. destruct (dget k d) as [v|] eqn:E; [eauto|].
    apply dget_None in E; contradiction.
  Qed.

  Lemma In_dget : forall k v d, NoDup (dkeys d) -> In (k, v) d -> dget k d = Some v.
  Proof.
    induction d as [|[k' v'] t IH]; simpl; intros Hn Hi; [contradiction|].
    inversion Hn as [|? ? Hk Ht]; subst. destruct Hi as [Hi|Hi].
    - inversion Hi; subst. rewrite eqb_refl; reflexivity.
    - destruct (eqb_spec k k') as [He|He]; [|auto].
      subst. exfalso; apply Hk. apply in_map with (f := fst) in Hi. exact Hi.
  Qed.

  Lemma dmem_true : forall k d, dmem k d = true <-> In k (dkeys d).
  Proof.
    intros k d; unfold dmem. destruct (dget k d) as [v|] eqn:E.
    - split; [intros _; eapply dget_Some_key; eauto | reflexivity].
    - apply dget_None in E. split; [discriminate | contradiction].
  Qed.

  Lemma dmem_false : forall k d, dmem k d = false <-> ~ In k (dkeys d).
  Proof. intros k d; rewrite <- dmem_true; destruct (dmem k d); split; congruence. Qed.

  Lemma dget_dset_same : forall k v d, dget k (dset k v d) = Some v.
  Proof.
    induction d as [|[k' v'] t IH]; simpl.
    - rewrite eqb_refl; reflexivity.
    - destruct (eqb_spec k k') as [He|He]; simpl.
      + subst; rewrite eqb_refl; reflexivity.
      + apply eqb_neq in He; rewrite He; exact IH.
  Qed.

  Lemma dget_dset_other : forall k k' v d, k <> k' -> dget k (dset k' v d) = dget k d.
  Proof.
    induction d as [|[k0 v0] t IH]; simpl; intros Hn.
    - apply eqb_neq in Hn; rewrite Hn; reflexivity.
    - destruct (eqb_spec k' k0) as [He|He]; simpl.
      + subst. apply eqb_neq in Hn; rewrite Hn; reflexivity.
      + destruct (eqb k k0); auto.
  Qed.

  Lemma dget_dset : forall k k' v d,
    dget k (dset k' v d) = if eqb k k' then Some v else dget k d.
  Proof.
    intros k k' v d; destruct (eqb_spec k k') as [He|He].
    - subst; apply dget_dset_same.
    - apply dget_dset_other; exact He.
  Qed.

  Lemma dkeys_dset_in : forall k v d, In k (dkeys d) -> dkeys (dset k v d) = dkeys d.
  Proof.
    induction d as [|[k' v'] t IH]; simpl; intros Hi; [contradiction|].
    destruct (eqb_spec k k') as [He|He]; simpl; [reflexivity|].
    f_equal; apply IH. destruct Hi as [Hi|Hi]; [congruence|exact Hi].
  Qed.

  Lemma dkeys_dset_notin : forall k v d, ~ In k (dkeys d) -> dset k v d = d ++ [(k, v)].
  Proof.
    induction d as [|[k' v'] t IH]; simpl; intros Hi; [reflexivity|].
    destruct (eqb_spec k k') as [He|He]; [exfalso; apply Hi; left; congruence|].
    f_equal; apply IH; tauto.
  Qed.

  Lemma dkeys_app : forall d1 d2, dkeys (d1 ++ d2) = dkeys d1 ++ dkeys d2.
  Proof. intros; unfold dkeys; apply map_app. Qed.

  Lemma dkeys_dset_NoDup : forall k v d, NoDup (dkeys d) -> NoDup (dkeys (dset k v d)).
  Proof.
    intros k v d Hn. destruct (dmem k d) eqn:E.
    - apply dmem_true in E. rewrite dkeys_dset_in; auto.
    - apply dmem_false in E. rewrite dkeys_dset_notin; auto.
      rewrite dkeys_app; simpl.
      apply (Permutation_NoDup (Permutation_cons_append (dkeys d) k)).
      constructor; auto.
  Qed.

  Lemma In_dkeys_dset : forall k k' v d,
    In k (dkeys (dset k' v d)) <-> k = k' \/ In k (dkeys d).
  Proof.
    intros k k' v d. rewrite <- !dmem_true. unfold dmem. rewrite dget_dset.
    destruct (eqb_spec k k') as [He|He]; split; intros Hx; auto.
    destruct Hx as [Hx|Hx]; [congruence|exact Hx].
  Qed.

  Lemma dget_ddel_same : forall k d, NoDup (dkeys d) -> dget k (ddel k d) = None.
  Proof.
    induction d as [|[k' v'] t IH]; simpl; intros Hn; [reflexivity|].
    inversion Hn as [|? ? Hk Ht]; subst.
    destruct (eqb_spec k k') as [He|He]; simpl.
    - subst. apply dget_None; exact Hk.
    - apply eqb_neq in He; rewrite He; auto.
  Qed.

  Lemma dget_ddel_other : forall k k' d, k <> k' -> dget k (ddel k' d) = dget k d.
  Proof.
    induction d as [|[k0 v0] t IH]; simpl; intros Hn; [reflexivity|].
    destruct (eqb_spec k' k0) as [He|He]; simpl.
    - subst. apply eqb_neq in Hn; rewrite Hn; reflexivity.
    - destruct (eqb k k0); auto.
  Qed.

  Lemma dkeys_ddel : forall k d,
    dkeys (ddel k d) = match remove_first k (dkeys d) with
                       | Some l => l | None => dkeys d end.
  Proof.
    induction d as [|[k' v'] t IH]; simpl; [reflexivity|].
    destruct (eqb k k'); simpl; [reflexivity|].
    rewrite IH. destruct (remove_first k (dkeys t)); reflexivity.
  Qed.

  Lemma ddel_notin : forall k d, ~ In k (dkeys d) -> ddel k d = d.
  Proof.
    induction d as [|[k' v'] t IH]; simpl; intros Hn; [reflexivity|].
    destruct (eqb_spec k k') as [He|He]; [exfalso; apply Hn; left; congruence|].
    f_equal; apply IH; tauto.
  Qed.

  Lemma In_ddel : forall k k' (v : V) d, In (k, v) (ddel k' d) -> In (k, v) d.
  Proof.
    induction d as [|[k0 v0] t IH]; simpl; intros Hi; [contradiction|].
    destruct (eqb k' k0); simpl in Hi; tauto.
  Qed.

  Lemma dkeys_ddel_NoDup : forall k d, NoDup (dkeys d) -> NoDup (dkeys (ddel k d)).
  Proof.
    intros k d Hn. rewrite dkeys_ddel.
    destruct (remove_first k (dkeys d)) as [l|] eqn:E; [|exact Hn].
    apply remove_first_NoDup in E; tauto.
  Qed.

  Lemma In_dkeys_ddel : forall k k' d, NoDup (dkeys d) ->
    (In k (dkeys (ddel k' d)) <-> In k (dkeys d) /\ k <> k').
  Proof.
    intros k k' d Hn. rewrite <- !dmem_true. unfold dmem.
    destruct (eqb_spec k k') as [He|He].
    - subst. rewrite dget_ddel_same by exact Hn. split; [discriminate | tauto].
    - rewrite dget_ddel_other by exact He. tauto.
  Qed.

  Lemma In_dset : forall k v k' v' d, In (k, v) (dset k' v' d) ->
    (k = k' /\ v = v') \/ In (k, v) d.
  Proof.
    induction d as [|[k0 v0] t IH]; simpl; intros Hi.
    - destruct Hi as [Hi|[]]. inversion Hi; auto.
    - destruct (eqb_spec k' k0) as [He|He]; simpl in Hi.
      + destruct Hi as [Hi|Hi]; [inversion Hi; subst; auto | auto].
      + destruct Hi as [Hi|Hi]; [auto|]. destruct (IH Hi); auto.
  Qed.
End DictFacts.

(** Generic facts about histories. *)
Lemma fold_left_inv : forall {S O : Type} (P : S -> Prop) (f : S -> O -> S),
  (forall s o, P s -> P (f s o)) ->
  forall ops s, P s -> P (fold_left f ops s).
Proof.
  intros S O P f Hstep ops; induction ops as [|o t IH]; simpl; auto.
Qed.

Lemma fold_left_inv_In : forall {S O : Type} (P : S -> Prop) (f : S -> O -> S) ops s,
  (forall s o, In o ops -> P s -> P (f s o)) -> P s -> P (fold_left f ops s).
Proof.
  intros S O P f ops; induction ops as [|o t IH]; simpl; intros s Hs Hp; auto.
Qed.
