(** Property theorems C01-C04 (base/progression.py). *)
From Coq Require Import List ZArith Bool Lia Arith Permutation Sorted.
From Verif Require Import PyBase PyFacts ModelProgression SpecProgression ProofsProgression.
Import ListNotations.

(** C01 *)
Theorem C01_getitem_exact : forall p i x,
  p_getitem p i = Ret x <-> exists k, denotes (length p) i k /\ nth_error p k = Some x.
Proof. exact getitem_ok. Qed.
Print Assumptions C01_getitem_exact.

Theorem C01_getitem_raises_iff_no_position : forall p i e,
  p_getitem p i = Raise e <-> e = IndexError /\ forall k, ~ denotes (length p) i k.
Proof. exact getitem_err. Qed.
Print Assumptions C01_getitem_raises_iff_no_position.

Theorem C01_setitem_exact : forall p i u k, denotes (length p) i k ->
  exists p', p_setitem p i (RId u) = (p', Ret PUnit) /\ length p' = length p /\
    forall j, nth_error p' j = if j =? k then Some u else nth_error p j.
Proof. exact setitem_ok. Qed.
Print Assumptions C01_setitem_exact.

Theorem C01_setitem_raises : forall p i u, (forall k, ~ denotes (length p) i k) ->
  p_setitem p i (RId u) = (p, Raise IndexError).
Proof. exact setitem_err. Qed.
Print Assumptions C01_setitem_raises.

Theorem C01_pop_exact : forall p i d k, denotes (length p) i k ->
  exists x p', p_pop p i d = (p', Ret (PId x)) /\ cut p k x p'.
Proof. exact pop_ok. Qed.
Print Assumptions C01_pop_exact.

Theorem C01_pop_missing : forall p i d, (forall k, ~ denotes (length p) i k) ->
  p_pop p i d = (p, if d then Ret PDefault else Raise NotFoundError).
Proof. exact pop_err. Qed.
Print Assumptions C01_pop_missing.

Theorem C01_popleft_is_pop0 : forall p, p_popleft p = p_pop p 0 false.
Proof. exact popleft_pop0. Qed.
Print Assumptions C01_popleft_is_pop0.

Theorem C01_insert_exact : forall p i u,
  exists k p', p_insert p i (RId u) = (p', Ret PUnit) /\ spliced p k u p' /\
    Z.of_nat k = clampZ 0 (Z.of_nat (length p)) (wrap (Z.of_nat (length p)) i).
Proof. exact insert_ok. Qed.
Print Assumptions C01_insert_exact.

Theorem C01_index_first_occurrence : forall p u k, p_index p (RId u) = Ret k <->
  nth_error p k = Some u /\ forall j, j < k -> nth_error p j <> Some u.
Proof. exact index_ok. Qed.
Print Assumptions C01_index_first_occurrence.

Theorem C01_index_raises_iff_absent : forall p u e,
  p_index p (RId u) = Raise e <-> e = ValueError /\ ~ In u p.
Proof. exact index_err. Qed.
Print Assumptions C01_index_raises_iff_absent.

Theorem C01_slice_exact : forall p a b c s,
  (match c with None => 1%Z | Some s => s end) = s -> s <> 0%Z ->
  exists ps, p_getslice p a b c = Ret (select p ps) /\
    map Some (select p ps) = map (nth_error p) ps /\
    (forall k, In k ps <-> slice_selects (Z.of_nat (length p)) a b s (Z.of_nat k)) /\
    StronglySorted (fun x y => if (0 <? s)%Z then x < y else y < x) ps.
Proof. exact getslice_ok. Qed.
Print Assumptions C01_slice_exact.

Theorem C01_remove_first_occurrence : forall p u, In u p ->
  exists a c, p = a ++ u :: c /\ ~ In u a /\ p_remove p (RId u) = (a ++ c, Ret PUnit).
Proof. exact remove_ok. Qed.
Print Assumptions C01_remove_first_occurrence.

Theorem C01_raising_ops_change_nothing : forall p o e,
  (forall rs, o <> PoExtend rs) -> snd (p_step p o) = Raise e -> fst (p_step p o) = p.
Proof. exact step_raise_unchanged. Qed.
Print Assumptions C01_raising_ops_change_nothing.

Theorem C01_append_exact : forall p r u, coerce_id r = Ret u ->
  p_append p r = (p ++ [u], Ret PUnit).
Proof. exact append_ok. Qed.
Print Assumptions C01_append_exact.

Theorem C01_extend_exact : forall rs us p, coerce_all rs = Ret us ->
  p_extend p rs = (p ++ us, Ret PUnit).
Proof. exact extend_all_ok. Qed.
Print Assumptions C01_extend_exact.

Theorem C01_contains_iff : forall p r,
  p_contains p r = true <-> exists u, coerce_id r = Ret u /\ In u p.
Proof. exact contains_ok. Qed.
Print Assumptions C01_contains_iff.

Theorem C01_clear_empties : forall p, p_clear p = ([], Ret PUnit).
Proof. reflexivity. Qed.
Print Assumptions C01_clear_empties.

(** p[a:b] = values: the addressed segment is replaced, whatever the lengths. *)
Theorem C01_setslice_contiguous : forall p a b c rs us, coerce_all rs = Ret us ->
  c = None \/ c = Some 1%Z ->
  exists lo hi, p_setslice p a b c rs = (firstn lo p ++ us ++ skipn hi p, Ret PUnit) /\
    Z.of_nat lo = bound 0 0 (Z.of_nat (length p)) (Z.of_nat (length p)) a /\
    Z.of_nat hi = Z.max (Z.of_nat lo)
      (bound (Z.of_nat (length p)) 0 (Z.of_nat (length p)) (Z.of_nat (length p)) b).
Proof. exact setslice_contiguous. Qed.
Print Assumptions C01_setslice_contiguous.

(** p[a:b:s] = values with s <> 1: exactly the selected positions are written. *)
Theorem C01_setslice_extended : forall p a b s rs us, coerce_all rs = Ret us ->
  (s <> 0)%Z -> (s <> 1)%Z ->
  exists ps, (forall k, In k ps <-> slice_selects (Z.of_nat (length p)) a b s (Z.of_nat k)) /\
    StronglySorted (fun x y => if (0 <? s)%Z then x < y else y < x) ps /\
    (length ps <> length us -> p_setslice p a b (Some s) rs = (p, Raise ValueError)) /\
    (length ps = length us -> exists p', p_setslice p a b (Some s) rs = (p', Ret PUnit) /\
       length p' = length p /\
       (forall i k, nth_error ps i = Some k -> nth_error p' k = nth_error us i) /\
       (forall k, ~ In k ps -> nth_error p' k = nth_error p k)).
Proof. exact setslice_extended. Qed.
Print Assumptions C01_setslice_extended.

(** A step of 0 is refused, and so is a value that is no id, before anything is written. *)
Theorem C01_setslice_refused : forall p a b c rs,
  (forall us, coerce_all rs = Ret us -> p_setslice p a b (Some 0%Z) rs = (p, Raise ValueError)) /\
  (forall e, coerce_all rs = Raise e -> p_setslice p a b c rs = (p, Raise e)) /\
  p_getslice p a b (Some 0%Z) = Raise ValueError.
Proof.
  intros p a b c rs. unfold p_setslice. split; [|split].
  - intros us ->. reflexivity.
  - intros e ->. reflexivity.
  - reflexivity.
Qed.
Print Assumptions C01_setslice_refused.

Example C01_ex_setslice :
  p_setslice [1; 2; 3; 4; 5] (Some 1%Z) (Some (-1)%Z) None [RId 9] = ([1; 9; 5], Ret PUnit) /\
  p_setslice [1; 2; 3; 4; 5] None None (Some (-2)%Z) [RId 7; RId 8; RId 9] = ([9; 2; 8; 4; 7], Ret PUnit) /\
  p_setslice [1; 2; 3] None None (Some 2%Z) [RId 7] = ([1; 2; 3], Raise ValueError).
Proof. repeat split; reflexivity. Qed.

(** extend is the exception: a bad id in the middle leaves a prefix appended. *)
Theorem C01_extend_not_atomic_refuted : exists p rs e,
  snd (p_step p (PoExtend rs)) = Raise e /\ fst (p_step p (PoExtend rs)) <> p.
Proof. exists [1], [RId 2; RBad], ValueError. split; [reflexivity | discriminate]. Qed.
Print Assumptions C01_extend_not_atomic_refuted.

(** A new progression holds the ids of what it was given, in order and with repetitions; one thing that
    names no id and nothing is created. *)
Definition names (r : idref) (u : uuid) : Prop := r = RElem u \/ r = RId u \/ r = RStr (Some u).
Theorem C01_created : p_create ANone = Ret [] /\ (forall r u, names r u -> p_create (AOne r) = Ret [u]) /\
  (forall rs us, p_create (AMany rs) = Ret us <-> Forall2 names rs us) /\
  (forall rs e, p_create (AMany rs) = Raise e <-> e = ValueError /\ exists r, In r rs /\ forall u, ~ names r u) /\
  p_create ANotIterable = Raise TypeError.
Proof.
  assert (K : forall r, (exists u, coerce_id r = Ret u /\ names r u /\ forall v, names r v -> v = u) \/
                        (coerce_id r = Raise ValueError /\ forall u, ~ names r u)).
  { unfold names. intros [u|u|[u|]|]; [left|left|left|right|right];
      try (exists u; split; [reflexivity|]; split; [tauto|intuition congruence]); (split; [reflexivity|intuition congruence]). }
  assert (C : forall rs us, p_make rs = Ret us <-> Forall2 names rs us).
  { induction rs as [|r t IH]; intros us; cbn [p_make].
    - split; [intros E; injection E as <-; constructor|intros F; inversion F; reflexivity].
    - destruct (K r) as [(u & -> & N & U)|[-> N]]; cbn [bind].
      + split.
        * destruct (p_make t) as [vs|] eqn:E; cbn [bind]; [|discriminate]. intros Q. injection Q as <-. constructor; [exact N|]. apply IH. reflexivity.
        * intros F. inversion F as [|a b c d Hab Hcd]; subst. apply U in Hab as ->. apply IH in Hcd. rewrite Hcd. reflexivity.
      + split; [discriminate|]. intros F. inversion F; subst. exfalso. eapply N; eauto. }
  assert (D : forall rs e, p_make rs = Raise e <-> e = ValueError /\ exists r, In r rs /\ forall u, ~ names r u).
  { induction rs as [|r t IH]; intros e; cbn [p_make]; [split; [discriminate|intros (_ & x & [] & _)]|].
    destruct (K r) as [(u & -> & N & U)|[-> N]]; cbn [bind].
    - destruct (p_make t) as [vs|x]; cbn [bind].
      + split; [discriminate|]. intros (-> & y & [<-|I] & Ny); [destruct (Ny _ N)|].
        assert (Ret vs = Raise ValueError) as Q by (apply IH; eauto). discriminate.
      + split.
        * intros Q. injection Q as <-. destruct (proj1 (IH x) eq_refl) as (-> & y & I & Ny). split; [reflexivity|]. exists y. split; [right; exact I|exact Ny].
        * intros (-> & y & [<-|I] & Ny); [destruct (Ny _ N)|]. apply IH. eauto.
    - split; [intros Q; injection Q as <-; split; [reflexivity|exists r; split; [left; reflexivity|exact N]]|intros (-> & _); reflexivity]. }
  split; [reflexivity|]. split.
  { intros r u N. apply C. constructor; [exact N|constructor]. }
  split; [exact C|]. split; [exact D|reflexivity].
Qed.
Print Assumptions C01_created.
Example C01_ex_created : p_create (AMany [RId 3; RStr (Some 1); RElem 3]) = Ret [3; 1; 3] /\
  p_create (AMany [RId 3; RBad; RElem 3]) = Raise ValueError /\ p_create (AOne (RStr None)) = Raise ValueError.
Proof. repeat split. Qed.

Example C01_ex_denotes : denotes 3 (-1)%Z 2 /\ p_getitem [7; 8; 9] (-1)%Z = Ret 9.
Proof. split; [unfold denotes; lia | reflexivity]. Qed.
Example C01_ex_out : (forall k, ~ denotes 3 (-4)%Z k) /\ p_pop [7; 8; 9] (-4)%Z true = ([7; 8; 9], Ret PDefault).
Proof. split; [unfold denotes; lia | reflexivity]. Qed.
Example C01_ex_insert : p_insert [7; 8; 9] (-1)%Z (RId 5) = ([7; 8; 5; 9], Ret PUnit).
Proof. reflexivity. Qed.
Example C01_ex_slice : p_getslice [1; 2; 3; 4; 5] None None (Some (-2)%Z) = Ret [5; 3; 1].
Proof. reflexivity. Qed.

(** C02 *)
Theorem C02_move_exact : forall p i j f t,
  denotes (length p) i f -> denotes_gap (length p) j t ->
  (exists a x b c, p = a ++ x :: b ++ c /\ length a = f /\ t = f + 1 + length b /\
     p_move p i j = (a ++ b ++ x :: c, Ret PUnit)) \/
  (exists a b x c, p = a ++ b ++ x :: c /\ length a = t /\ f = t + length b /\
     p_move p i j = (a ++ x :: b ++ c, Ret PUnit)).
Proof. exact move_cases. Qed.
Print Assumptions C02_move_exact.

Theorem C02_move_invalid_unchanged : forall p i j,
  (forall k, ~ denotes (length p) i k) \/ (forall k, ~ denotes_gap (length p) j k) ->
  p_move p i j = (p, Raise NotFoundError).
Proof. exact move_err. Qed.
Print Assumptions C02_move_invalid_unchanged.

Theorem C02_move_permutes : forall p i j, Permutation p (fst (p_move p i j)).
Proof. exact move_Perm. Qed.
Print Assumptions C02_move_permutes.

Example C02_ex_fwd : denotes 4 0%Z 0 /\ denotes_gap 4 4%Z 4 /\
  p_move [1; 2; 3; 4] 0 4 = ([2; 3; 4; 1], Ret PUnit).
Proof. repeat split; unfold denotes, denotes_gap; lia. Qed.
Example C02_ex_back : p_move [1; 2; 3; 4] (-1) 1 = ([1; 4; 2; 3], Ret PUnit).
Proof. reflexivity. Qed.
(** A user may expect move(i, -1) to put the entry last; it lands before the
    entry that was last. *)
Example C02_ex_minus_one : p_move [1; 2; 3; 4] 0 (-1) = ([2; 3; 1; 4], Ret PUnit).
Proof. reflexivity. Qed.

(** C03 *)
Theorem C03_swap_exact : forall p i j a b,
  denotes (length p) i a -> denotes (length p) j b ->
  exists p', p_swap p i j = (p', Ret PUnit) /\ length p' = length p /\
    forall k, nth_error p' k =
      if k =? b then nth_error p a else if k =? a then nth_error p b else nth_error p k.
Proof. exact swap_ok. Qed.
Print Assumptions C03_swap_exact.

Theorem C03_swap_invalid_unchanged : forall p i j,
  (forall k, ~ denotes (length p) i k) \/ (forall k, ~ denotes (length p) j k) ->
  p_swap p i j = (p, Raise NotFoundError).
Proof. exact swap_err. Qed.
Print Assumptions C03_swap_invalid_unchanged.

Theorem C03_swap_involutive : forall p i j p',
  p_swap p i j = (p', Ret PUnit) -> p_swap p' i j = (p, Ret PUnit).
Proof. exact swap_involutive. Qed.
Print Assumptions C03_swap_involutive.

Theorem C03_swap_permutes : forall p i j, Permutation p (fst (p_swap p i j)).
Proof. exact swap_Perm. Qed.
Print Assumptions C03_swap_permutes.

Theorem C03_reverse_involutive : forall p, fst (p_reverse (fst (p_reverse p))) = p.
Proof. exact (@rev_involutive uuid). Qed.
Print Assumptions C03_reverse_involutive.

Theorem C03_reverse_exact : forall p k, k < length p ->
  nth_error (fst (p_reverse p)) k = nth_error p (length p - 1 - k) /\
  length (fst (p_reverse p)) = length p.
Proof. exact reverse_ok. Qed.
Print Assumptions C03_reverse_exact.

Theorem C03_reverse_permutes : forall p, Permutation p (fst (p_reverse p)).
Proof. exact (@Permutation_rev uuid). Qed.
Print Assumptions C03_reverse_permutes.

Example C03_ex : p_swap [1; 2; 3] 0 (-1) = ([3; 2; 1], Ret PUnit).
Proof. reflexivity. Qed.

(** C04 *)
Theorem C04_include_idempotent : forall p u,
  exists b p', p_include p (RId u) = (p', Ret (PBool b)) /\
    (b = true <-> ~ In u p) /\ In u p' /\
    p' = (if b then p ++ [u] else p) /\
    p_include p' (RId u) = (p', Ret (PBool false)).
Proof. exact include_ok. Qed.
Print Assumptions C04_include_idempotent.

Theorem C04_exclude_result : forall p u,
  exists b p', p_exclude p (RId u) = (p', Ret (PBool b)) /\
    (b = true <-> In u p) /\
    (b = false -> p' = p) /\
    (b = true -> exists a c, p = a ++ u :: c /\ p' = a ++ c /\ ~ In u a).
Proof. exact exclude_ok. Qed.
Print Assumptions C04_exclude_result.

Theorem C04_exclude_nodup_idempotent : forall p u p' b, NoDup p ->
  p_exclude p (RId u) = (p', Ret (PBool b)) ->
  ~ In u p' /\ p_exclude p' (RId u) = (p', Ret (PBool false)) /\
  (forall v, v <> u -> (In v p' <-> In v p)).
Proof. exact exclude_nodup. Qed.
Print Assumptions C04_exclude_nodup_idempotent.

(** "Exclude item (idempotent)" is false with duplicates: the item is still
    present and the second call removes again. *)
Theorem C04_exclude_idempotent_refuted : exists p u p',
  p_exclude p (RId u) = (p', Ret (PBool true)) /\ In u p' /\
  p_exclude p' (RId u) = ([], Ret (PBool true)).
Proof. exists [4; 4], 4, [4]. repeat split; left; reflexivity. Qed.
Print Assumptions C04_exclude_idempotent_refuted.

Example C04_ex : NoDup [1; 2; 3] /\ p_exclude [1; 2; 3] (RId 2) = ([1; 3], Ret (PBool true)).
Proof. split; [repeat constructor; simpl; lia | reflexivity]. Qed.
