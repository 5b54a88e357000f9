(** Proofs about ModelProgression. *)
From Coq Require Import List ZArith Bool Lia Arith Permutation Sorted.
From Verif Require Import PyBase PyFacts ModelProgression SpecProgression.
Import ListNotations.
Require Import ZifyBool.

Lemma denotes_norm : forall n i k, denotes n i k <-> norm_index n i = Some k.
Proof.
  intros n i k; rewrite norm_index_Some; unfold denotes; split; intros [H1 H2];
    split; auto; lia.
Qed.

Lemma denotes_fun : forall n i k k', denotes n i k -> denotes n i k' -> k = k'.
Proof. intros n i k k' H1 H2; apply denotes_norm in H1, H2; congruence. Qed.

Lemma not_denotes_norm : forall n i,
  (forall k, ~ denotes n i k) <-> norm_index n i = None.
Proof.
  intros n i; split; intros Hx.
  - destruct (norm_index n i) as [k|] eqn:E; [|reflexivity].
    exfalso; apply (Hx k); apply denotes_norm; exact E.
  - intros k Hk; apply denotes_norm in Hk; congruence.
Qed.

Lemma getitem_ok : forall p i x,
  p_getitem p i = Ret x <-> exists k, denotes (length p) i k /\ nth_error p k = Some x.
Proof.
  intros p i x; unfold p_getitem, py_get.
  destruct (norm_index (length p) i) as [k|] eqn:E.
  - destruct (nth_error p k) as [y|] eqn:Ey; split; intros Hx.
    + inversion Hx; subst. exists k; split; [apply denotes_norm; exact E|exact Ey].
    + destruct Hx as [k' [Hk Hn]]. apply denotes_norm in Hk. congruence.
    + discriminate.
    + destruct Hx as [k' [Hk Hn]]. apply denotes_norm in Hk. congruence.
  - split; [discriminate|]. intros [k [Hk _]]. apply denotes_norm in Hk; congruence.
Qed.

Lemma getitem_err : forall p i e,
  p_getitem p i = Raise e <-> e = IndexError /\ forall k, ~ denotes (length p) i k.
Proof.
  intros p i e; unfold p_getitem, py_get; rewrite not_denotes_norm.
  destruct (norm_index (length p) i) as [k|] eqn:E.
  - pose proof (proj1 (norm_index_Some _ _ _) E) as [Hk _].
    destruct (nth_error_lt p k Hk) as [x Hx]; rewrite Hx.
    split; [discriminate | intros [_ Hc]; discriminate].
  - split; [intros Hx; inversion Hx; auto | intros [-> _]; reflexivity].
Qed.

Lemma setitem_ok : forall p i u k, denotes (length p) i k ->
  exists p', p_setitem p i (RId u) = (p', Ret PUnit) /\ length p' = length p /\
    forall j, nth_error p' j = if j =? k then Some u else nth_error p j.
Proof.
  intros p i u k Hk. unfold p_setitem, with_id; simpl.
  pose proof Hk as Hk'. apply denotes_norm in Hk'. rewrite Hk'.
  exists (replace_at k u p); split; [reflexivity|]. split; [apply length_replace_at|].
  intros j; apply nth_error_replace_at. destruct Hk; assumption.
Qed.

Lemma setitem_err : forall p i u, (forall k, ~ denotes (length p) i k) ->
  p_setitem p i (RId u) = (p, Raise IndexError).
Proof.
  intros p i u Hn; apply not_denotes_norm in Hn.
  unfold p_setitem, with_id; simpl; rewrite Hn; reflexivity.
Qed.

Lemma pop_ok : forall p i d k, denotes (length p) i k ->
  exists x p', p_pop p i d = (p', Ret (PId x)) /\ cut p k x p'.
Proof.
  intros p i d k Hk. unfold p_pop.
  pose proof Hk as Hk'. apply denotes_norm in Hk'. rewrite Hk'.
  destruct Hk as [Hlt _]. destruct (nth_error_lt p k Hlt) as [x Hx]; rewrite Hx.
  exists x, (delete_at k p); split; [reflexivity|].
  destruct (split_nth p k x Hx) as [H1 H2].
  exists (firstn k p), (skipn (S k) p); repeat split; auto.
  apply delete_at_app.
Qed.

Lemma pop_err : forall p i d, (forall k, ~ denotes (length p) i k) ->
  p_pop p i d = (p, if d then Ret PDefault else Raise NotFoundError).
Proof.
  intros p i d Hn; apply not_denotes_norm in Hn.
  unfold p_pop; rewrite Hn; destruct d; reflexivity.
Qed.

Lemma popleft_pop0 : forall p, p_popleft p = p_pop p 0 false.
Proof. intros [|u t]; reflexivity. Qed.

Lemma insert_ok : forall p i u,
  exists k p', p_insert p i (RId u) = (p', Ret PUnit) /\ spliced p k u p' /\
    Z.of_nat k = clampZ 0 (Z.of_nat (length p)) (wrap (Z.of_nat (length p)) i).
Proof.
  intros p i u. pose (k := clamp_index (length p) i).
  exists k, (insert_at k u p). split; [reflexivity|].
  pose proof (clamp_index_le (length p) i) as Hle. fold k in Hle. split.
  - exists (firstn k p), (skipn k p).
    split; [symmetry; apply firstn_skipn|]. split; [apply insert_at_app; exact Hle|].
    apply firstn_length_le; exact Hle.
  - unfold k, clamp_index, clampZ, wrap. destruct (i <? 0)%Z; lia.
Qed.

Lemma index_ok : forall p u k, p_index p (RId u) = Ret k <->
  nth_error p k = Some u /\ forall j, j < k -> nth_error p j <> Some u.
Proof.
  intros p u k; unfold p_index; simpl. split.
  - destruct (index_of u p) as [n|] eqn:E; [|discriminate].
    intros Hx; inversion Hx; subst. apply index_of_Some; exact E.
  - intros [H1 H2]. destruct (index_of u p) as [n|] eqn:E.
    + f_equal. apply index_of_Some in E. destruct E as [E1 E2].
      destruct (Nat.lt_trichotomy n k) as [Hlt|[Heq|Hgt]]; [|exact Heq|].
      * exfalso; apply (H2 n Hlt E1).
      * exfalso; apply (E2 k Hgt H1).
    + apply index_of_None in E. exfalso; apply E. eapply nth_error_In; eauto.
Qed.

Lemma index_err : forall p u e, p_index p (RId u) = Raise e <-> e = ValueError /\ ~ In u p.
Proof.
  intros p u e; unfold p_index; simpl.
  destruct (index_of u p) as [n|] eqn:E.
  - split; [discriminate|]. intros [_ Hn]. apply index_of_None in Hn. congruence.
  - apply index_of_None in E. split; [intros Hx; inversion Hx; auto | intros [-> _]; reflexivity].
Qed.

(** Bad ids never touch the order, except in [extend]. *)
Lemma bad_id_unchanged : forall p r e, coerce_id r = Raise e ->
  p_append p r = (p, Raise e) /\ (forall i, p_insert p i r = (p, Raise e)) /\
  p_remove p r = (p, Raise e) /\ (forall i, p_setitem p i r = (p, Raise e)) /\
  p_include p r = (p, Raise e) /\ p_exclude p r = (p, Raise e) /\
  p_contains p r = false.
Proof.
  intros p r e Hr.
  unfold p_append, p_insert, p_remove, p_setitem, p_include, p_exclude, p_contains, with_id.
  rewrite Hr; repeat split; auto.
Qed.

(** validate_index *)
Lemma validate_ok : forall p i k,
  validate_index p i false = Ret k <-> denotes (length p) i k.
Proof.
  intros p i k; unfold validate_index, denotes; simpl.
  destruct (Z.of_nat (length p) =? 0)%Z eqn:E0; simpl.
  - split; [discriminate | intros [Hk _]; lia].
  - destruct (i <? 0)%Z eqn:Ei;
      match goal with |- context [if ?b then _ else _] => destruct b eqn:Eb end;
      split; intros Hx; try discriminate; try (inversion Hx; subst; lia);
      try (exfalso; lia); f_equal; lia.
Qed.

Lemma validate_end_ok : forall p i k,
  validate_index p i true = Ret k <-> denotes_gap (length p) i k.
Proof.
  intros p i k; unfold validate_index, denotes_gap; simpl. rewrite andb_false_r.
  destruct (i <? 0)%Z eqn:Ei;
    match goal with |- context [if ?b then _ else _] => destruct b eqn:Eb end;
    split; intros Hx; try discriminate; try (inversion Hx; subst; lia);
    try (exfalso; lia); f_equal; lia.
Qed.

Lemma validate_err : forall p i b e, validate_index p i b = Raise e -> e = NotFoundError.
Proof.
  intros p i b e; unfold validate_index.
  repeat match goal with |- context [if ?b then _ else _] => destruct b end;
    intros Hx; inversion Hx; reflexivity.
Qed.

Lemma firstn_app_exact : forall {A} (a b : list A) n, length a = n -> firstn n (a ++ b) = a.
Proof.
  intros A a b n Hn; subst. rewrite firstn_app, Nat.sub_diag, firstn_all; simpl.
  apply app_nil_r.
Qed.

Lemma skipn_app_exact : forall {A} (a b : list A) n, length a = n -> skipn n (a ++ b) = b.
Proof.
  intros A a b n Hn; subst. rewrite skipn_app, Nat.sub_diag, skipn_all; reflexivity.
Qed.

(** move, forwards and backwards, by decomposition of the original sequence. *)
Lemma move_forward : forall a x b c i j,
  let p := a ++ x :: b ++ c in
  denotes (length p) i (length a) ->
  denotes_gap (length p) j (length a + 1 + length b) ->
  p_move p i j = (a ++ b ++ x :: c, Ret PUnit).
Proof.
  intros a x b c i j p Hi Hj. unfold p_move.
  apply validate_ok in Hi. apply validate_end_ok in Hj. rewrite Hi, Hj.
  assert (Hn : nth_error p (length a) = Some x).
  { unfold p. rewrite nth_error_app2, Nat.sub_diag; [reflexivity | lia]. }
  rewrite Hn.
  assert (Hlt : (length a <? length a + 1 + length b) = true) by lia.
  rewrite Hlt. f_equal.
  replace (length a + 1 + length b - 1) with (length a + length b) by lia.
  rewrite clamp_index_nat
    by (unfold p; rewrite ?app_length; simpl; rewrite ?app_length; lia).
  assert (Hd : delete_at (length a) p = a ++ b ++ c).
  { rewrite delete_at_app. unfold p. rewrite firstn_app_exact by reflexivity.
    f_equal. change (a ++ x :: b ++ c) with (a ++ [x] ++ b ++ c).
    rewrite app_assoc. apply skipn_app_exact. rewrite app_length; simpl; lia. }
  rewrite Hd. rewrite insert_at_app by (rewrite ?app_length; lia).
  rewrite app_assoc. rewrite firstn_app_exact, skipn_app_exact
    by (rewrite app_length; reflexivity).
  rewrite <- app_assoc; reflexivity.
Qed.

Lemma move_backward : forall a b x c i j,
  let p := a ++ b ++ x :: c in
  denotes (length p) i (length a + length b) ->
  denotes_gap (length p) j (length a) ->
  p_move p i j = (a ++ x :: b ++ c, Ret PUnit).
Proof.
  intros a b x c i j p Hi Hj. unfold p_move.
  apply validate_ok in Hi. apply validate_end_ok in Hj. rewrite Hi, Hj.
  assert (Hn : nth_error p (length a + length b) = Some x).
  { unfold p. rewrite app_assoc, nth_error_app2; rewrite app_length; [|lia].
    rewrite Nat.sub_diag; reflexivity. }
  rewrite Hn.
  assert (Hlt : (length a + length b <? length a) = false) by lia.
  rewrite Hlt. f_equal.
  rewrite clamp_index_nat
    by (unfold p; rewrite ?app_length; simpl; lia).
  assert (Hd : delete_at (length a + length b) p = a ++ b ++ c).
  { rewrite delete_at_app. unfold p. rewrite (app_assoc a b (x :: c)).
    rewrite firstn_app_exact by (rewrite app_length; reflexivity).
    rewrite <- app_assoc. f_equal. f_equal.
    change ((a ++ b) ++ x :: c) with ((a ++ b) ++ [x] ++ c).
    rewrite app_assoc. apply skipn_app_exact. rewrite !app_length; simpl; lia. }
  rewrite Hd. rewrite insert_at_app by (rewrite ?app_length; lia).
  rewrite firstn_app_exact, skipn_app_exact by reflexivity. reflexivity.
Qed.

(** Any pair of valid indices decomposes one way or the other. *)
Lemma move_cases : forall p i j f t,
  denotes (length p) i f -> denotes_gap (length p) j t ->
  (exists a x b c, p = a ++ x :: b ++ c /\ length a = f /\ t = f + 1 + length b /\
     p_move p i j = (a ++ b ++ x :: c, Ret PUnit)) \/
  (exists a b x c, p = a ++ b ++ x :: c /\ length a = t /\ f = t + length b /\
     p_move p i j = (a ++ x :: b ++ c, Ret PUnit)).
Proof.
  intros p i j f t Hi Hj.
  assert (Hf : f < length p) by (destruct Hi; assumption).
  assert (Ht : t <= length p) by (destruct Hj; assumption).
  destruct (nth_error_lt p f Hf) as [x Hx].
  destruct (split_nth p f x Hx) as [Hs Hl].
  destruct (Nat.lt_ge_cases f t) as [Hlt|Hge].
  - left. exists (firstn f p), x, (firstn (t - f - 1) (skipn (S f) p)),
      (skipn (t - f - 1) (skipn (S f) p)).
    assert (Hp : p = firstn f p ++ x :: firstn (t - f - 1) (skipn (S f) p) ++
                   skipn (t - f - 1) (skipn (S f) p)).
    { rewrite firstn_skipn. exact Hs. }
    assert (Hb : length (firstn (t - f - 1) (skipn (S f) p)) = t - f - 1).
    { apply firstn_length_le. rewrite skipn_length. lia. }
    split; [exact Hp|]. split; [exact Hl|]. split; [lia|].
    rewrite Hp at 1. apply move_forward; rewrite <- Hp, ?Hl, ?Hb; [exact Hi|].
    replace (f + 1 + (t - f - 1)) with t by lia. exact Hj.
  - right. exists (firstn t p), (skipn t (firstn f p)), x, (skipn (S f) p).
    assert (Hp : p = firstn t p ++ skipn t (firstn f p) ++ x :: skipn (S f) p).
    { rewrite app_assoc. replace (firstn t p) with (firstn t (firstn f p)).
      - rewrite firstn_skipn. exact Hs.
      - rewrite firstn_firstn. f_equal. lia. }
    assert (Ha : length (firstn t p) = t) by (apply firstn_length_le; lia).
    assert (Hb : length (skipn t (firstn f p)) = f - t).
    { rewrite skipn_length, Hl. reflexivity. }
    split; [exact Hp|]. split; [exact Ha|]. split; [lia|].
    rewrite Hp at 1. apply move_backward; rewrite <- Hp, ?Ha, ?Hb; [|exact Hj].
    replace (t + (f - t)) with f by lia. exact Hi.
Qed.

Lemma move_err : forall p i j,
  (forall k, ~ denotes (length p) i k) \/ (forall k, ~ denotes_gap (length p) j k) ->
  p_move p i j = (p, Raise NotFoundError).
Proof.
  intros p i j Hn. unfold p_move.
  destruct (validate_index p i false) as [f|e] eqn:Ef.
  - apply validate_ok in Ef.
    destruct (validate_index p j true) as [t|e] eqn:Et.
    + apply validate_end_ok in Et. destruct Hn as [Hn|Hn]; exfalso; eapply Hn; eauto.
    + apply validate_err in Et; subst; reflexivity.
  - apply validate_err in Ef; subst; reflexivity.
Qed.

(** swap *)
Lemma swap_ok : forall p i j a b,
  denotes (length p) i a -> denotes (length p) j b ->
  exists p', p_swap p i j = (p', Ret PUnit) /\ length p' = length p /\
    forall k, nth_error p' k =
      if k =? b then nth_error p a else if k =? a then nth_error p b else nth_error p k.
Proof.
  intros p i j a b Hi Hj. unfold p_swap.
  assert (Ha : a < length p) by (destruct Hi; assumption).
  assert (Hb : b < length p) by (destruct Hj; assumption).
  apply validate_ok in Hi. apply validate_ok in Hj. rewrite Hi, Hj.
  destruct (nth_error_lt p a Ha) as [x Hx]. destruct (nth_error_lt p b Hb) as [y Hy].
  rewrite Hx, Hy. eexists; split; [reflexivity|].
  split; [rewrite !length_replace_at; reflexivity|].
  intros k. rewrite nth_error_replace_at by (rewrite length_replace_at; exact Hb).
  destruct (k =? b); [reflexivity|]. rewrite nth_error_replace_at by exact Ha.
  destruct (k =? a); [reflexivity|]. reflexivity.
Qed.

Lemma swap_err : forall p i j,
  (forall k, ~ denotes (length p) i k) \/ (forall k, ~ denotes (length p) j k) ->
  p_swap p i j = (p, Raise NotFoundError).
Proof.
  intros p i j Hn. unfold p_swap.
  destruct (validate_index p i false) as [f|e] eqn:Ef.
  - apply validate_ok in Ef.
    destruct (validate_index p j false) as [t|e] eqn:Et.
    + apply validate_ok in Et. destruct Hn as [Hn|Hn]; exfalso; eapply Hn; eauto.
    + apply validate_err in Et; subst; reflexivity.
  - apply validate_err in Ef; subst; reflexivity.
Qed.

Lemma nth_error_ext : forall {A} (l l' : list A),
  (forall k, nth_error l k = nth_error l' k) -> l = l'.
Proof.
  induction l as [|x t IH]; intros [|y t'] Hk; auto.
  - specialize (Hk 0); discriminate.
  - specialize (Hk 0); discriminate.
  - f_equal; [specialize (Hk 0); simpl in Hk; congruence|].
    apply IH. intros k; apply (Hk (S k)).
Qed.

Lemma swap_involutive : forall p i j p',
  p_swap p i j = (p', Ret PUnit) -> p_swap p' i j = (p, Ret PUnit).
Proof.
  intros p i j p' Hs. pose proof Hs as Hs0. unfold p_swap in Hs.
  destruct (validate_index p i false) as [a|e] eqn:Ea; [|inversion Hs].
  destruct (validate_index p j false) as [b|e] eqn:Eb; [|inversion Hs].
  apply validate_ok in Ea. apply validate_ok in Eb.
  destruct (swap_ok p i j a b Ea Eb) as [q [Hq [Hlen Hnth]]].
  rewrite Hq in Hs0. inversion Hs0; subst q.
  rewrite <- Hlen in Ea, Eb.
  destruct (swap_ok p' i j a b Ea Eb) as [r [Hr [Hlen' Hnth']]].
  rewrite Hr. f_equal. apply nth_error_ext. intros k. rewrite Hnth', !Hnth.
  destruct (k =? b) eqn:Ekb; destruct (k =? a) eqn:Eka; destruct (a =? b) eqn:Eab;
    destruct (b =? a) eqn:Eba; rewrite ?Nat.eqb_refl; try lia;
    try reflexivity; f_equal; lia.
Qed.

Lemma replace_swap_Perm : forall (p : list uuid) a b x y,
  nth_error p a = Some x -> nth_error p b = Some y ->
  Permutation p (replace_at b x (replace_at a y p)).
Proof.
  assert (Hlt : forall (p : list uuid) a b x y, a < b ->
    nth_error p a = Some x -> nth_error p b = Some y ->
    Permutation p (replace_at b x (replace_at a y p)) /\
    Permutation p (replace_at a y (replace_at b x p))).
  { induction p as [|z t IH]; intros [|a] [|b] x y Hab Hx Hy; simpl in *;
      try discriminate; try lia.
    - inversion Hx; subst. split.
      + pose proof (delete_at_Perm t b y Hy) as H1. rewrite H1 at 1.
        rewrite replace_at_app by (apply nth_error_Some; congruence).
        rewrite perm_swap. constructor. rewrite delete_at_app.
        apply Permutation_middle.
      + pose proof (delete_at_Perm t b y Hy) as H1. rewrite H1 at 1.
        rewrite replace_at_app by (apply nth_error_Some; congruence).
        rewrite perm_swap. constructor. rewrite delete_at_app.
        apply Permutation_middle.
    - destruct (IH a b x y ltac:(lia) Hx Hy) as [H1 H2]. split; constructor; assumption. }
  intros p a b x y Hx Hy. destruct (Nat.lt_trichotomy a b) as [H|[H|H]].
  - apply (proj1 (Hlt p a b x y H Hx Hy)).
  - subst. assert (x = y) by congruence; subst.
    assert (Hb : b < length p) by (apply nth_error_Some; congruence).
    replace (replace_at b y (replace_at b y p)) with p; [reflexivity|].
    apply nth_error_ext; intros k.
    rewrite nth_error_replace_at by (rewrite length_replace_at; exact Hb).
    rewrite nth_error_replace_at by exact Hb.
    destruct (k =? b) eqn:E; [|reflexivity]. apply Nat.eqb_eq in E; subst; exact Hx.
  - apply (proj2 (Hlt p b a y x H Hy Hx)).
Qed.

Lemma swap_Perm : forall p i j, Permutation p (fst (p_swap p i j)).
Proof.
  intros p i j; unfold p_swap.
  destruct (validate_index p i false) as [a|e]; [|reflexivity].
  destruct (validate_index p j false) as [b|e]; [|reflexivity].
  destruct (nth_error p a) as [x|] eqn:Hx; [|reflexivity].
  destruct (nth_error p b) as [y|] eqn:Hy; [|reflexivity].
  simpl. apply replace_swap_Perm; assumption.
Qed.

Lemma move_Perm : forall p i j, Permutation p (fst (p_move p i j)).
Proof.
  intros p i j; unfold p_move.
  destruct (validate_index p i false) as [a|e]; [|reflexivity].
  destruct (validate_index p j true) as [b|e]; [|reflexivity].
  destruct (nth_error p a) as [x|] eqn:Hx; [|reflexivity].
  cbn [fst]. rewrite insert_at_Perm. apply delete_at_Perm; exact Hx.
Qed.

(** include / exclude *)
Lemma include_ok : forall p u,
  exists b p', p_include p (RId u) = (p', Ret (PBool b)) /\
    (b = true <-> ~ In u p) /\ In u p' /\
    p' = (if b then p ++ [u] else p) /\
    p_include p' (RId u) = (p', Ret (PBool false)).
Proof.
  intros p u. unfold p_include, with_id; simpl.
  destruct (memb u p) eqn:E.
  - exists false, p. pose proof (proj1 (memb_In u p) E) as Hi. rewrite E.
    repeat split; auto; try discriminate; try (intros Hn; contradiction).
  - pose proof (proj1 (memb_notIn u p) E) as Hi.
    exists true, (p ++ [u]).
    assert (Hm : memb u (p ++ [u]) = true).
    { apply memb_In, in_or_app; right; left; reflexivity. }
    rewrite Hm. repeat split; auto; apply in_or_app; right; left; reflexivity.
Qed.

Lemma exclude_ok : forall p u,
  exists b p', p_exclude p (RId u) = (p', Ret (PBool b)) /\
    (b = true <-> In u p) /\
    (b = false -> p' = p) /\
    (b = true -> exists a c, p = a ++ u :: c /\ p' = a ++ c /\ ~ In u a).
Proof.
  intros p u. unfold p_exclude, with_id; simpl.
  destruct (memb u p) eqn:E.
  - pose proof (proj1 (memb_In u p) E) as Hi.
    destruct (remove_first u p) as [p'|] eqn:Er.
    + exists true, p'. repeat split; auto; try discriminate.
      intros _. destruct (remove_first_Some _ _ _ Er) as [a [c [H1 [H2 H3]]]]. eauto.
    + apply remove_first_None in Er; contradiction.
  - pose proof (proj1 (memb_notIn u p) E) as Hi.
    exists false, p. repeat split; auto; try discriminate; try contradiction.
Qed.

Lemma exclude_nodup : forall p u p' b, NoDup p ->
  p_exclude p (RId u) = (p', Ret (PBool b)) ->
  ~ In u p' /\ p_exclude p' (RId u) = (p', Ret (PBool false)) /\
  (forall v, v <> u -> (In v p' <-> In v p)).
Proof.
  intros p u p' b Hn He.
  assert (Hout : ~ In u p').
  { unfold p_exclude, with_id in He; simpl in He. destruct (memb u p) eqn:E.
    - destruct (remove_first u p) as [q|] eqn:Er; inversion He; subst.
      apply (remove_first_NoDup _ _ _ Hn) in Er; tauto.
    - inversion He; subst. apply memb_notIn; exact E. }
  split; [exact Hout|]. split.
  - unfold p_exclude, with_id; simpl. apply memb_notIn in Hout. rewrite Hout; reflexivity.
  - intros v Hv. unfold p_exclude, with_id in He; simpl in He.
    destruct (memb u p) eqn:E.
    + destruct (remove_first u p) as [q|] eqn:Er; inversion He; subst.
      apply remove_first_Perm in Er. split; intros Hi.
      * apply (Permutation_in v (Permutation_sym Er)); right; exact Hi.
      * apply (Permutation_in v Er) in Hi. destruct Hi as [Hi|Hi]; [congruence|exact Hi].
    + inversion He; subst; tauto.
Qed.

(** Slices *)
(** Case split on every boolean test in the goal. *)
Ltac bcases :=
  repeat match goal with |- context [if ?b then _ else _] => destruct b eqn:? end.

Lemma adj_bound_pos : forall n i, (0 <= n)%Z -> adj_bound n false i = clampZ 0 n (wrap n i).
Proof. intros n i Hn; unfold adj_bound, clampZ, wrap; bcases; lia. Qed.

Lemma adj_bound_neg : forall n i, (0 <= n)%Z -> adj_bound n true i = clampZ (-1) (n - 1) (wrap n i).
Proof. intros n i Hn; unfold adj_bound, clampZ, wrap; bcases; lia. Qed.

Lemma slice_positions_In : forall n a b s ps,
  slice_positions n a b (Some s) = Some ps ->
  forall k, In k ps <-> slice_selects (Z.of_nat n) a b s (Z.of_nat k).
Proof.
  intros n a b s ps Hs k. unfold slice_positions in Hs.
  destruct (s =? 0)%Z eqn:Es; [discriminate|]. inversion Hs; subst ps; clear Hs.
  rewrite in_map_iff. unfold slice_selects.
  assert (Hn : (0 <= Z.of_nat n)%Z) by lia.
  destruct (0 <? s)%Z eqn:Ep.
  - assert (Eneg : (s <? 0)%Z = false) by lia.
    set (st := bound 0 0 (Z.of_nat n) (Z.of_nat n) a).
    set (en := bound (Z.of_nat n) 0 (Z.of_nat n) (Z.of_nat n) b).
    assert (Hst : slice_start (Z.of_nat n) s a = st).
    { unfold slice_start, st, bound; rewrite Eneg. destruct a; [apply adj_bound_pos; lia | reflexivity]. }
    assert (Hen : slice_stop (Z.of_nat n) s b = en).
    { unfold slice_stop, en, bound; rewrite Eneg. destruct b; [apply adj_bound_pos; lia | reflexivity]. }
    rewrite Hst, Hen. unfold slice_len; rewrite Eneg.
    assert (Hst0 : (0 <= st)%Z) by (unfold st, bound, clampZ; destruct a; lia).
    split.
    + intros [i [Hi Hin]]. apply in_seq in Hin.
      destruct (st <? en)%Z eqn:Elt; [|simpl in Hin; lia].
      assert (Hik : (Z.of_nat k = st + Z.of_nat i * s)%Z) by nia.
      assert (Hidx : (Z.of_nat i <= (en - st - 1) / s)%Z).
      { assert (0 <= (en - st - 1) / s)%Z by (apply Z.div_pos; lia). lia. }
      assert (Hmul : (s * ((en - st - 1) / s) <= en - st - 1)%Z) by (apply Z.mul_div_le; lia).
      split; [nia|]. rewrite Hik. replace (st + Z.of_nat i * s - st)%Z with (Z.of_nat i * s)%Z by lia.
      apply Z.mod_mul; lia.
    + intros [[Hlo Hhi] Hmod]. destruct (st <? en)%Z eqn:Elt; [|lia].
      exists (Z.to_nat ((Z.of_nat k - st) / s)).
      pose proof (Z.div_mod (Z.of_nat k - st) s ltac:(lia)) as Hdm. rewrite Hmod in Hdm.
      assert (Hq : (0 <= (Z.of_nat k - st) / s)%Z) by (apply Z.div_pos; lia).
      split.
      * rewrite Z2Nat.id by exact Hq. nia.
      * apply in_seq. split; [lia|].
        assert (Hle : ((Z.of_nat k - st) / s <= (en - st - 1) / s)%Z) by (apply Z.div_le_mono; lia).
        lia.
  - assert (Eneg : (s <? 0)%Z = true) by lia.
    set (st := bound (Z.of_nat n - 1) (-1) (Z.of_nat n - 1) (Z.of_nat n) a).
    set (en := bound (-1) (-1) (Z.of_nat n - 1) (Z.of_nat n) b).
    assert (Hst : slice_start (Z.of_nat n) s a = st).
    { unfold slice_start, st, bound; rewrite Eneg. destruct a; [apply adj_bound_neg; lia | reflexivity]. }
    assert (Hen : slice_stop (Z.of_nat n) s b = en).
    { unfold slice_stop, en, bound; rewrite Eneg. destruct b; [apply adj_bound_neg; lia | reflexivity]. }
    rewrite Hst, Hen. unfold slice_len; rewrite Eneg.
    assert (Hen0 : (-1 <= en)%Z) by (unfold en, bound, clampZ; destruct b; lia).
    split.
    + intros [i [Hi Hin]]. apply in_seq in Hin.
      destruct (en <? st)%Z eqn:Elt; [|simpl in Hin; lia].
      assert (Hidx : (Z.of_nat i <= (st - en - 1) / - s)%Z).
      { assert (0 <= (st - en - 1) / - s)%Z by (apply Z.div_pos; lia). lia. }
      assert (Hmul : (- s * ((st - en - 1) / - s) <= st - en - 1)%Z) by (apply Z.mul_div_le; lia).
      assert (Hik : (Z.of_nat k = st + Z.of_nat i * s)%Z) by nia.
      split; [nia|]. rewrite Hik.
      replace (st - (st + Z.of_nat i * s))%Z with (Z.of_nat i * - s)%Z by lia.
      apply Z.mod_mul; lia.
    + intros [[Hlo Hhi] Hmod]. destruct (en <? st)%Z eqn:Elt; [|lia].
      exists (Z.to_nat ((st - Z.of_nat k) / - s)).
      pose proof (Z.div_mod (st - Z.of_nat k) (- s) ltac:(lia)) as Hdm. rewrite Hmod in Hdm.
      assert (Hq : (0 <= (st - Z.of_nat k) / - s)%Z) by (apply Z.div_pos; lia).
      split.
      * rewrite Z2Nat.id by exact Hq. nia.
      * apply in_seq. split; [lia|].
        assert (Hle : ((st - Z.of_nat k) / - s <= (st - en - 1) / - s)%Z) by (apply Z.div_le_mono; lia).
        lia.
Qed.

Lemma slice_positions_range : forall n a b s ps k,
  slice_positions n a b (Some s) = Some ps -> In k ps -> k < n.
Proof.
  intros n a b s ps k Hs Hk. pose proof Hs as Hs0.
  apply (slice_positions_In _ _ _ _ _ Hs) in Hk. unfold slice_selects in Hk.
  destruct (0 <? s)%Z eqn:E.
  - destruct Hk as [[_ Hk] _]. unfold bound, clampZ in Hk. destruct b; lia.
  - destruct Hk as [[_ Hk] _]. unfold bound, clampZ in Hk. destruct a; lia.
Qed.

Lemma StronglySorted_map_seq : forall (f : nat -> nat) (R : nat -> nat -> Prop) m n,
  (forall i j, m <= i -> i < j -> j < m + n -> R (f i) (f j)) ->
  StronglySorted R (map f (seq m n)).
Proof.
  intros f R m n; revert m; induction n as [|n IH]; intros m Hf; simpl; constructor.
  - apply IH. intros i j Hi Hj Hjn. apply Hf; lia.
  - apply Forall_forall. intros y Hy. apply in_map_iff in Hy. destruct Hy as [j [Hj Hin]].
    apply in_seq in Hin. subst. apply Hf; lia.
Qed.

Lemma slice_positions_sorted : forall n a b s ps,
  slice_positions n a b (Some s) = Some ps ->
  StronglySorted (fun x y => if (0 <? s)%Z then x < y else y < x) ps.
Proof.
  intros n a b s ps Hs. pose proof (slice_positions_In _ _ _ _ _ Hs) as Hin.
  unfold slice_positions in Hs. destruct (s =? 0)%Z eqn:Es; [discriminate|].
  inversion Hs as [Hps]; clear Hs.
  set (st := slice_start (Z.of_nat n) s a) in *.
  set (en := slice_stop (Z.of_nat n) s b) in *.
  assert (Hn : (0 <= Z.of_nat n)%Z) by lia.
  apply StronglySorted_map_seq. intros i j _ Hij Hjn.
  destruct (0 <? s)%Z eqn:Ep.
  - assert (Hst0 : (0 <= st)%Z).
    { unfold st, slice_start. replace (s <? 0)%Z with false by lia.
      destruct a; [rewrite adj_bound_pos by lia; unfold clampZ; lia | lia]. }
    nia.
  - (* descending: the last position is still >= 0 *)
    assert (Hlast : (st + Z.of_nat j * s > -1)%Z).
    { unfold slice_len in Hjn. replace (s <? 0)%Z with true in Hjn by lia.
      destruct (en <? st)%Z eqn:Elt; [|lia].
      assert (Hen0 : (-1 <= en)%Z).
      { unfold en, slice_stop. replace (s <? 0)%Z with true by lia.
        destruct b; [rewrite adj_bound_neg by lia; unfold clampZ; lia | lia]. }
      assert (Hmul : (- s * ((st - en - 1) / - s) <= st - en - 1)%Z) by (apply Z.mul_div_le; lia).
      assert (0 <= (st - en - 1) / - s)%Z by (apply Z.div_pos; lia).
      nia. }
    nia.
Qed.

Lemma select_length : forall {A} (l : list A) ps,
  (forall k, In k ps -> k < length l) -> length (select l ps) = length ps.
Proof.
  induction ps as [|k t IH]; intros Hk; [reflexivity|].
  unfold select in *; simpl.
  destruct (nth_error_lt l k (Hk k (or_introl eq_refl))) as [x Hx]. rewrite Hx. simpl.
  f_equal. apply IH. intros k' Hk'. apply Hk; right; exact Hk'.
Qed.

Lemma select_map : forall {A} (l : list A) ps,
  (forall k, In k ps -> k < length l) ->
  map Some (select l ps) = map (nth_error l) ps.
Proof.
  induction ps as [|k t IH]; intros Hk; [reflexivity|].
  unfold select in *; simpl.
  destruct (nth_error_lt l k (Hk k (or_introl eq_refl))) as [x Hx]. rewrite Hx. simpl.
  f_equal. apply IH. intros k' Hk'. apply Hk; right; exact Hk'.
Qed.

Lemma getslice_ok : forall p a b c s,
  (match c with None => 1%Z | Some s => s end) = s -> s <> 0%Z ->
  exists ps, p_getslice p a b c = Ret (select p ps) /\
    map Some (select p ps) = map (nth_error p) ps /\
    (forall k, In k ps <-> slice_selects (Z.of_nat (length p)) a b s (Z.of_nat k)) /\
    StronglySorted (fun x y => if (0 <? s)%Z then x < y else y < x) ps.
Proof.
  intros p a b c s Hc Hs.
  assert (Hp : exists ps, slice_positions (length p) a b (Some s) = Some ps).
  { unfold slice_positions. destruct (s =? 0)%Z eqn:E; [lia|eauto]. }
  destruct Hp as [ps Hp]. exists ps.
  assert (Hp' : slice_positions (length p) a b c = Some ps).
  { destruct c; simpl in *; subst; exact Hp. }
  unfold p_getslice. rewrite Hp'. split; [reflexivity|]. split.
  - apply select_map. intros k Hk. eapply slice_positions_range; eauto.
  - split; [apply slice_positions_In; exact Hp | eapply slice_positions_sorted; exact Hp].
Qed.

Lemma getslice_zero : forall p a b, p_getslice p a b (Some 0%Z) = Raise ValueError.
Proof. reflexivity. Qed.

(** remove: first occurrence only *)
Lemma remove_ok : forall p u, In u p ->
  exists a c, p = a ++ u :: c /\ ~ In u a /\ p_remove p (RId u) = (a ++ c, Ret PUnit).
Proof.
  intros p u Hi. unfold p_remove, with_id; simpl.
  destruct (remove_first u p) as [p'|] eqn:E.
  - destruct (remove_first_Some _ _ _ E) as [a [c [H1 [H2 H3]]]]; subst. eauto.
  - apply remove_first_None in E; contradiction.
Qed.

Lemma remove_err : forall p u, ~ In u p -> p_remove p (RId u) = (p, Raise ValueError).
Proof.
  intros p u Hn. unfold p_remove, with_id; simpl.
  apply remove_first_None in Hn; rewrite Hn; reflexivity.
Qed.

(** extend *)
Lemma extend_ok : forall rs p us, map coerce_id rs = map Ret us ->
  p_extend p rs = (p ++ us, Ret PUnit).
Proof.
  induction rs as [|r t IH]; intros p [|u us] Hm; simpl in *; try discriminate.
  - rewrite app_nil_r; reflexivity.
  - inversion Hm as [[Hr Ht]]. rewrite Hr. rewrite (IH (p ++ [u]) us Ht).
    rewrite <- app_assoc; reflexivity.
Qed.

(** Every raising mutator other than extend leaves the order unchanged. *)
Lemma step_raise_unchanged : forall p o e,
  (forall rs, o <> PoExtend rs) -> snd (p_step p o) = Raise e -> fst (p_step p o) = p.
Proof.
  intros p o e Hne Hr. destruct o; try (exfalso; eapply Hne; reflexivity); simpl in *;
    unfold p_append, p_insert, p_remove, p_pop, p_popleft, p_setitem, p_setslice, p_move, p_swap,
           p_include, p_exclude, with_id in *;
    repeat match type of Hr with
           | context [match ?x with _ => _ end] => destruct x; simpl in *
           end; try discriminate; try reflexivity; try congruence.
Qed.

(** Append, extend, clear, membership, reverse, slice assignment. *)
Lemma append_ok : forall p r u, coerce_id r = Ret u -> p_append p r = (p ++ [u], Ret PUnit).
Proof. intros p r u H; unfold p_append, with_id; rewrite H; reflexivity. Qed.

Lemma extend_all_ok : forall rs us p, coerce_all rs = Ret us -> p_extend p rs = (p ++ us, Ret PUnit).
Proof.
  induction rs as [|r t IH]; intros us p H; simpl in *.
  - inversion H; subst. rewrite app_nil_r; reflexivity.
  - destruct (coerce_id r) as [u|]; [|discriminate]. simpl in H.
    destruct (coerce_all t) as [vs|]; [|discriminate]. simpl in H. inversion H; subst.
    rewrite (IH vs (p ++ [u]) eq_refl), <- app_assoc. reflexivity.
Qed.

Lemma contains_ok : forall p r, p_contains p r = true <-> exists u, coerce_id r = Ret u /\ In u p.
Proof.
  intros p r; unfold p_contains. destruct (coerce_id r) as [u|e].
  - rewrite memb_In. split; [eauto | intros [v [Hv Hi]]; inversion Hv; subst; exact Hi].
  - split; [discriminate | intros [v [Hv _]]; discriminate].
Qed.

Lemma reverse_ok : forall p k, k < length p ->
  nth_error (fst (p_reverse p)) k = nth_error p (length p - 1 - k) /\
  length (fst (p_reverse p)) = length p.
Proof.
  intros p k Hk; simpl. split; [|apply rev_length].
  pose proof (rev_nth p 0 Hk) as Hr.
  destruct (nth_error (rev p) k) eqn:E1.
  - apply nth_error_nth with (d := 0) in E1. rewrite E1 in Hr.
    destruct (nth_error p (length p - 1 - k)) eqn:E2.
    + apply nth_error_nth with (d := 0) in E2. f_equal.
      replace (length p - S k) with (length p - 1 - k) in Hr by lia. congruence.
    + apply nth_error_None in E2; lia.
  - apply nth_error_None in E1. rewrite rev_length in E1; lia.
Qed.

Lemma assign_at_length : forall ps us p, length (assign_at p ps us) = length p.
Proof.
  induction ps as [|k ps IH]; intros [|u us] p; simpl; auto.
  rewrite IH, length_replace_at; reflexivity.
Qed.

Lemma assign_at_nth : forall ps us p, NoDup ps -> length ps = length us ->
  (forall k, In k ps -> k < length p) ->
  (forall i k, nth_error ps i = Some k -> nth_error (assign_at p ps us) k = nth_error us i) /\
  (forall k, ~ In k ps -> nth_error (assign_at p ps us) k = nth_error p k).
Proof.
  induction ps as [|k0 ps IH]; intros us p Hnd Hlen Hlt; destruct us as [|u us]; try discriminate.
  - split; [intros [|i] k H; discriminate | reflexivity].
  - inversion Hnd as [|? ? Hk0 Hnd']; subst. simpl in Hlen.
    assert (Hlt' : forall k, In k ps -> k < length (replace_at k0 u p)).
    { intros k Hk. rewrite length_replace_at. apply Hlt; right; exact Hk. }
    destruct (IH us (replace_at k0 u p) Hnd' ltac:(lia) Hlt') as [H1 H2]. simpl.
    assert (Hk0lt : k0 < length p) by (apply Hlt; left; reflexivity).
    split.
    + intros [|i] k Hi; simpl in *.
      * inversion Hi; subst k. rewrite H2 by exact Hk0.
        rewrite nth_error_replace_at, Nat.eqb_refl by exact Hk0lt. reflexivity.
      * apply H1; exact Hi.
    + intros k Hk. rewrite H2 by tauto. rewrite nth_error_replace_at by exact Hk0lt.
      destruct (Nat.eqb_spec k k0); [subst; tauto | reflexivity].
Qed.

Lemma StronglySorted_lt_NoDup : forall (R : nat -> nat -> Prop) ps,
  (forall x, ~ R x x) -> StronglySorted R ps -> NoDup ps.
Proof.
  intros R ps Hirr Hs; induction Hs as [|k t Hs IH Hk]; constructor; auto.
  intros Hc. rewrite Forall_forall in Hk. apply (Hirr k). apply Hk; exact Hc.
Qed.

Lemma setslice_contiguous : forall p a b c rs us, coerce_all rs = Ret us ->
  c = None \/ c = Some 1%Z ->
  exists lo hi, p_setslice p a b c rs = (firstn lo p ++ us ++ skipn hi p, Ret PUnit) /\
    Z.of_nat lo = bound 0 0 (Z.of_nat (length p)) (Z.of_nat (length p)) a /\
    Z.of_nat hi = Z.max (Z.of_nat lo)
      (bound (Z.of_nat (length p)) 0 (Z.of_nat (length p)) (Z.of_nat (length p)) b).
Proof.
  intros p a b c rs us Hr Hc. set (n := Z.of_nat (length p)) in *.
  exists (Z.to_nat (slice_start n 1 a)),
    (Nat.max (Z.to_nat (slice_start n 1 a)) (Z.to_nat (slice_stop n 1 b))).
  assert (Hn : (0 <= n)%Z) by (unfold n; lia).
  assert (H1 : (0 <= slice_start n 1 a)%Z /\ slice_start n 1 a = bound 0 0 n n a).
  { unfold slice_start, bound; simpl. destruct a as [i|]; [|lia].
    rewrite adj_bound_pos by exact Hn. unfold clampZ; lia. }
  assert (H2 : (0 <= slice_stop n 1 b)%Z /\ slice_stop n 1 b = bound n 0 n n b).
  { unfold slice_stop, bound; simpl. destruct b as [i|]; [|lia].
    rewrite adj_bound_pos by exact Hn. unfold clampZ; lia. }
  split.
  - unfold p_setslice. rewrite Hr. fold n.
    destruct Hc as [->| ->]; simpl; reflexivity.
  - split; [lia|]. rewrite Nat2Z.inj_max, !Z2Nat.id by lia. lia.
Qed.

Lemma setslice_extended : forall p a b s rs us, coerce_all rs = Ret us ->
  (s <> 0)%Z -> (s <> 1)%Z ->
  exists ps, (forall k, In k ps <-> slice_selects (Z.of_nat (length p)) a b s (Z.of_nat k)) /\
    StronglySorted (fun x y => if (0 <? s)%Z then x < y else y < x) ps /\
    (length ps <> length us -> p_setslice p a b (Some s) rs = (p, Raise ValueError)) /\
    (length ps = length us -> exists p', p_setslice p a b (Some s) rs = (p', Ret PUnit) /\
       length p' = length p /\
       (forall i k, nth_error ps i = Some k -> nth_error p' k = nth_error us i) /\
       (forall k, ~ In k ps -> nth_error p' k = nth_error p k)).
Proof.
  intros p a b s rs us Hr H0 H1.
  destruct (slice_positions (length p) a b (Some s)) as [ps|] eqn:Ep.
  - pose proof (slice_positions_sorted _ _ _ _ _ Ep) as Hst.
    exists ps. split; [apply slice_positions_In; exact Ep|]. split; [exact Hst|].
    unfold p_setslice. rewrite Hr, Ep.
    replace (s =? 0)%Z with false by lia. replace (s =? 1)%Z with false by lia.
    split; intros Hl.
    + replace (length ps =? length us) with false by lia. reflexivity.
    + replace (length ps =? length us) with true by lia.
      exists (assign_at p ps us). split; [reflexivity|]. split; [apply assign_at_length|].
      apply assign_at_nth; [|exact Hl|].
      * eapply StronglySorted_lt_NoDup; [|exact Hst]. intros x. destruct (0 <? s)%Z; lia.
      * intros k Hk. eapply slice_positions_range; eauto.
  - exfalso. unfold slice_positions in Ep. destruct (s =? 0)%Z eqn:E; [lia | discriminate].
Qed.
