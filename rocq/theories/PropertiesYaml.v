(** Property C51 (pruning of minimal_yaml). *)
From Coq Require Import List Bool Arith ZArith Lia Permutation.
From Verif Require Import ModelYaml SpecYaml.
Import ListNotations.
Local Open Scope list_scope.

(** Induction through the parts. *)
Fixpoint depth (x : yval) : nat :=
  match x with
  | YDict kv => S (list_max (map (fun p => depth (snd p)) kv))
  | YList l | YTuple l | YSet l => S (list_max (map depth l))
  | _ => 0
  end.
Lemma list_max_in y l : In y l -> y <= list_max l.
Proof. induction l as [|x l IH]; simpl; [contradiction|]. intros [->|I]; [lia|]. apply IH in I. lia. Qed.
Lemma parts_depth x l y : parts x = Some l -> In y l -> depth y < depth x.
Proof.
  destruct x; simpl; try discriminate; intros [= <-] I.
  - apply in_map_iff in I. destruct I as (p & <- & I). apply Nat.lt_succ_r, list_max_in, in_map_iff. exists p. auto.
  - apply Nat.lt_succ_r, list_max_in, in_map_iff. eauto.
  - apply Nat.lt_succ_r, list_max_in, in_map_iff. eauto.
  - apply Nat.lt_succ_r, list_max_in, in_map_iff. eauto.
Qed.
Lemma yval_ind' (P : yval -> Prop) :
  (forall x, (forall l y, parts x = Some l -> In y l -> P y) -> P x) -> forall x, P x.
Proof.
  intros H. assert (G : forall n x, depth x < n -> P x).
  { induction n as [|n IH]; intros x L; [lia|]. apply H. intros l y E I. apply IH. apply (parts_depth _ _ _ E) in I. lia. }
  intros x. apply (G (S (depth x))). lia.
Qed.

Section C51.
Variable mkset : list yval -> list yval.
Hypothesis SB : set_builder mkset.
Notation prune := (prune mkset).

Lemma mkset_nil l : mkset l = [] <-> l = [].
Proof.
  destruct (SB l) as (_ & E). split.
  - intros H. rewrite H in E. destruct l as [|x l]; auto. exfalso. apply (E x). simpl; auto.
  - intros ->. destruct (mkset []) as [|x l]; auto. exfalso. apply (E x). simpl; auto.
Qed.

(** The values that survive. *)
Definition kept (l : list yval) : list yval := filter nonempty (flat_map (fun v => if nonempty v then [prune v] else []) l).
Lemma kept_app a b : kept (a ++ b) = kept a ++ kept b.
Proof. unfold kept. now rewrite flat_map_app, filter_app. Qed.
Lemma kept_cons x l : kept (x :: l) = (if nonempty x && nonempty (prune x) then [prune x] else []) ++ kept l.
Proof. unfold kept. simpl. destruct (nonempty x); simpl; auto. destruct (nonempty (prune x)); auto. Qed.
Lemma filter_nil {A} (f : A -> bool) l : filter f l = [] <-> forall x, In x l -> f x = false.
Proof.
  induction l as [|x l IH]; simpl; split; auto; try contradiction.
  - destruct (f x) eqn:E; [discriminate|]. intros H y [<-|I]; auto. now apply IH.
  - intros H. rewrite (H x); auto. apply IH. auto.
Qed.
Lemma kept_nil l : kept l = [] <-> forall x, In x l -> nonempty x && nonempty (prune x) = false.
Proof.
  induction l as [|x l IH]; [split; [contradiction|reflexivity]|]. rewrite kept_cons. split.
  - intros H y [<-|I]; apply app_eq_nil in H; destruct H as (H1 & H2).
    + destruct (_ && _); [discriminate|auto].
    + apply IH; auto.
  - intros H. rewrite (H x) by (simpl; auto). simpl. apply IH. intros; apply H; simpl; auto.
Qed.
Lemma length_nil {A} (l : list A) : (length l =? 0) = true <-> l = [].
Proof. destruct l; simpl; split; auto; discriminate. Qed.
Lemma nonempty_false x : nonempty x = false <-> is_empty x = true.
Proof. unfold nonempty. destruct (is_empty x); split; auto. Qed.
Lemma dict_kept (kv : list (Z * yval)) :
  map snd (filter (fun p => nonempty (snd p)) (flat_map (fun p => if nonempty (snd p) then [(fst p, prune (snd p))] else []) kv))
  = kept (map snd kv).
Proof.
  induction kv as [|(k, v) kv IH]; simpl; auto. unfold kept in *. simpl. rewrite filter_app, map_app, IH, filter_app.
  destruct (nonempty v); simpl; auto. destruct (nonempty (prune v)); auto.
Qed.

(** Empty after pruning (or before) means void. *)
Lemma prune_void x : (is_empty x = true \/ is_empty (prune x) = true) <-> void x.
Proof.
  induction x as [x IH] using yval_ind'.
  assert (EL : forall y, is_empty y = true -> void y).
  { intros y. destruct y as [|[] i| |kv|l|l|l]; simpl; try discriminate; intros E; try constructor;
    (eapply void_parts; [reflexivity|]); apply length_nil in E; subst; constructor. }
  assert (K : forall l, parts x = Some l -> (kept l = [] <-> Forall void l)).
  { intros l E. rewrite kept_nil, Forall_forall. split; intros H y I; specialize (H y I).
    - apply (IH l y E I). apply andb_false_iff in H. rewrite !nonempty_false in H. tauto.
    - apply andb_false_iff. rewrite !nonempty_false. apply (IH l y E I). auto. }
  assert (C : forall l, parts x = Some l -> (is_empty (prune x) = true <-> kept l = [])).
  { intros l E. destruct x; simpl in E; try discriminate; injection E as <-; cbn [is_empty ModelYaml.prune].
    - rewrite length_nil. rewrite <- dict_kept. split; [intros ->; reflexivity|apply map_eq_nil].
    - apply length_nil.
    - apply length_nil.
    - rewrite length_nil, mkset_nil. rewrite filter_nil. unfold kept. rewrite filter_nil.
      set (fm := flat_map _ _). destruct (SB fm) as (_ & EQ). split; intros H y I; apply H; apply EQ; auto. }
  split.
  - intros [H|H]; [auto|]. destruct (parts x) as [l|] eqn:E.
    + eapply void_parts; eauto. apply K; auto. apply C; auto.
    + apply EL. destruct x; simpl in *; try discriminate; auto.
  - intros V. inversion V; subst; auto. right. rewrite (C l) by auto. apply K; auto.
Qed.
Lemma prune_kept x : nonempty x && nonempty (prune x) = true <-> ~ void x.
Proof.
  rewrite <- prune_void, andb_true_iff. unfold nonempty. rewrite !negb_true_iff.
  destruct (is_empty x), (is_empty (prune x)); intuition congruence.
Qed.
End C51.

Lemma voidb_void x : voidb x = true <-> void x.
Proof.
  induction x as [x IH] using yval_ind'.
  assert (C : forall l, parts x = Some l -> (void x <-> Forall void l)).
  { intros l E. split; [|intros; eapply void_parts; eauto]. intros V. inversion V; subst; try discriminate. congruence. }
  assert (K : forall l, parts x = Some l -> (forallb voidb l = true <-> Forall void l)).
  { intros l E. rewrite forallb_forall, Forall_forall. split; intros H y I; apply (IH l y E I); auto. }
  destruct x as [|b i| |kv|l|l|l]; simpl.
  - split; auto. constructor.
  - destruct b; split; auto; [constructor|discriminate|]. intros V. inversion V. discriminate.
  - split; [discriminate|]. intros V. inversion V. discriminate.
  - rewrite (C _ eq_refl), <- (K _ eq_refl). clear. rewrite !forallb_forall. split.
    + intros H x I. apply in_map_iff in I. destruct I as (p & <- & I). auto.
    + intros H p I. apply H, in_map_iff. eauto.
  - rewrite (C _ eq_refl). apply (K _ eq_refl).
  - rewrite (C _ eq_refl). apply (K _ eq_refl).
  - rewrite (C _ eq_refl). apply (K _ eq_refl).
Qed.

(** Exactly the non-void parts remain, pruned, in order. *)
Theorem C51_exact : forall mkset, set_builder mkset ->
  let p := prune mkset in
  (forall l, p (YList l) = YList (map p (filter (fun x => negb (voidb x)) l))) /\
  (forall l, p (YTuple l) = YTuple (map p (filter (fun x => negb (voidb x)) l))) /\
  (forall kv, p (YDict kv) = YDict (map (fun e => (fst e, p (snd e))) (filter (fun e => negb (voidb (snd e))) kv))) /\
  (forall l, exists l', p (YSet l) = YSet l' /\ NoDup l' /\ forall y, In y l' <-> exists x, In x l /\ ~ void x /\ y = p x) /\
  (forall x, parts x = None -> p x = x) /\
  (forall x, voidb x = true <-> void x).
Proof.
  intros mkset SB p.
  assert (D : forall x, negb (voidb x) = nonempty x && nonempty (p x)).
  { intros x. apply eq_true_iff_eq. unfold p. rewrite negb_true_iff, (prune_kept mkset SB x), <- voidb_void. destruct (voidb x); split; congruence. }
  assert (L : forall l, kept mkset l = map p (filter (fun x => negb (voidb x)) l)).
  { induction l as [|x l IH]; auto. rewrite kept_cons, IH. cbn [filter]. rewrite D. fold p. destruct (nonempty x && nonempty (p x)); auto. }
  split; [intros l; unfold p at 1; cbn; f_equal; apply L|].
  split; [intros l; unfold p at 1; cbn; f_equal; apply L|].
  split.
  { intros kv. unfold p at 1. cbn. f_equal. induction kv as [|(k, v) kv IH]; auto. cbn [flat_map filter fst snd]. rewrite filter_app, IH, D. fold p.
    destruct (nonempty v); cbn; auto. fold p. destruct (nonempty (p v)); auto. }
  split; [|split].
  - intros l. unfold p at 1. cbn. eexists. split; [reflexivity|]. set (l0 := flat_map _ l).
    destruct (SB (filter nonempty (mkset l0))) as (N & E). split; auto. intros y. rewrite E, filter_In.
    rewrite (proj2 (SB l0)). unfold l0. rewrite in_flat_map. split.
    + intros ((x & I & Y) & NE). exists x. destruct (nonempty x) eqn:X; [|contradiction]. destruct Y as [<-|[]].
      repeat split; auto. rewrite <- (prune_kept mkset SB), X, NE. reflexivity.
    + intros (x & I & V & ->). apply (prune_kept mkset SB) in V. apply andb_true_iff in V. destruct V as (V1 & V2).
      split; [|exact V2]. exists x. rewrite V1. simpl; auto.
  - intros x. destruct x; simpl; try discriminate; reflexivity.
  - apply voidb_void.
Qed.
Print Assumptions C51_exact.

Lemma prune_parts mkset x l' y : set_builder mkset -> parts (prune mkset x) = Some l' -> In y l' ->
  exists l z, parts x = Some l /\ In z l /\ ~ void z /\ y = prune mkset z.
Proof.
  intros SB E I. destruct (C51_exact mkset SB) as (XL & XT & XD & XS & XN & _).
  assert (NV : forall z l, In z (filter (fun x => negb (voidb x)) l) -> In z l /\ ~ void z).
  { intros z l Z. apply filter_In in Z. rewrite negb_true_iff, <- voidb_void in *. destruct Z as (A & B). rewrite B. split; auto. }
  destruct x; try (rewrite XN in E by reflexivity; discriminate).
  - rewrite XD in E. cbn [parts] in E. injection E as <-. rewrite map_map in I. apply in_map_iff in I. destruct I as ((k, v) & <- & I).
    apply filter_In in I. cbn [snd] in I. destruct I as (I & V). exists (map snd kv), v. split; auto. split; [apply in_map_iff; exists (k, v); auto|].
    split; auto. rewrite <- voidb_void. apply negb_true_iff in V. congruence.
  - rewrite XL in E. injection E as <-. apply in_map_iff in I. destruct I as (z & <- & I). apply NV in I. exists l, z. tauto.
  - rewrite XT in E. injection E as <-. apply in_map_iff in I. destruct I as (z & <- & I). apply NV in I. exists l, z. tauto.
  - destruct (XS l) as (l2 & E2 & _ & S2). rewrite E2 in E. injection E as <-. apply S2 in I. destruct I as (z & A & B & C). exists l, z. auto.
Qed.
(** Pruning a non-void value does not make it void. *)
Lemma prune_alive mkset : set_builder mkset -> forall x, void (prune mkset x) -> void x.
Proof.
  intros SB. induction x as [x IH] using yval_ind'. intros V. apply (prune_void mkset SB).
  destruct (is_empty (prune mkset x)) eqn:E; [auto|]. exfalso.
  assert (P : exists y l, parts (prune mkset x) = Some l /\ In y l /\ void y).
  { inversion V as [Q|i Q|a l Q F W]; subst; try (rewrite <- Q in E; discriminate).
    destruct l as [|y l]; [destruct (prune mkset x); try discriminate; injection Q as Q; subst; try discriminate; apply map_eq_nil in Q; subst; discriminate|].
    exists y, (y :: l). rewrite Forall_forall in F. split; auto. split; [simpl; auto|apply F; simpl; auto]. }
  destruct P as (y & l & P & I & VY). destruct (prune_parts mkset x l y SB P I) as (l0 & z & E0 & I0 & NV & ->).
  apply NV. eapply IH; eauto.
Qed.
Lemma same_y_refl x : same_y x x.
Proof. constructor. Qed.

Lemma prune_fix mkset : set_builder mkset -> forall x, no_sets x -> prune mkset (prune mkset x) = prune mkset x.
Proof.
  intros SB. induction x as [x IH] using yval_ind'. intros NS. destruct (C51_exact mkset SB) as (XL & XT & XD & XS & XN & _).
  assert (NV : forall z, ~ void z -> voidb (prune mkset z) = false).
  { intros z V. destruct (voidb (prune mkset z)) eqn:B; auto. exfalso. apply V, (prune_alive mkset SB), voidb_void, B. }
  assert (ML : forall l, parts x = Some l -> Forall no_sets l -> map (prune mkset) (filter (fun x => negb (voidb x)) (map (prune mkset) (filter (fun x => negb (voidb x)) l))) =
     map (prune mkset) (filter (fun x => negb (voidb x)) l)).
  { intros l E F. rewrite Forall_forall in F. assert (H : forall z, In z l -> prune mkset (prune mkset z) = prune mkset z) by (intros; eapply IH; eauto).
    clear - H NV. induction l as [|z l IHl]; auto. cbn [filter]. destruct (voidb z) eqn:B; cbn [negb map filter].
    - apply IHl. intros; apply H; simpl; auto.
    - rewrite NV by (rewrite <- voidb_void; congruence). cbn [negb map]. rewrite H by (simpl; auto). f_equal.
      apply IHl. intros; apply H; simpl; auto. }
  inversion NS as [a E|kv F|l F|l F]; subst.
  - rewrite XN; auto. rewrite XN; auto.
  - rewrite !XD. f_equal. rewrite Forall_forall in F.
    assert (H : forall e, In e kv -> prune mkset (prune mkset (snd e)) = prune mkset (snd e)).
    { intros e I. assert (I' : In (snd e) (map snd kv)) by (apply in_map; auto). eapply IH; eauto; reflexivity. }
    clear - H NV. induction kv as [|e l IHl]; auto. cbn [filter]. destruct (voidb (snd e)) eqn:B; cbn [negb map filter fst snd].
    + apply IHl. intros; apply H; simpl; auto.
    + rewrite NV by (rewrite <- voidb_void; congruence). cbn [negb map fst snd]. rewrite H by (simpl; auto). f_equal.
      apply IHl. intros; apply H; simpl; auto.
  - rewrite !XL. f_equal. now apply ML.
  - rewrite !XT. f_equal. now apply ML.
Qed.
(** Pruning twice is pruning once, up to the order of sets. *)
Theorem C51_idempotent : forall mkset, set_builder mkset -> forall x, hashable_sets x ->
  same_y (prune mkset (prune mkset x)) (prune mkset x).
Proof.
  intros mkset SB. induction x as [x IH] using yval_ind'. intros NS. destruct (C51_exact mkset SB) as (XL & XT & XD & XS & XN & _).
  assert (NV : forall z, ~ void z -> voidb (prune mkset z) = false).
  { intros z V. destruct (voidb (prune mkset z)) eqn:B; auto. exfalso. apply V, (prune_alive mkset SB), voidb_void, B. }
  assert (ML : forall l, parts x = Some l -> Forall hashable_sets l -> Forall2 same_y (map (prune mkset) (filter (fun x => negb (voidb x)) (map (prune mkset) (filter (fun x => negb (voidb x)) l))))
     (map (prune mkset) (filter (fun x => negb (voidb x)) l))).
  { intros l E F. rewrite Forall_forall in F. assert (H : forall z, In z l -> same_y (prune mkset (prune mkset z)) (prune mkset z)) by (intros; eapply IH; eauto).
    clear - H NV. induction l as [|z l IHl]; [constructor|]. cbn [filter]. destruct (voidb z) eqn:B; cbn [negb map filter].
    - apply IHl. intros; apply H; simpl; auto.
    - rewrite NV by (rewrite <- voidb_void; congruence). cbn [negb map]. constructor; [apply H; simpl; auto|].
      apply IHl. intros; apply H; simpl; auto. }
  inversion NS as [a E|kv F|l F|l F|l F]; subst.
  - rewrite (XN (prune mkset x)), !XN by (rewrite ?XN; auto). constructor.
  - rewrite !XD. rewrite Forall_forall in F.
    assert (H : forall e, In e kv -> same_y (prune mkset (prune mkset (snd e))) (prune mkset (snd e))).
    { intros e I. assert (I' : In (snd e) (map snd kv)) by (apply in_map; auto). eapply IH; eauto; reflexivity. }
    assert (G : forall kv : list (Z * yval), (forall e, In e kv -> same_y (prune mkset (prune mkset (snd e))) (prune mkset (snd e))) ->
      let kv1 := map (fun e => (fst e, prune mkset (snd e))) (filter (fun e => negb (voidb (snd e))) kv) in
      let kv2 := map (fun e => (fst e, prune mkset (snd e))) (filter (fun e => negb (voidb (snd e))) kv1) in
      map fst kv2 = map fst kv1 /\ Forall2 same_y (map snd kv2) (map snd kv1)).
    { clear - NV. induction kv as [|e l IHl]; intros H; cbn zeta; [split; constructor|]. cbn [filter].
      destruct IHl as (I1 & I2); [intros; apply H; simpl; auto|].
      destruct (voidb (snd e)) eqn:B; cbn [negb map filter fst snd]; [auto|].
      rewrite NV by (rewrite <- voidb_void; congruence). cbn [negb map fst snd]. split; [f_equal; auto|constructor; auto; apply H; simpl; auto]. }
    destruct (G _ H). constructor; auto.
  - rewrite !XL. constructor. now apply ML.
  - rewrite !XT. constructor. now apply ML.
  - destruct (XS l) as (l1 & E1 & N1 & S1). rewrite E1. destruct (XS l1) as (l2 & E2 & N2 & S2). rewrite E2. constructor.
    apply NoDup_Permutation; auto. intros y. rewrite S2. rewrite Forall_forall in F. split.
    + intros (z & I & V & ->). apply S1 in I as J. destruct J as (w & J1 & J2 & ->). rewrite prune_fix; auto.
    + intros I. apply S1 in I as J. destruct J as (w & J1 & J2 & ->). exists (prune mkset w). split; auto. split; [rewrite <- voidb_void, NV; auto|].
      now rewrite prune_fix by auto.
Qed.
Print Assumptions C51_idempotent.
Lemma inside_inv y x : inside y x -> exists l z, parts x = Some l /\ In z l /\ (y = z \/ inside y z).
Proof. intros [a l b E J|a l b c E J K]; eauto 6. Qed.
Theorem C51_clean : forall mkset, set_builder mkset -> forall x y, inside y (prune mkset x) -> ~ void y.
Proof.
  intros mkset SB x. induction x as [x IH] using yval_ind'. intros y I.
  assert (NVP : forall z, ~ void z -> ~ void (prune mkset z)) by (intros z V W; apply V, (prune_alive mkset SB), W).
  apply inside_inv in I. destruct I as (l & b & E & J & K). destruct (prune_parts mkset x l b SB E J) as (l0 & z & E0 & I0 & V & ->).
  destruct K as [->|K]; auto. eapply (IH l0 z); eauto.
Qed.
Print Assumptions C51_clean.

(** Apart from sets, pruning keeps exactly the non-blank leaves, in order, under the
    same dict keys. *)
Theorem C51_leaves : forall mkset, set_builder mkset -> forall x, no_sets x -> parts x <> None ->
  leaves (prune mkset x) = filter (fun e => nonempty (snd e)) (leaves x).
Proof.
  intros mkset SB. destruct (C51_exact mkset SB) as (XL & XT & XD & XS & XN & _).
  assert (V0 : forall x, void x -> filter (fun e : list Z * yval => nonempty (snd e)) (leaves x) = []).
  { assert (FM : forall (l : list yval), (forall y, In y l -> filter (fun e : list Z * yval => nonempty (snd e)) (leaves y) = []) ->
       filter (fun e : list Z * yval => nonempty (snd e)) (flat_map leaves l) = []).
    { induction l as [|y l IH]; intros H; auto. simpl. rewrite filter_app, H by (simpl; auto). apply IH. intros; apply H; simpl; auto. }
    induction x as [x IH] using yval_ind'. intros V. inversion V as [|i|a l E F]; subst; auto.
    rewrite Forall_forall in F. assert (H : forall y, In y l -> filter (fun e : list Z * yval => nonempty (snd e)) (leaves y) = []) by (intros; eapply IH; eauto).
    destruct x; try discriminate; injection E as <-; cbn [leaves]; auto.
    clear - H. induction kv as [|(k, v) kv IHk]; auto. simpl. rewrite filter_app, IHk by (intros; apply H; simpl; auto).
    specialize (H v (or_introl eq_refl)). clear - H. rewrite app_nil_r. induction (leaves v) as [|q ls IHl]; auto. simpl in *.
    destruct (nonempty (snd q)); [discriminate|auto]. }
  induction x as [x IH] using yval_ind'. intros NS P.
  assert (LF : forall l z, parts x = Some l -> In z l -> no_sets z -> voidb z = false ->
     leaves (prune mkset z) = filter (fun e => nonempty (snd e)) (leaves z)).
  { intros l z E I NZ V. destruct (parts z) as [l0|] eqn:EZ; [eapply IH; eauto; congruence|].
    rewrite XN by auto. destruct z as [|b i| | | | |]; try discriminate; auto. simpl in V. subst b. reflexivity. }
  assert (FL : forall l, parts x = Some l -> Forall no_sets l ->
     flat_map leaves (map (prune mkset) (filter (fun x => negb (voidb x)) l)) = filter (fun e => nonempty (snd e)) (flat_map leaves l)).
  { intros l E F. assert (H : forall z, In z l -> voidb z = false -> leaves (prune mkset z) = filter (fun e => nonempty (snd e)) (leaves z)).
    { intros z I V. rewrite Forall_forall in F. eapply LF; eauto. }
    clear - H V0. induction l as [|z l IHl]; auto. cbn [filter flat_map]. rewrite filter_app, <- IHl by (intros; apply H; simpl; auto).
    destruct (voidb z) eqn:B; cbn [negb map flat_map].
    - rewrite V0 by (apply voidb_void; auto). reflexivity.
    - rewrite H by (simpl; auto). reflexivity. }
  inversion NS as [a E|kv F|l F|l F]; subst; [congruence| | |].
  - rewrite XD. cbn [leaves]. rewrite Forall_forall in F.
    assert (H : forall e, In e kv -> voidb (snd e) = false -> leaves (prune mkset (snd e)) = filter (fun e => nonempty (snd e)) (leaves (snd e))).
    { intros e I V. assert (I' : In (snd e) (map snd kv)) by (apply in_map; auto). eapply LF; eauto. reflexivity. }
    clear - H V0. induction kv as [|(k, z) l IHl]; auto. cbn [filter flat_map fst snd]. rewrite filter_app, <- IHl by (intros; apply H; simpl; auto).
    assert (M : forall ls : list (list Z * yval), filter (fun e => nonempty (snd e)) (map (fun q => (k :: fst q, snd q)) ls) =
       map (fun q => (k :: fst q, snd q)) (filter (fun e => nonempty (snd e)) ls)).
    { induction ls as [|q ls IHq]; auto. simpl. rewrite IHq. destruct (nonempty (snd q)); auto. }
    rewrite M. destruct (voidb z) eqn:B; cbn [negb map flat_map fst snd].
    + rewrite V0 by (apply voidb_void; auto). reflexivity.
    + specialize (H (k, z) (or_introl eq_refl) B). cbn [snd] in H. rewrite H. reflexivity.
  - rewrite XL. cbn [leaves]. apply FL; auto.
  - rewrite XT. cbn [leaves]. apply FL; auto.
Qed.
Print Assumptions C51_leaves.

(** Set builders exist. *)
Fixpoint ydec (a b : yval) {struct a} : bool :=
  match a, b with
  | YNone, YNone => true
  | YStr u i, YStr v j => Bool.eqb u v && (i =? j)%Z
  | YAtom x, YAtom y => (x =? y)%Z
  | YTuple l, YTuple m | YList l, YList m | YSet l, YSet m =>
      (fix go l m := match l, m with [], [] => true | x :: l, y :: m => ydec x y && go l m | _, _ => false end) l m
  | YDict l, YDict m =>
      (fix go l m := match l, m with [], [] => true | x :: l, y :: m => ((fst x =? fst y)%Z && ydec (snd x) (snd y)) && go l m | _, _ => false end) l m
  | _, _ => false
  end.
Lemma ydec_eq : forall a b, ydec a b = true <-> a = b.
Proof.
  induction a as [x IH] using yval_ind'.
  assert (G : forall l, parts x = Some l -> forall m,
    (fix go l m := match l, m with [], [] => true | x :: l, y :: m => ydec x y && go l m | _, _ => false end) l m = true <-> l = m).
  { intros l E. specialize (fun y => IH l y E). clear E. induction l as [|y l IHl]; intros [|z m]; split; try discriminate; auto.
    - intros H. apply andb_true_iff in H. destruct H as (H1 & H2). apply IH in H1; [|simpl; auto]. apply IHl in H2; [congruence|].
      intros; apply IH; simpl; auto.
    - intros [= <- <-]. apply andb_true_iff. split; [apply IH; simpl; auto|]. apply IHl; auto. intros; apply IH; simpl; auto. }
  intros b. destruct x as [|u i|i|kv|l|l|l], b as [|u' i'|i'|kv'|l'|l'|l']; cbn [ydec]; split; try discriminate; auto.
  - rewrite andb_true_iff, eqb_true_iff, Z.eqb_eq. intros (-> & ->). auto.
  - intros [= <- <-]. now rewrite eqb_reflx, Z.eqb_refl.
  - rewrite Z.eqb_eq. congruence.
  - intros [= <-]. apply Z.eqb_refl.
  - intros H. f_equal. clear G. specialize (fun y => IH _ y eq_refl). revert kv' H. induction kv as [|(k, v) kv IHk]; intros [|(k', v') kv'] H; try discriminate; auto.
    apply andb_true_iff in H. destruct H as (H1 & H2). cbn [fst snd] in H1. apply andb_true_iff in H1. destruct H1 as (H0 & H1). apply Z.eqb_eq in H0.
    apply IH in H1; [|simpl; auto]. subst. f_equal. apply IHk; auto. intros; apply IH; simpl; auto.
  - intros [= <-]. clear G. specialize (fun y => IH _ y eq_refl). induction kv as [|(k, v) kv IHk]; auto. cbn [fst snd]. rewrite Z.eqb_refl.
    rewrite (proj2 (IH v (or_introl eq_refl) v) eq_refl). cbn [andb]. apply IHk. intros; apply IH; simpl; auto.
  - intros H. f_equal. now apply (G _ eq_refl).
  - intros [= <-]. now apply (G _ eq_refl).
  - intros H. f_equal. now apply (G _ eq_refl).
  - intros [= <-]. now apply (G _ eq_refl).
  - intros H. f_equal. now apply (G _ eq_refl).
  - intros [= <-]. now apply (G _ eq_refl).
Qed.
Definition small_set (l : list yval) : list yval :=
  fold_right (fun x r => if existsb (ydec x) r then r else x :: r) [] l.
Lemma small_set_builder : set_builder small_set.
Proof.
  intros l. induction l as [|x l (N & IH)]; cbn [small_set fold_right]; [split; [constructor|tauto]|]. fold (small_set l).
  assert (E : existsb (ydec x) (small_set l) = true <-> In x (small_set l)).
  { rewrite existsb_exists. split; [intros (y & I & Q); apply ydec_eq in Q; now subst|intros I; exists x; split; auto; now apply ydec_eq]. }
  destruct (existsb (ydec x) (small_set l)) eqn:Q.
  - split; auto. intros y. rewrite IH. simpl. split; auto. intros [<-|I]; auto. apply IH, E; auto.
  - split; [constructor; auto; rewrite <- E; discriminate|]. intros y. simpl. now rewrite IH.
Qed.

(** Pruning can make set elements equal: {(1, None), (1,)} becomes {(1,)}. *)
Example C51_example :
  prune small_set (YDict [(1, YNone); (2, YList [YStr true 0; YDict [(3, YNone)]; YAtom 0]); (4, YTuple [YList []]); (5, YStr false 7)]%Z)
    = YDict [(2, YList [YAtom 0]); (5, YStr false 7)]%Z /\
  prune small_set (YSet [YTuple [YAtom 1; YNone]; YTuple [YAtom 1]]) = YSet [YTuple [YAtom 1]] /\
  prune small_set YNone = YNone /\ prune small_set (YList [YList [YList []]]) = YList [].
Proof. repeat split. Qed.

(** What minimal_yaml writes: values other than texts, and texts that are no JSON, pruned or
    not as asked; of a text that is JSON the value it stands for, once. *)
Definition is_text (x : yval) : Prop := exists b i, x = YStr b i.
Theorem C51_written : forall mkset loads drop x, set_builder mkset ->
  (~ is_text x -> written mkset loads drop x = if drop then prune mkset x else x) /\
  (forall b i, x = YStr b i -> loads i = None -> written mkset loads drop x = x) /\
  (forall b i v, x = YStr b i -> loads i = Some v -> ~ is_text v -> written mkset loads drop x = written mkset loads drop v) /\
  (forall b i v, x = YStr b i -> loads i = Some v -> is_text v -> written mkset loads drop x = v) /\
  (forall y, drop = true -> inside y (written mkset loads drop x) -> ~ void y).
Proof.
  intros mkset loads drop x SB. assert (T : forall v, ~ is_text v -> written mkset loads drop v = if drop then prune mkset v else v).
  { intros [|b i| | | | |] N; try reflexivity. exfalso. apply N. exists b, i. reflexivity. }
  split; [apply T|]. split; [|split; [|split]].
  - intros b i -> E. unfold written. rewrite E. destruct drop; reflexivity.
  - intros b i v -> E N. rewrite (T v N). unfold written. rewrite E. reflexivity.
  - intros b i v -> E (b' & i' & ->). unfold written. rewrite E. destruct drop; reflexivity.
  - intros y -> I. unfold written in I. eapply C51_clean; eauto.
Qed.
Print Assumptions C51_written.
(** So a text is not always written as that text: 12 becomes the number, null becomes None;
    a JSON text holding a text that is JSON itself is not parsed again; texts inside
    containers are never parsed; and a top-level value is written even if it is void. *)
Definition some_json (i : Z) : option yval :=
  (if i =? 12 then Some (YAtom 12) else if i =? 0 then Some YNone else if i =? 22 then Some (YStr false 12)
   else if i =? 90 then Some (YList [YNone; YStr false 12]) else None)%Z.
Theorem C51_text_refuted :
  written small_set some_json true (YStr false 12) = YAtom 12 /\
  written small_set some_json true (YStr false 0) = YNone /\
  written small_set some_json true (YStr false 22) = YStr false 12 /\
  written small_set some_json true (YStr false 90) = YList [YStr false 12] /\
  written small_set some_json false (YStr false 90) = YList [YNone; YStr false 12] /\
  written small_set some_json true (YList [YStr false 12]) = YList [YStr false 12] /\
  written small_set some_json true (YStr true 1) = YStr true 1.
Proof. repeat split. Qed.
Print Assumptions C51_text_refuted.
