(** Exception trees: splitting, accumulating, serializing. *)
From Coq Require Import String.
From Coq Require Import List Bool Arith Lia.
From Verif Require Import PyBase PyFacts ModelExc SpecExc.
Import ListNotations.
#[local] Arguments eqb : simpl never.

Section Ind.
  Variable P : pyexc -> Prop.
  Hypothesis Hleaf : forall e, (forall o m l, e <> Group o m l) -> P e.
  Hypothesis Hgroup : forall o m l, Forall P l -> P (Group o m l).
  Fixpoint pyexc_tree_ind (e : pyexc) : P e.
  Proof.
    refine (match e with
            | Group o m l => Hgroup o m l ((fix go (l : list pyexc) : Forall P l :=
                match l with [] => Forall_nil _ | x :: t => Forall_cons _ (pyexc_tree_ind x) (go t) end) l)
            | _ => Hleaf _ _
            end); discriminate.
  Defined.
End Ind.

Lemma leaf_cases : forall e, (forall o m l, e <> Group o m l) \/ exists o m l, e = Group o m l.
Proof. destruct e; [left|left|left|left|left|right]; try (intros; discriminate). eauto. Qed.

Lemma flat_map_nil : forall A B (f : A -> list B) l, (forall x, In x l -> f x = []) -> flat_map f l = [].
Proof. induction l as [|a t IH]; intros H; simpl; [reflexivity|]. rewrite (H a), IH; auto. intros; apply H; right; auto. left; reflexivity. Qed.

Lemma filter_flat_map : forall A B (f : A -> list B) p l,
  filter p (flat_map f l) = flat_map (fun x => filter p (f x)) l.
Proof.
  induction l as [|a t IH]; simpl; [reflexivity|]. rewrite filter_app, IH. reflexivity.
Qed.

Lemma flat_map_ext_in : forall A B (f g : A -> list B) l, (forall x, In x l -> f x = g x) ->
  flat_map f l = flat_map g l.
Proof.
  induction l as [|a t IH]; intros H; simpl; [reflexivity|].
  rewrite (H a (or_introl eq_refl)), IH; [reflexivity|]. intros; apply H; right; assumption.
Qed.

Definition opt_located (above : list (nat * string)) (o : option pyexc) :=
  match o with Some e => located above e | None => [] end.

Lemma flat_map_opt : forall above (l : list (option pyexc)),
  flat_map (located above) (flat_map (fun x => match x with Some e => [e] | None => [] end) l) =
  flat_map (opt_located above) l.
Proof.
  induction l as [|[e|] t IH]; simpl; [reflexivity | rewrite IH; reflexivity | exact IH].
Qed.

Lemma flat_map_map' : forall A B C (f : A -> B) (g : B -> list C) l, flat_map g (map f l) = flat_map (fun x => g (f x)) l.
Proof. induction l as [|a t IH]; simpl; [reflexivity | rewrite IH; reflexivity]. Qed.

Lemma split_located : forall p, (forall o m l, p (Group o m l) = false) -> forall e above,
  opt_located above (fst (split p e)) = filter (fun x => p (snd x)) (located above e) /\
  opt_located above (snd (split p e)) = filter (fun x => negb (p (snd x))) (located above e).
Proof.
  intros p Hp e. induction e as [e He|o m l IH] using pyexc_tree_ind; intros above.
  - assert (E : split p e = if p e then (Some e, None) else (None, Some e)).
    { destruct e; try reflexivity. exfalso. eapply He; reflexivity. }
    assert (L : located above e = [(above, e)]).
    { destruct e; try reflexivity. exfalso. eapply He; reflexivity. }
    rewrite E, L. simpl. destruct (p e); simpl; rewrite ?L; auto.
  - simpl split. simpl located. rewrite !filter_flat_map.
    rewrite Forall_forall in IH.
    assert (G : forall (sel : option pyexc * option pyexc -> option pyexc) q,
      (forall x, In x l -> opt_located ((o, m) :: above) (sel (split p x)) = filter q (located ((o, m) :: above) x)) ->
      opt_located above
        (match flat_map (fun x => match sel x with Some e' => [e'] | None => [] end) (map (split p) l) with
         | [] => None
         | _ => Some (Group o m (flat_map (fun x => match sel x with Some e' => [e'] | None => [] end) (map (split p) l)))
         end) = flat_map (fun x => filter q (located ((o, m) :: above) x)) l).
    { intros sel q Hs. rewrite <- (flat_map_ext_in _ _ _ _ l Hs).
      rewrite !flat_map_map'.
      assert (K : flat_map (located ((o, m) :: above)) (flat_map (fun x => match sel (split p x) with Some e' => [e'] | None => [] end) l)
                = flat_map (fun x => opt_located ((o, m) :: above) (sel (split p x))) l).
      { clear. induction l as [|a t IH]; simpl; [reflexivity|]. rewrite flat_map_app, IH.
        destruct (sel (split p a)); simpl; rewrite ?app_nil_r; reflexivity. }
      rewrite <- K. destruct (flat_map (fun x => match sel (split p x) with Some e' => [e'] | None => [] end) l); reflexivity. }
    split.
    + apply (G fst). intros x Hx. apply (IH x Hx).
    + apply (G snd). intros x Hx. apply (IH x Hx).
Qed.

Lemma located_nonempty : forall e above, proper e -> located above e <> [].
Proof.
  induction e as [e He|o m l IH] using pyexc_tree_ind; intros above Hp.
  - destruct e; try discriminate. exfalso; eapply He; reflexivity.
  - inversion Hp as [? H|? ? ? Hn Hf]; subst; [exfalso; eapply H; reflexivity|].
    destruct l as [|x t]; [contradiction|]. simpl. rewrite Forall_forall in IH, Hf.
    intros E. apply app_eq_nil in E. destruct E as [E _]. revert E.
    apply IH; [left; reflexivity | apply Hf; left; reflexivity].
Qed.

Lemma split_proper : forall p e, proper e ->
  (forall a, fst (split p e) = Some a -> proper a) /\ (forall a, snd (split p e) = Some a -> proper a).
Proof.
  intros p e. induction e as [e He|o m l IH] using pyexc_tree_ind; intros Hp.
  - assert (E : split p e = if p e then (Some e, None) else (None, Some e)).
    { destruct e; try reflexivity. exfalso. eapply He; reflexivity. }
    rewrite E. destruct (p e); simpl; split; intros a Ha; try discriminate; injection Ha as <-; exact Hp.
  - inversion Hp as [? H|? ? ? Hn Hf]; subst; [exfalso; eapply H; reflexivity|].
    simpl. rewrite Forall_forall in IH, Hf.
    assert (G : forall (sel : option pyexc * option pyexc -> option pyexc),
      (forall x a, In x l -> sel (split p x) = Some a -> proper a) ->
      Forall proper (flat_map (fun x => match sel x with Some e' => [e'] | None => [] end) (map (split p) l))).
    { intros sel Hs. apply Forall_forall. intros y Hy. apply in_flat_map in Hy.
      destruct Hy as [z [Hz Hy]]. apply in_map_iff in Hz. destruct Hz as [x [<- Hx]].
      destruct (sel (split p x)) eqn:E; [|destruct Hy]. destruct Hy as [<-|[]]. eapply Hs; eauto. }
    pose proof (G fst (fun x a Hx => proj1 (IH x Hx (Hf x Hx)) a)) as G1.
    pose proof (G snd (fun x a Hx => proj2 (IH x Hx (Hf x Hx)) a)) as G2. clear G.
    split; intros a Ha.
    + destruct (flat_map _ _) as [|y t]; [discriminate|]. injection Ha as <-. constructor; [discriminate | exact G1].
    + destruct (flat_map (fun x => match snd x with Some e' => [e'] | None => [] end) (map (split p) l)) as [|y t]; [discriminate|].
      injection Ha as <-. constructor; [discriminate | exact G2].
Qed.

(** Leaves of a part, and whether it exists. *)
Lemma opt_leaves : forall o, (forall a, o = Some a -> proper a) ->
  (o = None <-> opt_located [] o = []).
Proof.
  intros [a|] H; simpl; [|tauto]. split; [discriminate|]. intros E. exfalso.
  apply (located_nonempty a [] (H a eq_refl) E).
Qed.

(** ** add_error *)
Lemma leaves_group : forall o m l, leaves (Group o m l) = flat_map leaves l.
Proof.
  intros o m l. unfold leaves. simpl. 
  assert (G : forall e a b, map snd (located a e) = map snd (located b e)).
  { induction e as [e He|o' m' l' IH] using pyexc_tree_ind; intros a b.
    - destruct e; try reflexivity. exfalso; eapply He; reflexivity.
    - simpl. rewrite Forall_forall in IH. induction l' as [|x t IHl]; [reflexivity|].
      simpl. rewrite !map_app. rewrite (IH x (or_introl eq_refl) ((o', m') :: a) ((o', m') :: b)). f_equal.
      apply IHl. intros y Hy. apply IH. right; exact Hy. }
  induction l as [|x t IH]; [reflexivity|]. simpl. rewrite map_app, IH. f_equal. apply G.
Qed.

Lemma exception_group_Some : forall e l, exception_group e = Some l ->
  exists o m, e = Group o m l /\ forallb is_exception l = true.
Proof.
  intros e l H. destruct e as [| | | | |o m k]; try discriminate. simpl in H.
  destruct (forallb is_exception k) eqn:E; [|discriminate]. injection H as <-. eauto.
Qed.
Lemma exception_group_None : forall e, is_exception e = true -> exception_group e = None ->
  forall o m l, e <> Group o m l.
Proof.
  intros e H1 H2 o m l ->. simpl in *. rewrite H1 in H2. discriminate.
Qed.

(** ** Serialization *)
Lemma ser_leaf_located : forall above e, ser_located above (ser_leaf e) = [(above, ser_leaf e)].
Proof. intros above []; reflexivity. Qed.

Lemma depth_member : forall o m l x, In x l -> depth x < depth (Group o m l).
Proof.
  intros o m l x H. simpl. induction l as [|a t IH]; [destruct H|]. simpl. destruct H as [<-|H].
  - lia.
  - specialize (IH H). lia.
Qed.

Lemma inside_trans : forall a b c, inside a b -> inside b c -> inside a c.
Proof. intros a b c H1 H2. induction H2; [exact H1|]. econstructor; eauto. Qed.

Lemma inside_depth : forall a b, inside a b -> depth a <= depth b.
Proof.
  intros a b H. induction H as [|o m l x y Hx Hy IH]; [lia|]. pose proof (depth_member o m l x Hx). lia.
Qed.

Lemma ser_group_located : forall root, identity_ok root ->
  forall e d seen above, inside e root ->
  is_exception e = true -> d + depth e <= S MAX_DEPTH ->
  (forall o, In o seen -> exists m l, inside (Group o m l) root /\ depth e < depth (Group o m l)) ->
  ser_located above (ser_group d seen e) = located_ser above e.
Proof.
  intros root Hid e. induction e as [e He|o m l IH] using pyexc_tree_ind; intros d seen above Hin Hex Hd Hs.
  - assert (E : ser_group d seen e = ser_leaf e) by (destruct e; try reflexivity; exfalso; eapply He; reflexivity).
    assert (F : located_ser above e = [(above, ser_leaf e)]) by (destruct e; try reflexivity; exfalso; eapply He; reflexivity).
    rewrite E, F. apply ser_leaf_located.
  - assert (Hd1 : (Nat.ltb MAX_DEPTH d) = false).
    { apply Nat.ltb_ge. change (depth (Group o m l)) with (S (fold_right Nat.max 0 (map depth l))) in Hd. lia. }
    assert (Hm : memb o seen = false).
    { destruct (memb o seen) eqn:E; [|reflexivity]. exfalso. apply memb_In in E.
      destruct (Hs o E) as (m' & l' & Hi & Hlt). destruct (Hid o m l m' l' Hin Hi) as [<- <-]. lia. }
    cbn [ser_group located_ser]. rewrite Hd1, Hm. cbn [ser_located]. rewrite flat_map_map'.
    apply flat_map_ext_in. intros x Hx. simpl in Hex. rewrite forallb_forall in Hex.
    rewrite Forall_forall in IH. pose proof (depth_member o m l x Hx) as Hdx.
    destruct (exception_group x) eqn:Ex.
    + apply (IH x Hx).
      * eapply inside_trans; [|exact Hin]. econstructor; [exact Hx | constructor].
      * apply Hex; exact Hx.
      * lia.
      * intros o' [<-|Ho'].
        -- exists m, l. split; [exact Hin | exact Hdx].
        -- destruct (Hs o' Ho') as (m' & l' & Hi & Hlt). exists m', l'. split; [exact Hi | lia].
    + pose proof (exception_group_None x (Hex x Hx) Ex) as Hlf.
      assert (F : located_ser ((m, List.length l) :: above) x = [((m, List.length l) :: above, ser_leaf x)])
        by (destruct x; try reflexivity; exfalso; eapply Hlf; reflexivity).
      rewrite F. apply ser_leaf_located.
Qed.
