(** Invariants of the interleaved processor. *)
From Coq Require Import List Bool Arith ZArith Lia Permutation.
From Verif Require Import PyBase PyFacts ModelHeap SpecHeap ProofsHeap ModelEvent ModelProcessor SpecProcessor
  ProofsPQueue.
Import ListNotations.
#[local] Arguments eqb : simpl never.

Lemma qlt_weak : weak_order qlt.
Proof.
  unfold qlt. split.
  - intros [a i] [b j] H. simpl in *. apply orb_true_iff in H. apply orb_false_iff.
    rewrite !andb_true_iff, !Z.ltb_lt, !Z.eqb_eq, !Nat.ltb_lt in H.
    rewrite andb_false_iff, Z.ltb_ge, Z.eqb_neq, Nat.ltb_ge. lia.
  - intros [a i] [b j] [c l] H1 H2. simpl in *. apply orb_false_iff in H1, H2. apply orb_false_iff.
    rewrite andb_false_iff, Z.ltb_ge, Z.eqb_neq, Nat.ltb_ge in *. lia.
Qed.

Lemma all_status_In : forall x, In x all_status.
Proof. intros []; simpl; tauto. Qed.

(** ** Lists *)
Lemma flat_map_upd_perm : forall A B (f : A -> list B) l t a b, nth_error l t = Some a ->
  exists R, Permutation (flat_map f l) (f a ++ R) /\ Permutation (flat_map f (upd t b l)) (f b ++ R).
Proof.
  intros A B f. induction l as [|x l IH]; intros [|t] a b H; simpl in *; try discriminate.
  - injection H as ->. exists (flat_map f l). split; apply Permutation_refl.
  - destruct (IH t a b H) as (R & P1 & P2). exists (f x ++ R).
    split.
    + rewrite P1, !app_assoc. apply Permutation_app_tail, Permutation_app_comm.
    + rewrite P2, !app_assoc. apply Permutation_app_tail, Permutation_app_comm.
Qed.

Lemma strip1_In : forall id l u, NoDup l -> (In u (strip1 id l) <-> In u l /\ u <> id).
Proof.
  intros id l u Hn. unfold strip1. destruct (remove_first id l) as [l'|] eqn:E.
  - revert l' E. induction l as [|y t IH]; intros l' E; simpl in E; [discriminate|].
    inversion Hn as [|? ? Hy Ht]; subst. destruct (eqb_spec id y) as [Hxy|Hxy]; [subst y|].
    + injection E as <-. simpl. split; [intros H; split; [auto | intros ->; contradiction] | intros [[<-|H] Hne]; [contradiction | exact H]].
    + destruct (remove_first id t) as [t'|]; [|discriminate]. injection E as <-. simpl.
      rewrite (IH Ht t' eq_refl). split; [intros [<-|[H Hne]]; auto | intros [[<-|H] Hne]; auto].
  - assert (Hn' : ~ In id l).
    { clear Hn. induction l as [|y t IH]; [intros []|]. simpl in E. destruct (eqb_spec id y) as [Hxy|Hxy]; [discriminate|].
      destruct (remove_first id t); [discriminate|]. intros [<-|H]; [contradiction | apply IH; auto]. }
    split; [intros H; split; [exact H | intros ->; contradiction] | tauto].
Qed.

Lemma strip1_NoDup : forall id l, NoDup l -> NoDup (strip1 id l).
Proof.
  intros id l Hn. unfold strip1. destruct (remove_first id l) as [l'|] eqn:E; [|exact Hn].
  revert l' E. induction l as [|y t IH]; intros l' E; simpl in E; [discriminate|].
  inversion Hn as [|? ? Hy Ht]; subst. destruct (eqb id y) eqn:Exy; [injection E as <-; exact Ht|].
  destruct (remove_first id t) as [t'|] eqn:Et; [|discriminate]. injection E as <-.
  constructor; [|apply IH; auto]. intros Hc. apply Hy.
  pose proof (proj1 (strip1_In id t y Ht)) as H. unfold strip1 in H. rewrite Et in H. apply H; exact Hc.
Qed.

Lemma NoDup_flat : forall (f : status -> list uuid), (forall x, NoDup (f x)) ->
  (forall x y u, In u (f x) -> In u (f y) -> x = y) -> NoDup (in_progs_of f).
Proof.
  intros f H1 H2. unfold in_progs_of.
  assert (G : forall l, NoDup l -> NoDup (flat_map f l)).
  { induction l as [|x t IH]; intros Hn; simpl; [constructor|]. inversion Hn as [|? ? Hx Ht]; subst.
    induction (f x) eqn:Ef in |- * at 1.
    - apply IH; exact Ht.
    - assert (K : forall l1, incl l1 (f x) -> NoDup l1 -> NoDup (l1 ++ flat_map f t)).
      { clear IHl. induction l1 as [|b l1 IH1]; intros Hi Hd; simpl; [apply IH; exact Ht|].
        inversion Hd; subst. constructor; [|apply IH1; auto; intros z Hz; apply Hi; right; exact Hz].
        rewrite in_app_iff. intros [Hc|Hc]; [contradiction|]. apply in_flat_map in Hc. destruct Hc as [y [Hy Hc]].
        assert (x = y) by (apply (H2 x y b); [apply Hi; left; reflexivity | exact Hc]). subst y. contradiction. }
      rewrite <- Ef. apply K; [intros z Hz; exact Hz | apply H1]. }
  apply G. repeat (constructor; [simpl; intuition discriminate|]). constructor.
Qed.

(** ** The invariant *)
Record PI (its : list uuid) (f : status -> list uuid) (Wt Rn : list uuid) : Prop := {
  i_nd : NoDup its;
  i_p : forall x, NoDup (f x);
  i_one : forall x y u, In u (f x) -> In u (f y) -> x = y;
  i_mem : forall u, In u its <-> exists x, In u (f x);
  i_tok : NoDup (Wt ++ Rn);
  i_w : forall u, In u Wt -> In u (f PENDING);
  i_r : forall u, In u Rn -> In u (f PROCESSING)
}.

Lemma PI_perm : forall its f W R W' R', PI its f W R -> Permutation W W' -> Permutation R R' -> PI its f W' R'.
Proof.
  intros its f W R W' R' [A B C D E F G] HW HR. constructor; auto.
  - eapply Permutation_NoDup; [|exact E]. apply Permutation_app; assumption.
  - intros u Hu. apply F. eapply Permutation_in; [symmetry; exact HW | exact Hu].
  - intros u Hu. apply G. eapply Permutation_in; [symmetry; exact HR | exact Hu].
Qed.

Lemma NoDup_app_l : forall A (l l' : list A), NoDup (l ++ l') -> NoDup l'.
Proof. induction l as [|a l IH]; intros l' H; [exact H|]. inversion H; auto. Qed.

Lemma PI_drop : forall its f W R ids W', PI its f W R -> Permutation W (ids ++ W') -> PI its f W' R.
Proof.
  intros its f W R ids W' [A B C D E F G] HW. constructor; auto.
  - apply (NoDup_app_l _ ids). rewrite app_assoc. eapply Permutation_NoDup; [|exact E].
    apply Permutation_app_tail. exact HW.
  - intros u Hu. apply F. eapply Permutation_in; [symmetry; exact HW|]. apply in_or_app. right; exact Hu.
Qed.

Lemma move_In : forall f id x s u, (forall x, NoDup (f x)) ->
  (In u (move_to id x f s) <-> (In u (f s) /\ u <> id) \/ (u = id /\ s = x)).
Proof.
  intros f id x s u Hn. unfold move_to. destruct (eqb_spec s x) as [Hs|Hs]; [subst s|].
  - rewrite in_app_iff, strip1_In by apply Hn. simpl. intuition.
  - rewrite strip1_In by apply Hn. intuition.
Qed.
Lemma move_NoDup : forall f id x s, (forall x, NoDup (f x)) -> NoDup (move_to id x f s).
Proof.
  intros f id x s Hn. unfold move_to. pose proof (strip1_NoDup id (f s) (Hn s)) as H.
  destruct (eqb s x); [|exact H]. apply NoDup_app_snoc; [exact H|].
  intros Hc. apply strip1_In in Hc; [|apply Hn]. tauto.
Qed.

(** Moving an event that is stored: its tokens change with it. *)
Lemma PI_move : forall its f W R id x W' R', PI its f W R -> In id its ->
  NoDup (W' ++ R') -> (forall u, In u W' -> In u W /\ u <> id) ->
  (forall u, In u R' -> (In u R /\ u <> id) \/ (u = id /\ x = PROCESSING)) ->
  PI its (move_to id x f) W' R'.
Proof.
  intros its f W R id x W' R' [A B C D E F G] Hin Hn HW HR. constructor; auto.
  - intros s. apply move_NoDup; exact B.
  - intros s s' u H1 H2. rewrite move_In in H1, H2 by exact B.
    destruct H1 as [[H1 N1]|[H1 N1]], H2 as [[H2 N2]|[H2 N2]]; try congruence. eapply C; eauto.
  - intros u. rewrite D. split.
    + intros [y Hy]. destruct (Nat.eq_dec u id) as [->|Hne].
      * exists x. apply move_In; auto.
      * exists y. apply move_In; auto.
    + intros [y Hy]. apply move_In in Hy; [|exact B]. destruct Hy as [[Hy _]|[-> ->]]; [eauto|].
      apply D. exact Hin.
  - intros u Hu. destruct (HW u Hu) as [H1 H2]. apply move_In; auto.
  - intros u Hu. apply move_In; auto. destruct (HR u Hu) as [[H1 H2]|[-> ->]]; auto.
Qed.

Lemma PI_new : forall its f W R id, PI its f W R -> ~ In id its ->
  PI (its ++ [id]) (fun x => if eqb x PENDING then f x ++ [id] else f x) W R /\
  PI (its ++ [id]) (fun x => if eqb x PENDING then f x ++ [id] else f x) (id :: W) R.
Proof.
  intros its f W R id H Hin. pose proof H as [A B C D E F G].
  assert (Hno : forall x, ~ In id (f x)) by (intros x Hc; apply Hin; apply D; eauto).
  assert (Hm : forall x u, In u (if eqb x PENDING then f x ++ [id] else f x) <-> In u (f x) \/ (u = id /\ x = PENDING)).
  { intros x u. destruct (eqb_spec x PENDING) as [Hx|Hx]; [rewrite in_app_iff; simpl; intuition | intuition]. }
  assert (K : forall W', NoDup (W' ++ R) -> (forall u, In u W' -> In u W \/ u = id) ->
    PI (its ++ [id]) (fun x => if eqb x PENDING then f x ++ [id] else f x) W' R).
  { intros W' Hn HW. constructor; auto.
    - apply NoDup_app_snoc; assumption.
    - intros x. destruct (eqb x PENDING); [apply NoDup_app_snoc; auto | auto].
    - intros x y u H1 H2. apply Hm in H1, H2. destruct H1 as [H1|[H1 N1]], H2 as [H2|[H2 N2]]; try congruence.
      + eapply C; eauto.
      + subst u. exfalso. eapply Hno; eauto.
      + subst u. exfalso. eapply Hno; eauto.
    - intros u. rewrite in_app_iff. simpl. split.
      + intros [Hu|[<-|[]]].
        * apply D in Hu. destruct Hu as [x Hx]. exists x. apply Hm. auto.
        * exists PENDING. apply Hm. auto.
      + intros [x Hx]. apply Hm in Hx. destruct Hx as [Hx|[-> ->]]; [left; apply D; eauto | auto].
    - intros u Hu. apply Hm. destruct (HW u Hu) as [H1| ->]; auto. }
  split; apply K; auto.
  - simpl. constructor; [|exact E]. rewrite in_app_iff. intros [Hc|Hc].
    + apply (Hno PENDING), F, Hc.
    + apply (Hno PROCESSING), G, Hc.
  - intros u [<-|Hu]; auto.
Qed.

(** Removing an event without tokens. *)
Lemma PI_remove : forall its f W R id its', PI its f W R -> remove_first id its = Some its' ->
  ~ In id W -> ~ In id R -> PI its' (fun x => strip1 id (f x)) W R.
Proof.
  intros its f W R id its' [A B C D E F G] Hr HW HR.
  assert (Hi : forall u, In u its' <-> In u its /\ u <> id).
  { intros u. pose proof (strip1_In id its u A) as H. unfold strip1 in H. rewrite Hr in H. exact H. }
  constructor; auto.
  - pose proof (strip1_NoDup id its A) as H. unfold strip1 in H. rewrite Hr in H. exact H.
  - intros x. apply strip1_NoDup, B.
  - intros x y u H1 H2. apply strip1_In in H1, H2; auto. eapply C; [apply H1 | apply H2].
  - intros u. rewrite Hi, D. split.
    + intros [[x Hx] Hne]. exists x. apply strip1_In; auto.
    + intros [x Hx]. apply strip1_In in Hx; auto. destruct Hx. split; eauto.
  - intros u Hu. apply strip1_In; auto. split; [auto | intros ->; contradiction].
  - intros u Hu. apply strip1_In; auto. split; [auto | intros ->; contradiction].
Qed.

(** ** Steps preserve it *)
Definition SI (s : pst) : Prop :=
  PI (items s) (progs s) (waiting_ids s) (running_ids s) /\
  (started s = false -> waiting_ids s = [] /\ running_ids s = []) /\
  heap qlt (queue s).

Lemma waiting_new : forall s p, Permutation (waiting_ids (new_task s p)) (early p ++ waiting_ids s).
Proof.
  intros s p. unfold waiting_ids, new_task. simpl. rewrite flat_map_app. simpl. rewrite app_nil_r.
  rewrite app_assoc. apply Permutation_app_comm.
Qed.
Lemma running_new : forall s p, Permutation (running_ids (new_task s p)) (late p ++ running_ids s).
Proof.
  intros s p. unfold running_ids, new_task. simpl. rewrite flat_map_app. simpl. rewrite app_nil_r.
  apply Permutation_app_comm.
Qed.

(** Replacing the state of one task: what is left of the tokens. *)
Lemma tok_set : forall s t p, nth_error (tasks s) t = Some p -> exists E L,
  Permutation (flat_map early (tasks s)) (early p ++ E) /\
  Permutation (flat_map late (tasks s)) (late p ++ L) /\
  forall p', Permutation (flat_map early (upd t p' (tasks s))) (early p' ++ E) /\
             Permutation (flat_map late (upd t p' (tasks s))) (late p' ++ L).
Proof.
  intros s t p H.
  assert (G : forall (g : tpc -> list uuid), exists R, Permutation (flat_map g (tasks s)) (g p ++ R) /\
    forall p', Permutation (flat_map g (upd t p' (tasks s))) (g p' ++ R)).
  { intros g. revert t H. induction (tasks s) as [|x l IH]; intros [|t] H; simpl in *; try discriminate.
    - injection H as ->. exists (flat_map g l). split; [apply Permutation_refl | intros p'; apply Permutation_refl].
    - destruct (IH t H) as (R & P1 & P2). exists (g x ++ R). split.
      + rewrite P1, !app_assoc. apply Permutation_app_tail, Permutation_app_comm.
      + intros p'. rewrite (P2 p'), !app_assoc. apply Permutation_app_tail, Permutation_app_comm. }
  destruct (G early) as (E & E1 & E2). destruct (G late) as (L & L1 & L2).
  exists E, L. split; [exact E1|]. split; [exact L1|]. intros p'. split; [apply E2 | apply L2].
Qed.

Lemma push_heap : forall s p id, heap qlt (queue s) -> heap qlt (queue (push s p id)).
Proof. intros s p id H. apply (heap_push qlt qlt_weak). exact H. Qed.
Lemma push_perm : forall s p id, heap qlt (queue s) ->
  Permutation (map snd (queue (push s p id))) (id :: map snd (queue s)).
Proof.
  intros s p id H. unfold push. simpl. destruct (heap_push qlt qlt_weak (queue s) (p, id) H) as [_ P].
  apply (Permutation_map snd) in P. exact P.
Qed.

(** Token moves. *)
Lemma PI_start : forall its f W1 id W2 L, PI its f (W1 ++ id :: W2) L ->
  PI its (move_to id PROCESSING f) (W1 ++ W2) (id :: L).
Proof.
  intros its f W1 id W2 L H. pose proof H as [A B C D E F G].
  assert (P : Permutation ((W1 ++ id :: W2) ++ L) ((W1 ++ W2) ++ id :: L)).
  { rewrite <- !app_assoc. simpl. apply Permutation_app_head.
    rewrite Permutation_middle. apply Permutation_refl. }
  pose proof (Permutation_NoDup P E) as N. pose proof (NoDup_remove_2 _ _ _ N) as N2. rewrite in_app_iff in N2.
  apply (PI_move _ _ _ _ _ _ _ _ H).
  - apply D. exists PENDING. apply F. apply in_or_app. right; left; reflexivity.
  - exact N.
  - intros u Hu. split.
    + apply in_app_iff in Hu. apply in_or_app. simpl. tauto.
    + intros ->. apply N2. left; exact Hu.
  - intros u [<-|Hu]; [right; auto|]. left. split; [exact Hu|]. intros ->. apply N2. right; exact Hu.
Qed.

Lemma PI_abort : forall its f W1 id W2 L x, PI its f (W1 ++ id :: W2) L ->
  PI its (move_to id x f) (W1 ++ W2) L.
Proof.
  intros its f W1 id W2 L x H. pose proof H as [A B C D E F G].
  rewrite <- app_assoc in E. simpl in E. pose proof (NoDup_remove_1 _ _ _ E) as N1.
  pose proof (NoDup_remove_2 _ _ _ E) as N2. rewrite !in_app_iff in N2.
  apply (PI_move _ _ _ _ _ _ _ _ H).
  - apply D. exists PENDING. apply F. apply in_or_app. right; left; reflexivity.
  - rewrite <- app_assoc. exact N1.
  - intros u Hu. apply in_app_iff in Hu. split.
    + apply in_or_app. simpl. tauto.
    + intros ->. tauto.
  - intros u Hu. left. split; [exact Hu|]. intros ->. tauto.
Qed.

Lemma PI_done : forall its f W id L x, PI its f W (id :: L) -> PI its (move_to id x f) W L.
Proof.
  intros its f W id L x H. pose proof H as [A B C D E F G].
  pose proof (NoDup_remove_1 _ _ _ E) as N1.
  pose proof (NoDup_remove_2 _ _ _ E) as N2. rewrite !in_app_iff in N2.
  apply (PI_move _ _ _ _ _ _ _ _ H).
  - apply D. exists PROCESSING. apply G. left; reflexivity.
  - exact N1.
  - intros u Hu. split; [exact Hu|]. intros ->. tauto.
  - intros u Hu. left. split; [right; exact Hu|]. intros ->. tauto.
Qed.

Lemma PI_ext : forall its f g W R, PI its f W R -> (forall x, g x = f x) -> PI its g W R.
Proof.
  intros its f g W R [A B C D E F G] H. constructor; auto.
  - intros x. rewrite H. apply B.
  - intros x y u. rewrite !H. apply C.
  - intros u. rewrite D. split; intros [x Hx]; exists x; [rewrite H | rewrite <- H]; exact Hx.
  - intros u Hu. rewrite H. auto.
  - intros u Hu. rewrite H. auto.
Qed.

Lemma strip1_absent : forall id l, ~ In id l -> strip1 id l = l.
Proof.
  intros id l H. unfold strip1. rewrite (proj2 (remove_first_None id l) H). reflexivity.
Qed.

Section Inv.
  Variable k : cfg.

  Lemma top_early : forall s n, early (top s n) = [].
  Proof. intros s n. unfold top. destruct (_ && _); reflexivity. Qed.
  Lemma top_late : forall s n, late (top s n) = [].
  Proof. intros s n. unfold top. destruct (_ && _); reflexivity. Qed.

  Lemma back_spec : forall s ids s' q, back k s ids = (s', q) ->
    (s' = s \/ s' = w_stop s false) /\ (early q = ids \/ early q = []) /\ late q = [].
  Proof.
    intros s [|id rest] s' q H; simpl in H.
    - injection H as <- <-. auto.
    - destruct (enq_check k s id PNone); injection H as <- <-; simpl; auto.
  Qed.

  (** Rebuilding the invariant after the state of task [t] changed. *)
  Lemma SI_open : forall s t p, nth_error (tasks s) t = Some p -> SI s -> exists E L,
    PI (items s) (progs s) (map snd (queue s) ++ early p ++ E) (late p ++ L) /\
    (started s = false -> queue s = [] /\ early p = [] /\ E = [] /\ late p = [] /\ L = []) /\
    forall s' p', tasks s' = upd t p' (tasks s) -> started s' = started s ->
      PI (items s') (progs s') (map snd (queue s') ++ early p' ++ E) (late p' ++ L) ->
      (started s = false -> queue s' = [] /\ early p' = [] /\ late p' = []) ->
      heap qlt (queue s') -> SI s'.
  Proof.
    intros s t p Ht (H1 & H2 & H3). destruct (tok_set s t p Ht) as (E & L & PE & PL & PN). exists E, L.
    split; [|split].
    - apply (PI_perm _ _ _ _ _ _ H1); [|exact PL]. unfold waiting_ids. apply Permutation_app_head. exact PE.
    - intros Hs. destruct (H2 Hs) as [W R]. unfold waiting_ids in W. apply app_eq_nil in W. destruct W as [W1 W2].
      unfold running_ids in R. rewrite W2 in PE. rewrite R in PL.
      apply Permutation_nil in PE. apply Permutation_nil in PL. apply app_eq_nil in PE, PL.
      split; [apply map_eq_nil in W1; exact W1 | tauto].
    - intros s' p' T St HP Hs Hh. split; [|split; [|exact Hh]].
      + apply (PI_perm _ _ _ _ _ _ HP).
        * unfold waiting_ids. rewrite T. apply Permutation_app_head. symmetry. apply PN.
        * unfold running_ids. rewrite T. symmetry. apply PN.
      + intros Hst. rewrite St in Hst. destruct (Hs Hst) as (Q & E' & L').
        destruct (H2 Hst) as [W R]. unfold waiting_ids in W. apply app_eq_nil in W. destruct W as [W1 W2].
        unfold running_ids in R. rewrite W2 in PE. rewrite R in PL.
        apply Permutation_nil in PE. apply Permutation_nil in PL. apply app_eq_nil in PE, PL.
        destruct PE as [_ ->], PL as [_ ->]. destruct (PN p') as [P1 P2]. rewrite E' in P1. rewrite L' in P2.
        simpl in P1, P2. symmetry in P1, P2. apply Permutation_nil in P1. apply Permutation_nil in P2.
        unfold waiting_ids, running_ids. rewrite T, Q, P1, P2. auto.
  Qed.

  Lemma SI_new_task : forall s p, SI s -> early p = [] -> late p = [] -> SI (new_task s p).
  Proof.
    intros s p (H1 & H2 & H3) E L. 
    assert (W : waiting_ids (new_task s p) = waiting_ids s).
    { unfold waiting_ids, new_task. simpl. rewrite flat_map_app. simpl. rewrite E. rewrite !app_nil_r. reflexivity. }
    assert (R : running_ids (new_task s p) = running_ids s).
    { unfold running_ids, new_task. simpl. rewrite flat_map_app. simpl. rewrite L. rewrite !app_nil_r. reflexivity. }
    split; [|split]; [rewrite W, R; exact H1 | rewrite W, R; exact H2 | exact H3].
  Qed.

  Lemma SI_step : forall s t, SI s -> SI (step k s t).
  Proof.
    intros s t H. unfold step. destruct (nth_error (tasks s) t) as [p|] eqn:Ht; [|exact H].
    destruct (SI_open s t p Ht H) as (E & L & HP & HE & HB). pose proof H as (_ & _ & Hh).
    destruct p as [p id|p id rest|n|n p id|n id|n id|n p id|n|par id|par id mine|par id|par id| |e l]; try exact H.
    - (* APut *) simpl in HP. eapply (HB _ ADone); [reflexivity | reflexivity | | |].
      + simpl. apply (PI_perm _ _ _ _ _ _ HP); [|apply Permutation_refl].
        rewrite (push_perm s p id Hh). simpl. symmetry. apply Permutation_middle.
      + intros Hs. destruct (HE Hs) as (_ & Hc & _). discriminate.
      + apply push_heap. exact Hh.
    - (* ABackPut *) destruct (back k (push s p id) rest) as [s1 q] eqn:Eb.
      destruct (back_spec _ _ _ _ Eb) as (Hs1 & Hq & Hl).
      assert (G : items s1 = items s /\ progs s1 = progs s /\ queue s1 = queue (push s p id) /\ tasks s1 = tasks s /\ started s1 = started s).
      { destruct Hs1 as [-> | ->]; auto. }
      destruct G as (G1 & G2 & G3 & G4 & G5).
      eapply (HB _ q); [simpl; rewrite G4; reflexivity | exact G5 | | |].
      + simpl. rewrite G1, G2, G3, Hl. simpl in HP.
        assert (HP' : PI (items s) (progs s) (map snd (queue (push s p id)) ++ rest ++ E) L).
        { apply (PI_perm _ _ _ _ _ _ HP); [|apply Permutation_refl].
          rewrite (push_perm s p id Hh). simpl. symmetry. apply Permutation_middle. }
        destruct Hq as [-> | ->]; [exact HP'|].
        eapply PI_drop; [exact HP'|]. simpl. rewrite (Permutation_app_comm rest E), app_assoc.
        apply Permutation_app_comm.
      + intros Hs. destruct (HE Hs) as (_ & Hc & _). discriminate.
      + simpl. rewrite G3. apply push_heap. exact Hh.
    - (* LGet *) pose proof (heap_pop qlt qlt_weak (queue s) Hh) as Hp.
      destruct (heappop qlt (queue s)) as [[[p id] h]|]; [|exact H]. destruct Hp as (Hh' & P & _).
      apply (Permutation_map snd) in P. simpl in P.
      assert (Hne : started s = false -> False).
      { intros Hs. destruct (HE Hs) as (Hc & _). rewrite Hc in P. simpl in P. apply Permutation_nil in P. discriminate. }
      destruct (memb id (items s)) eqn:Em.
      + eapply (HB _ (LPerm n p id)); [reflexivity | reflexivity | | intros Hs; destruct (Hne Hs) | exact Hh'].
        simpl. apply (PI_perm _ _ _ _ _ _ HP); [|apply Permutation_refl]. simpl.
        rewrite P. simpl. apply Permutation_middle.
      + eapply (HB _ (top _ n)); [reflexivity | reflexivity | | intros Hs; destruct (Hne Hs) | exact Hh'].
        simpl. rewrite top_early, top_late. simpl. eapply (PI_drop _ _ _ _ [id]); [exact HP|]. simpl.
        rewrite P. simpl. apply Permutation_refl.
    - (* LUpd *) simpl in HP.
      set (s1 := w_avail (w_progs s (move_to id PROCESSING (progs s))) (avail s - 1)%Z).
      assert (HQ : SI (set_task s1 t (KSem t id))).
      { eapply (HB _ (KSem t id)); [reflexivity | reflexivity | | | exact Hh].
        - simpl. apply PI_start in HP. exact HP.
        - intros Hs. destruct (HE Hs) as (_ & Hc & _). discriminate. }
      assert (P : forall g : tpc -> list uuid, g (top s1 (S n)) = [] ->
        Permutation (flat_map g (tasks (set_task s1 t (KSem t id)))) (flat_map g (tasks (new_task (set_task s1 t (top s1 (S n))) (KSem t id))))).
      { intros g Hg. simpl. rewrite flat_map_app. simpl. rewrite app_nil_r.
        destruct (flat_map_upd_perm _ _ g (tasks s) t (LUpd n id) (KSem t id) Ht) as (R & R1 & R2).
        destruct (flat_map_upd_perm _ _ g (tasks s) t (LUpd n id) (top s1 (S n)) Ht) as (R' & R1' & R2').
        rewrite Hg in R2'. simpl in R2'. rewrite R2, R2'.
        rewrite R1 in R1'. apply Permutation_app_inv_l in R1'. rewrite R1'. apply Permutation_app_comm. }
      destruct HQ as (Q1 & Q2 & Q3). split; [|split; [|exact Q3]].
      + apply (PI_perm _ _ _ _ _ _ Q1).
        * apply Permutation_app_head. apply (P early). apply top_early.
        * apply (P late). apply top_late.
      + intros Hs. destruct (HE Hs) as (_ & Hc & _). discriminate.
    - (* LAbort *) simpl in HP. eapply (HB _ (LJoin n)); [reflexivity | reflexivity | | | exact Hh].
      + simpl. apply PI_abort. exact HP.
      + intros Hs. destruct (HE Hs) as (_ & Hc & _). discriminate.
    - (* LRequeue *) simpl in HP. eapply (HB _ (LJoin n)); [reflexivity | reflexivity | | |].
      + simpl. apply (PI_perm _ _ _ _ _ _ HP); [|apply Permutation_refl].
        rewrite (push_perm s p id Hh). simpl. symmetry. apply Permutation_middle.
      + intros Hs. destruct (HE Hs) as (_ & Hc & _). discriminate.
      + apply push_heap. exact Hh.
    - (* LJoin *) destruct (existsb _ _); [exact H|]. destruct (0 <? n).
      + eapply (HB _ ADone); [reflexivity | reflexivity | exact HP | | exact Hh].
        intros Hs. destruct (HE Hs) as (Hc & _). auto.
      + eapply (HB _ ADone); [reflexivity | reflexivity | exact HP | | exact Hh].
        intros Hs. destruct (HE Hs) as (Hc & _). auto.
    - (* KSem *) destruct (sem s) as [|m]; [exact H|].
      assert (G : items (set_status (w_sem s m) id PROCESSING) = items s /\ progs (set_status (w_sem s m) id PROCESSING) = progs s /\
        queue (set_status (w_sem s m) id PROCESSING) = queue s /\ started (set_status (w_sem s m) id PROCESSING) = started s /\
        tasks (set_status (w_sem s m) id PROCESSING) = tasks s).
      { unfold set_status. simpl. destruct (dget id (objs s)); auto. }
      destruct G as (G1 & G2 & G3 & G4 & G5).
      destruct (_ && _).
      + eapply (HB _ (KRun par id true)); [simpl; rewrite G5; reflexivity | exact G4 | | | simpl; rewrite G3; exact Hh].
        * simpl. rewrite G1, G2, G3. exact HP.
        * intros Hs. destruct (HE Hs) as (_ & _ & _ & Hc & _). discriminate.
      + eapply (HB _ (KRun par id false)); [reflexivity | reflexivity | exact HP | | exact Hh].
        intros Hs. destruct (HE Hs) as (_ & _ & _ & Hc & _). discriminate.
    - (* KUpd *) eapply (HB _ (KDone par id)); [reflexivity | reflexivity | | | exact Hh].
      + simpl. apply PI_done. exact HP.
      + intros Hs. destruct (HE Hs) as (_ & _ & _ & Hc & _). discriminate.
  Qed.

  Lemma SI_grant : forall s t b, SI s -> SI (grant k s t b).
  Proof.
    intros s t b H. unfold grant. destruct (nth_error (tasks s) t) as [p|] eqn:Ht; [|exact H].
    destruct (SI_open s t p Ht H) as (E & L & HP & HE & HB). pose proof H as (_ & _ & Hh).
    destruct p as [p id|p id rest|n|n p id|n id|n id|n p id|n|par id|par id mine|par id|par id| |e l]; try exact H.
    assert (Hne : started s = false -> False) by (intros Hs; destruct (HE Hs) as (_ & Hc & _); discriminate).
    destruct b; [|destruct (3 <=? _)].
    - eapply (HB _ (LUpd n id)); [reflexivity | reflexivity | exact HP | intros Hs; destruct (Hne Hs) | exact Hh].
    - eapply (HB _ (LAbort n id)); [reflexivity | reflexivity | exact HP | intros Hs; destruct (Hne Hs) | exact Hh].
    - eapply (HB _ (LRequeue n _ id)); [reflexivity | reflexivity | exact HP | intros Hs; destruct (Hne Hs) | exact Hh].
  Qed.

  Lemma set_status_fields : forall s id x, let s' := set_status s id x in
    items s' = items s /\ progs s' = progs s /\ queue s' = queue s /\ started s' = started s /\ tasks s' = tasks s /\
    denial s' = denial s /\ avail s' = avail s /\ sem s' = sem s.
  Proof. intros s id x. unfold set_status. destruct (dget id (objs s)); simpl; repeat split. Qed.

  Lemma SI_finish : forall s t x, SI s -> SI (finish_ev s t x).
  Proof.
    intros s t x H. unfold finish_ev. destruct (nth_error (tasks s) t) as [p|] eqn:Ht; [|exact H].
    destruct (SI_open s t p Ht H) as (E & L & HP & HE & HB). pose proof H as (_ & _ & Hh).
    destruct p as [p id|p id rest|n|n p id|n id|n id|n p id|n|par id|par id mine|par id|par id| |e l]; try exact H.
    assert (Hne : started s = false -> False) by (intros Hs; destruct (HE Hs) as (_ & _ & _ & Hc & _); discriminate).
    assert (G : SI (set_task (set_status s id x) t (KUpd par id))).
    { destruct (set_status_fields s id x) as (G1 & G2 & G3 & G4 & G5 & _).
      eapply (HB _ (KUpd par id)); [simpl; rewrite G5; reflexivity | exact G4 | | intros Hs; destruct (Hne Hs) | simpl; rewrite G3; exact Hh].
      simpl. rewrite G1, G2, G3. exact HP. }
    destruct (streaming s id); [exact G|]. destruct mine.
    - destruct x; try exact H; exact G.
    - destruct (existsb _ _); [exact H|].
      eapply (HB _ (KUpd par id)); [reflexivity | reflexivity | exact HP | intros Hs; destruct (Hne Hs) | exact Hh].
  Qed.

  Lemma SI_ext : forall s s', SI s -> items s' = items s -> progs s' = progs s -> queue s' = queue s ->
    started s' = started s -> tasks s' = tasks s -> SI s'.
  Proof.
    intros s s' H A B C D E. unfold SI, waiting_ids, running_ids in *. rewrite A, B, C, D, E. exact H.
  Qed.

  Lemma SI_spawn : forall s c, SI s -> (forall id p, c <> CEnqueue id p) -> SI (spawn k s c).
  Proof.
    intros s c H Hc. pose proof H as (H1 & H2 & H3). destruct c as [id e p|id p| |]; simpl.
    - destruct (memb id (items s)) eqn:Em; [apply SI_new_task; auto|].
      apply memb_notIn in Em. destruct (PI_new _ _ _ _ _ H1 Em) as [N1 N2].
      set (s1 := w_items s (items s ++ [id]) (fun x => if eqb x PENDING then progs s x ++ [id] else progs s x)).
      set (s2 := if dmem id (objs s) then s1 else w_objs s1 (dset id e (objs s))).
      assert (HS : SI s2).
      { assert (HS1 : SI s1) by (split; [exact N1 | split; [exact H2 | exact H3]]).
        unfold s2. destruct (dmem id (objs s)); [exact HS1 | apply (SI_ext s1); auto]. }
      destruct (started s) eqn:Es; [|apply SI_new_task; auto].
      destruct (enq_check k s2 id p) as [z|x]; [|apply SI_new_task; auto].
      assert (F : items s2 = items s1 /\ progs s2 = progs s1 /\ queue s2 = queue s /\ started s2 = true /\ tasks s2 = tasks s).
      { unfold s2. destruct (dmem id (objs s)); simpl; rewrite ?Es; auto. }
      destruct F as (F1 & F2 & F3 & F4 & F5).
      split; [|split].
      + simpl. rewrite F1, F2. eapply PI_perm; [exact N2 | |].
        * rewrite waiting_new. unfold waiting_ids. rewrite F3, F5. apply Permutation_refl.
        * rewrite running_new. unfold running_ids. rewrite F5. apply Permutation_refl.
      + simpl. rewrite F4. discriminate.
      + simpl. rewrite F3. exact H3.
    - destruct (Hc id p eq_refl).
    - destruct (started s) eqn:Es; [apply SI_new_task; auto|].
      destruct (H2 eq_refl) as [W R].
      assert (HS : SI (w_started s)).
      { split; [exact H1|]. split; [discriminate | exact H3]. }
      destruct (forallb _ _); [|apply SI_new_task; auto].
      destruct (back k (w_started s) (progs s PENDING)) as [s2 q] eqn:Eb.
      destruct (back_spec _ _ _ _ Eb) as (Hs2 & Hq & Hl).
      assert (HS2 : SI s2) by (destruct Hs2 as [-> | ->]; auto).
      destruct Hq as [Hq|Hq]; [|apply SI_new_task; auto].
      assert (F : items s2 = items s /\ progs s2 = progs s /\ queue s2 = queue s /\ started s2 = true /\ tasks s2 = tasks s)
        by (destruct Hs2 as [-> | ->]; auto).
      destruct F as (F1 & F2 & F3 & F4 & F5).
      split; [|split].
      + simpl. rewrite F1, F2. eapply PI_perm; [| |].
        3: { rewrite running_new. rewrite Hl. unfold running_ids. rewrite F5. fold (running_ids s). rewrite R. apply Permutation_refl. }
        2: { rewrite waiting_new. unfold waiting_ids. rewrite F3, F5. fold (waiting_ids s). rewrite W, Hq. rewrite app_nil_r. apply Permutation_refl. }
        destruct H1 as [A B C D E F G]. constructor; auto.
        * rewrite app_nil_r. apply B.
        * intros u [].
      + simpl. rewrite F4. discriminate.
      + simpl. rewrite F3. exact H3.
    - destruct (started s); apply SI_new_task; auto using top_early, top_late.
  Qed.

  Lemma SI_clean_ids : forall ids s n, SI s -> (forall u, In u ids -> ~ In u (waiting_ids s) /\ ~ In u (running_ids s)) ->
    SI (fst (clean_ids s ids n)) /\ waiting_ids (fst (clean_ids s ids n)) = waiting_ids s /\
    running_ids (fst (clean_ids s ids n)) = running_ids s.
  Proof.
    induction ids as [|id t IH]; intros s n H Hi; simpl; [auto|].
    destruct (Hi id (or_introl eq_refl)) as [HW HR]. pose proof H as (H1 & H2 & H3).
    destruct (remove_first id (items s)) as [l|] eqn:Er.
    - assert (HS : SI (w_items (w_denial s (if started s then ddel id (denial s) else denial s)) l (fun x => strip1 id (progs s x)))).
      { split; [|split; [exact H2 | exact H3]]. apply (PI_remove _ _ _ _ _ _ H1 Er HW HR). }
      destruct (IH _ (S n) HS) as (A & B & C); [intros u Hu; apply (Hi u); right; exact Hu|].
      split; [exact A|]. split; [rewrite B; reflexivity | rewrite C; reflexivity].
    - simpl. split; [|split; reflexivity]. split; [|split; [exact H2 | exact H3]].
      apply remove_first_None in Er. eapply PI_ext; [exact H1|]. intros x. simpl. apply strip1_absent.
      intros Hc. apply Er. apply (i_mem _ _ _ _ H1). eauto.
  Qed.

  Lemma SI_cleanup : forall l s n, SI s -> ~ In PENDING l -> ~ In PROCESSING l -> SI (fst (cleanup s l n)).
  Proof.
    induction l as [|x t IH]; intros s n H N1 N2; simpl; [exact H|].
    destruct (forallb _ _); [|exact H]. pose proof H as (H1 & _ & _).
    destruct (SI_clean_ids (progs s x) s n H) as (A & _ & _).
    { intros u Hu. split; intros Hc.
      - apply (i_w _ _ _ _ H1) in Hc. pose proof (i_one _ _ _ _ H1 _ _ _ Hu Hc). subst x. apply N1. left; reflexivity.
      - apply (i_r _ _ _ _ H1) in Hc. pose proof (i_one _ _ _ _ H1 _ _ _ Hu Hc). subst x. apply N2. left; reflexivity. }
    destruct (clean_ids s (progs s x) n) as [s' [m|e]]; [|exact A].
    apply IH; [exact A | |]; intros Hc; [apply N1 | apply N2]; right; exact Hc.
  Qed.

  Lemma SI_pact : forall s a, normal a -> SI s -> SI (pact k s a).
  Proof.
    intros s [c|t|t b|t x|l|] Hn H; simpl.
    - apply SI_spawn; [exact H|]. intros id p ->. exact Hn.
    - apply SI_step, H.
    - apply SI_grant, H.
    - apply SI_finish, H.
    - destruct Hn. apply SI_cleanup; assumption.
    - destruct (started s) eqn:E; [apply (SI_ext s); auto | exact H].
  Qed.

  Lemma SI_0 : SI (pst0 k).
  Proof.
    split; [|split]; simpl.
    - constructor; simpl; auto; try constructor; try tauto.
      intros [x []].
    - auto.
    - apply heap_nil.
  Qed.

  Lemma SI_reach : forall s, reach k normal s -> SI s.
  Proof.
    intros s (l & Hl & ->). unfold pexec. revert Hl. generalize SI_0. generalize (pst0 k).
    induction l as [|a l IH]; intros s0 H0 Hl; simpl; [exact H0|]. inversion Hl; subst. apply IH; auto.
    apply SI_pact; assumption.
  Qed.
End Inv.
