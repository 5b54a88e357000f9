(** C109: async with on piles. *)
From Coq Require Import List Arith Bool Lia.
From Verif Require Import ModelPileAsync.
Import ListNotations.

Section C109.
Context {D : Type}.
Notation state := (state D).
Notation instr := (instr D).

(** *** Specification *)

(** Task [t] is inside an async with block of pile [p]. *)
Definition inside (s : state) (t : task) (p : pile) : Prop := In p (stack s t).

Definition reachable (s : state) : Prop := exists d pr l, run (start d pr) l s.

(** Every use of a pile is inside a block of that pile; [st] are the blocks
    the rest of the program starts in. *)
Fixpoint guarded (st : list pile) (pr : list instr) : Prop :=
  match pr with
  | [] => True
  | IEnter p :: r => guarded (p :: st) r
  | IExit :: r => guarded (tl st) r
  | IDo p _ :: r => In p st /\ guarded st r
  end.

(** Blocks are closed, and nested ones are opened in increasing order. *)
Fixpoint ordered (st : list pile) (pr : list instr) : Prop :=
  match pr with
  | [] => st = []
  | IEnter p :: r => Forall (fun q => q < p) st /\ ordered (p :: st) r
  | IExit :: r => match st with [] => False | _ :: st' => ordered st' r end
  | IDo _ _ :: r => ordered st r
  end.

Definition finished (s : state) (t : task) : Prop := prog s t = [] /\ waiting s t = None.

(** Whose event it is. *)
Definition who (e : event) : task :=
  match e with
  | EDo t _ | EWait t _ | EEnter t _ | EExit t _ | EError t | ECancel t => t
  end.

(** The event ends a task. *)
Definition ends (t : task) (e : event) : Prop := e = EError t \/ e = ECancel t.

(** *** The invariant *)

Record Inv (s : state) : Prop := mk_inv {
  inv_stack : forall t p, In p (stack s t) -> lock s p = Some t;
  inv_nodup : forall t, NoDup (stack s t);
  inv_wait : forall t p, waiting s t = Some p ->
    (lock s p = Some t /\ ~ In p (stack s t)) \/ In t (queue s p);
  inv_queue : forall t p, In t (queue s p) -> waiting s t = Some p /\ lock s p <> Some t;
  inv_qnodup : forall p, NoDup (queue s p);
  inv_lock : forall t p, lock s p = Some t -> In p (stack s t) \/ waiting s t = Some p;
  inv_free : forall p, lock s p = None -> queue s p = []
}.

Lemma upd_eq {V} (f : nat -> V) k v : upd f k v k = v.
Proof. unfold upd. now rewrite Nat.eqb_refl. Qed.
Lemma upd_ne {V} (f : nat -> V) k v k' : k' <> k -> upd f k v k' = f k'.
Proof. intros H. unfold upd. destruct (k' =? k) eqn:E; [apply Nat.eqb_eq in E; congruence|reflexivity]. Qed.

Lemma inv_start d pr : Inv (start d pr).
Proof. split; cbn; try discriminate; try tauto; constructor. Qed.

(** Effect of leaving several blocks. *)
Lemma unwind_effect ps : forall s : state, NoDup ps ->
  (forall p, lock (fold_left release ps s) p =
             if in_dec Nat.eq_dec p ps then hd_error (queue s p) else lock s p)
  /\ (forall p, queue (fold_left release ps s) p =
             if in_dec Nat.eq_dec p ps then tl (queue s p) else queue s p)
  /\ prog (fold_left release ps s) = prog s
  /\ waiting (fold_left release ps s) = waiting s
  /\ stack (fold_left release ps s) = stack s
  /\ data (fold_left release ps s) = data s.
Proof.
  induction ps as [|q ps IH]; intros s ND; cbn [fold_left].
  - repeat split; intros p; destruct (in_dec Nat.eq_dec p []) as [[]|]; reflexivity.
  - apply NoDup_cons_iff in ND. destruct ND as [Nq ND].
    destruct (IH (release s q) ND) as (L & Q & P & W & S & DD).
    assert (forall p, lock (release s q) p = if p =? q then hd_error (queue s q) else lock s p) as RL.
    { intros p. unfold release, upd. destruct (queue s q) eqn:E; cbn; destruct (p =? q); reflexivity. }
    assert (forall p, queue (release s q) p = if p =? q then tl (queue s q) else queue s p) as RQ.
    { intros p. unfold release, upd. destruct (queue s q) eqn:E; cbn; destruct (p =? q) eqn:E2;
        try reflexivity. apply Nat.eqb_eq in E2. subst. rewrite E. reflexivity. }
    split; [|split].
    + intros p. rewrite L, RL, RQ.
      destruct (in_dec Nat.eq_dec p ps) as [I|N]; destruct (in_dec Nat.eq_dec p (q :: ps)) as [I2|N2];
        destruct (p =? q) eqn:E; try (apply Nat.eqb_eq in E; subst p); try tauto;
        try reflexivity.
      * destruct N2. now right.
      * apply Nat.eqb_neq in E. destruct I2 as [I2|I2]; [congruence|tauto].
      * destruct N2. now left.
    + intros p. rewrite Q, RQ.
      destruct (in_dec Nat.eq_dec p ps) as [I|N]; destruct (in_dec Nat.eq_dec p (q :: ps)) as [I2|N2];
        destruct (p =? q) eqn:E; try (apply Nat.eqb_eq in E; subst p); try tauto;
        try reflexivity.
      * destruct N2. now right.
      * apply Nat.eqb_neq in E. destruct I2 as [I2|I2]; [congruence|tauto].
      * destruct N2. now left.
    + rewrite P, W, S, DD. unfold release. destruct (queue s q); auto.
Qed.

Lemma remove_id (t : task) l : ~ In t l -> remove Nat.eq_dec t l = l.
Proof. apply notin_remove. Qed.

Definition has (s : state) (p : pile) (t : task) : bool :=
  match lock s p with Some t' => t' =? t | None => false end.

Lemma has_iff s p t : has s p t = true <-> lock s p = Some t.
Proof.
  unfold has. destruct (lock s p) as [t'|]; [|split; discriminate].
  rewrite Nat.eqb_eq. split; congruence.
Qed.

Lemma release_effect (s : state) p q :
  lock (release s p) q = (if q =? p then hd_error (queue s p) else lock s q)
  /\ queue (release s p) q = (if q =? p then tl (queue s p) else queue s q).
Proof.
  unfold release, upd. destruct (queue s p) eqn:E; cbn; split; destruct (q =? p) eqn:E2;
    try reflexivity. apply Nat.eqb_eq in E2. subst. now rewrite E.
Qed.

Lemma kill_effect s t : Inv s ->
  (forall p, lock (kill s t) p = if has s p t then hd_error (queue s p) else lock s p)
  /\ (forall p, queue (kill s t) p =
        if has s p t then tl (queue s p) else remove Nat.eq_dec t (queue s p))
  /\ data (kill s t) = data s
  /\ prog (kill s t) = upd (prog s) t []
  /\ waiting (kill s t) = upd (waiting s) t None
  /\ stack (kill s t) = upd (stack s) t [].
Proof.
  intros I. unfold kill, set_task. cbn [lock queue prog waiting stack data].
  set (s1 := match waiting s t with Some p => _ | None => s end).
  assert (prog s1 = prog s /\ waiting s1 = waiting s /\ stack s1 = stack s /\ data s1 = data s)
    as (P1 & W1 & S1 & D1).
  { unfold s1. destruct (waiting s t) as [p|]; [|auto].
    destruct (owns s p t); [unfold release; destruct (queue s p); auto|auto]. }
  set (ins := fun p : pile => if in_dec Nat.eq_dec p (stack s t) then true else false).
  assert (forall p, waiting s t <> Some p -> has s p t && negb (ins p) = false) as NH.
  { intros p N. destruct (has s p t) eqn:H; cbn; [|reflexivity].
    unfold ins. destruct (in_dec Nat.eq_dec p (stack s t)); cbn; [reflexivity|].
    apply has_iff in H. destruct (inv_lock s I t p H); [tauto|congruence]. }
  assert (forall p, waiting s t = Some p -> ins p = false) as NI.
  { intros p W. unfold ins. destruct (in_dec Nat.eq_dec p (stack s t)) as [X|]; [|reflexivity].
    exfalso. destruct (inv_wait s I t p W) as [[_ H]|H]; [tauto|].
    apply (inv_queue s I) in H. apply (inv_stack s I) in X. tauto. }
  assert (forall p, waiting s t <> Some p -> ~ In t (queue s p)) as NQ.
  { intros p N X. apply (inv_queue s I) in X. tauto. }
  assert (forall p, lock s1 p = if has s p t && negb (ins p)
                               then hd_error (queue s p) else lock s p) as L1.
  { intros p. unfold s1. destruct (waiting s t) as [q|] eqn:W.
    - destruct (owns s q t) eqn:O.
      + unfold owns in O. fold (has s q t) in O. rewrite (proj1 (release_effect s q p)).
        destruct (p =? q) eqn:E.
        * apply Nat.eqb_eq in E. subst p. rewrite O, (NI q eq_refl). reflexivity.
        * apply Nat.eqb_neq in E. rewrite (NH p) by congruence. reflexivity.
      + cbn. unfold owns in O. fold (has s q t) in O. destruct (Nat.eq_dec p q) as [->|N].
        * rewrite O. reflexivity.
        * rewrite (NH p) by congruence. reflexivity.
    - rewrite (NH p) by congruence. reflexivity. }
  assert (forall p, queue s1 p = if has s p t && negb (ins p)
                               then tl (queue s p) else remove Nat.eq_dec t (queue s p)) as Q1.
  { intros p. unfold s1. destruct (waiting s t) as [q|] eqn:W.
    - destruct (owns s q t) eqn:O.
      + unfold owns in O. fold (has s q t) in O. rewrite (proj2 (release_effect s q p)).
        destruct (p =? q) eqn:E.
        * apply Nat.eqb_eq in E. subst p. rewrite O, (NI q eq_refl). reflexivity.
        * apply Nat.eqb_neq in E. rewrite (NH p) by congruence.
          rewrite remove_id; [reflexivity|]. apply NQ. congruence.
      + cbn. unfold owns in O. fold (has s q t) in O. unfold upd. destruct (p =? q) eqn:E.
        * apply Nat.eqb_eq in E. subst p. rewrite O. reflexivity.
        * apply Nat.eqb_neq in E. rewrite (NH p) by congruence.
          rewrite remove_id; [reflexivity|]. apply NQ. congruence.
    - rewrite (NH p) by congruence. rewrite remove_id; [reflexivity|]. apply NQ. congruence. }
  destruct (unwind_effect (stack s t) s1 (inv_nodup s I t)) as (L & Q & P & W & S & DD).
  rewrite P, W, S, DD, P1, W1, S1, D1. repeat split; auto.
  - intros p. rewrite L, L1, Q1. unfold ins.
    destruct (in_dec Nat.eq_dec p (stack s t)) as [X|X]; cbn; rewrite ?andb_false_r, ?andb_true_r;
      [|destruct (has s p t); reflexivity].
    pose proof (inv_stack s I t p X) as H. rewrite (proj2 (has_iff s p t) H).
    rewrite remove_id; [reflexivity|]. intros Y. apply (inv_queue s I) in Y. tauto.
  - intros p. rewrite Q, Q1. unfold ins.
    destruct (in_dec Nat.eq_dec p (stack s t)) as [X|X]; cbn; rewrite ?andb_false_r, ?andb_true_r;
      [|destruct (has s p t); reflexivity].
    pose proof (inv_stack s I t p X) as H. rewrite (proj2 (has_iff s p t) H).
    rewrite remove_id; [reflexivity|]. intros Y. apply (inv_queue s I) in Y. tauto.
Qed.

(** Passing locks on keeps the invariant: [t] gives up a set [B] of piles it
    owns and leaves all other queues. *)
Lemma inv_drop s t s' (B : pile -> bool) :
  Inv s ->
  (forall p, B p = true -> lock s p = Some t) ->
  (forall p, lock s' p = if B p then hd_error (queue s p) else lock s p) ->
  (forall p, queue s' p = if B p then tl (queue s p) else remove Nat.eq_dec t (queue s p)) ->
  (forall t', t' <> t -> waiting s' t' = waiting s t' /\ stack s' t' = stack s t') ->
  waiting s' t = None ->
  NoDup (stack s' t) ->
  (forall p, In p (stack s' t) <-> lock s p = Some t /\ B p = false) ->
  Inv s'.
Proof.
  intros I HB L Q O W ND S.
  assert (forall p, B p = true -> ~ In t (queue s p)) as NT.
  { intros p Hb X. apply (inv_queue s I) in X. rewrite (HB p Hb) in X. tauto. }
  split.
  - intros t1 p H. rewrite L. destruct (Nat.eq_dec t1 t) as [->|N].
    + apply S in H. destruct H as [H1 H2]. now rewrite H2.
    + destruct (O t1 N) as [_ E]. rewrite E in H. pose proof (inv_stack s I t1 p H) as X.
      destruct (B p) eqn:Bp; [|exact X]. rewrite (HB p Bp) in X. congruence.
  - intros t1. destruct (Nat.eq_dec t1 t) as [->|N]; [exact ND|].
    destruct (O t1 N) as [_ ->]. apply (inv_nodup s I).
  - intros t1 p H. destruct (Nat.eq_dec t1 t) as [->|N]; [congruence|].
    destruct (O t1 N) as [E1 E2]. rewrite E1 in H. rewrite E2, L, Q.
    destruct (inv_wait s I t1 p H) as [[X Y]|X].
    + destruct (B p) eqn:Bp; [rewrite (HB p Bp) in X; congruence|]. auto.
    + destruct (B p) eqn:Bp.
      * destruct (queue s p) as [|h r] eqn:Qp; [destruct X|]. cbn.
        destruct X as [->|X]; [left|now right]. split; [reflexivity|].
        intros Y. apply (inv_stack s I) in Y. rewrite (HB p Bp) in Y. congruence.
      * right. apply in_in_remove; [congruence|exact X].
  - intros t1 p H. rewrite L. rewrite Q in H.
    assert (In t1 (queue s p) /\ t1 <> t) as [H1 H2].
    { destruct (B p) eqn:Bp.
      - assert (In t1 (queue s p)) as X by (destruct (queue s p); [destruct H|now right]).
        split; [exact X|]. intros ->. exact (NT p Bp X).
      - apply in_remove in H. tauto. }
    destruct (O t1 H2) as [E1 _]. rewrite E1.
    destruct (inv_queue s I t1 p H1) as [X Y]. split; [exact X|].
    destruct (B p) eqn:Bp; [|exact Y].
    pose proof (inv_qnodup s I p) as NQ. destruct (queue s p) as [|h r]; [discriminate|].
    cbn in *. apply NoDup_cons_iff in NQ. intros E. injection E as ->. tauto.
  - intros p. rewrite Q. pose proof (inv_qnodup s I p) as NQ. destruct (B p).
    + destruct (queue s p); [constructor|]. apply NoDup_cons_iff in NQ. tauto.
    + clear -NQ. induction NQ as [|x l Hx NQ IH]; cbn; [constructor|].
      destruct (Nat.eq_dec t x); [exact IH|]. constructor; [|exact IH].
      intros X. apply in_remove in X. tauto.
  - intros t1 p H. rewrite L in H. destruct (B p) eqn:Bp.
    + destruct (queue s p) as [|h r] eqn:Qp; [discriminate|]. cbn in H. injection H as ->.
      assert (In t1 (queue s p)) as X by (rewrite Qp; now left).
      destruct (inv_queue s I t1 p X) as [X1 X2].
      assert (t1 <> t) as N by (intros ->; exact (NT p Bp X)).
      right. destruct (O t1 N) as [-> _]. exact X1.
    + destruct (Nat.eq_dec t1 t) as [->|N].
      * left. apply S. auto.
      * destruct (O t1 N) as [-> ->]. apply (inv_lock s I). exact H.
  - intros p H. rewrite L in H. rewrite Q. destruct (B p).
    + destruct (queue s p); [reflexivity|discriminate].
    + now rewrite (inv_free s I p H).
Qed.

Lemma inv_kill s t : Inv s -> Inv (kill s t).
Proof.
  intros I. destruct (kill_effect s t I) as (L & Q & _ & _ & W & S).
  apply (inv_drop s t (kill s t) (fun p => has s p t)); auto.
  - intros p H. now apply has_iff.
  - intros t' N. rewrite W, S, !upd_ne by exact N. auto.
  - now rewrite W, upd_eq.
  - rewrite S, upd_eq. constructor.
  - intros p. rewrite S, upd_eq. cbn. rewrite <- has_iff. split; [tauto|].
    intros [A B]. congruence.
Qed.

Lemma inv_step s e s' : Inv s -> step s e s' -> Inv s'.
Proof.
  intros I H. destruct H as [s t p f rest W P|s t p rest W P L|s t p rest W P L
                            |s t p rest t' W P L N|s t p W L|s t p st rest W P S|s t _].
  - destruct I as [A1 A2 A3 A4 A5 A6 A7]. split; assumption.
  - assert (forall t1 p1, In p1 (stack s t1) -> p1 <> p) as NI
      by (intros t1 p1 X ->; apply (inv_stack s I) in X; congruence).
    assert (forall t1, waiting s t1 <> Some p) as NW.
    { intros t1 X. destruct (inv_wait s I t1 p X) as [[Y _]|Y]; [congruence|].
      rewrite (inv_free s I p L) in Y. destruct Y. }
    split; cbn.
    + intros t1 p1 X. unfold upd in X. destruct (t1 =? t) eqn:E.
      * apply Nat.eqb_eq in E. subst t1. destruct X as [<-|X]; [apply upd_eq|].
        rewrite upd_ne by (eapply NI; eauto). now apply (inv_stack s I).
      * rewrite upd_ne by (eapply NI; eauto). now apply (inv_stack s I).
    + intros t1. unfold upd. destruct (t1 =? t); [|apply (inv_nodup s I)].
      constructor; [|apply (inv_nodup s I)]. intros X. now apply NI in X.
    + intros t1 p1 X. assert (p1 <> p) as Np by (intros ->; exact (NW _ X)).
      rewrite upd_ne by exact Np. destruct (inv_wait s I t1 p1 X) as [[Y Z]|Y]; [left|now right].
      split; [exact Y|]. unfold upd. destruct (t1 =? t) eqn:E; [|exact Z].
      apply Nat.eqb_eq in E. subst. intros [V|V]; [congruence|tauto].
    + intros t1 p1 X. destruct (inv_queue s I t1 p1 X) as [Y Z]. split; [exact Y|].
      unfold upd. destruct (p1 =? p) eqn:E; [|exact Z].
      apply Nat.eqb_eq in E. subst. destruct (NW _ Y).
    + apply (inv_qnodup s I).
    + intros t1 p1 X. unfold upd in X |- *. destruct (p1 =? p) eqn:E.
      * apply Nat.eqb_eq in E. injection X as <-. subst p1.
        left. rewrite Nat.eqb_refl. now left.
      * destruct (inv_lock s I t1 p1 X) as [Y|Y]; [left|now right].
        destruct (t1 =? t) eqn:E2; [|exact Y]. apply Nat.eqb_eq in E2. subst. now right.
    + intros p1 X. unfold upd in X. destruct (p1 =? p); [discriminate|]. now apply (inv_free s I).
  - apply inv_kill. exact I.
  - assert (forall p1, ~ In t (queue s p1)) as NQ
      by (intros p1 X; apply (inv_queue s I) in X; destruct X; congruence).
    split; cbn.
    + apply (inv_stack s I).
    + apply (inv_nodup s I).
    + intros t1 p1 X. unfold upd in X |- *. destruct (t1 =? t) eqn:E.
      * apply Nat.eqb_eq in E. injection X as <-. subst. right. rewrite Nat.eqb_refl.
        apply in_or_app. right. now left.
      * destruct (inv_wait s I t1 p1 X) as [Y|Y]; [now left|right].
        destruct (p1 =? p) eqn:E2; [|exact Y]. apply Nat.eqb_eq in E2. subst.
        apply in_or_app. now left.
    + intros t1 p1 X. unfold upd in X |- *. destruct (p1 =? p) eqn:E2.
      * apply Nat.eqb_eq in E2. subst. apply in_app_or in X. destruct X as [X|[<-|[]]].
        -- destruct (t1 =? t) eqn:E; [apply Nat.eqb_eq in E; subst; destruct (NQ _ X)|].
           now apply (inv_queue s I).
        -- rewrite Nat.eqb_refl. split; [reflexivity|congruence].
      * destruct (t1 =? t) eqn:E; [apply Nat.eqb_eq in E; subst; destruct (NQ _ X)|].
        now apply (inv_queue s I).
    + intros p1. unfold upd. destruct (p1 =? p); [|apply (inv_qnodup s I)].
      pose proof (inv_qnodup s I p) as ND. specialize (NQ p).
      clear -ND NQ. induction ND as [|x l Hx ND IH]; cbn.
      * constructor; [intros []|constructor].
      * constructor; [|apply IH; intros X; apply NQ; now right].
        intros X. apply in_app_or in X. destruct X as [X|[X|[]]]; [tauto|].
        apply NQ. now left.
    + intros t1 p1 X. destruct (inv_lock s I t1 p1 X) as [Y|Y]; [now left|right].
      unfold upd. destruct (t1 =? t) eqn:E; [|exact Y]. apply Nat.eqb_eq in E. congruence.
    + intros p1 X. unfold upd. destruct (p1 =? p) eqn:E; [|now apply (inv_free s I)].
      apply Nat.eqb_eq in E. subst. congruence.
  - assert (~ In p (stack s t)) as NS.
    { destruct (inv_wait s I t p W) as [[_ X]|X]; [exact X|].
      apply (inv_queue s I) in X. tauto. }
    split; unfold set_task; cbn.
    + intros t1 p1 X. unfold upd in X. destruct (t1 =? t) eqn:E; [|now apply (inv_stack s I)].
      apply Nat.eqb_eq in E. subst. destruct X as [<-|X]; [exact L|now apply (inv_stack s I)].
    + intros t1. unfold upd. destruct (t1 =? t) eqn:E; [|apply (inv_nodup s I)].
      constructor; [exact NS|apply (inv_nodup s I)].
    + intros t1 p1 X. unfold upd in X |- *. destruct (t1 =? t) eqn:E; [discriminate|].
      now apply (inv_wait s I).
    + intros t1 p1 X. destruct (inv_queue s I t1 p1 X) as [Y Z]. split; [|exact Z].
      unfold upd. destruct (t1 =? t) eqn:E; [|exact Y]. apply Nat.eqb_eq in E. subst.
      assert (p1 = p) by congruence. subst. tauto.
    + apply (inv_qnodup s I).
    + intros t1 p1 X. unfold upd. destruct (t1 =? t) eqn:E; [|now apply (inv_lock s I)].
      apply Nat.eqb_eq in E. subst. destruct (inv_lock s I t p1 X) as [Y|Y]; left; [now right|].
      left. congruence.
    + apply (inv_free s I).
  - pose proof (inv_nodup s I t) as ND. rewrite S in ND. apply NoDup_cons_iff in ND.
    assert (lock s p = Some t) as L by (apply (inv_stack s I); rewrite S; now left).
    apply (inv_drop s t _ (fun q => q =? p)); auto; unfold set_task; cbn.
    + intros q E. apply Nat.eqb_eq in E. now subst.
    + intros q. rewrite (proj1 (release_effect s p q)). destruct (q =? p) eqn:E; [|reflexivity].
      apply Nat.eqb_eq in E. now subst.
    + intros q. rewrite (proj2 (release_effect s p q)).
      destruct (q =? p) eqn:E; [apply Nat.eqb_eq in E; now subst|].
      symmetry. apply remove_id. intros X. apply (inv_queue s I) in X. destruct X; congruence.
    + intros t1 N. rewrite !upd_ne by exact N. unfold release. destruct (queue s p); auto.
    + apply upd_eq.
    + rewrite upd_eq. tauto.
    + intros q. rewrite upd_eq. rewrite Nat.eqb_neq. split.
      * intros X. split; [apply (inv_stack s I); rewrite S; now right|].
        intros ->. tauto.
      * intros [X Y]. destruct (inv_lock s I t q X) as [Z|Z]; [|congruence].
        rewrite S in Z. destruct Z as [Z|Z]; [congruence|exact Z].
  - apply inv_kill. exact I.
Qed.

Lemma inv_run s l s' : Inv s -> run s l s' -> Inv s'.
Proof.
  intros I R. induction R as [s|s l s1 e s2 R IH E]; [exact I|].
  exact (inv_step _ _ _ (IH I) E).
Qed.

Lemma reach_inv s : reachable s -> Inv s.
Proof. intros (d & pr & l & R). exact (inv_run _ _ _ (inv_start d pr) R). Qed.

(** *** Mutual exclusion *)

(** At most one task is inside a pile's async with block, and it is not inside
    twice. *)
Theorem C109_exclusive s t t' p :
  reachable s -> inside s t p -> inside s t' p -> t = t' /\ NoDup (stack s t).
Proof.
  intros R A B. pose proof (reach_inv s R) as I. split; [|apply (inv_nodup s I)].
  pose proof (inv_stack s I t p A). pose proof (inv_stack s I t' p B). congruence.
Qed.

(** *** Isolation *)

Definition grd (s : state) (t : task) : Prop :=
  match waiting s t with
  | Some p => guarded (p :: stack s t) (prog s t)
  | None => guarded (stack s t) (prog s t)
  end.

Lemma release_same (s : state) p :
  prog (release s p) = prog s /\ waiting (release s p) = waiting s
  /\ stack (release s p) = stack s.
Proof. unfold release. destruct (queue s p); auto. Qed.

Lemma grd_step s e s' t : Inv s -> grd s t -> step s e s' -> grd s' t.
Proof.
  intros I G H. unfold grd in *.
  destruct H as [s t0 p f rest W P|s t0 p rest W P L|s t0 p rest W P L
                |s t0 p rest t' W P L N|s t0 p W L|s t0 p st rest W P S|s t0 _].
  - cbn. unfold upd. destruct (t =? t0) eqn:E; [|exact G].
    apply Nat.eqb_eq in E. subst. rewrite W, P in *. cbn in G. tauto.
  - cbn. unfold upd. destruct (t =? t0) eqn:E; [|exact G].
    apply Nat.eqb_eq in E. subst. rewrite W, P in *. exact G.
  - destruct (kill_effect s t0 I) as (_ & _ & _ & -> & -> & ->).
    unfold upd. destruct (t =? t0) eqn:E; [exact Logic.I|exact G].
  - cbn. unfold upd. destruct (t =? t0) eqn:E; [|exact G].
    apply Nat.eqb_eq in E. subst. rewrite W, P in *. exact G.
  - unfold set_task. cbn. unfold upd. destruct (t =? t0) eqn:E; [|exact G].
    apply Nat.eqb_eq in E. subst. rewrite W in *. exact G.
  - unfold set_task. cbn. destruct (release_same s p) as (-> & -> & ->).
    unfold upd. destruct (t =? t0) eqn:E; [|exact G].
    apply Nat.eqb_eq in E. subst. rewrite W, P, S in *. exact G.
  - destruct (kill_effect s t0 I) as (_ & _ & _ & -> & -> & ->).
    unfold upd. destruct (t =? t0) eqn:E; [exact Logic.I|exact G].
Qed.

Lemma grd_run s l s' t : Inv s -> grd s t -> run s l s' -> grd s' t.
Proof.
  intros I G R. induction R as [s|s l s1 e s2 R IH E]; [exact G|].
  exact (grd_step _ _ _ _ (inv_run _ _ _ I R) (IH I G) E).
Qed.

(** While a task is inside a pile's block, only that task uses the pile, if
    the other tasks use it inside its blocks only. *)
Theorem C109_isolated d pr l s t p e s' t' :
  (forall t1, t1 <> t -> guarded [] (pr t1)) ->
  run (start d pr) l s -> inside s t p -> step s e s' -> e = EDo t' p -> t' = t.
Proof.
  intros G R A E ->. destruct (Nat.eq_dec t' t) as [->|N]; [reflexivity|].
  pose proof (inv_run _ _ _ (inv_start d pr) R) as I.
  assert (grd (start d pr) t') as G0 by exact (G t' N).
  pose proof (grd_run _ _ _ _ (inv_start d pr) G0 R) as G1.
  inversion E as [s0 t0 p0 f rest W P| | | | | |]; subst. unfold grd in G1. rewrite W, P in G1.
  cbn in G1. destruct G1 as [G1 _].
  pose proof (inv_stack s I t p A). pose proof (inv_stack s I t' p G1). congruence.
Qed.

(** So nothing changes a pile between two steps of a block except the block:
    over any stretch of a run during which [t] stays inside, the pile's
    content is what [t] alone makes of it. *)
Inductive stays (t : task) (p : pile) : state -> list (D -> D) -> state -> Prop :=
| stays_nil s : inside s t p -> stays t p s [] s
| stays_own s fs s1 f rest s2 :
    stays t p s fs s1 -> prog s1 t = IDo p f :: rest -> step s1 (EDo t p) s2 ->
    inside s2 t p -> stays t p s (fs ++ [f]) s2
| stays_other s fs s1 e s2 :
    stays t p s fs s1 -> step s1 e s2 -> e <> EDo t p -> inside s2 t p ->
    stays t p s fs s2.

Lemma do_effect (s : state) t p s' f rest :
  step s (EDo t p) s' -> prog s t = IDo p f :: rest -> data s' p = f (data s p).
Proof.
  intros H P. inversion H as [s0 t0 p0 f0 r0 W P0| | | | | |]; subst. cbn.
  rewrite P in P0. injection P0 as <- <-. apply upd_eq.
Qed.

Lemma other_effect (s : state) e s' p :
  Inv s -> step s e s' -> (forall t, e <> EDo t p) -> data s' p = data s p.
Proof.
  intros I H N. destruct H as [s t0 p0 f rest W P|s t0 p0 rest W P L|s t0 p0 rest W P L
                |s t0 p0 rest t' W P L N'|s t0 p0 W L|s t0 p0 st rest W P S|s t0 _];
    try reflexivity.
  - cbn. apply upd_ne. intros ->. exact (N t0 eq_refl).
  - now destruct (kill_effect s t0 I) as (_ & _ & -> & _).
  - unfold set_task. cbn. unfold release. now destruct (queue s p0).
  - now destruct (kill_effect s t0 I) as (_ & _ & -> & _).
Qed.

Lemma stays_run t p s fs s' : stays t p s fs s' -> exists l, run s l s'.
Proof.
  induction 1 as [s _|s fs s1 f rest s2 H (l & IH) P E _|s fs s1 e s2 H (l & IH) E _ _].
  - exists []. constructor.
  - exists (l ++ [EDo t p]). econstructor; eauto.
  - exists (l ++ [e]). econstructor; eauto.
Qed.

Lemma run_app (s : state) l s1 l2 s2 : run s l s1 -> run s1 l2 s2 -> run s (l ++ l2) s2.
Proof.
  intros A B. induction B as [s1|s1 l2 s2 e s3 B IH E]; [now rewrite app_nil_r|].
  rewrite app_assoc. exact (run_snoc _ _ _ _ _ (IH A) E).
Qed.

Lemma stays_inside t p s fs s' : stays t p s fs s' -> inside s' t p.
Proof. destruct 1; assumption. Qed.

Theorem C109_atomic d pr l s t p fs s' :
  (forall t1, t1 <> t -> guarded [] (pr t1)) ->
  run (start d pr) l s -> stays t p s fs s' ->
  data s' p = fold_left (fun x f => f x) fs (data s p).
Proof.
  intros G R H. induction H as [s _|s fs s1 f rest s2 H IH P E _|s fs s1 e s2 H IH E N _].
  - reflexivity.
  - rewrite fold_left_app. cbn. rewrite <- (IH R). eapply do_effect; eauto.
  - rewrite <- (IH R). destruct (stays_run _ _ _ _ _ H) as (l' & R').
    pose proof (run_app _ _ _ _ _ R R') as R2.
    apply (other_effect s1 e); [exact (inv_run _ _ _ (inv_start d pr) R2)|exact E|].
    intros t1 X. assert (t1 = t) as -> by
      exact (C109_isolated d pr _ s1 t p e s2 t1 G R2 (stays_inside _ _ _ _ _ H) E X).
    exact (N X).
Qed.

(** *** Entering twice *)

(** A task that enters a pile it is already inside of gets an error and never
    enters; the pile is then free or passed to the next waiter. *)
Theorem C109_reenter s t p rest e s' :
  reachable s -> inside s t p -> waiting s t = None -> prog s t = IEnter p :: rest ->
  step s e s' -> who e = t ->
  ends t e /\ finished s' t /\ lock s' p = hd_error (queue s p) /\ stack s' t = [].
Proof.
  intros R A W P H E. pose proof (reach_inv s R) as I.
  pose proof (inv_stack s I t p A) as L.
  assert (finished (kill s t) t /\ lock (kill s t) p = hd_error (queue s p) /\ stack (kill s t) t = [])
    as K.
  { destruct (kill_effect s t I) as (KL & _ & _ & KP & KW & KS).
    unfold finished. rewrite KP, KW, KS, KL, !upd_eq, (proj2 (has_iff s p t) L). auto. }
  inversion H as [s0 t0 p0 f r W0 P0|s0 t0 p0 r W0 P0 L0|s0 t0 p0 r W0 P0 L0
                |s0 t0 p0 r t1 W0 P0 L0 N|s0 t0 p0 W0 L0|s0 t0 p0 st r W0 P0 S|s0 t0 C]; subst;
    cbn in *; try congruence.
  - split; [now left|exact K].
  - split; [now right|exact K].
Qed.

(** *** Waiting *)

Lemma frame (s : state) e s' t : Inv s -> step s e s' -> who e <> t ->
  prog s' t = prog s t /\ waiting s' t = waiting s t /\ stack s' t = stack s t.
Proof.
  intros I H N.
  destruct H as [s t0 p0 f rest W P|s t0 p0 rest W P L|s t0 p0 rest W P L
                |s t0 p0 rest t1 W P L N'|s t0 p0 W L|s t0 p0 st rest W P S|s t0 _];
    cbn [who] in N; assert (t <> t0) as N0 by congruence.
  - cbn. rewrite !upd_ne by exact N0. auto.
  - cbn. rewrite !upd_ne by exact N0. auto.
  - destruct (kill_effect s t0 I) as (_ & _ & _ & -> & -> & ->).
    rewrite !upd_ne by exact N0. auto.
  - cbn. rewrite !upd_ne by exact N0. auto.
  - cbn. rewrite !upd_ne by exact N0. auto.
  - unfold set_task. cbn. destruct (release_same s p0) as (-> & -> & ->).
    rewrite !upd_ne by exact N0. auto.
  - destruct (kill_effect s t0 I) as (_ & _ & _ & -> & -> & ->).
    rewrite !upd_ne by exact N0. auto.
Qed.

Lemma finished_stuck (s : state) e s' t : finished s t -> step s e s' -> who e <> t.
Proof.
  intros (P & W) H E. destruct H; cbn in E; subst; try congruence.
  destruct H; congruence.
Qed.

Lemma ended (s : state) e s' t : Inv s -> step s e s' -> ends t e -> finished s' t.
Proof.
  intros I H C.
  destruct H as [s t0 p0 f rest W P|s t0 p0 rest W P L|s t0 p0 rest W P L
                |s t0 p0 rest t1 W P L N'|s t0 p0 W L|s t0 p0 st rest W P S|s t0 _];
    destruct C as [C|C]; try discriminate; injection C as ->;
    destruct (kill_effect s t I) as (_ & _ & _ & KP & KW & _);
    unfold finished; rewrite KP, KW, !upd_eq; auto.
Qed.

(** [t] stands in the queue of [p] before [t']. *)
Definition ahead (s : state) (p : pile) (t t' : task) : Prop :=
  exists a b c, queue s p = a ++ t :: b ++ t' :: c.

Lemma ahead_in s p t t' : ahead s p t t' -> In t (queue s p) /\ In t' (queue s p).
Proof.
  intros (a & b & c & E). rewrite E. split; apply in_or_app; right; [now left|].
  right. apply in_or_app. right. now left.
Qed.

(** What a step does to the queue of a pile. *)
Lemma queue_step (s : state) e s' p : Inv s -> step s e s' ->
  (queue s' p = queue s p /\ (lock s' p = lock s p \/ (lock s p = None /\ exists t, e = EEnter t p)))
  \/ (exists t, e = EWait t p /\ queue s' p = queue s p ++ [t] /\ lock s' p = lock s p)
  \/ (lock s p = Some (who e) /\ queue s' p = tl (queue s p) /\ lock s' p = hd_error (queue s p)
       /\ (e = EExit (who e) p \/ ends (who e) e))
  \/ (ends (who e) e /\ lock s p <> Some (who e)
       /\ queue s' p = remove Nat.eq_dec (who e) (queue s p) /\ lock s' p = lock s p).
Proof.
  intros I H.
  assert (forall t, (ends t e /\ who e = t /\ s' = kill s t) ->
    (lock s p = Some (who e) /\ queue s' p = tl (queue s p) /\ lock s' p = hd_error (queue s p)
       /\ (e = EExit (who e) p \/ ends (who e) e))
    \/ (ends (who e) e /\ lock s p <> Some (who e)
       /\ queue s' p = remove Nat.eq_dec (who e) (queue s p) /\ lock s' p = lock s p)) as K.
  { intros t (En & <- & ->). destruct (kill_effect s (who e) I) as (KL & KQ & _).
    rewrite KL, KQ. destruct (has s p (who e)) eqn:E.
    - left. apply has_iff in E. auto.
    - right. repeat split; auto. rewrite <- has_iff. congruence. }
  destruct H as [s t0 p0 f rest W P|s t0 p0 rest W P L|s t0 p0 rest W P L
                |s t0 p0 rest t1 W P L N'|s t0 p0 W L|s t0 p0 st rest W P S|s t0 _].
  - left. auto.
  - left. split; [reflexivity|]. cbn. unfold upd. destruct (p =? p0) eqn:E; [|now left].
    apply Nat.eqb_eq in E. subst. right. eauto.
  - right. right. apply (K t0). split; [now left|auto].
  - cbn. unfold upd. destruct (p =? p0) eqn:E; [|now left; auto].
    apply Nat.eqb_eq in E. subst. right. left. eauto.
  - left. auto.
  - unfold set_task. cbn. destruct (release_effect s p0 p) as [-> ->].
    destruct (p =? p0) eqn:E; [|now left; auto].
    apply Nat.eqb_eq in E. subst. right. right. left. repeat split; auto.
    apply (inv_stack s I). rewrite S. now left.
  - right. right. apply (K t0). split; [now right|auto].
Qed.

Definition served (p : pile) (t : task) (l : list event) : Prop :=
  In (EEnter t p) l \/ exists e, In e l /\ ends t e.

Lemma served_app p t l l' : served p t l -> served p t (l ++ l').
Proof.
  intros [H|(e & H & E)]; [left|right; exists e; split; [|exact E]];
    apply in_or_app; now left.
Qed.

(** Tasks enter in the order in which they started to wait: if [t] waits
    before [t'], then [t'] enters only if [t] has entered or has ended. *)
Theorem C109_fifo s p t t' l s' :
  reachable s -> ahead s p t t' -> run s l s' -> In (EEnter t' p) l -> served p t l.
Proof.
  intros R A H. pose proof (reach_inv s R) as I. clear R.
  assert (served p t l \/
          (~ In (EEnter t' p) l /\
           (ahead s' p t t' \/ (waiting s' t = Some p /\ lock s' p = Some t /\ In t' (queue s' p))
            \/ finished s' t'))) as X; [|tauto].
  induction H as [s|s l s1 e s2 H IH E]; [right; cbn; tauto|].
  pose proof (inv_run _ _ _ I H) as I1.
  destruct (IH A I) as [X|(N & X)]; [left; now apply served_app|]. clear IH.
  assert ((e = EEnter t p \/ ends t e) \/ ~ (e = EEnter t p \/ ends t e)) as [Y|Y].
  { destruct e as [x q|x q|x q|x q|x|x]; unfold ends;
      try (right; intros [Z|[Z|Z]]; discriminate).
    - destruct (Nat.eq_dec x t) as [->|]; [|right; intros [Z|[Z|Z]]; congruence].
      destruct (Nat.eq_dec q p) as [->|]; [left; auto|right; intros [Z|[Z|Z]]; congruence].
    - destruct (Nat.eq_dec x t) as [->|]; [left; auto|right; intros [Z|[Z|Z]]; congruence].
    - destruct (Nat.eq_dec x t) as [->|]; [left; auto|right; intros [Z|[Z|Z]]; congruence]. }
  { left. destruct Y as [-> |Y]; [left|right; exists e; split; [|exact Y]];
      apply in_or_app; right; now left. }
  right.
  assert (e <> EEnter t' p) as NE.
  { intros ->. destruct X as [X|[(W & L & Q)|X]].
    - destruct (ahead_in _ _ _ _ X) as [_ Q]. destruct (inv_queue s1 I1 t' p Q) as [W L].
      inversion E; subst; [congruence|tauto].
    - destruct (inv_queue s1 I1 t' p Q) as [W' L']. inversion E; subst; [congruence|tauto].
    - exact (finished_stuck _ _ _ _ X E eq_refl). }
  split.
  { intros Z. apply in_app_or in Z. destruct Z as [Z|[Z|[]]]; [tauto|congruence]. }
  destruct X as [X|[(W & L & Q)|X]].
  - destruct (ahead_in _ _ _ _ X) as [Qt Qt'].
    destruct (inv_queue s1 I1 t p Qt) as [Wt Lt].
    destruct (queue_step s1 e s2 p I1 E)
      as [(Q2 & _)|[(t0 & -> & Q2 & L2)|[(L1 & Q2 & L2 & C)|(C & L1 & Q2 & L2)]]].
    + left. unfold ahead. rewrite Q2. exact X.
    + left. destruct X as (a & b & c & Eq). exists a, b, (c ++ [t0]).
      rewrite Q2, Eq. rewrite <- !app_assoc. cbn. rewrite <- app_assoc. reflexivity.
    + destruct X as (a & b & c & Eq). destruct a as [|h a].
      * right. left. rewrite L2, Q2, Eq. cbn. repeat split.
        -- rewrite (proj1 (proj2 (frame s1 e s2 t I1 E
              (fun Z => Lt (eq_trans L1 (f_equal Some Z)))))). exact Wt.
        -- apply in_or_app. right. now left.
      * left. exists a, b, c. rewrite Q2, Eq. reflexivity.
    + destruct (Nat.eq_dec (who e) t') as [Z|Z].
      * right. right. rewrite Z in C. exact (ended s1 e s2 t' I1 E C).
      * assert (who e <> t) as Z2.
        { intros Z2. apply Y. right. rewrite <- Z2. exact C. }
        left. destruct X as (a & b & c & Eq).
        exists (remove Nat.eq_dec (who e) a), (remove Nat.eq_dec (who e) b), (remove Nat.eq_dec (who e) c).
        rewrite Q2, Eq, remove_app. cbn. destruct (Nat.eq_dec (who e) t); [congruence|].
        rewrite remove_app. cbn. destruct (Nat.eq_dec (who e) t'); [congruence|]. reflexivity.
  - assert (who e <> t) as Nt.
    { intros Z. inversion E; subst; cbn in *; try congruence; try (apply Y; unfold ends; auto; fail).
      - apply Y. left. congruence. }
    destruct (queue_step s1 e s2 p I1 E)
      as [(Q2 & L2)|[(t0 & -> & Q2 & L2)|[(L1 & _)|(C & L1 & Q2 & L2)]]].
    + right. left. destruct (frame s1 e s2 t I1 E Nt) as (_ & -> & _).
      rewrite Q2. destruct L2 as [-> |(L2 & _)]; [auto|congruence].
    + right. left. destruct (frame s1 _ s2 t I1 E Nt) as (_ & -> & _).
      rewrite Q2, L2. repeat split; auto. apply in_or_app. now left.
    + congruence.
    + destruct (Nat.eq_dec (who e) t') as [Z|Z].
      * right. right. rewrite Z in C. exact (ended s1 e s2 t' I1 E C).
      * right. left. destruct (frame s1 e s2 t I1 E Nt) as (_ & -> & _).
        rewrite Q2, L2. repeat split; auto. apply in_in_remove; [congruence|exact Q].
  - right. right. pose proof (finished_stuck _ _ _ _ X E) as Nw.
    destruct (frame s1 e s2 t' I1 E Nw) as (FP & FW & _).
    unfold finished. rewrite FP, FW. exact X.
Qed.

(** A task that ends by an error or a cancellation leaves every block and
    every queue: each pile it held goes to its next waiter or is free, all
    other piles and their content stay as they were. *)
Theorem C109_ends s t e s' :
  reachable s -> step s e s' -> ends t e ->
  finished s' t /\ stack s' t = [] /\ data s' = data s
  /\ forall p, lock s' p <> Some t /\ ~ In t (queue s' p)
       /\ (lock s p = Some t -> lock s' p = hd_error (queue s p) /\ queue s' p = tl (queue s p))
       /\ (lock s p <> Some t ->
            lock s' p = lock s p /\ queue s' p = remove Nat.eq_dec t (queue s p)).
Proof.
  intros R H C. pose proof (reach_inv s R) as I.
  assert (s' = kill s t) as ->.
  { destruct H; destruct C as [C|C]; try discriminate; injection C as ->; reflexivity. }
  destruct (kill_effect s t I) as (KL & KQ & KD & KP & KW & KS).
  assert (Inv (kill s t)) as I' by (apply inv_kill; exact I).
  split; [|split; [|split]].
  - split; [rewrite KP|rewrite KW]; apply upd_eq.
  - rewrite KS. apply upd_eq.
  - exact KD.
  - intros p.
    assert (forall q, waiting (kill s t) t <> Some q) as NW by (intros q; rewrite KW, upd_eq; discriminate).
    split; [|split; [|split]].
    + intros X. destruct (inv_lock _ I' t p X) as [Y|Y]; [|exact (NW p Y)].
      rewrite KS, upd_eq in Y. destruct Y.
    + intros X. apply (inv_queue _ I') in X. exact (NW p (proj1 X)).
    + intros X. apply has_iff in X. rewrite KL, KQ, X. auto.
    + intros X. rewrite <- has_iff in X. rewrite KL, KQ.
      destruct (has s p t); [congruence|auto].
Qed.

(** *** Progress *)

Definition ord (s : state) (t : task) : Prop :=
  match waiting s t with
  | Some p => Forall (fun q => q < p) (stack s t) /\ ordered (p :: stack s t) (prog s t)
  | None => ordered (stack s t) (prog s t)
  end.

Lemma ord_step (s : state) e s' t : Inv s -> ord s t -> step s e s' -> ord s' t.
Proof.
  intros I G H. destruct (Nat.eq_dec (who e) t) as [Wh|Wh].
  2:{ destruct (frame s e s' t I H Wh) as (P & W & S). unfold ord in *.
      rewrite P, W, S. exact G. }
  unfold ord in *.
  destruct H as [s t0 p f rest W P|s t0 p rest W P L|s t0 p rest W P L
                |s t0 p rest t' W P L N|s t0 p W L|s t0 p st rest W P S|s t0 _];
    cbn [who] in Wh; subst t0.
  - cbn. rewrite upd_eq. rewrite W, P in *. exact G.
  - cbn. rewrite !upd_eq. rewrite W, P in *. cbn in G. apply G.
  - destruct (kill_effect s t I) as (_ & _ & _ & -> & -> & ->). rewrite !upd_eq. reflexivity.
  - cbn. rewrite !upd_eq. rewrite W, P in *. exact G.
  - unfold set_task. cbn. rewrite !upd_eq. rewrite W in *. apply G.
  - unfold set_task. cbn. rewrite !upd_eq. rewrite W, P, S in *. exact G.
  - destruct (kill_effect s t I) as (_ & _ & _ & -> & -> & ->). rewrite !upd_eq. reflexivity.
Qed.

Lemma ord_run s l s' t : Inv s -> ord s t -> run s l s' -> ord s' t.
Proof.
  intros I G R. induction R as [s|s l s1 e s2 R IH E]; [exact G|].
  exact (ord_step _ _ _ _ (inv_run _ _ _ I R) (IH I G) E).
Qed.

Lemma finished_run s l s' t : Inv s -> finished s t -> run s l s' -> finished s' t.
Proof.
  intros I F R. induction R as [s|s l s1 e s2 R IH E]; [exact F|].
  specialize (IH I F). pose proof (inv_run _ _ _ I R) as I1.
  destruct (frame s1 e s2 t I1 E (finished_stuck _ _ _ _ IH E)) as (P & W & _).
  unfold finished. rewrite P, W. exact IH.
Qed.

Lemma pick_max (w : task -> option pile) ts :
  (forall t, In t ts -> w t = None)
  \/ exists t p, In t ts /\ w t = Some p /\ forall t' p', In t' ts -> w t' = Some p' -> p' <= p.
Proof.
  induction ts as [|a ts [IH|(t & p & H1 & H2 & H3)]].
  - left. intros t [].
  - destruct (w a) as [p|] eqn:E.
    + right. exists a, p. split; [now left|]. split; [exact E|].
      intros t' p' [<-|X] Y; [rewrite E in Y; injection Y as <-; lia|].
      rewrite (IH t' X) in Y. discriminate.
    + left. intros t [<-|X]; auto.
  - right. destruct (w a) as [q|] eqn:E.
    + destruct (le_lt_dec q p).
      * exists t, p. split; [now right|]. split; [exact H2|].
        intros t' p' [<-|X] Y; [rewrite E in Y; injection Y as <-; lia|eauto].
      * exists a, q. split; [now left|]. split; [exact E|].
        intros t' p' [<-|X] Y; [rewrite E in Y; injection Y as <-; lia|].
        specialize (H3 t' p' X Y). lia.
    + exists t, p. split; [now right|]. split; [exact H2|].
      intros t' p' [<-|X] Y; [congruence|eauto].
Qed.

(** A task that is not suspended and not finished can go on. *)
Lemma runnable s t : Inv s -> ord s t -> waiting s t = None -> prog s t <> [] ->
  exists e s', step s e s' /\ forall t', ~ ends t' e.
Proof.
  intros I O W P. unfold ord in O. rewrite W in O.
  destruct (prog s t) as [|[p| |p f] rest] eqn:E; [congruence| | |].
  - destruct (lock s p) as [t1|] eqn:L.
    + destruct (Nat.eq_dec t1 t) as [->|N].
      * exfalso. destruct (inv_lock s I t p L) as [X|X]; [|congruence].
        cbn in O. destruct O as [O _]. rewrite Forall_forall in O. specialize (O p X). lia.
      * eexists _, _. split; [eapply st_wait; eauto|]. intros t' [X|X]; discriminate.
    + eexists _, _. split; [eapply st_enter; eauto|]. intros t' [X|X]; discriminate.
  - cbn in O. destruct (stack s t) as [|p st] eqn:S; [destruct O|].
    eexists _, _. split; [eapply st_exit; eauto|]. intros t' [X|X]; discriminate.
  - eexists _, _. split; [eapply st_do; eauto|]. intros t' [X|X]; discriminate.
Qed.

(** If every task leaves its blocks and opens nested ones in increasing order
    of piles, the tasks never block each other for good: unless all have
    finished, one can go on without an error. *)
Theorem C109_no_deadlock d pr n l s :
  (forall t, ordered [] (pr t)) -> (forall t, n <= t -> pr t = []) ->
  run (start d pr) l s ->
  (forall t, finished s t) \/ exists e s', step s e s' /\ forall t, ~ ends t e.
Proof.
  intros O F R. pose proof (inv_run _ _ _ (inv_start d pr) R) as I.
  assert (forall t, ord s t) as O1 by (intros t; exact (ord_run _ _ _ t (inv_start d pr) (O t) R)).
  assert (forall t, n <= t -> finished s t) as F1.
  { intros t Ht. apply (finished_run (start d pr) l); [apply inv_start| |exact R].
    split; [exact (F t Ht)|reflexivity]. }
  destruct (pick_max (waiting s) (seq 0 n)) as [W|(t & p & H1 & H2 & H3)].
  - assert (forall t, waiting s t = None) as W1.
    { intros t. destruct (le_lt_dec n t) as [Ht|Ht]; [apply (F1 t Ht)|]. apply W, in_seq. lia. }
    assert ((exists t, In t (seq 0 n) /\ prog s t <> []) \/ forall t, In t (seq 0 n) -> prog s t = []) as X.
    { clear. induction (seq 0 n) as [|a ts [(t & A & B)|IH]].
      - right. intros t [].
      - left. exists t. split; [now right|exact B].
      - destruct (prog s a) eqn:E.
        + right. intros t [<-|X]; auto.
        + left. exists a. split; [now left|congruence]. }
    destruct X as [(t & _ & X)|X].
    + right. eapply runnable; eauto.
    + left. intros t. split; [|apply W1]. destruct (le_lt_dec n t) as [Ht|Ht]; [apply (F1 t Ht)|].
      apply X, in_seq. lia.
  - right.
    assert (exists t1, lock s p = Some t1) as (t1 & L).
    { destruct (inv_wait s I t p H2) as [[X _]|X]; [eauto|].
      destruct (lock s p) eqn:E; [eauto|]. rewrite (inv_free s I p E) in X. destruct X. }
    destruct (inv_lock s I t1 p L) as [X|X].
    + destruct (waiting s t1) as [q|] eqn:W.
      * exfalso. pose proof (O1 t1) as O2. unfold ord in O2. rewrite W in O2.
        destruct O2 as [O2 _]. rewrite Forall_forall in O2. specialize (O2 p X).
        assert (q <= p); [|lia]. apply (H3 t1 q); [|exact W].
        apply in_seq. destruct (le_lt_dec n t1) as [Ht|Ht]; [|lia].
        destruct (F1 t1 Ht). congruence.
      * apply (runnable s t1 I (O1 t1) W). intros P.
        pose proof (O1 t1) as O2. unfold ord in O2. rewrite W, P in O2. cbn in O2.
        rewrite O2 in X. destruct X.
    + eexists _, _. split; [eapply st_got; eauto|]. intros t' [Y|Y]; discriminate.
Qed.

End C109.
Print Assumptions C109_exclusive.
Print Assumptions C109_isolated.
Print Assumptions C109_atomic.
Print Assumptions C109_reenter.
Print Assumptions C109_fifo.
Print Assumptions C109_ends.
Print Assumptions C109_no_deadlock.

(** *** Examples and refutations *)

(** Runs are checked by replaying which task moves. *)
Definition move {D} (s : state D) (t : task) : option (event * state D) :=
  match waiting s t with
  | Some p =>
      if owns s p t then Some (EEnter t p, set_task s t (prog s t) None (p :: stack s t))
      else None
  | None =>
      match prog s t with
      | [] => None
      | IDo p f :: rest =>
          Some (EDo t p, State (lock s) (queue s) (upd (data s) p (f (data s p)))
                           (upd (prog s) t rest) (waiting s) (stack s))
      | IEnter p :: rest =>
          match lock s p with
          | None => Some (EEnter t p,
              State (upd (lock s) p (Some t)) (queue s) (data s) (upd (prog s) t rest)
                (waiting s) (upd (stack s) t (p :: stack s t)))
          | Some t' =>
              if t' =? t then Some (EError t, kill s t)
              else Some (EWait t p,
                State (lock s) (upd (queue s) p (queue s p ++ [t])) (data s)
                  (upd (prog s) t rest) (upd (waiting s) t (Some p)) (stack s))
          end
      | IExit :: rest =>
          match stack s t with
          | [] => None
          | p :: st => Some (EExit t p, set_task (release s p) t rest None st)
          end
      end
  end.

Lemma move_step {D} (s : state D) t e s' : move s t = Some (e, s') -> step s e s'.
Proof.
  unfold move. destruct (waiting s t) as [p|] eqn:W.
  - destruct (owns s p t) eqn:O; [|discriminate]. intros E. injection E as <- <-.
    apply st_got; [exact W|]. unfold owns in O. destruct (lock s p) as [t'|]; [|discriminate].
    apply Nat.eqb_eq in O. now subst.
  - destruct (prog s t) as [|[p| |p f] rest] eqn:P; [discriminate| | |].
    + destruct (lock s p) as [t'|] eqn:L.
      * destruct (t' =? t) eqn:E; intros X; injection X as <- <-.
        -- apply Nat.eqb_eq in E. subst. eapply st_again; eauto.
        -- apply Nat.eqb_neq in E. eapply st_wait; eauto.
      * intros X; injection X as <- <-. now apply st_enter.
    + destruct (stack s t) as [|p st] eqn:S; [discriminate|].
      intros X; injection X as <- <-. now apply st_exit.
    + intros X; injection X as <- <-. now apply st_do.
Qed.

Fixpoint moves {D} (s : state D) (ts : list task) (l : list event) : option (list event * state D) :=
  match ts with
  | [] => Some (l, s)
  | t :: ts => match move s t with Some (e, s') => moves s' ts (l ++ [e]) | None => None end
  end.

Lemma moves_run {D} ts : forall (s0 s : state D) l r, run s0 l s -> moves s ts l = Some r ->
  run s0 (fst r) (snd r).
Proof.
  induction ts as [|t ts IH]; intros s0 s l r R E; cbn in E.
  - injection E as <-. exact R.
  - destruct (move s t) as [[e s']|] eqn:M; [|discriminate].
    apply (IH s0 s' (l ++ [e]) r); [|exact E].
    eapply run_snoc; [exact R|exact (move_step _ _ _ _ M)].
Qed.

Lemma moves_ex {D} (s : state D) ts (P : list event -> state D -> Prop) :
  match moves s ts [] with Some r => P (fst r) (snd r) | None => False end ->
  exists l s', run s l s' /\ P l s'.
Proof.
  destruct (moves s ts []) as [[l s']|] eqn:E; [|intros []].
  intros H. exists l, s'. split; [|exact H].
  exact (moves_run ts s s [] (l, s') (run_nil s) E).
Qed.

(** Two tasks that each append to pile 0 and then append its length, in one
    block: the second waits for the first. *)
Definition block (n : nat) : list (instr (list nat)) :=
  [IEnter 0; IDo 0 (fun l => l ++ [n]); IDo 0 (fun l => l ++ [length l]); IExit].
Definition two (a b : list (instr (list nat))) : task -> list (instr (list nat)) :=
  fun t => match t with 0 => a | 1 => b | _ => [] end.

Example C109_ex_blocks :
  exists l s, run (start (fun _ => []) (two (block 7) (block 8))) l s
    /\ l = [EEnter 0 0; EDo 0 0; EWait 1 0; EDo 0 0; EExit 0 0; EEnter 1 0; EDo 1 0; EDo 1 0; EExit 1 0]
    /\ data s 0 = [7; 1; 8; 3] /\ lock s 0 = None.
Proof. apply (moves_ex _ [0; 0; 1; 0; 0; 1; 1; 1; 1]). vm_compute. auto. Qed.

(** Entering a pile twice is an error, and the lock goes to the waiter. *)
Example C109_ex_reenter :
  exists l s, run (start (fun _ => []) (two [IEnter 0; IEnter 0; IExit; IExit] (block 8))) l s
    /\ l = [EEnter 0 0; EWait 1 0; EError 0] /\ lock s 0 = Some 1 /\ stack s 0 = [].
Proof. apply (moves_ex _ [0; 1; 0]). vm_compute. auto. Qed.

Example C109_ex_guarded : guarded [] (block 7) /\ ordered [] (block 7).
Proof. cbn. repeat split; auto. Qed.

(** The block does not protect against uses of the pile outside of blocks, by
    another task or by a plain method call. *)
Theorem C109_isolated_refuted :
  ~ (forall (d : pile -> list nat) pr l s t p s' t',
       run (start d pr) l s -> inside s t p -> step s (EDo t' p) s' -> t' = t).
Proof.
  intros H.
  assert (exists l s, run (start (fun _ => []) (two (block 7) [IDo 0 (fun _ => [])])) l s
            /\ (inside s 0 0 /\ waiting s 1 = None /\ prog s 1 = [IDo 0 (fun _ => [])])) as (l & s & R & A & W & P).
  { apply (moves_ex _ [0; 0]). vm_compute. auto. }
  assert (1 = 0); [|discriminate].
  eapply (H _ _ l s 0 0 _ 1 R A). eapply st_do; eauto.
Qed.
Print Assumptions C109_isolated_refuted.

(** Two tasks that open two piles in opposite orders block each other. *)
Theorem C109_deadlock_refuted :
  ~ (forall (d : pile -> list nat) pr n l s,
       (forall t, n <= t -> pr t = []) -> run (start d pr) l s ->
       (forall t, finished s t) \/ exists e s', step s e s' /\ forall t, ~ ends t e).
Proof.
  intros H.
  assert (exists l s, run (start (fun _ => [])
            (two [IEnter 0; IEnter 1; IExit; IExit] [IEnter 1; IEnter 0; IExit; IExit])) l s
          /\ (waiting s 0 = Some 1 /\ waiting s 1 = Some 0 /\ lock s 0 = Some 0 /\ lock s 1 = Some 1))
    as (l & s & R & W0 & W1 & L0 & L1).
  { apply (moves_ex _ [0; 1; 0; 1]). vm_compute. auto. }
  assert (forall t, finished s (2 + t)) as F.
  { intros t. apply (finished_run _ l s (2 + t) (inv_start _ _)) in R; [exact R|].
    split; reflexivity. }
  destruct (fun Z => H _ _ 2 l s Z R) as [X|(e & s' & E & N)].
  - intros [|[|t]] Ht; [lia|lia|reflexivity].
  - destruct (X 0). congruence.
  - assert (exists t, who e = t) as (t & Wt) by eauto.
    destruct t as [|[|t]].
    + inversion E; subst; cbn in Wt; subst; try congruence.
      exact (N 0 (or_intror eq_refl)).
    + inversion E; subst; cbn in Wt; subst; try congruence.
      exact (N 1 (or_intror eq_refl)).
    + exact (finished_stuck _ _ _ _ (F t) E Wt).
Qed.
Print Assumptions C109_deadlock_refuted.
