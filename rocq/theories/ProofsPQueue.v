(** Safety and wake-up properties of the concurrent priority queue. *)
From Coq Require Import List Bool Arith Lia Permutation.
From Verif Require Import PyBase PyFacts ModelHeap SpecHeap ProofsHeap ModelPQueue SpecPQueue.
Import ListNotations.

Section Lists.
  Context {B : Type}.

  Lemma nth_error_upd : forall (l : list B) i j x,
    nth_error (upd i x l) j = if (i =? j) && (i <? length l) then Some x else nth_error l j.
  Proof.
    induction l as [|y t IH]; intros [|i] [|j] x; simpl; auto.
    - rewrite andb_false_r; reflexivity.
    - rewrite IH. reflexivity.
  Qed.

  Lemma upd_same : forall (l : list B) i x, nth_error l i = Some x -> upd i x l = l.
  Proof. induction l as [|y t IH]; intros [|i] x H; simpl in *; try congruence. rewrite IH; auto. Qed.

  Fixpoint wsum (f : B -> nat) (l : list B) : nat :=
    match l with [] => 0 | x :: t => f x + wsum f t end.

  Lemma wsum_upd : forall f (l : list B) i a b, nth_error l i = Some a ->
    wsum f (upd i b l) + f a = wsum f l + f b.
  Proof.
    intros f l; induction l as [|y t IH]; intros [|i] a b H; simpl in *; try discriminate.
    - injection H as ->. lia.
    - specialize (IH i a b H). lia.
  Qed.

  Lemma flat_map_upd : forall (C : Type) (f : B -> list C) l i a b, nth_error l i = Some a -> f a = [] ->
    Permutation (flat_map f (upd i b l)) (f b ++ flat_map f l).
  Proof.
    intros C f l; induction l as [|y t IH]; intros [|i] a b H Hf; simpl in *; try discriminate.
    - injection H as ->. rewrite Hf. apply Permutation_refl.
    - etransitivity; [apply Permutation_app_head, (IH i a b H Hf)|].
      rewrite !app_assoc. apply Permutation_app_tail, Permutation_app_comm.
  Qed.

  Lemma flat_map_upd_eq : forall (C : Type) (f : B -> list C) l i a b, nth_error l i = Some a -> f a = f b ->
    flat_map f (upd i b l) = flat_map f l.
  Proof.
    intros C f l; induction l as [|y t IH]; intros [|i] a b H Hf; simpl in *; try discriminate.
    - injection H as ->. rewrite Hf. reflexivity.
    - rewrite (IH i a b H Hf). reflexivity.
  Qed.
End Lists.

Lemma NoDup_app_snoc : forall (l : list nat) x, NoDup l -> ~ In x l -> NoDup (l ++ [x]).
Proof.
  induction l as [|y t IH]; intros x Hn Hx; simpl; [constructor; [intros []|constructor]|].
  inversion Hn as [|? ? H1 H2]; subst. constructor.
  - rewrite in_app_iff. simpl. intros [Hc|[Hc|[]]]; [contradiction|]. apply Hx. left; auto.
  - apply IH; auto. intros Hc. apply Hx. right; exact Hc.
Qed.

Section PQ.
  Context {A : Type}.
  Variable lt : A -> A -> bool.
  Hypothesis W : weak_order lt.

  Notation conf := (@conf A).
  Notation task := (@call A * @pc A)%type.

  Lemma set_pc_spec : forall t p (l : list task) u,
    nth_error (set_pc t p l) u =
      if t =? u then option_map (fun kp => (fst kp, p)) (nth_error l u) else nth_error l u.
  Proof.
    intros t p l u. unfold set_pc. destruct (nth_error l t) as [[k q]|] eqn:E.
    - rewrite nth_error_upd. assert (Hl : t < length l) by (apply nth_error_Some; congruence).
      destruct (Nat.eqb_spec t u) as [->|]; simpl; [|reflexivity].
      rewrite E. simpl. assert (u <? length l = true) as -> by (apply Nat.ltb_lt; exact Hl). reflexivity.
    - destruct (Nat.eqb_spec t u) as [->|]; [rewrite E|]; reflexivity.
  Qed.

  Lemma set_pc_length : forall t p (l : list task), length (set_pc t p l) = length l.
  Proof. intros t p l. unfold set_pc. destruct (nth_error l t) as [[k q]|]; [apply upd_length | reflexivity]. Qed.

  Lemma set_pc_calls : forall t p (l : list task), map fst (set_pc t p l) = map fst l.
  Proof.
    intros t p l. unfold set_pc. destruct (nth_error l t) as [[k q]|] eqn:E; [|reflexivity].
    revert t E. induction l as [|y r IH]; intros [|t] E; simpl in *; try discriminate.
    - injection E as ->. reflexivity.
    - rewrite IH; auto.
  Qed.

  (** Structure of the lock and the waiters. [own] tells whether the owner is inside
      its critical section ([true]) or about to release ([false]). *)
  Record I (own : bool) (c : conf) : Prop := {
    s_lock : forall t, In t (c_lockq c) <-> state_of c t = Some Queued;
    s_lnd : NoDup (c_lockq c);
    s_cond : forall t, In t (c_condq c) <-> state_of c t = Some Waiting;
    s_cnd : NoDup (c_condq c);
    s_own : forall t, if own then c_owner c = Some t <-> state_of c t = Some Hold
                      else c_owner c <> None /\ state_of c t <> Some Hold;
    s_free : c_owner c = None -> c_lockq c = []
  }.

  Lemma state_set : forall q (l : list task) o lq cq t p u,
    state_of (Conf q (set_pc t p l) o lq cq) u =
    if t =? u then match nth_error l u with Some _ => Some p | None => None end
    else option_map snd (nth_error l u).
  Proof.
    intros. unfold state_of. simpl. rewrite set_pc_spec. destruct (t =? u); [|reflexivity].
    destruct (nth_error l u) as [[k r]|]; reflexivity.
  Qed.

  (** Changing the state of an existing task. *)
  Lemma state_upd : forall (c : conf) q o lq cq t p u, state_of c t <> None ->
    state_of (Conf q (set_pc t p (c_tasks c)) o lq cq) u = if t =? u then Some p else state_of c u.
  Proof.
    intros c q o lq cq t p u Ht. rewrite state_set. destruct (Nat.eqb_spec t u) as [->|]; [|reflexivity].
    unfold state_of in Ht. destruct (nth_error (c_tasks c) u); [reflexivity | exfalso; apply Ht; reflexivity].
  Qed.

  Ltac st := match goal with
    | H : state_of ?c ?t = Some _ |- context [state_of (Conf _ (set_pc ?t _ (c_tasks ?c)) _ _ _) _] =>
        rewrite (state_upd c _ _ _ _ t) by congruence
    end.

  Lemma release_I : forall (c : conf), I false c -> I true (release c).
  Proof.
    intros c [H1 H2 H3 H4 H5 H6]. unfold release. destruct (c_lockq c) as [|w r] eqn:El.
    - constructor; simpl; auto; try (constructor; fail).
      intros u. destruct (H5 u) as [_ H]. split; [discriminate | intros Hc; contradiction].
    - assert (Hw : state_of c w = Some Queued) by (apply H1; left; reflexivity).
      inversion H2 as [|? ? N1 N2]; subst.
      constructor; simpl; auto; [| | |discriminate].
      + intros u. st. destruct (Nat.eqb_spec w u) as [->|].
        * split; [contradiction | discriminate].
        * rewrite <- H1. simpl. split; [auto | intros [?|?]; [contradiction | assumption]].
      + intros u. st. destruct (Nat.eqb_spec w u) as [->|]; [|apply H3].
        split; [intros Hc; apply H3 in Hc; congruence | discriminate].
      + intros u. st. destruct (Nat.eqb_spec w u) as [->|Hwu]; [tauto|].
        split; [congruence|]. intros Hc. destruct (H5 u) as [_ H]. contradiction.
  Qed.

  Lemma leave_I : forall (c : conf) t p, I true c -> state_of c t = Some Hold ->
    p <> Queued -> p <> Hold -> p <> Waiting ->
    I false (Conf (c_q c) (set_pc t p (c_tasks c)) (c_owner c) (c_lockq c) (c_condq c)).
  Proof.
    intros c t p [H1 H2 H3 H4 H5 H6] Ht P1 P2 P3. constructor; simpl; auto.
    - intros u. st. destruct (Nat.eqb_spec t u) as [->|]; [|apply H1].
      split; [intros Hc; apply H1 in Hc; congruence | congruence].
    - intros u. st. destruct (Nat.eqb_spec t u) as [->|]; [|apply H3].
      split; [intros Hc; apply H3 in Hc; congruence | congruence].
    - intros u. st. assert (Ho : c_owner c = Some t) by (apply H5; exact Ht).
      split; [congruence|]. destruct (Nat.eqb_spec t u) as [->|]; [congruence|].
      intros Hc. apply H5 in Hc. congruence.
  Qed.

  Lemma finish_I : forall (c : conf) t r, I true c -> state_of c t = Some Hold -> I true (finish c t r).
  Proof. intros c t r H Ht. apply release_I, leave_I; auto; discriminate. Qed.

  Lemma wait_I : forall (c : conf) t, I true c -> state_of c t = Some Hold -> I true (wait c t).
  Proof.
    intros c t [H1 H2 H3 H4 H5 H6] Ht. apply release_I. constructor; simpl; auto.
    - intros u. st. destruct (Nat.eqb_spec t u) as [->|]; [|apply H1].
      split; [intros Hc; apply H1 in Hc; congruence | congruence].
    - intros u. st. rewrite in_app_iff. simpl. destruct (Nat.eqb_spec t u) as [->|]; [tauto|].
      rewrite H3. tauto.
    - apply NoDup_app_snoc; auto. intros Hc. apply H3 in Hc. congruence.
    - intros u. st. assert (Ho : c_owner c = Some t) by (apply H5; exact Ht).
      split; [congruence|]. destruct (Nat.eqb_spec t u) as [->|]; [congruence|].
      intros Hc. apply H5 in Hc. congruence.
  Qed.

  Lemma set_q_I : forall (c : conf) q, I true c -> I true (set_q c q).
  Proof. intros c q [H1 H2 H3 H4 H5 H6]. constructor; auto. Qed.

  Lemma notify_I : forall (c : conf), I true c -> I true (notify c).
  Proof.
    intros c H. unfold notify. destruct (c_condq c) as [|w r] eqn:Ec; [exact H|].
    destruct H as [H1 H2 H3 H4 H5 H6]. rewrite Ec in *.
    assert (Hw : state_of c w = Some Waiting) by (apply H3; left; reflexivity).
    inversion H4 as [|? ? N1 N2]; subst.
    constructor; simpl; auto.
    - intros u. st. destruct (Nat.eqb_spec w u) as [->|]; [|apply H1].
      split; [intros Hc; apply H1 in Hc; congruence | discriminate].
    - intros u. st. destruct (Nat.eqb_spec w u) as [->|].
      + split; [contradiction | discriminate].
      + rewrite <- H3. simpl. split; [auto | intros [?|?]; [contradiction | assumption]].
    - intros u. st. destruct (Nat.eqb_spec w u) as [->|]; [|apply H5].
      split; [intros Hc; apply H5 in Hc; congruence | discriminate].
  Qed.

  Lemma notify_state : forall (c : conf) t p, I true c -> state_of c t = Some p -> p <> Waiting ->
    state_of (notify c) t = Some p.
  Proof.
    intros c t p H Ht Hp. unfold notify. destruct (c_condq c) as [|w r] eqn:Ec; [exact Ht|].
    assert (Hw : state_of c w = Some Waiting) by (apply (s_cond _ _ H); rewrite Ec; left; reflexivity).
    st. destruct (Nat.eqb_spec w t) as [->|]; congruence.
  Qed.

  Lemma acquire_I : forall (c : conf) t p, I true c -> state_of c t = Some p -> p = Start \/ p = Notified ->
    I true (acquire c t).
  Proof.
    intros c t p [H1 H2 H3 H4 H5 H6] Ht Hp. unfold acquire. destruct (c_owner c) as [o|] eqn:Eo.
    - constructor; simpl; auto; [| | | |discriminate].
      + intros u. st. rewrite in_app_iff. simpl. destruct (Nat.eqb_spec t u) as [->|]; [tauto|].
        rewrite H1. tauto.
      + apply NoDup_app_snoc; auto. intros Hc. apply H1 in Hc. destruct Hp; congruence.
      + intros u. st. destruct (Nat.eqb_spec t u) as [->|]; [|apply H3].
        split; [intros Hc; apply H3 in Hc; destruct Hp; congruence | discriminate].
      + intros u. st. destruct (Nat.eqb_spec t u) as [->|]; [|apply H5].
        split; [intros Hc; apply H5 in Hc; destruct Hp; congruence | discriminate].
    - constructor; simpl; auto; [| |].
      + intros u. st. rewrite (H6 eq_refl) in *. destruct (Nat.eqb_spec t u) as [->|]; [|apply H1].
        split; [intros [] | discriminate].
      + intros u. st. destruct (Nat.eqb_spec t u) as [->|]; [|apply H3].
        split; [intros Hc; apply H3 in Hc; destruct Hp; congruence | discriminate].
      + intros u. st. destruct (Nat.eqb_spec t u) as [->|]; [tauto|].
        split; [congruence|]. intros Hc. apply H5 in Hc. discriminate.
  Qed.

  Lemma cancel_I : forall (c : conf) t p, I true c -> state_of c t = Some p ->
    p = Start \/ p = Notified \/ p = Queued \/ p = Waiting ->
    I true (Conf (c_q c) (set_pc t Gone (c_tasks c)) (c_owner c)
                 (without t (c_lockq c)) (without t (c_condq c))).
  Proof.
    intros c t p [H1 H2 H3 H4 H5 H6] Ht Hp.
    assert (Hin : forall l u, In u (without t l) <-> In u l /\ u <> t).
    { intros l u. unfold without. rewrite filter_In, negb_true_iff, Nat.eqb_neq. reflexivity. }
    constructor; simpl.
    - intros u. st. rewrite Hin, H1. destruct (Nat.eqb_spec t u) as [->|]; [|split; [tauto | auto]].
      split; [tauto | discriminate].
    - apply NoDup_filter; exact H2.
    - intros u. st. rewrite Hin, H3. destruct (Nat.eqb_spec t u) as [->|]; [|split; [tauto | auto]].
      split; [tauto | discriminate].
    - apply NoDup_filter; exact H4.
    - intros u. st. destruct (Nat.eqb_spec t u) as [->|]; [|apply H5].
      split; [|discriminate]. intros Hc. apply H5 in Hc. destruct Hp as [?|[?|[?|?]]]; congruence.
    - intros Ho. rewrite (H6 Ho). reflexivity.
  Qed.

  Lemma nth_state : forall (c : conf) t k p, nth_error (c_tasks c) t = Some (k, p) -> state_of c t = Some p.
  Proof. intros c t k p H. unfold state_of. rewrite H. reflexivity. Qed.

  Lemma body_I : forall (c : conf) t k, I true c -> state_of c t = Some Hold -> I true (body lt c t k).
  Proof.
    intros c t k H Ht.
    assert (Hput : forall q r, I true (finish (notify (set_q c q)) t r)).
    { intros q r. apply finish_I; [apply notify_I, set_q_I; exact H|].
      apply notify_state; [apply set_q_I; exact H | exact Ht | discriminate]. }
    unfold body. destruct k; unfold do_put.
    - destruct (pq_full (c_q c)); [apply wait_I; assumption | apply Hput].
    - destruct (pq_full (c_q c)); [apply finish_I; assumption | apply Hput].
    - destruct (heappop lt (pq_heap (c_q c))) as [[x h]|]; [apply Hput | apply wait_I; assumption].
    - destruct (heappop lt (pq_heap (c_q c))) as [[x h]|]; [apply Hput | apply finish_I; assumption].
  Qed.

  Lemma pstep_I : forall (c : conf) a, I true c -> I true (pstep lt c a).
  Proof.
    intros c [t|t] H; simpl; destruct (nth_error (c_tasks c) t) as [[k p]|] eqn:En; try exact H;
      pose proof (nth_state c t k p En) as Ht; destruct p; try exact H.
    - eapply acquire_I; eauto.
    - apply body_I; assumption.
    - eapply acquire_I; eauto.
    - eapply cancel_I; eauto.
    - eapply cancel_I; eauto.
    - apply release_I, leave_I; auto; discriminate.
    - eapply cancel_I; eauto.
    - eapply cancel_I; eauto.
  Qed.

  Lemma pinit_state : forall (q : @pq A) calls t p, state_of (pinit q calls) t = Some p -> p = Start.
  Proof.
    intros q calls t p H. unfold state_of, pinit in H. simpl in H.
    rewrite nth_error_map in H. destruct (nth_error calls t); simpl in H; congruence.
  Qed.

  Lemma pinit_I : forall q calls, I true (pinit q calls).
  Proof.
    intros q calls. constructor; simpl; try (constructor; fail); auto.
    - intros t. split; [intros [] | intros H; apply pinit_state in H; discriminate].
    - intros t. split; [intros [] | intros H; apply pinit_state in H; discriminate].
    - intros t. split; [discriminate | intros H; apply pinit_state in H; discriminate].
  Qed.

  Lemma prun_I : forall s (c : conf), I true c -> I true (prun lt c s).
  Proof. induction s as [|a s IH]; intros c H; simpl; [exact H | apply IH, pstep_I; exact H]. Qed.

  (** ** Accounting over tasks *)
  Definition live (p : @pc A) : bool := match p with Done _ => false | _ => true end.

  Lemma set_pc_eq : forall (l : list task) t k p p', nth_error l t = Some (k, p) ->
    set_pc t p' l = upd t (k, p') l.
  Proof. intros l t k p p' H. unfold set_pc. rewrite H. reflexivity. Qed.

  Lemma state_nth : forall (c : conf) t p, state_of c t = Some p ->
    exists k, nth_error (c_tasks c) t = Some (k, p).
  Proof.
    intros c t p H. unfold state_of in H. destruct (nth_error (c_tasks c) t) as [[k q]|]; [|discriminate].
    exists k. simpl in H. congruence.
  Qed.

  Section Acc.
    Variable f : task -> list A.
    Hypothesis Hf : forall k p, live p = true -> f (k, p) = [].

    Lemma acc_move : forall (c : conf) t p p', state_of c t = Some p -> live p = true -> live p' = true ->
      flat_map f (set_pc t p' (c_tasks c)) = flat_map f (c_tasks c).
    Proof.
      intros c t p p' Ht H1 H2. destruct (state_nth c t p Ht) as [k Hk].
      rewrite (set_pc_eq _ _ _ _ p' Hk). apply (flat_map_upd_eq _ f _ _ _ _ Hk). rewrite !Hf; auto.
    Qed.

    Lemma acc_release : forall (c : conf), (forall t, In t (c_lockq c) -> state_of c t = Some Queued) ->
      flat_map f (c_tasks (release c)) = flat_map f (c_tasks c).
    Proof.
      intros c H. unfold release. destruct (c_lockq c) as [|w r]; [reflexivity|].
      apply (acc_move c w Queued); [apply H; left; reflexivity | reflexivity | reflexivity].
    Qed.

    Lemma acc_notify : forall (c : conf), I true c -> flat_map f (c_tasks (notify c)) = flat_map f (c_tasks c).
    Proof.
      intros c H. unfold notify. destruct (c_condq c) as [|w r] eqn:Ec; [reflexivity|].
      apply (acc_move c w Waiting); [|reflexivity|reflexivity].
      apply (s_cond _ _ H). rewrite Ec. left; reflexivity.
    Qed.

    Lemma acc_finish : forall (c : conf) t k r, I true c -> nth_error (c_tasks c) t = Some (k, Hold) ->
      Permutation (flat_map f (c_tasks (finish c t r))) (f (k, Done r) ++ flat_map f (c_tasks c)).
    Proof.
      intros c t k r H Ht. pose proof (nth_state c t k Hold Ht) as Hs.
      unfold finish. rewrite acc_release.
      - simpl. rewrite (set_pc_eq _ _ _ _ (Done r) Ht). apply (flat_map_upd _ f _ _ _ _ Ht). apply Hf; reflexivity.
      - intros u Hu. simpl in Hu. apply (s_lock _ _ H) in Hu. st. destruct (Nat.eqb_spec t u) as [->|]; congruence.
    Qed.

    Lemma acc_wait : forall (c : conf) t, I true c -> state_of c t = Some Hold ->
      flat_map f (c_tasks (wait c t)) = flat_map f (c_tasks c).
    Proof.
      intros c t H Hs. unfold wait. rewrite acc_release.
      - simpl. apply (acc_move c t Hold); auto.
      - intros u Hu. simpl in Hu. apply (s_lock _ _ H) in Hu. st. destruct (Nat.eqb_spec t u) as [->|]; congruence.
    Qed.

    Lemma acc_acquire : forall (c : conf) t p, state_of c t = Some p -> live p = true ->
      flat_map f (c_tasks (acquire c t)) = flat_map f (c_tasks c).
    Proof.
      intros c t p Ht Hl. unfold acquire. destruct (c_owner c); simpl; apply (acc_move c t p); auto.
    Qed.
  End Acc.

  Lemma put_by_live : forall (k : @call A) p, live p = true -> put_by (k, p) = [].
  Proof. intros [| | |] [] H; try discriminate; reflexivity. Qed.
  Lemma got_by_live : forall (k : @call A) p, live p = true -> got_by (k, p) = [].
  Proof. intros [| | |] [] H; try discriminate; reflexivity. Qed.

  Definition data_ok (init : list A) (mx : nat) (c : conf) : Prop :=
    heap lt (pq_heap (c_q c)) /\ pq_max (c_q c) = mx /\
    (0 < mx -> length (pq_heap (c_q c)) <= mx) /\
    Permutation (init ++ flat_map put_by (c_tasks c))
                (flat_map got_by (c_tasks c) ++ pq_heap (c_q c)).

  Lemma q_release : forall (c : conf), c_q (release c) = c_q c.
  Proof. intros c. unfold release. destruct (c_lockq c); reflexivity. Qed.
  Lemma q_notify : forall (c : conf), c_q (notify c) = c_q c.
  Proof. intros c. unfold notify. destruct (c_condq c); reflexivity. Qed.
  Lemma q_acquire : forall (c : conf) t, c_q (acquire c t) = c_q c.
  Proof. intros c t. unfold acquire. destruct (c_owner c); reflexivity. Qed.
  Lemma q_finish : forall (c : conf) t r, c_q (finish c t r) = c_q c.
  Proof. intros c t r. unfold finish. rewrite q_release. reflexivity. Qed.
  Lemma q_wait : forall (c : conf) t, c_q (wait c t) = c_q c.
  Proof. intros c t. unfold wait. rewrite q_release. reflexivity. Qed.

  Lemma same_data : forall init mx (c c' : conf), data_ok init mx c -> c_q c' = c_q c ->
    flat_map put_by (c_tasks c') = flat_map put_by (c_tasks c) ->
    flat_map got_by (c_tasks c') = flat_map got_by (c_tasks c) -> data_ok init mx c'.
  Proof. intros init mx c c' H Hq Hp Hg. unfold data_ok in *. rewrite Hq, Hp, Hg. exact H. Qed.

  Lemma nth_set_q_notify : forall (c : conf) q t k, I true c -> nth_error (c_tasks c) t = Some (k, Hold) ->
    nth_error (c_tasks (notify (set_q c q))) t = Some (k, Hold).
  Proof.
    intros c q t k H Ht. unfold notify. simpl. destruct (c_condq c) as [|w r] eqn:Ec; [exact Ht|].
    simpl. rewrite set_pc_spec. destruct (Nat.eqb_spec w t) as [->|]; [|exact Ht].
    assert (Hw : state_of c t = Some Waiting) by (apply (s_cond _ _ H); rewrite Ec; left; reflexivity).
    apply nth_state in Ht. congruence.
  Qed.

  Lemma done_data : forall init mx (c : conf) t k q r, I true c -> data_ok init mx c ->
    nth_error (c_tasks c) t = Some (k, Hold) -> heap lt (pq_heap q) -> pq_max q = mx ->
    (0 < mx -> length (pq_heap q) <= mx) ->
    Permutation (put_by (k, Done r) ++ pq_heap (c_q c)) (got_by (k, Done r) ++ pq_heap q) ->
    data_ok init mx (finish (notify (set_q c q)) t r).
  Proof.
    intros init mx c t k q r H (D1 & D2 & D3 & D4) Ht Q1 Q2 Q3 Q4.
    pose proof (set_q_I c q H) as H'. pose proof (notify_I _ H') as H''.
    pose proof (nth_set_q_notify c q t k H Ht) as Ht'.
    unfold data_ok. rewrite q_finish, q_notify. simpl. split; [exact Q1|]. split; [exact Q2|]. split; [exact Q3|].
    pose proof (acc_finish put_by put_by_live _ t k r H'' Ht') as P.
    pose proof (acc_finish got_by got_by_live _ t k r H'' Ht') as G.
    rewrite (acc_notify put_by put_by_live _ H') in P. rewrite (acc_notify got_by got_by_live _ H') in G.
    simpl in P, G. rewrite P, G.
    rewrite (Permutation_app_comm (put_by (k, Done r))), app_assoc, D4.
    rewrite <- app_assoc, (Permutation_app_comm (pq_heap (c_q c))), Q4.
    rewrite !app_assoc. apply Permutation_app_tail, Permutation_app_comm.
  Qed.

  Lemma body_data : forall init mx (c : conf) t k, I true c -> data_ok init mx c ->
    nth_error (c_tasks c) t = Some (k, Hold) -> data_ok init mx (body lt c t k).
  Proof.
    intros init mx c t k H HD Ht. pose proof (nth_state c t k Hold Ht) as Hs.
    assert (Hwait : data_ok init mx (wait c t)).
    { apply (same_data init mx c); [exact HD | apply q_wait | |]; apply acc_wait; auto;
        [apply put_by_live | apply got_by_live]. }
    assert (Hfin : forall r, put_by (k, Done r) = [] -> got_by (k, Done r) = [] -> data_ok init mx (finish c t r)).
    { intros r E1 E2. unfold data_ok. rewrite q_finish. destruct HD as (D1 & D2 & D3 & D4).
      split; [exact D1|]. split; [exact D2|]. split; [exact D3|].
      pose proof (acc_finish put_by put_by_live _ t k r H Ht) as P.
      pose proof (acc_finish got_by got_by_live _ t k r H Ht) as G.
      rewrite E1 in P. rewrite E2 in G. rewrite P, G. exact D4. }
    pose proof HD as (D1 & D2 & D3 & D4).
    assert (Hput : forall x, put_by (k, Done QUnit) = [x] -> got_by (k, Done QUnit) = [] ->
              pq_full (c_q c) = false -> data_ok init mx (do_put lt c t x)).
    { intros x E1 E2 Ef. destruct (heap_push lt W (pq_heap (c_q c)) x D1) as [P1 P2].
      apply (done_data init mx c t k); auto.
      - intros Hmx. simpl. rewrite (Permutation_length P2). simpl.
        unfold pq_full in Ef. rewrite D2 in Ef. apply andb_false_iff in Ef. destruct Ef as [Ef|Ef].
        + apply Nat.ltb_ge in Ef. lia.
        + apply Nat.leb_gt in Ef. lia.
      - rewrite E1, E2. simpl. symmetry. exact P2. }
    assert (Hpop : forall x h, heappop lt (pq_heap (c_q c)) = Some (x, h) ->
              put_by (k, Done (QItem x)) = [] -> got_by (k, Done (QItem x)) = [x] ->
              data_ok init mx (finish (notify (set_q c (PQ (pq_max (c_q c)) h))) t (QItem x))).
    { intros x h E E1 E2. pose proof (heap_pop lt W (pq_heap (c_q c)) D1) as P. rewrite E in P.
      destruct P as (P1 & P2 & P3). apply (done_data init mx c t k); auto.
      - intros Hmx. simpl. pose proof (Permutation_length P2) as L. simpl in L. specialize (D3 Hmx). lia.
      - rewrite E1, E2. simpl. exact P2. }
    unfold body. destruct k.
    - destruct (pq_full (c_q c)) eqn:Ef; [exact Hwait | apply Hput; auto].
    - destruct (pq_full (c_q c)) eqn:Ef; [apply Hfin; reflexivity | apply Hput; auto].
    - destruct (heappop lt (pq_heap (c_q c))) as [[x h]|] eqn:E; [apply Hpop; auto | exact Hwait].
    - destruct (heappop lt (pq_heap (c_q c))) as [[x h]|] eqn:E; [apply Hpop; auto | apply Hfin; reflexivity].
  Qed.

  Lemma pstep_data : forall init mx (c : conf) a, I true c -> data_ok init mx c ->
    data_ok init mx (pstep lt c a).
  Proof.
    intros init mx c a H HD.
    assert (Hacq : forall t p, state_of c t = Some p -> live p = true -> data_ok init mx (acquire c t)).
    { intros t p Ht Hl. apply (same_data init mx c); [exact HD | apply q_acquire | |];
        (eapply acc_acquire; [|exact Ht|exact Hl]); [apply put_by_live | apply got_by_live]. }
    assert (Hcan : forall t p o lq cq, state_of c t = Some p -> live p = true ->
              data_ok init mx (Conf (c_q c) (set_pc t Gone (c_tasks c)) o lq cq)).
    { intros t p o lq cq Ht Hl. apply (same_data init mx c); [exact HD | reflexivity | |];
        (eapply acc_move; [|exact Ht|exact Hl|reflexivity]); [apply put_by_live | apply got_by_live]. }
    destruct a as [t|t]; simpl; destruct (nth_error (c_tasks c) t) as [[k p]|] eqn:En; try exact HD;
      pose proof (nth_state c t k p En) as Ht; destruct p; try exact HD.
    - eapply Hacq; eauto.
    - apply body_data; auto.
    - eapply Hacq; eauto.
    - eapply Hcan; eauto.
    - eapply Hcan; eauto.
    - pose proof (leave_I c t Gone H Ht ltac:(discriminate) ltac:(discriminate) ltac:(discriminate)) as HL.
      apply (same_data init mx (Conf (c_q c) (set_pc t Gone (c_tasks c)) (c_owner c) (c_lockq c) (c_condq c)));
        [eapply Hcan; eauto | apply q_release | |]; apply acc_release;
        [apply put_by_live | intros u Hu; apply (s_lock _ _ HL); exact Hu
        |apply got_by_live | intros u Hu; apply (s_lock _ _ HL); exact Hu].
    - eapply Hcan; eauto.
    - eapply Hcan; eauto.
  Qed.

  Lemma prun_inv : forall s (c : conf) init mx, I true c -> data_ok init mx c ->
    I true (prun lt c s) /\ data_ok init mx (prun lt c s).
  Proof.
    induction s as [|a s IH]; intros c init mx H HD; simpl; [auto|].
    apply IH; [apply pstep_I; exact H | apply pstep_data; auto].
  Qed.

  Lemma pinit_data : forall q calls, heap lt (pq_heap q) ->
    (0 < pq_max q -> length (pq_heap q) <= pq_max q) ->
    data_ok (pq_heap q) (pq_max q) (pinit q calls).
  Proof.
    intros q calls Hh Hl. split; [exact Hh|]. split; [reflexivity|]. split; [exact Hl|].
    assert (G : forall f : task -> list A, (forall k, f (k, Start) = []) ->
              flat_map f (c_tasks (pinit q calls)) = []).
    { intros f Hf. simpl. induction calls as [|k t IH]; simpl; [reflexivity|]. rewrite Hf, IH. reflexivity. }
    rewrite !G; [rewrite app_nil_r; apply Permutation_refl | |]; intros []; reflexivity.
  Qed.

  (** ** Wake-ups *)
  Definition engaged (p : @pc A) : nat := match p with Queued | Hold | Notified => 1 | _ => 0 end.

  Section Wake.
    (** [sel] selects the calls that may wait. *)
    Variable sel : @call A -> bool.
    Definition infl (tk : task) : nat := if sel (fst tk) then engaged (snd tk) else 0.
    Definition total (c : conf) : nat := wsum infl (c_tasks c).

    Lemma total_move : forall (c : conf) t k p p', nth_error (c_tasks c) t = Some (k, p) ->
      wsum infl (set_pc t p' (c_tasks c)) + (if sel k then engaged p else 0) =
      total c + (if sel k then engaged p' else 0).
    Proof. intros c t k p p' H. rewrite (set_pc_eq _ _ _ _ p' H). apply (wsum_upd infl _ _ (k, p) (k, p')); exact H. Qed.

    Lemma total_release : forall (c : conf), (forall t, In t (c_lockq c) -> state_of c t = Some Queued) ->
      total (release c) = total c.
    Proof.
      intros c H. unfold release. destruct (c_lockq c) as [|w r]; [reflexivity|].
      destruct (state_nth c w Queued) as [k Hk]; [apply H; left; reflexivity|].
      pose proof (total_move c w k Queued Hold Hk) as E. unfold total at 1. simpl.
      simpl in E. destruct (sel k); lia.
    Qed.

    Lemma total_notify : forall (c : conf), I true c ->
      match c_condq c with
      | [] => total (notify c) = total c
      | u :: _ => exists k, nth_error (c_tasks c) u = Some (k, Waiting) /\
                            total (notify c) = total c + (if sel k then 1 else 0)
      end.
    Proof.
      intros c H. unfold notify. destruct (c_condq c) as [|w r] eqn:Ec; [reflexivity|].
      destruct (state_nth c w Waiting) as [k Hk]; [apply (s_cond _ _ H); rewrite Ec; left; reflexivity|].
      exists k. split; [exact Hk|].
      pose proof (total_move c w k Waiting Notified Hk) as E. unfold total at 1. simpl.
      simpl in E. destruct (sel k); lia.
    Qed.

    Lemma lock_after : forall (c : conf) t p, I true c -> state_of c t = Some Hold ->
      forall u, In u (c_lockq c) -> 
      state_of (Conf (c_q c) (set_pc t p (c_tasks c)) (c_owner c) (c_lockq c) (c_condq c)) u = Some Queued.
    Proof.
      intros c t p H Hs u Hu. apply (s_lock _ _ H) in Hu. st. destruct (Nat.eqb_spec t u) as [->|]; congruence.
    Qed.

    Lemma total_finish : forall (c : conf) t k r, I true c -> nth_error (c_tasks c) t = Some (k, Hold) ->
      total (finish c t r) + (if sel k then 1 else 0) = total c.
    Proof.
      intros c t k r H Ht. unfold finish. rewrite total_release.
      - pose proof (total_move c t k Hold (Done r) Ht) as E. unfold total at 1. simpl.
        simpl in E. destruct (sel k); lia.
      - intros u Hu. apply lock_after; auto. eapply nth_state; eauto.
    Qed.

    Lemma total_wait : forall (c : conf) t k, I true c -> nth_error (c_tasks c) t = Some (k, Hold) ->
      total (wait c t) + (if sel k then 1 else 0) = total c.
    Proof.
      intros c t k H Ht. unfold wait. rewrite total_release.
      - pose proof (total_move c t k Hold Waiting Ht) as E. unfold total at 1. simpl.
        simpl in E. destruct (sel k); lia.
      - intros u Hu. simpl in Hu. apply (s_lock _ _ H) in Hu. pose proof (nth_state _ _ _ _ Ht).
        st. destruct (Nat.eqb_spec t u) as [->|]; congruence.
    Qed.

    Lemma total_acquire : forall (c : conf) t k p, nth_error (c_tasks c) t = Some (k, p) ->
      p = Start \/ p = Notified -> total c <= total (acquire c t).
    Proof.
      intros c t k p Ht Hp. unfold acquire.
      destruct (c_owner c); unfold total at 2; simpl.
      - pose proof (total_move c t k p Queued Ht) as E. simpl in E.
        destruct Hp; subst p; simpl in E; destruct (sel k); lia.
      - pose proof (total_move c t k p Hold Ht) as E. simpl in E.
        destruct Hp; subst p; simpl in E; destruct (sel k); lia.
    Qed.

    Lemma engaged_pos : forall (c : conf) t k, nth_error (c_tasks c) t = Some (k, Hold) -> sel k = true ->
      0 < total c.
    Proof.
      intros c t k Ht Hk. pose proof (total_move c t k Hold Start Ht) as E. simpl in E. rewrite Hk in E. lia.
    Qed.

    Lemma quiescent_total : forall (c : conf), I true c -> quiescent c -> total c = 0.
    Proof.
      intros c H Hq. assert (Hn : forall t k p, nth_error (c_tasks c) t = Some (k, p) -> engaged p = 0).
      { intros t k p Ht. pose proof (nth_state _ _ _ _ Ht) as Hs. pose proof Hq as Hq0. specialize (Hq t p Hs).
        destruct p; try reflexivity; try discriminate. exfalso.
        apply (s_lock _ _ H) in Hs. destruct (c_owner c) as [o|] eqn:Eo.
        - assert (Ho : state_of c o = Some Hold) by (apply (s_own _ _ H); exact Eo).
          specialize (Hq0 o Hold Ho). discriminate.
        - rewrite (s_free _ _ H Eo) in Hs. destruct Hs. }
      unfold total. assert (G : forall l : list task, (forall t k p, nth_error l t = Some (k, p) -> engaged p = 0) -> wsum infl l = 0).
      { induction l as [|[k p] l IH]; intros Hl; simpl; [reflexivity|]. rewrite IH.
        - unfold infl. simpl. rewrite (Hl 0 k p eq_refl). destruct (sel k); reflexivity.
        - intros t k' p' Ht. apply (Hl (S t) k' p'). exact Ht. }
      apply G. exact Hn.
    Qed.
  End Wake.
End PQ.
