(** Absence of lost wake-ups where it holds, and termination. *)
From Coq Require Import List Bool Arith Lia Permutation.
From Verif Require Import PyBase PyFacts ModelHeap SpecHeap ProofsHeap ModelPQueue SpecPQueue ProofsPQueue.
Import ListNotations.

Section Wake.
  Context {A : Type}.
  Variable lt : A -> A -> bool.
  Hypothesis W : weak_order lt.
  Notation conf := (@conf A).
  Notation task := (@call A * @pc A)%type.

  (** ** Calls never change *)
  Lemma calls_release : forall (c : conf), map fst (c_tasks (release c)) = map fst (c_tasks c).
  Proof. intros c. unfold release. destruct (c_lockq c); simpl; [reflexivity | apply set_pc_calls]. Qed.
  Lemma calls_notify : forall (c : conf), map fst (c_tasks (notify c)) = map fst (c_tasks c).
  Proof. intros c. unfold notify. destruct (c_condq c); simpl; [reflexivity | apply set_pc_calls]. Qed.
  Lemma calls_acquire : forall (c : conf) t, map fst (c_tasks (acquire c t)) = map fst (c_tasks c).
  Proof. intros c t. unfold acquire. destruct (c_owner c); simpl; apply set_pc_calls. Qed.
  Lemma calls_finish : forall (c : conf) t r, map fst (c_tasks (finish c t r)) = map fst (c_tasks c).
  Proof. intros c t r. unfold finish. rewrite calls_release. simpl. apply set_pc_calls. Qed.
  Lemma calls_wait : forall (c : conf) t, map fst (c_tasks (wait c t)) = map fst (c_tasks c).
  Proof. intros c t. unfold wait. rewrite calls_release. simpl. apply set_pc_calls. Qed.

  Lemma calls_body : forall (c : conf) t k, map fst (c_tasks (body lt c t k)) = map fst (c_tasks c).
  Proof.
    intros c t k. unfold body, do_put.
    assert (P : forall q r, map fst (c_tasks (finish (notify (set_q c q)) t r)) = map fst (c_tasks c))
      by (intros q r; rewrite calls_finish, calls_notify; reflexivity).
    destruct k; try destruct (pq_full (c_q c)); try destruct (heappop lt (pq_heap (c_q c))) as [[x' h]|];
      rewrite ?P, ?calls_finish, ?calls_wait; reflexivity.
  Qed.

  Lemma calls_step : forall (c : conf) a, map fst (c_tasks (pstep lt c a)) = map fst (c_tasks c).
  Proof.
    intros c [t|t]; simpl; destruct (nth_error (c_tasks c) t) as [[k p]|]; try reflexivity; destruct p;
      rewrite ?calls_acquire, ?calls_body, ?calls_release; simpl; rewrite ?set_pc_calls; reflexivity.
  Qed.

  (** ** Who waits *)
  Definition waiting (c : conf) (u : nat) (k : call) : Prop := nth_error (c_tasks c) u = Some (k, Waiting).

  Lemma waiting_set : forall (l : list task) t p u k, p <> Waiting ->
    nth_error (set_pc t p l) u = Some (k, Waiting) -> nth_error l u = Some (k, Waiting).
  Proof.
    intros l t p u k Hp H. rewrite set_pc_spec in H. destruct (t =? u); [|exact H].
    destruct (nth_error l u) as [[k' p']|]; simpl in H; [|discriminate]. injection H as -> ->. contradiction.
  Qed.

  Lemma waiting_release : forall (c : conf) u k, waiting (release c) u k -> waiting c u k.
  Proof.
    intros c u k. unfold waiting, release. destruct (c_lockq c); simpl; [auto|]. apply waiting_set. discriminate.
  Qed.
  Lemma waiting_notify : forall (c : conf) u k, waiting (notify c) u k -> waiting c u k.
  Proof.
    intros c u k. unfold waiting, notify. destruct (c_condq c); simpl; [auto|]. apply waiting_set. discriminate.
  Qed.
  Lemma waiting_acquire : forall (c : conf) t u k, waiting (acquire c t) u k -> waiting c u k.
  Proof.
    intros c t u k. unfold waiting, acquire. destruct (c_owner c); simpl; apply waiting_set; discriminate.
  Qed.
  Lemma waiting_finish : forall (c : conf) t r u k, waiting (finish c t r) u k -> waiting c u k.
  Proof.
    intros c t r u k H. unfold finish in H. apply waiting_release in H. unfold waiting in *. simpl in H.
    apply waiting_set in H; [exact H | discriminate].
  Qed.
  Lemma waiting_wait : forall (c : conf) t k0 u k, nth_error (c_tasks c) t = Some (k0, Hold) ->
    waiting (wait c t) u k -> waiting c u k \/ k = k0.
  Proof.
    intros c t k0 u k Ht H. unfold wait in H. apply waiting_release in H. unfold waiting in *. simpl in H.
    rewrite set_pc_spec in H. destruct (Nat.eqb_spec t u) as [->|]; [|auto].
    rewrite Ht in H. simpl in H. injection H as <-. auto.
  Qed.

  Lemma condq_release : forall (c : conf), c_condq (release c) = c_condq c.
  Proof. intros c. unfold release. destruct (c_lockq c); reflexivity. Qed.
  Lemma condq_finish : forall (c : conf) t r, c_condq (finish c t r) = c_condq c.
  Proof. intros c t r. unfold finish. rewrite condq_release. reflexivity. Qed.
  Lemma condq_acquire : forall (c : conf) t, c_condq (acquire c t) = c_condq c.
  Proof. intros c t. unfold acquire. destruct (c_owner c); reflexivity. Qed.

  (** ** One side only waits: [sel] is the blocking call, [room] what it waits for *)
  Section Side.
    Variable sel : @call A -> bool.
    Variable room : @pq A -> nat.
    Variable calls : list (@call A).
    Variable mx : nat.

    Definition sel_waits (k : @call A) : Prop :=
      forall c t, In k calls -> pq_max (c_q c) = mx -> heap lt (pq_heap (c_q c)) ->
        (0 < mx -> length (pq_heap (c_q c)) <= mx) ->
        nth_error (c_tasks c) t = Some (k, Hold) -> I true c ->
        (* the call either waits, which needs [sel] and no room, *)
        (body lt c t k = wait c t /\ sel k = true /\ room (c_q c) = 0) \/
        (* or refuses without touching the queue, *)
        (exists r, body lt c t k = finish c t r /\ sel k = false) \/
        (* or changes the queue, waking one waiter *)
        (exists q r, body lt c t k = finish (notify (set_q c q)) t r /\
           room q + (if sel k then 1 else 0) <= S (room (c_q c)) /\
           (sel k = true -> room q < room (c_q c) \/ room q = 0)).

    Hypothesis Hsel : forall k, sel_waits k.

    Definition wake_ok (c : conf) : Prop :=
      map fst (c_tasks c) = calls /\ (forall u k, waiting c u k -> sel k = true) /\
      (c_condq c <> [] -> room (c_q c) <= total sel c).

    Lemma wake_body : forall (c : conf) t k init, I true c -> data_ok lt init mx c -> wake_ok c ->
      nth_error (c_tasks c) t = Some (k, Hold) -> wake_ok (body lt c t k).
    Proof.
      intros c t k init H HD (K1 & K2 & K3) Ht. destruct HD as (D1 & D2 & D3 & _).
      assert (Hk : In k calls).
      { rewrite <- K1. apply in_map_iff. exists (k, Hold). split; [reflexivity|]. eapply nth_error_In; eauto. }
      destruct (Hsel k c t Hk D2 D1 D3 Ht H) as [(E & S1 & R1)|[[r [E S1]]|(q & r & E & R1 & R2)]]; rewrite E.
      - split; [rewrite calls_wait; exact K1|]. split.
        + intros u k' Hw. apply (waiting_wait c t k u k' Ht) in Hw. destruct Hw as [Hw | ->]; eauto.
        + intros _. rewrite q_wait, R1. lia.
      - split; [rewrite calls_finish; exact K1|]. split.
        + intros u k' Hw. apply waiting_finish in Hw. eauto.
        + rewrite condq_finish, q_finish. intros Hc. pose proof (total_finish sel c t k r H Ht) as T.
          rewrite S1 in T. specialize (K3 Hc). lia.
      - pose proof (set_q_I c q H) as H'. pose proof (notify_I _ H') as H''.
        pose proof (nth_set_q_notify c q t k H Ht) as Ht'.
        split; [rewrite calls_finish, calls_notify; exact K1|]. split.
        + intros u k' Hw. apply waiting_finish, waiting_notify in Hw. apply (K2 u k'). exact Hw.
        + rewrite condq_finish, q_finish, q_notify. simpl c_q.
          pose proof (total_finish sel _ t k r H'' Ht') as T.
          pose proof (total_notify sel _ H') as N. simpl c_condq in N.
          change (total sel (set_q c q)) with (total sel c) in N.
          intros Hc. destruct (c_condq c) as [|w rest] eqn:Ec.
          * unfold notify in Hc. simpl in Hc. rewrite Ec in Hc. simpl in Hc. rewrite Ec in Hc. contradiction.
          * destruct N as [kw [Hw N]]. simpl in Hw. rewrite (K2 w kw Hw) in N.
            assert (Hne : w :: rest <> []) by discriminate. specialize (K3 Hne).
            destruct (sel k) eqn:Es; [|lia].
            pose proof (engaged_pos sel c t k Ht Es). lia.
    Qed.

    Lemma wake_step : forall (c : conf) t init, I true c -> data_ok lt init mx c -> wake_ok c ->
      wake_ok (pstep lt c (Run t)).
    Proof.
      intros c t init H HD HW. simpl. destruct (nth_error (c_tasks c) t) as [[k p]|] eqn:En; [|exact HW].
      assert (Hacq : p = Start \/ p = Notified -> wake_ok (acquire c t)).
      { intros Hp. destruct HW as (K1 & K2 & K3). split; [rewrite calls_acquire; exact K1|]. split.
        - intros u k' Hw. apply waiting_acquire in Hw. eauto.
        - rewrite condq_acquire, q_acquire. intros Hc. specialize (K3 Hc).
          pose proof (total_acquire sel c t k p En Hp). lia. }
      destruct p; try exact HW; try (apply Hacq; auto). eapply wake_body; eauto.
    Qed.

    Lemma wake_run : forall s (c : conf) init, I true c -> data_ok lt init mx c -> wake_ok c ->
      wake_ok (prun lt c (map Run s)).
    Proof.
      induction s as [|t s IH]; intros c init H HD HW; cbn [map prun]; [exact HW|].
      apply (IH _ init); [apply pstep_I; exact H | apply pstep_data; auto | eapply wake_step; eauto].
    Qed.

    Lemma wake_quiescent : forall (c : conf) t, I true c -> wake_ok c -> quiescent c ->
      state_of c t = Some Waiting -> room (c_q c) = 0.
    Proof.
      intros c t H (K1 & K2 & K3) Hq Ht. apply (s_cond _ _ H) in Ht.
      assert (Hne : c_condq c <> []) by (intros E; rewrite E in Ht; destruct Ht).
      specialize (K3 Hne). rewrite (quiescent_total sel c H Hq) in K3. lia.
    Qed.

    Lemma wake_init : forall q, wake_ok (pinit q calls).
    Proof.
      intros q. split; [simpl; rewrite map_map; apply map_id|]. split.
      - intros u k Hw. exfalso. unfold waiting in Hw. assert (Hs : state_of (pinit q calls) u = Some Waiting)
          by (unfold state_of; rewrite Hw; reflexivity).
        apply pinit_state in Hs. discriminate.
      - simpl. intros H; contradiction.
    Qed.
  End Side.

  Lemma heappop_length : forall h x h', heap lt h -> heappop lt h = Some (x, h') -> length h = S (length h').
  Proof.
    intros h x h' Hh E. pose proof (heap_pop lt W h Hh) as P. rewrite E in P.
    destruct P as (_ & P & _). apply Permutation_length in P. exact P.
  Qed.

  Lemma heappop_None : forall h, heap lt h -> heappop lt h = None -> h = [].
  Proof. intros h Hh E. pose proof (heap_pop lt W h Hh) as P. rewrite E in P. exact P. Qed.

  Lemma heappush_length : forall h x, heap lt h -> length (heappush lt h x) = S (length h).
  Proof. intros h x Hh. destruct (heap_push lt W h x Hh) as [_ P]. apply Permutation_length in P. exact P. Qed.

  (** ** The outcome of a critical section *)
  Lemma state_finish : forall (c : conf) t k r, I true c -> nth_error (c_tasks c) t = Some (k, Hold) ->
    state_of (finish c t r) t = Some (Done r).
  Proof.
    intros c t k r H Ht. unfold finish, release. simpl. pose proof (nth_state _ _ _ _ Ht) as Hs.
    destruct (c_lockq c) as [|w l] eqn:El.
    - unfold state_of. simpl. rewrite set_pc_spec, Nat.eqb_refl, Ht. reflexivity.
    - unfold state_of. simpl. rewrite set_pc_spec.
      assert (Hw : state_of c w = Some Queued) by (apply (s_lock _ _ H); rewrite El; left; reflexivity).
      destruct (Nat.eqb_spec w t) as [Heq|]; [subst w; congruence|].
      rewrite set_pc_spec, Nat.eqb_refl, Ht. reflexivity.
  Qed.

  Lemma state_wait : forall (c : conf) t k, I true c -> nth_error (c_tasks c) t = Some (k, Hold) ->
    state_of (wait c t) t = Some Waiting.
  Proof.
    intros c t k H Ht. unfold wait, release. simpl. pose proof (nth_state _ _ _ _ Ht) as Hs.
    destruct (c_lockq c) as [|w l] eqn:El.
    - unfold state_of. simpl. rewrite set_pc_spec, Nat.eqb_refl, Ht. reflexivity.
    - unfold state_of. simpl. rewrite set_pc_spec.
      assert (Hw : state_of c w = Some Queued) by (apply (s_lock _ _ H); rewrite El; left; reflexivity).
      destruct (Nat.eqb_spec w t) as [Heq|]; [subst w; congruence|].
      rewrite set_pc_spec, Nat.eqb_refl, Ht. reflexivity.
  Qed.

  Lemma body_section : forall (c : conf) t k, I true c -> heap lt (pq_heap (c_q c)) ->
    nth_error (c_tasks c) t = Some (k, Hold) ->
    exists p, state_of (body lt c t k) t = Some p /\
      section_ok lt (pq_max (c_q c)) k (pq_heap (c_q c)) p (pq_heap (c_q (body lt c t k))).
  Proof.
    intros c t k H Hh Ht. unfold section_ok.
    change ((0 <? pq_max (c_q c)) && (pq_max (c_q c) <=? length (pq_heap (c_q c)))) with (pq_full (c_q c)).
    assert (F : forall q r, state_of (finish (notify (set_q c q)) t r) t = Some (Done r)).
    { intros q r. apply (state_finish _ t k); [apply notify_I, set_q_I; exact H|].
      apply nth_set_q_notify; assumption. }
    assert (G : heappop lt (pq_heap (c_q c)) = None /\ pq_heap (c_q c) = [] \/
      exists x h, heappop lt (pq_heap (c_q c)) = Some (x, h) /\ minimal lt x (pq_heap (c_q c)) /\
        Permutation (pq_heap (c_q c)) (x :: h) /\ pq_heap (c_q c) <> []).
    { pose proof (heap_pop lt W _ Hh) as P. destruct (heappop lt (pq_heap (c_q c))) as [[x h]|].
      - right. exists x, h. destruct P as (_ & P & M). split; [reflexivity|]. split; [exact M|].
        split; [exact P|]. intros E. rewrite E in P. apply Permutation_nil in P. discriminate.
      - left. auto. }
    destruct k as [x|x| |]; cbn [body].
    - destruct (pq_full (c_q c)).
      + exists Waiting. rewrite q_wait. split; [eapply state_wait; eauto | auto].
      + exists (Done QUnit). unfold do_put. rewrite q_finish, q_notify. split; [apply F|].
        split; [reflexivity|]. apply heap_push; assumption.
    - destruct (pq_full (c_q c)).
      + exists (Done QFullErr). rewrite q_finish. split; [eapply state_finish; eauto | auto].
      + exists (Done QUnit). unfold do_put. rewrite q_finish, q_notify. split; [apply F|].
        split; [reflexivity|]. apply heap_push; assumption.
    - destruct G as [[-> E]|(x & h & -> & M & P & E)].
      + exists Waiting. rewrite q_wait, E. split; [eapply state_wait; eauto | auto].
      + exists (Done (QItem x)). rewrite q_finish, q_notify. split; [apply F|]. simpl c_q. simpl pq_heap.
        destruct (pq_heap (c_q c)); [contradiction|]. exists x. auto.
    - destruct G as [[-> E]|(x & h & -> & M & P & E)].
      + exists (Done QEmptyErr). rewrite q_finish, E. split; [eapply state_finish; eauto | auto].
      + exists (Done (QItem x)). rewrite q_finish, q_notify. split; [apply F|]. simpl c_q. simpl pq_heap.
        destruct (pq_heap (c_q c)); [contradiction|]. exists x. auto.
  Qed.

  (** Getters wait for items: no blocking put may wait. *)
  Lemma getters_sel : forall calls mx, (mx = 0 \/ forall k, In k calls -> blocking_put k = false) ->
    forall k, sel_waits blocking_get (fun q => length (pq_heap q)) calls mx k.
  Proof.
    intros calls mx Hm k c t Hk D2 D1 D3 Ht H. destruct k; simpl.
    - right; right. destruct (pq_full (c_q c)) eqn:Ef.
      + exfalso. destruct Hm as [Hm|Hm].
        * unfold pq_full in Ef. rewrite D2, Hm in Ef. discriminate.
        * specialize (Hm _ Hk). discriminate.
      + unfold do_put. eexists _, _. split; [reflexivity|]. simpl.
        rewrite (heappush_length _ x D1). split; [lia | discriminate].
    - right. destruct (pq_full (c_q c)) eqn:Ef.
      + left. eexists. split; reflexivity.
      + right. unfold do_put. eexists _, _. split; [reflexivity|]. simpl.
        rewrite (heappush_length _ x D1). split; [lia | discriminate].
    - destruct (heappop lt (pq_heap (c_q c))) as [[x h]|] eqn:E.
      + right; right. eexists _, _. split; [reflexivity|]. simpl.
        rewrite (heappop_length _ _ _ D1 E). split; [lia | intros _; left; lia].
      + left. split; [reflexivity|]. split; [reflexivity|]. rewrite (heappop_None _ D1 E). reflexivity.
    - right. destruct (heappop lt (pq_heap (c_q c))) as [[x h]|] eqn:E.
      + right. eexists _, _. split; [reflexivity|]. simpl.
        rewrite (heappop_length _ _ _ D1 E). split; [lia | discriminate].
      + left. eexists. split; reflexivity.
  Qed.

  (** Putters wait for free slots: no blocking get may wait. *)
  Lemma putters_sel : forall calls mx, (forall k, In k calls -> blocking_get k = false) ->
    forall k, sel_waits blocking_put (fun q => mx - length (pq_heap q)) calls mx k.
  Proof.
    intros calls mx Hm k c t Hk D2 D1 D3 Ht H.
    assert (Hfull : pq_full (c_q c) = true -> mx - length (pq_heap (c_q c)) = 0).
    { unfold pq_full. rewrite D2. intros E. apply andb_true_iff in E. destruct E as [_ E].
      apply Nat.leb_le in E. lia. }
    assert (Hroom : pq_full (c_q c) = false -> 0 < mx -> length (pq_heap (c_q c)) < mx).
    { unfold pq_full. rewrite D2. intros E Hmx. apply andb_false_iff in E. destruct E as [E|E].
      - apply Nat.ltb_ge in E. lia.
      - apply Nat.leb_gt in E. lia. }
    destruct k; simpl.
    - destruct (pq_full (c_q c)) eqn:Ef.
      + left. split; [reflexivity|]. split; [reflexivity|]. auto.
      + right; right. unfold do_put. eexists _, _. split; [reflexivity|]. simpl.
        rewrite (heappush_length _ x D1). specialize (Hroom eq_refl). split; [lia|].
        intros _. destruct (Nat.eq_dec mx 0); [right; lia | left; lia].
    - right. destruct (pq_full (c_q c)) eqn:Ef.
      + left. eexists. split; reflexivity.
      + right. unfold do_put. eexists _, _. split; [reflexivity|]. simpl.
        rewrite (heappush_length _ x D1). split; [lia | discriminate].
    - exfalso. specialize (Hm _ Hk). discriminate.
    - right. destruct (heappop lt (pq_heap (c_q c))) as [[x h]|] eqn:E.
      + right. eexists _, _. split; [reflexivity|]. simpl.
        pose proof (heappop_length _ _ _ D1 E) as L. split; [lia | discriminate].
      + left. eexists. split; reflexivity.
  Qed.

  (** ** Termination *)
  Definition weight (tk : task) : nat :=
    match snd tk with
    | Start | Notified => 12 | Queued => 11 | Hold => 10 | Waiting => 9 | Done _ | Gone => 0
    end.
  Definition mass (c : conf) : nat := wsum weight (c_tasks c).

  Lemma mass_move : forall (c : conf) t k p p', nth_error (c_tasks c) t = Some (k, p) ->
    wsum weight (set_pc t p' (c_tasks c)) + weight (k, p) = mass c + weight (k, p').
  Proof. intros c t k p p' H. rewrite (set_pc_eq _ _ _ _ p' H). apply wsum_upd; exact H. Qed.

  Lemma mass_release : forall (c : conf), (forall t, In t (c_lockq c) -> state_of c t = Some Queued) ->
    mass (release c) <= mass c.
  Proof.
    intros c H. unfold release. destruct (c_lockq c) as [|w r]; [reflexivity|].
    destruct (state_nth c w Queued) as [k Hk]; [apply H; left; reflexivity|].
    pose proof (mass_move c w k Queued Hold Hk) as E. unfold mass at 1. cbn [c_tasks c_lockq weight snd] in *. lia.
  Qed.

  Lemma mass_notify : forall (c : conf), I true c -> mass (notify c) <= mass c + 3.
  Proof.
    intros c H. unfold notify. destruct (c_condq c) as [|w r] eqn:Ec; [lia|].
    destruct (state_nth c w Waiting) as [k Hk]; [apply (s_cond _ _ H); rewrite Ec; left; reflexivity|].
    pose proof (mass_move c w k Waiting Notified Hk) as E. unfold mass at 1. cbn [c_tasks c_lockq weight snd] in *. lia.
  Qed.

  Lemma mass_finish : forall (c : conf) t k r, I true c -> nth_error (c_tasks c) t = Some (k, Hold) ->
    mass (finish c t r) + 10 <= mass c.
  Proof.
    intros c t k r H Ht. unfold finish.
    pose proof (mass_release (Conf (c_q c) (set_pc t (Done r) (c_tasks c)) (c_owner c) (c_lockq c) (c_condq c))) as R.
    pose proof (mass_move c t k Hold (Done r) Ht) as E. unfold mass at 2 in R. cbn [c_tasks c_lockq weight snd] in *.
    assert (Hl : forall u, In u (c_lockq c) ->
      state_of (Conf (c_q c) (set_pc t (Done r) (c_tasks c)) (c_owner c) (c_lockq c) (c_condq c)) u = Some Queued)
      by (apply lock_after; [exact H | eapply nth_state; eauto]).
    specialize (R Hl). lia.
  Qed.

  Lemma mass_wait : forall (c : conf) t k, I true c -> nth_error (c_tasks c) t = Some (k, Hold) ->
    mass (wait c t) + 1 <= mass c.
  Proof.
    intros c t k H Ht. unfold wait.
    pose proof (mass_release (Conf (c_q c) (set_pc t Waiting (c_tasks c)) (c_owner c) (c_lockq c) (c_condq c ++ [t]))) as R.
    pose proof (mass_move c t k Hold Waiting Ht) as E. unfold mass at 2 in R. cbn [c_tasks c_lockq weight snd] in *.
    assert (Hl : forall u, In u (c_lockq c) ->
      state_of (Conf (c_q c) (set_pc t Waiting (c_tasks c)) (c_owner c) (c_lockq c) (c_condq c ++ [t])) u = Some Queued).
    { intros u Hu. pose proof (lock_after c t Waiting H (nth_state _ _ _ _ Ht) u Hu) as L. exact L. }
    specialize (R Hl). lia.
  Qed.

  Lemma mass_step : forall (c : conf) t p, I true c -> state_of c t = Some p -> runnable p = true ->
    mass (pstep lt c (Run t)) < mass c.
  Proof.
    intros c t p H Hs Hr. destruct (state_nth c t p Hs) as [k Ht].
    assert (Hacq : weight (k, p) = 12 -> mass (acquire c t) < mass c).
    { intros Hw. unfold acquire. destruct (c_owner c); unfold mass at 1; cbn [c_tasks].
      - pose proof (mass_move c t k p Queued Ht) as E. rewrite Hw in E. cbn [weight snd] in E. lia.
      - pose proof (mass_move c t k p Hold Ht) as E. rewrite Hw in E. cbn [weight snd] in E. lia. }
    assert (Hdone : forall q r, p = Hold -> mass (finish (notify (set_q c q)) t r) < mass c).
    { intros q r ->. pose proof (set_q_I c q H) as H'. pose proof (notify_I _ H') as H''.
      pose proof (mass_finish _ t k r H'' (nth_set_q_notify c q t k H Ht)) as F.
      pose proof (mass_notify _ H') as N. change (mass (set_q c q)) with (mass c) in N. lia. }
    simpl. rewrite Ht. destruct p; try discriminate.
    - apply Hacq. reflexivity.
    - pose proof (mass_wait c t k H Ht) as Mw. pose proof (mass_finish c t k) as Mf.
      unfold body, do_put. destruct k.
      + destruct (pq_full (c_q c)); [lia | apply Hdone; reflexivity].
      + destruct (pq_full (c_q c)); [specialize (Mf QFullErr H Ht); lia | apply Hdone; reflexivity].
      + destruct (heappop lt (pq_heap (c_q c))) as [[x h]|]; [apply Hdone; reflexivity | lia].
      + destruct (heappop lt (pq_heap (c_q c))) as [[x h]|]; [apply Hdone; reflexivity|].
        specialize (Mf QEmptyErr H Ht). lia.
    - apply Hacq. reflexivity.
  Qed.

  Lemma busy_bound : forall s (c : conf), I true c -> busy lt c s -> length s <= mass c.
  Proof.
    induction s as [|t s IH]; intros c H Hb; simpl; [lia|].
    destruct Hb as [[p [Hp Hr]] Hb]. pose proof (mass_step c t p H Hp Hr).
    pose proof (IH _ (pstep_I lt c (Run t) H) Hb). lia.
  Qed.

  Lemma mass_init : forall q calls, mass (pinit q calls) = 12 * length calls.
  Proof.
    intros q calls. unfold mass. simpl c_tasks. induction calls as [|k l IH]; [reflexivity|].
    cbn [map wsum]. rewrite IH. cbn [length weight snd]. lia.
  Qed.

  (** Every state can be run to quiescence. *)
  Lemma to_quiescence : forall n (c : conf), I true c -> mass c <= n ->
    exists s, busy lt c s /\ quiescent (prun lt c (map Run s)).
  Proof.
    induction n as [|n IH]; intros c H Hn.
    - exists []. split; [exact Logic.I|]. simpl. intros t p Hp. destruct (runnable p) eqn:Er; [|reflexivity].
      pose proof (mass_step c t p H Hp Er). lia.
    - destruct (find (fun tk : task => runnable (snd tk)) (c_tasks c)) as [tk|] eqn:Ef.
      + apply find_some in Ef. destruct Ef as [Hin Hr]. apply In_nth_error in Hin. destruct Hin as [t Ht].
        destruct tk as [k p]. simpl in Hr. pose proof (nth_state _ _ _ _ Ht) as Hs.
        pose proof (mass_step c t p H Hs Hr) as M.
        destruct (IH (pstep lt c (Run t))) as [s [Hb Hq]]; [apply pstep_I; exact H | lia |].
        exists (t :: s). split; [split; [eauto | exact Hb] | exact Hq].
      + exists []. split; [exact Logic.I|]. simpl. intros t p Hp. destruct (state_nth c t p Hp) as [k Hk].
        apply nth_error_In in Hk. pose proof (find_none _ _ Ef _ Hk) as F. exact F.
  Qed.
End Wake.
