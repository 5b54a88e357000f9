(** C113: the queue of libs/concurrency/_primitives.py:133-191. *)
From Coq Require Import List Bool Arith Lia Sorted ZArith.
From Verif Require Import PyBase ModelQueue SpecQueue ProofsQueue.
Import ListNotations.
Local Open Scope nat_scope.

(** *** First in, first out, nothing lost, nothing twice *)
(** The items handed out and then the items still waiting are, in this order, the items put and
    not given up, in the order of the puts. *)
Theorem C113_order : forall size l, let s := qrun size l in
  taken (trace s) ++ waiting_items s = kept (trace s)
  /\ StronglySorted lt (map fst (taken (trace s) ++ waiting_items s))
  /\ map fst (offered (trace s)) = seq 0 (number s).
Proof.
  intros size l s. pose proof (inv_run size l) as I. split; [apply (i_line _ _ I)|].
  split; [now apply (line_sorted size)|apply (i_nums _ _ I)].
Qed.
Print Assumptions C113_order.

(** Every item is returned at most once, and only if it was handed out; a task gets items in the
    order of the puts; an item handed out and not yet returned is in the hand of one waiting task,
    whose next step returns it and which no cancellation can take from it. *)
Theorem C113_got : forall size l, let s := qrun size l in
  NoDup (got (trace s)) /\ (forall e, In e (got (trace s)) -> In e (taken (trace s)))
  /\ (forall t, StronglySorted lt (map fst (got_by t (trace s))))
  /\ forall e, In e (taken (trace s)) -> In e (got (trace s)) \/
       exists t, phases s t = GetWait (Some (Some e)) /\ trace (qstep size s (Step t)) = trace s ++ [Got t e]
         /\ qstep size s (Cancel t) = s /\ forall u, phases s u = GetWait (Some (Some e)) -> u = t.
Proof.
  intros size l s. pose proof (inv_run size l) as I. fold s in I. split; [apply (i_once _ _ I)|].
  split; [apply (i_got _ _ I)|]. split; [apply (i_sorted _ _ I)|].
  intros e H. destruct (i_all _ _ I e H) as [G|(t & G)]; [now left|]. right. exists t. unfold in_hand in G.
  split; [exact G|]. cbn [qstep]. rewrite G. repeat split. apply (i_hand _ _ I t e G).
Qed.
Print Assumptions C113_got.

(** An item whose put returned was handed out or is in the buffer; an item whose put failed is
    never handed out. *)
Theorem C113_put_result : forall size l, let s := qrun size l in
  (forall t e, In (PutOk t e) (trace s) -> In e (taken (trace s)) \/ In e (buf s))
  /\ (forall e, In e (withdrawn (trace s)) ->
        ~ In e (taken (trace s)) /\ ~ In e (waiting_items s) /\ forall t, ~ In (Got t e) (trace s) /\ ~ In (PutOk t e) (trace s)).
Proof.
  intros size l s. pose proof (inv_run size l) as I. fold s in I. split.
  - intros t e H. apply in_app_iff. eapply (i_ok _ _ I), H.
  - intros e H. assert (~ In e (taken (trace s) ++ waiting_items s)) as N.
    { rewrite (i_line _ _ I). unfold kept. rewrite filter_In. intros [_ X]. apply negb_true_iff in X.
      assert (existsb (Nat.eqb (fst e)) (map fst (withdrawn (trace s))) = true); [|congruence].
      apply existsb_exists. exists (fst e). split; [now apply in_map|apply Nat.eqb_refl]. }
    rewrite in_app_iff in N. repeat split; try tauto.
    + intros X. apply N. left. apply (i_got _ _ I). unfold got. apply in_flat_map. exists (Got t e). split; [exact X|now left].
    + intros X. apply (i_ok _ _ I) in X. apply N. unfold waiting_items. rewrite in_app_iff in *. tauto.
Qed.
Print Assumptions C113_put_result.

(** *** Waiting *)
Theorem C113_bound : forall size l, let s := qrun size l in
  (forall n, size = Some n -> length (buf s) <= n)
  /\ (forall t e, phases s t = PutWait e false -> size = Some (length (buf s)) /\ no_recv s = false)
  /\ (forall t, phases s t = GetWait None -> waiting_items s = [] /\ no_send s = false).
Proof.
  intros size l s. pose proof (inv_run size l) as I. fold s in I. pose proof (i_fits _ _ I) as Fi. repeat split.
  - intros n ->. exact Fi.
  - apply (i_sd2 _ _ I) in H. assert (room size (buf s) = false) as R by (apply (i_full _ _ I); intros X; rewrite X in H; contradiction).
    unfold room in R. destruct size; [|discriminate]. apply Nat.ltb_ge in R. f_equal. lia.
  - pose proof (i_sd2 _ _ I _ _ H) as X. apply (i_sd _ _ I) in X. congruence.
  - apply (i_rc _ _ I) in H. destruct (i_wait _ _ I) as (A & B & C); [intros X; rewrite X in H; contradiction|].
    unfold waiting_items. now rewrite A, B.
  - apply (i_rc _ _ I) in H. destruct (i_wait _ _ I) as (A & B & C); [intros X; rewrite X in H; contradiction|]. exact C.
Qed.
Print Assumptions C113_bound.

(** Only a put, a close or its own cancellation ends the wait of a get; only a get, a close or its
    own cancellation ends the wait of a put. *)
Definition acts (s : queue) (a : qact) (f : phase -> bool) (g : qop -> bool) : bool :=
  match a with Call _ o => g o | Step t => f (phases s t) | Cancel _ => false end.
Theorem C113_wait_ends : forall size l t a, let s := qrun size l in a <> Cancel t ->
  (forall e, phases s t = PutWait e false -> phases (qstep size s a) t <> PutWait e false ->
     acts s a (fun p => match p with Getting | Closing => true | _ => false end)
              (fun o => match o with GetNowait => true | _ => false end) = true)
  /\ (phases s t = GetWait None -> phases (qstep size s a) t <> GetWait None ->
     acts s a (fun p => match p with Putting _ => true | _ => false end)
              (fun o => match o with PutNowait _ | Close => true | _ => false end) = true).
Proof.
  intros size l t a s Na. pose proof (inv_run size l) as I. fold s in I.
  assert (forall p u x, phases s u <> p -> phases s t = p -> set (phases s) u x t = p) as Z
    by (intros p u x H1 H2; rewrite set_eq; destruct (Nat.eqb_spec t u); [congruence|exact H2]).
  assert (forall u v q p, phases s u <> p -> send_nowait size s u v = Some q ->
            (forall r, In r (receivers s) -> r <> t) -> phases s t = p -> phases q t = p) as ZS.
  { intros u v q p H1 H2 H3 H4. unfold send_nowait in H2.
    destruct (no_send s); [injection H2 as <-; now apply Z|]. destruct (no_recv s); [injection H2 as <-; now apply Z|].
    destruct (receivers s) as [|r rs] eqn:R.
    - destruct (room size (buf s)); [injection H2 as <-; now apply Z|discriminate].
    - injection H2 as <-. cbn. rewrite !set_eq. destruct (Nat.eqb_spec t u); [congruence|].
      destruct (Nat.eqb_spec t r); [|exact H4]. exfalso. eapply H3; [now left|congruence]. }
  assert (forall u q, phases s u <> GetWait None -> receive_nowait s u = Some q ->
            phases s t = GetWait None -> phases q t = GetWait None) as ZR.
  { intros u q H1 H2 H4. unfold receive_nowait in H2. destruct (no_recv s); [injection H2 as <-; now apply Z|].
    destruct (senders s) as [|[w e] ss] eqn:Se.
    - destruct (buf s); [destruct (no_send s); [|discriminate]|]; injection H2 as <-; now apply Z.
    - destruct (buf s ++ [e]) eqn:X; [now apply app_eq_nil in X|]. injection H2 as <-. cbn. rewrite !set_eq.
      destruct (Nat.eqb_spec t u); [congruence|]. destruct (Nat.eqb_spec t w); [|exact H4].
      assert (In (w, e) (senders s)) as Y by (rewrite Se; now left). apply (i_sd _ _ I) in Y. congruence. }
  split.
  - intros e P C. assert (forall r, In r (receivers s) -> r <> t) as NR
      by (intros r H ->; apply (i_rc _ _ I) in H; congruence).
    destruct a as [u o|u|u]; cbn [qstep acts] in *.
    + destruct (phases s u) eqn:Pu; try contradiction. destruct o; try reflexivity; exfalso; apply C.
      * apply Z; [congruence|exact P].
      * destruct (send_nowait size s u v) eqn:E; [eapply ZS; eauto; congruence|apply Z; [congruence|exact P]].
      * apply Z; [congruence|exact P].
      * unfold to. cbn [phases]. rewrite set_eq. destruct (Nat.eqb_spec t u); [congruence|].
        unfold close_send. destruct (no_send s); [exact P|]. cbn [phases]. rewrite wake_r.
        destruct (existsb (Nat.eqb t) (receivers s)) eqn:X; [|exact P]. apply existsb_exists in X.
        destruct X as (y & X1 & X2). apply Nat.eqb_eq in X2. subst y. exfalso. exact (NR t X1 eq_refl).
    + destruct (phases s u) as [|v|f [|]| |[[f|]|]| |] eqn:Pu; try reflexivity; try contradiction; exfalso; apply C;
        try (apply Z; [congruence|exact P]).
      * destruct (send_nowait size s u v) eqn:E; [eapply ZS; eauto; congruence|apply Z; [congruence|exact P]].
      * destruct (existsb _ _); (apply Z; [congruence|exact P]).
    + exfalso. assert (u <> t) as Nu by congruence. assert (forall x, set (phases s) u x t = phases s t) as Zu
        by (intros x; rewrite set_eq; destruct (Nat.eqb_spec t u); congruence).
      destruct (phases s u) as [|v|f [|]| |[[f|]|]| |] eqn:Pu; try contradiction; apply C; cbn; rewrite Zu; exact P.
  - intros P C. destruct a as [u o|u|u]; cbn [qstep acts] in *.
    + destruct (phases s u) eqn:Pu; try contradiction. destruct o; try reflexivity; exfalso; apply C.
      * apply Z; [congruence|exact P].
      * apply Z; [congruence|exact P].
      * destruct (receive_nowait s u) eqn:E; [eapply ZR; eauto; congruence|apply Z; [congruence|exact P]].
    + destruct (phases s u) as [|v|f [|]| |[[f|]|]| |] eqn:Pu; try reflexivity; try contradiction; exfalso; apply C;
        try (apply Z; [congruence|exact P]).
      * destruct (existsb _ _); (apply Z; [congruence|exact P]).
      * destruct (receive_nowait s u) eqn:E; [eapply ZR; eauto; congruence|apply Z; [congruence|exact P]].
      * unfold to. cbn [phases]. rewrite set_eq. destruct (Nat.eqb_spec t u); [congruence|].
        unfold close_recv. destruct (no_recv s); [exact P|]. cbn [phases].
        destruct (wake_s s t (i_sd_nodup _ _ I)) as [(f & X & _)|[_ ->]]; [|exact P].
        apply (i_sd _ _ I) in X. congruence.
    + exfalso. assert (u <> t) as Nu by congruence. assert (forall x, set (phases s) u x t = phases s t) as Zu
        by (intros x; rewrite set_eq; destruct (Nat.eqb_spec t u); congruence).
      destruct (phases s u) as [|v|f [|]| |[[f|]|]| |] eqn:Pu; try contradiction; apply C; cbn; rewrite Zu; exact P.
Qed.
Print Assumptions C113_wait_ends.

(** *** What put and get do *)
(** A put on an open queue adds its value behind all waiting items, or hands it to the get that
    has waited longest; it returns at once if some get waits or the buffer has room; otherwise put
    waits and put_nowait raises WouldBlock and changes nothing. *)
Theorem C113_put : forall size l t v a, let s := qrun size l in let s' := qstep size s a in
  phases s t = Putting v /\ a = Step t \/ phases s t = Idle /\ a = Call t (PutNowait v) ->
  no_send s = false -> no_recv s = false ->
  match receivers s with
  | r :: rs => phases s' r = GetWait (Some (Some (number s, v))) /\ receivers s' = rs /\ waiting_items s' = []
               /\ phases s' t = Idle /\ In (PutOk t (number s, v)) (trace s')
  | [] => if room size (buf s)
          then waiting_items s' = waiting_items s ++ [(number s, v)] /\ receivers s' = []
               /\ phases s' t = Idle /\ In (PutOk t (number s, v)) (trace s')
          else match a with
               | Step _ => waiting_items s' = waiting_items s ++ [(number s, v)] /\ receivers s' = []
                           /\ phases s' t = PutWait (number s, v) false /\ trace s' = trace s ++ [Offered (number s, v)]
               | _ => waiting_items s' = waiting_items s /\ receivers s' = [] /\ trace s' = trace s ++ [Failed t WouldBlock]
                      /\ phases s' t = Idle
               end
  end.
Proof.
  intros size l t v a s s' H NS NR. pose proof (inv_run size l) as I. fold s in I.
  assert (forall r rs, receivers s = r :: rs -> r <> t /\ waiting_items s = []) as W.
  { intros r rs R. assert (In r (receivers s)) as X by (rewrite R; now left). apply (i_rc _ _ I) in X. split.
    - intros ->. destruct H as [[P _]|[P _]]; congruence.
    - destruct (i_wait _ _ I) as (A & B & _); [rewrite R; discriminate|]. unfold waiting_items. now rewrite A, B. }
  assert (room size (buf s) = true -> senders s = []) as V.
  { intros R. destruct (senders s) eqn:X; [reflexivity|]. pose proof (i_full _ _ I) as Y. rewrite X, R in Y.
    discriminate Y. discriminate. }
  assert (forall p x, set p t x t = x) as St by (intros; unfold set; now rewrite Nat.eqb_refl).
  unfold s'. destruct H as [[P ->]|[P ->]]; cbn [qstep]; rewrite P; unfold send_nowait; rewrite NS, NR;
    destruct (receivers s) as [|r rs] eqn:R.
  - destruct (room size (buf s)) eqn:Rm; unfold waiting_items; cbn [phases senders buf receivers trace]; rewrite St.
    + rewrite (V eq_refl). cbn. rewrite !app_nil_r. repeat split. apply in_app_iff. cbn. tauto.
    + rewrite map_app, app_assoc. now repeat split.
  - destruct (W _ _ eq_refl) as [Nr W']. unfold waiting_items in *. cbn [phases senders buf receivers trace]. rewrite St, set_eq.
    destruct (Nat.eqb_spec r t); [contradiction|]. unfold set. rewrite Nat.eqb_refl.
    repeat split; auto. apply in_app_iff. cbn. tauto.
  - destruct (room size (buf s)) eqn:Rm; unfold fails, to, waiting_items; cbn [phases senders buf receivers trace]; rewrite St.
    + rewrite (V eq_refl). cbn. rewrite !app_nil_r. repeat split. apply in_app_iff. cbn. tauto.
    + now rewrite R.
  - destruct (W _ _ eq_refl) as [Nr W']. unfold waiting_items in *. cbn [phases senders buf receivers trace]. rewrite St, set_eq.
    destruct (Nat.eqb_spec r t); [contradiction|]. unfold set. rewrite Nat.eqb_refl.
    repeat split; auto. apply in_app_iff. cbn. tauto.
Qed.
Print Assumptions C113_put.

(** A get returns the first waiting item.  If none waits: get waits and get_nowait raises
    WouldBlock, or both raise EndOfStream if the sending end is closed. *)
Theorem C113_get : forall size l t a, let s := qrun size l in let s' := qstep size s a in
  phases s t = Getting /\ a = Step t \/ phases s t = Idle /\ a = Call t GetNowait ->
  no_recv s = false ->
  match waiting_items s with
  | e :: rest => waiting_items s' = rest /\ trace s' = trace s ++ [Taken e; Got t e] /\ phases s' t = Idle
  | [] => waiting_items s' = []
          /\ if no_send s then trace s' = trace s ++ [Failed t EndOfStream] /\ phases s' t = Idle
             else match a with
                  | Step _ => trace s' = trace s /\ phases s' t = GetWait None /\ receivers s' = receivers s ++ [t]
                  | _ => trace s' = trace s ++ [Failed t WouldBlock] /\ phases s' t = Idle
                  end
  end.
Proof.
  intros size l t a s s' H NR. pose proof (inv_run size l) as I. fold s in I.
  assert (forall p x, set p t x t = x) as St by (intros; unfold set; now rewrite Nat.eqb_refl).
  unfold s', waiting_items. destruct H as [[P ->]|[P ->]]; cbn [qstep]; rewrite P; unfold receive_nowait; rewrite NR;
    destruct (senders s) as [|[u e] ss] eqn:Se; destruct (buf s) as [|f b] eqn:B; cbn [app map snd];
    unfold fails, to; try (destruct (no_send s) eqn:NS);
    cbn [phases senders buf receivers trace map app snd]; rewrite ?St, ?Se, ?B, ?app_nil_r, <- ?app_assoc; repeat split.
Qed.
Print Assumptions C113_get.

(** *** Closing *)
Lemma no_recv_step size s a : no_recv s = true -> no_send s = true ->
  no_recv (qstep size s a) = true /\ no_send (qstep size s a) = true /\ buf (qstep size s a) = buf s /\
  taken (trace (qstep size s a)) = taken (trace s).
Proof.
  intros NR NS.
  assert (forall l, taken l = [] -> taken (trace s ++ l) = taken (trace s)) as T
    by (intros l H; destruct (app_lists (trace s) l) as (_ & -> & _); rewrite H; apply app_nil_r).
  destruct a as [t o|t|t]; cbn [qstep].
  - destruct (phases s t); try (now repeat split). destruct o; unfold send_nowait, receive_nowait, close_send;
      rewrite ?NS, ?NR; cbn; rewrite ?NR, ?NS, ?T by reflexivity; now repeat split.
  - destruct (phases s t) as [|v|e [|]| |[[e|]|]| |]; try (now repeat split); unfold send_nowait, receive_nowait, close_recv;
      rewrite ?NS, ?NR; try destruct (existsb _ _); cbn; rewrite ?NR, ?NS, ?T by reflexivity; now repeat split.
  - destruct (phases s t) as [|v|e [|]| |[[e|]|]| |]; try (now repeat split); cbn; rewrite ?NR, ?NS, ?T by reflexivity; now repeat split.
Qed.

(** A close that returned has closed both ends. *)
Theorem C113_closed : forall size l t, let s := qrun size l in
  (phases s t = Closed2 \/ In (ClosedOk t) (trace s)) -> no_send s = true /\ no_recv s = true.
Proof.
  intros size l t s. unfold s, qrun. rewrite <- fold_left_rev_right.
  intros [H|H]; [pose proof (inv_run size l) as I; unfold qrun in I; rewrite <- fold_left_rev_right in I;
                 exact (i_closed _ _ I t H)|].
  revert H. generalize (rev l) as r. intros r.
  assert (forall r, inv size (fold_right (fun a s => qstep size s a) start r)) as AI
    by (intros q; induction q; [apply inv_start|now apply inv_step]).
  induction r as [|a r IH]; [contradiction|]. cbn [fold_right]. specialize (AI r).
  set (q := fold_right _ start r) in *. intros H.
  assert (In (ClosedOk t) (trace q) \/ phases q t = Closed2) as [X|X].
  { revert H. assert (forall l', ~ In (ClosedOk t) l' -> In (ClosedOk t) (trace q ++ l') -> In (ClosedOk t) (trace q)) as T
      by (intros l' N X; apply in_app_iff in X; tauto).
    destruct a as [u o|u|u]; cbn [qstep].
    - destruct (phases q u); auto. destruct o; unfold send_nowait, receive_nowait, fails, to, close_send; cbn;
        repeat match goal with |- context [match ?x with _ => _ end] =>
                 lazymatch x with context [match _ with _ => _ end] => fail | _ => destruct x end end; cbn; intros H; auto;
        left; (eapply T; [|exact H]); cbn; intuition discriminate.
    - destruct (phases q u) as [|v|e [|]| |[[e|]|]| |] eqn:P; auto; unfold send_nowait, receive_nowait, fails, to, close_recv; cbn;
        repeat match goal with |- context [match ?x with _ => _ end] =>
                 lazymatch x with context [match _ with _ => _ end] => fail | _ => destruct x end end; cbn; intros H; auto;
        try (left; (eapply T; [|exact H]); cbn; intuition discriminate).
      apply in_app_iff in H. destruct H as [H|[H|[]]]; [now left|]. right. congruence.
    - destruct (phases q u) as [|v|e [|]| |[[e|]|]| |] eqn:P; auto; unfold fails, to; cbn; intros H;
        left; (eapply T; [|exact H]); cbn; intuition discriminate. }
  - specialize (IH X). destruct IH as [A B]. destruct (no_recv_step size q a B A) as (C & D & _). auto.
  - destruct (i_closed _ _ AI t X) as [A B]. destruct (no_recv_step size q a B A) as (C & D & _). auto.
Qed.
Print Assumptions C113_closed.

(** Once both ends are closed every put and get raises ClosedResourceError, no task waits any more
    (a put that waited raises BrokenResourceError), and what was left in the buffer stays there:
    nothing is handed out again. *)
Theorem C113_after_close : forall size l, let s := qrun size l in no_send s = true -> no_recv s = true ->
  (forall t e, phases s t <> PutWait e false) /\ (forall t, phases s t <> GetWait None)
  /\ (forall t e, phases s t = PutWait e true ->
        trace (qstep size s (Step t)) = trace s ++ [Withdrawn e; Failed t Broken]
        \/ trace (qstep size s (Step t)) = trace s ++ [PutOk t e] /\ (In e (taken (trace s)) \/ In e (buf s)))
  /\ (forall t v a, phases s t = Putting v /\ a = Step t \/ phases s t = Idle /\ a = Call t (PutNowait v)
        \/ phases s t = Getting /\ a = Step t \/ phases s t = Idle /\ a = Call t GetNowait ->
        trace (qstep size s a) = trace s ++ [Failed t Closed] /\ phases (qstep size s a) t = Idle)
  /\ forall l', let s' := fold_left (qstep size) l' s in
       taken (trace s') = taken (trace s) /\ buf s' = buf s /\ no_send s' = true /\ no_recv s' = true.
Proof.
  intros size l s NS NR. pose proof (inv_run size l) as I. fold s in I. split; [|split; [|split; [|split]]].
  - intros t e P. pose proof (i_sd2 _ _ I _ _ P) as X. apply (i_sd _ _ I) in X. congruence.
  - intros t P. apply (i_rc _ _ I) in P. destruct (i_wait _ _ I) as (_ & _ & X); [intros X; rewrite X in P; contradiction|]. congruence.
  - intros t e P. cbn [qstep]. rewrite P. destruct (existsb (fun x => fst x =? t) (senders s)) eqn:E; [left; reflexivity|right].
    split; [reflexivity|]. destruct (i_pending _ _ I _ _ P) as [X|X]; [|now apply in_app_iff in X].
    exfalso. apply in_map_iff in X. destruct X as (x & X1 & X2).
    assert (existsb (fun x => fst x =? t) (senders s) = true); [|congruence].
    apply existsb_exists. exists x. split; [exact X2|now apply Nat.eqb_eq].
  - assert (forall t p x, set p t x t = x) as St by (intros; unfold set; now rewrite Nat.eqb_refl).
    intros t v a [[P ->]|[[P ->]|[[P ->]|[P ->]]]]; cbn [qstep]; rewrite P; unfold send_nowait, receive_nowait; rewrite ?NS, ?NR;
      cbn; rewrite St; split; reflexivity.
  - intros l'. cbn. clear I. revert NS NR. generalize s. induction l' as [|a l' IH]; intros q NS NR; [auto|]. cbn [fold_left].
    destruct (no_recv_step size q a NR NS) as (A & B & C & D). destruct (IH _ B A) as (E & F & G). rewrite <- D, <- C. auto.
Qed.
Print Assumptions C113_after_close.

(** A get that waited when the sending end was closed raises EndOfStream at its next step. *)
Theorem C113_close_wakes_get : forall size l t u, let s := qrun size l in
  phases s t = Idle -> phases s u = GetWait None ->
  let s1 := qstep size s (Call t Close) in
  phases s1 u = GetWait (Some None) /\
  trace (qstep size s1 (Step u)) = trace s1 ++ [Failed u EndOfStream] /\ phases (qstep size s1 (Step u)) u = Idle.
Proof.
  intros size l t u s Pt Pu. pose proof (inv_run size l) as I. fold s in I. cbn zeta.
  assert (phases (qstep size s (Call t Close)) u = GetWait (Some None)) as W.
  { cbn [qstep]. rewrite Pt. unfold to. cbn [phases]. rewrite set_eq.
    destruct (Nat.eqb_spec u t); [congruence|]. apply (i_rc _ _ I) in Pu.
    destruct (i_wait _ _ I) as (_ & _ & NS); [intros X; rewrite X in Pu; contradiction|].
    unfold close_send. rewrite NS. cbn [phases]. rewrite wake_r.
    replace (existsb (Nat.eqb u) (receivers s)) with true; [reflexivity|]. symmetry.
    apply existsb_exists. exists u. split; [exact Pu|apply Nat.eqb_refl]. }
  split; [exact W|]. set (s1 := qstep size s (Call t Close)) in *. cbn [qstep]. rewrite W. split; [reflexivity|].
  cbn. unfold set. now rewrite Nat.eqb_refl.
Qed.
Print Assumptions C113_close_wakes_get.

(** Closing does not let the consumers drain the queue: an item whose put returned can be lost. *)
Theorem C113_drain_refuted : exists l, let s := qrun (Some 4) l in
  In (PutOk 0 (0, 7)) (trace s) /\ In (ClosedOk 0) (trace s) /\ In (Failed 1 Closed) (trace s) /\ buf s = [(0, 7)].
Proof.
  exists [Call 0 (Put 7); Step 0; Call 0 Close; Step 0; Step 0; Call 1 Get; Step 1]. vm_compute. intuition.
Qed.

(** A close that is cancelled between its two ends leaves the receiving end open: puts that wait
    go on waiting, though no new put is possible; the items can still be fetched. *)
Theorem C113_close_cut_refuted : exists l, let s := qrun (Some 1) l in
  In (Failed 2 Cancelled) (trace s) /\ no_send s = true /\ no_recv s = false /\ phases s 1 = PutWait (1, 8) false
  /\ waiting_items s = [(0, 7); (1, 8)].
Proof.
  exists [Call 0 (Put 7); Step 0; Call 1 (Put 8); Step 1; Call 2 Close; Cancel 2]. vm_compute. intuition.
Qed.

(** *** Sizes *)
(** A queue made with a maxsize never holds more items than that (puts that wait aside); a negative
    maxsize is refused, and with 0 every put waits for a get. *)
Theorem C113_maxsize : forall z,
  ((z < 0)%Z -> with_maxsize (Some z) = Raise ValueError)
  /\ ((0 <= z)%Z -> exists size, with_maxsize (Some z) = Ret size /\
        forall l, (Z.of_nat (length (buf (qrun size l))) <= z)%Z).
Proof.
  intros z. unfold with_maxsize. split; intros H.
  - apply Z.ltb_lt in H. now rewrite H.
  - destruct (Z.ltb_spec z 0); [lia|]. exists (Some (Z.to_nat z)). split; [reflexivity|]. intros l.
    destruct (C113_bound (Some (Z.to_nat z)) l) as [B _]. specialize (B _ eq_refl). lia.
Qed.
Print Assumptions C113_maxsize.

(** *** Examples *)
(** size 1: two puts, the second waits; a get takes the first item and moves the second up. *)
Definition ex1 := [Call 0 (Put 7); Step 0; Call 1 (Put 8); Step 1; Call 2 Get; Step 2; Step 1; Call 2 Get; Step 2].
Example C113_ex_fifo : got_by 2 (trace (qrun (Some 1) ex1)) = [(0, 7); (1, 8)]
  /\ In (PutOk 1 (1, 8)) (trace (qrun (Some 1) ex1)).
Proof. vm_compute. intuition. Qed.
Example C113_ex_waits : phases (qrun (Some 1) (firstn 4 ex1)) 1 = PutWait (1, 8) false.
Proof. reflexivity. Qed.
(** Two gets wait; the first to come is served first, whichever resumes first. *)
Example C113_ex_getters : let s := qrun (Some 1) [Call 5 Get; Step 5; Call 6 Get; Step 6; Call 0 (PutNowait 1); Call 0 (PutNowait 2); Step 6; Step 5] in
  got_by 5 (trace s) = [(0, 1)] /\ got_by 6 (trace s) = [(1, 2)] /\ got (trace s) = [(1, 2); (0, 1)].
Proof. vm_compute. intuition. Qed.
(** A put that waits and is cancelled leaves nothing behind. *)
Example C113_ex_cancel : let s := qrun (Some 0) [Call 0 (Put 1); Step 0; Call 1 (Put 2); Step 1; Cancel 0; Call 2 Get; Step 2] in
  got (trace s) = [(1, 2)] /\ withdrawn (trace s) = [(0, 1)] /\ kept (trace s) = [(1, 2)].
Proof. vm_compute. intuition. Qed.
(** Closing wakes both sides. *)
Example C113_ex_close : let s := qrun (Some 1) [Call 0 (PutNowait 1); Call 1 (Put 2); Step 1; Call 3 Close; Step 3; Step 3; Step 1] in
  In (Failed 1 Broken) (trace s) /\ In (ClosedOk 3) (trace s) /\ taken (trace s) = [].
Proof. vm_compute. intuition. Qed.
Example C113_ex_close_get : let s := qrun (Some 1) [Call 1 Get; Step 1; Call 3 Close; Step 1] in In (Failed 1 EndOfStream) (trace s).
Proof. vm_compute. intuition. Qed.
Example C113_ex_size : with_maxsize (Some (-1)%Z) = Raise ValueError /\ with_maxsize (Some 3%Z) = Ret (Some 3).
Proof. split; reflexivity. Qed.
