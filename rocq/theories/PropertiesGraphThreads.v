(** C100: a Graph shared by threads.

    The mutators are compared with the plain multigraph of SpecGraph ([mstep]), one after the
    other; queries with what it answers. *)
From Coq Require Import List ZArith Bool Arith Lia Permutation.
From Verif Require Import PyBase PyFacts ModelProgression ModelGraph SpecGraph ProofsGraph
  ModelGraphThreads ProofsGraphThreads.
Import ListNotations.

(** The finished mutators gave the answers, and led to the multigraph, that calling them one after
    the other gives. *)
Definition in_turn : mgraph -> list (wop * outcome gval) -> mgraph -> Prop := replay.

(** Whatever the schedule, the mutators took effect one after the other; whenever none is under
    way the graph is the one they lead to, indexes included. *)
Theorem C100_serial : forall ord g0 s, fair ord -> greachable ord g0 -> steps ord (start g0) s ->
  exists m, in_turn (contents g0) (wrote s) m /\
    ((forall t, ~ holding (thr s t)) -> contents (gr s) = m /\ greachable ord (gr s)).
Proof.
  intros ord g0 s Hf Hg Hs. destruct (steps_linv ord Hf g0 s Hg Hs) as [g L].
  exists (contents g). split; [exact (l_replay _ _ _ _ L)|].
  intros Hno. rewrite (l_free _ _ _ _ L Hno). split; [reflexivity|exact (l_reach _ _ _ _ L)].
Qed.

(** At most one thread is inside a mutator. *)
Theorem C100_exclusive : forall ord g0 s t t', fair ord -> greachable ord g0 -> steps ord (start g0) s ->
  holding (thr s t) -> holding (thr s t') -> t = t'.
Proof.
  intros ord g0 s t t' Hf Hg Hs. destruct (steps_linv ord Hf g0 s Hg Hs) as [g L].
  exact (l_one _ _ _ _ L t t').
Qed.

(** No deadlock: every call can be finished. *)
Theorem C100_finish : forall ord g0 s t, fair ord -> greachable ord g0 -> steps ord (start g0) s ->
  exists s', steps ord s s' /\ thr s' t = Idle.
Proof.
  intros ord g0 s t Hf Hg Hs. destruct (thr s t) as [|o|o c|q c seen] eqn:Ht.
  - exists s. split; [apply steps_refl|exact Ht].
  - assert (K : exists s1, steps ord s s1 /\ thr s1 t = Want o /\ forall t', ~ holding (thr s1 t')).
    { destruct (steps_linv ord Hf g0 s Hg Hs) as [g L].
      assert (D : (exists t', holding (thr s t')) \/ forall t', ~ holding (thr s t')).
      { exact (lock_dec ord Hf g0 s Hg Hs). }
      destruct D as [[t' Ht']|Hno]; [|exists s; split; [apply steps_refl|auto]].
      destruct (thr s t') as [|o'|o' c'|q' c' seen'] eqn:E; try destruct Ht'.
      destruct (finish_holds ord t' o' c' s E) as (s1 & S1 & S2 & S3).
      exists s1. split; [exact S1|]. assert (Hn : t <> t') by (intros ->; congruence).
      split; [rewrite (S3 t Hn); exact Ht|]. intros t'' Hh. destruct (Nat.eq_dec t'' t') as [->|Hn'].
      - rewrite S2 in Hh. exact Hh.
      - rewrite (S3 t'' Hn') in Hh. apply Hn'. apply (l_one _ _ _ _ L); [exact Hh|rewrite E; exact I]. }
    destruct K as (s1 & S1 & S2 & S3).
    destruct (finish_holds ord t o (body ord o) (State (gr s1) (upd (thr s1) t (Holds o (body ord o))) (wrote s1) (read s1)))
      as (s2 & T1 & T2 & _); [cbn; apply upd_same|].
    exists s2. split; [|exact T2]. eapply steps_trans; [exact S1|].
    eapply steps_trans; [eapply steps_step; [apply steps_refl|eapply s_acquire; eauto]|exact T1].
  - destruct (finish_holds ord t o c s Ht) as (s' & S1 & S2 & _). eauto.
  - eapply finish_reads; eauto.
Qed.

(** A query during which the graph stays the same answers as on the multigraph. *)
Theorem C100_quiet : forall ord g0 s q r seen g, fair ord -> greachable ord g0 -> steps ord (start g0) s ->
  In (q, r, seen) (read s) -> greachable ord g -> (forall x, In x seen -> x = g) ->
  same_answer r (snd (mstep (contents g) (rop_op q))).
Proof.
  intros ord g0 s q r seen g Hf Hg Hs Hi Hr Hq. destruct (steps_linv ord Hf g0 s Hg Hs) as [g1 L].
  pose proof (l_read _ _ _ _ L _ _ _ Hi) as F.
  pose proof (feed_quiet _ _ _ _ (pure_query ord q) Hq F) as R.
  pose proof (graph_step_refines ord Hf g (rop_op q) (greachable_Inv ord Hf g Hr)) as G.
  destruct (graph_step ord g (rop_op q)) as [g' a] eqn:S.
  destruct (mstep (contents g) (rop_op q)) as [m' b] eqn:M. cbn [snd].
  destruct G as (_ & _ & G & _). destruct a as [v|x].
  - rewrite (run_query ord Hf q g v) in R by (rewrite S; reflexivity). injection R as <-. exact G.
  - (* only a bad argument raises *)
    assert (B : b = Raise x) by (destruct b as [[]|]; cbn in G; congruence). subst b.
    destruct q; cbn in M; try discriminate; cbn [query] in R;
      (destruct (coerce_id r0) as [n|y]; [discriminate|]); cbn in R; injection R as <-;
      injection M as _ <-; reflexivity.
Qed.

(** In any case a query raises only RuntimeError and NotFoundError (if its argument names an id),
    and answers only nodes that were there, as ends of edges that were there. *)
Theorem C100_answers : forall ord g0 s q r seen, fair ord -> greachable ord g0 -> steps ord (start g0) s ->
  In (q, r, seen) (read s) ->
  match r with
  | Raise x => x = RuntimeError \/ x = NotFoundError \/
      match q with RPreds r | RSuccs r => coerce_id r = Raise x | _ => False end
  | Ret v => exists ns, v = GNodes ns /\ forall n, In n ns ->
      (exists g, In g seen /\ In n (m_nodes (contents g))) /\
      match q with
      | RPreds _ => exists g e, In g seen /\ In e (m_edges (contents g)) /\ e_head e = fst n
      | RSuccs _ => exists g e, In g seen /\ In e (m_edges (contents g)) /\ e_tail e = fst n
      | _ => True
      end
  end.
Proof.
  intros ord g0 s q r seen Hf Hg Hs Hi. destruct (steps_linv ord Hf g0 s Hg Hs) as [g1 L].
  pose proof (l_read _ _ _ _ L _ _ _ Hi) as F. clear L Hi.
  assert (N : forall g (n : uuid * nat), dget (fst n) (g_nodes g) = Some (snd n) -> In n (m_nodes (contents g))).
  { intros g [u p] H. apply dget_In in H. exact H. }
  assert (V : forall g u e, dget u (g_edges g) = Some e -> In e (m_edges (contents g))).
  { intros g u e H. apply dget_In in H. apply in_map_iff. exists (u, e). auto. }
  destruct q as [a|a| |]; cbn [query] in F.
  - destruct (coerce_id a) as [n|x] eqn:C.
    + destruct seen as [|g gs]; [discriminate|]. cbn [Look feed] in F.
      pose proof (feed_neighbours ord false n _ _ _ _ _ _ F) as P. destruct r as [v|x]; [|tauto].
      destruct P as (more & -> & P). exists more. split; [reflexivity|]. intros k Hk.
      destruct (P k Hk) as [(h & h1 & h2) (h' & u & e & h3 & h4 & h5)]. split.
      * exists h. split; [right; exact h1|exact (N _ _ h2)].
      * exists h', e. split; [right; exact h3|]. split; [exact (V _ _ _ h4)|exact h5].
    + destruct seen; [|discriminate]. injection F as <-. auto.
  - destruct (coerce_id a) as [n|x] eqn:C.
    + destruct seen as [|g gs]; [discriminate|]. cbn [Look feed] in F.
      pose proof (feed_neighbours ord true n _ _ _ _ _ _ F) as P. destruct r as [v|x]; [|tauto].
      destruct P as (more & -> & P). exists more. split; [reflexivity|]. intros k Hk.
      destruct (P k Hk) as [(h & h1 & h2) (h' & u & e & h3 & h4 & h5)]. split.
      * exists h. split; [right; exact h1|exact (N _ _ h2)].
      * exists h', e. split; [right; exact h3|]. split; [exact (V _ _ _ h4)|exact h5].
    + destruct seen; [|discriminate]. injection F as <-. auto.
  - destruct seen as [|g gs]; [discriminate|]. cbn [Look feed] in F.
    pose proof (feed_ends false _ _ _ _ _ _ F) as P. destruct r as [v|x]; [|tauto].
    destruct P as (more & -> & P). exists more. split; [reflexivity|]. intros k Hk.
    destruct (P k Hk) as (h & h1 & h2). split; [|exact I]. exists h. split; [right; exact h1|exact (N _ _ h2)].
  - destruct seen as [|g gs]; [discriminate|]. cbn [Look feed] in F.
    pose proof (feed_ends true _ _ _ _ _ _ F) as P. destruct r as [v|x]; [|tauto].
    destruct P as (more & -> & P). exists more. split; [reflexivity|]. intros k Hk.
    destruct (P k Hk) as (h & h1 & h2). split; [|exact I]. exists h. split; [right; exact h1|exact (N _ _ h2)].
Qed.

(** Example data: nodes 1, 2, 3 with edges 1 -> 2 and 1 -> 3. *)
Definition tord (b : bool) (n : uuid) (l : list uuid) : list uuid := l.
Definition tnodes : dict uuid nat := [(1, 10); (2, 20); (3, 30)].
Definition tedges : dict uuid edge := [(100, Edge 100 1 2 0); (101, Edge 101 1 3 0)].
Definition tg := graph_new tnodes tedges.
Lemma tord_fair : fair tord.
Proof. intros b n l. apply Permutation_refl. Qed.
Lemma tg_reachable : greachable tord tg.
Proof.
  exists tnodes, tedges, []. split; [|reflexivity]. split; [|split; [|split]].
  - repeat (constructor; [simpl; intuition discriminate|]). constructor.
  - repeat (constructor; [simpl; intuition discriminate|]). constructor.
  - intros u e H. simpl in H. repeat (destruct H as [H|H]; [injection H as <- <-; reflexivity|]). destruct H.
  - simpl. intros e H. repeat destruct H as [<-|H]; simpl; intuition.
Qed.

(** A schedule: which thread moves, and what it calls if it is idle. *)
Inductive move := Call (t : tid) (o : wop) | Ask (t : tid) (q : rop) | Go (t : tid).
Definition go (s : state) (m : move) : option state :=
  match m with
  | Call t o => match thr s t with
                | Idle => Some (State (gr s) (upd (thr s) t (Want o)) (wrote s) (read s)) | _ => None end
  | Ask t q => match thr s t with
               | Idle => Some (State (gr s) (upd (thr s) t (Reads q (query tord q) [])) (wrote s) (read s)) | _ => None end
  | Go t =>
      match thr s t with
      | Holds o (Act f k) => Some (State (f (gr s)) (upd (thr s) t (Holds o (k (gr s)))) (wrote s) (read s))
      | Holds o (Done r) => Some (State (gr s) (upd (thr s) t Idle) (wrote s ++ [(o, r)]) (read s))
      | Reads q (Act f k) seen => Some (State (f (gr s)) (upd (thr s) t (Reads q (k (gr s)) (seen ++ [gr s]))) (wrote s) (read s))
      | Reads q (Done r) seen => Some (State (gr s) (upd (thr s) t Idle) (wrote s) (read s ++ [(q, r, seen)]))
      | Want o => Some (State (gr s) (upd (thr s) t (Holds o (body tord o))) (wrote s) (read s))
      | Idle => None
      end
  end.
(** Only thread 0 writes in the examples, so the lock is always free when it is wanted. *)
Definition ok0 (s : state) : Prop := forall t, t <> 0 -> match thr s t with Want _ | Holds _ _ => False | _ => True end.
Definition by0 (m : move) : Prop := match m with Call t _ => t = 0 | _ => True end.
Fixpoint play (s : state) (ms : list move) : option state :=
  match ms with [] => Some s | m :: ms => match go s m with Some s => play s ms | None => None end end.

Lemma go_step s m s' : ok0 s -> by0 m -> go s m = Some s' -> step tord s s' /\ ok0 s'.
Proof.
  intros Hk Hb H.
  assert (O : forall t x, (t = 0 \/ match x with Want _ | Holds _ _ => False | _ => True end) ->
                forall g w r, ok0 (State g (upd (thr s) t x) w r)).
  { intros t x Hx g w r t' Ht'. cbn. unfold upd. destruct (Nat.eqb_spec t' t) as [->|_]; [|apply Hk; exact Ht'].
    destruct Hx as [Hx|Hx]; [contradiction|exact Hx]. }
  destruct m as [t o|t q|t]; cbn in H, Hb.
  - destruct (thr s t) eqn:E; try discriminate. injection H as <-. split; [apply s_call; exact E|apply O; auto].
  - destruct (thr s t) eqn:E; try discriminate. injection H as <-. split; [apply s_query; exact E|apply O; auto].
  - destruct (Nat.eq_dec t 0) as [->|Hn].
    + destruct (thr s 0) as [|o|o [r|f k]|q [r|f k] seen] eqn:E; try discriminate; injection H as <-.
      * split; [|apply O; auto]. apply s_acquire; [exact E|]. intros t' Hh.
        destruct (Nat.eq_dec t' 0) as [->|Hn]; [rewrite E in Hh; exact Hh|].
        specialize (Hk t' Hn). destruct (thr s t'); auto.
      * split; [apply s_release; exact E|apply O; auto].
      * split; [apply s_act; exact E|apply O; auto].
      * split; [apply s_answer; exact E|apply O; auto].
      * split; [apply s_look; exact E|apply O; auto].
    + pose proof (Hk t Hn) as Ht.
      destruct (thr s t) as [|o|o c|q [r|f k] seen] eqn:E; try discriminate; try destruct Ht; injection H as <-.
      * split; [apply s_answer; exact E|apply O; auto].
      * split; [apply s_look; exact E|apply O; auto].
Qed.

Lemma play_steps ms : forall s0 s s', steps tord s0 s -> ok0 s -> Forall by0 ms -> play s ms = Some s' -> steps tord s0 s'.
Proof.
  induction ms as [|m ms IH]; intros s0 s s' Hs Hk Hb H; cbn in H; [injection H as <-; exact Hs|].
  inversion Hb as [|? ? B1 B2]; subst. destruct (go s m) as [s1|] eqn:E; [|discriminate].
  destruct (go_step s m s1 Hk B1 E) as [S1 K1]. apply (IH s0 s1 s'); [eapply steps_step; eauto|exact K1|exact B2|exact H].
Qed.

(** What can be seen of a state, without the programs of the threads. *)
Definition view (s : state) := (gr s, wrote s, read s).
Definition played (ms : list move) (P : graph * list (wop * outcome gval) * list (rop * outcome gval * list graph) -> Prop) : Prop :=
  match option_map view (play (start tg) ms) with Some v => P v | None => False end.
Lemma played_reach ms P : Forall by0 ms -> played ms P -> exists s, steps tord (start tg) s /\ P (view s).
Proof.
  unfold played. intros Hb H. destruct (play (start tg) ms) as [s|] eqn:E; [|destruct H].
  exists s. split; [|exact H]. eapply play_steps; [apply steps_refl| |exact Hb|exact E].
  intros t _. exact I.
Qed.

(** A query on a node that is in the graph all the time can raise NotFoundError or RuntimeError. *)
Theorem C100_query_fails_refuted :
  (exists s seen, steps tord (start tg) s /\ In (RSuccs (RId 1), Raise NotFoundError, seen) (read s)) /\
  (exists s seen, steps tord (start tg) s /\ In (RSuccs (RId 1), Raise RuntimeError, seen) (read s)) /\
  (exists s seen, steps tord (start tg) s /\ In (RHeads, Raise RuntimeError, seen) (read s)).
Proof.
  split; [|split].
  - destruct (played_reach
      ([Ask 1 (RSuccs (RId 1)); Go 1; Go 1; Call 0 (WRemEdge (RId 100))] ++ repeat (Go 0) 6 ++ [Go 1; Go 1])
      (fun v => exists seen, In (RSuccs (RId 1), Raise NotFoundError, seen) (snd v))) as (s & S1 & seen & S2); eauto.
    + repeat constructor.
    + vm_compute. eexists. left. reflexivity.
  - destruct (played_reach
      ([Ask 1 (RSuccs (RId 1)); Go 1; Go 1; Go 1; Go 1; Call 0 (WRemEdge (RId 100))] ++ repeat (Go 0) 6 ++ [Go 1; Go 1])
      (fun v => exists seen, In (RSuccs (RId 1), Raise RuntimeError, seen) (snd v))) as (s & S1 & seen & S2); eauto.
    + repeat constructor.
    + vm_compute. eexists. left. reflexivity.
  - destruct (played_reach
      ([Ask 1 RHeads; Go 1; Go 1; Go 1; Call 0 (WAddNode 9 90)] ++ repeat (Go 0) 5 ++ [Go 1; Go 1])
      (fun v => exists seen, In (RHeads, Raise RuntimeError, seen) (snd v))) as (s & S1 & seen & S2); eauto.
    + repeat constructor.
    + vm_compute. eexists. left. reflexivity.
Qed.

(** While an edge 2 -> 3 is being added, at one and the same moment 3 is a successor of 2 and 2 is
    no predecessor of 3. *)
Theorem C100_half_added_refuted :
  exists s seen seen', steps tord (start tg) s /\
    In (RSuccs (RId 2), Ret (GNodes [(3, 30)]), seen) (read s) /\
    In (RPreds (RId 3), Ret (GNodes [(1, 10)]), seen') (read s) /\
    (forall g g', In g seen -> In g' seen' -> g = g').
Proof.
  destruct (played_reach
    ([Call 0 (WAddEdge (Edge 102 2 3 0)); Go 0; Go 0; Go 0; Go 0; Go 0; Ask 1 (RSuccs (RId 2))] ++ repeat (Go 1) 6 ++
     [Ask 2 (RPreds (RId 3))] ++ repeat (Go 2) 6)
    (fun v => exists seen seen',
      In (RSuccs (RId 2), Ret (GNodes [(3, 30)]), seen) (snd v) /\
      In (RPreds (RId 3), Ret (GNodes [(1, 10)]), seen') (snd v) /\
      (forall g g', In g seen -> In g' seen' -> g = g'))) as (s & S1 & seen & seen' & S2); eauto.
  - repeat constructor.
  - vm_compute. eexists _, _. split; [left; reflexivity|]. split; [right; left; reflexivity|].
    intros g g' H H'.
    repeat (destruct H as [<-|H]; [repeat (destruct H' as [<-|H']; [reflexivity|]); destruct H'|]). destruct H.
Qed.

(** While a node is being added, is_acyclic raises KeyError. *)
Theorem C100_acyclic_refuted : forall lim,
  exists s, steps tord (start tg) s /\ is_acyclic tord (S (S lim)) (gr s) = Raise KeyError.
Proof.
  intros lim. apply (played_reach [Call 0 (WAddNode 9 90); Go 0; Go 0]
    (fun v => is_acyclic tord (S (S lim)) (fst (fst v)) = Raise KeyError)).
  - repeat constructor.
  - vm_compute. reflexivity.
Qed.

(** Removing node 1 takes its two edges with it; then an edge from it is refused. *)
Example C100_ex :
  exists s, steps tord (start tg) s /\
    wrote s = [(WRemNode (RId 1), Ret (GNode 1 10)); (WAddEdge (Edge 103 1 2 0), Raise NotFoundError);
               (WAddEdge (Edge 104 2 3 0), Ret GUnit)] /\
    contents (gr s) = MG [(2, 20); (3, 30)] [Edge 104 2 3 0].
Proof.
  destruct (played_reach
    ([Call 0 (WRemNode (RId 1))] ++ repeat (Go 0) 16 ++ [Call 0 (WAddEdge (Edge 103 1 2 0))] ++ repeat (Go 0) 3 ++
     [Call 0 (WAddEdge (Edge 104 2 3 0))] ++ repeat (Go 0) 7)
    (fun v => snd (fst v) = [(WRemNode (RId 1), Ret (GNode 1 10)); (WAddEdge (Edge 103 1 2 0), Raise NotFoundError);
               (WAddEdge (Edge 104 2 3 0), Ret GUnit)] /\
    contents (fst (fst v)) = MG [(2, 20); (3, 30)] [Edge 104 2 3 0])) as (s & S1 & S2); eauto.
  - repeat constructor.
  - vm_compute. split; reflexivity.
Qed.

Print Assumptions C100_serial.
Print Assumptions C100_exclusive.
Print Assumptions C100_finish.
Print Assumptions C100_quiet.
Print Assumptions C100_answers.
Print Assumptions C100_query_fails_refuted.
Print Assumptions C100_half_added_refuted.
Print Assumptions C100_acyclic_refuted.
