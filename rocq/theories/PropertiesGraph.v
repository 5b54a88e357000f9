(** Properties C17-C22: Graph.  [ord] is any order of set iteration, [lim] any
    recursion limit. *)
From Coq Require Import List ZArith Bool Arith Permutation Lia.
From Verif Require Import PyBase PyFacts ModelProgression ModelGraph SpecGraph ProofsGraph
  ProofsGraphAlg ProofsGraphPath ProofsGraphData.
Import ListNotations.

(** Example data: a diamond 1->2->4, 1->3->4 with a shortcut-free tail 4->5,
    a parallel edge and an isolated node. *)
Definition exord (b : bool) (n : uuid) (l : list uuid) : list uuid := l.
Definition exord_rev (b : bool) (n : uuid) (l : list uuid) : list uuid := rev l.
Example exord_fair : fair exord /\ fair exord_rev.
Proof. split; intros b n l; [apply Permutation_refl | symmetry; apply Permutation_rev]. Qed.

Definition exg_nodes : dict uuid nat := [(1, 10); (2, 20); (3, 30); (4, 40); (5, 50); (6, 60)].
Definition exg_edges : dict uuid edge :=
  [(100, Edge 100 1 2 0); (101, Edge 101 2 4 0); (102, Edge 102 1 3 0);
   (103, Edge 103 3 4 0); (104, Edge 104 4 5 0); (105, Edge 105 1 2 1)].
Definition exg := graph_new exg_nodes exg_edges.
Definition exg_loop := graph_run exord exg [GAddEdge (Edge 106 5 1 0); GAddEdge (Edge 107 6 6 0)].

Example exg_wf : well_formed exg_nodes exg_edges.
Proof.
  split; [|split; [|split]].
  - repeat (constructor; [simpl; intuition discriminate|]). constructor.
  - repeat (constructor; [simpl; intuition discriminate|]). constructor.
  - intros u e H. simpl in H.
    repeat (destruct H as [H|H]; [injection H as <- <-; reflexivity|]). destruct H.
  - simpl. intros e H. repeat destruct H as [<-|H]; simpl; intuition.
Qed.
Example exg_reachable : greachable exord exg /\ greachable exord exg_loop.
Proof.
  split; exists exg_nodes, exg_edges; [exists [] | eexists]; (split; [apply exg_wf | reflexivity]).
Qed.

(** C17: every operation acts on the stored nodes and edges as the plain
    multigraph does and answers the same up to set order; a raising one changes
    nothing, indexes included. *)
Theorem C17_refines : forall ord g o, fair ord -> greachable ord g ->
  let (g', a) := graph_step ord g o in
  let (m', b) := mstep (contents g) o in
  contents g' = m' /\ same_answer a b /\ (is_raise a = true -> g' = g) /\ greachable ord g'.
Proof.
  intros ord g o Hf Hr. pose proof (graph_step_refines ord Hf g o (greachable_Inv ord Hf g Hr)) as H.
  assert (Hn : greachable ord (fst (graph_step ord g o))).
  { destruct Hr as (ns & es & ops & Hw & ->). exists ns, es, (ops ++ [o]). split; [exact Hw|].
    unfold graph_run. rewrite fold_left_app. reflexivity. }
  destruct (graph_step ord g o) as [g' a]. destruct (mstep (contents g) o) as [m' b].
  simpl in Hn. tauto.
Qed.
Print Assumptions C17_refines.

(** In/out edge queries report exactly the stored edges, each once. *)
Theorem C17_edge_queries : forall ord g r n d es, fair ord -> greachable ord g ->
  coerce_id r = Ret n -> graph_step ord g (GNodeEdges r d) = (g, Ret (GEdges es)) ->
  d <> DBoth -> NoDup es /\
  forall e, In e es <-> In e (m_edges (contents g)) /\
    match d with DIn => e_tail e = n | _ => e_head e = n end.
Proof.
  intros ord g r n d es Hf Hr Hc Hs Hd. pose proof (greachable_Inv ord Hf g Hr) as HI.
  assert (Hnd : NoDup (m_edges (contents g))).
  { simpl. apply (NoDup_map_inv e_id).
    replace (map e_id (dvals (g_edges g))) with (dkeys (g_edges g)); [apply (i_e g HI)|].
    unfold dkeys, dvals. rewrite map_map. apply map_ext_in. intros [k e] Hk. simpl.
    symmetry. apply (i_id g HI). apply In_dget; [apply (i_e g HI) | exact Hk]. }
  pose proof (graph_step_refines ord Hf g (GNodeEdges r d) HI) as H. rewrite Hs in H.
  unfold mstep in H. rewrite Hc in H.
  destruct d; [| |contradiction|destruct H as (_ & _ & H & _); discriminate];
    destruct H as (_ & _ & H & _); simpl in H; rewrite ?app_nil_r in H.
  - split.
    + eapply Permutation_NoDup; [symmetry; exact H | apply NoDup_filter; exact Hnd].
    + intros e. split.
      * intros He. apply (Permutation_in _ H) in He. apply filter_In in He.
        destruct He as [He Hb]. apply Nat.eqb_eq in Hb. auto.
      * intros [He Hb]. eapply Permutation_in; [symmetry; exact H|]. apply filter_In.
        split; [exact He | apply Nat.eqb_eq; exact Hb].
  - split.
    + eapply Permutation_NoDup; [symmetry; exact H | apply NoDup_filter; exact Hnd].
    + intros e. split.
      * intros He. apply (Permutation_in _ H) in He. apply filter_In in He.
        destruct He as [He Hb]. apply Nat.eqb_eq in Hb. auto.
      * intros [He Hb]. eapply Permutation_in; [symmetry; exact H|]. apply filter_In.
        split; [exact He | apply Nat.eqb_eq; exact Hb].
Qed.
Print Assumptions C17_edge_queries.

Theorem C17_endpoints : forall ord g, fair ord -> greachable ord g ->
  NoDup (map fst (m_nodes (contents g))) /\ NoDup (map e_id (m_edges (contents g))) /\
  forall e, In e (m_edges (contents g)) ->
    In (e_head e) (map fst (m_nodes (contents g))) /\ In (e_tail e) (map fst (m_nodes (contents g))).
Proof.
  intros ord g Hf Hr. pose proof (greachable_Inv ord Hf g Hr) as HI. simpl.
  assert (Hids : map e_id (dvals (g_edges g)) = dkeys (g_edges g)).
  { unfold dkeys, dvals. rewrite map_map. apply map_ext_in. intros [k e] Hk. simpl.
    apply (i_id g HI). apply In_dget; [apply (i_e g HI) | exact Hk]. }
  split; [apply (i_n g HI)|]. split; [rewrite Hids; apply (i_e g HI)|].
  intros e He. apply in_map_iff in He. destruct He as [[k e'] [H1 H2]]. simpl in H1; subst e'.
  apply (i_end g HI k e). apply In_dget; [apply (i_e g HI) | exact H2].
Qed.
Print Assumptions C17_endpoints.

Example C17_ex_in : snd (graph_step exord exg (GNodeEdges (RId 4) DIn))
  = Ret (GEdges [Edge 101 2 4 0; Edge 103 3 4 0]).
Proof. reflexivity. Qed.
Example C17_ex_succ : snd (graph_step exord_rev exg (GSuccs (RId 1)))
  = Ret (GNodes [(2, 20); (3, 30); (2, 20)]).
Proof. reflexivity. Qed.
Example C17_ex_heads : snd (graph_step exord exg GHeads) = Ret (GNodes [(1, 10); (6, 60)]).
Proof. reflexivity. Qed.
Example C17_ex_fail : graph_step exord exg (GAddEdge (Edge 108 1 9 0)) = (exg, Raise NotFoundError).
Proof. reflexivity. Qed.

(** C18 *)
Theorem C18_remove_node : forall ord g r n, fair ord -> greachable ord g -> coerce_id r = Ret n ->
  let (g', a) := graph_step ord g (GRemNode r) in
  (is_raise a = false <-> In n (map fst (m_nodes (contents g)))) /\
  (is_raise a = false ->
     m_nodes (contents g') = filter (fun kv => negb (fst kv =? n)) (m_nodes (contents g)) /\
     m_edges (contents g') =
       filter (fun e => negb (e_head e =? n) && negb (e_tail e =? n)) (m_edges (contents g))) /\
  (is_raise a = true -> a = Raise NotFoundError /\ g' = g).
Proof.
  intros ord g r n Hf Hr Hc. pose proof (greachable_Inv ord Hf g Hr) as HI.
  pose proof (graph_step_refines ord Hf g (GRemNode r) HI) as H. unfold mstep in H. rewrite Hc in H.
  assert (Hfind : match find_node (contents g) n with
                  | Some kv => fst kv = n /\ In n (map fst (m_nodes (contents g)))
                  | None => ~ In n (map fst (m_nodes (contents g))) end).
  { unfold find_node. destruct (find _ _) as [[k p]|] eqn:Ef.
    - apply find_some in Ef. destruct Ef as [E1 E2]. simpl in *. apply Nat.eqb_eq in E2. subst k.
      split; [reflexivity|]. apply in_map_iff. exists (n, p). auto.
    - intros Hi. apply in_map_iff in Hi. destruct Hi as [kv [H1 H2]].
      pose proof (find_none _ _ Ef kv H2) as H3. simpl in H3. apply Nat.eqb_neq in H3. auto. }
  destruct (graph_step ord g (GRemNode r)) as [g' a].
  destruct (find_node (contents g) n) as [[k pay]|]; destruct H as (_ & H1 & H2 & H3).
  - simpl in H2. destruct a as [[]|]; try discriminate; rewrite H1; cbn [m_nodes m_edges is_raise];
      (split; [tauto|]); (split; [|discriminate]); intros _; (split; [reflexivity|]);
      apply filter_ext; intros e; unfold touches; apply negb_orb.
  - simpl in H2. destruct a as [[]|x]; try discriminate. simpl.
    split; [split; [discriminate | tauto]|]. split; [discriminate|]. auto.
Qed.
Print Assumptions C18_remove_node.

Example C18_ex : contents (fst (graph_step exord exg_loop (GRemNode (RId 1)))) =
  MG [(2, 20); (3, 30); (4, 40); (5, 50); (6, 60)]
     [Edge 101 2 4 0; Edge 103 3 4 0; Edge 104 4 5 0; Edge 107 6 6 0] /\
  m_edges (contents (fst (graph_step exord exg_loop (GRemNode (RId 6))))) =
     [Edge 100 1 2 0; Edge 101 2 4 0; Edge 102 1 3 0; Edge 103 3 4 0; Edge 104 4 5 0;
      Edge 105 1 2 1; Edge 106 5 1 0].
Proof. split; reflexivity. Qed.

(** C19 *)
Theorem C19_is_acyclic : forall ord lim g, fair ord -> greachable ord g ->
  match is_acyclic ord lim g with
  | Ret b => b = true <-> acyclic (contents g)
  | Raise x => x = RecursionErr /\ lim < length (m_nodes (contents g))
  end.
Proof.
  intros ord lim g Hf Hr. pose proof (greachable_Inv ord Hf g Hr) as HI.
  pose proof (is_acyclic_total ord Hf g HI lim) as HT.
  destruct (is_acyclic ord lim g) eqn:Ea; [|exact HT].
  apply (is_acyclic_correct ord Hf g HI lim); exact Ea.
Qed.
Print Assumptions C19_is_acyclic.

(** The search recurses once per node on a path: whatever the interpreter's limit,
    some acyclic chain exceeds it. *)
Theorem C19_always_answers_refuted : forall ord lim, fair ord -> exists g,
  greachable ord g /\ acyclic (contents g) /\ is_acyclic ord lim g = Raise RecursionErr.
Proof.
  intros ord lim Hf. exists (chain lim). split; [|split].
  - exists (chain_nodes lim), (chain_edges lim), []. split; [apply chain_wf | reflexivity].
  - apply chain_acyclic.
  - apply chain_recursion; exact Hf.
Qed.
Print Assumptions C19_always_answers_refuted.

Example C19_ex : is_acyclic exord 6 exg = Ret true /\ is_acyclic exord 6 exg_loop = Ret false /\
  is_acyclic exord 1000 (graph_run exord exg [GAddEdge (Edge 107 6 6 0)]) = Ret false.
Proof. repeat split; reflexivity. Qed.

(** C20 *)
Theorem C20_topological_sort : forall ord lim g, fair ord -> greachable ord g ->
  match topological_sort ord lim g with
  | Ret l => acyclic (contents g) /\ Permutation l (m_nodes (contents g)) /\
      forall e, In e (m_edges (contents g)) ->
        exists i j, pos (e_head e) l = Some i /\ pos (e_tail e) l = Some j /\ i < j
  | Raise ValueError => ~ acyclic (contents g)
  | Raise x => x = RecursionErr /\ lim < length (m_nodes (contents g))
  end.
Proof. intros ord lim g Hf Hr. apply (topo_correct ord Hf g (greachable_Inv ord Hf g Hr) lim). Qed.
Print Assumptions C20_topological_sort.

Example C20_ex : topological_sort exord 6 exg
  = Ret [(1, 10); (6, 60); (3, 30); (2, 20); (4, 40); (5, 50)] /\
  topological_sort exord_rev 6 exg
  = Ret [(1, 10); (6, 60); (3, 30); (2, 20); (4, 40); (5, 50)] /\
  topological_sort exord 6 exg_loop = Raise ValueError.
Proof. repeat split; reflexivity. Qed.

(** C21 *)
Theorem C21_find_path : forall ord g check cond a b, fair ord -> greachable ord g ->
  match find_path ord check cond g (RId a) (RId b) with
  | Ret (Some es) =>
      has_node (contents g) a = true /\ has_node (contents g) b = true /\
      walk (contents g) (fun e => negb check || cond e) a es b /\
      (forall es', walk (contents g) (fun e => negb check || cond e) a es' b -> length es <= length es') /\
      (es = [] <-> a = b)
  | Ret None =>
      has_node (contents g) a = true /\ has_node (contents g) b = true /\
      forall es, ~ walk (contents g) (fun e => negb check || cond e) a es b
  | Raise x => x = NotFoundError /\ (has_node (contents g) a && has_node (contents g) b = false)
  end.
Proof. intros ord g check cond a b Hf. apply find_path_correct; exact Hf. Qed.
Print Assumptions C21_find_path.

Example C21_ex :
  find_path exord false (fun _ => true) exg (RId 1) (RId 5)
    = Ret (Some [Edge 100 1 2 0; Edge 101 2 4 0; Edge 104 4 5 0]) /\
  find_path exord true (fun e => negb (e_id e =? 101)) exg (RId 1) (RId 5)
    = Ret (Some [Edge 102 1 3 0; Edge 103 3 4 0; Edge 104 4 5 0]) /\
  find_path exord false (fun _ => true) exg (RId 5) (RId 1) = Ret None /\
  find_path exord false (fun _ => true) exg_loop (RId 2) (RId 2) = Ret (Some []) /\
  find_path exord false (fun _ => true) exg (RId 9) (RId 1) = Raise NotFoundError.
Proof. repeat split; reflexivity. Qed.

(** C22: well-formed data is accepted unchanged, so C17-C21 apply to the result. *)
Theorem C22_well_formed_data : forall ord ns es, fair ord -> well_formed ns es ->
  greachable ord (graph_new ns es) /\ contents (graph_new ns es) = MG ns (dvals es).
Proof.
  intros ord ns es Hf Hw. split; [exists ns, es, []; auto|].
  destruct (new_edges ns es (proj1 Hw)) as (H1 & H2 & _). unfold contents. rewrite H1, H2. reflexivity.
Qed.
Print Assumptions C22_well_formed_data.

(** A dangling edge is kept, and can then not be removed. *)
Theorem C22_dangling_edge_stuck : forall ns es u e, NoDup (dkeys ns) ->
  dget u es = Some e -> ~ (In (e_head e) (dkeys ns) /\ In (e_tail e) (dkeys ns)) ->
  let (g', r) := remove_edge (graph_new ns es) (RId u) in
  r = Raise KeyError /\ dget u (g_edges g') = Some e.
Proof. exact dangling_remove_edge. Qed.
Print Assumptions C22_dangling_edge_stuck.

(** With an edge from a stored node to a missing one the graph is never reported
    acyclic and never sorted, though it may have no cycle. *)
Theorem C22_dangling_never_acyclic : forall ord lim ns es e, fair ord ->
  NoDup (dkeys ns) -> NoDup (dkeys es) -> (forall u e, In (u, e) es -> e_id e = u) ->
  In e (dvals es) -> In (e_head e) (dkeys ns) -> ~ In (e_tail e) (dkeys ns) ->
  is_acyclic ord lim (graph_new ns es) <> Ret true /\
  forall l, topological_sort ord lim (graph_new ns es) <> Ret l.
Proof. exact dangling_never_acyclic. Qed.
Print Assumptions C22_dangling_never_acyclic.

Definition exg_dangling := graph_new [(1, 10)] [(100, Edge 100 1 2 0)].

(** The naive expectation (dangling data is rejected, failures change nothing) is false. *)
Theorem C22_dangling_rejected_refuted : exists ns es, NoDup (dkeys ns) /\ NoDup (dkeys es) /\
  ~ well_formed ns es /\ acyclic (contents (graph_new ns es)) /\
  is_acyclic exord 1000 (graph_new ns es) = Raise KeyError /\
  (let (g', r) := remove_edge (graph_new ns es) (RId 100) in
   r = Raise KeyError /\ g' <> graph_new ns es) /\
  snd (remove_node exord (graph_new ns es) (RId 1)) = Raise KeyError.
Proof.
  exists [(1, 10)], [(100, Edge 100 1 2 0)]. repeat split.
  - repeat (constructor; [simpl; intuition discriminate|]). constructor.
  - repeat (constructor; [simpl; intuition discriminate|]). constructor.
  - intros (_ & _ & _ & H). destruct (H (Edge 100 1 2 0)) as [_ H']; [left; reflexivity|].
    simpl in H'. intuition discriminate.
  - intros n [es [Hne Hw]]. inversion Hw as [|a e es' b H1 _ H2 H3]; subst; [contradiction|].
    destruct H1 as [<-|[]]. simpl in *. inversion H3 as [|a' e' es'' b' H1' _ H2' _]; subst.
    destruct H1' as [<-|[]]. discriminate.
  - discriminate.
Qed.
Print Assumptions C22_dangling_rejected_refuted.

Example C22_ex : snd (remove_edge exg_dangling (RId 100)) = Raise KeyError /\
  topological_sort exord 1000 exg_dangling = Raise KeyError.
Proof. split; reflexivity. Qed.

Section Neighbours.
Variable ord : bool -> uuid -> list uuid -> list uuid.
Hypothesis Hord : fair ord.

Lemma nodes_missing g us : (exists u, In u us /\ ~ In u (dkeys (g_nodes g))) <->
  lookup_nodes g us = Raise NotFoundError.
Proof.
  induction us as [|u t IH]; cbn; [split; [intros (u & [] & _)|discriminate]|].
  destruct (dget u (g_nodes g)) as [n|] eqn:D.
  - destruct (lookup_nodes g t) as [ns|x]; cbn; split.
    + intros (v & [->|I] & N); [destruct N; eapply dget_Some_key; eauto|].
      assert (X := proj1 IH (ex_intro _ v (conj I N))). discriminate X.
    + discriminate.
    + intros (v & [->|I] & N); [destruct N; eapply dget_Some_key; eauto|]. apply IH; eauto.
    + intros H. apply IH in H. destruct H as (v & I & N). eauto.
  - split; [reflexivity|]. intros _. exists u. split; [auto|]. now apply dget_None.
Qed.

Lemma nodes_other g us x : lookup_nodes g us = Raise x -> x = NotFoundError.
Proof.
  revert x. induction us as [|u t IH]; cbn; [discriminate|]. intros x.
  destruct (dget u (g_nodes g)); [|congruence].
  destruct (lookup_nodes g t); cbn; [discriminate|]. intros [= <-]. auto.
Qed.

(** The neighbours of a stored node are found unless one of them is missing. *)
Theorem C22_dangling_neighbours ns es n :
  NoDup (dkeys ns) -> NoDup (dkeys es) -> (forall u e, In (u, e) es -> e_id e = u) ->
  In n (dkeys ns) ->
  let g := graph_new ns es in
  (forall x, get_successors ord g (RId n) = Raise x <->
     x = NotFoundError /\ exists e, In e (dvals es) /\ e_head e = n /\ ~ In (e_tail e) (dkeys ns)) /\
  (forall x, get_predecessors ord g (RId n) = Raise x <->
     x = NotFoundError /\ exists e, In e (dvals es) /\ e_tail e = n /\ ~ In (e_head e) (dkeys ns)).
Proof.
  intros Nn Ne K I g. destruct (new_indexed ns es Nn) as ((O1 & I1 & O2 & I2) & G1 & G2).
  fold g in O1, I1, O2, I2, G1, G2.
  assert (forall b (s : list uuid) (a z : edge -> uuid),
    (forall u, In u s <-> exists e, In e (dvals es) /\ e_id e = u /\ a e = n) ->
    forall x, bind (lookup_edges g (ord b n s)) (fun l => bind (lookup_nodes g (map z l)) (fun ns => Ret (GNodes ns))) = Raise x <->
    x = NotFoundError /\ exists e, In e (dvals es) /\ a e = n /\ ~ In (z e) (dkeys ns)) as M.
  { intros b s a z S x.
    assert (forall e, In e (dvals es) -> dget (e_id e) es = Some e) as Q.
    { intros e J. unfold dvals in J. apply in_map_iff in J. destruct J as ([u e'] & J1 & J2). cbn in J1. subst e'.
      rewrite (K _ _ J2). now apply In_dget. }
    destruct (lookup_edges_ok g (ord b n s)) as (l & L1 & L2).
    { intros u J. apply (ord_In ord Hord) in J. apply S in J. destruct J as (e & J1 & J2 & _).
      exists e. rewrite G2, <- J2. auto. }
    assert (forall e, In e l <-> In e (dvals es) /\ a e = n) as L3.
    { intros e. split.
      - intros J. destruct (In_nth_error _ _ J) as [i Hi].
        destruct (nth_error (ord b n s) i) as [u|] eqn:Hu.
        + assert (dget u (g_edges g) = Some e) as D.
          { clear -L2 Hi Hu. revert i Hi Hu. induction L2; intros [|i]; cbn; try discriminate; [congruence|eauto]. }
          rewrite G2 in D. apply nth_error_In in Hu. apply (ord_In ord Hord) in Hu. apply S in Hu.
          destruct Hu as (e' & H1 & H2 & H3). rewrite <- H2, (Q _ H1) in D. injection D as ->. auto.
        + assert (length (ord b n s) = length l) as Q0 by (clear -L2; induction L2; cbn; congruence).
          apply nth_error_None in Hu. rewrite Q0 in Hu.
          assert (i < length l) by (apply nth_error_Some; congruence). lia.
      - intros [J1 J2]. assert (In (e_id e) (ord b n s)) as J3 by (apply (ord_In ord Hord), S; eauto).
        assert (forall us l, Forall2 (fun u e => dget u (g_edges g) = Some e) us l -> In (e_id e) us -> In e l) as W.
        { clear -Q J1 G2. induction 1 as [|u e' us l Hu _ IH]; cbn; [auto|]. intros [->|]; [left|auto].
          rewrite G2, (Q _ J1) in Hu. congruence. }
        eapply W; eauto. }
    rewrite L1. cbn [bind].
    assert ((exists e, In e (dvals es) /\ a e = n /\ ~ In (z e) (dkeys ns)) <->
            exists u, In u (map z l) /\ ~ In u (dkeys (g_nodes g))) as ->.
    { rewrite G1. split.
      - intros (e & J1 & J2 & J3). exists (z e). split; [apply in_map, L3; auto|auto].
      - intros (u & J1 & J2). apply in_map_iff in J1. destruct J1 as (e & <- & J1). apply L3 in J1. exists e. tauto. }
    rewrite nodes_missing.
    destruct (lookup_nodes g (map z l)) as [r|y] eqn:R; cbn; split; try discriminate.
    - intros [_ ?]; discriminate.
    - intros [= <-]. rewrite (nodes_other _ _ _ R). auto.
    - intros [-> ?]. congruence. }
  split; intros x; cbn; unfold sget_or_empty.
  - destruct (dget n (g_out g)) as [s|] eqn:D.
    + apply M. exact (proj2 (O2 _ _ D)).
    + apply dget_None in D. rewrite O1 in D. contradiction.
  - destruct (dget n (g_in g)) as [s|] eqn:D.
    + apply M. exact (proj2 (I2 _ _ D)).
    + apply dget_None in D. rewrite I1 in D. contradiction.
Qed.
End Neighbours.
Print Assumptions C22_dangling_neighbours.

Example C22_ex_neighbours :
  get_successors exord exg_dangling (RId 1) = Raise NotFoundError /\
  get_predecessors exord exg_dangling (RId 1) = Ret (GNodes []).
Proof. split; reflexivity. Qed.
