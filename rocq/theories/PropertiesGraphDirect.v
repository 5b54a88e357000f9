(** Property C126: graphs whose piles are used directly. *)
From Coq Require Import List ZArith Bool Arith Lia Permutation.
From Verif Require Import PyBase PyFacts ModelProgression ModelGraph SpecGraph ProofsGraph ModelGraphDirect PropertiesGraph.
Import ListNotations.
Local Open Scope nat_scope.

Section C126.
  Variable ord : bool -> uuid -> list uuid -> list uuid.
  Hypothesis Ford : fair ord.

  (** Two graphs that differ in edges no adjacency set mentions. *)
  Section Alike.
    Variables (g : graph) (es' : dict uuid edge).
    Definition agree (u : uuid) := dget u es' = dget u (g_edges g).
    Hypothesis Ho : forall n s u, dget n (g_out g) = Some s -> In u s -> agree u.
    Hypothesis Hi : forall n s u, dget n (g_in g) = Some s -> In u s -> agree u.
    Notation g' := (Graph (g_nodes g) es' (g_out g) (g_in g)).

    Lemma ord_agree b n s : (forall u, In u s -> agree u) -> forall u, In u (ord b n s) -> agree u.
    Proof. intros H u I. apply H. eapply Permutation_in; [apply Ford|exact I]. Qed.
    Lemma sget_agree d n : (forall n s u, dget n d = Some s -> In u s -> agree u) -> forall u, In u (sget_or_empty n d) -> agree u.
    Proof. intros H u. unfold sget_or_empty. destruct (dget n d) as [s|] eqn:D; [apply (H _ _ _ D)|intros []]. Qed.
    Lemma lookup_edges_alike us : (forall u, In u us -> agree u) -> lookup_edges g' us = lookup_edges g us.
    Proof.
      induction us as [|u us IH]; intros H; [reflexivity|]. cbn. rewrite (H u (or_introl eq_refl)). destruct (dget u (g_edges g)); [|reflexivity].
      rewrite IH by (intros v I; apply H; right; exact I). reflexivity.
    Qed.
    Lemma lookup_nodes_alike us : lookup_nodes g' us = lookup_nodes g us.
    Proof. induction us as [|u us IH]; [reflexivity|]. cbn. rewrite IH. reflexivity. Qed.
    Lemma node_edges_alike r d : get_node_edges ord g' r d = get_node_edges ord g r d.
    Proof.
      unfold get_node_edges. destruct d; try reflexivity; destruct (coerce_id r) as [n|]; try reflexivity; cbn [bind]; rewrite lookup_edges_alike; try reflexivity;
        intros u I; apply in_app_iff in I; destruct I as [I|I]; try contradiction; revert I; apply ord_agree, sget_agree; assumption.
    Qed.
    Lemma preds_alike r : get_predecessors ord g' r = get_predecessors ord g r.
    Proof.
      unfold get_predecessors. destruct (coerce_id r) as [n|]; [|reflexivity]. cbn [bind]. rewrite lookup_edges_alike by (apply ord_agree, sget_agree, Hi).
      cbn [g_in]. destruct (lookup_edges g _); [|reflexivity]. cbn [bind]. rewrite lookup_nodes_alike. reflexivity.
    Qed.
    Lemma succs_alike r : get_successors ord g' r = get_successors ord g r.
    Proof.
      unfold get_successors. destruct (coerce_id r) as [n|]; [|reflexivity]. cbn [bind]. rewrite lookup_edges_alike by (apply ord_agree, sget_agree, Ho).
      cbn [g_out]. destruct (lookup_edges g _); [|reflexivity]. cbn [bind]. rewrite lookup_nodes_alike. reflexivity.
    Qed.
    Lemma dfs_alike lim : forall c n, dfs ord lim g' c n = dfs ord lim g c n.
    Proof.
      induction lim as [|lim IH]; intros c n; [reflexivity|]. cbn [dfs g_out g_edges]. destruct (dget n (g_out g)) as [s|] eqn:D; [|reflexivity].
      assert (A : forall u, In u (ord true n s) -> agree u) by apply (ord_agree true n s (fun u => Ho n s u D)).
      match goal with |- ?F _ ?c0 = ?G _ _ => assert (L : forall us, (forall u, In u us -> agree u) -> forall c, F us c = G us c) end; [|apply L, A].
      clear A. induction us as [|u us IHu]; intros A c0; [reflexivity|]. cbn [g_edges]. rewrite (A u (or_introl eq_refl)).
      assert (A' : forall v, In v us -> agree v) by (intros v I; apply A; right; exact I).
      destruct (dget u (g_edges g)) as [e|]; [|reflexivity]. destruct (dget (e_tail e) c0) as [[| |]|]; try reflexivity; [|apply (IHu A')].
      rewrite IH. destruct (dfs ord lim g c0 (e_tail e)) as [[[|] c']|]; try reflexivity. apply (IHu A').
    Qed.
    Lemma components_alike lim ns : forall c, all_components ord lim g' ns c = all_components ord lim g ns c.
    Proof.
      induction ns as [|n ns IH]; intros c; [reflexivity|]. cbn. destruct (dget n c) as [[| |]|]; try reflexivity; try apply IH.
      rewrite dfs_alike. destruct (dfs ord lim g c n) as [[[|] c']|]; try reflexivity. apply IH.
    Qed.
    Lemma acyclic_alike lim : is_acyclic ord lim g' = is_acyclic ord lim g.
    Proof. apply components_alike. Qed.
    Lemma relax_alike us : (forall u, In u us -> agree u) -> forall deg q, relax g' us deg q = relax g us deg q.
    Proof.
      induction us as [|u us IH]; intros A deg q; [reflexivity|]. cbn. rewrite (A u (or_introl eq_refl)).
      destruct (dget u (g_edges g)) as [e|]; [|reflexivity]. destruct (dget (e_tail e) deg); [|reflexivity]. apply IH. intros v I. apply A. right. exact I.
    Qed.
    Lemma kahn_alike fuel : forall q deg res, kahn ord fuel g' q deg res = kahn ord fuel g q deg res.
    Proof.
      induction fuel as [|fuel IH]; intros [|n q] deg res; try reflexivity. cbn. destruct (dget n (g_nodes g)); [|reflexivity].
      destruct (dget n (g_out g)) as [s|] eqn:D; [|reflexivity]. rewrite (relax_alike (ord true n s) (ord_agree true n s (fun u => Ho n s u D))).
      destruct (relax g (ord true n s) deg q) as [[deg' q']|]; [|reflexivity]. apply IH.
    Qed.
    Lemma sort_alike lim : topological_sort ord lim g' = topological_sort ord lim g.
    Proof. unfold topological_sort. rewrite acyclic_alike. destruct (is_acyclic ord lim g) as [[|]|]; try reflexivity. apply kahn_alike. Qed.

    Definition pok (parent : dict uuid (uuid * uuid)) := forall n p u, dget n parent = Some (p, u) -> agree u.
    Lemma rebuild_alike fuel parent : pok parent -> forall n acc, rebuild fuel g' parent n acc = rebuild fuel g parent n acc.
    Proof.
      intros P. induction fuel as [|fuel IH]; intros n acc; [reflexivity|]. cbn. destruct (dget n parent) as [[p u]|] eqn:D; [|reflexivity].
      rewrite (P _ _ _ D). destruct (dget u (g_edges g)); [|reflexivity]. apply IH.
    Qed.
    Lemma expand_alike chk cond cur us : (forall u, In u us -> agree u) -> forall q parent vis, pok parent ->
      expand chk cond g' cur us q parent vis = expand chk cond g cur us q parent vis /\
      (forall q2 p2 v2, expand chk cond g cur us q parent vis = Ret (q2, p2, v2) -> pok p2).
    Proof.
      induction us as [|u us IH]; intros A q parent vis P; [split; [reflexivity|cbn; intros q2 p2 v2 X; injection X as _ <- _; exact P]|]. cbn. rewrite (A u (or_introl eq_refl)).
      assert (A' : forall v, In v us -> agree v) by (intros v I; apply A; right; exact I).
      destruct (dget u (g_edges g)) as [e|]; [|split; [reflexivity|discriminate]].
      destruct (memb (e_tail e) vis); [apply IH; auto|]. destruct (chk && negb (cond e)); [apply IH; auto|]. apply IH; auto.
      intros n p v. rewrite dget_dset. destruct (eqb n (e_tail e)); [intros [= _ <-]; apply A; left; reflexivity|apply P].
    Qed.
    Lemma bfs_alike chk cond stop fuel : forall q parent vis, pok parent -> bfs ord chk cond fuel g' stop q parent vis = bfs ord chk cond fuel g stop q parent vis.
    Proof.
      induction fuel as [|fuel IH]; intros [|cur q] parent vis P; try reflexivity; cbn [bfs]; rewrite (rebuild_alike _ _ P); [reflexivity|].
      destruct (cur =? stop); [reflexivity|]. cbn [g_out]. destruct (dget cur (g_out g)) as [s|] eqn:D; [|reflexivity].
      destruct (expand_alike chk cond cur (ord true cur s) (ord_agree true cur s (fun u => Ho cur s u D)) q parent vis P) as [E P2]. rewrite E.
      destruct (expand chk cond g cur (ord true cur s) q parent vis) as [[[q2 p2] v2]|]; [|reflexivity]. apply IH. eapply P2; reflexivity.
    Qed.
    Lemma path_alike chk cond a b : find_path ord chk cond g' a b = find_path ord chk cond g a b.
    Proof.
      unfold find_path. destruct (coerce_id a) as [x|]; [|reflexivity]. destruct (coerce_id b) as [y|]; [|reflexivity]. cbn [bind g_nodes].
      destruct (negb (dmem x (g_nodes g)) || negb (dmem y (g_nodes g))); [reflexivity|]. apply bfs_alike. intros n p u. discriminate.
    Qed.
  End Alike.

  (** A question to a graph, and its answer. *)
  Inductive question := QStep (o : graph_op) | QAcyclic (lim : nat) | QSort (lim : nat) | QPath (chk : bool) (cond : edge -> bool) (a b : idref).
  Definition asks (q : question) : Prop :=
    match q with QStep (GAddNode _ _ | GRemNode _ | GAddEdge _ | GRemEdge _ | GContains _) => False | _ => True end.
  Definition reply (g : graph) (q : question) : outcome gval :=
    match q with
    | QStep o => snd (graph_step ord g o)
    | QAcyclic lim => bind (is_acyclic ord lim g) (fun b => Ret (GBool b))
    | QSort lim => bind (topological_sort ord lim g) (fun l => Ret (GNodes l))
    | QPath chk cond a b => bind (find_path ord chk cond g a b) (fun p => Ret (GPath p))
    end.

  Lemma add_all_shape es : forall g, exists es', edges_add_all g es = Graph (g_nodes g) es' (g_out g) (g_in g) /\
    (forall u, dmem u (g_edges g) = true -> dget u es' = dget u (g_edges g)).
  Proof.
    induction es as [|e es IH]; intros g; [exists (g_edges g); destruct g; auto|]. unfold edges_add_all. cbn [fold_left]. fold (edges_add_all (fst (edges_add g e)) es).
    destruct (IH (fst (edges_add g e))) as (es' & E & A). unfold edges_add in *. destruct (dmem (e_id e) (g_edges g)) eqn:D; cbn [fst g_nodes g_out g_in g_edges] in *; [eauto|].
    exists es'. split; [exact E|]. intros u M. assert (N : u <> e_id e) by (intros ->; congruence).
    rewrite A; [apply dget_dset_other, N|]. unfold dmem in *. rewrite dget_dset_other by exact N. exact M.
  Qed.

  (** ** C126 *)
  (** Edges added directly are seen by no query, whatever they join. *)
  Theorem C126_unseen g es q : greachable ord g -> asks q -> reply (edges_add_all g es) q = reply g q.
  Proof.
    intros R Q. pose proof (greachable_Inv ord Ford g R) as I. destruct (add_all_shape es g) as (es' & -> & A).
    assert (Ho : forall n s u, dget n (g_out g) = Some s -> In u s -> agree g es' u).
    { intros n s u D H. apply A. apply (i_out g I n s D) in H. destruct H as (e & H & _). unfold dmem. rewrite H. reflexivity. }
    assert (Hi : forall n s u, dget n (g_in g) = Some s -> In u s -> agree g es' u).
    { intros n s u D H. apply A. apply (i_in g I n s D) in H. destruct H as (e & H & _). unfold dmem. rewrite H. reflexivity. }
    destruct q as [[]|lim|lim|chk cond a b]; try contradiction; cbn [reply graph_step snd].
    - apply node_edges_alike; assumption.
    - apply preds_alike; assumption.
    - apply succs_alike; assumption.
    - unfold get_heads. rewrite lookup_nodes_alike. reflexivity.
    - unfold get_tails. rewrite lookup_nodes_alike. reflexivity.
    - reflexivity.
    - rewrite acyclic_alike by assumption. reflexivity.
    - rewrite sort_alike by assumption. reflexivity.
    - rewrite path_alike by assumption. reflexivity.
  Qed.
  Lemma dset_same_value {K V} `{EqB K} (d : dict K V) k v : dget k d = Some v -> dset k v d = d.
  Proof.
    induction d as [|[k' v'] d IH]; cbn; [discriminate|]. destruct (eqb k k') eqn:E; [intros [= ->]; reflexivity|intros D; rewrite IH by exact D; reflexivity].
  Qed.
  Lemma ddel_dset_fresh {K V} `{EqB K} (d : dict K V) k v : dget k d = None -> ddel k (dset k v d) = d.
  Proof.
    induction d as [|[k' v'] d IH]; cbn.
    - intros _. destruct (eqb_spec k k); [reflexivity|congruence].
    - destruct (eqb k k') eqn:E; [discriminate|]. intros D. cbn. rewrite E, IH by exact D. reflexivity.
  Qed.
  (** Such an edge between nodes of the graph can be removed with remove_edge, and nothing remains of it. *)
  Theorem C126_removed g e : greachable ord g -> dmem (e_id e) (g_edges g) = false ->
    dmem (e_head e) (g_nodes g) = true -> dmem (e_tail e) (g_nodes g) = true ->
    remove_edge (fst (edges_add g e)) (RId (e_id e)) = (g, Ret (GEdge e)).
  Proof.
    intros R F Hh Ht. pose proof (greachable_Inv ord Ford g R) as I. unfold edges_add. rewrite F. cbn.
    unfold remove_edge_id. cbn [g_edges g_out g_in g_nodes]. rewrite dget_dset_same.
    assert (Fe : dget (e_id e) (g_edges g) = None) by (unfold dmem in F; destruct (dget (e_id e) (g_edges g)); [discriminate|reflexivity]).
    apply dmem_true in Hh, Ht. destruct (Inv_out g _ I Hh) as [so Do]. destruct (Inv_in g _ I Ht) as [si Di].
    unfold upd_set. rewrite Do, Di.
    assert (No : ~ In (e_id e) so) by (intros X; apply (i_out g I _ _ Do) in X; destruct X as (x & X & _); congruence).
    assert (Ni : ~ In (e_id e) si) by (intros X; apply (i_in g I _ _ Di) in X; destruct X as (x & X & _); congruence).
    unfold sdiscard. rewrite (proj2 (remove_first_None _ _) No), (proj2 (remove_first_None _ _) Ni).
    rewrite (dset_same_value _ _ _ Do), (dset_same_value _ _ _ Di). rewrite ddel_dset_fresh by exact Fe. destruct g; reflexivity.
  Qed.
  (** An edge removed directly: the queries that should tell of it raise, and neither of its nodes can be removed. *)
  Lemma lookup_lost g us u : In u us -> dget u (g_edges g) = None -> lookup_edges g us = Raise NotFoundError.
  Proof.
    induction us as [|v us IH]; intros I D; [destruct I|]. cbn. destruct (dget v (g_edges g)) eqn:E; [|reflexivity].
    destruct I as [->|I]; [congruence|]. rewrite IH by assumption. reflexivity.
  Qed.
  Lemma remove_edge_keeps g v u : u <> v -> let h := fst (remove_edge_id g v) in
    g_nodes h = g_nodes g /\ (NoDup (dkeys (g_edges g)) -> dget u (g_edges g) = None -> NoDup (dkeys (g_edges h)) /\ dget u (g_edges h) = None) /\
    (forall n s, dget n (g_out g) = Some s -> In u s -> exists s', dget n (g_out h) = Some s' /\ In u s').
  Proof.
    intros N. unfold remove_edge_id. destruct (dget v (g_edges g)) as [e|] eqn:D; [|cbn; eauto 10].
    assert (P : forall f k (d d' : dict uuid (list uuid)), upd_set f k d = Ret d' -> (forall s, In u s -> In u (f s)) ->
      forall n s, dget n d = Some s -> In u s -> exists s', dget n d' = Some s' /\ In u s').
    { intros f k d d' U Hf n s Dn I. unfold upd_set in U. destruct (dget k d) as [s0|] eqn:Dk; [|discriminate]. injection U as <-.
      rewrite dget_dset. destruct (eqb_spec n k) as [->|]; [|eauto]. exists (f s0). split; [reflexivity|]. apply Hf. congruence. }
    assert (Sd : forall s, In u s -> In u (sdiscard v s)).
    { intros s I. unfold sdiscard. destruct (remove_first v s) as [s'|] eqn:E; [|exact I]. apply remove_first_Perm in E.
      apply (Permutation_in _ E) in I. destruct I as [->|I]; [congruence|exact I]. }
    destruct (upd_set (sdiscard v) (e_head e) (g_out g)) as [o|] eqn:Uo; [|cbn; eauto 10].
    destruct (upd_set (sdiscard v) (e_tail e) (g_in g)) as [i|] eqn:Ui; cbn.
    - split; [reflexivity|]. split; [|apply (P _ _ _ _ Uo Sd)]. intros Nd Du. split; [apply dkeys_ddel_NoDup, Nd|]. rewrite dget_ddel_other by exact N. exact Du.
    - split; [reflexivity|]. split; [auto|apply (P _ _ _ _ Uo Sd)].
  Qed.
  Lemma remove_edges_lost us u : forall g, NoDup (dkeys (g_edges g)) -> dget u (g_edges g) = None -> let '(h, a) := remove_edges g us in
    g_nodes h = g_nodes g /\ NoDup (dkeys (g_edges h)) /\ dget u (g_edges h) = None /\ (In u us -> exists x, a = Raise x) /\
    (forall n s, ~ In u us -> dget n (g_out g) = Some s -> In u s -> exists s', dget n (g_out h) = Some s' /\ In u s').
  Proof.
    induction us as [|v us IH]; intros g Nd D; cbn; [intuition eauto|].
    destruct (Nat.eq_dec u v) as [<-|Ne].
    - unfold remove_edge_id. rewrite D. intuition eauto.
    - destruct (remove_edge_keeps g v u Ne) as (K1 & K2 & K3). destruct (K2 Nd D) as [K4 K5].
      destruct (remove_edge_id g v) as [h [w|x]]; cbn [fst] in *.
      + specialize (IH h K4 K5). destruct (remove_edges h us) as [h2 a]. destruct IH as (A & B & C & E & F).
        split; [congruence|]. split; [exact B|]. split; [exact C|]. split; [intros [->|I]; [congruence|auto]|].
        intros n s NI Dn I. destruct (K3 n s Dn I) as (s' & D' & I'). apply (F n s'); tauto.
      + split; [exact K1|]. split; [exact K4|]. split; [exact K5|]. split; [eauto|]. intros n s NI Dn I. eauto.
  Qed.
  Theorem C126_lost g u e : greachable ord g -> dget u (g_edges g) = Some e -> let g' := fst (edges_remove g u) in
    (forall d, d = DOut \/ d = DBoth -> get_node_edges ord g' (RId (e_head e)) d = Raise NotFoundError) /\
    (forall d, d = DIn \/ d = DBoth -> get_node_edges ord g' (RId (e_tail e)) d = Raise NotFoundError) /\
    get_successors ord g' (RId (e_head e)) = Raise NotFoundError /\ get_predecessors ord g' (RId (e_tail e)) = Raise NotFoundError /\
    (forall n, n = e_head e \/ n = e_tail e -> exists h x, remove_node ord g' (RId n) = (h, Raise x) /\ g_nodes h = g_nodes g).
  Proof.
    intros R D. pose proof (greachable_Inv ord Ford g R) as I. unfold edges_remove. rewrite D. cbn [fst].
    destruct (i_end g I u e D) as [Eh Et]. destruct (Inv_out g _ I Eh) as [so Do]. destruct (Inv_in g _ I Et) as [si Di].
    assert (Io : In u so) by (apply (i_out g I _ _ Do); eauto). assert (Ii : In u si) by (apply (i_in g I _ _ Di); eauto).
    assert (Io' : In u (ord true (e_head e) so)) by (eapply Permutation_in; [apply Permutation_sym, Ford|exact Io]).
    assert (Ii' : In u (ord false (e_tail e) si)) by (eapply Permutation_in; [apply Permutation_sym, Ford|exact Ii]).
    set (g' := Graph (g_nodes g) (ddel u (g_edges g)) (g_out g) (g_in g)).
    assert (L : dget u (g_edges g') = None) by (cbn; apply dget_ddel_same, (i_e g I)).
    assert (Nd : NoDup (dkeys (g_edges g'))) by (cbn; apply dkeys_ddel_NoDup, (i_e g I)).
    assert (So : sget_or_empty (e_head e) (g_out g') = so) by (unfold sget_or_empty; cbn; rewrite Do; reflexivity).
    assert (Si : sget_or_empty (e_tail e) (g_in g') = si) by (unfold sget_or_empty; cbn; rewrite Di; reflexivity).
    split; [|split; [|split; [|split]]].
    - intros d [-> | ->]; unfold get_node_edges; cbn [coerce_id bind]; rewrite So, (lookup_lost g' _ u); try reflexivity; try exact L; apply in_app_iff; auto.
    - intros d [-> | ->]; unfold get_node_edges; cbn [coerce_id bind]; rewrite Si, (lookup_lost g' _ u); try reflexivity; try exact L; apply in_app_iff; auto.
    - unfold get_successors. cbn [coerce_id bind]. rewrite So, (lookup_lost g' _ u); auto.
    - unfold get_predecessors. cbn [coerce_id bind]. rewrite Si, (lookup_lost g' _ u); auto.
    - intros n Hn. unfold remove_node. cbn [coerce_id]. 
      assert (Mn : exists pay, dget n (g_nodes g') = Some pay).
      { cbn. destruct (dget n (g_nodes g)) as [p|] eqn:Dn; [eauto|]. exfalso. apply (proj1 (dget_None _ _)) in Dn. apply Dn. destruct Hn as [-> | ->]; assumption. }
      destruct Mn as [pay ->]. destruct (dget n (g_in g')) as [si'|] eqn:Dsi; [|eauto].
      pose proof (remove_edges_lost (ord false n si') u g' Nd L) as Q. destruct (remove_edges g' (ord false n si')) as [g1 [w|x]]; destruct Q as (Q1 & Q2 & Q3 & Q4 & Q5); [|eauto].
      assert (NI : ~ In u (ord false n si')) by (intros X; destruct (Q4 X); discriminate).
      assert (n = e_head e) as ->. { destruct Hn as [->| ->]; [reflexivity|]. exfalso. cbn in Dsi. assert (si' = si) as -> by congruence. tauto. }
      destruct (Q5 (e_head e) so NI Do Io) as (s1 & D1 & I1). rewrite D1.
      pose proof (remove_edges_lost (ord true (e_head e) s1) u g1 Q2 Q3) as Q. destruct (remove_edges g1 (ord true (e_head e) s1)) as [g2 [w2|x2]]; destruct Q as (P1 & P2 & P3 & P4 & P5).
      + exfalso. destruct P4 as [x X]; [|discriminate]. eapply Permutation_in; [apply Permutation_sym, Ford|exact I1].
      + exists g2, x2. split; [reflexivity|]. rewrite P1, Q1. reflexivity.
  Qed.
  (** A node added directly has no edges and is neither a head nor a tail; it cannot be removed, and add_edge stores an edge
      from or to it and then raises KeyError. *)
  Theorem C126_bare g u n : greachable ord g -> dmem u (g_nodes g) = false -> let g' := fst (nodes_add g u n) in
    get_node_edges ord g' (RId u) DBoth = Ret (GEdges []) /\ get_heads g' = get_heads g /\ get_tails g' = get_tails g /\
    add_node g' u n = (g', Raise ExistsError) /\ remove_node ord g' (RId u) = (g', Raise KeyError) /\
    (forall e, (e_head e = u \/ e_tail e = u) -> dmem (e_head e) (g_nodes g') = true -> dmem (e_tail e) (g_nodes g') = true ->
       dmem (e_id e) (g_edges g') = false -> exists h, add_edge g' e = (h, Raise KeyError) /\ g_edges h = dset (e_id e) e (g_edges g')).
  Proof.
    intros R F. pose proof (greachable_Inv ord Ford g R) as I. unfold nodes_add. rewrite F. cbn [fst].
    assert (Nu : ~ In u (dkeys (g_nodes g))) by (intros X; apply dmem_true in X; congruence).
    assert (Lo : dget u (g_out g) = None) by (apply dget_None; rewrite (i_ko g I); exact Nu).
    assert (Li : dget u (g_in g) = None) by (apply dget_None; rewrite (i_ki g I); exact Nu).
    assert (Pe : forall b, ord b u [] = []) by (intros b; apply Permutation_nil, Permutation_sym, Ford).
    assert (Ln : forall us, (forall v, In v us -> In v (dkeys (g_nodes g))) ->
      lookup_nodes (Graph (dset u n (g_nodes g)) (g_edges g) (g_out g) (g_in g)) us = lookup_nodes g us).
    { induction us as [|v us IH]; intros A; [reflexivity|]. cbn. rewrite dget_dset_other by (intros ->; apply Nu, A; left; reflexivity).
      rewrite IH by (intros w J; apply A; right; exact J). reflexivity. }
    assert (Fk : forall (d : dict uuid (list uuid)) v, In v (dkeys (filter (fun kv => emptyb (snd kv)) d)) -> In v (dkeys d)).
    { intros d v J. unfold dkeys in *. apply in_map_iff in J. destruct J as (kv & <- & J). apply filter_In in J. apply in_map, J. }
    split; [|split; [|split; [|split; [|split]]]].
    - unfold get_node_edges, sget_or_empty. cbn [coerce_id bind g_in g_out]. rewrite Lo, Li, !Pe. reflexivity.
    - unfold get_heads. cbn [g_in]. rewrite Ln; [reflexivity|]. intros v J. rewrite <- (i_ki g I). apply Fk, J.
    - unfold get_tails. cbn [g_out]. rewrite Ln; [reflexivity|]. intros v J. rewrite <- (i_ko g I). apply Fk, J.
    - unfold add_node. cbn [g_nodes]. unfold dmem. rewrite dget_dset_same. reflexivity.
    - unfold remove_node. cbn [coerce_id g_nodes g_in]. rewrite dget_dset_same, Li. reflexivity.
    - intros e Hu Mh Mt Fe. unfold add_edge. rewrite Mh, Mt, Fe. cbn [negb]. cbn [g_out g_in g_edges g_nodes]. unfold upd_set.
      destruct (dget (e_head e) (g_out g)) as [s|] eqn:Dh; [|eexists; split; reflexivity].
      assert (e_tail e = u) as -> by (destruct Hu as [Hu|Hu]; [rewrite Hu in Dh; congruence|exact Hu]). rewrite Li. eexists. split; reflexivity.
  Qed.
  (** A node removed directly: its edges stay, and can be listed and removed as before, but the nodes at their other ends
      raise when asked for their neighbours; added again with add_node, it has lost its edges, which are still stored. *)
  Lemma lookup_nodes_lost g us n : In n us -> dget n (g_nodes g) = None -> lookup_nodes g us = Raise NotFoundError.
  Proof.
    induction us as [|v us IH]; intros I D; [destruct I|]. cbn. destruct (dget v (g_nodes g)) eqn:E; [|reflexivity].
    destruct I as [->|I]; [congruence|]. rewrite IH by assumption. reflexivity.
  Qed.
  Lemma lookup_edges_In g us es u e : lookup_edges g us = Ret es -> In u us -> dget u (g_edges g) = Some e -> In e es.
  Proof.
    revert es. induction us as [|v us IH]; intros es L I D; [destruct I|]. cbn in L. destruct (dget v (g_edges g)) as [x|] eqn:E; [|discriminate].
    destruct (lookup_edges g us) as [xs|]; [|discriminate]. injection L as <-. destruct I as [->|I]; [left; congruence|right; auto].
  Qed.
  Lemma lookup_edges_nodes g ns o i us : lookup_edges (Graph ns (g_edges g) o i) us = lookup_edges g us.
  Proof. induction us as [|u us IH]; [reflexivity|]. cbn. rewrite IH. reflexivity. Qed.
  Lemma lookup_edges_raise g us x : lookup_edges g us = Raise x -> x = NotFoundError.
  Proof.
    induction us as [|u us IH]; [discriminate|]. cbn. destruct (dget u (g_edges g)); [|congruence]. revert IH. destruct (lookup_edges g us); [discriminate|]. cbn. auto.
  Qed.
  Theorem C126_gone g n pay : greachable ord g -> dget n (g_nodes g) = Some pay -> let g' := fst (nodes_remove g n) in
    (forall r d, get_node_edges ord g' r d = get_node_edges ord g r d) /\ (forall r, snd (remove_edge g' r) = snd (remove_edge g r)) /\
    remove_node ord g' (RId n) = (g', Raise NotFoundError) /\
    (forall u e, dget u (g_edges g) = Some e -> e_head e = n -> get_predecessors ord g' (RId (e_tail e)) = Raise NotFoundError) /\
    (forall u e, dget u (g_edges g) = Some e -> e_tail e = n -> get_successors ord g' (RId (e_head e)) = Raise NotFoundError) /\
    let g2 := fst (add_node g' n pay) in
    snd (add_node g' n pay) = Ret GUnit /\ g_edges g2 = g_edges g /\ get_node_edges ord g2 (RId n) DBoth = Ret (GEdges []).
  Proof.
    intros R Dn. pose proof (greachable_Inv ord Ford g R) as I. unfold nodes_remove. rewrite Dn. cbn [fst].
    assert (L : dget n (ddel n (g_nodes g)) = None) by (apply dget_ddel_same, (i_n g I)).
    split; [|split; [|split; [|split; [|split]]]].
    - intros r d. unfold get_node_edges. destruct d; try reflexivity; destruct (coerce_id r); try reflexivity; cbn [bind g_in g_out]; rewrite lookup_edges_nodes; reflexivity.
    - intros r. unfold remove_edge. destruct (coerce_id r) as [u|]; [|reflexivity]. unfold remove_edge_id. cbn [g_edges g_out g_in].
      destruct (dget u (g_edges g)) as [e|]; [|reflexivity]. destruct (upd_set _ _ (g_out g)); [|reflexivity]. destruct (upd_set _ _ (g_in g)); reflexivity.
    - unfold remove_node. cbn [coerce_id g_nodes]. rewrite L. reflexivity.
    - intros u e D Eh. destruct (i_end g I u e D) as [_ Et]. destruct (Inv_in g _ I Et) as [s Ds].
      unfold get_predecessors. cbn [coerce_id bind g_in]. unfold sget_or_empty. rewrite Ds, lookup_edges_nodes.
      destruct (lookup_edges g _) as [es|x] eqn:Le; [|cbn; f_equal; apply (lookup_edges_raise _ _ _ Le)]. cbn [bind].
      rewrite (lookup_nodes_lost _ _ n); [reflexivity| |exact L]. rewrite <- Eh. apply in_map. eapply lookup_edges_In; [exact Le| |exact D].
      eapply Permutation_in; [apply Permutation_sym, Ford|]. apply (i_in g I _ _ Ds). eauto.
    - intros u e D Et. destruct (i_end g I u e D) as [Eh _]. destruct (Inv_out g _ I Eh) as [s Ds].
      unfold get_successors. cbn [coerce_id bind g_out]. unfold sget_or_empty. rewrite Ds, lookup_edges_nodes.
      destruct (lookup_edges g _) as [es|x] eqn:Le; [|cbn; f_equal; apply (lookup_edges_raise _ _ _ Le)]. cbn [bind].
      rewrite (lookup_nodes_lost _ _ n); [reflexivity| |exact L]. rewrite <- Et. apply in_map. eapply lookup_edges_In; [exact Le| |exact D].
      eapply Permutation_in; [apply Permutation_sym, Ford|]. apply (i_out g I _ _ Ds). eauto.
    - unfold add_node. cbn [g_nodes]. unfold dmem. rewrite L. cbn. split; [reflexivity|]. split; [reflexivity|].
      unfold sget_or_empty. rewrite !dget_dset_same. assert (Pe : forall b, ord b n [] = []) by (intros b; apply Permutation_nil, Permutation_sym, Ford).
      rewrite !Pe. reflexivity.
  Qed.

  Lemma stale_out g u n s pay : NoDup (dkeys (g_edges g)) -> dget u (g_edges g) = None -> dget n (g_out g) = Some s -> In u s -> dget n (g_nodes g) = Some pay ->
    get_successors ord g (RId n) = Raise NotFoundError /\ exists h x, remove_node ord g (RId n) = (h, Raise x) /\ g_nodes h = g_nodes g.
  Proof.
    intros Nd L Ds I Dn. split.
    - unfold get_successors. cbn [coerce_id bind]. unfold sget_or_empty. rewrite Ds, (lookup_lost g _ u); try exact L; [reflexivity|].
      eapply Permutation_in; [apply Permutation_sym, Ford|exact I].
    - unfold remove_node. cbn [coerce_id]. rewrite Dn. destruct (dget n (g_in g)) as [si|]; [|eauto].
      pose proof (remove_edges_lost (ord false n si) u g Nd L) as Q. destruct (remove_edges g (ord false n si)) as [g1 [w|x]]; destruct Q as (Q1 & Q2 & Q3 & Q4 & Q5); [|eauto].
      assert (NI : ~ In u (ord false n si)) by (intros X; destruct (Q4 X); discriminate).
      destruct (Q5 n s NI Ds I) as (s1 & D1 & I1). rewrite D1.
      pose proof (remove_edges_lost (ord true n s1) u g1 Q2 Q3) as Q. destruct (remove_edges g1 (ord true n s1)) as [g2 [w2|x2]]; destruct Q as (P1 & P2 & P3 & P4 & P5).
      + exfalso. destruct P4 as [x X]; [|discriminate]. eapply Permutation_in; [apply Permutation_sym, Ford|exact I1].
      + exists g2, x2. split; [reflexivity|]. rewrite P1, Q1. reflexivity.
  Qed.
  Lemma stale_in g u n s pay : NoDup (dkeys (g_edges g)) -> dget u (g_edges g) = None -> dget n (g_in g) = Some s -> In u s -> dget n (g_nodes g) = Some pay ->
    get_predecessors ord g (RId n) = Raise NotFoundError /\ exists h x, remove_node ord g (RId n) = (h, Raise x) /\ g_nodes h = g_nodes g.
  Proof.
    intros Nd L Ds I Dn. assert (I' : In u (ord false n s)) by (eapply Permutation_in; [apply Permutation_sym, Ford|exact I]). split.
    - unfold get_predecessors. cbn [coerce_id bind]. unfold sget_or_empty. rewrite Ds, (lookup_lost g _ u); auto.
    - unfold remove_node. cbn [coerce_id]. rewrite Dn, Ds.
      pose proof (remove_edges_lost (ord false n s) u g Nd L) as Q. destruct (remove_edges g (ord false n s)) as [g1 [w|x]]; destruct Q as (Q1 & Q2 & Q3 & Q4 & Q5); [|eauto].
      destruct (Q4 I'). discriminate.
  Qed.
  Lemma lookup_edges_ids g us es : (forall v x, dget v (g_edges g) = Some x -> e_id x = v) -> lookup_edges g us = Ret es -> map e_id es = us.
  Proof.
    intros H. revert es. induction us as [|v us IH]; intros es; cbn; [intros [= <-]; reflexivity|].
    destruct (dget v (g_edges g)) as [x|] eqn:E; [|discriminate]. destruct (lookup_edges g us) as [xs|]; [|discriminate]. intros [= <-].
    cbn. rewrite (H _ _ E), (IH xs eq_refl). reflexivity.
  Qed.
  (** A stored edge whose ends are assigned: it stays listed at its old head and tail, and is listed at no others.  Removing it
      with remove_edge succeeds and spoils an end it was moved away from: its neighbours cannot be asked for, nor the node removed. *)
  Theorem C126_moved g u e h t : greachable ord g -> dget u (g_edges g) = Some e -> let g' := set_ends g u h t in
    let e' := Edge u h t (e_pay e) in
    (forall n es, get_node_edges ord g' (RId n) DOut = Ret (GEdges es) -> (In u (map e_id es) <-> n = e_head e)) /\
    (forall n es, get_node_edges ord g' (RId n) DIn = Ret (GEdges es) -> (In u (map e_id es) <-> n = e_tail e)) /\
    (forall n d, d <> DBad -> exists es, get_node_edges ord g' (RId n) d = Ret (GEdges es)) /\
    (dmem h (g_nodes g) = true -> dmem t (g_nodes g) = true -> exists g2, remove_edge g' (RId u) = (g2, Ret (GEdge e')) /\ g_nodes g2 = g_nodes g /\
       (h <> e_head e -> get_successors ord g2 (RId (e_head e)) = Raise NotFoundError /\
          exists k x, remove_node ord g2 (RId (e_head e)) = (k, Raise x) /\ g_nodes k = g_nodes g) /\
       (t <> e_tail e -> get_predecessors ord g2 (RId (e_tail e)) = Raise NotFoundError /\
          exists k x, remove_node ord g2 (RId (e_tail e)) = (k, Raise x) /\ g_nodes k = g_nodes g)).
  Proof.
    intros R D. pose proof (greachable_Inv ord Ford g R) as I. unfold set_ends. rewrite D, (i_id g I u e D). set (e' := Edge u h t (e_pay e)).
    set (g' := Graph (g_nodes g) (dset u e' (g_edges g)) (g_out g) (g_in g)). cbn zeta.
    destruct (i_end g I u e D) as [Eh Et]. destruct (Inv_out g _ I Eh) as [so Do]. destruct (Inv_in g _ I Et) as [si Di].
    assert (Io : In u so) by (apply (i_out g I _ _ Do); eauto). assert (Ii : In u si) by (apply (i_in g I _ _ Di); eauto).
    assert (Id : forall v x, dget v (g_edges g') = Some x -> e_id x = v).
    { intros v x. cbn. rewrite dget_dset. destruct (eqb_spec v u) as [->|]; [intros [= <-]; reflexivity|apply (i_id g I)]. }
    assert (Ps : forall b n l x, In x (ord b n l) <-> In x l) by (intros b n l x; split; apply Permutation_in; [apply Ford|apply Permutation_sym, Ford]).
    assert (Mo : forall n, In u (sget_or_empty n (g_out g)) <-> n = e_head e).
    { intros n. unfold sget_or_empty. split.
      - destruct (dget n (g_out g)) as [s|] eqn:Dn; [|intros []]. intros X. apply (i_out g I _ _ Dn) in X. destruct X as (x & X & <-). congruence.
      - intros ->. rewrite Do. exact Io. }
    assert (Mi : forall n, In u (sget_or_empty n (g_in g)) <-> n = e_tail e).
    { intros n. unfold sget_or_empty. split.
      - destruct (dget n (g_in g)) as [s|] eqn:Dn; [|intros []]. intros X. apply (i_in g I _ _ Dn) in X. destruct X as (x & X & <-). congruence.
      - intros ->. rewrite Di. exact Ii. }
    assert (Ok : forall us, (forall v, In v us -> dmem v (g_edges g) = true) -> exists es, lookup_edges g' us = Ret es).
    { induction us as [|v us IH]; intros A; [eexists; reflexivity|]. cbn. destruct IH as [es E]; [intros w J; apply A; right; exact J|]. fold g'.
      rewrite dget_dset. destruct (eqb_spec v u) as [->|N]; [rewrite E; eexists; reflexivity|].
      specialize (A v (or_introl eq_refl)). unfold dmem in A. destruct (dget v (g_edges g)); [|discriminate]. rewrite E. eexists. reflexivity. }
    assert (Ao : forall n v, In v (sget_or_empty n (g_out g)) -> dmem v (g_edges g) = true).
    { intros n v. unfold sget_or_empty. destruct (dget n (g_out g)) as [s|] eqn:Dn; [|intros []]. intros X. apply (i_out g I _ _ Dn) in X. destruct X as (x & X & _). unfold dmem. rewrite X. reflexivity. }
    assert (Ai : forall n v, In v (sget_or_empty n (g_in g)) -> dmem v (g_edges g) = true).
    { intros n v. unfold sget_or_empty. destruct (dget n (g_in g)) as [s|] eqn:Dn; [|intros []]. intros X. apply (i_in g I _ _ Dn) in X. destruct X as (x & X & _). unfold dmem. rewrite X. reflexivity. }
    split; [|split; [|split]].
    - intros n es H. unfold get_node_edges in H. cbn [coerce_id bind app] in H. destruct (lookup_edges g' _) as [es1|] eqn:L; [|discriminate]. injection H as <-.
      rewrite (lookup_edges_ids g' _ _ Id L), Ps. apply Mo.
    - intros n es H. unfold get_node_edges in H. cbn [coerce_id bind] in H. rewrite app_nil_r in H. destruct (lookup_edges g' _) as [es1|] eqn:L; [|discriminate]. injection H as <-.
      rewrite (lookup_edges_ids g' _ _ Id L), Ps. apply Mi.
    - intros n d Nd. unfold get_node_edges. destruct d; try congruence; cbn [coerce_id bind];
        match goal with |- context [lookup_edges g' ?l] => destruct (Ok l) as [es ->]; [|eexists; reflexivity] end;
        intros v J; apply in_app_iff in J; destruct J as [J|J]; try contradiction; apply Ps in J; first [apply (Ao n v J)|apply (Ai n v J)].
    - intros Mh Mt. cbn [remove_edge coerce_id]. unfold remove_edge, remove_edge_id. cbn [coerce_id g' g_edges g_out g_in g_nodes]. rewrite dget_dset_same.
      apply dmem_true in Mh, Mt. destruct (Inv_out g _ I Mh) as [sh Dh]. destruct (Inv_in g _ I Mt) as [st Dt].
      cbn [e' e_head e_tail]. unfold upd_set. rewrite Dh, Dt. eexists. split; [reflexivity|]. split; [reflexivity|].
      set (g2 := Graph _ _ _ _).
      assert (N2 : NoDup (dkeys (g_edges g2))) by (cbn; apply dkeys_ddel_NoDup, dkeys_dset_NoDup, (i_e g I)).
      assert (L2 : dget u (g_edges g2) = None) by (cbn; apply dget_ddel_same, dkeys_dset_NoDup, (i_e g I)).
      assert (Pn : forall n, In n (dkeys (g_nodes g)) -> exists pay, dget n (g_nodes g2) = Some pay).
      { intros n J. cbn. destruct (dget n (g_nodes g)) as [p|] eqn:Dn; [eauto|]. exfalso. apply (proj1 (dget_None _ _)) in Dn. exact (Dn J). }
      destruct (Pn _ Eh) as [p1 P1]. destruct (Pn _ Et) as [p2 P2]. split.
      + intros Ne. apply (stale_out g2 u (e_head e) so p1 N2 L2); [|exact Io|exact P1]. cbn. rewrite dget_dset_other by congruence. exact Do.
      + intros Ne. apply (stale_in g2 u (e_tail e) si p2 N2 L2); [|exact Ii|exact P2]. cbn. rewrite dget_dset_other by congruence. exact Di.
  Qed.

  (** is_acyclic says True only after looking at every node and at every edge leaving it. *)
  Definition seen (g : graph) (m : uuid) : Prop :=
    exists s, dget m (g_out g) = Some s /\ forall u, In u s -> exists e, dget u (g_edges g) = Some e /\ dmem (e_tail e) (g_nodes g) = true.
  Definition black_ok g (c : colors) := forall m, dget m c = Some Black -> seen g m.
  Definition keys_ok g (c : colors) := forall m, dget m c <> None -> dmem m (g_nodes g) = true.
  Definition grays (c c' : colors) := forall m, dget m c' = Some Gray -> dget m c = Some Gray.
  Lemma dfs_seen g lim : forall c n c', dfs ord lim g c n = Ret (true, c') -> keys_ok g c -> dget n c <> None -> black_ok g c ->
    seen g n /\ black_ok g c' /\ grays c c' /\ keys_ok g c'.
  Proof.
    induction lim as [|lim IH]; intros c n c' E K Kn B; [discriminate|]. cbn [dfs] in E. destruct (dget n (g_out g)) as [s|] eqn:Ds; [|discriminate].
    match type of E with ?F _ _ = _ => set (loop := F) in E end.
    assert (L : forall us c c', loop us c = Ret (true, c') -> keys_ok g c -> dget n c <> None -> black_ok g c ->
      (forall u, In u us -> exists e, dget u (g_edges g) = Some e /\ dmem (e_tail e) (g_nodes g) = true) /\
      (forall m, m <> n -> dget m c' = Some Black -> seen g m) /\ (forall m, m <> n -> dget m c' = Some Gray -> dget m c = Some Gray) /\ keys_ok g c' /\ dget n c' = Some Black).
    { clear E c c' K Kn B. induction us as [|u us IHu]; intros c c' E K Kn B.
      - cbn in E. injection E as <-. split; [intros u []|]. split; [intros m Nm; rewrite dget_dset_other by exact Nm; apply B|].
        split; [intros m Nm; rewrite dget_dset_other by exact Nm; auto|]. split; [|apply dget_dset_same].
        intros m. rewrite dget_dset. destruct (eqb_spec m n) as [->|]; [intros _; apply K, Kn|apply K].
      - cbn in E. fold loop in E. destruct (dget u (g_edges g)) as [e|] eqn:Du; [|discriminate].
        destruct (dget (e_tail e) c) as [col|] eqn:Dt; [|discriminate].
        assert (Kt : dmem (e_tail e) (g_nodes g) = true) by (apply K; congruence).
        destruct col; try discriminate.
        + destruct (dfs ord lim g c (e_tail e)) as [[[|] c1]|] eqn:Ed; try discriminate.
          destruct (IH _ _ _ Ed K ltac:(congruence) B) as (_ & B1 & G1 & K1).
          assert (Kn1 : dget n c1 <> None).
          { clear - Ed Kn. revert Ed Kn. generalize (e_tail e). revert c c1.
            assert (M : forall lim c n0 b c1, dfs ord lim g c n0 = Ret (b, c1) -> forall m, dget m c <> None -> dget m c1 <> None).
            { clear. induction lim as [|lim IH]; intros c n0 b c1 E m; [discriminate|]. cbn [dfs] in E. destruct (dget n0 (g_out g)) as [s|]; [|discriminate].
              intros Km. assert (Km' : dget m (dset n0 Gray c) <> None) by (rewrite dget_dset; destruct (eqb m n0); [discriminate|exact Km]).
              revert E Km'. generalize (dset n0 Gray c). generalize (ord true n0 s). induction l as [|u us IHu]; intros d E Kd; cbn in E.
              - injection E as _ <-. rewrite dget_dset. destruct (eqb m n0); [discriminate|exact Kd].
              - destruct (dget u (g_edges g)) as [x|]; [|discriminate]. destruct (dget (e_tail x) d) as [[| |]|]; try discriminate.
                + destruct (dfs ord lim g d (e_tail x)) as [[[|] d1]|] eqn:Ex; try discriminate; [apply (IHu d1 E), (IH _ _ _ _ Ex m Kd)|].
                  injection E as _ <-. apply (IH _ _ _ _ Ex m Kd).
                + injection E as _ <-. exact Kd.
                + apply (IHu d E Kd). }
            intros c c1 n0 Ed Kn. apply (M _ _ _ _ _ Ed n Kn). }
          destruct (IHu _ _ E K1 Kn1 B1) as (A1 & A2 & A3 & A4 & A5). split; [intros v [<-|J]; eauto|]. split; [exact A2|]. split; [|auto]. intros m Nm X. apply G1, A3; auto.
        + destruct (IHu _ _ E K Kn B) as (A1 & A2 & A3 & A4 & A5). split; [intros v [<-|J]; eauto|]. auto. }
    assert (K' : keys_ok g (dset n Gray c)) by (intros m; rewrite dget_dset; destruct (eqb_spec m n) as [->|]; [intros _; apply K, Kn|apply K]).
    assert (B' : black_ok g (dset n Gray c)) by (intros m; rewrite dget_dset; destruct (eqb m n); [discriminate|apply B]).
    destruct (L _ _ _ E K') as (A1 & A2 & A3 & A4 & A5); [rewrite dget_dset_same; discriminate|exact B'|].
    assert (Sn : seen g n). { exists s. split; [exact Ds|]. intros u J. apply A1. eapply Permutation_in; [apply Permutation_sym, Ford|exact J]. }
    split; [exact Sn|]. split; [|split; [|exact A4]].
    - intros m X. destruct (Nat.eq_dec m n) as [->|Nm]; [exact Sn|apply (A2 m Nm X)].
    - intros m X. destruct (Nat.eq_dec m n) as [->|Nm]; [congruence|]. specialize (A3 m Nm X). rewrite dget_dset_other in A3 by exact Nm. exact A3.
  Qed.
  Lemma components_seen g lim ns : forall c, all_components ord lim g ns c = Ret true -> keys_ok g c -> black_ok g c -> (forall m, dget m c <> Some Gray) ->
    forall n, In n ns -> seen g n.
  Proof.
    induction ns as [|n ns IH]; intros c E K B G m J; [destruct J|]. cbn in E. destruct (dget n c) as [col|] eqn:D; [|discriminate].
    destruct col; [|destruct (G n D)|].
    - destruct (dfs ord lim g c n) as [[[|] c1]|] eqn:Ed; try discriminate. destruct (dfs_seen g lim c n c1 Ed K ltac:(congruence) B) as (Sn & B1 & G1 & K1).
      destruct J as [<-|J]; [exact Sn|]. apply (IH c1 E K1 B1); [|exact J]. intros x X. apply (G x), G1, X.
    - destruct J as [<-|J]; [apply B, D|]. apply (IH c E K B G m J).
  Qed.
  Theorem C126_true lim g : is_acyclic ord lim g = Ret true -> forall n, dmem n (g_nodes g) = true -> seen g n.
  Proof.
    intros E n M. apply dmem_true in M. set (c := map (fun kv : uuid * nat => (fst kv, White)) (g_nodes g)).
    assert (W : forall m v, dget m c = Some v -> v = White /\ dmem m (g_nodes g) = true).
    { unfold c. clear. unfold dmem. induction (g_nodes g) as [|[k p] l IH]; intros m v; cbn [map fst dget]; [discriminate|].
      destruct (eqb m k); [intros [= <-]; auto|apply IH]. }
    apply (components_seen g lim (dkeys (g_nodes g)) c E); [| | |exact M].
    - intros m X. destruct (dget m c) as [v|] eqn:D; [apply (W m v D)|congruence].
    - intros m X. apply W in X. destruct X. discriminate.
    - intros m X. apply W in X. destruct X. discriminate.
  Qed.
  Lemma sort_needs g lim l : topological_sort ord lim g = Ret l -> is_acyclic ord lim g = Ret true.
  Proof. unfold topological_sort. destruct (is_acyclic ord lim g) as [[|]|]; congruence. Qed.
  (** With an edge removed, a node added, or a node with an edge to it removed directly, is_acyclic never says True and
      topological_sort never gives an order. *)
  Theorem C126_undecided g : greachable ord g -> forall g',
    (exists u e, dget u (g_edges g) = Some e /\ g' = fst (edges_remove g u)) \/
    (exists u n, dmem u (g_nodes g) = false /\ g' = fst (nodes_add g u n)) \/
    (exists u e, dget u (g_edges g) = Some e /\ e_head e <> e_tail e /\ g' = fst (nodes_remove g (e_tail e))) ->
    (forall lim, is_acyclic ord lim g' <> Ret true) /\ (forall lim l, topological_sort ord lim g' <> Ret l).
  Proof.
    intros R g' H. pose proof (greachable_Inv ord Ford g R) as I.
    assert (X : exists n, dmem n (g_nodes g') = true /\ ~ seen g' n).
    { destruct H as [(u & e & D & ->)|[(u & n & F & ->)|(u & e & D & Ne & ->)]].
      - unfold edges_remove. rewrite D. cbn [fst]. destruct (i_end g I u e D) as [Eh _]. destruct (Inv_out g _ I Eh) as [so Do]. exists (e_head e).
        split; [apply dmem_true; exact Eh|]. intros (s & Ds & A). cbn in Ds. assert (s = so) as -> by congruence.
        destruct (A u) as (x & Dx & _); [apply (i_out g I _ _ Do); eauto|]. cbn in Dx. rewrite dget_ddel_same in Dx by apply (i_e g I). discriminate.
      - unfold nodes_add. rewrite F. cbn [fst]. exists u. split; [unfold dmem; cbn [g_nodes]; rewrite dget_dset_same; reflexivity|].
        intros (s & Ds & _). cbn in Ds. assert (Y : In u (dkeys (g_out g))) by (apply dmem_true; unfold dmem; rewrite Ds; reflexivity).
        rewrite (i_ko g I) in Y. apply dmem_true in Y. congruence.
      - destruct (i_end g I u e D) as [Eh Et]. unfold nodes_remove. destruct (dget (e_tail e) (g_nodes g)) as [p|] eqn:Dt; [|apply (proj1 (dget_None _ _)) in Dt; contradiction].
        cbn [fst]. exists (e_head e). apply dmem_true in Eh. split; [unfold dmem in *; cbn [g_nodes]; rewrite dget_ddel_other by exact Ne; exact Eh|].
        intros (s & Ds & A). cbn in Ds. destruct (A u) as (x & Dx & Mx); [apply (i_out g I _ _ Ds); eauto|]. cbn in Dx. assert (x = e) as -> by congruence.
        unfold dmem in Mx. cbn [g_nodes] in Mx. rewrite dget_ddel_same in Mx by apply (i_n g I). discriminate. }
    destruct X as (n & M & S). assert (N : forall lim, is_acyclic ord lim g' <> Ret true) by (intros lim E; apply S, (C126_true lim g' E n M)).
    split; [exact N|]. intros lim l E. apply (N lim), (sort_needs _ _ _ E).
  Qed.
End C126.
Print Assumptions C126_true.
Print Assumptions C126_undecided.
Print Assumptions C126_moved.
Print Assumptions C126_gone.
Print Assumptions C126_unseen.
Print Assumptions C126_removed.
Print Assumptions C126_lost.
Print Assumptions C126_bare.

(** Not so: is_acyclic decides acyclicity, and remove_node removes all incident edges, when edges are added directly. *)
Theorem C126_edges_refuted :
  (exists g e lim, greachable exord g /\ let g' := fst (edges_add g e) in is_acyclic exord lim g' = Ret true /\ ~ acyclic (contents g')) /\
  (exists g e, greachable exord g /\ let g' := fst (edges_add g e) in let (h, a) := remove_node exord g' (RId (e_head e)) in
     (exists pay, a = Ret (GNode (e_head e) pay)) /\ In e (m_edges (contents h)) /\ dmem (e_head e) (g_nodes h) = false).
Proof.
  split.
  - exists exg, (Edge 200 5 1 0), 9. split; [apply exg_reachable|]. split; [reflexivity|]. intros A. apply (A 1).
    exists [Edge 100 1 2 0; Edge 101 2 4 0; Edge 104 4 5 0; Edge 200 5 1 0]. split; [discriminate|].
    repeat (constructor; [cbn; tauto|reflexivity|reflexivity|]). constructor.
  - exists exg, (Edge 200 5 1 0). split; [apply exg_reachable|]. cbn. split; [eauto|]. split; [tauto|reflexivity].
Qed.
Print Assumptions C126_edges_refuted.
(** Not so: an add_edge that raises changes nothing, when nodes are added directly. *)
Theorem C126_atomic_refuted : exists g u n e, greachable exord g /\ let g' := fst (nodes_add g u n) in let (h, a) := add_edge g' e in
  a = Raise KeyError /\ contents h <> contents g' /\ remove_edge h (RId (e_id e)) = (h, Raise KeyError).
Proof. exists exg, 7, 70, (Edge 200 7 1 0). split; [apply exg_reachable|]. cbn. split; [reflexivity|]. split; [discriminate|reflexivity]. Qed.
Print Assumptions C126_atomic_refuted.

Example C126_ex_unseen : let g := edges_add_all exg [Edge 200 5 1 0; Edge 100 9 9 9; Edge 201 8 9 0] in
  map fst (g_edges g) = [100; 101; 102; 103; 104; 105; 200; 201] /\ get_successors exord g (RId 5) = Ret (GNodes []) /\
  dget 100 (g_edges g) = Some (Edge 100 1 2 0) /\ remove_edge g (RId 201) = (g, Raise KeyError) /\
  snd (edges_add exg (Edge 100 9 9 9)) = Raise ExistsError.
Proof. repeat split. Qed.
Example C126_ex_lost : let g := fst (edges_remove exg 104) in
  snd (edges_remove exg 104) = Ret (GEdge (Edge 104 4 5 0)) /\ snd (edges_remove exg 999) = Raise NotFoundError /\
  get_successors exord g (RId 4) = Raise NotFoundError /\ snd (remove_node exord g (RId 5)) = Raise NotFoundError /\
  is_acyclic exord 9 g = Raise NotFoundError /\
  get_successors exord (fst (edges_add g (Edge 104 4 5 0))) (RId 4) = Ret (GNodes [(5, 50)]).
Proof. repeat split. Qed.
Example C126_ex_bare : let g := fst (nodes_add exg 7 70) in
  get_heads g = Ret (GNodes [(1, 10); (6, 60)]) /\ is_acyclic exord 9 g = Raise KeyError /\ snd (nodes_add exg 1 0) = Raise ExistsError /\
  snd (add_edge g (Edge 200 1 7 0)) = Raise KeyError /\ snd (remove_node exord g (RId 7)) = Raise KeyError.
Proof. repeat split. Qed.
Example C126_ex_gone : let g := fst (nodes_remove exg 2) in let g2 := fst (add_node g 2 21) in
  snd (nodes_remove exg 2) = Ret (GNode 2 20) /\ snd (nodes_remove exg 9) = Raise NotFoundError /\
  get_successors exord g (RId 1) = Raise NotFoundError /\
  get_successors exord g2 (RId 2) = Ret (GNodes []) /\ get_predecessors exord g2 (RId 4) = Ret (GNodes [(2, 21); (3, 30)]).
Proof. repeat split. Qed.
Example C126_ex_moved : let g := set_ends exg 104 6 5 in let g2 := fst (remove_edge g (RId 104)) in
  get_node_edges exord g (RId 4) DOut = Ret (GEdges [Edge 104 6 5 0]) /\ get_node_edges exord g (RId 6) DOut = Ret (GEdges []) /\
  snd (remove_edge g (RId 104)) = Ret (GEdge (Edge 104 6 5 0)) /\ get_successors exord g2 (RId 4) = Raise NotFoundError /\
  get_predecessors exord g2 (RId 5) = Ret (GNodes []) /\ snd (remove_node exord g2 (RId 4)) = Raise NotFoundError /\ set_ends exg 999 1 1 = exg.
Proof. repeat split. Qed.
