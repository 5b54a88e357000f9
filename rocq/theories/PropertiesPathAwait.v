(** Property C123: find_path while conditions are awaited. *)
From Coq Require Import List Bool Arith Lia Permutation.
From Verif Require Import PyBase PyFacts ModelProgression ModelGraph SpecGraph ProofsGraph ProofsGraphAlg ProofsGraphPath ModelPathAwait PropertiesGraph.
Import ListNotations.

(** Edge ids name edges: what is added under an id is always the same edge. *)
Definition by_id (E : uuid -> edge) (o : graph_op) : Prop := match o with GAddEdge e => E (e_id e) = e | _ => True end.
Definition nothing (o : graph_op) : Prop := False.

Section Sound.
  Variable ord : bool -> uuid -> list uuid -> list uuid.
  Hypothesis Hord : fair ord.
  Variable check : bool.
  Variable conditional : edge -> bool.
  Variable E : uuid -> edge.
  Variable start stop : uuid.

  Definition named (g : graph) : Prop := forall e, In e (m_edges (contents g)) -> E (e_id e) = e.

  Lemma named_dget g u e : Inv g -> named g -> dget u (g_edges g) = Some e -> E u = e /\ In e (m_edges (contents g)).
  Proof.
    intros HI N D. assert (In e (m_edges (contents g))) as I by (apply In_edges; [exact HI|eauto]).
    pose proof (i_id _ HI _ _ D) as Q. rewrite <- Q. split; [apply N, I|exact I].
  Qed.
  Lemma graph_env g o : Inv g -> named g -> by_id E o -> Inv (fst (graph_step ord g o)) /\ named (fst (graph_step ord g o)).
  Proof.
    intros HI N B. pose proof (graph_step_refines ord Hord g o HI) as R. destruct (graph_step ord g o) as [g' a].
    destruct (mstep (contents g) o) as [m b] eqn:M. destruct R as (HI' & C & _). cbn [fst]. split; [exact HI'|].
    unfold named. rewrite C. intros e I.
    destruct o; cbn [mstep] in M;
      repeat match type of M with
             | context [match ?x with _ => _ end] => destruct x eqn:?; try discriminate M
             end; injection M as <- _; cbn [m_edges] in I; try (apply N; exact I);
      try (apply filter_In in I as [I _]; apply N; exact I).
    apply in_app_or in I as [I|[<-|[]]]; [apply N, I|exact B].
  Qed.

  (** How the table of parents has grown: each node reached from one reached earlier, by an edge that passed. *)
  Inductive grown (log : list (edge * outcome bool)) : dict uuid (uuid * uuid) -> Prop :=
  | gr_nil : grown log []
  | gr_snoc par n p u : grown log par -> ~ In n (start :: dkeys par) -> In p (start :: dkeys par) ->
      e_head (E u) = p -> e_tail (E u) = n -> (check = true -> In (E u, Ret true) log) -> grown log (par ++ [(n, (p, u))]).
  Lemma grown_more log x par : grown log par -> grown (log ++ [x]) par.
  Proof. induction 1; constructor; auto. intros C. apply in_or_app. auto. Qed.
  Lemma dkeys_app {V} (d d' : dict uuid V) : dkeys (d ++ d') = dkeys d ++ dkeys d'.
  Proof. apply map_app. Qed.
  Lemma grown_NoDup log par : grown log par -> NoDup (start :: dkeys par).
  Proof.
    induction 1 as [|par n p u G IH N]; [repeat constructor; intros []|].
    rewrite dkeys_app. cbn [dkeys map fst]. change (start :: dkeys par ++ [n]) with ((start :: dkeys par) ++ [n]).
    eapply Permutation_NoDup; [apply Permutation_cons_append|]. constructor; assumption.
  Qed.
  Definition passed (log : list (edge * outcome bool)) (e : edge) : Prop := check = true -> In (e, Ret true) log.
  Inductive path (g : graph) (log : list (edge * outcome bool)) : uuid -> list edge -> uuid -> Prop :=
  | pa_nil a : path g log a [] a
  | pa_snoc a es b e : path g log a es b -> In e (m_edges (contents g)) -> passed log e -> e_head e = b ->
      path g log a (es ++ [e]) (e_tail e).
  Lemma rebuild_grown g log full : Inv g -> named g -> forall par rest, grown log par -> full = par ++ rest -> NoDup (start :: dkeys full) ->
    forall v fuel acc, In v (start :: dkeys par) -> length par <= fuel ->
    (exists es, rebuild fuel g full v acc = Ret (es ++ acc) /\ path g log start es v) \/ rebuild fuel g full v acc = Raise NotFoundError.
  Proof.
    intros HI NM par rest G. revert rest. induction G as [|par n p u G IH N P H T L]; intros rest F ND v fuel acc I Le.
    - destruct I as [<-|[]]. left. exists []. split; [|constructor].
      assert (dget start full = None) as D by (apply dget_None; inversion ND; assumption).
      destruct fuel; cbn [rebuild]; rewrite D; reflexivity.
    - assert (Q : full = par ++ ((n, (p, u)) :: rest)) by (rewrite F, <- app_assoc; reflexivity).
      assert (Dn : dget n full = Some (p, u)).
      { apply In_dget; [inversion ND; assumption|]. rewrite Q. apply in_or_app. right. left. reflexivity. }
      rewrite app_length in Le. cbn in Le.
      assert (In v (start :: dkeys par) \/ v = n) as [J| ->].
      { destruct I as [<-|I]; [left; left; reflexivity|]. rewrite dkeys_app in I. apply in_app_or in I as [I|[<-|[]]]; [left; right; exact I|auto]. }
      + apply (IH _ Q ND v fuel acc J). lia.
      + destruct fuel as [|f]; [lia|]. cbn [rebuild]. rewrite Dn. destruct (dget u (g_edges g)) as [e|] eqn:D; [|right; reflexivity].
        destruct (named_dget g u e HI NM D) as [<- Ie].
        destruct (IH _ Q ND p f (E u :: acc) P ltac:(lia)) as [(es & R & W)|R]; [|right; exact R].
        left. exists (es ++ [E u]). rewrite R, <- app_assoc. split; [reflexivity|]. rewrite <- T. econstructor; eauto.
  Qed.
  Lemma path_walk g log a es b : path g log a es b -> walk (contents g) any_edge a es b /\ forall e, In e es -> passed log e.
  Proof.
    induction 1 as [|a es b e P [W A] I S Hd]; [split; [constructor|intros e []]|]. split.
    - assert (X : forall x l y, walk (contents g) any_edge x l y -> y = e_head e -> walk (contents g) any_edge x (l ++ [e]) (e_tail e)).
      { induction 1 as [x|x e1 l y J O Hx W' IH]; intros Y; cbn [app].
        - subst x. apply walk_cons; [exact I|reflexivity|reflexivity|constructor].
        - apply walk_cons; auto. }
      apply (X a es b W). congruence.
    - intros e' J. apply in_app_or in J as [J|[<-|[]]]; auto.
  Qed.

  Definition pcinv (c : fcfg) : Prop :=
    match f_pc c with
    | FNext => True
    | FLoop cur n al to rest =>
        In cur (f_vis c) /\ (al = true -> to = false -> exists s, dget cur (g_out (f_g c)) = Some s /\ incl rest s)
    | FAsk cur n al to rest u e =>
        In cur (f_vis c) /\ (al = true -> to = false -> exists s, dget cur (g_out (f_g c)) = Some s /\ incl rest s) /\
        ~ In (e_tail e) (f_vis c) /\ E u = e /\ e_head e = cur
    | FDone (Ret (Some es)) => walk (contents (f_g c)) any_edge start es stop /\ forall e, In e es -> passed (f_log c) e
    | FDone (Ret None) => True
    | FDone (Raise x) => In x [NotFoundError; KeyError; RuntimeError] \/ exists e, In (e, Raise x) (f_log c)
    end.
  Record finv (c : fcfg) : Prop := {
    v_inv : Inv (f_g c);
    v_named : named (f_g c);
    v_par : grown (f_log c) (f_par c);
    v_vis : forall v, In v (f_vis c) <-> In v (start :: dkeys (f_par c));
    v_q : incl (f_q c) (f_vis c);
    v_pc : pcinv c
  }.
  Lemma finv_take q par vis log cur u log' : grown log par -> (forall v, In v vis <-> In v (start :: dkeys par)) -> incl q vis -> In cur vis ->
    ~ In (e_tail (E u)) vis -> e_head (E u) = cur -> (forall l, grown log l -> grown log' l) -> (check = true -> In (E u, Ret true) log') ->
    grown log' (dset (e_tail (E u)) (cur, u) par) /\
    (forall v, In v (sadd (e_tail (E u)) vis) <-> In v (start :: dkeys (dset (e_tail (E u)) (cur, u) par))) /\
    incl (q ++ [e_tail (E u)]) (sadd (e_tail (E u)) vis) /\ incl vis (sadd (e_tail (E u)) vis).
  Proof.
    intros G V Q C N H M L.
    assert (Nk : ~ In (e_tail (E u)) (dkeys par)) by (intros X; apply N, V; right; exact X).
    rewrite dkeys_dset_notin by exact Nk. split; [apply gr_snoc; auto; rewrite <- V; auto|]. split.
    { intros v. rewrite sadd_In, V, dkeys_app. cbn [In dkeys map fst]. rewrite in_app_iff. cbn [In]. intuition congruence. }
    split.
    - intros v I. apply sadd_In. apply in_app_or in I as [I|[<-|[]]]; auto.
    - intros v I. apply sadd_In. auto.
  Qed.
  Lemma finv_step c d : finv c -> fstep ord check conditional (by_id E) stop c d -> finv d.
  Proof.
    intros [HI HN HG HV HQ HP] S. destruct S; cbn [f_g f_q f_par f_vis f_log f_pc] in *; unfold pcinv in HP; cbn [f_g f_q f_par f_vis f_log f_pc] in HP.
    - constructor; auto; exact Logic.I.
    - constructor; auto; [intros v I; apply HQ; right; exact I|].
      unfold pcinv. cbn [f_pc f_g f_log].
      destruct (rebuild_grown g log par HI HN par [] HG (eq_sym (app_nil_r par)) (grown_NoDup _ _ HG) stop (length par) []) as [(es & R & W)|R];
        [apply HV, HQ; left; reflexivity|lia| |]; rewrite R.
      + rewrite app_nil_r. apply path_walk. exact W.
      + left. left. reflexivity.
    - constructor; auto; [intros v I; apply HQ; right; exact I|]. left. right. left. reflexivity.
    - constructor; auto; [intros v I; apply HQ; right; exact I|]. split; [apply HQ; left; reflexivity|].
      intros _ _. exists s. split; [assumption|]. intros u I. eapply ord_In; eauto.
    - constructor; auto. left. right. right. left. reflexivity.
    - constructor; auto. split; [apply HP|]. intros _ _. eauto.
    - constructor; auto; exact Logic.I.
    - constructor; auto. left. left. reflexivity.
    - destruct HP as [C R]. constructor; auto. split; [exact C|]. intros _ _.
      destruct (R eq_refl eq_refl) as (s' & D & I). exists s'. split; [exact D|]. intros v J. apply I. right. exact J.
    - destruct HP as [C R]. destruct (R eq_refl eq_refl) as (s' & D & I).
      destruct (named_dget g u e HI HN H1) as [<- Ie].
      assert (e_head (E u) = cur) as Hh.
      { destruct (i_out _ HI _ _ D) as [_ Z]. destruct (proj1 (Z u)) as (e' & D' & Q); [apply I; left; reflexivity|]. congruence. }
      destruct (finv_take q par vis log cur u log HG HV HQ C H2 Hh) as (A1 & A2 & A3 & A4); [auto|intros X; congruence|].
      constructor; cbn; auto. split; [apply A4, C|]. intros _ _. exists s'. split; [exact D|]. intros v J. apply I. right. exact J.
    - destruct HP as [C R]. destruct (R eq_refl eq_refl) as (s' & D & I).
      destruct (named_dget g u e HI HN H1) as [Q Ie].
      assert (e_head e = cur) as Hh.
      { destruct (i_out _ HI _ _ D) as [_ Z]. destruct (proj1 (Z u)) as (e' & D' & Q'); [apply I; left; reflexivity|]. congruence. }
      constructor; auto. split; [exact C|]. split; [|auto].
      intros _ _. exists s'. split; [exact D|]. intros v J. apply I. right. exact J.
    - destruct (graph_env g o HI HN H0) as [HI' HN']. destruct HP as (C & R & T & Q & Hh). constructor; auto.
      split; [exact C|]. split; [|auto]. intros A B. apply andb_true_iff in A as [A1 A2]. apply orb_false_iff in B as [B1 B2].
      destruct (R A1 B1) as (s' & D & I). cbn [f_g]. fold g' in A2, B2 |- *. unfold same_set in B2. rewrite D in B2.
      destruct (dget cur (g_out g')) as [s2|]; [|discriminate]. apply negb_false_iff, andb_true_iff in B2 as [B2 _].
      exists s2. split; [reflexivity|]. intros v J. rewrite forallb_forall in B2. apply memb_In, B2, I, J.
    - constructor; auto; [apply grown_more; assumption|]. right. exists e. apply in_or_app. right. left. reflexivity.
    - destruct HP as (C & R & _). constructor; auto; [apply grown_more; assumption|]. split; [exact C|exact R].
    - destruct HP as (C & R & T & <- & Hh).
      destruct (finv_take q par vis log cur u (log ++ [(E u, Ret true)]) HG HV HQ C T Hh) as (A1 & A2 & A3 & A4);
        [intros l; apply grown_more|intros _; apply in_or_app; right; left; reflexivity|].
      constructor; auto; split; [apply A4, C|exact R].
  Qed.
  Lemma finv_runs P c d : fruns ord check conditional (by_id E) stop P c d -> finv c -> finv d.
  Proof. induction 1; intros H2; [exact H2|]. apply IHfruns. eapply finv_step; eauto. Qed.
  Lemma finv_init g : Inv g -> named g -> finv (finit g start stop).
  Proof.
    intros HI HN. constructor; cbn; auto; [constructor|intros v; reflexivity|intros v I; exact I|].
    unfold pcinv. cbn. destruct (_ || _); [left; left; reflexivity|exact Logic.I].
  Qed.

  (** From a node to itself nothing is awaited. *)
  Definition at_once (g : graph) (c : fcfg) : Prop :=
    f_g c = g /\
    match f_pc c with
    | FNext => f_q c = [start] /\ dmem start (g_nodes g) = true
    | FDone (Ret _) => dmem start (g_nodes g) = true
    | FDone (Raise _) => True
    | _ => False
    end.
  Lemma at_once_runs P g c d : start = stop -> fruns ord check conditional (by_id E) stop P c d -> at_once g c -> at_once g d.
  Proof.
    intros Q. induction 1 as [|c d e _ S _ IH]; intros A; [exact A|]. apply IH. clear IH. destruct A as [A B].
    destruct S; cbn [f_g f_q f_par f_vis f_log f_pc] in *; subst g; try contradiction; destruct B as [B B'].
    - discriminate B.
    - split; [reflexivity|]. cbn. destruct (rebuild _ _ _ _ _); [exact B'|exact Logic.I].
    - injection B as -> ->. contradiction.
    - injection B as -> ->. contradiction.
  Qed.

  (** ** C123 *)
  (** Whatever other tasks do to the graph while conditions are awaited: a path that is returned is a path of the
      graph as it is then, between stored nodes, and every edge on it has passed its check. *)
  Theorem C123_sound P g c es : greachable ord g -> named g -> fruns ord check conditional (by_id E) stop P (finit g start stop) c ->
    f_pc c = FDone (Ret (Some es)) ->
    walk (contents (f_g c)) any_edge start es stop /\ (check = true -> forall e, In e es -> In (e, Ret true) (f_log c)) /\
    has_node (contents (f_g c)) start = true /\ has_node (contents (f_g c)) stop = true.
  Proof.
    intros R N H Q. pose proof (finv_runs P _ _ H (finv_init g (greachable_Inv ord Hord g R) N)) as [HI HN _ _ _ HP].
    unfold pcinv in HP. rewrite Q in HP. destruct HP as [W A]. split; [exact W|]. split; [intros Ck e I; apply (A e I Ck)|].
    rewrite !has_node_dmem, !dmem_true.
    assert (En : forall e, In e (m_edges (contents (f_g c))) -> In (e_head e) (dkeys (g_nodes (f_g c))) /\ In (e_tail e) (dkeys (g_nodes (f_g c)))).
    { intros e I. apply In_edges in I as [u D]; [|exact HI]. apply (i_end _ HI u e D). }
    destruct es as [|e0 es0].
    { assert (start = stop) as Z by (inversion W; reflexivity). assert (at_once g c) as [G B].
      { apply (at_once_runs P g (finit g start stop) c Z H). split; [reflexivity|]. cbn. rewrite <- Z. destruct (dmem start (g_nodes g)); cbn; auto. }
      rewrite Q in B. rewrite G, <- Z. apply dmem_true in B. split; exact B. }
    assert (Ne : e0 :: es0 <> []) by discriminate. revert W Ne. generalize (e0 :: es0). clear A Q H es0 e0. intros es W Ne. revert Ne. generalize dependent start. induction es as [|e es IH]; intros st W Ne; [contradiction|].
    inversion W as [|x e' es' y I _ Hh W']; subst. split; [apply En, I|]. destruct es as [|e2 es2]; [inversion W'; subst; apply En, I|].
    eapply IH; [exact W'|discriminate].
  Qed.
  (** Errors: those of a condition, or NotFoundError, KeyError and RuntimeError. *)
  Theorem C123_errors P g c x : greachable ord g -> named g -> fruns ord check conditional (by_id E) stop P (finit g start stop) c ->
    f_pc c = FDone (Raise x) -> In x [NotFoundError; KeyError; RuntimeError] \/ exists e, In (e, Raise x) (f_log c).
  Proof.
    intros R N H Q. pose proof (finv_runs P _ _ H (finv_init g (greachable_Inv ord Hord g R) N)) as [_ _ _ _ _ HP].
    unfold pcinv in HP. rewrite Q in HP. exact HP.
  Qed.
End Sound.

Print Assumptions C123_sound.
Print Assumptions C123_errors.

Section Quiet.
  Variable ord : bool -> uuid -> list uuid -> list uuid.
  Hypothesis Hord : fair ord.
  Variable check : bool.
  Variable conditional cond : edge -> bool.
  Variable g : graph.
  Variable start stop : uuid.
  Let V := find_path ord check cond g (RId start) (RId stop).
  Definition then_bfs k (r : outcome (list uuid * dict uuid (uuid * uuid) * list uuid)) : outcome (option (list edge)) :=
    match r with Raise x => Raise x | Ret (q, p, v) => bfs ord check cond k g stop q p v end.
  Definition ahead (c : fcfg) : Prop :=
    f_g c = g /\
    ((exists e x, In (e, Raise x) (f_log c) /\ f_pc c = FDone (Raise x)) \/ (exists e b, In (e, Ret b) (f_log c) /\ b <> cond e) \/
    match f_pc c with
    | FNext => exists k, V = bfs ord check cond k g stop (f_q c) (f_par c) (f_vis c)
    | FLoop cur n al to rest => al = true /\ to = false /\ (exists s, dget cur (g_out g) = Some s /\ length s = n) /\
        exists k, V = then_bfs k (expand check cond g cur rest (f_q c) (f_par c) (f_vis c))
    | FAsk cur n al to rest u e => al = true /\ to = false /\ (exists s, dget cur (g_out g) = Some s /\ length s = n) /\
        dget u (g_edges g) = Some e /\ ~ In (e_tail e) (f_vis c) /\ check = true /\
        exists k, V = then_bfs k (expand check cond g cur (u :: rest) (f_q c) (f_par c) (f_vis c))
    | FDone r => V = r
    end).
  Hypothesis Hg : greachable ord g.
  Lemma V_good : V <> Raise OtherErr.
  Proof.
    pose proof (C21_find_path ord g check cond start stop Hord Hg) as H. fold V in H. intros X. rewrite X in H.
    destruct H as [H _]. discriminate H.
  Qed.
  Lemma ahead_step c d : ahead c -> fstep ord check conditional nothing stop c d -> ahead d.
  Proof.
    intros [G A] S. destruct S; cbn [f_g f_q f_par f_vis f_log f_pc] in *; subst g0;
      try contradiction; (split; [reflexivity|]);
      (destruct A as [(e0 & x0 & I0 & P0)|[(e0 & b0 & I0 & P0)|A]];
       [cbn [f_pc] in P0; discriminate P0|right; left; exists e0, b0; split; [try (apply in_or_app; left); exact I0|exact P0]|]); cbn [f_g f_q f_par f_vis f_log f_pc] in *.
    - right. right. destruct A as [[|k] ->]; reflexivity.
    - right. right. destruct A as [[|k] ->]; cbn [bfs]; rewrite Nat.eqb_refl; reflexivity.
    - right. right. destruct A as [[|k] Q]; cbn [bfs] in Q; rewrite (proj2 (Nat.eqb_neq _ _) H) in Q; [destruct (V_good Q)|]. rewrite H0 in Q. exact Q.
    - right. right. destruct A as [[|k] Q]; cbn [bfs] in Q; rewrite (proj2 (Nat.eqb_neq _ _) H) in Q; [destruct (V_good Q)|]. rewrite H0 in Q.
      split; [reflexivity|]. split; [reflexivity|]. split; [eauto|]. exists k. exact Q.
    - destruct A as (-> & -> & (s & D & Q) & _). destruct H as [H|H]; [discriminate|]. destruct (H s D Q).
    - destruct A as (_ & X & _). discriminate X.
    - right. right. destruct A as (_ & _ & _ & k & Q). exists k. exact Q.
    - right. right. destruct A as (_ & _ & _ & k & Q). cbn [expand] in Q. rewrite H1 in Q. exact Q.
    - right. right. destruct A as (A1 & A2 & A3 & k & Q). cbn [expand] in Q. rewrite H1, (proj2 (memb_In _ _) H2) in Q. exact (conj A1 (conj A2 (conj A3 (ex_intro _ k Q)))).
    - right. right. destruct A as (A1 & A2 & A3 & k & Q). cbn [expand] in Q. assert (check && negb (cond e) = false) as Z by (rewrite H3; reflexivity).
      rewrite H1, (proj2 (memb_notIn _ _) H2), Z in Q. exact (conj A1 (conj A2 (conj A3 (ex_intro _ k Q)))).
    - right. right. destruct A as (A1 & A2 & A3 & k & Q). exact (conj A1 (conj A2 (conj A3 (conj H1 (conj H2 (conj H3 (ex_intro _ k Q))))))). 
    - left. exists e, x. split; [apply in_or_app; right; left; reflexivity|reflexivity].
    - destruct A as (A1 & A2 & A3 & D & N & C & k & Q). cbn [expand] in Q.
      destruct (Bool.bool_dec (cond e) false) as [B|B].
      + right. right. assert (check && negb (cond e) = true) as Z by (rewrite C, B; reflexivity).
        rewrite D, (proj2 (memb_notIn _ _) N), Z in Q. exact (conj A1 (conj A2 (conj A3 (ex_intro _ k Q)))).
      + right. left. exists e, false. split; [apply in_or_app; right; left; reflexivity|congruence].
    - destruct A as (A1 & A2 & A3 & D & N & C & k & Q). cbn [expand] in Q.
      destruct (Bool.bool_dec (cond e) true) as [B|B].
      + right. right. assert (check && negb (cond e) = false) as Z by (rewrite C, B; reflexivity).
        rewrite D, (proj2 (memb_notIn _ _) N), Z in Q. exact (conj A1 (conj A2 (conj A3 (ex_intro _ k Q)))).
      + right. left. exists e, true. split; [apply in_or_app; right; left; reflexivity|congruence].
  Qed.
  Lemma ahead_runs P c d : fruns ord check conditional nothing stop P c d -> ahead c -> ahead d.
  Proof. induction 1; intros A; [exact A|]. apply IHfruns. eapply ahead_step; eauto. Qed.

  (** When nothing else changes the graph and the conditions answer as [cond] says, the answer is the one of
      [C21_find_path] (a shortest path, or None when there is none), or the exception of a condition. *)
  Theorem C123_quiet P c r : fruns ord check conditional nothing stop P (finit g start stop) c -> f_pc c = FDone r ->
    (forall e b, In (e, Ret b) (f_log c) -> b = cond e) ->
    r = find_path ord check cond g (RId start) (RId stop) \/ exists e x, r = Raise x /\ In (e, Raise x) (f_log c).
  Proof.
    intros R Q L. destruct (ahead_runs P _ _ R) as [_ [(e & x & I & H)|[(e & b & I & H)|H]]].
    - split; [reflexivity|]. right. right. cbn [f_pc finit].
      destruct (negb (dmem start (g_nodes g)) || negb (dmem stop (g_nodes g))) eqn:D.
      + unfold V, find_path. cbn. rewrite D. reflexivity.
      + exists (length (g_nodes g)). unfold V, find_path. cbn. rewrite D. reflexivity.
    - right. exists e, x. split; [congruence|exact I].
    - destruct (H (L e b I)).
    - left. rewrite Q in H. symmetry. exact H.
  Qed.
End Quiet.
Print Assumptions C123_quiet.

Section Shrinking.
  Variable ord : bool -> uuid -> list uuid -> list uuid.
  Hypothesis Hord : fair ord.
  Variable check : bool.
  Variable conditional : edge -> bool.
  Variable start stop : uuid.
  (** Other tasks add no edge. *)
  Definition no_edge_added (o : graph_op) : Prop := match o with GAddEdge _ => False | _ => True end.

  Lemma shrink_env g o : Inv g -> no_edge_added o ->
    Inv (fst (graph_step ord g o)) /\ incl (m_edges (contents (fst (graph_step ord g o)))) (m_edges (contents g)).
  Proof.
    intros HI B. pose proof (graph_step_refines ord Hord g o HI) as R. destruct (graph_step ord g o) as [g' a].
    destruct (mstep (contents g) o) as [m b] eqn:M. destruct R as (HI' & C & _). cbn [fst]. split; [exact HI'|].
    rewrite C. intros e I.
    destruct o; cbn [mstep] in M; try contradiction;
      repeat match type of M with
             | context [match ?x with _ => _ end] => destruct x eqn:?; try discriminate M
             end; injection M as <- _; cbn [m_edges] in I; try exact I;
      try (apply filter_In in I as [I _]; exact I).
  Qed.
  Lemma shrink_set g g' cur s s' : Inv g -> Inv g' -> incl (m_edges (contents g')) (m_edges (contents g)) ->
    dget cur (g_out g) = Some s -> dget cur (g_out g') = Some s' -> incl s' s.
  Proof.
    intros HI HI' L D D' u I. destruct (i_out _ HI' _ _ D') as [_ Z]. apply Z in I as (e & De & He).
    destruct (i_out _ HI _ _ D) as [_ Y]. apply Y. exists e. split; [|exact He].
    assert (In e (m_edges (contents g))) as J by (apply L, In_edges; [exact HI'|eauto]).
    apply In_edges in J as [v J]; [|exact HI]. pose proof (i_id _ HI _ _ J). pose proof (i_id _ HI' _ _ De). congruence.
  Qed.

  (** The edges at [v] have been dealt with, except those in [left]. *)
  Definition dealt (c : fcfg) (v : uuid) (left : edge -> Prop) : Prop :=
    forall e, In e (m_edges (contents (f_g c))) -> e_head e = v -> In (e_tail e) (f_vis c) \/ In (e, Ret false) (f_log c) \/ left e.
  Definition lazily (c : fcfg) (cur : uuid) (n : nat) (al to : bool) (left : edge -> Prop) : Prop :=
    cur <> stop /\
    (al = true -> exists s, dget cur (g_out (f_g c)) = Some s /\ if to then length s < n else length s = n) /\
    (al = true -> to = false -> dealt c cur left) /\
    forall v, In v (f_vis c) -> v = cur \/ In v (f_q c) \/ v <> stop /\ dealt c v (fun _ => False).
  Definition closing (c : fcfg) : Prop :=
    Inv (f_g c) /\ In start (f_vis c) /\
    match f_pc c with
    | FNext | FDone (Ret None) => (f_pc c <> FNext -> f_q c = []) /\ forall v, In v (f_vis c) -> In v (f_q c) \/ v <> stop /\ dealt c v (fun _ => False)
    | FLoop cur n al to rest => lazily c cur n al to (fun e => In (e_id e) rest)
    | FAsk cur n al to rest u e => lazily c cur n al to (fun e' => e' = e \/ In (e_id e') rest)
    | FDone _ => True
    end.
  Lemma dealt_more c d v (l l' : edge -> Prop) : dealt c v l -> incl (m_edges (contents (f_g d))) (m_edges (contents (f_g c))) ->
    incl (f_vis c) (f_vis d) -> incl (f_log c) (f_log d) ->
    (forall e, l e -> l' e \/ In (e_tail e) (f_vis d) \/ In (e, Ret false) (f_log d)) -> dealt d v l'.
  Proof. intros D G V L X e I H. destruct (D e (G e I) H) as [A|[A|A]]; auto. destruct (X e A) as [B|[B|B]]; auto. Qed.
  Lemma edge_of g e u e' : Inv g -> dget u (g_edges g) = Some e -> In e' (m_edges (contents g)) -> e_id e' = u -> e' = e.
  Proof. intros HI D I Q. apply In_edges in I as [v J]; [|exact HI]. pose proof (i_id _ HI _ _ J). congruence. Qed.
  Lemma closing_step c d : closing c -> fstep ord check conditional no_edge_added stop c d -> closing d.
  Proof.
    intros (HI & HS & HP) S. destruct S; cbn [f_g f_q f_par f_vis f_log f_pc] in *.
    - split; [exact HI|]. split; [exact HS|]. split; [reflexivity|]. apply HP.
    - split; [exact HI|]. split; [exact HS|]. cbn [f_pc]. destruct (rebuild _ _ _ _ _); exact Logic.I.
    - split; [exact HI|]. split; [exact HS|]. exact Logic.I.
    - split; [exact HI|]. split; [exact HS|]. split; [assumption|]. cbn [f_g f_vis f_q]. split; [eauto|]. split.
      + intros _ _ e I Q. right. right. apply (ord_In ord Hord), (i_out _ HI _ _ H0). exists e. split; [|exact Q].
        cbn [f_g] in I. apply In_edges in I as [v J]; [|exact HI]. rewrite (i_id _ HI _ _ J). exact J.
      + intros v I. destruct HP as [_ HP]. destruct (HP v I) as [[A|A]|A]; auto.
    - split; [exact HI|]. split; [exact HS|]. exact Logic.I.
    - exfalso. destruct HP as (_ & A & _). destruct (A eq_refl) as (s' & D & Q). cbn [f_g] in D. rewrite H in D. injection D as <-. lia.
    - split; [exact HI|]. split; [exact HS|]. destruct HP as (A1 & A2 & A3 & A4). split; [intros X; destruct (X eq_refl)|].
      intros v I. destruct (A4 v I) as [->|[A|A]]; [|left; exact A|right; exact A]. right. split; [exact A1|].
      exact (A3 eq_refl eq_refl).
    - split; [exact HI|]. split; [exact HS|]. exact Logic.I.
    - split; [exact HI|]. split; [exact HS|]. destruct HP as (A1 & A2 & A3 & A4). split; [exact A1|]. split; [exact A2|]. split; [|exact A4].
      intros _ _ e' I Q. destruct (A3 eq_refl eq_refl e' I Q) as [A|[A|[A|A]]]; [auto|auto| |auto].
      left. rewrite (edge_of g e u e' HI H1 I (eq_sym A)). exact H2.
    - split; [exact HI|]. split; [apply sadd_In; right; exact HS|]. destruct HP as (A1 & A2 & A3 & A4). split; [exact A1|]. split; [exact A2|]. split.
      + intros _ _ e' I Q. destruct (A3 eq_refl eq_refl e' I Q) as [A|[A|[A|A]]]; [left; apply sadd_In; auto|auto| |auto].
        left. apply sadd_In. left. rewrite (edge_of g e u e' HI H1 I (eq_sym A)). reflexivity.
      + intros v I. cbn [f_vis f_q] in *. apply sadd_In in I as [->|I]; [right; left; apply in_or_app; right; left; reflexivity|].
        destruct (A4 v I) as [A|[A|[A B]]]; [auto|right; left; apply in_or_app; auto|]. right. right. split; [exact A|].
        eapply dealt_more; [exact B|apply incl_refl| |apply incl_refl|auto]. intros w J. apply sadd_In. auto.
    - split; [exact HI|]. split; [exact HS|]. destruct HP as (A1 & A2 & A3 & A4). split; [exact A1|]. split; [exact A2|]. split; [|exact A4].
      intros _ _ e' I Q. destruct (A3 eq_refl eq_refl e' I Q) as [A|[A|[A|A]]]; [auto|auto| |auto].
      right. right. left. exact (edge_of g e u e' HI H1 I (eq_sym A)).
    - destruct (shrink_env g o HI H0) as [HI' L]. fold g' in HI', L. destruct HP as (A1 & A2 & A3 & A4).
      split; [exact HI'|]. split; [exact HS|]. cbn [f_pc f_g]. split; [exact A1|]. cbn [f_g]. split; [|split].
      + intros A. apply andb_true_iff in A as [-> B]. destruct (A2 eq_refl) as (s & D & Q). cbn [f_g] in D.
        apply dmem_true in B. destruct (dget cur (g_out g')) as [s'|] eqn:D'; [|apply dget_None in D'; contradiction].
        exists s'. split; [reflexivity|]. rewrite D. cbn [same_set].
        pose proof (shrink_set g g' cur s s' HI HI' L D D') as I. destruct (i_out _ HI _ _ D) as [N _]. destruct (i_out _ HI' _ _ D') as [N' _].
        pose proof (NoDup_incl_length N' I) as Le.
        destruct to; cbn [orb]; [lia|].
        destruct (forallb (fun u0 => memb u0 s') s && forallb (fun u0 => memb u0 s) s') eqn:F; cbn [negb].
        * apply andb_true_iff in F as [F _]. rewrite forallb_forall in F.
          assert (incl s s') as J by (intros w J; apply memb_In, F, J). pose proof (NoDup_incl_length N J). lia.
        * assert (~ incl s s') as J.
          { intros J. apply andb_false_iff in F as [F|F]; apply not_true_iff_false in F; apply F, forallb_forall; intros w K; apply memb_In; auto. }
          assert (~ length s <= length s') as K by (intros K; apply J; apply NoDup_length_incl; assumption). lia.
      + intros A B. apply andb_true_iff in A as [-> _]. apply orb_false_iff in B as [-> _].
        eapply dealt_more; [exact (A3 eq_refl eq_refl)|exact L|apply incl_refl|apply incl_refl|auto].
      + intros v I. destruct (A4 v I) as [A|[A|[A B]]]; [auto|auto|]. right. right. split; [exact A|].
        eapply dealt_more; [exact B|exact L|apply incl_refl|apply incl_refl|auto].
    - split; [exact HI|]. split; [exact HS|]. exact Logic.I.
    - split; [exact HI|]. split; [exact HS|]. destruct HP as (A1 & A2 & A3 & A4). split; [exact A1|]. split; [exact A2|]. split.
      + intros A B. eapply dealt_more; [exact (A3 A B)|apply incl_refl|apply incl_refl|intros w J; apply in_or_app; auto|].
        intros e' [->|X]; [right; right; apply in_or_app; right; left; reflexivity|auto].
      + intros v I. destruct (A4 v I) as [A|[A|[A B]]]; [auto|auto|]. right. right. split; [exact A|].
        eapply dealt_more; [exact B|apply incl_refl|apply incl_refl|intros w J; apply in_or_app; auto|auto].
    - split; [exact HI|]. split; [apply sadd_In; right; exact HS|]. destruct HP as (A1 & A2 & A3 & A4). split; [exact A1|]. split; [exact A2|].
      assert (V : incl vis (sadd (e_tail e) vis)) by (intros w J; apply sadd_In; auto). split.
      + intros A B. eapply dealt_more; [exact (A3 A B)|apply incl_refl|exact V|intros w J; apply in_or_app; auto|].
        intros e' [->|X]; [right; left; apply sadd_In; auto|auto].
      + intros v I. cbn [f_vis f_q] in *. apply sadd_In in I as [->|I]; [right; left; apply in_or_app; right; left; reflexivity|].
        destruct (A4 v I) as [A|[A|[A B]]]; [auto|right; left; apply in_or_app; auto|]. right. right. split; [exact A|].
        eapply dealt_more; [exact B|apply incl_refl|exact V|intros w J; apply in_or_app; auto|auto].
  Qed.
  Lemma closing_runs P c d : fruns ord check conditional no_edge_added stop P c d -> closing c -> closing d.
  Proof. induction 1; intros A; [exact A|]. apply IHfruns. eapply closing_step; eauto. Qed.

  (** When other tasks add no edge, None says that every path there now is has an edge whose condition said no. *)
  Theorem C123_none P g c es : greachable ord g -> fruns ord check conditional no_edge_added stop P (finit g start stop) c ->
    f_pc c = FDone (Ret None) -> walk (contents (f_g c)) any_edge start es stop -> exists e, In e es /\ In (e, Ret false) (f_log c).
  Proof.
    intros R F Q W. destruct (closing_runs P _ _ F) as (_ & HS & HP).
    - split; [exact (greachable_Inv ord Hord g R)|]. split; [left; reflexivity|]. cbn [finit f_pc].
      destruct (_ || _); [exact Logic.I|]. split; [intros X; destruct (X eq_refl)|]. intros v I. left. exact I.
    - rewrite Q in HP. destruct HP as [Hq HP]. rewrite Hq in HP by discriminate. clear F Hq. revert HS.
      induction W as [a|a e es b I _ Hh W IH]; intros HS.
      + destruct (HP a HS) as [[]|[X _]]. destruct (X eq_refl).
      + destruct (HP a HS) as [[]|[_ D]]. destruct (D e I Hh) as [T|[T|[]]]; [|exists e; split; [left; reflexivity|exact T]].
        destruct (IH HP T) as (e' & J & K). exists e'. split; [right; exact J|exact K].
  Qed.
End Shrinking.
Print Assumptions C123_none.

(** ** What fails *)
Definition paw_nodes : dict uuid nat := [(1, 0); (2, 0); (3, 0); (4, 0); (5, 0)].
Definition paw_edges : dict uuid edge := [(10, Edge 10 1 2 0); (11, Edge 11 1 3 0); (12, Edge 12 2 5 1); (13, Edge 13 3 4 0)].
Definition paw := graph_new paw_nodes paw_edges.
Definition labelled (e : edge) : bool := negb (e_pay e =? 0).
Definition paw_E (u : uuid) : edge :=
  if u =? 14 then Edge 14 1 4 0 else if u =? 15 then Edge 15 2 4 0 else match dget u paw_edges with Some e => e | None => Edge u 0 0 0 end.
Example paw_ok : greachable exord paw /\ named paw_E paw.
Proof.
  split.
  - exists paw_nodes, paw_edges, []. split; [|reflexivity]. split; [|split; [|split]].
    + repeat (constructor; [simpl; intuition discriminate|]). constructor.
    + repeat (constructor; [simpl; intuition discriminate|]). constructor.
    + intros u e H. simpl in H. repeat (destruct H as [H|H]; [injection H as <- <-; reflexivity|]). destruct H.
    + simpl. intros e H. repeat destruct H as [<-|H]; simpl; intuition.
  - intros e I. cbn in I. repeat destruct I as [<-|I]; try reflexivity. destruct I.
Qed.
(** The five nodes stay stored and the end can be reached. *)
Definition connected (g : graph) : Prop := map (has_node (contents g)) [1; 2; 3; 4; 5] = repeat true 5 /\ exists es, walk (contents g) any_edge 1 es 4.
Definition no_condition_raised (c : fcfg) : Prop := forall e x, ~ In (e, Raise x) (f_log c).
Definition both_stored (g : graph) : Prop := has_node (contents g) 1 = true /\ has_node (contents g) 4 = true.
Ltac now_ := match goal with |- fruns _ _ _ _ _ _ ?c _ => let c' := eval vm_compute in c in change c with c' end.
Ltac side := first [reflexivity|discriminate|exact Logic.I|(cbn; intuition discriminate)|(cbn; tauto)].
Ltac stp P r := now_; eapply fr_step; [P|eapply r; side|].
Ltac conn := split; [reflexivity|]; first [solve [exists [Edge 11 1 3 0; Edge 13 3 4 0]; repeat (first [apply walk_nil|apply walk_cons; [cbn; tauto|reflexivity|reflexivity|]])]
                   |solve [exists [Edge 14 1 4 0]; repeat (first [apply walk_nil|apply walk_cons; [cbn; tauto|reflexivity|reflexivity|]])]].
Ltac both := split; reflexivity.
Ltac quietly := intros ? ?; cbn; intuition discriminate.

(** None is returned although the end can be reached at every moment. *)
Theorem C123_none_refuted : exists c, fruns exord true labelled (by_id paw_E) 4 connected (finit paw 1 4) c /\ f_pc c = FDone (Ret None).
Proof.
  eexists. split.
  - stp conn fs_open. stp conn fs_ask. stp conn fs_passed. stp conn fs_ask. stp conn fs_passed. stp conn fs_end.
    stp conn fs_open. stp conn fs_ask.
    now_; eapply fr_step; [conn|apply (fs_other _ _ _ _ _ _ _ _ _ _ _ _ _ _ _ _ _ (GAddEdge (Edge 14 1 4 0))); side|].
    now_; eapply fr_step; [conn|apply (fs_other _ _ _ _ _ _ _ _ _ _ _ _ _ _ _ _ _ (GRemEdge (RId 13))); side|].
    stp conn fs_passed. stp conn fs_end. stp conn fs_open. stp conn fs_end. stp conn fs_open. stp conn fs_end.
    stp conn fs_none. now_. apply fr_refl. conn.
  - reflexivity.
Qed.
Print Assumptions C123_none_refuted.


(** Connected throughout, an error: an edge is added at the node whose edges are being tried. *)
Theorem C123_raises_refuted :
  (exists c, fruns exord true labelled (by_id paw_E) 4 connected (finit paw 1 4) c /\ f_pc c = FDone (Raise RuntimeError) /\ no_condition_raised c) /\
  (exists c, fruns exord true labelled (by_id paw_E) 4 both_stored (finit paw 1 4) c /\ f_pc c = FDone (Raise KeyError) /\ no_condition_raised c) /\
  (exists c, fruns exord true labelled (by_id paw_E) 4 both_stored (finit paw 1 4) c /\ f_pc c = FDone (Raise NotFoundError) /\ no_condition_raised c).
Proof.
  split; [|split].
  - eexists. split.
    + stp conn fs_open. stp conn fs_ask. stp conn fs_passed. stp conn fs_ask. stp conn fs_passed. stp conn fs_end.
      stp conn fs_open. stp conn fs_ask.
      now_; eapply fr_step; [conn|apply (fs_other _ _ _ _ _ _ _ _ _ _ _ _ _ _ _ _ _ (GAddEdge (Edge 15 2 4 0))); side|].
      stp conn fs_passed. now_; eapply fr_step; [conn|eapply fs_size; right; intros s [= <-]; discriminate|].
      now_. apply fr_refl. conn.
    + split; [reflexivity|quietly].
  - eexists. split.
    + stp both fs_open. stp both fs_ask. stp both fs_passed. stp both fs_ask. stp both fs_passed. stp both fs_end.
      stp both fs_open. stp both fs_ask.
      now_; eapply fr_step; [both|apply (fs_other _ _ _ _ _ _ _ _ _ _ _ _ _ _ _ _ _ (GRemNode (RId 3))); side|].
      stp both fs_passed. stp both fs_end. stp both fs_gone. now_. apply fr_refl. both.
    + split; [reflexivity|quietly].
  - eexists. split.
    + stp both fs_open. stp both fs_ask. stp both fs_passed. stp both fs_ask. stp both fs_passed. stp both fs_end.
      stp both fs_open. stp both fs_ask.
      now_; eapply fr_step; [both|apply (fs_other _ _ _ _ _ _ _ _ _ _ _ _ _ _ _ _ _ (GRemEdge (RId 11))); side|].
      stp both fs_passed. stp both fs_end. stp both fs_open. stp both fs_ask. stp both fs_passed. stp both fs_end.
      stp both fs_open. stp both fs_end. stp both fs_found. now_. apply fr_refl. both.
    + split; [reflexivity|quietly].
Qed.
Print Assumptions C123_raises_refuted.

(** With an id used again for another edge, what is returned need not be a path. *)
Definition reuse := graph_new [(1, 0); (2, 0); (3, 0)] [(10, Edge 10 1 2 0); (11, Edge 11 2 3 1)].
Definition any_graph (g : graph) : Prop := True.
Definition any_op (o : graph_op) : Prop := True.
Ltac anyg := exact Logic.I.
Theorem C123_reused_refuted : exists c es, fruns exord true labelled any_op 3 any_graph (finit reuse 1 3) c /\
  f_pc c = FDone (Ret (Some es)) /\ ~ walk (contents (f_g c)) any_edge 1 es 3.
Proof.
  eexists. exists [Edge 10 1 3 0; Edge 11 2 3 1]. split; [|split].
  - stp anyg fs_open. stp anyg fs_ask. stp anyg fs_passed. stp anyg fs_end. stp anyg fs_open. stp anyg fs_ask.
    now_; eapply fr_step; [anyg|apply (fs_other _ _ _ _ _ _ _ _ _ _ _ _ _ _ _ _ _ (GRemEdge (RId 10))); side|].
    now_; eapply fr_step; [anyg|apply (fs_other _ _ _ _ _ _ _ _ _ _ _ _ _ _ _ _ _ (GAddEdge (Edge 10 1 3 0))); side|].
    stp anyg fs_passed. stp anyg fs_end. stp anyg fs_found. now_. apply fr_refl. anyg.
  - reflexivity.
  - intros W. inversion W; subst. match goal with H : walk _ _ _ [_] _ |- _ => inversion H; subst end. discriminate.
Qed.
Print Assumptions C123_reused_refuted.

(** A path found while a shorter one is being added elsewhere; a run with a condition that refuses. *)
Example C123_ex_found : exists c, fruns exord true labelled (by_id paw_E) 4 connected (finit paw 1 4) c /\
  f_pc c = FDone (Ret (Some [Edge 11 1 3 0; Edge 13 3 4 0])).
Proof.
  eexists. split.
  - stp conn fs_open. stp conn fs_ask. stp conn fs_passed. stp conn fs_ask. stp conn fs_passed. stp conn fs_end.
    stp conn fs_open. stp conn fs_ask.
    now_; eapply fr_step; [conn|apply (fs_other _ _ _ _ _ _ _ _ _ _ _ _ _ _ _ _ _ (GAddEdge (Edge 14 1 4 0))); side|].
    stp conn fs_refused. stp conn fs_end. stp conn fs_open. stp conn fs_ask. stp conn fs_passed. stp conn fs_end.
    stp conn fs_found. now_. apply fr_refl. conn.
  - reflexivity.
Qed.

(** An edge is removed and a condition says no: None, and the path that is left contains the refused edge. *)
Example C123_ex_none : exists c, fruns exord true labelled no_edge_added 5 any_graph (finit paw 1 5) c /\ f_pc c = FDone (Ret None) /\
  walk (contents (f_g c)) any_edge 1 [Edge 10 1 2 0; Edge 12 2 5 1] 5 /\ In (Edge 12 2 5 1, Ret false) (f_log c) /\ length (m_edges (contents (f_g c))) = 3.
Proof.
  eexists. split.
  - stp anyg fs_open. stp anyg fs_ask. stp anyg fs_passed. stp anyg fs_ask. stp anyg fs_passed. stp anyg fs_end.
    stp anyg fs_open. stp anyg fs_ask.
    now_; eapply fr_step; [anyg|apply (fs_other _ _ _ _ _ _ _ _ _ _ _ _ _ _ _ _ _ (GRemEdge (RId 13))); side|].
    stp anyg fs_refused. stp anyg fs_end. stp anyg fs_open. stp anyg fs_end. stp anyg fs_none. now_. apply fr_refl. anyg.
  - split; [reflexivity|]. split; [|split; [cbn; tauto|reflexivity]].
    repeat (first [apply walk_nil|apply walk_cons; [cbn; tauto|reflexivity|reflexivity|]]).
Qed.
(** A quiet run ends with the answer of find_path. *)
Example C123_ex_quiet : exists c, fruns exord true labelled nothing 4 any_graph (finit exg 1 4) c /\
  f_pc c = FDone (find_path exord true any_edge exg (RId 1) (RId 4)) /\
  find_path exord true any_edge exg (RId 1) (RId 4) = Ret (Some [Edge 100 1 2 0; Edge 101 2 4 0]).
Proof.
  eexists. split; [|split].
  - stp anyg fs_open. stp anyg fs_ask. stp anyg fs_passed. stp anyg fs_ask. stp anyg fs_passed. stp anyg fs_seen. stp anyg fs_end.
    stp anyg fs_open. stp anyg fs_ask. stp anyg fs_passed. stp anyg fs_end. stp anyg fs_open. stp anyg fs_seen. stp anyg fs_end.
    stp anyg fs_found. now_. apply fr_refl. anyg.
  - vm_compute. reflexivity.
  - vm_compute. reflexivity.
Qed.
