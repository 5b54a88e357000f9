(** Graphs built from arbitrary data, and the recursion limit. *)
From Coq Require Import List ZArith Bool Lia Arith Permutation Relations.
From Verif Require Import PyBase PyFacts ModelProgression ModelGraph SpecGraph ProofsGraph ProofsGraphAlg ProofsGraphPath.
Import ListNotations.
#[local] Arguments eqb : simpl never.

(** ** Statements about operations on reachable graphs *)
Section Reach.
  Variable ord : bool -> uuid -> list uuid -> list uuid.
  Hypothesis Hord : fair ord.

  Theorem find_path_correct : forall g check cond a b, greachable ord g ->
    match find_path ord check cond g (RId a) (RId b) with
    | Ret (Some es) =>
        has_node (contents g) a = true /\ has_node (contents g) b = true /\
        walk (contents g) (fun e => negb check || cond e) a es b /\
        (forall es', walk (contents g) (fun e => negb check || cond e) a es' b -> length es <= length es') /\
        (es = [] <-> a = b)
    | Ret None =>
        has_node (contents g) a = true /\ has_node (contents g) b = true /\
        forall es, ~ walk (contents g) (fun e => negb check || cond e) a es b
    | Raise x => x = NotFoundError /\ (has_node (contents g) a && has_node (contents g) b = false)
    end.
  Proof.
    intros g check cond a b Hr. pose proof (greachable_Inv ord Hord g Hr) as HI.
    rewrite !has_node_dmem. unfold find_path. simpl.
    destruct (dmem a (g_nodes g)) eqn:Ea; simpl; [|auto].
    destruct (dmem b (g_nodes g)) eqn:Eb; simpl; [|auto].
    destruct (bfs_correct ord Hord g HI check cond a b) as [r [R S]]; [apply dmem_true; exact Ea|].
    rewrite R. destruct r as [es|]; simpl in S.
    - destruct S as [S1 S2]. split; [reflexivity|]. split; [reflexivity|]. split; [exact S1|].
      split; [exact S2|]. split.
      + intros ->. inversion S1; reflexivity.
      + intros ->. specialize (S2 [] (walk_nil _ _ _)). simpl in S2. destruct es; [reflexivity | simpl in S2; lia].
    - auto.
  Qed.
End Reach.

(** ** Dangling edges *)
Lemma new_edges : forall ns es, NoDup (dkeys ns) -> g_nodes (graph_new ns es) = ns /\
  g_edges (graph_new ns es) = es /\ dkeys (g_out (graph_new ns es)) = dkeys ns /\
  dkeys (g_in (graph_new ns es)) = dkeys ns.
Proof.
  intros ns es H. destruct (new_indexed ns es H) as [[H1 [H2 _]] [H3 H4]]. auto.
Qed.

Theorem dangling_remove_edge : forall ns es u e, NoDup (dkeys ns) ->
  dget u es = Some e -> ~ (In (e_head e) (dkeys ns) /\ In (e_tail e) (dkeys ns)) ->
  let (g', r) := remove_edge (graph_new ns es) (RId u) in
  r = Raise KeyError /\ dget u (g_edges g') = Some e.
Proof.
  intros ns es u e Hn Hu Hd. destruct (new_edges ns es Hn) as (H1 & H2 & H3 & H4).
  set (g := graph_new ns es) in *. unfold remove_edge, remove_edge_id. simpl.
  assert (Hu' : dget u (g_edges g) = Some e) by (rewrite H2; exact Hu). rewrite Hu'. unfold upd_set.
  destruct (dget (e_head e) (g_out g)) as [s|] eqn:Eh; [|auto].
  destruct (dget (e_tail e) (g_in g)) as [s'|] eqn:Et; [|simpl; auto].
  exfalso. apply Hd. rewrite <- H3 at 1. rewrite <- H4. split; eapply dget_Some_key; eauto.
Qed.

(** Whatever the index, a [True] answer means that every scanned edge ends in a node. *)
Section Weak.
  Variable ord : bool -> uuid -> list uuid -> list uuid.
  Hypothesis Hord : fair ord.
  Variable g : graph.

  Definition tails_ok (c : colors) (x : uuid) : Prop :=
    forall s u, dget x (g_out g) = Some s -> In u s ->
      exists e, dget u (g_edges g) = Some e /\ In (e_tail e) (dkeys c).

  Definition weak (c c' : colors) : Prop :=
    dkeys c' = dkeys c /\
    (forall x, dget x c' = Some Black -> dget x c = Some Black \/ tails_ok c x) /\
    (forall x, dget x c = Some Black -> dget x c' = Some Black).

  Lemma weak_trans : forall a b c, weak a b -> weak b c -> weak a c.
  Proof.
    intros a b c [A1 [A2 A3]] [B1 [B2 B3]]. split; [congruence|]. split.
    - intros x Hx. destruct (B2 x Hx) as [H|H]; [auto|]. right. intros s u Hs Hu.
      destruct (H s u Hs Hu) as [e [He Hk]]. exists e. split; [exact He | rewrite <- A1; exact Hk].
    - auto.
  Qed.

  Lemma weak_loop : forall lim n s0,
    (forall c m c', In m (dkeys c) -> dget m c = Some White -> dfs ord lim g c m = Ret (true, c') ->
       weak c c' /\ dget m c' = Some Black /\ (forall x, dget x c' = Some Gray <-> dget x c = Some Gray)) ->
    dget n (g_out g) = Some s0 ->
    forall us c c', dget n c = Some Gray ->
      (forall u, In u s0 -> In u us \/ exists e, dget u (g_edges g) = Some e /\ In (e_tail e) (dkeys c)) ->
      dfs_loop g (dfs ord lim g) n us c = Ret (true, c') ->
      weak c c' /\ dget n c' = Some Black /\
      (forall x, dget x c' = Some Gray <-> dget x c = Some Gray /\ x <> n).
  Proof.
    intros lim n s0 IH Hs0 us; induction us as [|u t IHt]; intros c c' Hn Hrest Hrun; simpl in Hrun.
    - injection Hrun as <-. assert (Hnin : In n (dkeys c)) by (eapply dget_Some_key; eauto).
      split; [|split].
      + split; [apply dkeys_dset_in; exact Hnin|]. split.
        * intros x Hx. rewrite dget_dset in Hx. destruct (eqb_spec x n) as [Hxn|Hne]; [|auto].
          subst x. right. intros s u Hs Hu. assert (s = s0) by congruence; subst s.
          destruct (Hrest u Hu) as [[]|H]; exact H.
        * intros x Hx. rewrite dget_dset. destruct (eqb x n); auto.
      + rewrite dget_dset_same; reflexivity.
      + intros x. rewrite dget_dset. destruct (eqb_spec x n) as [Hxn|Hne].
        * split; [discriminate | intros [_ Hc]; congruence].
        * tauto.
    - destruct (dget u (g_edges g)) as [e|] eqn:He; [|discriminate].
      destruct (dget (e_tail e) c) as [col|] eqn:Et; [|discriminate].
      assert (Htk : In (e_tail e) (dkeys c)) by (eapply dget_Some_key; eauto).
      destruct col; [|discriminate|].
      + destruct (dfs ord lim g c (e_tail e)) as [[[|] c1]|] eqn:Ed; [|discriminate|discriminate].
        destruct (IH c (e_tail e) c1 Htk Et Ed) as [W1 [T1 G1]].
        assert (Hk1 : dkeys c1 = dkeys c) by apply W1.
        destruct (IHt c1 c') as [W2 [T2 G2]]; [apply G1; exact Hn | | exact Hrun |].
        { intros w Hw. rewrite Hk1. destruct (Hrest w Hw) as [[<-|H]|H]; [right; eauto | auto | auto]. }
        split; [eapply weak_trans; eauto|]. split; [exact T2|]. intros x. rewrite G2, G1. reflexivity.
      + apply (IHt c c'); [exact Hn | | exact Hrun].
        intros w Hw. destruct (Hrest w Hw) as [[<-|H]|H]; [right; eauto | auto | auto].
  Qed.

  Lemma weak_dfs : forall lim c m c', In m (dkeys c) -> dget m c = Some White ->
    dfs ord lim g c m = Ret (true, c') ->
    weak c c' /\ dget m c' = Some Black /\ (forall x, dget x c' = Some Gray <-> dget x c = Some Gray).
  Proof.
    induction lim as [|lim IH]; intros c m c' Hk Hm Hrun; [discriminate|].
    rewrite (dfs_unfold ord g) in Hrun. destruct (dget m (g_out g)) as [s|] eqn:Es; [|discriminate].
    destruct (weak_loop lim m s IH Es (ord true m s) (dset m Gray c) c') as [W [T G]]; [| | exact Hrun |].
    - apply dget_dset_same.
    - intros u Hu. left. apply (ord_In ord Hord); exact Hu.
    - assert (W0 : weak c (dset m Gray c)).
      { split; [apply dkeys_dset_in; exact Hk|]. split.
        - intros x Hx. rewrite dget_dset in Hx. destruct (eqb x m); [discriminate | auto].
        - intros x Hx. rewrite dget_dset. destruct (eqb_spec x m) as [Hxm|]; [subst x; congruence | exact Hx]. }
      split; [eapply weak_trans; eauto|]. split; [exact T|].
      intros x. rewrite G, dget_dset. destruct (eqb_spec x m) as [Hxm|Hne].
      + subst x. split; [intros [_ Hc]; congruence | congruence].
      + tauto.
  Qed.

  Lemma weak_all : forall lim ns c, incl ns (dkeys c) -> (forall x, dget x c <> Some Gray) ->
    all_components ord lim g ns c = Ret true ->
    exists c', weak c c' /\ forall x, In x ns -> dget x c' = Some Black.
  Proof.
    intros lim ns; induction ns as [|n t IH]; intros c Hi Hg Hrun; simpl in Hrun.
    - exists c. split; [split; [reflexivity | split; auto] | intros x []].
    - assert (Hn : In n (dkeys c)) by (apply Hi; left; reflexivity).
      assert (Ht : incl t (dkeys c)) by (intros x Hx; apply Hi; right; exact Hx).
      destruct (dget n c) as [[| |]|] eqn:En; [| exfalso; exact (Hg n En) | | discriminate].
      + destruct (dfs ord lim g c n) as [[[|] c1]|] eqn:Ed; [|discriminate|discriminate].
        destruct (weak_dfs lim c n c1 Hn En Ed) as [W [T G]].
        destruct (IH c1) as [c' [W' B]]; [| | exact Hrun |].
        * assert (E1 : dkeys c1 = dkeys c) by apply W. rewrite E1. exact Ht.
        * intros x Hx. apply G in Hx. exact (Hg x Hx).
        * exists c'. split; [eapply weak_trans; eauto|]. intros x [<-|Hx]; [apply W'; exact T | auto].
      + destruct (IH c Ht Hg Hrun) as [c' [W' B]]. exists c'. split; [exact W'|].
        intros x [<-|Hx]; [apply W'; exact En | auto].
  Qed.

  Theorem acyclic_true_no_dangling : forall lim, is_acyclic ord lim g = Ret true ->
    forall n s u, In n (dkeys (g_nodes g)) -> dget n (g_out g) = Some s -> In u s ->
    exists e, dget u (g_edges g) = Some e /\ In (e_tail e) (dkeys (g_nodes g)).
  Proof.
    intros lim H n s u Hn Hs Hu. unfold is_acyclic in H. fold (white0 g) in H.
    destruct (weak_all lim _ _ ltac:(rewrite (white0_keys g); apply incl_refl)
                ltac:(intros x Hx; apply (white0_get g) in Hx; discriminate) H) as [c' [[W1 [W2 W3]] B]].
    destruct (W2 n (B n Hn)) as [Hb|Ht].
    - apply (white0_get g) in Hb. discriminate.
    - destruct (Ht s u Hs Hu) as [e [He Hk]]. rewrite (white0_keys g) in Hk. eauto.
  Qed.
End Weak.

Theorem dangling_never_acyclic : forall ord lim ns es e, fair ord ->
  NoDup (dkeys ns) -> NoDup (dkeys es) -> (forall u e, In (u, e) es -> e_id e = u) ->
  In e (dvals es) -> In (e_head e) (dkeys ns) -> ~ In (e_tail e) (dkeys ns) ->
  is_acyclic ord lim (graph_new ns es) <> Ret true /\
  forall l, topological_sort ord lim (graph_new ns es) <> Ret l.
Proof.
  intros ord lim ns es e Hord Hn Hne Hid He Hh Ht.
  assert (Hmain : is_acyclic ord lim (graph_new ns es) <> Ret true).
  { intros Ha. destruct (new_indexed ns es Hn) as [[H1 [H2 [H3 _]]] [H4 H5]].
    set (g := graph_new ns es) in *.
    assert (Hin : In (e_head e) (dkeys (g_out g))) by (rewrite H1; exact Hh).
    destruct (key_dget _ _ Hin) as [s Hs].
    apply in_map_iff in He. destruct He as [[u e0] [Heq Hi]]. simpl in Heq; subst e0.
    assert (Hus : In u s).
    { apply (H3 _ _ Hs). exists e. split; [|split; [apply Hid; exact Hi | reflexivity]].
      apply in_map_iff. exists (u, e). auto. }
    destruct (acyclic_true_no_dangling ord Hord g lim Ha (e_head e) s u) as [e' [E1 E2]]; auto.
    - rewrite H4. exact Hh.
    - rewrite H5 in E1. rewrite (In_dget _ _ _ Hne Hi) in E1. injection E1 as <-.
      rewrite H4 in E2. exact (Ht E2). }
  split; [exact Hmain|]. intros l Hl. unfold topological_sort in Hl.
  destruct (is_acyclic ord lim (graph_new ns es)) as [[|]|]; try discriminate. apply Hmain; reflexivity.
Qed.

(** ** A chain longer than the recursion limit *)
Definition chain_nodes (k : nat) : dict uuid nat := map (fun i => (i, i)) (seq 0 (S k)).
Definition chain_edges (k : nat) : dict uuid edge := map (fun i => (i, Edge i i (S i) 0)) (seq 0 k).
Definition chain (k : nat) : graph := graph_new (chain_nodes k) (chain_edges k).

Lemma chain_keys : forall k, dkeys (chain_nodes k) = seq 0 (S k).
Proof. intros k. unfold dkeys, chain_nodes. rewrite map_map. simpl. f_equal. apply map_id. Qed.
Lemma chain_ekeys : forall k, dkeys (chain_edges k) = seq 0 k.
Proof. intros k. unfold dkeys, chain_edges. rewrite map_map. apply map_id. Qed.

Lemma chain_In : forall k u e, In (u, e) (chain_edges k) <-> u < k /\ e = Edge u u (S u) 0.
Proof.
  intros k u e. unfold chain_edges. rewrite in_map_iff. split.
  - intros [i [H1 H2]]. injection H1 as <- <-. apply in_seq in H2. split; [lia | reflexivity].
  - intros [H ->]. exists u. split; [reflexivity | apply in_seq; lia].
Qed.

Lemma chain_wf : forall k, well_formed (chain_nodes k) (chain_edges k).
Proof.
  intros k. split; [rewrite chain_keys; apply seq_NoDup|]. split; [rewrite chain_ekeys; apply seq_NoDup|].
  split.
  - intros u e H. apply chain_In in H. destruct H as [_ ->]. reflexivity.
  - intros e H. apply in_map_iff in H. destruct H as [[u e'] [H1 H2]]. simpl in H1; subst e'.
    apply chain_In in H2. destruct H2 as [H2 ->]. rewrite chain_keys. simpl e_head. simpl e_tail.
    split; apply in_seq; lia.
Qed.

Lemma chain_Inv : forall k, Inv (chain k).
Proof. intros k. apply new_Inv, chain_wf. Qed.

Lemma chain_acyclic : forall k, acyclic (contents (chain k)).
Proof.
  intros k n [es [Hne Hw]].
  assert (G : forall a es b, walk (contents (chain k)) any_edge a es b -> a + length es = b).
  { intros a l b H. induction H as [a|a e l b H1 _ H2 _ IH]; [simpl; lia|].
    unfold contents in H1. simpl in H1. unfold chain in H1.
    destruct (new_edges (chain_nodes k) (chain_edges k)) as (_ & E2 & _); [apply chain_wf|].
    rewrite E2 in H1. apply in_map_iff in H1. destruct H1 as [[u e'] [H3 H4]]. simpl in H3; subst e'.
    apply chain_In in H4. destruct H4 as [_ ->]. simpl in *. lia. }
  apply G in Hw. destruct es; [contradiction | simpl in Hw; lia].
Qed.

Lemma chain_dfs : forall ord, fair ord -> forall (lim : nat) (j : uuid) (k : nat) (c : colors), j + lim = k ->
  (forall i : uuid, j <= i <= k -> dget i c = Some White) ->
  dfs ord lim (chain k) c j = Raise RecursionErr.
Proof.
  intros ord Hord lim; induction lim as [|lim IH]; intros j k c Hj Hc; [reflexivity|].
  rewrite (dfs_unfold ord (chain k)). pose proof (chain_Inv k) as HI.
  destruct (new_edges (chain_nodes k) (chain_edges k)) as (E1 & E2 & _); [apply chain_wf|].
  fold (chain k) in E1, E2.
  assert (Hjn : In j (dkeys (g_nodes (chain k)))) by (rewrite E1, chain_keys; apply in_seq; lia).
  destruct (Inv_out (chain k) j HI Hjn) as [s Hs]. rewrite Hs.
  destruct (i_out (chain k) HI j s Hs) as [Nd Hm].
  assert (Hd : forall u e, dget u (g_edges (chain k)) = Some e <-> u < k /\ e = Edge u u (S u) 0).
  { intros u e. rewrite E2. rewrite <- chain_In. split; [apply dget_In|].
    apply In_dget. rewrite chain_ekeys. apply seq_NoDup. }
  assert (Hs1 : s = [j]).
  { assert (Hin : forall u, In u s <-> u = j).
    { intros u. rewrite Hm. split.
      - intros [e [He Hh]]. apply Hd in He. destruct He as [_ ->]. exact Hh.
      - intros ->. exists (Edge j j (S j) 0). split; [apply Hd; split; [lia | reflexivity] | reflexivity]. }
    destruct s as [|x [|y t]].
    - destruct (proj2 (Hin j) eq_refl).
    - f_equal. apply Hin. left; reflexivity.
    - assert (x = j) by (apply Hin; left; reflexivity).
      assert (y = j) by (apply Hin; right; left; reflexivity). subst. inversion Nd as [|? ? Hx _].
      exfalso; apply Hx; left; reflexivity. }
  subst s. assert (Ho : ord true j [j] = [j]).
  { apply Permutation_length_1_inv. symmetry. apply Hord. }
  rewrite Ho. unfold dfs_loop.
  assert (Hje : dget j (g_edges (chain k)) = Some (Edge j j (S j) 0)) by (apply Hd; split; [lia | reflexivity]).
  rewrite Hje. simpl e_tail. rewrite dget_dset_other by lia. rewrite (Hc (S j) ltac:(lia)).
  rewrite (IH (S j) k); [reflexivity | lia|].
  intros i Hi. rewrite dget_dset_other by lia. apply Hc. lia.
Qed.

Theorem chain_recursion : forall ord lim, fair ord ->
  is_acyclic ord lim (chain lim) = Raise RecursionErr.
Proof.
  intros ord lim Hord. unfold is_acyclic. fold (white0 (chain lim)).
  destruct (new_edges (chain_nodes lim) (chain_edges lim)) as (E1 & _); [apply chain_wf|].
  fold (chain lim) in E1.
  assert (Hw : forall i : uuid, i <= lim -> dget i (white0 (chain lim)) = Some White).
  { intros i Hi. assert (Hk : In i (dkeys (white0 (chain lim)))).
    { rewrite white0_keys, E1, chain_keys. apply in_seq. lia. }
    destruct (key_dget _ _ Hk) as [x Hx]. rewrite Hx. f_equal. apply (white0_get _ _ _ Hx). }
  assert (Hkeys : dkeys (g_nodes (chain lim)) = 0 :: seq 1 lim) by (rewrite E1, chain_keys; reflexivity).
  rewrite Hkeys. cbn [all_components]. rewrite (Hw 0) by lia.
  rewrite (chain_dfs ord Hord lim 0 lim); [reflexivity | lia|]. intros i Hi. apply Hw. lia.
Qed.
