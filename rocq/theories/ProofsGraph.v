(** Index invariant of the graph and refinement to the plain multigraph. *)
From Coq Require Import List ZArith Bool Lia Arith Permutation.
From Verif Require Import PyBase PyFacts ModelProgression ModelGraph SpecGraph.
Import ListNotations.
#[local] Arguments eqb : simpl never.

(** ** Generic facts *)
Lemma ddel_filter : forall (V : Type) (k : uuid) (d : dict uuid V), NoDup (dkeys d) ->
  ddel k d = filter (fun kv => negb (fst kv =? k)) d.
Proof.
  intros V k d; induction d as [|[k' v] t IH]; intros Hn; simpl; [reflexivity|].
  inversion Hn as [|? ? H1 H2]; subst. destruct (eqb_spec k k') as [->|Hne].
  - rewrite Nat.eqb_refl; simpl. symmetry.
    assert (G : forall d : dict uuid V, ~ In k' (dkeys d) -> filter (fun kv => negb (fst kv =? k')) d = d).
    { induction d as [|[k2 v2] t2 IH2]; simpl; intros Hk; [reflexivity|].
      destruct (Nat.eqb_spec k2 k'); [exfalso; apply Hk; auto|]. simpl. rewrite IH2; auto. }
    apply G; exact H1.
  - destruct (Nat.eqb_spec k' k); [congruence|]. simpl. rewrite IH; auto.
Qed.

Lemma filter_filter : forall (A : Type) (f h : A -> bool) l,
  filter f (filter h l) = filter (fun x => h x && f x) l.
Proof.
  intros A f h l; induction l as [|x t IH]; simpl; [reflexivity|].
  destruct (h x); simpl; [destruct (f x); rewrite IH; reflexivity | exact IH].
Qed.

Lemma filter_map_comm : forall (A B : Type) (f : A -> B) (p : B -> bool) l,
  filter p (map f l) = map f (filter (fun x => p (f x)) l).
Proof.
  intros A B f p l; induction l as [|x t IH]; simpl; [reflexivity|].
  destruct (p (f x)); simpl; rewrite IH; reflexivity.
Qed.

Lemma dkeys_filter_NoDup : forall (V : Type) (p : uuid * V -> bool) (d : dict uuid V),
  NoDup (dkeys d) -> NoDup (dkeys (filter p d)).
Proof.
  intros V p d; induction d as [|kv t IH]; simpl; intros Hn; [constructor|].
  inversion Hn as [|? ? H1 H2]; subst. destruct (p kv); simpl; [|auto].
  constructor; [|auto]. intros Hc. apply H1. apply in_map_iff in Hc.
  destruct Hc as [x [Hx Hi]]. apply filter_In in Hi. apply in_map_iff. exists x; tauto.
Qed.

Lemma dget_filter : forall (V : Type) (p : uuid * V -> bool) (d : dict uuid V) u v,
  NoDup (dkeys d) ->
  (dget u (filter p d) = Some v <-> dget u d = Some v /\ p (u, v) = true).
Proof.
  intros V p d u v Hn. pose proof (dkeys_filter_NoDup V p d Hn) as Hf. split.
  - intros H. apply dget_In in H. apply filter_In in H. destruct H as [H1 H2].
    split; [apply In_dget; assumption | exact H2].
  - intros [H1 H2]. apply In_dget; [exact Hf|]. apply filter_In.
    split; [apply dget_In; exact H1 | exact H2].
Qed.

(** ** The index invariant *)
Definition set_ok (s : list uuid) (P : uuid -> Prop) : Prop :=
  NoDup s /\ forall u, In u s <-> P u.

Record Inv (g : graph) : Prop := {
  i_n : NoDup (dkeys (g_nodes g));
  i_e : NoDup (dkeys (g_edges g));
  i_id : forall u e, dget u (g_edges g) = Some e -> e_id e = u;
  i_end : forall u e, dget u (g_edges g) = Some e ->
            In (e_head e) (dkeys (g_nodes g)) /\ In (e_tail e) (dkeys (g_nodes g));
  i_ko : dkeys (g_out g) = dkeys (g_nodes g);
  i_ki : dkeys (g_in g) = dkeys (g_nodes g);
  i_out : forall n s, dget n (g_out g) = Some s ->
            set_ok s (fun u => exists e, dget u (g_edges g) = Some e /\ e_head e = n);
  i_in : forall n s, dget n (g_in g) = Some s ->
            set_ok s (fun u => exists e, dget u (g_edges g) = Some e /\ e_tail e = n)
}.

Lemma sadd_In : forall x s y, In y (sadd x s) <-> y = x \/ In y s.
Proof.
  intros x s y. unfold sadd. destruct (memb x s) eqn:E.
  - apply memb_In in E. split; [auto|]. intros [->|]; assumption.
  - rewrite in_app_iff. simpl. intuition.
Qed.

Lemma sadd_NoDup : forall x s, NoDup s -> NoDup (sadd x s).
Proof.
  intros x s H. unfold sadd. destruct (memb x s) eqn:E; [exact H|].
  apply memb_notIn in E. apply NoDup_rev in H. rewrite <- (rev_involutive (s ++ [x])).
  apply NoDup_rev. rewrite rev_app_distr; simpl. constructor; [|exact H].
  rewrite <- in_rev; exact E.
Qed.

Lemma sdiscard_In : forall x s y, NoDup s -> (In y (sdiscard x s) <-> y <> x /\ In y s).
Proof.
  intros x s y Hn. unfold sdiscard. destruct (remove_first x s) as [s'|] eqn:E.
  - pose proof (remove_first_Perm _ _ _ E) as Hp.
    assert (Hn' : NoDup (x :: s')) by (eapply Permutation_NoDup; eauto).
    inversion Hn' as [|? ? H1 H2]; subst.
    assert (Hi : In y s <-> In y (x :: s')) by (split; apply Permutation_in; [|symmetry]; exact Hp).
    rewrite Hi. simpl. split; [intros H; split; [intros ->; contradiction | auto]|].
    intros [H3 [H4|H4]]; [congruence | exact H4].
  - apply remove_first_None in E. split; [intros H; split; [intros ->; contradiction | exact H] | tauto].
Qed.

Lemma sdiscard_NoDup : forall x s, NoDup s -> NoDup (sdiscard x s).
Proof.
  intros x s Hn. unfold sdiscard. destruct (remove_first x s) as [s'|] eqn:E; [|exact Hn].
  eapply remove_first_NoDup; eauto.
Qed.

(** ** Construction *)
Section New.
  Variable ns : dict uuid nat.

  Let empty := map (fun kv : uuid * nat => (fst kv, @nil uuid)) ns.

  (** What the indexes hold after indexing the edges [es]. *)
  Definition indexed (o i : dict uuid (list uuid)) (es : list edge) : Prop :=
    dkeys o = dkeys ns /\ dkeys i = dkeys ns /\
    (forall n s, dget n o = Some s ->
       set_ok s (fun u => exists e, In e es /\ e_id e = u /\ e_head e = n)) /\
    (forall n s, dget n i = Some s ->
       set_ok s (fun u => exists e, In e es /\ e_id e = u /\ e_tail e = n)).

  Lemma dget_empty : forall n s, dget n empty = Some s -> s = [].
  Proof.
    intros n s H. apply dget_In in H. unfold empty in H. apply in_map_iff in H.
    destruct H as [kv [H _]]. congruence.
  Qed.

  Lemma dkeys_empty : dkeys empty = dkeys ns.
  Proof. unfold empty, dkeys. rewrite map_map. reflexivity. Qed.

  Lemma index_one : forall (sel : edge -> uuid) d es e,
    NoDup (dkeys ns) -> dkeys d = dkeys ns ->
    (forall n s, dget n d = Some s -> set_ok s (fun u => exists e, In e es /\ e_id e = u /\ sel e = n)) ->
    let d' := match dget (sel e) d with Some s => dset (sel e) (sadd (e_id e) s) d | None => d end in
    dkeys d' = dkeys ns /\
    (forall n s, dget n d' = Some s ->
       set_ok s (fun u => exists e', In e' (es ++ [e]) /\ e_id e' = u /\ sel e' = n)).
  Proof.
    intros sel d es e Hn Hk Hs d'. unfold d'. clear d'.
    destruct (dget (sel e) d) as [s0|] eqn:E.
    - split.
      + rewrite dkeys_dset_in; [exact Hk|]. eapply dget_Some_key; eauto.
      + intros n s Hg. rewrite dget_dset in Hg. destruct (eqb_spec n (sel e)) as [->|Hne].
        * inversion Hg; subst. destruct (Hs _ _ E) as [H1 H2]. split; [apply sadd_NoDup; exact H1|].
          intros u. rewrite sadd_In, H2. setoid_rewrite in_app_iff. simpl. split.
          -- intros [->|[e' [H3 H4]]]; [exists e; auto 6 | exists e'; tauto].
          -- intros [e' [[H3|[<-|[]]] [H4 H5]]]; [right; exists e'; auto | auto].
        * destruct (Hs _ _ Hg) as [H1 H2]. split; [exact H1|]. intros u. rewrite H2.
          setoid_rewrite in_app_iff. simpl. split.
          -- intros [e' [H3 H4]]; exists e'; tauto.
          -- intros [e' [[H3|[<-|[]]] [H4 H5]]]; [exists e'; auto | congruence].
    - split; [exact Hk|]. intros n s Hg. destruct (Hs _ _ Hg) as [H1 H2]. split; [exact H1|].
      intros u. rewrite H2. setoid_rewrite in_app_iff. simpl. split.
      + intros [e' [H3 H4]]; exists e'; tauto.
      + intros [e' [[H3|[<-|[]]] [H4 H5]]]; [exists e'; auto | congruence].
  Qed.

  Lemma indexed_fold : forall todo done o i, NoDup (dkeys ns) ->
    indexed o i done ->
    let r := fold_left index_edge todo (o, i) in
    indexed (fst r) (snd r) (done ++ todo).
  Proof.
    induction todo as [|e t IH]; intros done o i Hn H; simpl.
    - rewrite app_nil_r. exact H.
    - destruct H as (H1 & H2 & H3 & H4).
      replace (done ++ e :: t) with ((done ++ [e]) ++ t) by (rewrite <- app_assoc; reflexivity).
      apply IH; [exact Hn|].
      destruct (index_one e_head o done e Hn H1 H3) as [G1 G2].
      destruct (index_one e_tail i done e Hn H2 H4) as [G3 G4].
      split; [exact G1|]. split; [exact G3|]. split; assumption.
  Qed.

  Lemma new_indexed : forall es, NoDup (dkeys ns) ->
    indexed (g_out (graph_new ns es)) (g_in (graph_new ns es)) (dvals es) /\
    g_nodes (graph_new ns es) = ns /\ g_edges (graph_new ns es) = es.
  Proof.
    intros es Hn. unfold graph_new.
    assert (H0 : indexed empty empty []).
    { assert (H : forall n s, dget n empty = Some s -> forall P : edge -> Prop,
                set_ok s (fun u => exists e, In e [] /\ e_id e = u /\ P e)).
      { intros n s Hg P. rewrite (dget_empty _ _ Hg). split; [constructor|].
        intros u; simpl; split; [tauto | intros [e [[] _]]]. }
      split; [apply dkeys_empty|]. split; [apply dkeys_empty|].
      split; intros n s Hg;
        [apply (H _ _ Hg (fun e => e_head e = n)) | apply (H _ _ Hg (fun e => e_tail e = n))]. }
    pose proof (indexed_fold (dvals es) [] empty empty Hn H0) as H. simpl in H. fold empty.
    rewrite (surjective_pairing (fold_left index_edge (dvals es) (empty, empty))). simpl. auto.
  Qed.
End New.

Theorem new_Inv : forall ns es, well_formed ns es -> Inv (graph_new ns es).
Proof.
  intros ns es (H1 & H2 & H3 & H4).
  destruct (new_indexed ns es H1) as [(G1 & G2 & G3 & G4) [G5 G6]].
  assert (Hv : forall u e, dget u es = Some e -> In e (dvals es)).
  { intros u e H. apply dget_In in H. apply in_map_iff. exists (u, e); auto. }
  assert (Hx : forall (sel : edge -> uuid) n u,
            (exists e, In e (dvals es) /\ e_id e = u /\ sel e = n) <->
            (exists e, dget u es = Some e /\ sel e = n)).
  { intros sel n u. split.
    - intros [e [H [H5 H6]]]. exists e. split; [|exact H6].
      apply in_map_iff in H. destruct H as [[k e'] [H7 H8]]. simpl in H7; subst e'.
      rewrite <- H5, (H3 _ _ H8). apply In_dget; assumption.
    - intros [e [H5 H6]]. exists e. split; [eapply Hv; eauto|]. split; [|exact H6].
      apply (H3 u e). apply dget_In; exact H5. }
  constructor; rewrite ?G5, ?G6; auto.
  - intros u e H. apply (H3 u e). apply dget_In; exact H.
  - intros u e H. apply H4. eapply Hv; eauto.
  - intros n s Hs. destruct (G3 n s Hs) as [N1 N2]. split; [exact N1|].
    intros u. rewrite N2. apply Hx.
  - intros n s Hs. destruct (G4 n s Hs) as [N1 N2]. split; [exact N1|].
    intros u. rewrite N2. apply Hx.
Qed.

(** ** Lookups under the invariant *)
Lemma Inv_out : forall g n, Inv g -> In n (dkeys (g_nodes g)) -> exists s, dget n (g_out g) = Some s.
Proof. intros g n H Hn. apply key_dget. rewrite (i_ko g H). exact Hn. Qed.
Lemma Inv_in : forall g n, Inv g -> In n (dkeys (g_nodes g)) -> exists s, dget n (g_in g) = Some s.
Proof. intros g n H Hn. apply key_dget. rewrite (i_ki g H). exact Hn. Qed.

(** ** add_node *)
Lemma add_node_Inv : forall g u n, Inv g -> dmem u (g_nodes g) = false ->
  Inv (fst (add_node g u n)) /\ snd (add_node g u n) = Ret GUnit /\
  g_nodes (fst (add_node g u n)) = g_nodes g ++ [(u, n)] /\
  g_edges (fst (add_node g u n)) = g_edges g.
Proof.
  intros g u n H Hd. unfold add_node. rewrite Hd. simpl. apply dmem_false in Hd.
  assert (Hno : ~ In u (dkeys (g_out g))) by (rewrite (i_ko g H); exact Hd).
  assert (Hni : ~ In u (dkeys (g_in g))) by (rewrite (i_ki g H); exact Hd).
  rewrite !(dkeys_dset_notin u) by assumption.
  split; [|auto]. constructor; simpl.
  - rewrite dkeys_app. simpl.
    apply (Permutation_NoDup (l := u :: dkeys (g_nodes g))).
    + apply Permutation_cons_append.
    + constructor; [exact Hd | apply (i_n g H)].
  - apply (i_e g H).
  - apply (i_id g H).
  - intros k e He. rewrite dkeys_app, !in_app_iff. destruct (i_end g H k e He); tauto.
  - rewrite !dkeys_app, (i_ko g H). reflexivity.
  - rewrite !dkeys_app, (i_ki g H). reflexivity.
  - intros m s Hs. rewrite <- dkeys_dset_notin, dget_dset in Hs by exact Hno.
    destruct (eqb_spec m u) as [->|Hne]; [|apply (i_out g H); exact Hs].
    inversion Hs; subst. split; [constructor|]. intros k; simpl. split; [tauto|].
    intros [e [He1 He2]]. apply Hd. rewrite <- He2. apply (i_end g H k e He1).
  - intros m s Hs. rewrite <- dkeys_dset_notin, dget_dset in Hs by exact Hni.
    destruct (eqb_spec m u) as [->|Hne]; [|apply (i_in g H); exact Hs].
    inversion Hs; subst. split; [constructor|]. intros k; simpl. split; [tauto|].
    intros [e [He1 He2]]. apply Hd. rewrite <- He2. apply (i_end g H k e He1).
Qed.

(** ** add_edge *)
Lemma add_edge_Inv : forall g e, Inv g -> dmem (e_head e) (g_nodes g) = true ->
  dmem (e_tail e) (g_nodes g) = true -> dmem (e_id e) (g_edges g) = false ->
  Inv (fst (add_edge g e)) /\ snd (add_edge g e) = Ret GUnit /\
  g_nodes (fst (add_edge g e)) = g_nodes g /\
  g_edges (fst (add_edge g e)) = g_edges g ++ [(e_id e, e)].
Proof.
  intros g e H Hh Ht Hd. unfold add_edge. rewrite Hh, Ht, Hd. simpl.
  apply dmem_true in Hh. apply dmem_true in Ht. apply dmem_false in Hd.
  destruct (Inv_out g _ H Hh) as [so Hso]. destruct (Inv_in g _ H Ht) as [si Hsi].
  unfold upd_set. rewrite Hso, Hsi. simpl.
  assert (Hes : dset (e_id e) e (g_edges g) = g_edges g ++ [(e_id e, e)])
    by (apply dkeys_dset_notin; exact Hd).
  split; [|auto].
  assert (Hsel : forall (sel : edge -> uuid) d n s s0,
    (forall n s, dget n d = Some s -> set_ok s (fun u => exists e, dget u (g_edges g) = Some e /\ sel e = n)) ->
    dget (sel e) d = Some s0 -> dget n (dset (sel e) (sadd (e_id e) s0) d) = Some s ->
    set_ok s (fun u => exists e', dget u (dset (e_id e) e (g_edges g)) = Some e' /\ sel e' = n)).
  { intros sel d n s s0 Hall Hs0 Hs. rewrite dget_dset in Hs.
    assert (Hfresh : dget (e_id e) (g_edges g) = None) by (apply dget_None; exact Hd).
    destruct (eqb_spec n (sel e)) as [->|Hne].
    - inversion Hs; subst. destruct (Hall _ _ Hs0) as [N1 N2]. split; [apply sadd_NoDup; exact N1|].
      intros u. rewrite sadd_In, N2, dget_dset. destruct (eqb_spec u (e_id e)) as [->|Hu].
      + split; [intros _; exists e; auto | auto].
      + split; [intros [?|?]; [congruence | assumption] | auto].
    - destruct (Hall _ _ Hs) as [N1 N2]. split; [exact N1|]. intros u. rewrite N2, dget_dset.
      destruct (eqb_spec u (e_id e)) as [->|Hu]; [|reflexivity].
      rewrite Hfresh. split; [intros [? [? _]]; discriminate|].
      intros [e' [H1 H2]]. inversion H1; subst. congruence. }
  constructor; simpl.
  - apply (i_n g H).
  - apply dkeys_dset_NoDup, (i_e g H).
  - intros u e' Hu. rewrite dget_dset in Hu. destruct (eqb_spec u (e_id e)); [congruence|].
    apply (i_id g H); exact Hu.
  - intros u e' Hu. rewrite dget_dset in Hu. destruct (eqb_spec u (e_id e)).
    + inversion Hu; subst; auto.
    + apply (i_end g H u); exact Hu.
  - rewrite dkeys_dset_in; [apply (i_ko g H) | eapply dget_Some_key; eauto].
  - rewrite dkeys_dset_in; [apply (i_ki g H) | eapply dget_Some_key; eauto].
  - intros n s Hs. eapply (Hsel e_head); eauto. apply (i_out g H).
  - intros n s Hs. eapply (Hsel e_tail); eauto. apply (i_in g H).
Qed.

(** ** remove_edge *)
Lemma remove_edge_Inv : forall g u e, Inv g -> dget u (g_edges g) = Some e ->
  Inv (fst (remove_edge_id g u)) /\ snd (remove_edge_id g u) = Ret (GEdge e) /\
  g_nodes (fst (remove_edge_id g u)) = g_nodes g /\
  g_edges (fst (remove_edge_id g u)) = ddel u (g_edges g).
Proof.
  intros g u e H He. unfold remove_edge_id. rewrite He.
  destruct (i_end g H u e He) as [Hh Ht].
  destruct (Inv_out g _ H Hh) as [so Hso]. destruct (Inv_in g _ H Ht) as [si Hsi].
  unfold upd_set. rewrite Hso, Hsi. simpl. split; [|auto].
  assert (Hget : forall k x, dget k (ddel u (g_edges g)) = Some x <->
                 k <> u /\ dget k (g_edges g) = Some x).
  { intros k x. destruct (Nat.eq_dec k u) as [->|Hne].
    - rewrite dget_ddel_same by apply (i_e g H). split; [discriminate | tauto].
    - rewrite dget_ddel_other by exact Hne. tauto. }
  assert (Hsel : forall (sel : edge -> uuid) d n s s0,
    (forall n s, dget n d = Some s -> set_ok s (fun u => exists e, dget u (g_edges g) = Some e /\ sel e = n)) ->
    dget (sel e) d = Some s0 -> dget n (dset (sel e) (sdiscard u s0) d) = Some s ->
    set_ok s (fun k => exists e', dget k (ddel u (g_edges g)) = Some e' /\ sel e' = n)).
  { intros sel d n s s0 Hall Hs0 Hs. rewrite dget_dset in Hs. destruct (eqb_spec n (sel e)) as [->|Hne].
    - inversion Hs; subst. destruct (Hall _ _ Hs0) as [N1 N2].
      split; [apply sdiscard_NoDup; exact N1|]. intros k. rewrite sdiscard_In by exact N1.
      rewrite N2. setoid_rewrite Hget. firstorder.
    - destruct (Hall _ _ Hs) as [N1 N2]. split; [exact N1|]. intros k. rewrite N2.
      setoid_rewrite Hget. split; [|firstorder]. intros [e' [H1 H2]]. exists e'.
      split; [|exact H2]. split; [|exact H1]. intros ->. congruence. }
  constructor; simpl.
  - apply (i_n g H).
  - apply dkeys_ddel_NoDup, (i_e g H).
  - intros k x Hk. apply Hget in Hk. apply (i_id g H); tauto.
  - intros k x Hk. apply Hget in Hk. apply (i_end g H k); tauto.
  - rewrite dkeys_dset_in; [apply (i_ko g H) | eapply dget_Some_key; eauto].
  - rewrite dkeys_dset_in; [apply (i_ki g H) | eapply dget_Some_key; eauto].
  - intros n s Hs. eapply (Hsel e_head); eauto. apply (i_out g H).
  - intros n s Hs. eapply (Hsel e_tail); eauto. apply (i_in g H).
Qed.

Lemma remove_edges_Inv : forall us g, Inv g -> NoDup us ->
  (forall u, In u us -> exists e, dget u (g_edges g) = Some e) ->
  Inv (fst (remove_edges g us)) /\ snd (remove_edges g us) = Ret GUnit /\
  g_nodes (fst (remove_edges g us)) = g_nodes g /\
  g_edges (fst (remove_edges g us)) = filter (fun kv => negb (memb (fst kv) us)) (g_edges g).
Proof.
  induction us as [|u t IH]; intros g H Hn Hp; simpl.
  - split; [exact H|]. split; [reflexivity|]. split; [reflexivity|].
    assert (G : forall l : dict uuid edge, l = filter (fun kv => negb (memb (fst kv) [])) l).
    { induction l as [|x l IHl]; simpl; [reflexivity | f_equal; exact IHl]. }
    apply G.
  - inversion Hn as [|? ? Hu Ht]; subst. destruct (Hp u (or_introl eq_refl)) as [e He].
    destruct (remove_edge_Inv g u e H He) as (H1 & H2 & H3 & H4).
    destruct (remove_edge_id g u) as [g' r]. simpl in *. subst r.
    destruct (IH g' H1 Ht) as (G1 & G2 & G3 & G4).
    { intros k Hk. destruct (Hp k (or_intror Hk)) as [x Hx]. exists x. rewrite H4.
      rewrite dget_ddel_other; [exact Hx | intros ->; contradiction]. }
    split; [exact G1|]. split; [exact G2|]. split; [congruence|].
    rewrite G4, H4, (ddel_filter _ u _ (i_e g H)), filter_filter.
    apply filter_ext. intros [k x]. unfold memb. simpl.
    change (eqb k u) with (k =? u). rewrite negb_orb. reflexivity.
Qed.

(** ** remove_node *)
Section RN.
  Variable ord : bool -> uuid -> list uuid -> list uuid.
  Hypothesis Hord : fair ord.

  Lemma ord_In : forall b n l x, In x (ord b n l) <-> In x l.
  Proof. intros b n l x. split; apply Permutation_in; [|symmetry]; apply Hord. Qed.

  Lemma ord_NoDup : forall b n l, NoDup l -> NoDup (ord b n l).
  Proof. intros b n l H. eapply Permutation_NoDup; [symmetry; apply Hord | exact H]. Qed.

  Lemma filter_same_pred : forall (A : Type) (p q : A -> bool) l,
    (forall x, In x l -> p x = q x) -> filter p l = filter q l.
  Proof.
    intros A p q l; induction l as [|x t IH]; intros H; simpl; [reflexivity|].
    rewrite (H x (or_introl eq_refl)), IH; [reflexivity|]. intros y Hy; apply H; right; exact Hy.
  Qed.

  Lemma remove_node_Inv : forall g r n pay, Inv g -> coerce_id r = Ret n ->
    dget n (g_nodes g) = Some pay ->
    Inv (fst (remove_node ord g r)) /\ snd (remove_node ord g r) = Ret (GNode n pay) /\
    g_nodes (fst (remove_node ord g r)) = ddel n (g_nodes g) /\
    g_edges (fst (remove_node ord g r)) = filter (fun kv => negb (touches n (snd kv))) (g_edges g).
  Proof.
    intros g r n pay H Hr Hp. unfold remove_node. rewrite Hr, Hp.
    assert (Hn : In n (dkeys (g_nodes g))) by (eapply dget_Some_key; eauto).
    destruct (Inv_in g n H Hn) as [si Hsi]. rewrite Hsi.
    destruct (i_in g H n si Hsi) as [Ni Mi].
    destruct (remove_edges_Inv (ord false n si) g H) as (H1 & H2 & H3 & H4).
    { apply ord_NoDup; exact Ni. }
    { intros u Hu. apply ord_In in Hu. apply Mi in Hu. destruct Hu as [e [He _]]; eauto. }
    destruct (remove_edges g (ord false n si)) as [g1 r1]. simpl in *. subst r1.
    assert (Hn1 : In n (dkeys (g_nodes g1))) by (rewrite H3; exact Hn).
    destruct (Inv_out g1 n H1 Hn1) as [so Hso]. rewrite Hso.
    destruct (i_out g1 H1 n so Hso) as [No Mo].
    destruct (remove_edges_Inv (ord true n so) g1 H1) as (G1 & G2 & G3 & G4).
    { apply ord_NoDup; exact No. }
    { intros u Hu. apply ord_In in Hu. apply Mo in Hu. destruct Hu as [e [He _]]; eauto. }
    destruct (remove_edges g1 (ord true n so)) as [g2 r2]. simpl in *. subst r2.
    assert (Hes : g_edges g2 = filter (fun kv => negb (touches n (snd kv))) (g_edges g)).
    { rewrite G4, H4, filter_filter. apply filter_same_pred. intros [k e] Hke. simpl.
      assert (Hk : dget k (g_edges g) = Some e) by (apply In_dget; [apply (i_e g H) | exact Hke]).
      assert (Hin : memb k (ord false n si) = (e_tail e =? n)).
      { destruct (Nat.eqb_spec (e_tail e) n) as [Et|Et].
        - apply memb_In, ord_In, Mi. eauto.
        - apply memb_notIn. intros Hc. apply ord_In, Mi in Hc. destruct Hc as [e' [He1 He2]]. congruence. }
      rewrite Hin. unfold touches. destruct (e_tail e =? n) eqn:Et; simpl.
      - rewrite orb_true_r. reflexivity.
      - rewrite orb_false_r. f_equal.
        destruct (Nat.eqb_spec (e_head e) n) as [Eh|Eh].
        + apply memb_In, ord_In, Mo. exists e. split; [|exact Eh].
          rewrite H4. apply dget_filter; [apply (i_e g H)|]. split; [exact Hk|]. simpl.
          rewrite Hin. reflexivity.
        + apply memb_notIn. intros Hc. apply ord_In, Mo in Hc. destruct Hc as [e' [He1 He2]].
          rewrite H4 in He1. apply dget_filter in He1; [|apply (i_e g H)]. destruct He1; congruence. }
    assert (Hnotouch : forall k e, dget k (g_edges g2) = Some e -> e_head e <> n /\ e_tail e <> n).
    { intros k e Hk. rewrite Hes in Hk. apply dget_filter in Hk; [|apply (i_e g H)].
      destruct Hk as [_ Hk]. simpl in Hk. unfold touches in Hk.
      destruct (Nat.eqb_spec (e_head e) n), (Nat.eqb_spec (e_tail e) n); simpl in Hk; try discriminate; auto. }
    assert (Hn2 : g_nodes g2 = g_nodes g) by congruence.
    split; [|split; [reflexivity|split; [simpl; rewrite Hn2; reflexivity|exact Hes]]].
    constructor; simpl.
    - apply dkeys_ddel_NoDup, (i_n g2 G1).
    - apply (i_e g2 G1).
    - apply (i_id g2 G1).
    - intros k e Hk. destruct (Hnotouch k e Hk) as [Ta Tb]. destruct (i_end g2 G1 k e Hk).
      rewrite !In_dkeys_ddel by apply (i_n g2 G1). auto.
    - rewrite !dkeys_ddel, (i_ko g2 G1). reflexivity.
    - rewrite !dkeys_ddel, (i_ki g2 G1). reflexivity.
    - intros m s Hs. destruct (Nat.eq_dec m n) as [->|Hne].
      + rewrite dget_ddel_same in Hs; [discriminate|]. rewrite (i_ko g2 G1). apply (i_n g2 G1).
      + rewrite dget_ddel_other in Hs by exact Hne. apply (i_out g2 G1); exact Hs.
    - intros m s Hs. destruct (Nat.eq_dec m n) as [->|Hne].
      + rewrite dget_ddel_same in Hs; [discriminate|]. rewrite (i_ki g2 G1). apply (i_n g2 G1).
      + rewrite dget_ddel_other in Hs by exact Hne. apply (i_in g2 G1); exact Hs.
  Qed.

  (** ** Contents *)
  Lemma has_node_dmem : forall g u, has_node (contents g) u = dmem u (g_nodes g).
  Proof.
    intros g u. unfold has_node, contents; simpl. destruct (dmem u (g_nodes g)) eqn:E.
    - apply dmem_true in E. apply existsb_exists. apply in_map_iff in E.
      destruct E as [kv [H1 H2]]. exists kv. split; [exact H2 | apply Nat.eqb_eq; exact H1].
    - apply dmem_false in E. destruct (existsb _ _) eqn:E2; [|reflexivity].
      apply existsb_exists in E2. destruct E2 as [kv [H1 H2]]. apply Nat.eqb_eq in H2.
      exfalso; apply E. apply in_map_iff. eauto.
  Qed.

  Lemma find_node_dget : forall g u, find_node (contents g) u = option_map (fun n => (u, n)) (dget u (g_nodes g)).
  Proof.
    intros g u. unfold find_node, contents; simpl. induction (g_nodes g) as [|[k n] t IH]; simpl; [reflexivity|].
    rewrite Nat.eqb_sym. change (u =? k) with (eqb u k). destruct (eqb_spec u k) as [->|]; [reflexivity | exact IH].
  Qed.

  Lemma dget_edges_spec : forall g, Inv g -> forall u,
    find_edge (contents g) u = dget u (g_edges g).
  Proof.
    intros g H u. pose proof (i_id g H) as Hid. pose proof (i_e g H) as Hnd.
    unfold find_edge, contents, dvals; simpl. clear H.
    induction (g_edges g) as [|[k e] t IH]; simpl; [reflexivity|].
    inversion Hnd as [|? ? Hk Ht]; subst.
    assert (Hk2 : e_id e = k) by (apply Hid; simpl; rewrite eqb_refl; reflexivity).
    rewrite Hk2, Nat.eqb_sym. change (u =? k) with (eqb u k). destruct (eqb_spec u k); [reflexivity|].
    apply IH; [|exact Ht]. intros v x Hv. apply Hid. simpl.
    destruct (eqb_spec v k) as [->|]; [|exact Hv]. exfalso. apply Hk. eapply dget_Some_key; eauto.
  Qed.

  Lemma has_edge_dmem : forall g u, Inv g -> has_edge (contents g) u = dmem u (g_edges g).
  Proof.
    intros g u H. unfold dmem. rewrite <- dget_edges_spec by exact H.
    unfold has_edge, find_edge. induction (m_edges (contents g)) as [|e t IH]; simpl; [reflexivity|].
    destruct (e_id e =? u); [reflexivity | exact IH].
  Qed.

  Lemma dvals_filter_edges : forall g (p : edge -> bool),
    dvals (filter (fun kv => p (snd kv)) (g_edges g)) = filter p (dvals (g_edges g)).
  Proof. intros g p. unfold dvals. rewrite filter_map_comm. reflexivity. Qed.

  Lemma dvals_ddel_edges : forall g u, Inv g ->
    dvals (ddel u (g_edges g)) = filter (fun e => negb (e_id e =? u)) (dvals (g_edges g)).
  Proof.
    intros g u H. rewrite ddel_filter by apply (i_e g H). rewrite <- dvals_filter_edges.
    f_equal. apply filter_same_pred. intros [k e] Hk. simpl.
    rewrite (i_id g H k e); [reflexivity|]. apply In_dget; [apply (i_e g H) | exact Hk].
  Qed.

  (** ** Lookups of index sets *)
  Lemma lookup_edges_ok : forall g us, (forall u, In u us -> exists e, dget u (g_edges g) = Some e) ->
    exists es, lookup_edges g us = Ret es /\ Forall2 (fun u e => dget u (g_edges g) = Some e) us es.
  Proof.
    intros g us; induction us as [|u t IH]; intros H; simpl; [eexists; split; [reflexivity|constructor]|].
    destruct (H u (or_introl eq_refl)) as [e He]. rewrite He.
    destruct IH as [es [H1 H2]]; [intros; apply H; right; assumption|].
    rewrite H1. simpl. eexists; split; [reflexivity|]. constructor; assumption.
  Qed.

  (** Edges whose ids form a duplicate-free list with a given meaning are the
      filtered edges, up to order. *)
  Lemma Forall2_edges_perm : forall g us es (p : edge -> bool), Inv g -> NoDup us ->
    Forall2 (fun u e => dget u (g_edges g) = Some e) us es ->
    (forall u, In u us <-> exists e, dget u (g_edges g) = Some e /\ p e = true) ->
    Permutation es (filter p (dvals (g_edges g))).
  Proof.
    intros g us es p H Hn H2 Hmem.
    assert (Hids : map e_id es = us).
    { clear Hn Hmem. induction H2 as [|u e us es He _ IH]; simpl; [reflexivity|].
      rewrite IH, (i_id g H u e He). reflexivity. }
    assert (Hin : forall e, In e es -> dget (e_id e) (g_edges g) = Some e).
    { clear Hn Hmem Hids. induction H2 as [|u e us es He _ IH]; intros x Hx; [destruct Hx|]. destruct Hx as [<-|Hx]; [|auto].
      rewrite (i_id g H u e He). exact He. }
    apply NoDup_Permutation.
    - apply (NoDup_map_inv e_id). rewrite Hids. exact Hn.
    - apply NoDup_filter. apply (NoDup_map_inv e_id).
      assert (Hk : map e_id (dvals (g_edges g)) = dkeys (g_edges g)).
      { unfold dvals, dkeys. rewrite map_map. apply map_ext_in. intros [k e] Hke. simpl.
        apply (i_id g H). apply In_dget; [apply (i_e g H) | exact Hke]. }
      rewrite Hk. apply (i_e g H).
    - intros e. rewrite filter_In. split.
      + intros He. pose proof (Hin e He) as Hg. split.
        * apply dget_In in Hg. apply in_map_iff. exists (e_id e, e). auto.
        * assert (Hu : In (e_id e) us) by (rewrite <- Hids; apply in_map; exact He).
          apply Hmem in Hu. destruct Hu as [e' [H3 H4]]. congruence.
      + intros [He Hp]. apply in_map_iff in He. destruct He as [[k e'] [He1 He2]]. simpl in He1; subst e'.
        assert (Hg : dget k (g_edges g) = Some e) by (apply In_dget; [apply (i_e g H) | exact He2]).
        assert (Hu : In k us) by (apply Hmem; eauto).
        rewrite <- Hids in Hu. apply in_map_iff in Hu. destruct Hu as [x [Hx1 Hx2]].
        pose proof (Hin x Hx2). rewrite Hx1 in H0. congruence.
  Qed.

  Lemma out_edges_perm : forall g n, Inv g ->
    exists es, lookup_edges g (ord true n (sget_or_empty n (g_out g))) = Ret es /\
      Permutation es (filter (fun e => e_head e =? n) (dvals (g_edges g))).
  Proof.
    intros g n H. unfold sget_or_empty. destruct (dget n (g_out g)) as [s|] eqn:E.
    - destruct (i_out g H n s E) as [N1 N2].
      destruct (lookup_edges_ok g (ord true n s)) as [es [H1 H2]].
      { intros u Hu. apply ord_In, N2 in Hu. destruct Hu as [e [He _]]; eauto. }
      exists es. split; [exact H1|].
      apply (Forall2_edges_perm g (ord true n s)); [exact H | apply ord_NoDup; exact N1 | exact H2 |].
      intros u. rewrite ord_In, N2. setoid_rewrite Nat.eqb_eq. reflexivity.
    - exists []. assert (ord true n [] = []) as -> by (apply Permutation_nil; symmetry; apply Hord).
      split; [reflexivity|].
      destruct (filter _ _) as [|e t] eqn:Ef; [reflexivity|]. exfalso.
      assert (He : In e (filter (fun e => e_head e =? n) (dvals (g_edges g)))) by (rewrite Ef; left; reflexivity).
      apply filter_In in He. destruct He as [He Hh]. apply Nat.eqb_eq in Hh.
      apply in_map_iff in He. destruct He as [[k e'] [He1 He2]]. simpl in He1; subst e'.
      apply In_dget in He2; [|apply (i_e g H)]. apply (i_end g H) in He2. destruct He2 as [Hd _].
      rewrite Hh, <- (i_ko g H) in Hd. apply dget_None in E. contradiction.
  Qed.

  Lemma in_edges_perm : forall g n, Inv g ->
    exists es, lookup_edges g (ord false n (sget_or_empty n (g_in g))) = Ret es /\
      Permutation es (filter (fun e => e_tail e =? n) (dvals (g_edges g))).
  Proof.
    intros g n H. unfold sget_or_empty. destruct (dget n (g_in g)) as [s|] eqn:E.
    - destruct (i_in g H n s E) as [N1 N2].
      destruct (lookup_edges_ok g (ord false n s)) as [es [H1 H2]].
      { intros u Hu. apply ord_In, N2 in Hu. destruct Hu as [e [He _]]; eauto. }
      exists es. split; [exact H1|].
      apply (Forall2_edges_perm g (ord false n s)); [exact H | apply ord_NoDup; exact N1 | exact H2 |].
      intros u. rewrite ord_In, N2. setoid_rewrite Nat.eqb_eq. reflexivity.
    - exists []. assert (ord false n [] = []) as -> by (apply Permutation_nil; symmetry; apply Hord).
      split; [reflexivity|].
      destruct (filter _ _) as [|e t] eqn:Ef; [reflexivity|]. exfalso.
      assert (He : In e (filter (fun e => e_tail e =? n) (dvals (g_edges g)))) by (rewrite Ef; left; reflexivity).
      apply filter_In in He. destruct He as [He Hh]. apply Nat.eqb_eq in Hh.
      apply in_map_iff in He. destruct He as [[k e'] [He1 He2]]. simpl in He1; subst e'.
      apply In_dget in He2; [|apply (i_e g H)]. apply (i_end g H) in He2. destruct He2 as [_ Hd].
      rewrite Hh, <- (i_ki g H) in Hd. apply dget_None in E. contradiction.
  Qed.

  Lemma lookup_nodes_ok : forall g us, (forall u, In u us -> In u (dkeys (g_nodes g))) ->
    lookup_nodes g us = Ret (flat_map (fun u => match find_node (contents g) u with
                                                | Some kv => [kv] | None => [] end) us).
  Proof.
    intros g us; induction us as [|u t IH]; intros H; simpl; [reflexivity|].
    destruct (key_dget u (g_nodes g) (H u (or_introl eq_refl))) as [n Hn].
    rewrite find_node_dget, Hn. rewrite IH by (intros; apply H; right; assumption). reflexivity.
  Qed.

  Lemma flat_map_Permutation : forall (A B : Type) (f : A -> list B) l l',
    Permutation l l' -> Permutation (flat_map f l) (flat_map f l').
  Proof.
    intros A B f l l' Hp; induction Hp; simpl; auto.
    - apply Permutation_app_head; assumption.
    - rewrite !app_assoc. apply Permutation_app_tail, Permutation_app_comm.
    - eapply Permutation_trans; eauto.
  Qed.

  Lemma lookup_edges_app : forall g a b ea eb,
    lookup_edges g a = Ret ea -> lookup_edges g b = Ret eb -> lookup_edges g (a ++ b) = Ret (ea ++ eb).
  Proof.
    intros g a; induction a as [|u t IH]; intros b ea eb Ha Hb; simpl in *.
    - inversion Ha; subst. exact Hb.
    - destruct (dget u (g_edges g)) as [e|]; [|discriminate].
      destruct (lookup_edges g t) as [es|]; [|discriminate]. simpl in Ha. inversion Ha; subst.
      rewrite (IH b es eb eq_refl Hb). reflexivity.
  Qed.

  (** Nodes whose index entry is empty. *)
  Lemma empty_index : forall g (d : dict uuid (list uuid)) (sel : edge -> uuid), Inv g ->
    dkeys d = dkeys (g_nodes g) ->
    (forall n s, dget n d = Some s -> set_ok s (fun u => exists e, dget u (g_edges g) = Some e /\ sel e = n)) ->
    flat_map (fun u => match find_node (contents g) u with Some kv => [kv] | None => [] end)
      (dkeys (filter (fun kv => emptyb (snd kv)) d)) =
    filter (fun kv => negb (existsb (fun e => sel e =? fst kv) (dvals (g_edges g)))) (g_nodes g).
  Proof.
    intros g d sel H Hk Hs.
    assert (Hflag : forall n s, In (n, s) d ->
      emptyb s = negb (existsb (fun e => sel e =? n) (dvals (g_edges g)))).
    { intros n s Hi. assert (Hg : dget n d = Some s).
      { apply In_dget; [rewrite Hk; apply (i_n g H) | exact Hi]. }
      destruct (Hs n s Hg) as [_ Hm]. destruct (existsb _ _) eqn:E.
      - apply existsb_exists in E. destruct E as [e [He1 He2]]. apply Nat.eqb_eq in He2.
        apply in_map_iff in He1. destruct He1 as [[k e'] [He1 He3]]. simpl in He1; subst e'.
        apply In_dget in He3; [|apply (i_e g H)].
        assert (Hu : In k s) by (apply Hm; eauto). destruct s; [destruct Hu | reflexivity].
      - destruct s as [|u t]; [reflexivity|]. exfalso.
        destruct (proj1 (Hm u) (or_introl eq_refl)) as [e [He1 He2]].
        assert (existsb (fun e => sel e =? n) (dvals (g_edges g)) = true); [|congruence].
        apply existsb_exists. exists e. rewrite He2, Nat.eqb_refl. split; [|reflexivity].
        apply dget_In in He1. apply in_map_iff. exists (u, e); auto. }
    clear Hs.
    assert (Hfind : forall kv, In kv (g_nodes g) -> find_node (contents g) (fst kv) = Some kv).
    { intros [k n] Hi. rewrite find_node_dget. simpl. rewrite (In_dget k n); [reflexivity| apply (i_n g H) | exact Hi]. }
    set (P := fun n => negb (existsb (fun e => sel e =? n) (dvals (g_edges g)))) in *.
    assert (G : forall (d : dict uuid (list uuid)) (ns : dict uuid nat), dkeys d = dkeys ns ->
      (forall n s, In (n, s) d -> emptyb s = P n) ->
      (forall kv, In kv ns -> find_node (contents g) (fst kv) = Some kv) ->
      flat_map (fun u => match find_node (contents g) u with Some kv => [kv] | None => [] end)
        (dkeys (filter (fun kv => emptyb (snd kv)) d)) = filter (fun kv => P (fst kv)) ns).
    { clear. induction d as [|[n s] t IH]; intros [|[n' v] ns] Hk Hf Hg; simpl in *; try discriminate; [reflexivity|].
      inversion Hk; subst n'. rewrite (Hf n s (or_introl eq_refl)).
      assert (IH' := IH ns H1 (fun a b Hi => Hf a b (or_intror Hi)) (fun kv Hi => Hg kv (or_intror Hi))).
      destruct (P n); simpl; [|exact IH'].
      pose proof (Hg (n, v) (or_introl eq_refl)) as Hgn. simpl in Hgn. rewrite Hgn. simpl.
      rewrite IH'. reflexivity. }
    apply (G d (g_nodes g)); auto.
  Qed.

  (** ** Refinement *)
  Theorem graph_step_refines : forall g o, Inv g ->
    let '(g', a) := graph_step ord g o in
    let '(m', b) := mstep (contents g) o in
    Inv g' /\ contents g' = m' /\ same_answer a b /\ (is_raise a = true -> g' = g).
  Proof.
    intros g o H. destruct o as [u n|r|e|r|r d|r|r| | |u|]; simpl.
    - (* add_node *)
      rewrite has_node_dmem. destruct (dmem u (g_nodes g)) eqn:E.
      + unfold add_node. rewrite E. simpl. auto.
      + destruct (add_node_Inv g u n H E) as (H1 & H2 & H3 & H4).
        destruct (add_node g u n) as [g' a]; simpl in *; subst a.
        split; [exact H1|]. split; [unfold contents; rewrite H3, H4; reflexivity|].
        split; [reflexivity | discriminate].
    - (* remove_node *)
      destruct (coerce_id r) as [n|x] eqn:Er; [|unfold remove_node; rewrite Er; simpl; auto].
      rewrite find_node_dget. destruct (dget n (g_nodes g)) as [pay|] eqn:En; simpl.
      + destruct (remove_node_Inv g r n pay H Er En) as (H1 & H2 & H3 & H4).
        destruct (remove_node ord g r) as [g' a]; simpl in *; subst a.
        split; [exact H1|]. split; [|split; [reflexivity | discriminate]].
        unfold contents. rewrite H3, H4, (dvals_filter_edges g (fun e => negb (touches n e))), ddel_filter by apply (i_n g H). reflexivity.
      + unfold remove_node. rewrite Er, En. simpl; auto.
    - (* add_edge *)
      rewrite !has_node_dmem, (has_edge_dmem g _ H).
      destruct (dmem (e_head e) (g_nodes g)) eqn:Eh; simpl;
        [|unfold add_edge; rewrite Eh; simpl; auto].
      destruct (dmem (e_tail e) (g_nodes g)) eqn:Et; simpl;
        [|unfold add_edge; rewrite Eh, Et; simpl; auto].
      destruct (dmem (e_id e) (g_edges g)) eqn:Ee.
      + unfold add_edge. rewrite Eh, Et, Ee. simpl; auto.
      + destruct (add_edge_Inv g e H Eh Et Ee) as (H1 & H2 & H3 & H4).
        destruct (add_edge g e) as [g' a]; simpl in *; subst a.
        split; [exact H1|]. split; [|split; [reflexivity | discriminate]].
        unfold contents, dvals. rewrite H3, H4, map_app. reflexivity.
    - (* remove_edge *)
      unfold remove_edge. destruct (coerce_id r) as [u|x]; [|simpl; auto].
      rewrite (dget_edges_spec g H). destruct (dget u (g_edges g)) as [e|] eqn:Ee.
      + destruct (remove_edge_Inv g u e H Ee) as (H1 & H2 & H3 & H4).
        destruct (remove_edge_id g u) as [g' a]; simpl in *; subst a.
        split; [exact H1|]. split; [|split; [reflexivity | discriminate]].
        unfold contents. rewrite H3, H4, (dvals_ddel_edges g u H). reflexivity.
      + unfold remove_edge_id. rewrite Ee. simpl; auto.
    - (* node edges *)
      destruct d; simpl; auto;
        (destruct (coerce_id r) as [n|x]; simpl; [|auto]);
        destruct (in_edges_perm g n H) as [ei [I1 I2]];
        destruct (out_edges_perm g n H) as [eo [O1 O2]].
      + rewrite app_nil_r, I1. simpl. split; [exact H|]. split; [reflexivity|].
        split; [rewrite app_nil_r; exact I2 | discriminate].
      + rewrite O1. simpl. auto.
      + rewrite (lookup_edges_app g _ _ _ _ I1 O1). simpl. split; [exact H|].
        split; [reflexivity|]. split; [apply Permutation_app; assumption | discriminate].
    - (* predecessors *)
      unfold get_predecessors. destruct (coerce_id r) as [n|x]; simpl; [|auto].
      destruct (in_edges_perm g n H) as [ei [I1 I2]]. rewrite I1. simpl.
      rewrite lookup_nodes_ok; simpl.
      + split; [exact H|]. split; [reflexivity|]. split; [|discriminate].
        rewrite flat_map_concat_map, map_map, <- flat_map_concat_map.
        apply flat_map_Permutation with (f := fun e => match find_node (contents g) (e_head e) with Some kv => [kv] | None => [] end).
        exact I2.
      + intros u Hu. apply in_map_iff in Hu. destruct Hu as [e [<- He]].
        apply (Permutation_in _ I2) in He. apply filter_In in He. destruct He as [He _].
        apply in_map_iff in He. destruct He as [[k e'] [He1 He2]]. simpl in He1; subst e'.
        apply In_dget in He2; [|apply (i_e g H)]. apply (i_end g H k e He2).
    - (* successors *)
      unfold get_successors. destruct (coerce_id r) as [n|x]; simpl; [|auto].
      destruct (out_edges_perm g n H) as [ei [I1 I2]]. rewrite I1. simpl.
      rewrite lookup_nodes_ok; simpl.
      + split; [exact H|]. split; [reflexivity|]. split; [|discriminate].
        rewrite flat_map_concat_map, map_map, <- flat_map_concat_map.
        apply flat_map_Permutation with (f := fun e => match find_node (contents g) (e_tail e) with Some kv => [kv] | None => [] end).
        exact I2.
      + intros u Hu. apply in_map_iff in Hu. destruct Hu as [e [<- He]].
        apply (Permutation_in _ I2) in He. apply filter_In in He. destruct He as [He _].
        apply in_map_iff in He. destruct He as [[k e'] [He1 He2]]. simpl in He1; subst e'.
        apply In_dget in He2; [|apply (i_e g H)]. apply (i_end g H k e He2).
    - (* heads *)
      unfold get_heads. rewrite lookup_nodes_ok; simpl.
      + rewrite (empty_index g (g_in g) e_tail H (i_ki g H) (i_in g H)).
        split; [exact H|]. split; [reflexivity|]. split; [reflexivity | discriminate].
      + intros u Hu. rewrite <- (i_ki g H). unfold dkeys in *. apply in_map_iff in Hu.
        destruct Hu as [kv [<- Hi]]. apply filter_In in Hi. apply in_map; tauto.
    - unfold get_tails. rewrite lookup_nodes_ok; simpl.
      + rewrite (empty_index g (g_out g) e_head H (i_ko g H) (i_out g H)).
        split; [exact H|]. split; [reflexivity|]. split; [reflexivity | discriminate].
      + intros u Hu. rewrite <- (i_ko g H). unfold dkeys in *. apply in_map_iff in Hu.
        destruct Hu as [kv [<- Hi]]. apply filter_In in Hi. apply in_map; tauto.
    - rewrite has_node_dmem, (has_edge_dmem g u H). split; [exact H|].
      split; [reflexivity|]. split; [reflexivity | discriminate].
    - split; [exact H|]. split; [reflexivity|]. split; [reflexivity | discriminate].
  Qed.

  Theorem run_Inv : forall ops g, Inv g -> Inv (graph_run ord g ops).
  Proof.
    induction ops as [|o t IH]; intros g H; simpl; [exact H|]. apply IH.
    pose proof (graph_step_refines g o H) as Hs.
    destruct (graph_step ord g o) as [g' a]. destruct (mstep (contents g) o). tauto.
  Qed.

  Theorem greachable_Inv : forall g, greachable ord g -> Inv g.
  Proof. intros g (ns & es & ops & Hw & ->). apply run_Inv, new_Inv; exact Hw. Qed.
End RN.
