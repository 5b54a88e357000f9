(** Correctness of is_acyclic, topological_sort and find_path. *)
From Coq Require Import List ZArith Bool Lia Arith Permutation Relations.
From Verif Require Import PyBase PyFacts ModelProgression ModelGraph SpecGraph ProofsGraph.
Import ListNotations.
#[local] Arguments eqb : simpl never.

(** ** Edge relation *)
Definition E (g : graph) (a b : uuid) : Prop :=
  exists e, In e (dvals (g_edges g)) /\ e_head e = a /\ e_tail e = b.

Lemma E_dget : forall g a b, Inv g ->
  (E g a b <-> exists u e, dget u (g_edges g) = Some e /\ e_head e = a /\ e_tail e = b).
Proof.
  intros g a b H. split.
  - intros [e [He Hx]]. apply in_map_iff in He. destruct He as [[u e'] [H1 H2]].
    simpl in H1; subst e'. exists u, e. split; [apply In_dget; [apply (i_e g H) | exact H2] | exact Hx].
  - intros [u [e [He Hx]]]. exists e. split; [|exact Hx]. apply dget_In in He.
    apply in_map_iff. exists (u, e); auto.
Qed.

Lemma E_nodes : forall g a b, Inv g -> E g a b ->
  In a (dkeys (g_nodes g)) /\ In b (dkeys (g_nodes g)).
Proof.
  intros g a b H He. apply (E_dget g a b H) in He. destruct He as [u [e [He [<- <-]]]].
  apply (i_end g H u e He).
Qed.

Notation tc := (clos_trans uuid).
Notation rtc := (clos_refl_trans uuid).

Lemma rtc_step_tc : forall (R : uuid -> uuid -> Prop) x y z, rtc R x y -> R y z -> tc R x z.
Proof.
  intros R x y z H. revert z. induction H as [x y H|x|x y z0 H1 IH1 H2 IH2]; intros z Hz.
  - apply t_trans with y; apply t_step; assumption.
  - apply t_step; exact Hz.
  - apply IH2 in Hz. clear IH2.
    assert (G : forall a b, rtc R a b -> forall c, tc R b c -> tc R a c).
    { intros a b Hab. induction Hab as [a b Hab|a|a b c' Hab IHab Hbc IHbc]; intros d Hd.
      - apply t_trans with b; [apply t_step; exact Hab | exact Hd].
      - exact Hd.
      - auto. }
    eapply G; eauto.
Qed.

Lemma tc_first : forall (R : uuid -> uuid -> Prop) x z, tc R x z -> exists y, R x y /\ rtc R y z.
Proof.
  intros R x z H. apply clos_trans_t1n in H. induction H as [x y H|x y z H H1 IH].
  - exists y. split; [exact H | apply rt_refl].
  - exists y. split; [exact H|]. destruct IH as [w [Hw1 Hw2]].
    apply rt_trans with w; [apply rt_step; exact Hw1 | exact Hw2].
Qed.

Lemma walk_rtc : forall g a es b, walk (contents g) any_edge a es b -> rtc (E g) a b.
Proof.
  intros g a es b H. induction H as [a|a e es b He _ <- _ IH]; [apply rt_refl|].
  apply rt_trans with (e_tail e); [|exact IH]. apply rt_step. exists e; auto.
Qed.

Lemma rtc_walk : forall g a b, rtc (E g) a b -> exists es, walk (contents g) any_edge a es b.
Proof.
  intros g a b H. apply clos_rt_rt1n in H. induction H as [a|a y b [e [He [H1 H2]]] _ [es IH]].
  - exists []; constructor.
  - exists (e :: es). constructor; auto. rewrite H2; exact IH.
Qed.

Lemma on_cycle_tc : forall g n, on_cycle (contents g) n <-> tc (E g) n n.
Proof.
  intros g n. split.
  - intros [es [Hne Hw]]. inversion Hw as [|a e es' b He _ Ha Hw']; subst; [contradiction|].
    apply walk_rtc in Hw'. apply clos_rt_rtn1 in Hw'.
    assert (G : forall x y z, E g x y -> rtc (E g) y z -> tc (E g) x z).
    { intros x y z Hxy Hyz. apply clos_rt_rt1n in Hyz. revert x Hxy.
      induction Hyz as [y|y w z Hyw _ IH]; intros x Hxy; [apply t_step; exact Hxy|].
      apply t_trans with y; [apply t_step; exact Hxy | apply IH; exact Hyw]. }
    apply clos_rtn1_rt in Hw'. eapply G; [|exact Hw']. exists e; auto.
  - intros H. apply tc_first in H. destruct H as [y [[e [He [H1 H2]]] Hr]].
    apply rtc_walk in Hr. destruct Hr as [es Hes]. exists (e :: es).
    split; [discriminate|]. constructor; auto. rewrite H2; exact Hes.
Qed.

Section Alg.
  Variable ord : bool -> uuid -> list uuid -> list uuid.
  Hypothesis Hord : fair ord.
  Variable g : graph.
  Hypothesis HI : Inv g.

  Notation nodes := (dkeys (g_nodes g)).

  (** The out-edge ids of a node, as iterated. *)
  Lemma out_ids : forall n s, dget n (g_out g) = Some s ->
    (forall u, In u (ord true n s) -> exists e, dget u (g_edges g) = Some e /\ e_head e = n) /\
    (forall b, E g n b -> exists u e, In u (ord true n s) /\ dget u (g_edges g) = Some e /\ e_tail e = b).
  Proof.
    intros n s Hs. destruct (i_out g HI n s Hs) as [_ Hm]. split.
    - intros u Hu. apply (ord_In ord Hord) in Hu. apply Hm; exact Hu.
    - intros b Hb. apply (E_dget g n b HI) in Hb. destruct Hb as [u [e [He [H1 H2]]]].
      exists u, e. split; [apply (ord_In ord Hord), Hm; eauto | auto].
  Qed.

  (** ** Depth-first search *)
  Definition dfs_loop (rec : colors -> uuid -> outcome (bool * colors)) (n : uuid) :=
    fix loop (us : list uuid) (c : colors) {struct us} : outcome (bool * colors) :=
      match us with
      | [] => Ret (true, dset n Black c)
      | u :: t =>
          match dget u (g_edges g) with
          | None => Raise NotFoundError
          | Some e =>
              match dget (e_tail e) c with
              | None => Raise KeyError
              | Some Gray => Ret (false, c)
              | Some White =>
                  match rec c (e_tail e) with
                  | Raise x => Raise x
                  | Ret (false, c') => Ret (false, c')
                  | Ret (true, c') => loop t c'
                  end
              | Some Black => loop t c
              end
          end
      end.

  Lemma dfs_unfold : forall lim c n, dfs ord (S lim) g c n =
    match dget n (g_out g) with
    | None => Raise KeyError
    | Some s => dfs_loop (dfs ord lim g) n (ord true n s) (dset n Gray c)
    end.
  Proof. reflexivity. Qed.

  Definition black_ok (c : colors) : Prop := forall x, dget x c = Some Black ->
    (forall y, E g x y -> dget y c = Some Black) /\ ~ tc (E g) x x.

  (** Black nodes only reach black nodes. *)
  Lemma black_closed : forall c x y, black_ok c -> dget x c = Some Black ->
    rtc (E g) x y -> dget y c = Some Black.
  Proof.
    intros c x y Hb Hx Hr. apply clos_rt_rt1n in Hr. induction Hr as [x|x w y Hxw _ IH]; [exact Hx|].
    apply IH. apply (Hb x Hx). exact Hxw.
  Qed.

  Definition grown (c c' : colors) : Prop :=
    dkeys c' = nodes /\ black_ok c' /\
    (forall x, dget x c = Some Black -> dget x c' = Some Black).

  Lemma loop_correct : forall lim n,
    (forall c m b c', dkeys c = nodes -> black_ok c -> dget m c = Some White ->
       dfs ord lim g c m = Ret (b, c') ->
       (b = false -> (forall x, dget x c = Some Gray -> rtc (E g) x m) -> exists z, tc (E g) z z) /\
       (b = true -> grown c c' /\ dget m c' = Some Black /\
          (forall x, dget x c' = Some Gray <-> dget x c = Some Gray))) ->
    forall us c b c', dkeys c = nodes -> black_ok c -> dget n c = Some Gray ->
      (forall u, In u us -> exists e, dget u (g_edges g) = Some e /\ e_head e = n) ->
      (forall y, E g n y -> dget y c = Some Black \/
         exists u e, In u us /\ dget u (g_edges g) = Some e /\ e_tail e = y) ->
      dfs_loop (dfs ord lim g) n us c = Ret (b, c') ->
      (b = false -> (forall x, dget x c = Some Gray -> rtc (E g) x n) -> exists z, tc (E g) z z) /\
      (b = true -> grown c c' /\ dget n c' = Some Black /\
         (forall x, dget x c' = Some Gray <-> dget x c = Some Gray /\ x <> n)).
  Proof.
    intros lim n IH us; induction us as [|u t IHt]; intros c b c' Hk Hb Hn Hus Hout Hrun; simpl in Hrun.
    - inversion Hrun; subst. split; [discriminate|]. intros _.
      assert (Hsucc : forall y, E g n y -> dget y c = Some Black).
      { intros y Hy. destruct (Hout y Hy) as [H|[u [e [[] _]]]]; exact H. }
      assert (Hnin : In n (dkeys c)) by (eapply dget_Some_key; eauto).
      split; [|split].
      + split; [rewrite dkeys_dset_in; assumption|]. split.
        * intros x Hx. rewrite dget_dset in Hx. destruct (eqb_spec x n) as [Hxn|Hne]; [subst x|].
          -- split.
             ++ intros y Hy. rewrite dget_dset. destruct (eqb y n); [reflexivity | apply Hsucc; exact Hy].
             ++ intros Hc. apply tc_first in Hc. destruct Hc as [y [Hy Hr]].
                pose proof (black_closed c y n Hb (Hsucc y Hy) Hr). congruence.
          -- destruct (Hb x Hx) as [B1 B2]. split; [|exact B2]. intros y Hy. rewrite dget_dset.
             destruct (eqb y n); [reflexivity | apply B1; exact Hy].
        * intros x Hx. rewrite dget_dset. destruct (eqb x n); [reflexivity | exact Hx].
      + rewrite dget_dset, eqb_refl. reflexivity.
      + intros x. rewrite dget_dset. destruct (eqb_spec x n) as [->|Hne].
        * split; [discriminate | intros [_ Hc]; congruence].
        * split; [auto | tauto].
    - destruct (Hus u (or_introl eq_refl)) as [e [He Hh]]. rewrite He in Hrun.
      assert (Hedge : E g n (e_tail e)) by (apply (E_dget g _ _ HI); exists u, e; auto).
      assert (Hus' : forall u, In u t -> exists e, dget u (g_edges g) = Some e /\ e_head e = n)
        by (intros v Hv; apply Hus; right; exact Hv).
      destruct (dget (e_tail e) c) as [[| |]|] eqn:Et; [| | |discriminate].
      + (* white *)
        destruct (dfs ord lim g c (e_tail e)) as [[b1 c1]|x] eqn:Ed; [|discriminate].
        destruct (IH c (e_tail e) b1 c1 Hk Hb Et Ed) as [IF IT]. destruct b1.
        * destruct (IT eq_refl) as [[K1 [B1 M1]] [T1 G1]].
          assert (Hn1 : dget n c1 = Some Gray) by (apply G1; exact Hn).
          destruct (IHt c1 b c' K1 B1 Hn1 Hus') as [RF RT]; [|exact Hrun|].
          { intros y Hy. destruct (Hout y Hy) as [H|[v [e' [[<-|Hv] [He' Hy']]]]].
            - left; apply M1; exact H.
            - left. assert (e' = e) by congruence; subst e'. rewrite <- Hy'. exact T1.
            - right; exists v, e'; auto. }
          split.
          -- intros Hbf Hg. apply RF; [exact Hbf|]. intros x Hx. apply Hg, G1; exact Hx.
          -- intros Hbt. destruct (RT Hbt) as [[K2 [B2 M2]] [T2 G2]]. split; [|split; [exact T2|]].
             ++ split; [exact K2|]. split; [exact B2|]. intros x Hx. apply M2, M1; exact Hx.
             ++ intros x. rewrite G2, G1. reflexivity.
        * injection Hrun as <- <-. split; [|discriminate]. intros _ Hg. apply IF; [reflexivity|].
          intros x Hx. apply rt_trans with n; [apply Hg; exact Hx | apply rt_step; exact Hedge].
      + (* gray: cycle *)
        injection Hrun as <- <-. split; [|discriminate]. intros _ Hg.
        exists (e_tail e). apply rtc_step_tc with n; [apply Hg; exact Et | exact Hedge].
      + (* black *)
        apply (IHt c b c' Hk Hb Hn Hus'); [|exact Hrun].
        intros y Hy. destruct (Hout y Hy) as [H|[v [e' [[<-|Hv] [He' Hy']]]]]; [auto| |].
        * left. assert (e' = e) by congruence; subst e'. rewrite <- Hy'. exact Et.
        * right; exists v, e'; auto.
  Qed.

  Lemma dfs_correct : forall lim c m b c', dkeys c = nodes -> black_ok c -> dget m c = Some White ->
    dfs ord lim g c m = Ret (b, c') ->
    (b = false -> (forall x, dget x c = Some Gray -> rtc (E g) x m) -> exists z, tc (E g) z z) /\
    (b = true -> grown c c' /\ dget m c' = Some Black /\
       (forall x, dget x c' = Some Gray <-> dget x c = Some Gray)).
  Proof.
    induction lim as [|lim IH]; intros c m b c' Hk Hb Hm Hrun; [discriminate|].
    rewrite dfs_unfold in Hrun. destruct (dget m (g_out g)) as [s|] eqn:Es; [|discriminate].
    destruct (out_ids m s Es) as [O1 O2].
    assert (Hmin : In m (dkeys c)) by (eapply dget_Some_key; eauto).
    set (c0 := dset m Gray c) in *.
    assert (Hk0 : dkeys c0 = nodes) by (unfold c0; rewrite dkeys_dset_in; assumption).
    assert (Hb0 : black_ok c0).
    { intros x Hx. unfold c0 in Hx. rewrite dget_dset in Hx. destruct (eqb_spec x m); [discriminate|].
      destruct (Hb x Hx) as [B1 B2]. split; [|exact B2]. intros y Hy. unfold c0. rewrite dget_dset.
      destruct (eqb_spec y m) as [->|]; [|apply B1; exact Hy].
      pose proof (B1 m Hy). congruence. }
    assert (Hm0 : dget m c0 = Some Gray) by (unfold c0; rewrite dget_dset, eqb_refl; reflexivity).
    destruct (loop_correct lim m IH (ord true m s) c0 b c' Hk0 Hb0 Hm0 O1) as [LF LT].
    - intros y Hy. right. destruct (O2 y Hy) as [u [e [H1 H2]]]. exists u, e; auto.
    - exact Hrun.
    - split.
      + intros Hbf Hg. apply LF; [exact Hbf|]. intros x Hx. unfold c0 in Hx. rewrite dget_dset in Hx.
        destruct (eqb_spec x m) as [Hxm|]; [subst x; apply rt_refl | apply Hg; exact Hx].
      + intros Hbt. destruct (LT Hbt) as [[K [B M]] [T G]]. split; [|split; [exact T|]].
        * split; [exact K|]. split; [exact B|]. intros x Hx. apply M. unfold c0. rewrite dget_dset.
          destruct (eqb_spec x m) as [Hxm|]; [subst x; congruence | exact Hx].
        * intros x. rewrite G. unfold c0. rewrite dget_dset. destruct (eqb_spec x m) as [->|Hne].
          -- split; [intros [_ Hc]; congruence | congruence].
          -- tauto.
  Qed.

  Lemma all_components_correct : forall lim ns c b, dkeys c = nodes -> black_ok c ->
    (forall x, dget x c <> Some Gray) -> incl ns nodes ->
    (forall x, In x nodes -> dget x c = Some Black \/ In x ns) ->
    all_components ord lim g ns c = Ret b ->
    (b = true <-> forall x, ~ tc (E g) x x).
  Proof.
    intros lim ns; induction ns as [|n t IH]; intros c b Hk Hb Hg Hi Hall Hrun; simpl in Hrun.
    - inversion Hrun; subst. split; [|reflexivity]. intros _ x Hc.
      assert (Hx : In x nodes).
      { apply tc_first in Hc. destruct Hc as [y [Hy _]]. apply (E_nodes g x y HI Hy). }
      destruct (Hall x Hx) as [Hbx|[]]. apply (Hb x Hbx); exact Hc.
    - destruct (dget n c) as [[| |]|] eqn:En; [| | |discriminate].
      + destruct (dfs ord lim g c n) as [[b1 c1]|] eqn:Ed; [|discriminate].
        destruct (dfs_correct lim c n b1 c1 Hk Hb En Ed) as [DF DT]. destruct b1.
        * destruct (DT eq_refl) as [[K [B M]] [T G]].
          apply (IH c1 b K B); [| | |exact Hrun].
          -- intros x Hx. apply G in Hx. exact (Hg x Hx).
          -- intros x Hx; apply Hi; right; exact Hx.
          -- intros x Hx. destruct (Hall x Hx) as [H|[<-|H]]; auto.
        * inversion Hrun; subst. split; [discriminate|]. intros Hac. exfalso.
          destruct (DF eq_refl) as [z Hz]; [|exact (Hac z Hz)].
          intros x Hx. exfalso. exact (Hg x Hx).
      + exfalso. exact (Hg n En).
      + apply (IH c b Hk Hb Hg); [| |exact Hrun].
        * intros x Hx; apply Hi; right; exact Hx.
        * intros x Hx. destruct (Hall x Hx) as [H|[<-|H]]; auto.
  Qed.

  Definition white0 : colors := map (fun kv : uuid * nat => (fst kv, White)) (g_nodes g).

  Lemma white0_keys : dkeys white0 = nodes.
  Proof. unfold white0, dkeys. rewrite map_map. reflexivity. Qed.

  Lemma white0_get : forall x k, dget x white0 = Some k -> k = White.
  Proof.
    intros x k H. apply dget_In in H. unfold white0 in H. apply in_map_iff in H.
    destruct H as [kv [H _]]. congruence.
  Qed.

  Theorem is_acyclic_correct : forall lim b, is_acyclic ord lim g = Ret b ->
    (b = true <-> acyclic (contents g)).
  Proof.
    intros lim b H. unfold is_acyclic in H. fold white0 in H.
    rewrite (all_components_correct lim nodes white0 b); [| | | | | |exact H].
    - unfold acyclic. split; intros G n Hn; apply (G n); apply on_cycle_tc; exact Hn.
    - apply white0_keys.
    - intros x Hx. apply white0_get in Hx. discriminate.
    - intros x Hx. apply white0_get in Hx. discriminate.
    - apply incl_refl.
    - auto.
  Qed.

  (** *** Termination within the recursion limit *)
  Definition isw (c : colors) (x : uuid) : bool :=
    match dget x c with Some White => true | _ => false end.
  Definition whites (c : colors) : nat := length (filter (isw c) nodes).

  Lemma whites_le : forall c c', (forall x, isw c' x = true -> isw c x = true) -> whites c' <= whites c.
  Proof.
    intros c c' H. unfold whites. induction nodes as [|n t IH]; simpl; [lia|].
    destruct (isw c' n) eqn:E1.
    - rewrite (H n E1). simpl. lia.
    - destruct (isw c n); simpl; lia.
  Qed.

  Lemma whites_lt : forall c c' n, (forall x, isw c' x = true -> isw c x = true) ->
    In n nodes -> isw c n = true -> isw c' n = false -> whites c' < whites c.
  Proof.
    intros c c' n H. unfold whites. induction nodes as [|m t IH]; simpl; intros Hn H1 H2; [destruct Hn|].
    assert (Hle : length (filter (isw c') t) <= length (filter (isw c) t)).
    { clear - H. induction t as [|n t IH]; simpl; [lia|]. destruct (isw c' n) eqn:E1.
      - rewrite (H n E1). simpl. lia.
      - destruct (isw c n); simpl; lia. }
    destruct Hn as [->|Hn].
    - rewrite H1, H2. simpl. lia.
    - specialize (IH Hn H1 H2). destruct (isw c' m) eqn:E1.
      + rewrite (H m E1). simpl. lia.
      + destruct (isw c m); simpl; lia.
  Qed.

  Definition good_result (enough : Prop) (c : colors) (r : outcome (bool * colors)) : Prop :=
    match r with
    | Ret (_, c') => dkeys c' = nodes /\ forall x, isw c' x = true -> isw c x = true
    | Raise x => x = RecursionErr /\ ~ enough
    end.

  Lemma loop_total : forall lim n,
    (forall c m, dkeys c = nodes -> dget m c = Some White ->
       good_result (whites c <= lim) c (dfs ord lim g c m)) ->
    forall us c, dkeys c = nodes -> In n nodes ->
      (forall u, In u us -> exists e, dget u (g_edges g) = Some e /\ e_head e = n) ->
      good_result (whites c <= lim) c (dfs_loop (dfs ord lim g) n us c).
  Proof.
    intros lim n IH us; induction us as [|u t IHt]; intros c Hk Hn Hus; simpl.
    - split; [rewrite dkeys_dset_in; [exact Hk | rewrite Hk; exact Hn]|].
      intros x. unfold isw. rewrite dget_dset. destruct (eqb x n); [discriminate | auto].
    - destruct (Hus u (or_introl eq_refl)) as [e [He Hh]]. rewrite He.
      assert (Ht : In (e_tail e) (dkeys c)) by (rewrite Hk; apply (i_end g HI u e He)).
      destruct (key_dget _ _ Ht) as [col Hc]. rewrite Hc.
      assert (Hus' : forall u, In u t -> exists e, dget u (g_edges g) = Some e /\ e_head e = n)
        by (intros v Hv; apply Hus; right; exact Hv).
      destruct col.
      + specialize (IH c (e_tail e) Hk Hc).
        destruct (dfs ord lim g c (e_tail e)) as [[[|] c1]|x]; simpl in IH; [| |exact IH].
        * destruct IH as [K1 W1]. specialize (IHt c1 K1 Hn Hus').
          destruct (dfs_loop (dfs ord lim g) n t c1) as [[b2 c2]|x]; simpl in *.
          -- destruct IHt as [K2 W2]. split; [exact K2|]. intros y Hy. apply W1, W2; exact Hy.
          -- destruct IHt as [-> Hno]. split; [reflexivity|]. intros Hle. apply Hno.
             pose proof (whites_le c c1 W1). lia.
        * exact IH.
      + simpl. auto.
      + apply IHt; auto.
  Qed.

  Lemma dfs_total : forall lim c m, dkeys c = nodes -> dget m c = Some White ->
    good_result (whites c <= lim) c (dfs ord lim g c m).
  Proof.
    induction lim as [|lim IH]; intros c m Hk Hm.
    - simpl. split; [reflexivity|]. intros Hle.
      assert (Hin : In m nodes) by (rewrite <- Hk; eapply dget_Some_key; eauto).
      assert (Hw : In m (filter (isw c) nodes))
        by (apply filter_In; split; [exact Hin | unfold isw; rewrite Hm; reflexivity]).
      unfold whites in Hle. destruct (filter (isw c) nodes); [destruct Hw | simpl in Hle; lia].
    - rewrite dfs_unfold.
      assert (Hin : In m nodes) by (rewrite <- Hk; eapply dget_Some_key; eauto).
      destruct (Inv_out g m HI Hin) as [s Hs]. rewrite Hs.
      destruct (out_ids m s Hs) as [O1 _].
      assert (Hk0 : dkeys (dset m Gray c) = nodes)
        by (rewrite dkeys_dset_in; [exact Hk | rewrite Hk; exact Hin]).
      pose proof (loop_total lim m IH (ord true m s) (dset m Gray c) Hk0 Hin O1) as HL.
      assert (Hw : forall x, isw (dset m Gray c) x = true -> isw c x = true).
      { intros x. unfold isw. rewrite dget_dset. destruct (eqb x m); [discriminate | auto]. }
      destruct (dfs_loop (dfs ord lim g) m (ord true m s) (dset m Gray c)) as [[b c']|x]; simpl in *.
      + destruct HL as [K W]. auto.
      + destruct HL as [-> Hno]. split; [reflexivity|]. intros Hle. apply Hno.
        assert (whites (dset m Gray c) < whites c); [|lia].
        apply whites_lt with m; auto.
        * unfold isw; rewrite Hm; reflexivity.
        * unfold isw; rewrite dget_dset, eqb_refl; reflexivity.
  Qed.

  Lemma all_components_total : forall lim ns c, dkeys c = nodes -> incl ns nodes ->
    match all_components ord lim g ns c with
    | Ret _ => True
    | Raise x => x = RecursionErr /\ lim < whites c
    end.
  Proof.
    intros lim ns; induction ns as [|n t IH]; intros c Hk Hi; simpl; [exact I|].
    assert (Hn : In n (dkeys c)) by (rewrite Hk; apply Hi; left; reflexivity).
    assert (Ht : incl t nodes) by (intros x Hx; apply Hi; right; exact Hx).
    destruct (key_dget _ _ Hn) as [col Hc]. rewrite Hc. destruct col; try (apply IH; assumption).
    pose proof (dfs_total lim c n Hk Hc) as HD.
    destruct (dfs ord lim g c n) as [[[|] c1]|x]; simpl in HD; [|exact I|destruct HD; split; [assumption|lia]].
    destruct HD as [K W]. specialize (IH c1 K Ht).
    destruct (all_components ord lim g t c1); [exact I|]. destruct IH as [-> Hl].
    split; [reflexivity|]. pose proof (whites_le c c1 W). lia.
  Qed.

  Theorem is_acyclic_total : forall lim,
    match is_acyclic ord lim g with
    | Ret _ => True
    | Raise x => x = RecursionErr /\ lim < length (g_nodes g)
    end.
  Proof.
    intros lim. unfold is_acyclic. fold white0.
    pose proof (all_components_total lim nodes white0 white0_keys (incl_refl _)) as H.
    destruct (all_components ord lim g nodes white0); [exact I|]. destruct H as [-> H].
    split; [reflexivity|].
    assert (whites white0 <= length (g_nodes g)); [|lia].
    unfold whites. rewrite <- (map_length fst (g_nodes g)). 
    change (map fst (g_nodes g)) with (dkeys (g_nodes g)). generalize (dkeys (g_nodes g)). intros l. clear. induction l as [|y l IH]; simpl; [lia|].
    destruct (isw white0 y); simpl; lia.
  Qed.

  Lemma NoDup_app' : forall l1 l2 : list uuid, NoDup l1 -> NoDup l2 ->
    (forall x, In x l2 -> ~ In x l1) -> NoDup (l1 ++ l2).
  Proof.
    intros l1 l2 H1 H2 H. induction H1 as [|x l Hx Hl IH]; simpl; [exact H2|].
    constructor.
    - rewrite in_app_iff. intros [Hc|Hc]; [exact (Hx Hc)|]. apply (H x Hc). left; reflexivity.
    - apply IH. intros y Hy Hc. apply (H y Hy). right; exact Hc.
  Qed.

  (** ** Kahn's algorithm *)
  Definition cnt_tail (v : uuid) (es : list edge) : nat :=
    length (filter (fun e => e_tail e =? v) es).

  Lemma cnt_tail_cons : forall v e es,
    cnt_tail v (e :: es) = (if e_tail e =? v then 1 else 0) + cnt_tail v es.
  Proof. intros v e es. unfold cnt_tail. simpl. destruct (e_tail e =? v); reflexivity. Qed.

  Lemma relax_spec : forall us es deg q,
    Forall2 (fun u e => dget u (g_edges g) = Some e) us es ->
    (forall e, In e es -> In (e_tail e) (dkeys deg)) ->
    (forall v d, dget v deg = Some d -> (Z.of_nat (cnt_tail v es) <= d)%Z) ->
    exists deg' added, relax g us deg q = Ret (deg', q ++ added) /\
      dkeys deg' = dkeys deg /\
      (forall v, dget v deg' = option_map (fun d => d - Z.of_nat (cnt_tail v es))%Z (dget v deg)) /\
      NoDup added /\
      (forall v, In v added <-> dget v deg = Some (Z.of_nat (cnt_tail v es)) /\ 0 < cnt_tail v es).
  Proof.
    intros us es deg q H2; revert deg q; induction H2 as [|u e us es He H2 IH];
      intros deg q Hin Hle; simpl.
    - exists deg, []. rewrite app_nil_r. split; [reflexivity|]. split; [reflexivity|].
      split; [|split; [constructor|]].
      + intros v. unfold cnt_tail; simpl. destruct (dget v deg); simpl; [rewrite Z.sub_0_r|]; reflexivity.
      + intros v. unfold cnt_tail; simpl. split; [tauto | intros [_ Hc]; lia].
    - rewrite He. destruct (key_dget _ _ (Hin e (or_introl eq_refl))) as [d Hd]. rewrite Hd.
      pose proof (Hle _ _ Hd) as Hled. rewrite cnt_tail_cons, Nat.eqb_refl in Hled.
      set (deg1 := dset (e_tail e) (d - 1)%Z deg).
      assert (Hk1 : dkeys deg1 = dkeys deg)
        by (unfold deg1; rewrite dkeys_dset_in; [reflexivity | eapply dget_Some_key; eauto]).
      destruct (IH deg1 (if (d - 1 =? 0)%Z then q ++ [e_tail e] else q)) as (deg' & added & R1 & R2 & R3 & R4 & R5).
      { intros x Hx. rewrite Hk1. apply Hin; right; exact Hx. }
      { intros v d' Hv. unfold deg1 in Hv. rewrite dget_dset in Hv. destruct (eqb_spec v (e_tail e)) as [->|Hne].
        - inversion Hv; subst. lia.
        - specialize (Hle v d' Hv). rewrite cnt_tail_cons in Hle.
          destruct (Nat.eqb_spec (e_tail e) v); [congruence | exact Hle]. }
      rewrite R1.
      assert (Hcnt : forall v, dget v deg' = option_map (fun d => d - Z.of_nat (cnt_tail v (e :: es)))%Z (dget v deg)).
      { intros v. rewrite R3. unfold deg1. rewrite dget_dset, cnt_tail_cons.
        destruct (eqb_spec v (e_tail e)) as [->|Hne].
        - rewrite Nat.eqb_refl, Hd. simpl. f_equal. lia.
        - destruct (Nat.eqb_spec (e_tail e) v); [congruence|]. reflexivity. }
      destruct (Z.eqb_spec (d - 1) 0) as [Hz|Hz].
      + assert (H0 : cnt_tail (e_tail e) es = 0) by lia.
        exists deg', (e_tail e :: added). rewrite <- app_assoc. split; [reflexivity|].
        split; [congruence|]. split; [exact Hcnt|]. split.
        * constructor; [|exact R4]. intros Hc. apply R5 in Hc. lia.
        * intros v. simpl. rewrite R5. unfold deg1. rewrite dget_dset, cnt_tail_cons.
          destruct (eqb_spec v (e_tail e)) as [->|Hne].
          -- rewrite Nat.eqb_refl, H0, Hd. split; [|auto]. intros _. split; [f_equal; lia | lia].
          -- destruct (Nat.eqb_spec (e_tail e) v); [congruence|]. simpl.
             split; [intros [?|?]; [congruence | assumption] | auto].
      + exists deg', added. split; [reflexivity|]. split; [congruence|]. split; [exact Hcnt|].
        split; [exact R4|]. intros v. rewrite R5. unfold deg1. rewrite dget_dset, cnt_tail_cons.
        destruct (eqb_spec v (e_tail e)) as [->|Hne].
        * rewrite Nat.eqb_refl, Hd. split.
          -- intros [Hq Hp]. inversion Hq. split; [f_equal; lia | lia].
          -- intros [Hq Hp]. inversion Hq. split; [f_equal; lia | lia].
        * destruct (Nat.eqb_spec (e_tail e) v); [congruence|]. reflexivity.
  Qed.

  Notation edges := (dvals (g_edges g)).

  (** In-edges of [v] whose head is not yet in the result. *)
  Definition pending (R : list uuid) (v : uuid) : nat :=
    length (filter (fun e => (e_tail e =? v) && negb (memb (e_head e) R)) edges).

  Definition ordered (R : list uuid) : Prop := forall R1 v R2, R = R1 ++ v :: R2 ->
    forall e, In e edges -> e_tail e = v -> In (e_head e) R1.

  Record K (R q : list uuid) (deg : dict uuid Z) : Prop := {
    k_nd : NoDup (R ++ q);
    k_in : incl (R ++ q) nodes;
    k_keys : dkeys deg = nodes;
    k_deg : forall v d, dget v deg = Some d -> d = Z.of_nat (pending R v);
    k_zero : forall v, In v nodes -> (In v (R ++ q) <-> pending R v = 0);
    k_ord : ordered R
  }.

  Lemma pending_zero : forall R v, pending R v = 0 <->
    forall e, In e edges -> e_tail e = v -> In (e_head e) R.
  Proof.
    intros R v. unfold pending. split.
    - intros H e He Ht. destruct (memb (e_head e) R) eqn:Em; [apply memb_In; exact Em|].
      exfalso. assert (Hf : In e (filter (fun e => (e_tail e =? v) && negb (memb (e_head e) R)) edges)).
      { apply filter_In. split; [exact He|]. rewrite Em, Ht, Nat.eqb_refl. reflexivity. }
      destruct (filter _ edges); [destruct Hf | discriminate].
    - intros H. destruct (filter _ edges) as [|e t] eqn:Ef; [reflexivity|]. exfalso.
      assert (Hf : In e (filter (fun e => (e_tail e =? v) && negb (memb (e_head e) R)) edges))
        by (rewrite Ef; left; reflexivity).
      apply filter_In in Hf. destruct Hf as [He Hb]. apply andb_true_iff in Hb. destruct Hb as [H1 H2].
      apply Nat.eqb_eq in H1. specialize (H e He H1). apply memb_In in H. rewrite H in H2. discriminate.
  Qed.

  Lemma pending_step : forall R n v, ~ In n R ->
    pending R v = pending (R ++ [n]) v + cnt_tail v (filter (fun e => e_head e =? n) edges).
  Proof.
    intros R n v Hn. unfold pending, cnt_tail. induction edges as [|e t IH]; simpl; [reflexivity|].
    assert (Hm : memb (e_head e) (R ++ [n]) = memb (e_head e) R || (e_head e =? n)).
    { unfold memb. rewrite existsb_app. simpl. rewrite orb_false_r. reflexivity. }
    rewrite Hm. destruct (e_tail e =? v) eqn:Et; simpl.
    - destruct (Nat.eqb_spec (e_head e) n) as [Eh|Eh]; simpl.
      + rewrite Et. simpl. assert (memb (e_head e) R = false) as -> by (rewrite Eh; apply memb_notIn; exact Hn).
        simpl. lia.
      + rewrite orb_false_r. destruct (memb (e_head e) R); simpl; lia.
    - destruct (e_head e =? n); simpl; [rewrite Et|]; exact IH.
  Qed.

  Lemma cnt_tail_perm : forall v es es', Permutation es es' -> cnt_tail v es = cnt_tail v es'.
  Proof.
    intros v es es' H. unfold cnt_tail. induction H; simpl; auto; try lia.
    - destruct (e_tail x =? v); simpl; lia.
    - destruct (e_tail x =? v), (e_tail y =? v); simpl; lia.
  Qed.

  Lemma K_step : forall R n q deg s, K R (n :: q) deg -> dget n (g_out g) = Some s ->
    exists deg' q', relax g (ord true n s) deg q = Ret (deg', q') /\ K (R ++ [n]) q' deg'.
  Proof.
    intros R n q deg s HK Hs. destruct HK as [Knd Kin Kkeys Kdeg Kzero Kord].
    destruct (i_out g HI n s Hs) as [Nd Hm].
    destruct (lookup_edges_ok g (ord true n s)) as [es [_ H2]].
    { intros u Hu. apply (ord_In ord Hord), Hm in Hu. destruct Hu as [e [He _]]; eauto. }
    assert (Hperm : Permutation es (filter (fun e => e_head e =? n) edges)).
    { apply (Forall2_edges_perm g (ord true n s)); auto.
      - apply (ord_NoDup ord Hord); exact Nd.
      - intros u. rewrite (ord_In ord Hord), Hm. setoid_rewrite Nat.eqb_eq. reflexivity. }
    assert (HnR : ~ In n R).
    { intros Hc. apply NoDup_remove_2 in Knd. apply Knd, in_or_app; auto. }
    assert (Hcnt : forall v, cnt_tail v es = cnt_tail v (filter (fun e => e_head e =? n) edges))
      by (intros v; apply cnt_tail_perm; exact Hperm).
    destruct (relax_spec (ord true n s) es deg q H2) as (deg' & added & R1 & R2 & R3 & R4 & R5).
    { intros e He. rewrite Kkeys. apply (Permutation_in _ Hperm) in He. apply filter_In in He.
      destruct He as [He _]. apply in_map_iff in He. destruct He as [[u e'] [H3 H4]]. simpl in H3; subst e'.
      apply In_dget in H4; [|apply (i_e g HI)]. apply (i_end g HI u e H4). }
    { intros v d Hv. rewrite (Kdeg v d Hv), (pending_step R n v HnR), Hcnt. lia. }
    exists deg', (q ++ added). split; [exact R1|].
    assert (Hnz : forall v, In v added -> ~ In v (R ++ n :: q)).
    { intros v Hv Hc. apply R5 in Hv. destruct Hv as [Hv1 Hv2].
      assert (Hvn : In v nodes) by (apply Kin; exact Hc).
      apply (Kzero v Hvn) in Hc. apply Kdeg in Hv1. lia. }
    constructor.
    - replace ((R ++ [n]) ++ q ++ added) with ((R ++ n :: q) ++ added)
        by (rewrite <- !app_assoc; reflexivity).
      apply NoDup_app'; auto. 
    - intros v Hv. rewrite <- app_assoc in Hv. simpl in Hv.
      assert (Hv' : In v (R ++ n :: q) \/ In v added).
      { rewrite in_app_iff in Hv. simpl in Hv. rewrite in_app_iff in Hv. rewrite in_app_iff. simpl. tauto. }
      destruct Hv' as [Hv'|Hv']; [apply Kin; exact Hv'|].
      apply R5 in Hv'. destruct Hv' as [Hv' _]. rewrite <- Kkeys. eapply dget_Some_key; eauto.
    - congruence.
    - intros v d Hv. rewrite R3 in Hv. destruct (dget v deg) as [d0|] eqn:E0; [|discriminate].
      simpl in Hv. inversion Hv; subst. rewrite (Kdeg v d0 E0), (pending_step R n v HnR), Hcnt. lia.
    - intros v Hv. rewrite <- app_assoc. simpl.
      assert (Hiff : In v (R ++ n :: q ++ added) <-> In v (R ++ n :: q) \/ In v added).
      { rewrite !in_app_iff. simpl. rewrite in_app_iff. tauto. }
      rewrite Hiff, R5, (Kzero v Hv).
      assert (Hvd : In v (dkeys deg)) by (rewrite Kkeys; exact Hv).
      destruct (key_dget _ _ Hvd) as [d Hd]. rewrite Hd. pose proof (Kdeg v d Hd) as Hd2.
      pose proof (pending_step R n v HnR) as Hp. rewrite <- Hcnt in Hp. split.
      + intros [H|[H H']]; [lia|]. inversion H. lia.
      + intros H. destruct (Nat.eq_dec (pending R v) 0); [auto|]. right. split; [f_equal; lia | lia].
    - intros A v B HAB e He Ht.
      assert (Hcase : (exists B', B = B' ++ [n] /\ R = A ++ v :: B') \/ (B = [] /\ A = R /\ v = n)).
      { destruct B as [|b B0] using rev_ind.
        - right. apply app_inj_tail in HAB. destruct HAB; auto.
        - left. exists B0. replace (A ++ v :: B0 ++ [b]) with ((A ++ v :: B0) ++ [b]) in HAB
            by (rewrite <- app_assoc; reflexivity).
          apply app_inj_tail in HAB. destruct HAB; subst; auto. }
      destruct Hcase as [[B' [_ HR]]|[_ [-> ->]]].
      + eapply Kord; eauto.
      + assert (Hnn : In n nodes) by (apply Kin, in_or_app; right; left; reflexivity).
        assert (Hz : pending R n = 0) by (apply (Kzero n Hnn), in_or_app; right; left; reflexivity).
        apply (proj1 (pending_zero R n) Hz e He Ht).
  Qed.

  Lemma K_init : let deg := in_degrees g in
    K [] (map fst (filter (fun kv : uuid * Z => (snd kv =? 0)%Z) deg)) deg.
  Proof.
    intros deg.
    assert (Hk : dkeys deg = nodes).
    { unfold deg, in_degrees, dkeys. rewrite map_map. simpl. apply (i_ki g HI). }
    assert (Hd : forall v d, dget v deg = Some d -> d = Z.of_nat (pending [] v)).
    { intros v d Hv. apply dget_In in Hv. unfold deg, in_degrees in Hv. apply in_map_iff in Hv.
      destruct Hv as [[n s] [Heq Hi]]. simpl in Heq. inversion Heq; subst. f_equal.
      apply In_dget in Hi; [|rewrite (i_ki g HI); apply (i_n g HI)].
      destruct (i_in g HI v s Hi) as [Nd Hm].
      destruct (lookup_edges_ok g s) as [es [_ H2]].
      { intros u Hu. apply Hm in Hu. destruct Hu as [e [He _]]; eauto. }
      assert (Hperm : Permutation es (filter (fun e => e_tail e =? v) edges)).
      { apply (Forall2_edges_perm g s); auto.
        intros u. rewrite Hm. setoid_rewrite Nat.eqb_eq. reflexivity. }
      unfold pending. replace (length s) with (length es).
      - rewrite (Permutation_length Hperm). f_equal. apply filter_same_pred. intros e _.
        simpl. rewrite andb_true_r. reflexivity.
      - symmetry. clear - H2. induction H2; simpl; congruence. }
    assert (Hnd : NoDup (dkeys deg)) by (rewrite Hk; apply (i_n g HI)).
    constructor; simpl; auto.
    - apply (dkeys_filter_NoDup Z (fun kv => (snd kv =? 0)%Z) deg Hnd).
    - intros v Hv. rewrite <- Hk. apply in_map_iff in Hv. destruct Hv as [kv [<- Hi]].
      apply filter_In in Hi. apply in_map; tauto.
    - intros v Hv. rewrite <- Hk in Hv. destruct (key_dget _ _ Hv) as [d Hvd].
      pose proof (Hd v d Hvd) as Hp. split.
      + intros H. apply in_map_iff in H. destruct H as [[v' d'] [H1 H2]]. simpl in H1; subst v'.
        apply filter_In in H2. destruct H2 as [H2 H3]. apply In_dget in H2; [|exact Hnd].
        simpl in H3. apply Z.eqb_eq in H3. rewrite Hvd in H2. inversion H2; subst. lia.
      + intros H. apply in_map_iff. exists (v, d). split; [reflexivity|]. apply filter_In.
        split; [apply dget_In; exact Hvd|]. simpl. apply Z.eqb_eq. lia.
    - intros A v B HAB. destruct A; discriminate.
  Qed.

  (** A non-empty set of nodes in which everyone has a predecessor contains a cycle. *)
  Lemma pred_closed_cycle : forall S : list uuid, S <> [] ->
    (forall v, In v S -> exists u, In u S /\ E g u v) -> exists z, tc (E g) z z.
  Proof.
    intros S Hne Hp.
    assert (Hchain : forall k, exists l, length l = Datatypes.S k /\ incl l S /\
              forall l1 a l2 b l3, l = l1 ++ a :: l2 ++ b :: l3 -> tc (E g) a b).
    { induction k as [|k IH].
      - destruct S as [|v S']; [contradiction|]. exists [v]. split; [reflexivity|].
        split; [intros x [<-|[]]; left; reflexivity|].
        intros l1 a l2 b l3 H. destruct l1 as [|x l1]; simpl in H; inversion H.
        + destruct l2; discriminate.
        + destruct l1; discriminate.
      - destruct IH as [l [H1 [H2 H3]]]. destruct l as [|v l]; [discriminate|].
        destruct (Hp v) as [u [Hu He]]; [apply H2; left; reflexivity|].
        exists (u :: v :: l). split; [simpl in *; lia|]. split.
        + intros x [<-|Hx]; [exact Hu | apply H2; exact Hx].
        + intros l1 a l2 b l3 H. destruct l1 as [|x l1]; simpl in H; inversion H; subst.
          * destruct l2 as [|y l2]; simpl in *; inversion H5; subst.
            -- apply t_step; exact He.
            -- apply t_trans with y; [apply t_step; exact He|].
               apply (H3 [] y l2 b l3). reflexivity.
          * apply (H3 l1 a l2 b l3); assumption. }
    destruct (Hchain (length S)) as [l [H1 [H2 H3]]].
    assert (Hnd : ~ NoDup l).
    { intros Hn. pose proof (NoDup_incl_length Hn H2). lia. }
    assert (Hdup : exists a l1 l2 l3, l = l1 ++ a :: l2 ++ a :: l3).
    { clear - Hnd. induction l as [|x t IH]; [exfalso; apply Hnd; constructor|].
      destruct (in_dec Nat.eq_dec x t) as [Hi|Hi].
      - apply in_split in Hi. destruct Hi as [l2 [l3 ->]]. exists x, [], l2, l3. reflexivity.
      - destruct IH as [a [l1 [l2 [l3 ->]]]].
        + intros Hn. apply Hnd. constructor; assumption.
        + exists a, (x :: l1), l2, l3. reflexivity. }
    destruct Hdup as [a [l1 [l2 [l3 Hl]]]]. exists a. eapply H3; eauto.
  Qed.

  Lemma kahn_correct : forall fuel R q deg res, K R q deg -> map fst res = R ->
    incl res (g_nodes g) -> length R + fuel = length (g_nodes g) ->
    acyclic (contents g) ->
    exists l, kahn ord fuel g q deg res = Ret l /\ Permutation l (g_nodes g) /\ ordered (map fst l).
  Proof.
    induction fuel as [|fuel IH]; intros R q deg res HK HR Hres Hlen Hac.
    - destruct q as [|n q].
      + exists res. split; [reflexivity|]. split; [|rewrite HR; apply (k_ord _ _ _ HK)].
        apply NoDup_Permutation_bis.
        * apply (NoDup_map_inv fst). rewrite HR. pose proof (k_nd _ _ _ HK) as H. rewrite app_nil_r in H. exact H.
        * rewrite <- (map_length fst res), HR. lia.
        * exact Hres.
      + exfalso. pose proof (NoDup_incl_length (k_nd _ _ _ HK) (k_in _ _ _ HK)) as H.
        rewrite app_length in H. unfold dkeys in H. rewrite map_length in H. simpl in H. lia.
    - destruct q as [|n q].
      + (* queue empty: everything has been emitted *)
        exists res. split; [reflexivity|]. split; [|rewrite HR; apply (k_ord _ _ _ HK)].
        assert (Hnd : NoDup R) by (pose proof (k_nd _ _ _ HK) as H; rewrite app_nil_r in H; exact H).
        assert (Hall : incl nodes R).
        { destruct (filter (fun v => negb (memb v R)) nodes) as [|v0 S'] eqn:Es.
          - intros v Hv. destruct (memb v R) eqn:Em; [apply memb_In; exact Em|]. exfalso.
            assert (In v (filter (fun v => negb (memb v R)) nodes)) by (apply filter_In; rewrite Em; auto).
            rewrite Es in H. destruct H.
          - exfalso. destruct (pred_closed_cycle (filter (fun v => negb (memb v R)) nodes)) as [z Hz].
            + rewrite Es; discriminate.
            + intros v Hv. apply filter_In in Hv. destruct Hv as [Hv1 Hv2].
              apply negb_true_iff, memb_notIn in Hv2.
              assert (Hp : pending R v <> 0).
              { intros Hp. apply Hv2. pose proof (proj2 (k_zero _ _ _ HK v Hv1) Hp) as H.
                rewrite app_nil_r in H. exact H. }
              assert (Hex : exists e, In e edges /\ e_tail e = v /\ ~ In (e_head e) R).
              { unfold pending in Hp. destruct (filter _ edges) as [|e t] eqn:Ef; [simpl in Hp; lia|].
                assert (Hf : In e (filter (fun e => (e_tail e =? v) && negb (memb (e_head e) R)) edges))
                  by (rewrite Ef; left; reflexivity).
                apply filter_In in Hf. destruct Hf as [He Hb]. apply andb_true_iff in Hb.
                destruct Hb as [B1 B2]. exists e. split; [exact He|]. split; [apply Nat.eqb_eq; exact B1|].
                apply memb_notIn. apply negb_true_iff; exact B2. }
              destruct Hex as [e [He [Ht Hh]]]. exists (e_head e).
              assert (HE : E g (e_head e) v) by (exists e; auto).
              split; [|exact HE]. apply filter_In. split; [apply (E_nodes g _ _ HI HE)|].
              apply negb_true_iff, memb_notIn; exact Hh.
            + apply (Hac z). apply on_cycle_tc; exact Hz. }
        apply NoDup_Permutation_bis; [| |exact Hres].
        * apply (NoDup_map_inv fst). rewrite HR. exact Hnd.
        * pose proof (NoDup_incl_length (i_n g HI) Hall) as H. unfold dkeys in H.
          rewrite map_length in H. rewrite <- HR, map_length in H. exact H.
      + assert (Hn : In n nodes) by (apply (k_in _ _ _ HK), in_or_app; right; left; reflexivity).
        destruct (key_dget _ _ Hn) as [pay Hp]. destruct (Inv_out g n HI Hn) as [s Hs].
        destruct (K_step R n q deg s HK Hs) as (deg' & q' & Hr & HK').
        simpl. rewrite Hp, Hs, Hr. apply (IH (R ++ [n])); auto.
        * rewrite map_app, HR. reflexivity.
        * intros x Hx. apply in_app_or in Hx. destruct Hx as [Hx|[<-|[]]]; [apply Hres; exact Hx|].
          apply dget_In; exact Hp.
        * rewrite app_length. simpl. lia.
  Qed.

  Theorem topo_correct : forall lim,
    match topological_sort ord lim g with
    | Ret l => acyclic (contents g) /\ Permutation l (g_nodes g) /\
        forall e, In e edges -> exists i j, pos (e_head e) l = Some i /\ pos (e_tail e) l = Some j /\ i < j
    | Raise ValueError => ~ acyclic (contents g)
    | Raise x => x = RecursionErr /\ lim < length (g_nodes g)
    end.
  Proof.
    intros lim. unfold topological_sort. pose proof (is_acyclic_total lim) as HT.
    destruct (is_acyclic ord lim g) as [[|]|x] eqn:Ea.
    - pose proof (proj1 (is_acyclic_correct lim true Ea) eq_refl) as Hac.
      destruct (kahn_correct (length (g_nodes g)) [] _ _ [] K_init eq_refl) as [l [H1 [H2 H3]]];
        [intros x [] | reflexivity | exact Hac |].
      rewrite H1. split; [exact Hac|]. split; [exact H2|]. intros e He.
      assert (Hn : NoDup (map fst l)).
      { eapply Permutation_NoDup; [apply Permutation_map; symmetry; exact H2 | apply (i_n g HI)]. }
      assert (HE : E g (e_head e) (e_tail e)) by (exists e; auto).
      destruct (E_nodes g _ _ HI HE) as [_ Ht].
      assert (Hin : In (e_tail e) (map fst l)).
      { eapply Permutation_in; [apply Permutation_map; symmetry; exact H2 | exact Ht]. }
      unfold pos. destruct (index_of (e_tail e) (map fst l)) as [j|] eqn:Ej;
        [|apply index_of_None in Ej; contradiction].
      apply in_split in Hin. destruct Hin as [A [B HAB]].
      pose proof (H3 A (e_tail e) B HAB e He eq_refl) as HA.
      rewrite HAB in Ej, Hn. rewrite HAB.
      assert (Hidx : forall x (L M : list uuid), In x L -> exists i, index_of x (L ++ M) = Some i /\ i < length L).
      { intros x L M; induction L as [|y L IH]; simpl; intros Hx; [destruct Hx|].
        destruct (eqb_spec x y) as [->|Hxy]; [exists 0; split; [reflexivity | lia]|].
        destruct Hx as [Hx|Hx]; [congruence|]. destruct (IH Hx) as [i [Hi Hl]].
        rewrite Hi. exists (S i). split; [reflexivity | lia]. }
      destruct (Hidx (e_head e) A (e_tail e :: B) HA) as [i [Hi Hl]].
      exists i, j. split; [exact Hi|]. split; [reflexivity|].
      assert (Hj : j = length A).
      { apply NoDup_remove_2 in Hn. assert (HnA : ~ In (e_tail e) A) by (intros Hc; apply Hn, in_or_app; auto).
        clear - HnA Ej. revert j Ej. induction A as [|y A IH]; simpl; intros j Ej.
        - rewrite eqb_refl in Ej. congruence.
        - destruct (eqb_spec (e_tail e) y) as [Hy|]; [exfalso; apply HnA; left; symmetry; exact Hy|].
          destruct (index_of (e_tail e) (A ++ e_tail e :: B)) as [j'|]; [|discriminate].
          inversion Ej; subst. f_equal. apply IH; [|reflexivity]. intros Hc; apply HnA; right; exact Hc. }
      lia.
    - intros Hac. pose proof (proj2 (is_acyclic_correct lim false Ea) Hac). discriminate.
    - destruct HT as [-> HT]. auto.
  Qed.
End Alg.
