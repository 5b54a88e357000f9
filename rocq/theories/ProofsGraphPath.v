(** Correctness of find_path: breadth-first search returns a shortest path. *)
From Coq Require Import List ZArith Bool Lia Arith Permutation Sorted.
From Verif Require Import PyBase PyFacts ModelProgression ModelGraph SpecGraph ProofsGraph ProofsGraphAlg.
Import ListNotations.
#[local] Arguments eqb : simpl never.

Section Path.
  Variable ord : bool -> uuid -> list uuid -> list uuid.
  Hypothesis Hord : fair ord.
  Variable g : graph.
  Hypothesis HI : Inv g.
  Variable check : bool.
  Variable cond : edge -> bool.
  Variable start stop : uuid.

  (** Edges that may be traversed. *)
  Definition usable (e : edge) : bool := negb check || cond e.

  Notation nodes := (dkeys (g_nodes g)).
  Notation edges := (dvals (g_edges g)).

  (** [P] dequeued, [C] fully expanded, [q] queue, [d] ghost distance, [lo] the
      distance of the last dequeued node. *)
  Record B (P C q : list uuid) (parent : dict uuid (uuid * uuid)) (vis : list uuid)
    (d : uuid -> nat) (lo : nat) : Prop := {
    b_vis : forall v, In v vis <-> In v (P ++ q);
    b_nd : NoDup (P ++ q);
    b_in : incl (P ++ q) nodes;
    b_start : In start vis /\ d start = 0 /\ dget start parent = None;
    b_par : forall v, In v vis -> v <> start -> exists p u e, dget v parent = Some (p, u) /\
              dget u (g_edges g) = Some e /\ e_head e = p /\ e_tail e = v /\
              usable e = true /\ In p vis /\ d v = S (d p);
    b_un : forall v, ~ In v vis -> dget v parent = None;
    b_len : forall v, In v vis -> d v <= length parent;
    b_P : forall v, In v P -> d v <= lo;
    b_q : forall v, In v q -> lo <= d v <= S lo;
    b_sort : StronglySorted (fun x y => d x <= d y) q;
    b_closed : forall p e, In p C -> In e edges -> e_head e = p -> usable e = true ->
                 In (e_tail e) vis /\ d (e_tail e) <= S (d p);
    b_C : incl C P;
    b_stop : ~ In stop P
  }.

  Lemma In_edges : forall e, In e edges <-> exists u, dget u (g_edges g) = Some e.
  Proof.
    intros e. split.
    - intros H. apply in_map_iff in H. destruct H as [[u e'] [H1 H2]]. simpl in H1; subst e'.
      exists u. apply In_dget; [apply (i_e g HI) | exact H2].
    - intros [u H]. apply dget_In in H. apply in_map_iff. exists (u, e); auto.
  Qed.

  Lemma sorted_snoc : forall (R : uuid -> uuid -> Prop) l x, StronglySorted R l ->
    (forall y, In y l -> R y x) -> StronglySorted R (l ++ [x]).
  Proof.
    intros R l x H. induction H as [|a l Hl IH Hf]; intros Hx; simpl.
    - constructor; constructor.
    - constructor; [apply IH; intros y Hy; apply Hx; right; exact Hy|].
      apply Forall_app. split; [exact Hf|]. constructor; [apply Hx; left; reflexivity | constructor].
  Qed.

  Lemma sorted_ext : forall (R R' : uuid -> uuid -> Prop) l, StronglySorted R l ->
    (forall x y, In x l -> In y l -> R x y -> R' x y) -> StronglySorted R' l.
  Proof.
    intros R R' l H. induction H as [|a l Hl IH Hf]; intros Hx; constructor.
    - apply IH. intros x y Hi Hj. apply Hx; right; assumption.
    - rewrite Forall_forall in *. intros y Hy. apply Hx; [left; reflexivity | right; exact Hy | apply Hf; exact Hy].
  Qed.

  (** Discovering one new node. *)
  Lemma B_push : forall P C q parent vis d lo cur u e,
    B P C q parent vis d lo -> In cur P -> d cur = lo ->
    dget u (g_edges g) = Some e -> e_head e = cur -> usable e = true -> ~ In (e_tail e) vis ->
    exists d', B P C (q ++ [e_tail e]) (dset (e_tail e) (cur, u) parent) (sadd (e_tail e) vis) d' lo /\
      d' (e_tail e) = S lo /\ forall x, In x vis -> d' x = d x.
  Proof.
    intros P C q parent vis d lo cur u e HB Hcur Hlo Hu Hh Hus Hnew.
    set (v := e_tail e) in *. set (d' := fun x => if x =? v then S lo else d x).
    assert (Hd : forall x, In x vis -> d' x = d x).
    { intros x Hx. unfold d'. destruct (Nat.eqb_spec x v); [congruence | reflexivity]. }
    assert (Hdv : d' v = S lo) by (unfold d'; rewrite Nat.eqb_refl; reflexivity).
    assert (Hsadd : sadd v vis = vis ++ [v]).
    { unfold sadd. assert (memb v vis = false) as -> by (apply memb_notIn; exact Hnew). reflexivity. }
    assert (Hcv : In cur vis) by (apply (b_vis _ _ _ _ _ _ _ HB), in_or_app; auto).
    assert (Hinq : forall x, In x q -> In x vis)
      by (intros x Hx; apply (b_vis _ _ _ _ _ _ _ HB), in_or_app; auto).
    assert (HinP : forall x, In x P -> In x vis)
      by (intros x Hx; apply (b_vis _ _ _ _ _ _ _ HB), in_or_app; auto).
    exists d'. split; [|split; [exact Hdv | exact Hd]]. rewrite Hsadd. constructor.
    - intros x. rewrite app_assoc, in_app_iff, (in_app_iff (P ++ q)), (b_vis _ _ _ _ _ _ _ HB). reflexivity.
    - rewrite app_assoc. apply NoDup_app'; [apply (b_nd _ _ _ _ _ _ _ HB) | constructor; [intros []|constructor] |].
      intros x [<-|[]] Hc. apply Hnew, (b_vis _ _ _ _ _ _ _ HB); exact Hc.
    - rewrite app_assoc. intros x Hx. apply in_app_or in Hx. destruct Hx as [Hx|[<-|[]]].
      + apply (b_in _ _ _ _ _ _ _ HB); exact Hx.
      + apply (i_end g HI u e Hu).
    - destruct (b_start _ _ _ _ _ _ _ HB) as [S1 [S2 S3]]. split; [apply in_or_app; auto|].
      split; [rewrite Hd; assumption|]. rewrite dget_dset_other; [exact S3|]. congruence.
    - intros x Hx Hne. apply in_app_or in Hx. destruct Hx as [Hx|[<-|[]]].
      + destruct (b_par _ _ _ _ _ _ _ HB x Hx Hne) as (p & u' & e' & H1 & H2 & H3 & H4 & H5 & H6 & H7).
        exists p, u', e'. rewrite dget_dset_other; [|congruence].
        rewrite (Hd x Hx), (Hd p H6). repeat (split; [assumption|]). split; [apply in_or_app; auto | exact H7].
      + exists cur, u, e. rewrite dget_dset_same. repeat (split; [assumption || reflexivity|]).
        split; [apply in_or_app; auto|]. rewrite Hdv, (Hd cur Hcv). congruence.
    - intros x Hx. rewrite dget_dset_other.
      + apply (b_un _ _ _ _ _ _ _ HB). intros Hc; apply Hx, in_or_app; auto.
      + intros ->. apply Hx, in_or_app; right; left; reflexivity.
    - assert (Hlen : length (dset v (cur, u) parent) = S (length parent)).
      { rewrite dkeys_dset_notin; [rewrite app_length; simpl; lia|]. apply dget_None.
        apply (b_un _ _ _ _ _ _ _ HB); exact Hnew. }
      intros x Hx. rewrite Hlen. apply in_app_or in Hx. destruct Hx as [Hx|[<-|[]]].
      + rewrite (Hd x Hx). pose proof (b_len _ _ _ _ _ _ _ HB x Hx). lia.
      + rewrite Hdv. pose proof (b_len _ _ _ _ _ _ _ HB cur Hcv). lia.
    - intros x Hx. rewrite (Hd x (HinP x Hx)). apply (b_P _ _ _ _ _ _ _ HB); exact Hx.
    - intros x Hx. apply in_app_or in Hx. destruct Hx as [Hx|[<-|[]]].
      + rewrite (Hd x (Hinq x Hx)). apply (b_q _ _ _ _ _ _ _ HB); exact Hx.
      + rewrite Hdv. lia.
    - apply sorted_snoc.
      + apply (sorted_ext _ _ _ (b_sort _ _ _ _ _ _ _ HB)). intros x y Hx Hy.
        rewrite (Hd x (Hinq x Hx)), (Hd y (Hinq y Hy)). auto.
      + intros y Hy. rewrite Hdv, (Hd y (Hinq y Hy)). apply (b_q _ _ _ _ _ _ _ HB); exact Hy.
    - intros p e' Hp He' Hh' Hus'. destruct (b_closed _ _ _ _ _ _ _ HB p e' Hp He' Hh' Hus') as [H1 H2].
      split; [apply in_or_app; auto|]. rewrite (Hd _ H1).
      unfold d'. destruct (Nat.eqb_spec p v) as [->|]; [|exact H2].
      exfalso. apply Hnew, HinP, (b_C _ _ _ _ _ _ _ HB); exact Hp.
    - apply (b_C _ _ _ _ _ _ _ HB).
    - apply (b_stop _ _ _ _ _ _ _ HB).
  Qed.

  Lemma vis_bound : forall P C q parent vis d lo v, B P C q parent vis d lo -> In v vis -> d v <= S lo.
  Proof.
    intros P C q parent vis d lo v HB Hv. apply (b_vis _ _ _ _ _ _ _ HB), in_app_or in Hv.
    destruct Hv as [Hv|Hv].
    - pose proof (b_P _ _ _ _ _ _ _ HB v Hv). lia.
    - apply (b_q _ _ _ _ _ _ _ HB v Hv).
  Qed.

  Lemma expand_ok : forall us P C q parent vis d lo cur,
    B P C q parent vis d lo -> In cur P -> d cur = lo ->
    (forall u, In u us -> exists e, dget u (g_edges g) = Some e /\ e_head e = cur) ->
    exists q' parent' vis' d', expand check cond g cur us q parent vis = Ret (q', parent', vis') /\
      B P C q' parent' vis' d' lo /\
      (forall x, In x vis -> In x vis' /\ d' x = d x) /\
      (forall u e, In u us -> dget u (g_edges g) = Some e -> usable e = true ->
         In (e_tail e) vis' /\ d' (e_tail e) <= S lo).
  Proof.
    induction us as [|u t IH]; intros P C q parent vis d lo cur HB Hcur Hlo Hus; simpl.
    - exists q, parent, vis, d. split; [reflexivity|]. split; [exact HB|]. split; [auto|]. intros u e [].
    - destruct (Hus u (or_introl eq_refl)) as [e [He Hh]]. rewrite He.
      assert (Hus' : forall u, In u t -> exists e, dget u (g_edges g) = Some e /\ e_head e = cur)
        by (intros w Hw; apply Hus; right; exact Hw).
      destruct (memb (e_tail e) vis) eqn:Em; [|destruct (check && negb (cond e)) eqn:Ec].
      + destruct (IH P C q parent vis d lo cur HB Hcur Hlo Hus') as (q' & pa' & vi' & d' & R & HB' & HV & HX).
        exists q', pa', vi', d'. split; [exact R|]. split; [exact HB'|]. split; [exact HV|].
        intros w e' [<-|Hw] He' Hu'; [|eauto]. assert (e' = e) by congruence; subst e'.
        apply memb_In in Em. destruct (HV _ Em) as [V1 V2]. split; [exact V1|].
        rewrite V2. apply (vis_bound _ _ _ _ _ _ _ _ HB Em).
      + destruct (IH P C q parent vis d lo cur HB Hcur Hlo Hus') as (q' & pa' & vi' & d' & R & HB' & HV & HX).
        exists q', pa', vi', d'. split; [exact R|]. split; [exact HB'|]. split; [exact HV|].
        intros w e' [<-|Hw] He' Hu'; [|eauto]. assert (e' = e) by congruence; subst e'.
        exfalso. unfold usable in Hu'. destruct check, (cond e); discriminate.
      + assert (Hue : usable e = true) by (unfold usable; destruct check, (cond e); auto; discriminate).
        apply memb_notIn in Em.
        destruct (B_push P C q parent vis d lo cur u e HB Hcur Hlo He Hh Hue Em) as (d1 & HB1 & Hd1 & Hold).
        assert (Hcv : In cur vis) by (apply (b_vis _ _ _ _ _ _ _ HB), in_or_app; auto).
        destruct (IH P C _ _ _ d1 lo cur HB1 Hcur) as (q' & pa' & vi' & d' & R & HB' & HV & HX);
          [rewrite (Hold cur Hcv); exact Hlo | exact Hus' |].
        assert (Hsub : forall x, In x vis -> In x (sadd (e_tail e) vis))
          by (intros x Hx; unfold sadd; destruct (memb _ _); [exact Hx | apply in_or_app; auto]).
        assert (Hself : In (e_tail e) (sadd (e_tail e) vis)).
        { unfold sadd. destruct (memb (e_tail e) vis) eqn:Em'; [apply memb_In; exact Em' |].
          apply in_or_app; right; left; reflexivity. }
        exists q', pa', vi', d'. split; [exact R|]. split; [exact HB'|]. split.
        * intros x Hx. destruct (HV x (Hsub x Hx)) as [V1 V2]. split; [exact V1|].
          rewrite V2. apply Hold; exact Hx.
        * intros w e' [<-|Hw] He' Hu'; [|eauto]. assert (e' = e) by congruence; subst e'.
          destruct (HV _ Hself) as [V1 V2]. split; [exact V1|]. rewrite V2, Hd1. lia.
  Qed.

  Notation W := (walk (contents g) usable).

  Lemma walk_snoc : forall a es e, W a es (e_head e) -> In e edges -> usable e = true ->
    W a (es ++ [e]) (e_tail e).
  Proof.
    intros a es e H He Hu. remember (e_head e) as b eqn:Eb. revert Eb.
    induction H as [a|a e' es b H1 H2 H3 H4 IH]; intros Eb; simpl.
    - subst a. constructor; auto. constructor.
    - constructor; auto.
  Qed.

  Lemma rebuild_ok : forall P C q parent vis d lo, B P C q parent vis d lo ->
    forall fuel v acc, In v vis -> d v <= fuel ->
    exists es, rebuild fuel g parent v acc = Ret (es ++ acc) /\ W start es v /\ length es = d v.
  Proof.
    intros P C q parent vis d lo HB fuel; induction fuel as [|fuel IH]; intros v acc Hv Hd.
    - destruct (Nat.eq_dec v start) as [->|Hne].
      + destruct (b_start _ _ _ _ _ _ _ HB) as [S1 [S2 S3]]. exists []. simpl. rewrite S3.
        split; [reflexivity|]. split; [constructor | auto].
      + destruct (b_par _ _ _ _ _ _ _ HB v Hv Hne) as (p & u & e & _ & _ & _ & _ & _ & _ & H). lia.
    - destruct (Nat.eq_dec v start) as [->|Hne].
      + destruct (b_start _ _ _ _ _ _ _ HB) as [S1 [S2 S3]]. exists []. simpl. rewrite S3.
        split; [reflexivity|]. split; [constructor | auto].
      + destruct (b_par _ _ _ _ _ _ _ HB v Hv Hne) as (p & u & e & H1 & H2 & H3 & H4 & H5 & H6 & H7).
        simpl. rewrite H1, H2. destruct (IH p (e :: acc) H6) as [es [R [Hw Hl]]]; [lia|].
        exists (es ++ [e]). rewrite R, <- app_assoc. split; [reflexivity|]. split.
        * rewrite <- H4. apply walk_snoc; [rewrite H3; exact Hw | apply In_edges; eauto | exact H5].
        * rewrite app_length. simpl. lia.
  Qed.

  Lemma walk_frontier : forall P q parent vis d lo, B P P q parent vis d lo ->
    forall a es b, W a es b -> In a vis ->
    (exists y, In y q /\ d y <= d a + length es) \/ In b P.
  Proof.
    intros P q parent vis d lo HB a es b H. induction H as [a|a e es b H1 H2 H3 H4 IH]; intros Ha.
    - apply (b_vis _ _ _ _ _ _ _ HB), in_app_or in Ha. destruct Ha as [Ha|Ha]; [auto|].
      left. exists a. split; [exact Ha | lia].
    - apply (b_vis _ _ _ _ _ _ _ HB), in_app_or in Ha. destruct Ha as [Ha|Ha].
      + destruct (b_closed _ _ _ _ _ _ _ HB a e Ha H1 H3 H2) as [C1 C2].
        destruct (IH C1) as [[y [Y1 Y2]]|Hb]; [|auto]. left. exists y. split; [exact Y1|]. simpl. lia.
      + left. exists a. split; [exact Ha | lia].
  Qed.

  Definition shortest (r : option (list edge)) : Prop :=
    match r with
    | Some es => W start es stop /\ forall es', W start es' stop -> length es <= length es'
    | None => forall es, ~ W start es stop
    end.

  Lemma bfs_ok : forall fuel P q parent vis d lo, B P P q parent vis d lo ->
    length P + fuel = length (g_nodes g) ->
    exists r, bfs ord check cond fuel g stop q parent vis = Ret r /\ shortest r.
  Proof.
    induction fuel as [|fuel IH]; intros P q parent vis d lo HB Hfuel.
    - destruct q as [|cur q].
      + exists None. split; [reflexivity|]. intros es Hw.
        destruct (b_start _ _ _ _ _ _ _ HB) as [S1 _].
        destruct (walk_frontier _ _ _ _ _ _ HB _ _ _ Hw S1) as [[y [[] _]]|H].
        apply (b_stop _ _ _ _ _ _ _ HB H).
      + exfalso. pose proof (NoDup_incl_length (b_nd _ _ _ _ _ _ _ HB) (b_in _ _ _ _ _ _ _ HB)) as H.
        rewrite app_length in H. unfold dkeys in H. rewrite map_length in H. simpl in H. lia.
    - destruct q as [|cur q].
      + exists None. split; [reflexivity|]. intros es Hw.
        destruct (b_start _ _ _ _ _ _ _ HB) as [S1 _].
        destruct (walk_frontier _ _ _ _ _ _ HB _ _ _ Hw S1) as [[y [[] _]]|H].
        apply (b_stop _ _ _ _ _ _ _ HB H).
      + assert (Hcv : In cur vis) by (apply (b_vis _ _ _ _ _ _ _ HB), in_or_app; right; left; reflexivity).
        destruct (b_start _ _ _ _ _ _ _ HB) as [S1 [S2 S3]].
        assert (Hsorted : forall y, In y (cur :: q) -> d cur <= d y).
        { pose proof (b_sort _ _ _ _ _ _ _ HB) as Hs. inversion Hs as [|a l Hl Hf]; subst.
          rewrite Forall_forall in Hf. intros y [<-|Hy]; [lia | apply Hf; exact Hy]. }
        simpl. destruct (Nat.eqb_spec cur stop) as [Heq|Hneq].
        * destruct (rebuild_ok _ _ _ _ _ _ _ HB (length parent) stop []) as [es [R [Hw Hl]]];
            [congruence | apply (b_len _ _ _ _ _ _ _ HB); congruence |].
          rewrite R, app_nil_r. exists (Some es). split; [reflexivity|]. split; [exact Hw|].
          intros es' Hw'. destruct (walk_frontier _ _ _ _ _ _ HB _ _ _ Hw' S1) as [[y [Y1 Y2]]|H].
          -- specialize (Hsorted y Y1). rewrite Hl, <- Heq. lia.
          -- exfalso. apply (b_stop _ _ _ _ _ _ _ HB H).
        * assert (Hcn : In cur nodes) by (apply (b_in _ _ _ _ _ _ _ HB), in_or_app; right; left; reflexivity).
          destruct (Inv_out g cur HI Hcn) as [s Hs]. rewrite Hs.
          destruct (out_ids ord Hord g HI cur s Hs) as [O1 O2].
          assert (HB1 : B (P ++ [cur]) P q parent vis d (d cur)).
          { pose proof (b_q _ _ _ _ _ _ _ HB cur (or_introl eq_refl)) as Hcq.
            constructor; rewrite <- ?app_assoc; simpl; try apply HB.
            - intros v Hv. apply in_app_or in Hv. destruct Hv as [Hv|[<-|[]]]; [|lia].
              pose proof (b_P _ _ _ _ _ _ _ HB v Hv). lia.
            - intros v Hv. split; [apply Hsorted; right; exact Hv|].
              pose proof (b_q _ _ _ _ _ _ _ HB v (or_intror Hv)). lia.
            - pose proof (b_sort _ _ _ _ _ _ _ HB) as Hso. inversion Hso; assumption.
            - intros v Hv; apply in_or_app; auto.
            - intros Hc. apply in_app_or in Hc. destruct Hc as [Hc|[Hc|[]]]; [|congruence].
              apply (b_stop _ _ _ _ _ _ _ HB Hc). }
          destruct (expand_ok (ord true cur s) _ _ _ _ _ _ _ cur HB1) as (q' & pa' & vi' & d' & R & HB' & HV & HX);
            [apply in_or_app; right; left; reflexivity | reflexivity | exact O1 |].
          rewrite R. apply (IH (P ++ [cur]) q' pa' vi' d' (d cur)).
          -- destruct HB' as [f1 f2 f3 f4 f5 f6 f7 f8 f9 f10 f11 f12 f13].
             constructor; auto; [|apply incl_refl].
             intros p e Hp He Hh Hu. apply in_app_or in Hp. destruct Hp as [Hp|[<-|[]]]; [eapply f11; eauto|].
             assert (HE : E g cur (e_tail e)) by (exists e; auto).
             destruct (O2 _ HE) as (u & e' & U1 & U2 & U3).
             destruct (HV cur Hcv) as [_ ->].
             apply In_edges in He. destruct He as [w Hw].
             assert (Hw' : In w (ord true cur s)).
             { apply (ord_In ord Hord), (i_out g HI cur s Hs). eauto. }
             eapply HX; eauto.
          -- rewrite app_length. simpl. lia.
  Qed.

  Theorem bfs_correct : In start nodes -> exists r,
    bfs ord check cond (length (g_nodes g)) g stop [start] [] [start] = Ret r /\ shortest r.
  Proof.
    intros Hs. apply (bfs_ok (length (g_nodes g)) [] [start] [] [start] (fun _ => 0) 0); [|reflexivity].
    constructor; simpl; auto; try (intros; contradiction).
    - tauto.
    - constructor; [intros []|constructor].
    - intros x [<-|[]]; exact Hs.
    - intros v [<-|[]] Hne; congruence.
    - constructor; constructor.
    - apply incl_refl.
  Qed.
End Path.
