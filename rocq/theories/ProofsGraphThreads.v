(** Proofs for ModelGraphThreads. *)
From Coq Require Import List ZArith Bool Arith Lia Permutation.
From Verif Require Import PyBase PyFacts ModelProgression ModelGraph SpecGraph ProofsGraph ModelGraphThreads.
Import ListNotations.
#[local] Arguments eqb : simpl never.

(** ** Bodies run without interruption do what the sequential model says *)
Lemma run_add_node u n g : run (c_add_node u n) g = add_node g u n.
Proof. unfold c_add_node, add_node. cbn. destruct (dmem u (g_nodes g)); reflexivity. Qed.

Lemma run_act_out h k next g :
  run (act_out h k next) g =
  match upd_set h k (g_out g) with Ret o => run next (set_out o g) | Raise x => (g, Raise x) end.
Proof. unfold act_out. cbn. destruct (upd_set h k (g_out g)); reflexivity. Qed.

Lemma run_act_in h k next g :
  run (act_in h k next) g =
  match upd_set h k (g_in g) with Ret o => run next (set_in o g) | Raise x => (g, Raise x) end.
Proof. unfold act_in. cbn. destruct (upd_set h k (g_in g)); reflexivity. Qed.

Lemma run_add_edge e g : run (c_add_edge e) g = add_edge g e.
Proof.
  unfold c_add_edge, add_edge, Look. cbn [run].
  destruct (negb (dmem (e_head e) (g_nodes g))); [reflexivity|]. cbn [run].
  destruct (negb (dmem (e_tail e) (g_nodes g))); [reflexivity|]. cbn [run].
  destruct (dmem (e_id e) (g_edges g)); [reflexivity|].
  rewrite run_act_out. cbn [g_out set_edges g_in g_nodes g_edges].
  destruct (upd_set (sadd (e_id e)) (e_head e) (g_out g)); [|reflexivity].
  rewrite run_act_in. cbn [g_out set_out set_edges g_in g_nodes g_edges].
  destruct (upd_set (sadd (e_id e)) (e_tail e) (g_in g)); reflexivity.
Qed.

Lemma run_remove_edge_id u next g :
  run (c_remove_edge_id u next) g =
  match remove_edge_id g u with
  | (g', Ret (GEdge e)) => run (next e) g'
  | (g', Ret v) => (g', Ret v)
  | (g', Raise x) => (g', Raise x)
  end.
Proof.
  unfold c_remove_edge_id, remove_edge_id, Look. cbn [run].
  destruct (dget u (g_edges g)) as [e|] eqn:E; [|reflexivity].
  rewrite run_act_out. destruct (upd_set (sdiscard u) (e_head e) (g_out g)); [|reflexivity].
  rewrite run_act_in. cbn [g_out set_out g_in g_nodes g_edges].
  destruct (upd_set (sdiscard u) (e_tail e) (g_in g)); [|reflexivity].
  cbn [run g_out set_out set_in g_in g_nodes g_edges].
  assert (M : dmem u (g_edges g) = true) by (apply dmem_true; eapply dget_Some_key; exact E).
  rewrite M. reflexivity.
Qed.

Lemma remove_edge_id_shape g u :
  match remove_edge_id g u with (_, Ret v) => exists e, v = GEdge e | _ => True end.
Proof.
  unfold remove_edge_id. destruct (dget u (g_edges g)) as [e|]; [|exact I].
  destruct (upd_set _ _ (g_out g)); [|exact I]. destruct (upd_set _ _ (g_in g)); [eauto|exact I].
Qed.

Lemma run_remove_edges us : forall next g,
  run (c_remove_edges us next) g =
  match remove_edges g us with
  | (g', Ret _) => run next g'
  | (g', Raise x) => (g', Raise x)
  end.
Proof.
  induction us as [|u us IH]; intros next g; [reflexivity|].
  cbn [c_remove_edges remove_edges]. rewrite run_remove_edge_id.
  pose proof (remove_edge_id_shape g u) as Hs.
  destruct (remove_edge_id g u) as [g' [v|x]]; [|reflexivity].
  destruct Hs as [e ->]. apply IH.
Qed.

Lemma upd_set_keys h k d d' n : upd_set h k d = Ret d' -> dmem n d' = dmem n d.
Proof.
  unfold upd_set. destruct (dget k d) as [s|] eqn:E; [|discriminate]. intros [= <-].
  apply eq_true_iff_eq. rewrite !dmem_true, dkeys_dset_in; [reflexivity|].
  eapply dget_Some_key; exact E.
Qed.

Lemma remove_edge_id_keys g u n :
  let g' := fst (remove_edge_id g u) in
  g_nodes g' = g_nodes g /\ dmem n (g_out g') = dmem n (g_out g) /\ dmem n (g_in g') = dmem n (g_in g).
Proof.
  unfold remove_edge_id. destruct (dget u (g_edges g)) as [e|]; [|auto].
  destruct (upd_set _ _ (g_out g)) eqn:E1; [|auto].
  destruct (upd_set _ _ (g_in g)) eqn:E2; cbn; repeat split; auto;
    eapply upd_set_keys; eauto.
Qed.

Lemma remove_edges_keys us n : forall g,
  let g' := fst (remove_edges g us) in
  g_nodes g' = g_nodes g /\ dmem n (g_out g') = dmem n (g_out g) /\ dmem n (g_in g') = dmem n (g_in g).
Proof.
  induction us as [|u us IH]; intros g; [cbn; auto|]. cbn [remove_edges].
  pose proof (remove_edge_id_keys g u n) as K. destruct (remove_edge_id g u) as [g1 [v|x]]; cbn in K.
  - cbn. specialize (IH g1). cbn in IH. destruct K as (K1 & K2 & K3), IH as (I1 & I2 & I3).
    repeat split; congruence.
  - cbn. exact K.
Qed.

Section G.
  Variable ord : bool -> uuid -> list uuid -> list uuid.

  Lemma run_remove_node r g : run (c_remove_node ord r) g = remove_node ord g r.
  Proof.
    unfold c_remove_node, remove_node, Look. destruct (coerce_id r) as [n|x]; [|reflexivity].
    cbn [run]. destruct (dget n (g_nodes g)) as [pay|] eqn:En; [|reflexivity].
    cbn [run]. destruct (dget n (g_in g)) as [si|] eqn:Ei; [|reflexivity].
    rewrite run_remove_edges.
    pose proof (remove_edges_keys (ord false n si) n g) as K1.
    destruct (remove_edges g (ord false n si)) as [g1 [v|x]]; [|reflexivity].
    cbn [run]. destruct (dget n (g_out g1)) as [so|] eqn:Eo; [|reflexivity].
    rewrite run_remove_edges.
    pose proof (remove_edges_keys (ord true n so) n g1) as K2.
    destruct (remove_edges g1 (ord true n so)) as [g2 [v'|x]]; [|reflexivity].
    cbn in K1, K2. destruct K1 as (A1 & A2 & A3), K2 as (B1 & B2 & B3).
    assert (M1 : dmem n (g_in g2) = true).
    { rewrite B3, A3. apply dmem_true. eapply dget_Some_key; exact Ei. }
    assert (M2 : dmem n (g_out g2) = true).
    { rewrite B2. apply dmem_true. eapply dget_Some_key; exact Eo. }
    assert (M3 : dmem n (g_nodes g2) = true).
    { rewrite B1, A1. apply dmem_true. eapply dget_Some_key; exact En. }
    cbn [run]. rewrite M1. cbn [negb run set_in g_in g_out g_nodes]. rewrite M2.
    cbn [negb run set_out set_in g_in g_out g_nodes]. rewrite M3. reflexivity.
  Qed.

  Definition wop_op (o : wop) : graph_op :=
    match o with
    | WAddNode u n => GAddNode u n | WRemNode r => GRemNode r
    | WAddEdge e => GAddEdge e | WRemEdge r => GRemEdge r
    end.

  Lemma run_body o g : run (body ord o) g = graph_step ord g (wop_op o).
  Proof.
    destruct o; cbn [body wop_op graph_step].
    - apply run_add_node.
    - apply run_remove_node.
    - apply run_add_edge.
    - unfold c_remove_edge, remove_edge. destruct (coerce_id r) as [u|x]; [|reflexivity].
      rewrite run_remove_edge_id. pose proof (remove_edge_id_shape g u) as Hs.
      destruct (remove_edge_id g u) as [g' [v|x]]; [|reflexivity]. destruct Hs as [e ->]. reflexivity.
  Qed.

  (** Answers of the mutators contain no lists. *)
  Lemma answer_eq m o b : same_answer b (snd (mstep m (wop_op o))) -> b = snd (mstep m (wop_op o)).
  Proof.
    destruct o; cbn [wop_op mstep].
    - destruct (has_node m u); cbn; destruct b as [[]|]; auto.
    - destruct (coerce_id r) as [n|x]; [|cbn; destruct b as [[]|]; auto].
      destruct (find_node m n) as [[? pay]|]; cbn; destruct b as [[]|]; auto.
    - destruct (negb _); [cbn; destruct b as [[]|]; auto|].
      destruct (has_edge m (e_id e)); cbn; destruct b as [[]|]; auto.
    - destruct (coerce_id r) as [n|x]; [|cbn; destruct b as [[]|]; auto].
      destruct (find_edge m n) as [e|]; cbn; destruct b as [[]|]; auto.
  Qed.

  Hypothesis Hord : fair ord.

  Inductive replay : mgraph -> list (wop * outcome gval) -> mgraph -> Prop :=
  | replay_nil : forall m, replay m [] m
  | replay_snoc : forall m l m' o, replay m l m' ->
      replay m (l ++ [(o, snd (mstep m' (wop_op o)))]) (fst (mstep m' (wop_op o))).

  (** Queries only look. *)
  Fixpoint pure (c : code) : Prop :=
    match c with Done _ => True | Act f k => (forall g, f g = g) /\ forall g, pure (k g) end.

  Lemma pure_neighbours b n size : forall rest i acc, pure (c_neighbours ord b n size rest i acc).
  Proof.
    induction rest as [|rest IH]; intros i acc; cbn; (split; [reflexivity|]); intros g.
    - destruct (negb _); exact I.
    - destruct (negb _); [exact I|]. destruct (nth_error _ _) as [u|]; [|exact I]. cbn.
      split; [reflexivity|]. intros g'. destruct (dget u (g_edges g')); [|exact I]. cbn.
      split; [reflexivity|]. intros g''. destruct (dget _ (g_nodes g'')); [apply IH|exact I].
  Qed.

  Lemma pure_ends b size : forall rest i acc, pure (c_ends b size rest i acc).
  Proof.
    induction rest as [|rest IH]; intros i acc; cbn; (split; [reflexivity|]); intros g.
    - destruct (negb _); exact I.
    - destruct (negb _); [exact I|]. destruct (nth_error _ _) as [[n s]|]; [|exact I].
      destruct (emptyb s); [|apply IH]. cbn. split; [reflexivity|]. intros g'.
      destruct (dget n (g_nodes g')); [apply IH|exact I].
  Qed.

  Lemma pure_query q : pure (query ord q).
  Proof.
    destruct q; cbn; try (destruct (coerce_id r); [|exact I]); cbn; (split; [reflexivity|]); intros g;
      try apply pure_neighbours; apply pure_ends.
  Qed.

  (** A body that finds the given stores at its accesses. *)
  Fixpoint feed (c : code) (gs : list graph) {struct gs} : option code :=
    match gs with
    | [] => Some c
    | g :: gs => match c with Act _ k => feed (k g) gs | Done _ => None end
    end.

  Lemma feed_snoc gs : forall c f k g, feed c gs = Some (Act f k) -> feed c (gs ++ [g]) = Some (k g).
  Proof.
    induction gs as [|h gs IH]; intros c f k g H; cbn in *.
    - injection H as ->. reflexivity.
    - destruct c as [r|f' k']; [discriminate|]. eapply IH; eauto.
  Qed.

  (** The invariant: [g] is the graph after the finished mutators. *)
  Record linv (g0 : graph) (s : state) (g : graph) : Prop := {
    l_reach : greachable ord g;
    l_replay : replay (contents g0) (wrote s) (contents g);
    l_one : forall t t', holding (thr s t) -> holding (thr s t') -> t = t';
    l_free : (forall t, ~ holding (thr s t)) -> gr s = g;
    l_held : forall t o c, thr s t = Holds o c -> run c (gr s) = graph_step ord g (wop_op o);
    l_reads : forall t q c seen, thr s t = Reads q c seen -> pure c /\ feed (query ord q) seen = Some c;
    l_read : forall q r seen, In (q, r, seen) (read s) -> feed (query ord q) seen = Some (Done r)
  }.

  Lemma upd_same f t x : upd f t x t = x.
  Proof. unfold upd. rewrite Nat.eqb_refl. reflexivity. Qed.
  Lemma upd_other f t x t' : t' <> t -> upd f t x t' = f t'.
  Proof. intros H. unfold upd. destruct (Nat.eqb_spec t' t); congruence. Qed.
  Lemma upd_cases f t x t' y : upd f t x t' = y -> (t' = t /\ y = x) \/ (t' <> t /\ f t' = y).
  Proof. unfold upd. destruct (Nat.eqb_spec t' t); auto. Qed.
  Lemma upd_holding f t x t' : holding (upd f t x t') -> (t' = t /\ holding x) \/ (t' <> t /\ holding (f t')).
  Proof. unfold upd. destruct (Nat.eqb_spec t' t); auto. Qed.

  Lemma holds_dec (s : state) g0 g t : linv g0 s g -> holding (thr s t) \/ ~ holding (thr s t).
  Proof. intros _. destruct (thr s t); cbn; tauto. Qed.

  Lemma step_linv g0 s s' g : linv g0 s g -> step ord s s' -> exists g', linv g0 s' g'.
  Proof.
    intros [HR HP H1 HF HH HQ HD] Hs. destruct Hs as [s t o Ht|s t o Ht Hno|s t o f k Ht|s t o r Ht|s t q Ht|s t q f k seen Ht|s t q r seen Ht].
    - (* call *) exists g. constructor; cbn [gr thr wrote read]; try exact HR; try exact HP; try exact HD.
      + intros a b Ha Hb. apply upd_holding in Ha, Hb.
        destruct Ha as [[_ []]|[_ Ha]], Hb as [[_ []]|[_ Hb]]. eauto.
      + intros Hf. apply HF. intros t' H. apply (Hf t'). rewrite upd_other; [exact H|].
        intros ->. rewrite Ht in H. exact H.
      + intros a o' c Ha. apply upd_cases in Ha. destruct Ha as [[_ Ha]|[_ Ha]]; [discriminate|eauto].
      + intros a q c seen Ha. apply upd_cases in Ha. destruct Ha as [[_ Ha]|[_ Ha]]; [discriminate|eauto].
    - (* acquire *) exists g. constructor; cbn [gr thr wrote read]; try exact HR; try exact HP; try exact HD.
      + intros a b Ha Hb. apply upd_holding in Ha, Hb.
        destruct Ha as [[-> _]|[_ Ha]]; [|destruct (Hno _ Ha)].
        destruct Hb as [[-> _]|[_ Hb]]; [reflexivity|destruct (Hno _ Hb)].
      + intros Hf. exfalso. apply (Hf t). rewrite upd_same. exact I.
      + intros a o' c Ha. apply upd_cases in Ha. destruct Ha as [[_ [= -> ->]]|[_ Ha]].
        * rewrite run_body, (HF Hno). reflexivity.
        * exfalso. apply (Hno a). rewrite Ha. exact I.
      + intros a q c seen Ha. apply upd_cases in Ha. destruct Ha as [[_ Ha]|[_ Ha]]; [discriminate|eauto].
    - (* act *) exists g. constructor; cbn [gr thr wrote read]; try exact HR; try exact HP; try exact HD.
      + assert (Hh : holding (thr s t)) by (rewrite Ht; exact I).
        intros a b Ha Hb. apply upd_holding in Ha, Hb.
        destruct Ha as [[-> _]|[_ Ha]], Hb as [[-> _]|[_ Hb]]; auto.
      + intros Hf. exfalso. apply (Hf t). rewrite upd_same. exact I.
      + intros a o' c Ha. apply upd_cases in Ha. destruct Ha as [[_ [= -> ->]]|[Hn Ha]].
        * rewrite <- (HH _ _ _ Ht). reflexivity.
        * exfalso. apply Hn. apply H1; [rewrite Ha|rewrite Ht]; exact I.
      + intros a q c seen Ha. apply upd_cases in Ha. destruct Ha as [[_ Ha]|[_ Ha]]; [discriminate|eauto].
    - (* release *)
      pose proof (HH _ _ _ Ht) as R. cbn [run] in R.
      assert (Hh : holding (thr s t)) by (rewrite Ht; exact I).
      assert (Hno : forall t', ~ holding (upd (thr s) t Idle t')).
      { intros t' Ha. apply upd_holding in Ha. destruct Ha as [[_ []]|[Hn Ha]]. apply Hn. apply H1; assumption. }
      pose proof (greachable_Inv ord Hord g HR) as HI.
      pose proof (graph_step_refines ord Hord g (wop_op o) HI) as G.
      rewrite <- R in G. destruct (mstep (contents g) (wop_op o)) as [m' b] eqn:M.
      destruct G as (G1 & G2 & G3 & _).
      exists (gr s). constructor; cbn [gr thr wrote read]; try exact HR; try exact HP; try exact HD; try (intros _; reflexivity).
      + destruct HR as (ns & es & ops & Hw & ->). exists ns, es, (ops ++ [wop_op o]).
        split; [exact Hw|]. unfold graph_run in *. rewrite fold_left_app. cbn. rewrite <- R. reflexivity.
      + assert (E : r = snd (mstep (contents g) (wop_op o))).
        { apply answer_eq. rewrite M. exact G3. }
        rewrite E, G2. replace m' with (fst (mstep (contents g) (wop_op o))) by (rewrite M; reflexivity).
        apply replay_snoc. exact HP.
      + intros a b' Ha. destruct (Hno a Ha).
      + intros a o' c Ha. exfalso. apply (Hno a). rewrite Ha. exact I.
      + intros a q c seen Ha. apply upd_cases in Ha. destruct Ha as [[_ Ha]|[_ Ha]]; [discriminate|eauto].
    - (* query *) exists g. constructor; cbn [gr thr wrote read]; try exact HR; try exact HP; try exact HD.
      + intros a b Ha Hb. apply upd_holding in Ha, Hb.
        destruct Ha as [[_ []]|[_ Ha]], Hb as [[_ []]|[_ Hb]]. eauto.
      + intros Hf. apply HF. intros t' H. apply (Hf t'). rewrite upd_other; [exact H|].
        intros ->. rewrite Ht in H. exact H.
      + intros a o' c Ha. apply upd_cases in Ha. destruct Ha as [[_ Ha]|[_ Ha]]; [discriminate|eauto].
      + intros a q' c seen Ha. apply upd_cases in Ha. destruct Ha as [[_ [= -> -> ->]]|[_ Ha]]; [|eauto].
        split; [apply pure_query|reflexivity].
    - (* look *) exists g. destruct (HQ _ _ _ _ Ht) as [[Hp Hk] Hf0].
      constructor; cbn [gr thr wrote read]; try exact HR; try exact HP; try exact HD.
      + intros a b Ha Hb. apply upd_holding in Ha, Hb.
        destruct Ha as [[_ []]|[_ Ha]], Hb as [[_ []]|[_ Hb]]. eauto.
      + intros Hf. rewrite Hp. apply HF. intros t' H. apply (Hf t'). rewrite upd_other; [exact H|].
        intros ->. rewrite Ht in H. exact H.
      + intros a o' c Ha. apply upd_cases in Ha. destruct Ha as [[_ Ha]|[_ Ha]]; [discriminate|].
        rewrite Hp. eauto.
      + intros a q' c seen' Ha. apply upd_cases in Ha. destruct Ha as [[_ [= -> -> ->]]|[_ Ha]]; [|eauto].
        split; [apply Hk|]. eapply feed_snoc; eauto.
    - (* answer *) exists g. destruct (HQ _ _ _ _ Ht) as [_ Hf0]. constructor; cbn [gr thr wrote read]; try exact HR; try exact HP; try exact HD.
      + intros a b Ha Hb. apply upd_holding in Ha, Hb.
        destruct Ha as [[_ []]|[_ Ha]], Hb as [[_ []]|[_ Hb]]. eauto.
      + intros Hf. apply HF. intros t' H. apply (Hf t'). rewrite upd_other; [exact H|].
        intros ->. rewrite Ht in H. exact H.
      + intros a o' c Ha. apply upd_cases in Ha. destruct Ha as [[_ Ha]|[_ Ha]]; [discriminate|eauto].
      + intros a q' c seen' Ha. apply upd_cases in Ha. destruct Ha as [[_ Ha]|[_ Ha]]; [discriminate|eauto].
      + intros q' r' seen' Hi. apply in_app_iff in Hi. destruct Hi as [Hi|[[= <- <- <-]|[]]]; eauto.
  Qed.

  Lemma steps_linv g0 s : greachable ord g0 -> steps ord (start g0) s -> exists g, linv g0 s g.
  Proof.
    intros H0 Hs. remember (start g0) as s0 eqn:E. induction Hs as [s|s s' s'' Hs IH Hst].
    - subst. exists g0. constructor; cbn; auto; try discriminate; try contradiction.
      + apply replay_nil.
    - destruct (IH E) as [g Hg]. eapply step_linv; eauto.
  Qed.

  (** ** What queries answer *)
  Lemma feed_quiet c : forall gs g r, pure c -> (forall x, In x gs -> x = g) ->
    feed c gs = Some (Done r) -> run c g = (g, r).
  Proof.
    induction c as [r'|f k IH]; intros gs g r Hp Hg H.
    - destruct gs; [injection H as ->; reflexivity|discriminate].
    - destruct gs as [|x gs]; [discriminate|]. cbn in H. rewrite (Hg x (or_introl eq_refl)) in H.
      destruct Hp as [Hp1 Hp2]. cbn. rewrite Hp1. apply (IH g gs g r (Hp2 g)); [|exact H]. intros y Hy. apply Hg. right. exact Hy.
  Qed.

  Lemma run_neighbours b n g es ns :
    lookup_edges g (ord b n (live b n g)) = Ret es ->
    lookup_nodes g (map (if b then e_tail else e_head) es) = Ret ns ->
    forall rest i acc es1 ns1,
      rest + i = length (live b n g) ->
      lookup_edges g (skipn i (ord b n (live b n g))) = Ret es1 ->
      lookup_nodes g (map (if b then e_tail else e_head) es1) = Ret ns1 ->
      run (c_neighbours ord b n (length (live b n g)) rest i acc) g = (g, Ret (GNodes (acc ++ ns1))).
  Proof.
    intros _ _. set (l := ord b n (live b n g)).
    assert (Hl : length l = length (live b n g)) by (apply Permutation_length, Hord).
    induction rest as [|rest IH]; intros i acc es1 ns1 Hi He Hn; cbn [c_neighbours Look run]; rewrite Nat.eqb_refl; cbn [negb].
    - rewrite skipn_all2 in He by lia. injection He as <-. injection Hn as <-. rewrite app_nil_r. reflexivity.
    - fold l. destruct (nth_error l i) as [u|] eqn:E.
      2:{ apply nth_error_None in E. lia. }
      assert (Hs : skipn i l = u :: skipn (S i) l).
      { clear -E. revert i E. induction l as [|x l IH]; intros i E; [destruct i; discriminate|].
        destruct i as [|i]; cbn in *; [injection E as ->; reflexivity|]. apply IH. exact E. }
      rewrite Hs in He. cbn [lookup_edges] in He.
      destruct (dget u (g_edges g)) as [e|] eqn:Ee; [|discriminate].
      destruct (lookup_edges g (skipn (S i) l)) as [es2|] eqn:Es; [|discriminate].
      cbn in He. injection He as <-. cbn [map lookup_nodes] in Hn.
      assert (Hm : (if b then e_tail else e_head) e = if b then e_tail e else e_head e) by (destruct b; reflexivity).
      rewrite Hm in Hn.
      destruct (dget (if b then e_tail e else e_head e) (g_nodes g)) as [p|] eqn:Ep; [|discriminate].
      destruct (lookup_nodes g (map (if b then e_tail else e_head) es2)) as [ns2|] eqn:En; [|discriminate].
      cbn in Hn. injection Hn as <-. cbn [Look run]. rewrite Ee. cbn [Look run]. rewrite Ep.
      rewrite (IH (S i) _ es2 ns2); [|lia|exact Es|exact En]. rewrite <- app_assoc. reflexivity.
  Qed.

  Lemma run_ends b g : forall rest i acc ns1,
      rest + i = length (index b g) ->
      lookup_nodes g (dkeys (filter (fun kv => emptyb (snd kv)) (skipn i (index b g)))) = Ret ns1 ->
      run (c_ends b (length (index b g)) rest i acc) g = (g, Ret (GNodes (acc ++ ns1))).
  Proof.
    set (l := index b g).
    induction rest as [|rest IH]; intros i acc ns1 Hi Hn; cbn [c_ends Look run]; fold l; rewrite Nat.eqb_refl; cbn [negb].
    - rewrite skipn_all2 in Hn by lia. cbn in Hn. injection Hn as <-. rewrite app_nil_r. reflexivity.
    - destruct (nth_error l i) as [[n s]|] eqn:E.
      2:{ apply nth_error_None in E. lia. }
      assert (Hs : skipn i l = (n, s) :: skipn (S i) l).
      { clear -E. revert i E. induction l as [|x l IH]; intros i E; [destruct i; discriminate|].
        destruct i as [|i]; cbn in *; [injection E as ->; reflexivity|]. apply IH. exact E. }
      rewrite Hs in Hn. cbn [filter snd] in Hn. destruct (emptyb s).
      + cbn [dkeys map fst lookup_nodes] in Hn. cbn [Look run].
        destruct (dget n (g_nodes g)) as [p|] eqn:Ep; [|discriminate].
        fold (dkeys (filter (fun kv : uuid * list uuid => emptyb (snd kv)) (skipn (S i) l))) in Hn.
        destruct (lookup_nodes g (dkeys _)) as [ns2|] eqn:En; [|discriminate].
        cbn in Hn. injection Hn as <-. rewrite (IH (S i) _ ns2); [|lia|exact En].
        rewrite <- app_assoc. reflexivity.
      + apply IH; [lia|exact Hn].
  Qed.

  Definition rop_op (q : rop) : graph_op :=
    match q with RPreds r => GPreds r | RSuccs r => GSuccs r | RHeads => GHeads | RTails => GTails end.

  Lemma run_query q g v : snd (graph_step ord g (rop_op q)) = Ret v -> run (query ord q) g = (g, Ret v).
  Proof.
    destruct q; cbn [rop_op graph_step snd query].
    - unfold get_predecessors. destruct (coerce_id r) as [n|]; [|discriminate]. cbn [bind Look run].
      change (sget_or_empty n (g_in g)) with (live false n g).
      destruct (lookup_edges g _) as [es|] eqn:E; [|discriminate]. cbn [bind].
      destruct (lookup_nodes g _) as [ns|] eqn:N; [|discriminate]. cbn [bind]. intros [= <-].
      apply (run_neighbours false n g es ns E N _ 0 [] es ns); [lia|exact E|exact N].
    - unfold get_successors. destruct (coerce_id r) as [n|]; [|discriminate]. cbn [bind Look run].
      change (sget_or_empty n (g_out g)) with (live true n g).
      destruct (lookup_edges g _) as [es|] eqn:E; [|discriminate]. cbn [bind].
      destruct (lookup_nodes g _) as [ns|] eqn:N; [|discriminate]. cbn [bind]. intros [= <-].
      apply (run_neighbours true n g es ns E N _ 0 [] es ns); [lia|exact E|exact N].
    - unfold get_heads. change (g_in g) with (index false g).
      destruct (lookup_nodes g _) as [ns|] eqn:N; [|discriminate]. cbn [bind]. intros [= <-].
      cbn [Look run]. apply (run_ends false g _ 0 [] ns); [lia|exact N].
    - unfold get_tails. change (g_out g) with (index true g).
      destruct (lookup_nodes g _) as [ns|] eqn:N; [|discriminate]. cbn [bind]. intros [= <-].
      cbn [Look run]. apply (run_ends true g _ 0 [] ns); [lia|exact N].
  Qed.

  (** Every node answered was a node of the graph at some access. *)
  Lemma feed_neighbours b n size : forall rest i acc gs r,
    feed (c_neighbours ord b n size rest i acc) gs = Some (Done r) ->
    match r with
    | Ret v => exists more, v = GNodes (acc ++ more) /\ forall x, In x more ->
        (exists g, In g gs /\ dget (fst x) (g_nodes g) = Some (snd x)) /\
        (exists g u e, In g gs /\ dget u (g_edges g) = Some e /\ (if b then e_tail e else e_head e) = fst x)
    | Raise x => x = RuntimeError \/ x = NotFoundError
    end.
  Proof.
    induction rest as [|rest IH]; intros i acc gs r H; (destruct gs as [|g gs]; [discriminate|]); cbn [c_neighbours Look feed] in H.
    - destruct (negb _).
      + destruct gs; [injection H as <-; auto|discriminate].
      + destruct gs; [injection H as <-|discriminate]. exists []. rewrite app_nil_r. split; [reflexivity|]. intros x [].
    - destruct (negb _).
      + destruct gs; [injection H as <-; auto|discriminate].
      + destruct (nth_error _ i) as [u|].
        2:{ destruct gs; [injection H as <-|discriminate]. exists []. rewrite app_nil_r. split; [reflexivity|]. intros x []. }
        destruct gs as [|g1 gs]; [discriminate|]. cbn [Look feed] in H.
        destruct (dget u (g_edges g1)) as [e|] eqn:Ee.
        2:{ destruct gs; [injection H as <-; auto|discriminate]. }
        destruct gs as [|g2 gs]; [discriminate|]. cbn [Look feed] in H.
        destruct (dget (if b then e_tail e else e_head e) (g_nodes g2)) as [p|] eqn:Ep.
        2:{ destruct gs; [injection H as <-; auto|discriminate]. }
        specialize (IH _ _ _ _ H). destruct r as [v|x]; [|exact IH].
        destruct IH as (more & -> & Hm). exists ((if b then e_tail e else e_head e, p) :: more).
        split; [rewrite <- app_assoc; reflexivity|].
        intros x [<-|Hx].
        * split; [exists g2; cbn; auto|]. exists g1, u, e. cbn. auto.
        * destruct (Hm x Hx) as [(h & h1 & h2) (h' & u' & e' & h3 & h4 & h5)].
          split; [exists h; cbn; auto|]. exists h', u', e'. cbn. auto.
  Qed.

  Lemma feed_ends b size : forall rest i acc gs r,
    feed (c_ends b size rest i acc) gs = Some (Done r) ->
    match r with
    | Ret v => exists more, v = GNodes (acc ++ more) /\ forall x, In x more ->
        exists g, In g gs /\ dget (fst x) (g_nodes g) = Some (snd x)
    | Raise x => x = RuntimeError \/ x = NotFoundError
    end.
  Proof.
    induction rest as [|rest IH]; intros i acc gs r H; (destruct gs as [|g gs]; [discriminate|]); cbn [c_ends Look feed] in H.
    - destruct (negb _).
      + destruct gs; [injection H as <-; auto|discriminate].
      + destruct gs; [injection H as <-|discriminate]. exists []. rewrite app_nil_r. split; [reflexivity|]. intros x [].
    - destruct (negb _).
      + destruct gs; [injection H as <-; auto|discriminate].
      + destruct (nth_error _ i) as [[n s]|].
        2:{ destruct gs; [injection H as <-|discriminate]. exists []. rewrite app_nil_r. split; [reflexivity|]. intros x []. }
        destruct (emptyb s).
        * destruct gs as [|g2 gs]; [discriminate|]. cbn [Look feed] in H.
          destruct (dget n (g_nodes g2)) as [p|] eqn:Ep.
          2:{ destruct gs; [injection H as <-; auto|discriminate]. }
          specialize (IH _ _ _ _ H). destruct r as [v|x]; [|exact IH].
          destruct IH as (more & -> & Hm). exists ((n, p) :: more). split; [rewrite <- app_assoc; reflexivity|].
          intros x [<-|Hx]; [exists g2; cbn; auto|]. destruct (Hm x Hx) as (h & h1 & h2). exists h. cbn. auto.
        * specialize (IH _ _ _ _ H). destruct r as [v|x]; [|exact IH].
          destruct IH as (more & -> & Hm). exists more. split; [reflexivity|].
          intros x Hx. destruct (Hm x Hx) as (h & h1 & h2). exists h. cbn. auto.
  Qed.

  (** ** Every call can finish *)
  Lemma steps_trans a b c : steps ord a b -> steps ord b c -> steps ord a c.
  Proof. intros H1 H2. induction H2 as [b|b b' c H2 IH Hs]; [exact H1|]. eapply steps_step; [exact (IH H1)|exact Hs]. Qed.

  Lemma finish_holds t o c : forall s, thr s t = Holds o c ->
    exists s', steps ord s s' /\ thr s' t = Idle /\ forall t', t' <> t -> thr s' t' = thr s t'.
  Proof.
    induction c as [r|f k IH]; intros s Ht.
    - eexists. split; [eapply steps_step; [apply steps_refl|eapply s_release; exact Ht]|]. cbn.
      split; [apply upd_same|]. intros t' Hn. apply upd_other; exact Hn.
    - destruct (IH (gr s) (State (f (gr s)) (upd (thr s) t (Holds o (k (gr s)))) (wrote s) (read s))) as (s' & S1 & S2 & S3).
      { cbn. apply upd_same. }
      exists s'. split; [|split; [exact S2|]].
      + eapply steps_trans; [eapply steps_step; [apply steps_refl|eapply s_act; exact Ht]|exact S1].
      + intros t' Hn. rewrite (S3 t' Hn). cbn. apply upd_other; exact Hn.
  Qed.

  Lemma finish_reads t q c : forall seen s, thr s t = Reads q c seen ->
    exists s', steps ord s s' /\ thr s' t = Idle.
  Proof.
    induction c as [r|f k IH]; intros seen s Ht.
    - eexists. split; [eapply steps_step; [apply steps_refl|eapply s_answer; exact Ht]|]. cbn. apply upd_same.
    - destruct (IH (gr s) (seen ++ [gr s]) (State (f (gr s)) (upd (thr s) t (Reads q (k (gr s)) (seen ++ [gr s]))) (wrote s) (read s))) as (s' & S1 & S2).
      { cbn. apply upd_same. }
      exists s'. split; [|exact S2].
      eapply steps_trans; [eapply steps_step; [apply steps_refl|eapply s_look; exact Ht]|exact S1].
  Qed.

  Lemma lock_dec g0 s : greachable ord g0 -> steps ord (start g0) s ->
    (exists t, holding (thr s t)) \/ forall t, ~ holding (thr s t).
  Proof.
    intros Hg Hs. remember (start g0) as s0 eqn:E. induction Hs as [s|s s' s'' Hs IH Hst]; subst.
    - right. intros t H. exact H.
    - specialize (IH eq_refl). destruct (steps_linv _ _ Hg Hs) as [g L].
      assert (K : forall f t x, ~ holding (f t) -> ~ holding x ->
                 (exists t, holding (f t)) \/ (forall t, ~ holding (f t)) ->
                 (exists t', holding (upd f t x t')) \/ forall t', ~ holding (upd f t x t')).
      { intros f t x Hf Hx [[t' Ht']|Hno].
        - left. exists t'. rewrite upd_other; [exact Ht'|]. intros ->. contradiction.
        - right. intros t' H. apply upd_holding in H. destruct H as [[_ H]|[_ H]]; [contradiction|exact (Hno _ H)]. }
      destruct Hst as [s t o Ht|s t o Ht Hno|s t o f k Ht|s t o r Ht|s t q Ht|s t q f k seen Ht|s t q r seen Ht]; cbn [thr].
      + apply K; [rewrite Ht; auto|auto|exact IH].
      + left. exists t. rewrite upd_same. exact I.
      + left. exists t. rewrite upd_same. exact I.
      + right. intros t' H. apply upd_holding in H. destruct H as [[_ []]|[Hn H]].
        apply Hn. apply (l_one _ _ _ L); [exact H|rewrite Ht; exact I].
      + apply K; [rewrite Ht; auto|auto|exact IH].
      + apply K; [rewrite Ht; auto|auto|exact IH].
      + apply K; [rewrite Ht; auto|auto|exact IH].
  Qed.
End G.
