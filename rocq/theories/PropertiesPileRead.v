(** C12, continued: [pile[progression]] while other threads use the pile. *)
From Coq Require Import List ZArith Bool Arith Lia Permutation.
From Verif Require Import PyBase PyFacts ModelProgression ModelPile SpecPile ProofsPile
  ModelPileThreads SpecPileThreads ProofsPileThreads ModelPileRead PropertiesPile PropertiesPileThreads.
Import ListNotations.

(** *** Specification *)

Section Spec.
  Variable sub : cls -> cls -> bool.
  Variable prog : list uuid.

  (** [P] holds of the pile at some moment of the call. *)
  Definition sometime (c : cfg) (s : list (option (tid * call))) (P : pile -> Prop) : Prop :=
    exists s1 s2, s = s1 ++ s2 /\ P (c_pile (fst (rrun sub prog (c, RChk prog) s1))).

  (** [P] holds at some moment and [Q] at a later one. *)
  Definition then_later (c : cfg) (s : list (option (tid * call))) (P Q : pile -> Prop) : Prop :=
    exists s1 s2 s3, s = s1 ++ s2 ++ s3 /\
      P (c_pile (fst (rrun sub prog (c, RChk prog) s1))) /\
      Q (c_pile (fst (rrun sub prog (c, RChk prog) (s1 ++ s2)))).

  Definition holds (u : uuid) (p : pile) : Prop := pile_contains p (RId u) = true.
  Definition lacks (u : uuid) (p : pile) : Prop := pile_contains p (RId u) = false.
  Definition gives (x : item) (p : pile) : Prop := pile_get p (RId (iid x)) false = Ret (VItem x).

  (** How often the reader moves. *)
  Definition moves (s : list (option (tid * call))) : nat :=
    length (filter (fun m => match m with None => true | _ => false end) s).
  Definition grow_move (m : option (tid * call)) : bool :=
    match m with None => true | Some (_, a) => grow_call a end.
End Spec.

(** *** Proofs *)

Section Proofs.
  Variable sub : cls -> cls -> bool.

  Lemma items_ok c l u x : Inv sub c l -> dget u (p_items (c_pile c)) = Some x ->
    iid x = u /\ allowed sub (p_types (c_pile c)) (p_strict (c_pile c)) x.
  Proof.
    intros [Hs Hh Ho] D.
    assert (R : forall p, rep sub p l -> dget u (p_items p) = Some x ->
              iid x = u /\ allowed sub (p_types p) (p_strict p) x).
    { intros p (H1 & _ & H3 & H4 & _ & H6) E. pose proof (proj1 (H4 u) (dget_Some_key _ _ _ E)) as J.
      apply in_map_iff in J. destruct J as (y & <- & J). rewrite (H3 _ J) in E. injection E as <-.
      split; [reflexivity|]. rewrite Forall_forall in H6. auto. }
    destruct (c_lock c) as [t|] eqn:El; [|apply R; assumption].
    destruct (c_pcs c t); simpl in Hs; try (apply R; assumption).
    - destruct Hs as (d & Hd & Hr & _ & Ha). rewrite Hd, dget_dset in D.
      destruct (eqb_spec u (iid x0)) as [->|N]; [injection D as <-; auto|].
      apply (R _ Hr). exact D.
    - destruct Hs as (d & Hd & Hr & _). rewrite Hd in D. apply (R _ Hr). simpl.
      destruct (eqb_spec u u0) as [->|N].
      + rewrite dget_ddel_same in D; [discriminate|]. destruct Hr as (_ & _ & _ & _ & N & _). exact N.
      + now rewrite dget_ddel_other in D.
    - destruct Hs as (Hd & _). rewrite Hd in D. discriminate.
  Qed.

  Variable prog : list uuid.

  Lemma rrun_app cr s1 s2 : rrun sub prog cr (s1 ++ s2) = rrun sub prog (rrun sub prog cr s1) s2.
  Proof. apply fold_left_app. Qed.

  Lemma rrun_snoc cr s m : rrun sub prog cr (s ++ [m]) = rmove sub prog (rrun sub prog cr s) m.
  Proof. apply rrun_app. Qed.

  (** What is known of the call after the moves [s]. *)
  Definition fetched (c : cfg) (s : list (option (tid * call))) (acc : list item) : Prop :=
    forall x, In x acc -> sometime sub prog c s (gives x).

  Definition known (c : cfg) (s : list (option (tid * call))) (r : rd) : Prop :=
    let now := c_pile (fst (rrun sub prog (c, RChk prog) s)) in
    (exists l, Inv sub (fst (rrun sub prog (c, RChk prog) s)) l) /\
    p_types now = p_types (c_pile c) /\ p_strict now = p_strict (c_pile c) /\
    match r with
    | RChk todo => exists pre, prog = pre ++ todo /\ (forall u, In u pre -> sometime sub prog c s (holds u))
    | RGet todo acc =>
        (forall u, In u prog -> sometime sub prog c s (holds u)) /\
        prog = map iid acc ++ todo /\ fetched c s acc /\
        (forall x, In x acc -> allowed sub (p_types (c_pile c)) (p_strict (c_pile c)) x)
    | RDone (Ret q) => NoDup prog /\ exists xs, map iid xs = prog /\ new_pile_over (c_pile c) q xs /\ fetched c s xs
    | RDone (Raise NotFoundError) => exists u, In u prog /\ sometime sub prog c s (lacks u)
    | RDone (Raise KeyError) => exists u, In u prog /\ then_later sub prog c s (holds u) (lacks u)
    | RDone (Raise ExistsError) => ~ NoDup prog
    | RDone (Raise _) => False
    end.

  Lemma later c s m P : sometime sub prog c s P -> sometime sub prog c (s ++ [m]) P.
  Proof. intros (a & b & -> & H). exists a, (b ++ [m]). rewrite app_assoc. auto. Qed.
  Lemma later2 c s m P Q : then_later sub prog c s P Q -> then_later sub prog c (s ++ [m]) P Q.
  Proof. intros (a & b & d & -> & H). exists a, b, (d ++ [m]). rewrite <- !app_assoc. auto. Qed.
  Lemma here c s (P : pile -> Prop) : P (c_pile (fst (rrun sub prog (c, RChk prog) s))) -> sometime sub prog c s P.
  Proof. intros H. exists s, []. rewrite app_nil_r. auto. Qed.

  Lemma known_later c s m r : known c s r ->
    (exists l, Inv sub (fst (rrun sub prog (c, RChk prog) (s ++ [m]))) l) ->
    p_types (c_pile (fst (rrun sub prog (c, RChk prog) (s ++ [m])))) = p_types (c_pile c) ->
    p_strict (c_pile (fst (rrun sub prog (c, RChk prog) (s ++ [m])))) = p_strict (c_pile c) ->
    known c (s ++ [m]) r.
  Proof.
    intros (_ & _ & _ & K) I T S. split; [exact I|]. split; [exact T|]. split; [exact S|].
    destruct r as [todo|todo acc|[q|x]].
    - destruct K as (pre & E & K). exists pre. split; [exact E|]. intros u U. apply later; auto.
    - destruct K as (K1 & K2 & K3 & K4). split; [intros u U; apply later; auto|]. split; [exact K2|].
      split; [|exact K4]. intros x X. apply later. auto.
    - destruct K as (N & xs & K1 & K2 & K3). split; [exact N|]. exists xs. split; [exact K1|]. split; [exact K2|].
      intros x X. apply later. auto.
    - destruct x; try exact K.
      + destruct K as (u & U & K). exists u. split; [exact U|]. now apply later.
      + destruct K as (u & U & K). exists u. split; [exact U|]. now apply later2.
  Qed.

  Lemma derive_allowed p xs : (forall x, In x xs -> allowed sub (p_types p) (p_strict p) x) ->
    if distinct (map iid xs) then exists q, derive sub p xs = Ret q /\ new_pile_over p q xs
    else derive sub p xs = Raise ExistsError.
  Proof.
    intros A.
    set (d := map (fun x => (iid x, x)) xs).
    unfold derive, pile_new.
    pose proof (add_all_ok sub xs (pile_empty (p_types p) (p_strict p)) [] (rep_empty sub _ _)) as Ha.
    unfold pile_empty in Ha.
    assert (Hal : Forall (allowed sub (p_types p) (p_strict p)) xs) by (apply Forall_forall; exact A).
    specialize (Ha Hal).
    replace (forallb (fun x => negb (shas [] (iid x))) xs) with true in Ha
      by (clear; induction xs; simpl; auto).
    rewrite andb_true_r in Ha. simpl in Ha. destruct (distinct (map iid xs)).
    - destruct Ha as (q & H1 & H2 & H3 & H4). rewrite H1. simpl. exists q. split; [reflexivity|].
      split; [eapply rep_coherent; eauto|]. split; [eapply rep_iter; eauto|auto].
    - rewrite Ha; reflexivity.
  Qed.

  Lemma known_run c l : Inv sub c l -> forall s, known c s (read sub prog c s).
  Proof.
    intros I s. induction s as [|m s IH] using rev_ind.
    - unfold known, read. cbn. split; [eauto|]. repeat split. exists []. split; [reflexivity|]. intros u [].
    - unfold read in *. rewrite rrun_snoc.
      set (cr := rrun sub prog (c, RChk prog) s) in *.
      destruct m as [[t a]|].
      + apply known_later; [exact IH| | |]; rewrite rrun_snoc; fold cr; cbn;
          destruct IH as ((l' & I') & T & S & _); fold cr in I', T, S;
          destruct (tstep_ok sub (fst cr) l' t a I') as (J & _ & J1 & J2).
        * eauto.
        * rewrite <- T. exact J1.
        * rewrite <- S. exact J2.
      + assert (E : rrun sub prog (c, RChk prog) (s ++ [None]) = (fst cr, rstep sub prog (c_pile (fst cr)) (snd cr)))
          by (rewrite rrun_snoc; reflexivity).
        assert (L : known c (s ++ [None]) (snd cr)).
        { apply known_later; [exact IH| | |]; rewrite E; cbn; apply IH. }
        destruct IH as ((l' & I') & T & S & _). fold cr in I', T, S.
        cbn [rmove snd]. destruct L as (L1 & L2 & L3 & L). split; [exact L1|]. split; [exact L2|]. split; [exact L3|].
        set (p := c_pile (fst cr)) in *.
        destruct (snd cr) as [[|u todo]|[|u todo] acc|r]; cbn [rstep].
        * destruct L as (pre & Ep & L). rewrite app_nil_r in Ep. subst pre.
          split; [exact L|]. split; [reflexivity|]. split; [intros x []|intros x []].
        * destruct L as (pre & Ep & L). destruct (dmem u (p_items p)) eqn:D.
          -- exists (pre ++ [u]). rewrite <- app_assoc. split; [exact Ep|].
             intros v V. apply in_app_or in V. destruct V as [V|[<-|[]]]; [auto|].
             apply here. rewrite E. cbn. unfold holds, pile_contains. cbn. exact D.
          -- exists u. split; [rewrite Ep; apply in_or_app; right; left; reflexivity|].
             apply here. rewrite E. cbn. unfold lacks, pile_contains. cbn. exact D.
        * destruct L as (_ & Ep & F & A). rewrite app_nil_r in Ep.
          rewrite <- T, <- S in A. pose proof (derive_allowed p acc A) as Q. rewrite <- Ep in Q.
          destruct (distinct prog) eqn:N.
          -- destruct Q as (q & -> & Q). split; [now apply distinct_NoDup|].
             exists acc. split; [auto|]. split; [|exact F]. destruct Q as (Q1 & Q2 & Q3 & Q4).
             rewrite T in Q3. rewrite S in Q4. repeat split; assumption.
          -- rewrite Q. intro N'. apply distinct_NoDup in N'. congruence.
        * destruct L as (H & Ep & F & A). destruct (dget u (p_items p)) as [x|] eqn:D.
          -- destruct (items_ok _ _ _ _ I' D) as [<- Ax]. fold p in Ax. rewrite T, S in Ax.
             split; [exact H|]. rewrite map_app, <- app_assoc. split; [exact Ep|].
             split; intros y Y; apply in_app_or in Y; (destruct Y as [Y|[<-|[]]]; [auto|]).
             ++ apply here. rewrite E. cbn. unfold gives, pile_get. cbn. fold p. rewrite D. reflexivity.
             ++ exact Ax.
          -- exists u. assert (U : In u prog) by (rewrite Ep; apply in_or_app; right; left; reflexivity).
             split; [exact U|]. destruct (H u U) as (s1 & s2 & Es & Hu).
             exists s1, s2, []. rewrite app_nil_r. split; [exact Es|]. split; [exact Hu|].
             rewrite <- Es, E. cbn. unfold lacks, pile_contains. cbn. fold p.
             unfold dmem. rewrite D. reflexivity.
        * exact L.
  Qed.

  Lemma reach_inv p0 s c es : treach sub p0 s c es -> exists l, Inv sub c l.
  Proof. intros H. destruct (treach_Inv sub p0 s c es H) as (l & _ & I & _). eauto. Qed.

  (** A pile returned holds the progression's ids in its order, under the same
      constraint, and each item was in the pile at some moment of the call. *)
  Theorem C12_read_returns p0 s0 c es s q : treach sub p0 s0 c es ->
    read sub prog c s = RDone (Ret q) ->
    NoDup prog /\ exists xs, map iid xs = prog /\ new_pile_over (c_pile c) q xs /\
      forall x, In x xs -> sometime sub prog c s (gives x).
  Proof.
    intros H E. destruct (reach_inv _ _ _ _ H) as [l I]. destruct (known_run c l I s) as (_ & _ & _ & K).
    rewrite E in K. exact K.
  Qed.

  (** NotFoundError: an id of the progression was absent at some moment; KeyError:
      one was there and later gone; ExistsError: the progression repeats an id;
      no other error. *)
  Theorem C12_read_errors p0 s0 c es s x : treach sub p0 s0 c es ->
    read sub prog c s = RDone (Raise x) ->
    (x = NotFoundError /\ exists u, In u prog /\ sometime sub prog c s (lacks u)) \/
    (x = KeyError /\ exists u, In u prog /\ then_later sub prog c s (holds u) (lacks u)) \/
    (x = ExistsError /\ ~ NoDup prog).
  Proof.
    intros H E. destruct (reach_inv _ _ _ _ H) as [l I]. destruct (known_run c l I s) as (_ & _ & _ & K).
    rewrite E in K. destruct x; try contradiction; auto.
  Qed.

  (** The call takes no lock: it ends after at most 2n + 2 of its own steps. *)
  Definition left_ (r : rd) : nat :=
    match r with RChk t => length t + length prog + 2 | RGet t _ => length t + 1 | RDone _ => 0 end.

  Theorem C12_read_ends c s : 2 * length prog + 2 <= moves s -> exists r, read sub prog c s = RDone r.
  Proof.
    intros H.
    assert (A : forall s cr, left_ (snd (rrun sub prog cr s)) <= left_ (snd cr) - moves s).
    { clear. induction s as [|m s IH]; intros cr; [cbn; lia|]. cbn [rrun fold_left].
      specialize (IH (rmove sub prog cr m)). unfold rrun in IH. etransitivity; [exact IH|]. clear IH.
      destruct m as [[t a]|]; cbn [rmove snd]; [unfold moves; cbn; lia|].
      assert (left_ (rstep sub prog (c_pile (fst cr)) (snd cr)) <= left_ (snd cr) - 1).
      { destruct (snd cr) as [[|u t]|[|u t] acc|r]; cbn.
        - lia.
        - destruct (dmem _ _); cbn; lia.
        - lia.
        - destruct (dget _ _); cbn; lia.
        - lia. }
      unfold moves in *. cbn. lia. }
    specialize (A s (c, RChk prog)). cbn [snd left_] in A. unfold read.
    destruct (snd (rrun sub prog (c, RChk prog) s)); cbn in A; try lia. eauto.
  Qed.

  (** While no other thread moves, the answer is that of the pile as it is. *)
  Theorem C12_read_alone c n : 2 * length prog + 2 <= n ->
    read sub prog c (repeat None n) = RDone (filter_by_progression sub (c_pile c) prog).
  Proof.
    intros L.
    assert (D : forall k r, rrun sub prog (c, RDone r) (repeat None k) = (c, RDone r)).
    { induction k as [|k IH]; intros r; [reflexivity|]. exact (IH r). }
    assert (G : forall todo acc k, length todo + 1 <= k ->
      rrun sub prog (c, RGet todo acc) (repeat None k)
      = (c, RDone (bind (lookup_all (p_items (c_pile c)) todo) (fun xs => derive sub (c_pile c) (acc ++ xs))))).
    { induction todo as [|u t IH]; intros acc k K; (destruct k as [|k]; [cbn in K; lia|]); cbn [repeat rrun fold_left rmove fst snd rstep].
      - cbn [lookup_all bind]. rewrite app_nil_r. exact (D k _).
      - cbn [lookup_all]. destruct (dget u (p_items (c_pile c))) as [x|]; [|exact (D k _)].
        cbn in K. fold (rrun sub prog (c, RGet t (acc ++ [x])) (repeat None k)). rewrite IH by lia.
        destruct (lookup_all _ t); cbn; [|reflexivity]. rewrite <- app_assoc. reflexivity. }
    assert (C : forall todo k, length todo + length prog + 2 <= k ->
      rrun sub prog (c, RChk todo) (repeat None k)
      = (c, RDone (if existsb (fun u => negb (dmem u (p_items (c_pile c)))) todo then Raise NotFoundError
                   else bind (lookup_all (p_items (c_pile c)) prog) (derive sub (c_pile c))))).
    { induction todo as [|u t IH]; intros k K; (destruct k as [|k]; [cbn in K; lia|]); cbn [repeat rrun fold_left rmove fst snd rstep].
      - cbn [existsb]. fold (rrun sub prog (c, RGet prog []) (repeat None k)). rewrite G by (cbn in K; lia). reflexivity.
      - cbn [existsb]. destruct (dmem u (p_items (c_pile c))); cbn [negb orb]; [|exact (D k _)].
        fold (rrun sub prog (c, RChk t) (repeat None k)). apply IH. cbn in K. lia. }
    unfold read. rewrite C by lia. reflexivity.
  Qed.

  (** While the other threads only add or replace items, it never raises KeyError;
      and if the ids were all there when it began, it returns. *)
  Lemma grow_dmem c l t a u : Inv sub c l -> (forall t', grow_pc (c_pcs c t') = true) -> grow_call a = true ->
    dmem u (p_items (c_pile c)) = true -> dmem u (p_items (c_pile (fst (tstep sub c t a)))) = true.
  Proof.
    intros Hi Hg Ha M. pose proof (Hg t) as Hgt. pose proof Hi as [_ _ Ho]. specialize (Ho t).
    assert (Hset : forall (v : uuid) (x : item) d, dmem u d = true -> dmem u (dset v x d) = true).
    { intros v x d Hd. apply dmem_true. apply In_dkeys_dset. right. now apply dmem_true. }
    unfold tstep. destruct (c_pcs c t) as [|o k|o k|x k|o v x k|k|o|v|n|n v] eqn:Ep; simpl in Hgt; try discriminate.
    - destruct a as [o|o|r|]; simpl in Ha; try discriminate; [destruct (is_locked o)|destruct (oid_of o)|]; exact M.
    - destruct (c_lock c); exact M.
    - destruct Ho as [Hlk _]. unfold body. destruct o; try discriminate; simpl; try exact M.
      + destruct (validate_type sub (c_pile c) o) as [x|]; simpl; [destruct (dmem (iid x) _); simpl|]; auto.
      + unfold pile_update. destruct (validate_type sub (c_pile c) o) as [x|]; [|exact M].
        destruct (dmem (iid x) _); simpl; auto.
    - simpl. exact M.
    - destruct (oid_of o) as [v|]; [destruct (dmem v _)|]; exact M.
    - destruct (nth_error _ _); exact M.
    - destruct (dget _ _); exact M.
  Qed.

  Theorem C12_read_growth p0 s0 c es s : treach sub p0 s0 c es ->
    (forall t, grow_pc (c_pcs c t) = true) -> forallb grow_move s = true ->
    read sub prog c s <> RDone (Raise KeyError) /\
    ((forall u, In u prog -> holds u (c_pile c)) -> NoDup prog -> 2 * length prog + 2 <= moves s ->
     exists q, read sub prog c s = RDone (Ret q)).
  Proof.
    intros H G F. pose proof (reach_inv _ _ _ _ H) as [l I].
    assert (A : forall s1 s2, s = s1 ++ s2 ->
      (exists l, Inv sub (fst (rrun sub prog (c, RChk prog) s1)) l) /\
      (forall t, grow_pc (c_pcs (fst (rrun sub prog (c, RChk prog) s1)) t) = true)).
    { induction s1 as [|m s1 IH] using rev_ind; intros s2 E; [eauto|].
      rewrite <- app_assoc in E. destruct (IH _ E) as [(l' & I') G'].
      rewrite rrun_snoc. destruct m as [[t a]|]; [|split; [eauto|exact G']].
      rewrite E in F. rewrite forallb_app in F. apply andb_true_iff in F. destruct F as [_ F]. cbn in F.
      apply andb_true_iff in F. destruct F as [F _]. cbn.
      destruct (tstep_ok sub _ l' t a I') as (J & _). split; [eauto|].
      apply (proj1 (grow_step sub _ l' t a I' G' F)). }
    assert (B : forall s1 s2 s3 u, s = s1 ++ s2 ++ s3 -> holds u (c_pile (fst (rrun sub prog (c, RChk prog) s1))) ->
      holds u (c_pile (fst (rrun sub prog (c, RChk prog) (s1 ++ s2))))).
    { intros s1 s2. induction s2 as [|m s2 IH] using rev_ind; intros s3 u E U; [now rewrite app_nil_r|].
      rewrite <- app_assoc in E. specialize (IH _ u E U). rewrite app_assoc in E.
      destruct (A _ _ E) as [(l' & I') G']. rewrite app_assoc, rrun_snoc.
      destruct m as [[t a]|]; [|exact IH]. cbn. unfold holds, pile_contains in *. cbn in *.
      eapply grow_dmem; eauto.
      rewrite E in F. rewrite forallb_app in F. apply andb_true_iff in F. destruct F as [_ F]. cbn in F.
      apply andb_true_iff in F. tauto. }
    split.
    - intros E. destruct (C12_read_errors _ _ _ _ _ _ H E) as [(? & _)|[(_ & u & _ & s1 & s2 & s3 & Es & P & Q)|(? & _)]]; try discriminate.
      specialize (B _ _ _ u Es P). unfold holds, lacks in *. congruence.
    - intros U N M. destruct (C12_read_ends c s M) as [[q|x] E]; [eauto|].
      destruct (C12_read_errors _ _ _ _ _ _ H E) as [(_ & u & Iu & s1 & s2 & Es & P)|[(_ & u & _ & s1 & s2 & s3 & Es & P & Q)|(_ & Nd)]].
      + specialize (B [] s1 s2 u Es (U u Iu)). cbn [app] in B. unfold holds, lacks in *. congruence.
      + specialize (B _ _ _ u Es P). unfold holds, lacks in *. congruence.
      + contradiction.
  Qed.
End Proofs.
Print Assumptions C12_read_returns.
Print Assumptions C12_read_errors.
Print Assumptions C12_read_ends.
Print Assumptions C12_read_alone.
Print Assumptions C12_read_growth.

(** The documented NotFoundError can be a KeyError. *)
Definition all_of (t : tid) (o : pile_op) : list (option (tid * call)) :=
  [Some (t, CLocked o); Some (t, CIter); Some (t, CIter); Some (t, CIter)].

Definition gone_mid : list (option (tid * call)) :=
  [None; None; None] ++ all_of 1 (PRemove (RId 10)) ++ [None].

Theorem C12_read_documented_refuted : exists sub p0 prog s,
  reachable sub p0 /\ read sub prog (tinit p0) s = RDone (Raise KeyError).
Proof. exists ex_sub, ex_p0, [10; 11], gone_mid. split; [exact ex_p0_reachable | vm_compute; reflexivity]. Qed.
Print Assumptions C12_read_documented_refuted.

(** The items returned need never have been in the pile together. *)
Definition never_both : list (option (tid * call)) :=
  [None] ++ all_of 1 (PRemove (RId 10)) ++ all_of 1 (PAdd (OElem ex_d)) ++ [None; None]
  ++ all_of 1 (PRemove (RId 13)) ++ all_of 1 (PAdd (OElem ex_a)) ++ [None]
  ++ all_of 1 (PRemove (RId 10)) ++ all_of 1 (PAdd (OElem ex_d)) ++ [None; None].

Theorem C12_read_snapshot_refuted : exists sub p0 prog s q,
  reachable sub p0 /\ read sub prog (tinit p0) s = RDone (Ret q) /\
  ~ sometime sub prog (tinit p0) s (fun p => forall u, In u prog -> holds u p).
Proof.
  exists ex_sub, ex_p0, [10; 13], never_both. eexists.
  split; [exact ex_p0_reachable|]. split; [vm_compute; reflexivity|].
  intros (s1 & s2 & E & H).
  assert (Hf : s1 = firstn (length s1) never_both).
  { rewrite E, firstn_app, Nat.sub_diag, firstn_all. simpl. rewrite app_nil_r. reflexivity. }
  assert (Hl : length s1 <= 30).
  { change 30 with (length never_both). rewrite E, app_length. apply Nat.le_add_r. }
  rewrite Hf in H. clear E Hf. remember (length s1) as n eqn:En. clear En s1 s2.
  pose proof (H 10 (or_introl eq_refl)) as H1. pose proof (H 13 (or_intror (or_introl eq_refl))) as H2. clear H.
  unfold holds in H1, H2.
  do 31 (destruct n as [|n]; [vm_compute in H1; vm_compute in H2; discriminate|]). lia.
Qed.
Print Assumptions C12_read_snapshot_refuted.

(** An undisturbed call, and one during an addition. *)
Example C12_ex_read :
  read ex_sub [11; 10] (tinit ex_p0) (repeat None 6) = RDone (filter_by_progression ex_sub ex_p0 [11; 10]) /\
  (exists q, read ex_sub [13; 10] (tinit ex_p0) (all_of 1 (PAdd (OElem ex_d)) ++ repeat None 6) = RDone (Ret q)
             /\ pile_iter q = Ret [ex_d; ex_a]) /\
  read ex_sub [13] (tinit ex_p0) ([None] ++ all_of 1 (PAdd (OElem ex_d))) = RDone (Raise NotFoundError) /\
  read ex_sub [10; 10] (tinit ex_p0) (repeat None 6) = RDone (Raise ExistsError).
Proof. split; [reflexivity|]. split; [eexists; split; vm_compute; reflexivity|]. split; vm_compute; reflexivity. Qed.
