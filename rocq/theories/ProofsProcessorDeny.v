(** Denial counting. *)
From Coq Require Import List Bool Arith ZArith Lia Permutation ZifyBool.
From Verif Require Import PyBase PyFacts ModelHeap SpecHeap ProofsHeap ModelEvent ModelProcessor SpecProcessor
  ProofsPQueue ProofsEvent ProofsProcessor ProofsProcessorRun.
Import ListNotations.
#[local] Arguments eqb : simpl never.

Section Deny.
  Variable k : cfg.

  Record DI (s : pst) : Prop := {
    d_nd : NoDup (dkeys (denial s));
    d_in : forall id, ~ In id (items s) -> strikes (denial s) id = 0;
    d_start : started s = false -> denial s = []
  }.

  Lemma strikes_del : forall d id u, NoDup (dkeys d) -> strikes (ddel u d) id = if id =? u then 0 else strikes d id.
  Proof.
    intros d id u Hn. unfold strikes. destruct (Nat.eqb_spec id u) as [->|Hne].
    - rewrite dget_ddel_same by exact Hn. reflexivity.
    - rewrite dget_ddel_other by exact Hne. reflexivity.
  Qed.
  Lemma strikes_set : forall d id u c, strikes (dset u c d) id = if id =? u then c else strikes d id.
  Proof.
    intros d id u c. unfold strikes. rewrite dget_dset. unfold eqb, EqB_nat. destruct (id =? u); reflexivity.
  Qed.

  (** Actions that leave denial tracker and stored events alone. *)
  Lemma back_denial : forall s ids s' q, back k s ids = (s', q) ->
    denial s' = denial s /\ items s' = items s /\ started s' = started s.
  Proof.
    intros s [|u r] s' q H; simpl in H; [injection H as <- <-; auto|].
    destruct (enq_check k s u PNone); injection H as <- <-; auto.
  Qed.

  Definition in_items_dec (id : uuid) (l : list uuid) : {In id l} + {~ In id l} := in_dec Nat.eq_dec id l.

  Lemma DI_clean_ids : forall ids s n, SI s -> DI s -> let s' := fst (clean_ids s ids n) in
    DI s' /\ (forall id, In id (items s') -> In id (items s) /\ strikes (denial s') id = strikes (denial s) id).
  Proof.
    assert (G : forall ids s n, NoDup (items s) -> DI s -> let s' := fst (clean_ids s ids n) in
      DI s' /\ (forall id, In id (items s') -> In id (items s) /\ strikes (denial s') id = strikes (denial s) id)).
    { induction ids as [|u t IH]; intros s n Hn D; simpl; [auto|]. pose proof D as [A B C].
      assert (Nd : NoDup (dkeys (if started s then ddel u (denial s) else denial s)))
        by (destruct (started s); [apply dkeys_ddel_NoDup|]; exact A).
      assert (St : forall id, strikes (if started s then ddel u (denial s) else denial s) id = if id =? u then 0 else strikes (denial s) id).
      { intros id. destruct (started s) eqn:Es; [apply strikes_del; exact A|]. rewrite (C eq_refl). unfold strikes. simpl. destruct (id =? u); reflexivity. }
      destruct (remove_first u (items s)) as [l|] eqn:Er.
      - destruct (remove_first_NoDup u (items s) l Hn Er) as [Hl Hu].
        pose proof (remove_first_Perm u (items s) l Er) as P.
        assert (D' : DI (w_items (w_denial s (if started s then ddel u (denial s) else denial s)) l (fun x => strip1 u (progs s x)))).
        { constructor; simpl; [exact Nd | |].
          - intros id Hi. rewrite St. destruct (Nat.eqb_spec id u) as [->|Hne]; [reflexivity|]. apply B.
            intros Hc. apply Hi. apply (Permutation_in id P) in Hc. destruct Hc as [->|Hc]; [contradiction | exact Hc].
          - intros Es. rewrite Es. apply C. exact Es. }
        destruct (IH _ (S n) (Hl : NoDup (items (w_items _ l _))) D') as [IH1 IH2]. split; [exact IH1|].
        intros id Hi. destruct (IH2 id Hi) as [I1 I2]. simpl in I1, I2. rewrite I2, St. split.
        + eapply remove_first_In; eauto.
        + destruct (Nat.eqb_spec id u) as [->|Hne]; [contradiction | reflexivity].
      - simpl. apply remove_first_None in Er. split.
        + constructor; simpl; [exact Nd | |].
          * intros id Hi. rewrite St. destruct (id =? u); auto.
          * intros Es. rewrite Es. apply C. exact Es.
        + intros id Hi. split; [exact Hi|]. rewrite St. destruct (Nat.eqb_spec id u) as [->|Hne]; [contradiction | reflexivity]. }
    intros ids s n HS D. apply G; [|exact D]. destruct HS as (H & _). apply (i_nd _ _ _ _ H).
  Qed.

  Lemma DI_cleanup : forall l s n, SI s -> DI s -> ~ In PENDING l -> ~ In PROCESSING l -> let s' := fst (cleanup s l n) in
    DI s' /\ (forall id, In id (items s') -> In id (items s) /\ strikes (denial s') id = strikes (denial s) id).
  Proof.
    induction l as [|x t IH]; intros s n HS D N1 N2; simpl; [auto|].
    destruct (forallb _ _); [|simpl; auto]. pose proof HS as (H1 & _ & _).
    destruct (SI_clean_ids (progs s x) s n HS) as (A & _ & _).
    { intros u Hu. split; intros Hc.
      - apply (i_w _ _ _ _ H1) in Hc. pose proof (i_one _ _ _ _ H1 _ _ _ Hu Hc). subst x. apply N1. left; reflexivity.
      - apply (i_r _ _ _ _ H1) in Hc. pose proof (i_one _ _ _ _ H1 _ _ _ Hu Hc). subst x. apply N2. left; reflexivity. }
    destruct (DI_clean_ids (progs s x) s n HS D) as [B1 B2].
    destruct (clean_ids s (progs s x) n) as [s' [m|e]]; simpl in *; [|auto].
    destruct (IH s' m A B1) as [C1 C2]; [intros Hc; apply N1; right; exact Hc | intros Hc; apply N2; right; exact Hc|].
    split; [exact C1|]. intros id Hi. destruct (C2 id Hi) as [C3 C4]. destruct (B2 id C3) as [B3 B4]. split; [exact B3 | congruence].
  Qed.

  Definition next_count (s : pst) (a : action) (id : uuid) (c : nat) : nat :=
    match decision s a id with
    | Some true => 0
    | Some false => S c
    | None => if aborting s a id then 0 else if memb id (items (pact k s a)) then c else 0
    end.

  Lemma DI_new_task : forall s p, DI s -> DI (new_task s p).
  Proof. intros s p [A B C]. constructor; assumption. Qed.

  Lemma memb_dec : forall (id : uuid) l (c : nat), (~ In id l -> c = 0) -> (if memb id l then c else 0) = c.
  Proof.
    intros id l c H. destruct (memb id l) eqn:E; [reflexivity|]. symmetry. apply H. apply memb_notIn. exact E.
  Qed.

  (** A step that keeps tracker, stored events and start. *)
  Lemma deny_keep : forall s s' id, DI s -> denial s' = denial s -> items s' = items s -> started s' = started s ->
    DI s' /\ strikes (denial s') id = if memb id (items s') then strikes (denial s) id else 0.
  Proof.
    intros s s' id [A B C] E1 E2 E3. split.
    - constructor; rewrite ?E1, ?E2, ?E3; auto.
    - rewrite E1, E2. symmetry. apply memb_dec. apply B.
  Qed.
  Lemma deny_del : forall s s' u, DI s -> denial s' = ddel u (denial s) -> items s' = items s -> started s' = started s ->
    DI s' /\ forall id, strikes (denial s') id = if id =? u then 0 else if memb id (items s') then strikes (denial s) id else 0.
  Proof.
    intros s s' u [A B C] E1 E2 E3. split.
    - constructor; rewrite ?E1, ?E2, ?E3.
      + apply dkeys_ddel_NoDup, A.
      + intros i Hi. rewrite strikes_del by exact A. destruct (i =? u); auto.
      + intros Es. rewrite (C Es). reflexivity.
    - intros id. rewrite E1, E2, strikes_del by exact A. destruct (id =? u); [reflexivity|]. symmetry. apply memb_dec. apply B.
  Qed.

  Lemma deny_step : forall s a id, normal a -> SI s -> DI s -> length (denial s) < k_maxd k ->
    DI (pact k s a) /\ strikes (denial (pact k s a)) id = next_count s a id (strikes (denial s) id).
  Proof.
    intros s a id Hn HS D Hd. pose proof D as [DA DB DC]. unfold next_count.
    destruct a as [c|t|t b|t x|l|]; cbn [pact decision aborting].
    - unfold spawn. destruct c as [u e p|u p| |].
      + destruct (memb u (items s)) eqn:Em; [apply deny_keep; auto|].
        set (s2 := if dmem u (objs s) then _ else _).
        assert (Q : denial s2 = denial s /\ items s2 = items s ++ [u] /\ started s2 = started s) by (unfold s2; destruct (dmem u (objs s)); auto).
        destruct Q as (Q1 & Q2 & Q3).
        assert (Di : DI s2 /\ strikes (denial s2) id = if memb id (items s2) then strikes (denial s) id else 0).
        { assert (DB' : forall i, ~ In i (items s ++ [u]) -> strikes (denial s) i = 0)
            by (intros i Hi; apply DB; intros Hc; apply Hi; apply in_or_app; auto).
          split.
          - constructor; rewrite ?Q1, ?Q2, ?Q3; auto.
          - rewrite Q1, Q2. symmetry. apply memb_dec. apply DB'. }
        destruct Di as [Di1 Di2].
        destruct (started s); [destruct (enq_check k s2 u p)|]; (split; [apply DI_new_task; exact Di1 | exact Di2]).
      + destruct Hn.
      + destruct (started s) eqn:Es; [apply deny_keep; simpl; auto|].
        assert (Dk : forall s', denial s' = denial s -> items s' = items s ->
          DI s' /\ strikes (denial s') id = if memb id (items s') then strikes (denial s) id else 0).
        { intros s' E1 E2. split.
          - constructor; rewrite ?E1, ?E2; auto. 
          - rewrite E1, E2. symmetry. apply memb_dec. apply DB. }
        destruct (forallb _ _); [|apply Dk; reflexivity].
        destruct (back k (w_started s) (progs s PENDING)) as [s2 q] eqn:Eb. destruct (back_denial _ _ _ _ Eb) as (A & B & _).
        apply Dk; assumption.
      + destruct (started s) eqn:Es; apply deny_keep; auto.
    - unfold step. destruct (nth_error (tasks s) t) as [p|] eqn:Ht; [|apply deny_keep; auto].
      destruct (SI_open s t p Ht HS) as (E & L & HP & _). pose proof HS as (H1 & _ & Hh).
      destruct p as [p u|p u rest|n|n p u|n u|n u|n p u|n|par u|par u mine|par u|par u| |e l]; try (solve [apply deny_keep; auto]).
      + destruct (back k (push s p u) rest) as [s1 q] eqn:Eb. destruct (back_denial _ _ _ _ Eb) as (A & B & C). apply deny_keep; auto.
      + destruct (heappop qlt (queue s)) as [[[p u] h]|]; [|apply deny_keep; auto].
        destruct (memb u (items s)) eqn:Em; [apply deny_keep; auto|].
        match goal with |- DI ?s' /\ _ => destruct (deny_del s s' u D eq_refl eq_refl eq_refl) as [A B] end.
        split; [exact A|]. rewrite B. destruct (Nat.eqb_spec id u) as [->|Hne]; [|reflexivity].
        cbn [items set_task w_tasks w_denial w_queue]. rewrite Em. reflexivity.
      + match goal with |- DI ?s' /\ _ => destruct (deny_del s s' u D eq_refl eq_refl eq_refl) as [A B] end.
        split; [exact A|]. rewrite B. rewrite (Nat.eqb_sym u id). reflexivity.
      + destruct (existsb _ _); [apply deny_keep; auto|]. destruct (0 <? n); apply deny_keep; auto.
      + destruct (sem s) as [|m]; [apply deny_keep; auto|]. destruct (_ && _); [|apply deny_keep; auto].
        destruct (set_status_fields (w_sem s m) u PROCESSING) as (G1 & _ & _ & G2 & _ & G3 & _). apply deny_keep; assumption.
    - unfold grant. destruct (nth_error (tasks s) t) as [p|] eqn:Ht; [|apply deny_keep; auto].
      destruct (SI_open s t p Ht HS) as (E & L & HP & HE & _).
      destruct p as [p u|p u rest|n|n p u|n u|n u|n p u|n|par u|par u mine|par u|par u| |e l]; try (solve [apply deny_keep; auto]).
      assert (Hu : In u (items s)).
      { apply (i_mem _ _ _ _ HP). exists PENDING. apply (i_w _ _ _ _ HP). apply in_or_app. right. left. reflexivity. }
      destruct b.
      + match goal with |- DI ?s' /\ _ => destruct (deny_del s s' u D eq_refl eq_refl eq_refl) as [A B] end.
        split; [exact A|]. rewrite B. rewrite (Nat.eqb_sym u id). destruct (id =? u); reflexivity.
      + assert (Ev : evict k s = denial s) by (unfold evict; destruct (Nat.leb_spec (k_maxd k) (length (denial s))); [lia | reflexivity]).
        rewrite Ev.
        assert (G : forall s', denial s' = dset u (S (strikes (denial s) u)) (denial s) -> items s' = items s -> started s' = started s ->
          DI s' /\ strikes (denial s') id = match (if u =? id then Some false else None) with
            | Some true => 0 | Some false => S (strikes (denial s) id) | None => if memb id (items s') then strikes (denial s) id else 0 end).
        { intros s' E1 E2 E3. split.
          - constructor; rewrite ?E1, ?E2, ?E3.
            + apply dkeys_dset_NoDup, DA.
            + intros i Hi. rewrite strikes_set. destruct (Nat.eqb_spec i u) as [->|Hne]; [contradiction | auto].
            + intros Es. destruct (HE Es) as (_ & Hc & _). discriminate.
          - rewrite E1, E2, strikes_set, (Nat.eqb_sym u id). destruct (Nat.eqb_spec id u) as [->|Hne]; [reflexivity|].
            symmetry. apply memb_dec. apply DB. }
        destruct (3 <=? _); apply G; reflexivity.
    - unfold finish_ev. destruct (nth_error (tasks s) t) as [p|] eqn:Ht; [|apply deny_keep; auto].
      destruct p as [p u|p u rest|n|n p u|n u|n u|n p u|n|par u|par u mine|par u|par u| |e l]; try (solve [apply deny_keep; auto]).
      destruct (set_status_fields s u x) as (G1 & _ & _ & G2 & _ & G3 & _).
      destruct (streaming s u); [|destruct mine; [destruct x | destruct (existsb _ _)]]; apply deny_keep; assumption || reflexivity.
    - destruct Hn as [N1 N2]. destruct (DI_cleanup l s 0 HS D N1 N2) as [A B]. split; [exact A|].
      destruct (memb id (items (fst (cleanup s l 0)))) eqn:Em.
      + apply B. apply memb_In. exact Em.
      + apply (d_in _ A). apply memb_notIn. exact Em.
    - destruct (started s) eqn:Es.
      + split; [|reflexivity]. constructor; simpl; auto; try constructor.
      + split; [exact D|]. rewrite (DC eq_refl). reflexivity.
  Qed.

  Lemma DI_0 : DI (pst0 k).
  Proof. constructor; simpl; auto. constructor. Qed.

  Lemma deny_run : forall id l s c, Forall normal l -> SI s -> DI s -> always k (fun s => length (denial s) < k_maxd k) s l ->
    strikes (denial s) id = c -> strikes (denial (pexec k s l)) id = denials k id s l c.
  Proof.
    intros id. induction l as [|a l IH]; intros s c Hf HS D Ha Hc; simpl in *; [exact Hc|].
    inversion Hf as [|? ? Hn Hf']; subst. destruct Ha as [Ha1 Ha2].
    destruct (deny_step s a id Hn HS D Ha1) as [D' E]. apply IH; auto. apply SI_pact; assumption.
  Qed.

  (** At most two denials are on record for an event that is not being aborted. *)
  Definition three (s : pst) : Prop := forall id, strikes (denial s) id <= 2 \/
    (strikes (denial s) id = 3 /\ exists t n, nth_error (tasks s) t = Some (LAbort n id)).

  Lemma nth_app_keep : forall A (l : list A) t x y, nth_error l t = Some x -> nth_error (l ++ [y]) t = Some x.
  Proof. intros A l t x y H. rewrite nth_error_app1; [exact H|]. apply nth_error_Some. rewrite H. discriminate. Qed.

  Lemma abort_keep : forall s a t n id, nth_error (tasks s) t = Some (LAbort n id) ->
    a = Step t \/ nth_error (tasks (pact k s a)) t = Some (LAbort n id).
  Proof.
    intros s a t n id Ht.
    assert (N : forall p, nth_error (tasks (new_task s p)) t = Some (LAbort n id)) by (intros p; apply nth_app_keep; exact Ht).
    destruct a as [c|t'|t' b|t' x|l|]; cbn [pact].
    - right. unfold spawn. destruct c as [u e p|u p| |].
      + destruct (memb u (items s)); [apply N|].
        set (s2 := if dmem u (objs s) then _ else _).
        assert (Q : tasks s2 = tasks s) by (unfold s2; destruct (dmem u (objs s)); auto).
        destruct (started s); [destruct (enq_check k s2 u p)|]; simpl; rewrite Q; apply nth_app_keep; exact Ht.
      + destruct (started s); [destruct (enq_check k s u p)|]; try apply N; exact Ht.
      + destruct (started s); [apply N|]. destruct (forallb _ _); [|apply N].
        destruct (back k (w_started s) (progs s PENDING)) as [s2 q] eqn:Eb. destruct (back_queue _ _ _ _ _ Eb) as (_ & Q & _).
        simpl. rewrite Q. apply nth_app_keep. exact Ht.
      + destruct (started s); apply N.
    - destruct (Nat.eq_dec t' t) as [->|Hne]; [left; reflexivity|]. right.
      assert (U : forall s' p', tasks s' = tasks s -> nth_error (tasks (set_task s' t' p')) t = Some (LAbort n id)).
      { intros s' p' E. simpl. rewrite E, nth_error_upd. destruct (Nat.eqb_spec t' t); [contradiction | exact Ht]. }
      unfold step. destruct (nth_error (tasks s) t') as [p|] eqn:Ht'; [|exact Ht].
      destruct p as [p u|p u rest|m|m p u|m u|m u|m p u|m|par u|par u mine|par u|par u| |e l]; try exact Ht; try (apply U; reflexivity).
      + destruct (back k (push s p u) rest) as [s1 q] eqn:Eb. destruct (back_queue _ _ _ _ _ Eb) as (_ & Q & _). apply U. exact Q.
      + destruct (heappop qlt (queue s)) as [[[p u] h]|]; [|exact Ht]. destruct (memb u (items s)); apply U; reflexivity.
      + apply nth_app_keep. apply U. reflexivity.
      + destruct (existsb _ _); [exact Ht|]. destruct (0 <? m); apply U; reflexivity.
      + destruct (sem s) as [|m]; [exact Ht|]. destruct (_ && _); [|apply U; reflexivity].
        apply U. apply (set_status_fields (w_sem s m) u PROCESSING).
    - right. unfold grant. destruct (nth_error (tasks s) t') as [p|] eqn:Ht'; [|exact Ht].
      destruct p as [p u|p u rest|m|m p u|m u|m u|m p u|m|par u|par u mine|par u|par u| |e l]; try exact Ht.
      assert (Hne : t' <> t) by (intros ->; congruence).
      assert (U : forall s' p', tasks s' = tasks s -> nth_error (tasks (set_task s' t' p')) t = Some (LAbort n id)).
      { intros s' p' E. simpl. rewrite E, nth_error_upd. destruct (Nat.eqb_spec t' t); [contradiction | exact Ht]. }
      destruct b; [|destruct (3 <=? _)]; apply U; reflexivity.
    - right. unfold finish_ev. destruct (nth_error (tasks s) t') as [p|] eqn:Ht'; [|exact Ht].
      destruct p as [p u|p u rest|m|m p u|m u|m u|m p u|m|par u|par u mine|par u|par u| |e l]; try exact Ht.
      assert (Hne : t' <> t) by (intros ->; congruence).
      assert (U : forall s' p', tasks s' = tasks s -> nth_error (tasks (set_task s' t' p')) t = Some (LAbort n id)).
      { intros s' p' E. simpl. rewrite E, nth_error_upd. destruct (Nat.eqb_spec t' t); [contradiction | exact Ht]. }
      assert (G : nth_error (tasks (set_task (set_status s u x) t' (KUpd par u))) t = Some (LAbort n id))
        by (apply U; apply (set_status_fields s u x)).
      destruct (streaming s u); [exact G|]. destruct mine; [destruct x; exact G || exact Ht | destruct (existsb _ _); [exact Ht | apply U; reflexivity]].
    - right. destruct (cleanup_fields l s 0) as (_ & Q & _). rewrite Q. exact Ht.
    - right. destruct (started s); exact Ht.
  Qed.

  Lemma nodup_disj : forall A (l1 l2 : list A) x, NoDup (l1 ++ l2) -> In x l1 -> In x l2 -> False.
  Proof.
    intros A l1 l2 x. induction l1 as [|a l1 IH]; intros N H1 H2; simpl in *; [exact H1|].
    inversion N as [|? ? Ha N']; subst. destruct H1 as [H1|H1]; [subst a|auto]. apply Ha. apply in_or_app. right; exact H2.
  Qed.

  Lemma two_tokens : forall s t u p q id, SI s -> nth_error (tasks s) t = Some p -> nth_error (tasks s) u = Some q ->
    In id (early p) -> In id (early q) -> t = u.
  Proof.
    intros s t u p q id HS Hp Hq Ip Iq. destruct (Nat.eq_dec t u) as [E|Hne]; [exact E|]. exfalso.
    destruct HS as (H & _). pose proof (i_tok _ _ _ _ H) as N.
    assert (Nt : NoDup (flat_map early (tasks s))).
    { unfold waiting_ids in N. rewrite <- app_assoc in N. apply NoDup_app_l in N.
      revert N. generalize (running_ids s). intros r. induction (flat_map early (tasks s)) as [|a l IH]; intros N; [constructor|].
      inversion N; subst. constructor; auto. intros Hc. apply H2. apply in_or_app. left; exact Hc. }
    clear N H. revert t u Hne Hp Hq. induction (tasks s) as [|a l IH]; intros [|t] [|u] Hne Hp Hq; simpl in *; try discriminate.
    - destruct (Hne eq_refl).
    - injection Hp as ->. eapply nodup_disj; [exact Nt | exact Ip|]. apply in_flat_map. exists q. split; [eapply nth_error_In; eauto | exact Iq].
    - injection Hq as ->. eapply nodup_disj; [exact Nt | exact Iq|]. apply in_flat_map. exists p. split; [eapply nth_error_In; eauto | exact Ip].
    - apply NoDup_app_l in Nt. eapply (IH Nt t u); eauto.
  Qed.

  Lemma three_step : forall s a, normal a -> SI s -> DI s -> length (denial s) < k_maxd k -> three s -> three (pact k s a).
  Proof.
    intros s a Hn HS D Hd H3 id. destruct (deny_step s a id Hn HS D Hd) as [_ E]. unfold next_count in E.
    assert (K : a = Step 0 \/ True) by auto. clear K.
    destruct (decision s a id) as [[|]|] eqn:Ed.
    - left. rewrite E. lia.
    - destruct a as [c|t|t b|t x|l|]; try discriminate. simpl in Ed.
      destruct (nth_error (tasks s) t) as [p|] eqn:Ht; [|discriminate].
      destruct p as [p u|p u rest|n|n p u|n u|n u|n p u|n|par u|par u mine|par u|par u| |e l]; try discriminate.
      destruct (Nat.eqb_spec u id) as [Hu|]; [|discriminate]. injection Ed as ->. subst u.
      destruct (H3 id) as [H2|[_ (t' & n' & Ht')]].
      + destruct (Nat.eq_dec (strikes (denial s) id) 2) as [E2|N2]; [|left; rewrite E; lia].
        right. split; [lia|]. exists t, n. cbn [pact]. unfold grant. rewrite Ht.
        assert (Ev : evict k s = denial s) by (unfold evict; destruct (Nat.leb_spec (k_maxd k) (length (denial s))); [lia | reflexivity]).
        rewrite Ev, E2. simpl. rewrite (nth_upd _ _ _ _ _ _ Ht), Nat.eqb_refl. reflexivity.
      + exfalso. assert (t = t') by (eapply (two_tokens s); [exact HS | exact Ht | exact Ht' | simpl; auto | simpl; auto]).
        subst t'. congruence.
    - destruct (aborting s a id) eqn:Ea; [left; rewrite E; lia|].
      destruct (H3 id) as [H2|[H2 (t & n & Ht)]].
      + left. rewrite E. destruct (memb _ _); lia.
      + destruct (memb id (items (pact k s a))); [|left; rewrite E; lia]. right. split; [lia|].
        destruct (abort_keep s a t n id Ht) as [->|K]; [|eauto]. simpl in Ea. rewrite Ht, Nat.eqb_refl in Ea. discriminate.
  Qed.

  Lemma three_run : forall l, Forall normal l -> always k (fun s => length (denial s) < k_maxd k) (pst0 k) l ->
    three (pexec k (pst0 k) l).
  Proof.
    intros l Hf Ha.
    assert (G : SI (pexec k (pst0 k) l) /\ DI (pexec k (pst0 k) l) /\ three (pexec k (pst0 k) l)).
    { apply (always_inv k normal (fun s => length (denial s) < k_maxd k) (fun s => SI s /\ DI s /\ three s)); auto.
      - intros s a Hn (A & B & C) H1 H2. split; [apply SI_pact; assumption|].
        split; [apply (deny_step s a 0 Hn A B H1) | apply three_step; assumption].
      - split; [apply SI_0|]. split; [apply DI_0|]. intros id. left. unfold strikes. simpl. lia. }
    apply G.
  Qed.

  (** The tracker never outgrows its bound. *)
  Lemma dset_length : forall (d : dict uuid nat) u c, length (dset u c d) = if dmem u d then length d else S (length d).
  Proof.
    intros d u c. induction d as [|[u' c'] t IH]; [reflexivity|]. simpl. unfold dmem in *. simpl.
    destruct (eqb_spec u u'); [reflexivity|]. simpl. rewrite IH. destruct (dget u t); reflexivity.
  Qed.
  Lemma ddel_length : forall (d : dict uuid nat) u, length (ddel u d) <= length d.
  Proof. intros d u. induction d as [|[u' c'] t IH]; [simpl; lia|]. simpl. destruct (eqb u u'); simpl; lia. Qed.

  Lemma clean_denial : forall ids s n, length (denial (fst (clean_ids s ids n))) <= length (denial s).
  Proof.
    induction ids as [|u t IH]; intros s n; simpl; [lia|].
    pose proof (ddel_length (denial s) u) as H.
    destruct (remove_first u (items s)) as [l|].
    - etransitivity; [apply IH|]. simpl. destruct (started s); lia.
    - simpl. destruct (started s); lia.
  Qed.
  Lemma cleanup_denial : forall l s n, length (denial (fst (cleanup s l n))) <= length (denial s).
  Proof.
    induction l as [|x t IH]; intros s n; simpl; [lia|]. destruct (forallb _ _); [|simpl; lia].
    pose proof (clean_denial (progs s x) s n) as H. destruct (clean_ids s (progs s x) n) as [s' [m|e]]; simpl in *; [|exact H].
    etransitivity; [apply IH | exact H].
  Qed.

  Lemma tracker_step : forall s a, length (denial s) <= Nat.max 1 (k_maxd k) -> length (denial (pact k s a)) <= Nat.max 1 (k_maxd k).
  Proof.
    intros s a H. destruct a as [c|t|t b|t x|l|]; cbn [pact].
    - assert (E : denial (spawn k s c) = denial s); [|rewrite E; exact H].
      unfold spawn. destruct c as [u e p|u p| |].
      + destruct (memb u (items s)); [reflexivity|].
        set (s2 := if dmem u (objs s) then _ else _).
        assert (Q : denial s2 = denial s) by (unfold s2; destruct (dmem u (objs s)); auto).
        destruct (started s); [destruct (enq_check k s2 u p)|]; exact Q.
      + destruct (started s); [destruct (enq_check k s u p)|]; reflexivity.
      + destruct (started s); [reflexivity|]. destruct (forallb _ _); [|reflexivity].
        destruct (back k (w_started s) (progs s PENDING)) as [s2 q] eqn:Eb. apply (back_denial _ _ _ _ Eb).
      + destruct (started s); reflexivity.
    - unfold step. destruct (nth_error (tasks s) t) as [p|] eqn:Ht; [|exact H].
      destruct p as [p u|p u rest|n|n p u|n u|n u|n p u|n|par u|par u mine|par u|par u| |e l]; try exact H.
      + destruct (back k (push s p u) rest) as [s1 q] eqn:Eb. destruct (back_denial _ _ _ _ Eb) as (A & _). simpl. rewrite A. exact H.
      + destruct (heappop qlt (queue s)) as [[[p u] h]|]; [|exact H]. destruct (memb u (items s)); [exact H|].
        etransitivity; [apply (ddel_length (denial s) u) | exact H].
      + etransitivity; [apply (ddel_length (denial s) u) | exact H].
      + destruct (existsb _ _); [exact H|]. destruct (0 <? n); exact H.
      + destruct (sem s) as [|m]; [exact H|]. destruct (_ && _); [|exact H].
        simpl. destruct (set_status_fields (w_sem s m) u PROCESSING) as (_ & _ & _ & _ & _ & A & _). rewrite A. exact H.
    - unfold grant. destruct (nth_error (tasks s) t) as [p|] eqn:Ht; [|exact H].
      destruct p as [p u|p u rest|n|n p u|n u|n u|n p u|n|par u|par u mine|par u|par u| |e l]; try exact H.
      destruct b; [etransitivity; [apply (ddel_length (denial s) u) | exact H]|].
      assert (G : length (dset u (S (strikes (evict k s) u)) (evict k s)) <= Nat.max 1 (k_maxd k)).
      { rewrite dset_length. assert (E : length (evict k s) <= Nat.max 1 (k_maxd k) - 1 \/ (length (evict k s) < k_maxd k)).
        { unfold evict. destruct (Nat.leb_spec (k_maxd k) (length (denial s))) as [Hle|Hlt]; [|right; exact Hlt].
          left. destruct (denial s) as [|[o c] d] eqn:Ed; [cbn [length]; lia|]. cbn [ddel]. rewrite eqb_refl. cbn [length] in H. lia. }
        destruct (dmem u (evict k s)); lia. }
      destruct (3 <=? _); exact G.
    - unfold finish_ev. destruct (nth_error (tasks s) t) as [p|] eqn:Ht; [|exact H].
      destruct p as [p u|p u rest|n|n p u|n u|n u|n p u|n|par u|par u mine|par u|par u| |e l]; try exact H.
      destruct (set_status_fields s u x) as (_ & _ & _ & _ & _ & G & _).
      destruct (streaming s u); [|destruct mine; [destruct x | destruct (existsb _ _)]]; cbn [denial set_task w_tasks]; rewrite ?G; exact H.
    - pose proof (cleanup_denial l s 0). lia.
    - destruct (started s); [cbn [denial w_denial]; cbn [length]; lia | exact H].
  Qed.

  Lemma tracker_reach : forall s, reach k anything s -> length (denial s) <= Nat.max 1 (k_maxd k).
  Proof. apply reach_inv; [cbn [denial pst0 length]; lia|]. intros s a _. apply tracker_step. Qed.
End Deny.
