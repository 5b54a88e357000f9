(** Events left behind by process() calls that were cut short. *)
From Coq Require Import List Bool Arith ZArith Lia Permutation ZifyBool.
From Verif Require Import PyBase PyFacts ModelHeap SpecHeap ProofsHeap ProofsPQueue ModelEvent ProofsEvent ModelProcessor SpecProcessor
  ProofsProcessor ProofsProcessorRun ProofsProcessorDeny ProofsProcessorCap ModelInterrupt SpecInterrupt ProofsInterrupt.
Import ListNotations.
Local Open Scope nat_scope.
#[local] Arguments eqb : simpl never.

Section Stranded.
  Variable k : cfg.

  Lemma rf_other : forall (id u : uuid) l l', u <> id -> remove_first id l = Some l' -> (In u l' <-> In u l).
  Proof.
    intros id u. induction l as [|a l IH]; intros l' Hne H; simpl in H; [discriminate|].
    destruct (eqb_spec id a) as [->|Ha]; [injection H as <-; simpl; intuition congruence|].
    destruct (remove_first id l) as [m|] eqn:E; [|discriminate]. injection H as <-.
    simpl. rewrite (IH m Hne eq_refl). tauto.
  Qed.
  Lemma strip1_other : forall id u l, u <> id -> (In u (strip1 id l) <-> In u l).
  Proof.
    intros id u l Hne. unfold strip1. destruct (remove_first id l) as [m|] eqn:E; [|tauto]. eapply rf_other; eauto.
  Qed.
  Lemma move_other : forall id u z f y, u <> id -> (In u (move_to id z f y) <-> In u (f y)).
  Proof.
    intros id u z f y Hne. unfold move_to. destruct (eqb y z); [rewrite in_app_iff; simpl|]; rewrite strip1_other by exact Hne; intuition congruence.
  Qed.
  Lemma status_other : forall s id z u, u <> id -> status_of (set_status s id z) u = status_of s u.
  Proof.
    intros s id z u Hne. unfold set_status, status_of. destruct (dget id (objs s)) as [e|] eqn:E; [|reflexivity]. simpl.
    rewrite dget_dset. destruct (eqb_spec u id); [congruence | reflexivity].
  Qed.

  (** What [stranded] looks at. *)
  Definition same_for (u : uuid) (s s' : pst) : Prop :=
    (In u (items s) -> In u (items s')) /\ (forall z, In u (progs s' z) <-> In u (progs s z)) /\ status_of s' u = status_of s u.
  Lemma same_refl : forall u s, same_for u s s.
  Proof. intros u s. repeat split; auto. Qed.

  Lemma token_task : forall s s' t p p' u, nth_error (tasks s) t = Some p -> tasks s' = upd t p' (tasks s) ->
    (In u (map snd (queue s') ++ early p') -> In u (map snd (queue s) ++ early p)) ->
    (In u (late p') -> In u (late p)) ->
    ~ In u (waiting_ids s) -> ~ In u (running_ids s) -> ~ In u (waiting_ids s') /\ ~ In u (running_ids s').
  Proof.
    intros s s' t p p' u Ht T HW HR NW NR. destruct (tok_set s t p Ht) as (E & L & PE & PL & PN).
    destruct (PN p') as [PE' PL']. unfold waiting_ids, running_ids in *. rewrite T. split; intros Hc.
    - apply NW. rewrite !in_app_iff in *. destruct Hc as [Hc|Hc].
      + destruct (HW (or_introl Hc)) as [H|H]; [auto|]. right. apply (Permutation_in _ (Permutation_sym PE)). apply in_or_app. auto.
      + apply (Permutation_in _ PE') in Hc. apply in_app_iff in Hc. destruct Hc as [Hc|Hc].
        * destruct (HW (or_intror Hc)) as [H|H]; [auto|]. right. apply (Permutation_in _ (Permutation_sym PE)). apply in_or_app. auto.
        * right. apply (Permutation_in _ (Permutation_sym PE)). apply in_or_app. auto.
    - apply NR. apply (Permutation_in _ PL') in Hc. apply (Permutation_in _ (Permutation_sym PL)).
      rewrite in_app_iff in *. destruct Hc; auto.
  Qed.
  Lemma token_here : forall s t p u, nth_error (tasks s) t = Some p ->
    (In u (early p) -> In u (waiting_ids s)) /\ (In u (late p) -> In u (running_ids s)).
  Proof.
    intros s t p u Ht. apply nth_error_In in Ht. split; intros H.
    - unfold waiting_ids. apply in_or_app. right. apply in_flat_map. eauto.
    - unfold running_ids. apply in_flat_map. eauto.
  Qed.

  Lemma stranded_task : forall s s' t p p' u y st, stranded s u y st -> nth_error (tasks s) t = Some p ->
    tasks s' = upd t p' (tasks s) -> (In u (map snd (queue s') ++ early p') -> In u (map snd (queue s) ++ early p)) ->
    (In u (late p') -> In u (late p)) -> (~ In u (early p) -> ~ In u (late p) -> same_for u s s') -> stranded s' u y st.
  Proof.
    intros s s' t p p' u y st (A & B & C & D & E) Ht T HW HR HS.
    destruct (token_here s t p u Ht) as [TW TR].
    destruct HS as (S1 & S2 & S3); [tauto | tauto|].
    split; [auto|]. split; [intros z; rewrite S2; apply B|]. split; [congruence|].
    eapply token_task; eauto.
  Qed.
  Lemma stranded_new : forall s s' p u y st, stranded s u y st -> tasks s' = tasks s -> queue s' = queue s ->
    ~ In u (early p) -> late p = [] -> same_for u s s' -> stranded (new_task s' p) u y st.
  Proof.
    intros s s' p u y st (A & B & C & D & E) T Q Ep Lp (S1 & S2 & S3).
    split; [apply S1, A|]. split; [intros z; simpl; rewrite S2; apply B|]. split; [simpl; unfold status_of in *; simpl in *; congruence|].
    split.
    - intros Hc. apply (Permutation_in _ (waiting_new s' p)) in Hc. apply in_app_iff in Hc. destruct Hc as [Hc|Hc]; [auto|].
      apply D. unfold waiting_ids in *. rewrite T, Q in Hc. exact Hc.
    - intros Hc. apply (Permutation_in _ (running_new s' p)) in Hc. rewrite Lp in Hc. simpl in Hc.
      apply E. unfold running_ids in *. rewrite T in Hc. exact Hc.
  Qed.
  Lemma stranded_ext : forall s s' u y st, stranded s u y st -> tasks s' = tasks s -> queue s' = queue s ->
    same_for u s s' -> stranded s' u y st.
  Proof.
    intros s s' u y st (A & B & C & D & E) T Q (S1 & S2 & S3).
    split; [apply S1, A|]. split; [intros z; rewrite S2; apply B|]. split; [congruence|].
    unfold waiting_ids, running_ids in *. rewrite T, Q. auto.
  Qed.

  Lemma clean_ids_same : forall ids s n u, ~ In u ids -> same_for u s (fst (clean_ids s ids n)).
  Proof.
    induction ids as [|id ids IH]; intros s n u Hn; simpl; [apply same_refl|].
    assert (Hne : u <> id) by (intros ->; apply Hn; left; reflexivity).
    destruct (remove_first id (items s)) as [l|] eqn:E.
    - match goal with |- context [clean_ids ?s1 ids (S n)] => destruct (IH s1 (S n) u) as (A & B & C) end;
        [intros Hc; apply Hn; right; exact Hc|]. simpl in *.
      split; [intros H; apply A; rewrite (rf_other _ _ _ _ Hne E); exact H|].
      split; [intros z; rewrite B; apply strip1_other, Hne | exact C].
    - simpl. split; [auto|]. split; [intros z; apply strip1_other, Hne | reflexivity].
  Qed.
  Lemma cleanup_same : forall l s n u y, ~ In y l -> (forall z, In u (progs s z) <-> z = y) -> same_for u s (fst (cleanup s l n)).
  Proof.
    induction l as [|x l IH]; intros s n u y Hl Hp; simpl; [apply same_refl|].
    destruct (forallb _ _); [|apply same_refl].
    assert (Hx : ~ In u (progs s x)) by (rewrite Hp; intros ->; apply Hl; left; reflexivity).
    pose proof (clean_ids_same (progs s x) s n u Hx) as (A & B & C).
    destruct (clean_ids s (progs s x) n) as [s' [m|e]]; simpl in *; [|repeat split; auto; apply B].
    destruct (IH s' m u y) as (A2 & B2 & C2); [intros Hc; apply Hl; right; exact Hc | intros z; rewrite B; apply Hp|].
    split; [auto|]. split; [intros z; rewrite B2; apply B | congruence].
  Qed.

  Lemma stranded_pact : forall s a u y st, heap qlt (queue s) -> normal a -> started s = true -> y = PENDING \/ y = PROCESSING ->
    stranded s u y st -> stranded (pact k s a) u y st /\ started (pact k s a) = true.
  Proof.
    intros s a u y st Hh Hn Hs Hy H. pose proof H as (A & B & C & D & E).
    assert (BK : forall s ids s' q, back k s ids = (s', q) -> (s' = s \/ s' = w_stop s false) /\
      (forall v, In v (early q) -> In v ids) /\ late q = []).
    { intros s1 ids s' q Hb. destruct (back_spec k _ _ _ _ Hb) as (P1 & P2 & P3). split; [exact P1|]. split; [|exact P3].
      intros v Hv. destruct P2 as [P2|P2]; rewrite P2 in Hv; [exact Hv | destruct Hv]. }
    destruct a as [c|t|t b|t z|l|]; simpl.
    - unfold spawn. destruct c as [id e p|id p| |]; [| destruct Hn | |]; rewrite Hs.
      + destruct (memb id (items s)) eqn:Em; [split; [apply (stranded_new s); auto; try exact (same_refl u s) | exact Hs]|].
        assert (Hne : u <> id) by (intros ->; apply memb_In in A; congruence).
        set (s2 := if dmem id (objs s) then _ else _).
        assert (Q : tasks s2 = tasks s /\ queue s2 = queue s /\ started s2 = started s /\ same_for u s s2).
        { assert (P1 : forall z, In u (if eqb z PENDING then progs s z ++ [id] else progs s z) <-> In u (progs s z)).
          { intros z. destruct (eqb z PENDING); [rewrite in_app_iff; simpl; intuition congruence | tauto]. }
          unfold s2. destruct (dmem id (objs s)); (split; [reflexivity|]; split; [reflexivity|]; split; [reflexivity|]; split;
            [intros _; apply in_or_app; left; exact A | split; [exact P1|]]); unfold status_of; simpl; [reflexivity|].
          rewrite dget_dset. destruct (eqb_spec u id); [congruence | reflexivity]. }
        destruct Q as (Q1 & Q2 & Q3 & Q4).
        destruct (enq_check k s2 id p); (split; [apply (stranded_new s); auto | simpl; congruence]); simpl; intuition congruence.
      + split; [apply (stranded_new s); auto; exact (same_refl u s) | exact Hs].
      + split; [|exact Hs]. apply (stranded_new s); auto; try exact (same_refl u s); [rewrite top_early; auto | apply top_late].
    - unfold step. destruct (nth_error (tasks s) t) as [p|] eqn:Ht; [|auto].
      destruct p as [p id|p id rest|n|n p id|n id|n id|n p id|n|par id|par id mine|par id|par id| |e l]; auto.
      + split; [|exact Hs]. eapply stranded_task; [exact H | exact Ht | reflexivity | | simpl; auto | intros _ _; exact (same_refl u s)].
        simpl. rewrite app_nil_r. intros Hc. apply (Permutation_in _ (push_perm s p id Hh)) in Hc. rewrite in_app_iff. simpl in *. tauto.
      + destruct (back k (push s p id) rest) as [s1 q] eqn:Eb. destruct (BK _ _ _ _ Eb) as (P1 & P2 & P3).
        split; [|destruct P1 as [->| ->]; exact Hs].
        eapply stranded_task; [exact H | exact Ht | destruct P1 as [->| ->]; reflexivity | | simpl; rewrite P3; auto
          | intros _ _; destruct P1 as [->| ->]; exact (same_refl u s)].
        assert (Eq : queue s1 = queue (push s p id)) by (destruct P1 as [->| ->]; reflexivity).
        simpl. rewrite Eq, !in_app_iff. intros [Hc|Hc].
        * apply (Permutation_in _ (push_perm s p id Hh)) in Hc. simpl in *. tauto.
        * right. right. apply P2, Hc.
      + pose proof (heap_pop qlt qlt_weak (queue s) Hh) as Pp.
        destruct (heappop qlt (queue s)) as [[[p id] h]|]; [|auto]. destruct Pp as (_ & Pp & _).
        apply (Permutation_map snd) in Pp. simpl in Pp.
        assert (Pq : forall v, In v (map snd h) \/ v = id -> In v (map snd (queue s))).
        { intros v Hv. apply (Permutation_in _ (Permutation_sym Pp)). simpl. destruct Hv; auto. }
        destruct (memb id (items s)).
        * split; [|exact Hs]. eapply stranded_task; [exact H | exact Ht | reflexivity | | simpl; auto | intros _ _; exact (same_refl u s)].
          simpl. rewrite !in_app_iff. simpl. intros [Hc|[<-|[]]]; left; apply Pq; auto.
        * split; [|exact Hs]. eapply stranded_task; [exact H | exact Ht | reflexivity | | rewrite top_late; simpl; auto | intros _ _; exact (same_refl u s)].
          rewrite top_early. simpl. rewrite !in_app_iff. intros [Hc|[]]. left; apply Pq; auto.
      + split; [|exact Hs].
        assert (Hne : u <> id) by (intros ->; apply D; apply (token_here s t _ id Ht); simpl; auto).
        assert (H2 : stranded (set_task (w_avail (w_progs s (move_to id PROCESSING (progs s))) (avail s - 1)%Z) t
           (top (w_avail (w_progs s (move_to id PROCESSING (progs s))) (avail s - 1)%Z) (S n))) u y st).
        { eapply stranded_task; [exact H | exact Ht | reflexivity | | rewrite top_late; simpl; auto |].
          - rewrite top_early. simpl. rewrite !in_app_iff. simpl. tauto.
          - intros _ _. split; [auto|]. split; [intros z; apply move_other, Hne | reflexivity]. }
        destruct H2 as (A2 & B2 & C2 & D2 & E2). split; [exact A2|]. split; [exact B2|]. split; [exact C2|]. split.
        * intros Hc. apply (Permutation_in _ (waiting_new _ _)) in Hc. simpl in Hc. exact (D2 Hc).
        * intros Hc. apply (Permutation_in _ (running_new _ _)) in Hc. simpl in Hc. destruct Hc as [Hc|Hc]; [congruence | exact (E2 Hc)].
      + split; [|exact Hs]. eapply stranded_task; [exact H | exact Ht | reflexivity | | simpl; auto |].
        * simpl. rewrite !in_app_iff. simpl. tauto.
        * simpl. intros Hi _. split; [auto|]. split; [intros z; apply move_other; intros ->; tauto | reflexivity].
      + split; [|exact Hs]. eapply stranded_task; [exact H | exact Ht | reflexivity | | simpl; auto | intros _ _; exact (same_refl u s)].
        simpl. rewrite app_nil_r. intros Hc. apply (Permutation_in _ (push_perm s p id Hh)) in Hc. rewrite in_app_iff. simpl in *. tauto.
      + destruct (existsb _ _); [auto|]. split; [|destruct (0 <? n); exact Hs].
        eapply stranded_task; [exact H | exact Ht | destruct (0 <? n); reflexivity | destruct (0 <? n); simpl; auto | simpl; auto
          | intros _ _; destruct (0 <? n); exact (same_refl u s)].
      + destruct (sem s) as [|m]; [auto|]. destruct (_ && _).
        * destruct (set_status_fields (w_sem s m) id PROCESSING) as (F1 & F2 & F3 & F4 & F5 & _).
          split; [|simpl; rewrite F4; exact Hs].
          eapply stranded_task; [exact H | exact Ht | simpl; rewrite F5; reflexivity | simpl; rewrite F3; auto | simpl; auto |].
          simpl. intros _ Hi. split; [simpl; rewrite F1; auto|]. split; [simpl; rewrite F2; tauto|].
          apply (status_other (w_sem s m)). intros ->; tauto.
        * split; [|exact Hs]. eapply stranded_task; [exact H | exact Ht | reflexivity | simpl; auto | simpl; auto | intros _ _; exact (same_refl u s)].
      + split; [|exact Hs]. eapply stranded_task; [exact H | exact Ht | reflexivity | simpl; auto | simpl; tauto |].
        simpl. intros _ Hi. split; [auto|]. split; [intros z; apply move_other; intros ->; tauto | reflexivity].
    - unfold grant. destruct (nth_error (tasks s) t) as [p|] eqn:Ht; [|auto].
      destruct p as [p id|p id rest|n|n p id|n id|n id|n p id|n|par id|par id mine|par id|par id| |e l]; auto.
      destruct b; [|destruct (3 <=? _)]; (split; [|exact Hs]);
        (eapply stranded_task; [exact H | exact Ht | reflexivity | simpl; auto | simpl; auto | intros _ _; exact (same_refl u s)]).
    - unfold finish_ev. destruct (nth_error (tasks s) t) as [p|] eqn:Ht; [|auto].
      destruct p as [p id|p id rest|n|n p id|n id|n id|n p id|n|par id|par id mine|par id|par id| |e l]; auto.
      assert (G : stranded (set_task (set_status s id z) t (KUpd par id)) u y st /\ started (set_task (set_status s id z) t (KUpd par id)) = true).
      { destruct (set_status_fields s id z) as (F1 & F2 & F3 & F4 & F5 & _). split; [|simpl; rewrite F4; exact Hs].
        eapply stranded_task; [exact H | exact Ht | simpl; rewrite F5; reflexivity | simpl; rewrite F3; auto | simpl; auto |].
        simpl. intros _ Hi. split; [simpl; rewrite F1; auto|]. split; [simpl; rewrite F2; tauto|].
        apply (status_other s). intros ->; tauto. }
      destruct (streaming s id); [exact G|]. destruct mine; [destruct z; auto|]. destruct (existsb _ _); [auto|].
      split; [|exact Hs]. eapply stranded_task; [exact H | exact Ht | reflexivity | simpl; auto | simpl; auto | intros _ _; exact (same_refl u s)].
    - destruct (cleanup_fields l s 0) as (F1 & F2 & _ & _ & _ & F6). split; [|rewrite F6; exact Hs].
      apply (stranded_ext s); auto. apply (cleanup_same l s 0 u y); [|exact B]. destruct Hn. destruct Hy; subst; assumption.
    - destruct (started s) eqn:E2; [|discriminate]. split; [|exact E2]. apply (stranded_ext s); auto. exact (same_refl u s).
  Qed.

  Lemma stranded_iact : forall x a u y st, heap qlt (queue (i_s x)) -> inormal a -> started (i_s x) = true -> y = PENDING \/ y = PROCESSING ->
    stranded (i_s x) u y st -> stranded (i_s (iact1 k x a)) u y st /\ started (i_s (iact1 k x a)) = true.
  Proof.
    intros x a u y st Hh Hn Hs Hy H. set (s := i_s x) in *.
    assert (FG : forall s' t p p', nth_error (tasks s) t = Some p -> tasks s' = upd t p' (tasks s) -> queue s' = queue s ->
      early p' = [] -> late p' = [] -> (~ In u (early p) -> ~ In u (late p) -> same_for u s s') -> stranded s' u y st).
    { intros s' t p p' Ht T Q E1 E2 HS. eapply stranded_task; [exact H | exact Ht | exact T | | | exact HS].
      - rewrite E1, Q, app_nil_r. intros Hc. apply in_or_app. left; exact Hc.
      - rewrite E2. intros []. }
    destruct a as [a|t|t|t z|t]; simpl.
    - destruct a as [c|t|t b|t z|l|]; [| |exact (stranded_pact _ (Grant t b) _ _ _ Hh Hn Hs Hy H)|exact (stranded_pact _ (Finish t z) _ _ _ Hh Hn Hs Hy H)
        |exact (stranded_pact _ (Cleanup l) _ _ _ Hh Hn Hs Hy H)|exact (stranded_pact _ Stop _ _ _ Hh Hn Hs Hy H)].
      + exact (stranded_pact _ (Spawn c) _ _ _ Hh Hn Hs Hy H).
      + destruct (halted x t); [auto | exact (stranded_pact _ (Step t) _ _ _ Hh Hn Hs Hy H)].
    - unfold interrupt. fold s. destruct (nth_error (tasks s) t) as [[]|]; auto.
    - unfold fail. fold s. destruct (nth_error (tasks s) t) as [p|] eqn:Ht; [|auto].
      destruct p; auto. split; [|exact Hs]. eapply FG; [exact Ht | reflexivity..|]. intros _ _. exact (same_refl u s).
    - unfold break. fold s. destruct (nth_error (tasks s) t) as [p|] eqn:Ht; [|auto].
      destruct p as [| | | | | | | | |par id mine| | | |]; auto.
      assert (G : forall c v f, (forall z, u <> id -> (In u (f z) <-> In u (progs s z))) ->
        let s' := set_task (w_sem (w_progs (set_status s id v) f) c) t (KDone par id) in
        stranded s' u y st /\ started s' = true).
      { intros c v f Hf. destruct (set_status_fields s id v) as (F1 & F2 & F3 & F4 & F5 & _).
        split; [|simpl; rewrite F4; exact Hs]. eapply FG; [exact Ht | simpl; rewrite F5; reflexivity | exact F3 | reflexivity..|].
        simpl. intros _ Hi. assert (Hne : u <> id) by (intros ->; tauto).
        split; [simpl; rewrite F1; auto|]. split; [intros w; simpl; apply Hf, Hne | apply (status_other s), Hne]. }
      assert (GS : forall c v, let s' := set_task (w_sem (set_status s id v) c) t (KDone par id) in
        stranded s' u y st /\ started s' = true).
      { intros c v. apply (G c v (progs (set_status s id v))). intros w _.
        destruct (set_status_fields s id v) as (_ & F2 & _). rewrite F2. tauto. }
      destruct (streaming s id); [apply GS|]. destruct mine; [|auto].
      simpl. destruct (is_cut x par); [apply GS|]. apply G. intros w Hne.
      destruct (set_status_fields s id CANCELLED) as (_ & F2 & _). rewrite F2. apply move_other, Hne.
    - unfold unwind. fold s. destruct (nth_error (tasks s) t) as [p|] eqn:Ht; [|auto].
      destruct p as [| |n|n p id|n id|n id|n p id|n|par id|par id mine|par id| | |]; auto;
        try (destruct (is_cut x _); [|auto]; split; [|exact Hs]; eapply FG; [exact Ht | reflexivity..|intros _ _; exact (same_refl u s)]).
      + destruct (cut x t) as [w|]; [|auto]. destruct (existsb _ _); [auto|]. simpl. unfold leave.
        destruct w; [destruct (0 <? n)| |]; (split; [|exact Hs]; eapply FG; [exact Ht | reflexivity..|intros _ _; exact (same_refl u s)]).
      + destruct (_ && _); [|auto]. split; [|exact Hs]. eapply FG; [exact Ht | reflexivity..|intros _ _; exact (same_refl u s)].
  Qed.

  Lemma stranded_run : forall l x u y st, SI (i_s x) -> Forall inormal l -> started (i_s x) = true -> y = PENDING \/ y = PROCESSING ->
    stranded (i_s x) u y st -> stranded (i_s (irun k x l)) u y st.
  Proof.
    induction l as [|a l IH]; intros x u y st HI Hl Hs Hy H; simpl; [exact H|]. inversion Hl; subst.
    destruct (stranded_iact x a u y st) as [G1 G2]; auto; [apply HI|]. apply IH; auto. apply SI_iact; auto.
  Qed.

  (** An event whose task gives it up is stranded. *)
  Lemma give_up : forall s s' t p p' u, SI s -> nth_error (tasks s) t = Some p -> tasks s' = upd t p' (tasks s) ->
    items s' = items s -> progs s' = progs s -> queue s' = queue s -> started s' = started s ->
    early p' = [] -> late p' = [] -> In u (early p ++ late p) ->
    started s' = true /\ stranded s' u (if memb u (early p) then PENDING else PROCESSING) (status_of s' u).
  Proof.
    intros s s' t p p' u HI Ht T I P Q S E1 E2 Hu. destruct (SI_open s t p Ht HI) as (E & L & HP & HE & HB).
    split.
    - rewrite S. destruct (started s) eqn:Es; [reflexivity|]. destruct (HE eq_refl) as (_ & X1 & _ & X2 & _). rewrite X1, X2 in Hu. destruct Hu.
    - destruct HP as [A B C D F G J].
      assert (Hy : In u (progs s (if memb u (early p) then PENDING else PROCESSING))).
      { destruct (memb u (early p)) eqn:Em.
        - apply memb_In in Em. apply G. rewrite !in_app_iff. auto.
        - apply J. rewrite in_app_iff in *. destruct Hu as [Hu|Hu]; [apply memb_In in Hu; congruence | auto]. }
      split; [rewrite I; apply D; eauto|]. split; [intros z; rewrite P; split; [intros Hz; eapply C; eauto | intros ->; exact Hy]|].
      split; [reflexivity|].
      destruct (tok_set s t p Ht) as (E' & L' & PE & PL & PN). destruct (PN p') as [PE' PL']. rewrite E1 in PE'. rewrite E2 in PL'. simpl in PE', PL'.
      unfold waiting_ids, running_ids. rewrite T, Q.
      pose proof HI as (HI' & _). unfold waiting_ids, running_ids in HI'.
      assert (F' : NoDup ((map snd (queue s) ++ early p ++ E') ++ late p ++ L')).
      { destruct HI' as [_ _ _ _ F' _ _]. eapply Permutation_NoDup; [|exact F']. apply Permutation_app; [apply Permutation_app_head; exact PE | exact PL]. }
      assert (PP : Permutation ((map snd (queue s) ++ early p ++ E') ++ late p ++ L') ((early p ++ late p) ++ (map snd (queue s) ++ E') ++ L')).
      { rewrite <- !app_assoc. rewrite (Permutation_app_swap_app (map snd (queue s)) (early p)). apply Permutation_app_head.
        rewrite (app_assoc (map snd (queue s)) E' (late p ++ L')), (app_assoc (map snd (queue s)) E' L'). apply Permutation_app_swap_app. }
      apply (Permutation_NoDup PP) in F'.
      assert (N' : ~ In u ((map snd (queue s) ++ E') ++ L')).
      { intros Hc. revert F' Hu. generalize (early p ++ late p). induction l as [|a l IH]; intros F2 Hu; [destruct Hu|].
        inversion F2; subst. destruct Hu as [->|Hu]; [|auto]. apply H1. apply in_or_app. right; exact Hc. }
      rewrite !in_app_iff in N'. split; intros Hc.
      + rewrite in_app_iff in Hc. destruct Hc as [Hc|Hc]; [tauto|]. apply (Permutation_in _ PE') in Hc. tauto.
      + apply (Permutation_in _ PL') in Hc. tauto.
  Qed.
End Stranded.
