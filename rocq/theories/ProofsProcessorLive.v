(** Calls on processor and executor come to an end. *)
From Coq Require Import List Bool Arith ZArith Lia Permutation ZifyBool.
From Verif Require Import PyBase PyFacts ModelHeap SpecHeap ProofsHeap ModelEvent ModelProcessor SpecProcessor SpecProcessorLive
  ProofsPQueue ProofsPQueueWake ProofsEvent ProofsProcessor ProofsProcessorRun ProofsProcessorDeny ProofsProcessorFate ProofsProcessorCap.
Import ListNotations.
#[local] Arguments eqb : simpl never.

Definition weight (p : tpc) : nat :=
  match p with
  | APut _ _ => 11 | ABackPut _ _ rest => 11 * S (length rest)
  | LGet _ => 5 | LPerm _ _ _ => 13 | LUpd _ _ | LAbort _ _ | LRequeue _ _ _ => 12 | LJoin _ => 1
  | KSem _ _ => 3 | KRun _ _ _ => 2 | KUpd _ _ => 1
  | KDone _ _ | ADone | AErr _ _ => 0
  end.
Definition total (l : list tpc) : nat := fold_right (fun p n => weight p + n) 0 l.
Definition todo (s : pst) : nat := 10 * length (queue s) + total (tasks s).

Lemma total_app : forall l l', total (l ++ l') = total l + total l'.
Proof. induction l as [|p l IH]; intros l'; simpl; [reflexivity|]. rewrite IH. lia. Qed.
Lemma total_upd : forall l t p p', nth_error l t = Some p -> total (upd t p' l) + weight p = total l + weight p'.
Proof.
  induction l as [|x l IH]; intros [|t] p p' H; simpl in *; try discriminate.
  - injection H as ->. lia.
  - specialize (IH t p p' H). lia.
Qed.

Section Live.
  Variable k : cfg.

  Lemma weight_top : forall s n, weight (top s n) <= 5.
  Proof. intros s n. unfold top. destruct (_ && _); simpl; lia. Qed.
  Lemma back_weight : forall s ids s' q, back k s ids = (s', q) -> queue s' = queue s /\ tasks s' = tasks s /\ weight q <= 11 * length ids.
  Proof.
    intros s [|u r] s' q H; simpl in H; [injection H as <- <-; simpl; auto|].
    destruct (enq_check k s u PNone); injection H as <- <-; simpl; (split; [|split]; auto; lia).
  Qed.

  Ltac num Ht := match goal with |- context [set_task ?s1 ?t ?q] => pose proof (total_upd _ t _ q Ht) as HU end.

  (** Whatever happens by itself, there is less left to do. *)
  Lemma todo_step : forall s a, heap qlt (queue s) -> inner a -> pact k s a = s \/ todo (pact k s a) < todo s.
  Proof.
    intros s a Hh Ha. destruct a as [c|t|t b|t x|l|]; try destruct Ha; cbn [pact].
    - unfold step. destruct (nth_error (tasks s) t) as [p|] eqn:Ht; [|auto].
      destruct p as [p id|p id rest|n|n p id|n id|n id|n p id|n|par id|par id mine|par id|par id| |e l]; auto.
      + right. pose proof (total_upd _ t _ ADone Ht). pose proof (push_length s p id Hh). unfold todo in *. cbn [set_task w_tasks tasks queue] in *. simpl in *. lia.
      + right. destruct (back k (push s p id) rest) as [s1 q] eqn:Eb. destruct (back_weight _ _ _ _ Eb) as (A & B & C).
        pose proof (total_upd _ t _ q Ht) as H. pose proof (push_length s p id Hh) as HP.
        unfold todo. cbn [set_task w_tasks tasks queue]. rewrite A, B. cbn [tasks push w_queue]. cbn [weight] in H. cbn [push w_queue queue] in HP.
        cbn [push w_queue queue]. rewrite HP. lia.
      + destruct (heappop qlt (queue s)) as [[[p id] h]|] eqn:Ep; [|auto]. apply (heappop_length qlt qlt_weak _ _ _ Hh) in Ep.
        right. unfold todo. destruct (memb id (items s)).
        * pose proof (total_upd _ t _ (LPerm n p id) Ht). cbn [set_task w_tasks tasks queue w_queue weight] in *. lia.
        * match goal with |- context [set_task ?s1 t ?q] => pose proof (total_upd _ t _ q Ht); pose proof (weight_top s1 n) end.
          cbn [set_task w_tasks tasks queue w_queue w_denial weight] in *. lia.
      + right. unfold todo. cbn [new_task w_tasks tasks queue set_task]. rewrite total_app.
        match goal with |- context [upd t ?q _] => pose proof (total_upd _ t _ q Ht) end.
        match goal with |- context [top ?s1 ?m] => pose proof (weight_top s1 m) end.
        cbn [w_avail w_progs tasks queue weight total fold_right] in *. lia.
      + right. pose proof (total_upd _ t _ (LJoin n) Ht). unfold todo. cbn [set_task w_tasks tasks queue w_denial w_progs weight] in *. lia.
      + right. pose proof (total_upd _ t _ (LJoin n) Ht). pose proof (push_length s p id Hh). unfold todo.
        cbn [set_task w_tasks tasks queue push w_queue weight] in *. lia.
      + destruct (existsb _ _); [auto|]. right. pose proof (total_upd _ t _ ADone Ht). unfold todo.
        destruct (0 <? n); cbn [set_task w_tasks tasks queue w_avail weight] in *; lia.
      + destruct (sem s) as [|m]; [auto|]. right. unfold todo. destruct (_ && _).
        * destruct (set_status_fields (w_sem s m) id PROCESSING) as (_ & _ & A & _ & B & _).
          pose proof (total_upd _ t _ (KRun par id true) Ht). cbn [set_task w_tasks tasks queue weight] in *. rewrite A, B. cbn [tasks queue w_sem] in *. lia.
        * pose proof (total_upd _ t _ (KRun par id false) Ht). cbn [set_task w_tasks tasks queue w_sem weight] in *. lia.
      + right. pose proof (total_upd _ t _ (KDone par id) Ht). unfold todo. cbn [set_task w_tasks tasks queue w_sem w_progs weight] in *. lia.
    - unfold grant. destruct (nth_error (tasks s) t) as [p|] eqn:Ht; [|auto].
      destruct p as [p id|p id rest|n|n p id|n id|n id|n p id|n|par id|par id mine|par id|par id| |e l]; auto.
      right. unfold todo. destruct b; [|destruct (3 <=? _)].
      + pose proof (total_upd _ t _ (LUpd n id) Ht). cbn [set_task w_tasks tasks queue w_denial weight] in *. lia.
      + pose proof (total_upd _ t _ (LAbort n id) Ht). cbn [set_task w_tasks tasks queue w_denial weight] in *. lia.
      + match goal with |- context [set_task ?s1 t ?q] => pose proof (total_upd _ t _ q Ht) end. cbn [set_task w_tasks tasks queue w_denial weight] in *. lia.
    - unfold finish_ev. destruct (nth_error (tasks s) t) as [p|] eqn:Ht; [|auto].
      destruct p as [p id|p id rest|n|n p id|n id|n id|n p id|n|par id|par id mine|par id|par id| |e l]; auto.
      assert (G : todo (set_task (set_status s id x) t (KUpd par id)) < todo s).
      { destruct (set_status_fields s id x) as (_ & _ & A & _ & B & _). unfold todo. cbn [set_task w_tasks tasks queue]. rewrite A, B.
        pose proof (total_upd _ t _ (KUpd par id) Ht). cbn [weight] in *. lia. }
      destruct (streaming s id); [auto|]. destruct mine; [destruct x; auto|]. destruct (existsb _ _); [auto|].
      right. pose proof (total_upd _ t _ (KUpd par id) Ht). unfold todo. cbn [set_task w_tasks tasks queue weight] in *. lia.
  Qed.

  Lemma moving_bound : forall l s, heap qlt (queue s) -> Forall inner l -> moving k s l -> length l + todo (pexec k s l) <= todo s.
  Proof.
    induction l as [|a l IH]; intros s Hh Hf Hm; simpl; [lia|]. inversion Hf; subst. destruct Hm as [M1 M2].
    specialize (IH (pact k s a) (heap_step k s a Hh) H2 M2). destruct (todo_step s a Hh H1) as [E|E]; [contradiction|].
    unfold pexec in *. simpl. lia.
  Qed.

  (** ** What can be stuck *)
  Definition stuck (s : pst) (p : tpc) : Prop := ended p = true \/ (exists n, p = LGet n) /\ queue s = [].

  Lemma upd_neq : forall (l : list tpc) t p p', nth_error l t = Some p -> p <> p' -> upd t p' l <> l.
  Proof. intros l t p p' H Hne E. pose proof (nth_upd _ l t t p' p H) as G. rewrite E, H, Nat.eqb_refl in G. congruence. Qed.
  Lemma differ : forall s s' t p p', nth_error (tasks s) t = Some p -> tasks s' = upd t p' (tasks s) -> p <> p' -> s' <> s.
  Proof. intros s s' t p p' H E Hne ->. symmetry in E. eapply upd_neq; eauto. Qed.
  Lemma back_put : forall s ids s' q p id r, back k s ids = (s', q) -> q = ABackPut p id r -> length r < length ids.
  Proof.
    intros s [|u r] s' q p id r' H E; simpl in H; [congruence|].
    destruct (enq_check k s u PNone); injection H as <- <-; [injection E as -> -> ->; simpl; lia | discriminate].
  Qed.

  Lemma live_child : forall s t p, SI s -> sem s + countp holds s = k_conc k -> 1 <= k_conc k ->
    nth_error (tasks s) t = Some p -> late p <> [] -> exists a, granting a /\ pact k s a <> s.
  Proof.
    intros s t p HS Hsem Hc Ht Hl.
    assert (Hold : forall t p, nth_error (tasks s) t = Some p -> holds p = true -> exists a, granting a /\ pact k s a <> s).
    { clear t p Ht Hl. intros t p Ht Hp. destruct p as [p id|p id rest|n|n p id|n id|n id|n p id|n|par id|par id mine|par id|par id| |e l]; try discriminate.
      - assert (G : pact k s (Finish t COMPLETED) = set_task (set_status s id COMPLETED) t (KUpd par id) \/
                    pact k s (Finish t COMPLETED) = set_task s t (KUpd par id) -> exists a, granting a /\ pact k s a <> s).
        { intros G. exists (Finish t COMPLETED). split; [exact Logic.I|]. destruct G as [-> | ->].
          - eapply (differ _ _ t _ (KUpd par id)); [exact Ht | | discriminate]. cbn [set_task w_tasks tasks].
            destruct (set_status_fields s id COMPLETED) as (_ & _ & _ & _ & E & _). rewrite E. reflexivity.
          - eapply differ; [exact Ht | reflexivity | discriminate]. }
        apply G. cbn [pact]. unfold finish_ev. rewrite Ht. destruct (streaming s id); [auto|]. destruct mine; [auto|].
        destruct (existsb (runs id) (tasks s)) eqn:Er; [|auto]. exfalso.
        apply existsb_exists in Er. destruct Er as (q & Hq & Hr). apply In_nth_error in Hq. destruct Hq as [u Hu].
        destruct q as [| | | | | | | | |par' id' [|]| | | |]; try discriminate. simpl in Hr. apply Nat.eqb_eq in Hr. subst id'.
        assert (u = t) by (eapply (one_runner s); [exact HS | exact Hu | exact Ht | left; reflexivity | left; reflexivity]).
        subst u. congruence.
      - exists (Step t). split; [exact Logic.I|]. cbn [pact]. unfold step. rewrite Ht. eapply differ; [exact Ht | reflexivity | discriminate]. }
    destruct (holds p) eqn:Eh; [eapply Hold; eauto|].
    destruct p as [p id|p id rest|n|n p id|n id|n id|n p id|n|par id|par id mine|par id|par id| |e l]; simpl in Hl, Eh; try congruence.
    destruct (sem s) as [|m] eqn:Es.
    - assert (Hp : exists u q, nth_error (tasks s) u = Some q /\ holds q = true).
      { unfold countp in Hsem. destruct (filter holds (tasks s)) as [|q l] eqn:Ef; [simpl in Hsem; lia|].
        assert (Hq : In q (filter holds (tasks s))) by (rewrite Ef; left; reflexivity). apply filter_In in Hq. destruct Hq as [Hq Hh].
        apply In_nth_error in Hq. destruct Hq as [u Hu]. eauto. }
      destruct Hp as (u & q & Hu & Hq). eapply Hold; eauto.
    - exists (Step t). split; [exact Logic.I|]. cbn [pact]. unfold step. rewrite Ht, Es. destruct (_ && _).
      + eapply (differ _ _ t _ (KRun par id true)); [exact Ht | | discriminate]. cbn [set_task w_tasks tasks].
        destruct (set_status_fields (w_sem s m) id PROCESSING) as (_ & _ & _ & _ & E & _). rewrite E. reflexivity.
      + eapply differ; [exact Ht | reflexivity | discriminate].
  Qed.

  Lemma top_neq : forall s s1 t n, length (queue s1) < length (queue s) -> set_task s1 t (top s1 n) <> s.
  Proof. intros s s1 t n H E. apply (f_equal queue) in E. simpl in E. rewrite E in H. lia. Qed.

  Lemma live : forall s t p, SI s -> sem s + countp holds s = k_conc k -> 1 <= k_conc k ->
    nth_error (tasks s) t = Some p -> stuck s p \/ exists a, granting a /\ pact k s a <> s.
  Proof.
    intros s t p HS Hsem Hc Ht. pose proof HS as (_ & _ & Hh).
    assert (St : forall s' p', pact k s (Step t) = s' -> tasks s' = upd t p' (tasks s) -> p <> p' -> exists a, granting a /\ pact k s a <> s).
    { intros s' p' E T Hne. exists (Step t). split; [exact Logic.I|]. rewrite E. eapply differ; eauto. }
    destruct p as [p id|p id rest|n|n p id|n id|n id|n p id|n|par id|par id mine|par id|par id| |e l];
      try (left; left; reflexivity).
    - right. eapply St; [cbn [pact]; unfold step; rewrite Ht; reflexivity | reflexivity | discriminate].
    - right. destruct (back k (push s p id) rest) as [s1 q] eqn:Eb.
      eapply St; [cbn [pact]; unfold step; rewrite Ht, Eb; reflexivity | cbn [set_task w_tasks tasks] | intros E].
      + destruct (back_weight _ _ _ _ Eb) as (_ & B & _). rewrite B. reflexivity.
      + symmetry in E. pose proof (back_put _ _ _ _ _ _ _ Eb E). lia.
    - assert (Eq : queue s = [] \/ queue s <> []) by (destruct (queue s); [left; reflexivity | right; discriminate]).
      destruct Eq as [Eq|Eq]; [left; right; split; [eauto | exact Eq]|]. right.
      exists (Step t). split; [exact Logic.I|]. cbn [pact]. unfold step. rewrite Ht.
      pose proof (heap_pop qlt qlt_weak _ Hh) as P. destruct (heappop qlt (queue s)) as [[[p id] h]|] eqn:Ep; [|congruence].
      apply (heappop_length qlt qlt_weak _ _ _ Hh) in Ep. destruct (memb id (items s)).
      + eapply differ; [exact Ht | reflexivity | discriminate].
      + apply top_neq. cbn [w_denial w_queue queue]. lia.
    - right. exists (Grant t true). split; [reflexivity|]. cbn [pact]. unfold grant. rewrite Ht. eapply differ; [exact Ht | reflexivity | discriminate].
    - right. exists (Step t). split; [exact Logic.I|]. cbn [pact]. unfold step. rewrite Ht. intros E. apply (f_equal (fun s => length (tasks s))) in E.
      cbn [new_task set_task w_tasks tasks w_avail w_progs] in E. rewrite app_length, upd_length in E. simpl in E. lia.
    - right. eapply St; [cbn [pact]; unfold step; rewrite Ht; reflexivity | reflexivity | discriminate].
    - right. eapply St; [cbn [pact]; unfold step; rewrite Ht; reflexivity | reflexivity | discriminate].
    - right. destruct (existsb (child_of t) (tasks s)) eqn:Ec.
      + apply existsb_exists in Ec. destruct Ec as (q & Hq & Ec). apply In_nth_error in Hq. destruct Hq as [u Hu].
        eapply (live_child s u q); auto. destruct q; simpl in Ec; try discriminate; simpl; discriminate.
      + eapply St; [cbn [pact]; unfold step; rewrite Ht, Ec; reflexivity | destruct (0 <? n); reflexivity | discriminate].
    - right. eapply (live_child s t); eauto. discriminate.
    - right. eapply (live_child s t); eauto. discriminate.
    - right. eapply (live_child s t); eauto. discriminate.
  Qed.
End Live.
