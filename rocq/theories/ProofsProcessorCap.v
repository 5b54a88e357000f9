(** Capacity of process() calls. *)
From Coq Require Import List Bool Arith ZArith Lia Permutation ZifyBool.
From Verif Require Import PyBase PyFacts ModelHeap SpecHeap ModelEvent ModelProcessor SpecProcessor
  ProofsPQueue ProofsEvent ProofsProcessor ProofsProcessorRun ProofsProcessorDeny.
Import ListNotations.
#[local] Arguments eqb : simpl never.

Definition active (p : tpc) : bool :=
  match p with LGet _ | LPerm _ _ _ | LUpd _ _ => true | _ => false end.

(** What an action can do to the tasks and the available capacity. *)
Inductive tk (k : cfg) (s s' : pst) : Prop :=
| tk_same : tasks s' = tasks s -> avail s' = avail s -> tk k s s'
| tk_new p : tasks s' = tasks s ++ [p] -> avail s' = avail s -> is_loop p = false ->
    (forall u, started_by u p = false) -> tk k s s'
| tk_call : tasks s' = tasks s ++ [top s 0] -> avail s' = avail s -> tk k s s'
| tk_task t p p' : nth_error (tasks s) t = Some p -> tasks s' = upd t p' (tasks s) -> avail s' = avail s ->
    is_loop p = false -> is_loop p' = false -> (forall u, started_by u p = started_by u p') ->
    (forall u, child_of u p' = true -> child_of u p = true) -> tk k s s'
| tk_loop t p p' : nth_error (tasks s) t = Some p -> tasks s' = upd t p' (tasks s) -> avail s' = avail s ->
    is_loop p = true -> is_loop p' = true -> loop_count p' = loop_count p ->
    (active p' = true -> active p = true \/ (0 < avail s)%Z) -> tk k s s'
| tk_start t n id p' : nth_error (tasks s) t = Some (LUpd n id) ->
    tasks s' = upd t p' (tasks s) ++ [KSem t id] -> avail s' = (avail s - 1)%Z ->
    is_loop p' = true -> loop_count p' = S n -> (active p' = true -> (0 < avail s')%Z) -> tk k s s'
| tk_leave t n : nth_error (tasks s) t = Some (LJoin n) -> tasks s' = upd t ADone (tasks s) ->
    avail s' = (if 0 <? n then Z.of_nat (k_cap k) else avail s) ->
    existsb (child_of t) (tasks s) = false -> tk k s s'.

Section Cap.
  Variable k : cfg.

  Lemma top_loop : forall s n, is_loop (top s n) = true.
  Proof. intros s n. unfold top. destruct (_ && _); reflexivity. Qed.
  Lemma top_count : forall s n, loop_count (top s n) = n.
  Proof. intros s n. unfold top. destruct (_ && _); reflexivity. Qed.
  Lemma top_active : forall s n, active (top s n) = true -> (0 < avail s)%Z.
  Proof.
    intros s n. unfold top. destruct (0 <? avail s)%Z eqn:E; simpl; [intros _; lia | discriminate].
  Qed.
  Lemma top_sb : forall s n u, started_by u (top s n) = false.
  Proof. intros s n u. unfold top. destruct (_ && _); reflexivity. Qed.

  Lemma back_shape : forall s ids s' q, back k s ids = (s', q) ->
    tasks s' = tasks s /\ avail s' = avail s /\ is_loop q = false /\ forall u, started_by u q = false.
  Proof.
    intros s [|u r] s' q H; simpl in H; [injection H as <- <-; auto|].
    destruct (enq_check k s u PNone); injection H as <- <-; auto.
  Qed.

  Lemma tk_step : forall s a, tk k s (pact k s a).
  Proof.
    intros s [c|t|t b|t x|l|]; simpl.
    - unfold spawn. destruct c as [id e p|id p| |].
      + destruct (memb id (items s)); [eapply tk_new; reflexivity|].
        set (s2 := if dmem id (objs s) then _ else _).
        assert (Q : avail s2 = avail s /\ tasks s2 = tasks s) by (unfold s2; destruct (dmem id (objs s)); auto).
        destruct Q as [Q1 Q2].
        destruct (started s); [destruct (enq_check k s2 id p)|]; (eapply tk_new; [simpl; rewrite Q2; reflexivity | exact Q1 | reflexivity | reflexivity]).
      + destruct (started s); [destruct (enq_check k s id p); eapply tk_new; reflexivity | apply tk_same; reflexivity].
      + destruct (started s); [eapply tk_new; reflexivity|]. destruct (forallb _ _); [|eapply tk_new; reflexivity].
        destruct (back k (w_started s) (progs s PENDING)) as [s2 q] eqn:Eb. destruct (back_shape _ _ _ _ Eb) as (A & B & C & D).
        eapply tk_new; [simpl; rewrite A; reflexivity | exact B | exact C | exact D].
      + destruct (started s); [apply tk_call; reflexivity | eapply tk_new; reflexivity].
    - unfold step. destruct (nth_error (tasks s) t) as [p|] eqn:Ht; [|apply tk_same; reflexivity].
      destruct p as [p id|p id rest|n|n p id|n id|n id|n p id|n|par id|par id mine|par id|par id| |e l]; try (apply tk_same; reflexivity).
      + eapply tk_task; [exact Ht | reflexivity | reflexivity | reflexivity | reflexivity | reflexivity | simpl; auto; discriminate].
      + destruct (back k (push s p id) rest) as [s1 q] eqn:Eb. destruct (back_shape _ _ _ _ Eb) as (A & B & C & D).
        eapply tk_task; [exact Ht | simpl; rewrite A; reflexivity | exact B | reflexivity | exact C | intros u; symmetry; apply D|].
        intros u Hu. exfalso. specialize (D u). destruct q; simpl in Hu, D; try discriminate; congruence.
      + destruct (heappop qlt (queue s)) as [[[p id] h]|]; [|apply tk_same; reflexivity].
        destruct (memb id (items s)); (eapply tk_loop; [exact Ht | reflexivity | reflexivity | reflexivity | | |]).
        * reflexivity.
        * reflexivity.
        * left; reflexivity.
        * apply top_loop.
        * apply top_count.
        * left; reflexivity.
      + eapply tk_start; [exact Ht | reflexivity | reflexivity | apply top_loop | apply top_count|].
        intros H. apply top_active in H. exact H.
      + eapply tk_loop; [exact Ht | reflexivity | reflexivity | reflexivity | reflexivity | reflexivity | discriminate].
      + eapply tk_loop; [exact Ht | reflexivity | reflexivity | reflexivity | reflexivity | reflexivity | discriminate].
      + destruct (existsb _ _) eqn:Ex; [apply tk_same; reflexivity|]. eapply tk_leave; [exact Ht | | | exact Ex]; destruct (0 <? n); reflexivity.
      + destruct (sem s); [apply tk_same; reflexivity|]. destruct (_ && _).
        * destruct (set_status_fields (w_sem s n) id PROCESSING) as (_ & _ & _ & _ & A & _ & B & _).
          eapply tk_task; [exact Ht | simpl; rewrite A; reflexivity | exact B | reflexivity | reflexivity | reflexivity | simpl; auto].
        * eapply tk_task; [exact Ht | reflexivity | reflexivity | reflexivity | reflexivity | reflexivity | simpl; auto; discriminate].
      + eapply tk_task; [exact Ht | reflexivity | reflexivity | reflexivity | reflexivity | reflexivity | simpl; auto; discriminate].
    - unfold grant. destruct (nth_error (tasks s) t) as [p|] eqn:Ht; [|apply tk_same; reflexivity].
      destruct p; try (apply tk_same; reflexivity). destruct b; [|destruct (3 <=? _)];
        (eapply tk_loop; [exact Ht | reflexivity | reflexivity | reflexivity | reflexivity | reflexivity | intros _; left; reflexivity]).
    - unfold finish_ev. destruct (nth_error (tasks s) t) as [p|] eqn:Ht; [|apply tk_same; reflexivity].
      destruct p as [p id|p id rest|n|n p id|n id|n id|n p id|n|par id|par id mine|par id|par id| |e l]; try (apply tk_same; reflexivity).
      assert (G : tk k s (set_task (set_status s id x) t (KUpd par id))).
      { destruct (set_status_fields s id x) as (_ & _ & _ & _ & A & _ & B & _).
        eapply tk_task; [exact Ht | simpl; rewrite A; reflexivity | exact B | reflexivity | reflexivity | reflexivity | simpl; auto]. }
      destruct (streaming s id); [exact G|]. destruct mine.
      + destruct x; exact G || (apply tk_same; reflexivity).
      + destruct (existsb _ _); [apply tk_same; reflexivity|]. eapply tk_task; [exact Ht | reflexivity | reflexivity | reflexivity | reflexivity | reflexivity | simpl; auto; discriminate].
    - destruct (cleanup_fields l s 0) as (_ & A & _ & B & _). apply tk_same; assumption.
    - destruct (started s); apply tk_same; reflexivity.
  Qed.

  Record CI (s : pst) : Prop := {
    c_par : forall u p, In p (tasks s) -> started_by u p = true -> u < length (tasks s);
    c_idle : countp is_loop s = 0 -> avail s = Z.of_nat (k_cap k);
    c_loop : forall t p, nth_error (tasks s) t = Some p -> is_loop p = true ->
      (avail s + Z.of_nat (loop_count p) = Z.of_nat (k_cap k))%Z /\ (0 <= avail s)%Z /\
      (active p = true -> (0 < avail s)%Z) /\ countp (started_by t) s = loop_count p;
    c_le : forall t, countp (started_by t) s <= k_cap k
  }.

  Lemma filter_pos : forall A (f : A -> bool) l t p, nth_error l t = Some p -> f p = true -> 1 <= length (filter f l).
  Proof.
    intros A f. induction l as [|x l IH]; intros [|t] p H Hp; simpl in *; try discriminate.
    - injection H as ->. rewrite Hp. simpl. lia.
    - pose proof (IH t p H Hp). destruct (f x); simpl; lia.
  Qed.
  Lemma only_one : forall A (f : A -> bool) l t u p q, length (filter f l) <= 1 -> nth_error l t = Some p -> f p = true ->
    nth_error l u = Some q -> f q = true -> u = t.
  Proof.
    intros A f. induction l as [|x l IH]; intros [|t] [|u] p q H Hp Fp Hq Fq; simpl in *; try discriminate; auto.
    - injection Hp as ->. rewrite Fp in H. simpl in H. pose proof (filter_pos _ f l u q Hq Fq). lia.
    - injection Hq as ->. rewrite Fq in H. simpl in H. pose proof (filter_pos _ f l t p Hp Fp). lia.
    - f_equal. eapply IH; eauto. destruct (f x); simpl in H; lia.
  Qed.
  Lemma filter_none : forall A (f : A -> bool) l, (forall x, In x l -> f x = false) -> length (filter f l) = 0.
  Proof.
    intros A f. induction l as [|x l IH]; intros H; simpl; [reflexivity|].
    rewrite (H x (or_introl eq_refl)). apply IH. intros y Hy. apply H. right; exact Hy.
  Qed.
  Lemma countp_app : forall f s s' p, tasks s' = tasks s ++ [p] -> countp f s' = countp f s + b2n (f p).
  Proof. intros f s s' p H. unfold countp. rewrite H, filter_app, app_length. simpl. destruct (f p); simpl; lia. Qed.
  Lemma countp_upd : forall f s s' t p p', nth_error (tasks s) t = Some p -> tasks s' = upd t p' (tasks s) ->
    countp f s' + b2n (f p) = countp f s + b2n (f p').
  Proof. intros f s s' t p p' H E. unfold countp. rewrite E. apply filter_upd. exact H. Qed.

  Lemma In_upd : forall A (l : list A) t x y, In y (upd t x l) -> y = x \/ In y l.
  Proof.
    induction l as [|a l IH]; intros [|t] x y H; simpl in *; try tauto.
    - destruct H as [<-|H]; auto.
    - destruct H as [<-|H]; auto. destruct (IH _ _ _ H); auto.
  Qed.
  Lemma upd_length : forall A (l : list A) t x, length (upd t x l) = length l.
  Proof. induction l as [|a l IH]; intros [|t] x; simpl; auto. Qed.

  Lemma CI_step : forall s s', tk k s s' -> CI s -> countp is_loop s <= 1 -> countp is_loop s' <= 1 -> CI s'.
  Proof.
    intros s s' Hk [A B C D] O1 O2. destruct Hk as [T V|p T V Lp Sp|T V|t p p' Ht T V L1 L2 Sb _|t p p' Ht T V L1 L2 Lc Ac|t n id p' Ht T V L1 Lc Ac|t n Ht T V _].
    - unfold countp in *. constructor; unfold countp; rewrite ?T, ?V; auto.
    - constructor.
      + intros u q Hq Hs. rewrite T in *. rewrite app_length. simpl. apply in_app_iff in Hq. destruct Hq as [Hq|[<-|[]]].
        * pose proof (A u q Hq Hs). lia.
        * rewrite Sp in Hs. discriminate.
      + rewrite (countp_app _ _ _ _ T), Lp, V. simpl. intros H. apply B. lia.
      + intros t q Hq Lq. rewrite T in Hq. destruct (lt_dec t (length (tasks s))) as [Hlt|Hge].
        * rewrite nth_error_app1 in Hq by lia. rewrite (countp_app _ _ _ _ T), Sp, V. simpl.
          rewrite Nat.add_0_r. apply (C t q Hq Lq).
        * rewrite nth_error_app2 in Hq by lia. destruct (t - length (tasks s)) as [|[|]]; simpl in Hq; try discriminate.
          injection Hq as <-. congruence.
      + intros t. rewrite (countp_app _ _ _ _ T), Sp. simpl. rewrite Nat.add_0_r. apply D.
    - rewrite (countp_app _ _ _ _ T), top_loop in O2. simpl in O2.
      assert (Z0 : countp is_loop s = 0) by lia. specialize (B Z0).
      constructor.
      + intros u q Hq Hs. rewrite T in *. rewrite app_length. simpl. apply in_app_iff in Hq. destruct Hq as [Hq|[<-|[]]].
        * pose proof (A u q Hq Hs). lia.
        * rewrite top_sb in Hs. discriminate.
      + rewrite (countp_app _ _ _ _ T), top_loop. simpl. lia.
      + intros t q Hq Lq. rewrite T in Hq. destruct (lt_dec t (length (tasks s))) as [Hlt|Hge].
        * rewrite nth_error_app1 in Hq by lia. pose proof (filter_pos _ is_loop _ _ _ Hq Lq). unfold countp in Z0. lia.
        * rewrite nth_error_app2 in Hq by lia. destruct (t - length (tasks s)) as [|[|]] eqn:Et; simpl in Hq; try discriminate.
          injection Hq as <-. rewrite top_count, V, B. split; [lia|]. split; [lia|]. split.
          -- intros Ha. apply top_active in Ha. lia.
          -- rewrite (countp_app _ _ _ _ T), top_sb. simpl. rewrite Nat.add_0_r. apply filter_none.
             intros q Hq. destruct (started_by t q) eqn:E; [|reflexivity]. pose proof (A t q Hq E). lia.
      + intros t. rewrite (countp_app _ _ _ _ T), top_sb. simpl. rewrite Nat.add_0_r. apply D.
    - constructor.
      + intros u q Hq Hs. rewrite T in *. rewrite upd_length. apply In_upd in Hq. destruct Hq as [-> |Hq].
        * rewrite <- Sb in Hs. apply (A u p); [eapply nth_error_In; exact Ht | exact Hs].
        * apply (A u q Hq Hs).
      + pose proof (countp_upd is_loop _ _ _ _ _ Ht T) as H. rewrite L1, L2 in H. simpl in H. rewrite V. intros H0. apply B. lia.
      + intros u q Hq Lq. rewrite T, (nth_upd _ _ _ _ _ _ Ht) in Hq. destruct (Nat.eqb_spec u t) as [->|Hne].
        * injection Hq as <-. congruence.
        * pose proof (countp_upd (started_by u) _ _ _ _ _ Ht T) as H. rewrite Sb in H.
          destruct (C u q Hq Lq) as (C1 & C2 & C3 & C4). rewrite V. repeat split; auto. lia.
      + intros u. pose proof (countp_upd (started_by u) _ _ _ _ _ Ht T) as H. rewrite Sb in H. specialize (D u). lia.
    - assert (S1 : forall u, started_by u p = false) by (intros u; destruct p; simpl in L1; try discriminate; reflexivity).
      assert (S2 : forall u, started_by u p' = false) by (intros u; destruct p'; simpl in L2; try discriminate; reflexivity).
      constructor.
      + intros u q Hq Hs. rewrite T in *. rewrite upd_length. apply In_upd in Hq. destruct Hq as [-> |Hq].
        * rewrite S2 in Hs. discriminate.
        * apply (A u q Hq Hs).
      + pose proof (countp_upd is_loop _ _ _ _ _ Ht T) as H. rewrite L1, L2 in H. simpl in H. rewrite V. intros H0. apply B. lia.
      + intros u q Hq Lq. rewrite T, (nth_upd _ _ _ _ _ _ Ht) in Hq.
        pose proof (countp_upd (started_by u) _ _ _ _ _ Ht T) as H. rewrite S1, S2 in H. simpl in H.
        destruct (Nat.eqb_spec u t) as [->|Hne].
        * injection Hq as <-. destruct (C t p Ht L1) as (C1 & C2 & C3 & C4). rewrite V, Lc. repeat split; auto; [|lia].
          intros Ha. destruct (Ac Ha) as [E|E]; auto.
        * destruct Hne. eapply only_one; [exact O1 | exact Ht | exact L1 | exact Hq | exact Lq].
      + intros u. pose proof (countp_upd (started_by u) _ _ _ _ _ Ht T) as H. rewrite S1, S2 in H. simpl in H. specialize (D u). lia.
    - destruct (C t _ Ht eq_refl) as (C1 & C2 & C3 & C4). specialize (C3 eq_refl). simpl in C1, C4.
      assert (S2 : forall u, started_by u p' = false) by (intros u; destruct p'; simpl in L1; try discriminate; reflexivity).
      assert (CU : forall f, countp f s' + b2n (f (LUpd n id)) = countp f s + b2n (f p') + b2n (f (KSem t id))).
      { intros f. unfold countp. rewrite T, filter_app, app_length. pose proof (filter_upd _ f (tasks s) t _ p' Ht).
        simpl. destruct (f (KSem t id)); simpl; lia. }
      assert (Hl : t < length (tasks s)) by (apply nth_error_Some; rewrite Ht; discriminate).
      constructor.
      + intros u q Hq Hs. rewrite T in *. rewrite app_length, upd_length. simpl. apply in_app_iff in Hq. destruct Hq as [Hq|[<-|[]]].
        * apply In_upd in Hq. destruct Hq as [-> |Hq]; [rewrite S2 in Hs; discriminate|]. pose proof (A u q Hq Hs). lia.
        * simpl in Hs. lia.
      + pose proof (CU is_loop) as H. rewrite L1 in H. simpl in H. intros H0.
        pose proof (filter_pos _ is_loop _ _ _ Ht eq_refl). unfold countp in *. lia.
      + intros u q Hq Lq. rewrite T in Hq.
        assert (Hu : u = t /\ q = p').
        { destruct (lt_dec u (length (tasks s))) as [Hlt|Hge].
          - rewrite nth_error_app1 in Hq by (rewrite upd_length; lia). rewrite (nth_upd _ _ _ _ _ _ Ht) in Hq.
            destruct (Nat.eqb_spec u t) as [->|Hne]; [split; congruence|].
            destruct Hne. eapply only_one; [exact O1 | exact Ht | reflexivity | exact Hq | exact Lq].
          - rewrite nth_error_app2 in Hq by (rewrite upd_length; lia). rewrite upd_length in Hq.
            destruct (u - length (tasks s)) as [|[|]]; simpl in Hq; try discriminate. injection Hq as <-. discriminate. }
        destruct Hu as [-> ->]. rewrite V, Lc. pose proof (CU (started_by t)) as H. rewrite S2 in H. simpl in H.
        rewrite Nat.eqb_refl in H. simpl in H. repeat split; try lia.
      + intros u. pose proof (CU (started_by u)) as H. rewrite S2 in H. simpl in H. specialize (D u).
        destruct (Nat.eqb_spec t u) as [->|Hne]; simpl in H; lia.
    - destruct (C t _ Ht eq_refl) as (C1 & C2 & C3 & C4). simpl in C1, C4.
      constructor.
      + intros u q Hq Hs. rewrite T in *. rewrite upd_length. apply In_upd in Hq. destruct Hq as [-> |Hq]; [discriminate|].
        apply (A u q Hq Hs).
      + intros _. rewrite V. destruct (Nat.ltb_spec 0 n); [reflexivity | lia].
      + intros u q Hq Lq. rewrite T, (nth_upd _ _ _ _ _ _ Ht) in Hq. destruct (Nat.eqb_spec u t) as [->|Hne].
        * injection Hq as <-. discriminate.
        * destruct Hne. eapply only_one; [exact O1 | exact Ht | reflexivity | exact Hq | exact Lq].
      + intros u. pose proof (countp_upd (started_by u) _ _ _ _ _ Ht T) as H. simpl in H. specialize (D u). lia.
  Qed.

  (** Children only exist while the call that started them waits for them. *)
  Definition joined (s : pst) : Prop := forall t p, In p (tasks s) -> child_of t p = true ->
    exists q, nth_error (tasks s) t = Some q /\ is_loop q = true.
  Lemma joined_step : forall s s', tk k s s' -> joined s -> joined s'.
  Proof.
    intros s s' Hk J.
    assert (NL : forall u q, is_loop q = true -> child_of u q = false) by (intros u q; destruct q; simpl; try discriminate; reflexivity).
    destruct Hk as [T V|p T V Lp Sp|T V|t p p' Ht T V L1 L2 Sb Ch|t p p' Ht T V L1 L2 Lc Ac|t n id p' Ht T V L1 Lc Ac|t n Ht T V Ex];
      intros u q Hq Hc; rewrite T in *.
    - apply (J u q Hq Hc).
    - apply in_app_iff in Hq. destruct Hq as [Hq|[<-|[]]].
      + destruct (J u q Hq Hc) as (r & Hr & Lr). exists r. split; [apply nth_app_keep; exact Hr | exact Lr].
      + exfalso. specialize (Sp u). destruct p; simpl in *; congruence.
    - apply in_app_iff in Hq. destruct Hq as [Hq|[<-|[]]].
      + destruct (J u q Hq Hc) as (r & Hr & Lr). exists r. split; [apply nth_app_keep; exact Hr | exact Lr].
      + rewrite NL in Hc by apply top_loop. discriminate.
    - assert (H : exists r, nth_error (tasks s) u = Some r /\ is_loop r = true).
      { apply In_upd in Hq. destruct Hq as [-> |Hq]; [|eauto]. apply (J u p); [eapply nth_error_In; eauto | apply Ch, Hc]. }
      destruct H as (r & Hr & Lr). exists r. rewrite (nth_upd _ _ _ _ _ _ Ht). destruct (Nat.eqb_spec u t) as [->|]; [congruence | auto].
    - apply In_upd in Hq. destruct Hq as [-> |Hq]; [rewrite NL in Hc by exact L2; discriminate|].
      destruct (J u q Hq Hc) as (r & Hr & Lr). rewrite (nth_upd _ _ _ _ _ _ Ht). destruct (u =? t); eauto.
    - assert (Hl : t < length (tasks s)) by (apply nth_error_Some; rewrite Ht; discriminate).
      assert (H : u = t \/ exists r, nth_error (tasks s) u = Some r /\ is_loop r = true).
      { apply in_app_iff in Hq. destruct Hq as [Hq|[<-|[]]].
        - apply In_upd in Hq. destruct Hq as [-> |Hq]; [rewrite NL in Hc by exact L1; discriminate | right; eauto].
        - simpl in Hc. left. apply Nat.eqb_eq in Hc. auto. }
      destruct H as [->|(r & Hr & Lr)].
      + exists p'. split; [|exact L1]. apply nth_app_keep. rewrite (nth_upd _ _ _ _ _ _ Ht), Nat.eqb_refl. reflexivity.
      + exists (if u =? t then p' else r). split; [apply nth_app_keep; rewrite (nth_upd _ _ _ _ _ _ Ht); destruct (u =? t); auto | destruct (u =? t); auto].
    - apply In_upd in Hq. destruct Hq as [-> |Hq]; [discriminate|].
      destruct (J u q Hq Hc) as (r & Hr & Lr). exists r. rewrite (nth_upd _ _ _ _ _ _ Ht).
      destruct (Nat.eqb_spec u t) as [->|]; [|auto]. exfalso.
      assert (X : existsb (child_of t) (tasks s) = true) by (apply existsb_exists; eauto). congruence.
  Qed.
  Lemma joined_reach : forall s, reach k anything s -> joined s.
  Proof.
    apply reach_inv; [intros t p []|]. intros s a _ J. eapply joined_step; [apply tk_step | exact J].
  Qed.

  Lemma CI_0 : CI (pst0 k).
  Proof.
    constructor; simpl; auto.
    - intros u p [].
    - intros [|t] p H; discriminate.
    - intros t. unfold countp. simpl. lia.
  Qed.

  Lemma CI_run : forall l, always k (fun s => countp is_loop s <= 1) (pst0 k) l -> CI (pexec k (pst0 k) l).
  Proof.
    intros l Ha. apply (always_inv k anything (fun s => countp is_loop s <= 1) CI); auto.
    - intros s a _ HI H1 H2. eapply CI_step; [apply tk_step | exact HI | exact H1 | exact H2].
    - apply Forall_forall. intros a _. exact Logic.I.
    - apply CI_0.
  Qed.
End Cap.
