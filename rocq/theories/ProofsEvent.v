(** Event: single start, settled state, mutual exclusion. *)
From Coq Require Import String.
From Coq Require Import List Bool Arith ZArith Lia.
From Verif Require Import PyBase PyFacts ModelHeap ModelExc SpecExc ModelEvent SpecEvent ProofsPQueue.
Import ListNotations.

Section P.
  Context {V : Type}.
  Notation econf := (econf V).

  (** [n] starts so far; the owner is the only caller inside. *)
  Definition EI (x0 : execution V) (c : econf) : Prop :=
    (forall t, (nth_error (e_tasks c) t = Some EHold \/ nth_error (e_tasks c) t = Some ERun) <-> e_owner c = Some t) /\
    ((e_starts c = 0 /\ e_exec c = x0 /\ (forall t, nth_error (e_tasks c) t <> Some ERun) /\
        (x_status x0 = PENDING -> forall t r, nth_error (e_tasks c) t <> Some (EDone r))) \/
     (e_starts c = 1 /\ x_status x0 = PENDING /\ e_exec c = begin x0 /\
        (exists t, nth_error (e_tasks c) t = Some ERun) /\
        (forall t r, nth_error (e_tasks c) t <> Some (EDone r))) \/
     (e_starts c = 1 /\ x_status x0 = PENDING /\ (forall t, nth_error (e_tasks c) t <> Some ERun) /\
        exists d dur r t, settle (begin x0) d dur = (e_exec c, r) /\ nth_error (e_tasks c) t = Some (EDone r) /\
          forall u r', nth_error (e_tasks c) u = Some (EDone r') -> u = t \/ r' = None)).

  Lemma settle_not_pending : forall (x : execution V) d dur, x_status x <> PENDING ->
    x_status (fst (settle x d dur)) <> PENDING.
  Proof.
    intros x d dur H. destruct d as [v|e|]; simpl; try discriminate.
    destruct e as [| | | | |o m l]; simpl; try discriminate; try exact H.
    destruct (forallb is_exception l); simpl; [discriminate | exact H].
  Qed.

  Lemma nth_upd : forall A (l : list A) t u x p, nth_error l t = Some p ->
    nth_error (upd t x l) u = if u =? t then Some x else nth_error l u.
  Proof.
    intros A l t u x p H. rewrite nth_error_upd. rewrite (Nat.eqb_sym u t).
    assert (Hl : t <? List.length l = true) by (apply Nat.ltb_lt, nth_error_Some; congruence).
    rewrite Hl, andb_true_r. reflexivity.
  Qed.

  Ltac up E u :=
    match type of E with
    | nth_error _ ?t = _ => rewrite ?(nth_upd _ _ _ u _ _ E); destruct (Nat.eqb_spec u t) as [Hu|Hu]; [subst u|]
    end.

  (** Ownership when the state of [t] changes. *)
  Lemma own_upd : forall (l : list epc) o t p p' o', nth_error l t = Some p ->
    (forall u, (nth_error l u = Some EHold \/ nth_error l u = Some ERun) <-> o = Some u) ->
    (forall u, u <> t -> (o = Some u <-> o' = Some u)) ->
    ((p' = EHold \/ p' = ERun) <-> o' = Some t) ->
    forall u, (nth_error (upd t p' l) u = Some EHold \/ nth_error (upd t p' l) u = Some ERun) <-> o' = Some u.
  Proof.
    intros l o t p p' o' E H1 H2 H3 u. up E u.
    - rewrite <- H3. split; intros [H|H]; inversion H; auto.
    - rewrite <- (H2 u Hu). apply H1.
  Qed.

  (** Changing [t] to a state that is neither running nor done keeps the phase. *)
  Lemma phase_keep : forall x0 (c : econf) t p p' o, nth_error (e_tasks c) t = Some p ->
    p = EStart \/ p = EHold -> p' = EHold \/ p' = EGone ->
    EI x0 c ->
    (forall u, (nth_error (upd t p' (e_tasks c)) u = Some EHold \/ nth_error (upd t p' (e_tasks c)) u = Some ERun) <-> o = Some u) ->
    EI x0 (EConf (e_exec c) o (upd t p' (e_tasks c)) (e_starts c)).
  Proof.
    intros x0 c t p p' o E Hp Hp' (H1 & H2) Ho. split; [exact Ho|]. simpl.
    destruct H2 as [(S0 & X & R & D)|[(S1 & P & X & [w R] & D)|(S1 & P & R & d & dur & r & w & S & W & O)]].
    - left. split; [exact S0|]. split; [exact X|]. split.
      + intros u. up E u; [destruct Hp' as [-> | ->]; discriminate | apply R].
      + intros Hpend u r. up E u; [destruct Hp' as [-> | ->]; discriminate | apply D; exact Hpend].
    - right; left. split; [exact S1|]. split; [exact P|]. split; [exact X|]. split.
      + exists w. up E w; [|exact R]. exfalso. destruct Hp; congruence.
      + intros u r. up E u; [destruct Hp' as [-> | ->]; discriminate | apply D].
    - right; right. split; [exact S1|]. split; [exact P|]. split.
      + intros u. up E u; [destruct Hp' as [-> | ->]; discriminate | apply R].
      + exists d, dur, r, w. split; [exact S|]. split.
        * up E w; [|exact W]. exfalso. destruct Hp; congruence.
        * intros u r'. up E u; [destruct Hp' as [-> | ->]; discriminate | apply O].
  Qed.

  Lemma estep_EI : forall x0 c a, EI x0 c -> EI x0 (estep c a).
  Proof.
    intros x0 c a HI. pose proof HI as (H1 & H2).
    destruct a as [t|t d dur|t]; simpl; destruct (nth_error (e_tasks c) t) as [p|] eqn:E; try exact HI;
      destruct p; try exact HI.
    - destruct (e_owner c) eqn:Eo; [exact HI|].
      eapply phase_keep; eauto. eapply own_upd; eauto.
      + intros u Hu. split; [discriminate | intros [= <-]; contradiction].
      + split; auto.
    - assert (Eo : e_owner c = Some t) by (apply H1; auto).
      assert (Hnr : forall w, nth_error (e_tasks c) w <> Some ERun).
      { intros w Hw. assert (e_owner c = Some w) by (apply H1; auto). congruence. }
      destruct H2 as [(S0 & X & R & D)|[(S1 & P & X & [w R] & D)|(S1 & P & R & d & dur & r & w & S & W & O)]].
      + rewrite X. destruct (x_status x0) eqn:Es;
          (split; [eapply own_upd; eauto; simpl;
             [intros u Hu; rewrite Eo; split; congruence | rewrite ?Eo; split; [intros [?|?]; discriminate || auto | discriminate || auto]] | ]).
        * simpl. right; left. split; [lia|]. split; [exact Es|]. split; [reflexivity|]. split.
          -- exists t. rewrite (nth_upd _ _ _ t _ _ E), Nat.eqb_refl; reflexivity.
          -- intros u r. up E u; [discriminate | apply D; reflexivity].
        * left. simpl. split; [exact S0|]. split; [reflexivity|]. split; [intros u; up E u; [discriminate | apply R] | congruence].
        * left. simpl. split; [exact S0|]. split; [reflexivity|]. split; [intros u; up E u; [discriminate | apply R] | congruence].
        * left. simpl. split; [exact S0|]. split; [reflexivity|]. split; [intros u; up E u; [discriminate | apply R] | congruence].
        * left. simpl. split; [exact S0|]. split; [reflexivity|]. split; [intros u; up E u; [discriminate | apply R] | congruence].
        * left. simpl. split; [exact S0|]. split; [reflexivity|]. split; [intros u; up E u; [discriminate | apply R] | congruence].
        * left. simpl. split; [exact S0|]. split; [reflexivity|]. split; [intros u; up E u; [discriminate | apply R] | congruence].
      + exfalso. exact (Hnr w R).
      + assert (Np : x_status (e_exec c) <> PENDING).
        { pose proof (settle_not_pending (begin x0) d dur) as N. rewrite S in N. apply N. discriminate. }
        assert (G : EI x0 (EConf (e_exec c) None (upd t (EDone None) (e_tasks c)) (e_starts c))).
        { split; [eapply own_upd; eauto; simpl;
             [intros u Hu; rewrite Eo; split; congruence | split; [intros [?|?]; discriminate | discriminate]] | ].
          right; right. simpl. split; [exact S1|]. split; [exact P|]. split; [intros u; up E u; [discriminate | apply R]|].
          exists d, dur, r, w. split; [exact S|]. split.
          - up E w; [congruence | exact W].
          - intros u r'. up E u; [intros [= <-]; auto | apply O]. }
        destruct (x_status (e_exec c)); [contradiction| | | | | |]; exact G.
    - assert (Eo : e_owner c = Some t) by (apply H1; auto).
      destruct H2 as [(S0 & X & R & D)|[(S1 & P & X & [w R] & D)|(S1 & P & R & _)]]; [exfalso; eapply R; eauto | | exfalso; eapply R; eauto].
      destruct (settle (e_exec c) d dur) as [x r] eqn:Es. split.
      + eapply own_upd; eauto; simpl; [intros u Hu; rewrite Eo; split; congruence | split; [intros [?|?]; discriminate | discriminate]].
      + right; right. simpl. split; [exact S1|]. split; [exact P|]. split.
        * intros u. up E u; [discriminate|]. intros Hr. assert (e_owner c = Some u) by (apply H1; auto). congruence.
        * exists d, dur, r, t. rewrite <- X. split; [exact Es|]. split.
          -- rewrite (nth_upd _ _ _ t _ _ E), Nat.eqb_refl; reflexivity.
          -- intros u r'. up E u; [auto|]. intros Hd. exfalso. eapply D; eauto.
    - eapply phase_keep; eauto. eapply own_upd; eauto.
      + intros u Hu. tauto.
      + split; [intros [?|?]; discriminate|]. intros Ho. apply H1 in Ho. destruct Ho; congruence.
    - assert (Eo : e_owner c = Some t) by (apply H1; auto).
      eapply phase_keep; eauto. eapply own_upd; eauto.
      + intros u Hu. rewrite Eo. split; congruence.
      + split; [intros [?|?]; discriminate | discriminate].
  Qed.

  Lemma nth_repeat_Some : forall A (x : A) n t p, nth_error (repeat x n) t = Some p -> p = x.
  Proof. intros A x n t p H. apply nth_error_In in H. apply repeat_spec in H. exact H. Qed.

  Lemma einit_EI : forall x n, EI x (einit x n).
  Proof.
    intros x n. unfold einit. split; simpl.
    - intros t. split; [|discriminate]. intros [H|H]; apply nth_repeat_Some in H; discriminate.
    - left. split; [reflexivity|]. split; [reflexivity|]. split.
      + intros t H. apply nth_repeat_Some in H. discriminate.
      + intros _ t r H. apply nth_repeat_Some in H. discriminate.
  Qed.

  Lemma erun_EI : forall s x c, EI x c -> EI x (erun c s).
  Proof. induction s as [|a s IH]; intros x c H; [exact H|]. apply IH, estep_EI, H. Qed.

  (** ** Progress *)
  Definition eweight (p : epc) : nat :=
    match p with EStart => 3 | EHold => 2 | ERun => 1 | _ => 0 end.
  Definition emass (c : econf) : nat := wsum eweight (e_tasks c).

  Lemma emass_upd : forall (l : list epc) t p p', nth_error l t = Some p ->
    wsum eweight (upd t p' l) + eweight p = wsum eweight l + eweight p'.
  Proof. intros l t p p' H. apply wsum_upd; exact H. Qed.

  Lemma estep_mass : forall c a, estep c a = c \/ emass (estep c a) < emass c.
  Proof.
    intros c a. destruct a as [t|t d dur|t]; simpl; destruct (nth_error (e_tasks c) t) as [p|] eqn:E; auto;
      destruct p; auto.
    - destruct (e_owner c); [auto|]. right. unfold emass. simpl. pose proof (emass_upd _ t _ EHold E). simpl in *. lia.
    - right. pose proof (emass_upd _ t _ ERun E). pose proof (emass_upd _ t _ (EDone None) E).
      destruct (x_status (e_exec c)); unfold emass; simpl in *; lia.
    - right. destruct (settle (e_exec c) d dur) as [x r]. pose proof (emass_upd _ t _ (EDone r) E). unfold emass; simpl in *; lia.
    - right. pose proof (emass_upd _ t _ EGone E). unfold emass; simpl in *; lia.
    - right. pose proof (emass_upd _ t _ EGone E). unfold emass; simpl in *; lia.
  Qed.

  Lemma emass_init : forall x n, emass (einit x n) = 3 * n.
  Proof. intros x n. unfold emass, einit. simpl e_tasks. induction n as [|n IH]; [reflexivity|]. cbn [repeat wsum]. rewrite IH. cbn [eweight]. lia. Qed.
End P.
