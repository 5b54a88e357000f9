(** C108: singletons stay single. *)
From Coq Require Import List Arith Bool Lia.
From Verif Require Import ModelSentinel.
Import ListNotations.

(** *** Specification *)

(** Thread [t] has been given [x] for [o]. *)
Definition gave (s : state) (t : nat) (o : op) (x : inst) : Prop :=
  In (o, x) (t_got (s_thr s t)).

(** No thread is inside a call. *)
Definition quiet (s : state) : Prop := forall t, t_pc (s_thr s t) = Idle.

(** No thread is creating the instance of class [c]. *)
Definition settled (s : state) (c : cls) : Prop :=
  forall t o x, t_pc (s_thr s t) <> Creating o c /\ t_pc (s_thr s t) <> Storing o c x.

(** Nothing was asked for yet. *)
Definition fresh (s : state) : Prop := forall t, t_got (s_thr s t) = [].

(** Cached instances belong to their class. *)
Definition tidy (s : state) : Prop := forall c x, s_cache s c = Some x -> i_cls x = c.

(** The class whose call answers [o], if [o] is answered by a call. *)
Definition asks (reduce : cls -> option cls) (o : op) : option cls :=
  match o with
  | Make c => Some c
  | Pickle x => reduce (i_cls x)
  | _ => None
  end.

(** *** Proofs *)

Lemma thr_same f t th : set_thr f t th t = th.
Proof. unfold set_thr. now rewrite Nat.eqb_refl. Qed.

Lemma thr_other f t th t' : t' <> t -> set_thr f t th t' = f t'.
Proof. intros H. unfold set_thr. destruct (t' =? t) eqn:E; [apply Nat.eqb_eq in E; congruence|reflexivity]. Qed.

Section Proofs.
Variable reduce : cls -> option cls.

(** Every call in progress belongs to an operation that asks for its class. *)
Definition calls_ok (s : state) : Prop :=
  forall t o c', (t_pc (s_thr s t) = Reading o c' \/ t_pc (s_thr s t) = Creating o c'
                  \/ exists y, t_pc (s_thr s t) = Storing o c' y) ->
    asks reduce o = Some c'.

Lemma calls_quiet s : quiet s -> calls_ok s.
Proof. intros Q t o c [H|[H|[y H]]]; rewrite Q in H; discriminate. Qed.

Lemma calls_step s t s' : calls_ok s -> step reduce s t = Some s' -> calls_ok s'.
Proof.
  intros K E t1 o1 c1 H. unfold step in E.
  destruct (t_pc (s_thr s t)) as [|o c|o c x|o c] eqn:P.
  - destruct (t_todo (s_thr s t)) as [|o rest]; [discriminate|].
    destruct o as [c|x|x|x]; [| | |destruct (reduce (i_cls x)) as [c|] eqn:R];
      injection E as <-; cbn in H;
      (destruct (Nat.eq_dec t1 t) as [->|N];
       [rewrite thr_same in H; cbn in H|rewrite thr_other in H by assumption; exact (K t1 o1 c1 H)]);
      try (destruct H as [H|[H|[y H]]]; discriminate);
      unfold check in H; destruct (s_cache s c);
      destruct H as [H|[H|[y H]]]; try discriminate; injection H as <- <-; cbn; congruence.
  - injection E as <-; cbn in H.
    destruct (Nat.eq_dec t1 t) as [->|N];
      [rewrite thr_same in H; cbn in H|rewrite thr_other in H by assumption; exact (K t1 o1 c1 H)].
    destruct H as [H|[H|[y H]]]; try discriminate. injection H as <- <-.
    apply (K t). rewrite P. auto.
  - injection E as <-; cbn in H.
    destruct (Nat.eq_dec t1 t) as [->|N];
      [rewrite thr_same in H; cbn in H|rewrite thr_other in H by assumption; exact (K t1 o1 c1 H)].
    destruct H as [H|[H|[y H]]]; try discriminate. injection H as <- <-.
    apply (K t). rewrite P. eauto.
  - destruct (s_cache s c); [|discriminate]. injection E as <-; cbn in H.
    destruct (Nat.eq_dec t1 t) as [->|N];
      [rewrite thr_same in H; cbn in H|rewrite thr_other in H by assumption; exact (K t1 o1 c1 H)].
    destruct H as [H|[H|[y H]]]; discriminate.
Qed.

(** The invariant for a class that is cached. *)
Definition held (c : cls) (x : inst) (s : state) : Prop :=
  s_cache s c = Some x /\ settled s c.

Lemma held_step c x s t s' : held c x s -> step reduce s t = Some s' -> held c x s'.
Proof.
  intros (C & S) E. unfold step in E.
  destruct (t_pc (s_thr s t)) as [|o c0|o c0 y|o c0] eqn:P.
  - destruct (t_todo (s_thr s t)) as [|o rest]; [discriminate|].
    destruct o as [c0|y|y|y]; [| | |destruct (reduce (i_cls y)) as [c0|] eqn:R];
      injection E as <-; (split; [exact C|]); intros t1 o1 x1; cbn;
      (destruct (Nat.eq_dec t1 t) as [->|N];
       [rewrite thr_same; cbn|rewrite thr_other by assumption; apply S]);
      try (split; discriminate);
      unfold check; destruct (s_cache s c0) eqn:C0; split; try discriminate;
      intros H; injection H as _ ->; congruence.
  - injection E as <-. split; [exact C|]. intros t1 o1 x1; cbn.
    destruct (Nat.eq_dec t1 t) as [->|N];
      [rewrite thr_same; cbn|rewrite thr_other by assumption; apply S].
    split; [discriminate|]. intros H. injection H as _ -> _.
    destruct (S t o x1) as [H _]. congruence.
  - injection E as <-. assert (c <> c0) as N0.
    { intros <-. destruct (S t o y) as [_ H]. congruence. }
    split.
    + cbn. unfold set_cache. destruct (c =? c0) eqn:E0; [apply Nat.eqb_eq in E0; congruence|exact C].
    + intros t1 o1 x1; cbn.
      destruct (Nat.eq_dec t1 t) as [->|N];
        [rewrite thr_same; cbn|rewrite thr_other by assumption; apply S].
      split; discriminate.
  - destruct (s_cache s c0); [|discriminate]. injection E as <-. split; [exact C|].
    intros t1 o1 x1; cbn.
    destruct (Nat.eq_dec t1 t) as [->|N];
      [rewrite thr_same; cbn|rewrite thr_other by assumption; apply S].
    split; discriminate.
Qed.

Lemma got_step s t s' t1 o x :
  calls_ok s -> step reduce s t = Some s' -> gave s' t1 o x ->
  gave s t1 o x
  \/ (exists c, asks reduce o = Some c /\ s_cache s c = Some x /\ t_pc (s_thr s t1) = Reading o c)
  \/ (asks reduce o = None /\
      (o = Copy x \/ o = Deep x \/
       exists y, o = Pickle y /\ x = Inst (i_cls y) (s_next s))).
Proof.
  intros K E. unfold gave, step in *.
  destruct (t_pc (s_thr s t)) as [|o0 c0|o0 c0 y|o0 c0] eqn:P.
  - destruct (t_todo (s_thr s t)) as [|o0 rest]; [discriminate|].
    destruct o0 as [c0|y|y|y]; [| | |destruct (reduce (i_cls y)) as [c0|] eqn:R];
      injection E as <-; cbn;
      (destruct (Nat.eq_dec t1 t) as [->|N];
       [rewrite thr_same; cbn|rewrite thr_other by assumption; now left]);
      try (now left); rewrite in_app_iff; cbn; intros [H|[H|[]]]; try (now left);
      injection H as <- <-; right; right; cbn; split; eauto 8.
  - injection E as <-; cbn.
    destruct (Nat.eq_dec t1 t) as [->|N];
       [rewrite thr_same; cbn|rewrite thr_other by assumption]; now left.
  - injection E as <-; cbn.
    destruct (Nat.eq_dec t1 t) as [->|N];
       [rewrite thr_same; cbn|rewrite thr_other by assumption]; now left.
  - destruct (s_cache s c0) as [y|] eqn:C0; [|discriminate]. injection E as <-; cbn.
    destruct (Nat.eq_dec t1 t) as [->|N];
       [rewrite thr_same; cbn|rewrite thr_other by assumption; now left].
    rewrite in_app_iff; cbn. intros [H|[H|[]]]; [now left|].
    injection H as <- <-. right. left. exists c0. repeat split; auto.
    apply (K t). auto.
Qed.

Lemma calls_run s s' : calls_ok s -> run reduce s s' -> calls_ok s'.
Proof. intros K R. induction R as [s|s s1 s2 t R IH E]; [exact K|]. exact (calls_step _ _ _ (IH K) E). Qed.

Lemma held_run c x s s' : held c x s -> run reduce s s' -> held c x s'.
Proof. intros K R. induction R as [s|s s1 s2 t R IH E]; [exact K|]. exact (held_step _ _ _ _ _ (IH K) E). Qed.

(** Once a class's instance exists and no thread is still creating one, every
    call of the class and every unpickling that calls it gives that instance,
    in all threads and under every interleaving. *)
Theorem C108_single s s' c x t o y :
  calls_ok s -> s_cache s c = Some x -> settled s c -> fresh s ->
  run reduce s s' -> gave s' t o y -> asks reduce o = Some c -> y = x.
Proof.
  intros K C S F R. pose proof (conj C S : held c x s) as H0. clear C S.
  induction R as [s|s s1 s2 t0 R IH E].
  - unfold gave. rewrite F. intros [].
  - intros G A. pose proof (calls_run _ _ K R) as K1. pose proof (held_run _ _ _ _ H0 R) as (C1 & _).
    destruct (got_step _ _ _ _ _ _ K1 E G) as [G1|[(c1 & A1 & C2 & _)|(A1 & _)]].
    + exact (IH K F H0 G1 A).
    + congruence.
    + congruence.
Qed.

(** Copies are the object itself, always. *)
Theorem C108_copies s s' t o x y :
  calls_ok s -> fresh s -> run reduce s s' -> gave s' t o y ->
  (o = Copy x \/ o = Deep x) -> y = x.
Proof.
  intros K F R. induction R as [s|s s1 s2 t0 R IH E].
  - unfold gave. rewrite F. intros [].
  - intros G A. pose proof (calls_run _ _ K R) as K1.
    destruct (got_step _ _ _ _ _ _ K1 E G) as [G1|[(c1 & A1 & _)|(A1 & [H|[H|(z & H & _)]])]].
    + exact (IH K F G1 A).
    + destruct A as [-> | ->]; discriminate.
    + destruct A as [-> | ->]; congruence.
    + destruct A as [-> | ->]; congruence.
    + destruct A as [-> | ->]; discriminate.
Qed.

(** Invariant for classes. *)
Definition typed (s : state) : Prop :=
  tidy s /\ forall t o c y, t_pc (s_thr s t) = Storing o c y -> i_cls y = c.

Lemma typed_step s t s' : typed s -> step reduce s t = Some s' -> typed s'.
Proof.
  intros (T & S) E. unfold step in E.
  destruct (t_pc (s_thr s t)) as [|o0 c0|o0 c0 y|o0 c0] eqn:P.
  - destruct (t_todo (s_thr s t)) as [|o0 rest]; [discriminate|].
    destruct o0 as [c0|y|y|y]; [| | |destruct (reduce (i_cls y)) as [c0|] eqn:R];
      injection E as <-; (split; [exact T|]); intros t1 o1 c1 y1; cbn;
      (destruct (Nat.eq_dec t1 t) as [->|N];
       [rewrite thr_same; cbn|rewrite thr_other by assumption; apply S]);
      try discriminate; unfold check; destruct (s_cache s c0); discriminate.
  - injection E as <-. split; [exact T|]. intros t1 o1 c1 y1; cbn.
    destruct (Nat.eq_dec t1 t) as [->|N];
       [rewrite thr_same; cbn|rewrite thr_other by assumption; apply S].
    intros H. injection H as <- <- <-. reflexivity.
  - injection E as <-. split.
    + intros c x. cbn. unfold set_cache. destruct (c =? c0) eqn:E0; [|apply T].
      intros H. injection H as <-. apply Nat.eqb_eq in E0. subst. eapply S; eauto.
    + intros t1 o1 c1 y1; cbn.
      destruct (Nat.eq_dec t1 t) as [->|N];
        [rewrite thr_same; cbn; discriminate|rewrite thr_other by assumption; apply S].
  - destruct (s_cache s c0); [|discriminate]. injection E as <-. split; [exact T|].
    intros t1 o1 c1 y1; cbn.
    destruct (Nat.eq_dec t1 t) as [->|N];
       [rewrite thr_same; cbn; discriminate|rewrite thr_other by assumption; apply S].
Qed.

Lemma typed_run s s' : typed s -> run reduce s s' -> typed s'.
Proof. intros K R. induction R as [s|s s1 s2 t R IH E]; [exact K|]. exact (typed_step _ _ _ (IH K) E). Qed.

(** A call never gives an instance of another class, even while several
    threads create instances. *)
Theorem C108_class s s' t o c y :
  quiet s -> tidy s -> fresh s -> run reduce s s' -> gave s' t o y ->
  asks reduce o = Some c -> i_cls y = c.
Proof.
  intros Q T F R.
  assert (typed s) as Ty by (split; [exact T|]; intros t1 o1 c1 y1 H; rewrite Q in H; discriminate).
  pose proof (calls_quiet s Q) as K. clear Q T.
  induction R as [s|s s1 s2 t0 R IH E].
  - unfold gave. rewrite F. intros [].
  - intros G A. pose proof (calls_run _ _ K R) as K1. destruct (typed_run _ _ Ty R) as (T1 & _).
    destruct (got_step _ _ _ _ _ _ K1 E G) as [G1|[(c1 & A1 & C2 & _)|(A1 & _)]].
    + exact (IH F Ty K G1 A).
    + replace c with c1 by congruence. exact (T1 _ _ C2).
    + congruence.
Qed.

(** *** One thread *)

Lemma others_idle s s' t1 :
  run reduce s s' -> (forall t, t <> t1 -> t_pc (s_thr s t) = Idle /\ t_todo (s_thr s t) = []) ->
  forall t, t <> t1 -> t_pc (s_thr s' t) = Idle /\ t_todo (s_thr s' t) = [].
Proof.
  intros R H. induction R as [s|s s1 s2 t0 R IH E]; [exact H|].
  specialize (IH H). intros t N.
  assert (t0 = t1) as ->.
  { destruct (Nat.eq_dec t0 t1) as [->|N0]; [reflexivity|].
    destruct (IH t0 N0) as [P Q]. unfold step in E. rewrite P, Q in E. discriminate. }
  destruct (IH t N) as [P Q]. unfold step in E.
  destruct (t_pc (s_thr s1 t1)) as [|o0 c0|o0 c0 y|o0 c0].
  - destruct (t_todo (s_thr s1 t1)) as [|o0 rest]; [discriminate|].
    destruct o0 as [c0|y|y|y]; [| | |destruct (reduce (i_cls y)) as [c0|] eqn:Rd];
      injection E as <-; cbn; rewrite thr_other by assumption; auto.
  - injection E as <-; cbn; rewrite thr_other by assumption; auto.
  - injection E as <-; cbn; rewrite thr_other by assumption; auto.
  - destruct (s_cache s1 c0); [|discriminate].
    injection E as <-; cbn; rewrite thr_other by assumption; auto.
Qed.

(** Invariant of a run of one thread: what was given for a class is cached,
    and then the class is settled. *)
Definition solo_inv (t1 : nat) (s : state) : Prop :=
  (forall o c y, gave s t1 o y -> asks reduce o = Some c -> s_cache s c = Some y)
  /\ (forall o c, t_pc (s_thr s t1) = Creating o c -> s_cache s c = None)
  /\ (forall o c y, t_pc (s_thr s t1) = Storing o c y -> s_cache s c = None).

Lemma solo_step t1 s s' :
  calls_ok s -> solo_inv t1 s -> step reduce s t1 = Some s' -> solo_inv t1 s'.
Proof.
  intros K (I1 & I2 & I3) E.
  assert (forall c y, s_cache s c = Some y -> s_cache s' c = Some y) as Grow.
  { intros c y C. unfold step in E.
    destruct (t_pc (s_thr s t1)) as [|o0 c0|o0 c0 z|o0 c0] eqn:P.
    - destruct (t_todo (s_thr s t1)) as [|o0 rest]; [discriminate|].
      destruct o0 as [c0|z|z|z]; [| | |destruct (reduce (i_cls z))]; injection E as <-; exact C.
    - injection E as <-; exact C.
    - injection E as <-. cbn. unfold set_cache. destruct (c =? c0) eqn:E0; [|exact C].
      apply Nat.eqb_eq in E0. subst. rewrite (I3 o0 c0 z eq_refl) in C. discriminate.
    - destruct (s_cache s c0); [|discriminate]. injection E as <-; exact C. }
  repeat split.
  - intros o c y G A. destruct (got_step _ _ _ _ _ _ K E G) as [G1|[(c1 & A1 & C2 & _)|(A1 & _)]].
    + apply Grow. eauto.
    + apply Grow. congruence.
    + congruence.
  - intros o c. unfold step in E.
    destruct (t_pc (s_thr s t1)) as [|o0 c0|o0 c0 z|o0 c0] eqn:P.
    + destruct (t_todo (s_thr s t1)) as [|o0 rest]; [discriminate|].
      destruct o0 as [c0|z|z|z]; [| | |destruct (reduce (i_cls z)) as [c0|]]; injection E as <-;
        cbn; rewrite thr_same; cbn; try discriminate;
        unfold check; destruct (s_cache s c0) eqn:C0; try discriminate;
        intros H; injection H as _ <-; exact C0.
    + injection E as <-; cbn; rewrite thr_same; cbn; discriminate.
    + injection E as <-; cbn; rewrite thr_same; cbn; discriminate.
    + destruct (s_cache s c0); [|discriminate].
      injection E as <-; cbn; rewrite thr_same; cbn; discriminate.
  - intros o c y. unfold step in E.
    destruct (t_pc (s_thr s t1)) as [|o0 c0|o0 c0 z|o0 c0] eqn:P.
    + destruct (t_todo (s_thr s t1)) as [|o0 rest]; [discriminate|].
      destruct o0 as [c0|z|z|z]; [| | |destruct (reduce (i_cls z)) as [c0|]]; injection E as <-;
        cbn; rewrite thr_same; cbn; try discriminate;
        unfold check; destruct (s_cache s c0) eqn:C0; discriminate.
    + injection E as <-; cbn; rewrite thr_same; cbn.
      intros H. injection H as <- <- _. exact (I2 o0 c0 eq_refl).
    + injection E as <-; cbn; rewrite thr_same; cbn; discriminate.
    + destruct (s_cache s c0); [|discriminate].
      injection E as <-; cbn; rewrite thr_same; cbn; discriminate.
Qed.

(** If only one thread runs, all calls of a class give the same object, the
    first one included. *)
Theorem C108_one_thread s s' t1 o1 o2 c x y :
  quiet s -> fresh s -> (forall t, t <> t1 -> t_todo (s_thr s t) = []) ->
  run reduce s s' -> gave s' t1 o1 x -> gave s' t1 o2 y ->
  asks reduce o1 = Some c -> asks reduce o2 = Some c -> x = y.
Proof.
  intros Q F T R G1 G2 A1 A2.
  assert (solo_inv t1 s) as I0.
  { repeat split; [intros o c0 z H|intros o c0 H|intros o c0 z H].
    - unfold gave in H. rewrite F in H. destruct H.
    - rewrite Q in H. discriminate.
    - rewrite Q in H. discriminate. }
  assert (solo_inv t1 s') as (I1 & _).
  { clear G1 G2. induction R as [s|s s1 s2 t0 R IH E]; [exact I0|].
    pose proof (others_idle _ _ t1 R (fun t N => conj (Q t) (T t N))) as O.
    assert (t0 = t1) as ->.
    { destruct (Nat.eq_dec t0 t1) as [->|N0]; [reflexivity|].
      destruct (O t0 N0) as [P U]. unfold step in E. rewrite P, U in E. discriminate. }
    exact (solo_step t1 s1 s2 (calls_run _ _ (calls_quiet _ Q) R) (IH Q F T I0) E). }
  pose proof (I1 _ _ _ G1 A1). pose proof (I1 _ _ _ G2 A2). congruence.
Qed.

End Proofs.
Print Assumptions C108_single.
Print Assumptions C108_copies.
Print Assumptions C108_class.
Print Assumptions C108_one_thread.

(** *** The library's two sentinels *)

(** UndefinedType and UnsetType are classes 0 and 1; each names itself when
    pickled, and the module creates both instances when it is imported. *)
Definition library (reduce : cls -> option cls) (s : state) : Prop :=
  reduce 0 = Some 0 /\ reduce 1 = Some 1
  /\ s_cache s 0 = Some (Inst 0 0) /\ s_cache s 1 = Some (Inst 1 1).
Definition undefined := Inst 0 0.
Definition unset := Inst 1 1.

(** Calling the type, copying, deep-copying and pickling Undefined gives
    Undefined, and likewise Unset; so is_sentinel keeps recognising them. *)
Theorem C108_library reduce s s' t o y :
  library reduce s -> quiet s -> fresh s -> run reduce s s' -> gave s' t o y ->
  (In o [Make 0; Copy undefined; Deep undefined; Pickle undefined] -> y = undefined)
  /\ (In o [Make 1; Copy unset; Deep unset; Pickle unset] -> y = unset).
Proof.
  intros (R0 & R1 & C0 & C1) Q F R G.
  pose proof (calls_quiet reduce s Q) as K.
  assert (forall c, settled s c) as S
    by (intros c t1 o1 x1; rewrite Q; split; discriminate).
  split; cbn; intros [<-|[<-|[<-|[<-|[]]]]].
  - eapply (C108_single reduce s s' 0); eauto.
  - eapply C108_copies; eauto.
  - eapply C108_copies; eauto.
  - eapply (C108_single reduce s s' 0); eauto.
  - eapply (C108_single reduce s s' 1); eauto.
  - eapply C108_copies; eauto.
  - eapply C108_copies; eauto.
  - eapply (C108_single reduce s s' 1); eauto.
Qed.
Print Assumptions C108_library.

(** is_sentinel (without flags) is true for these two objects only. *)
Theorem C108_recognised x :
  is_sent undefined unset x = true <-> x = undefined \/ x = unset.
Proof.
  unfold is_sent, inst_eqb, undefined, unset. destruct x as [c n]; cbn.
  rewrite orb_true_iff, !andb_true_iff, !Nat.eqb_eq. split.
  - intros [[-> ->]|[-> ->]]; auto.
  - intros [H|H]; injection H as -> ->; auto.
Qed.
Print Assumptions C108_recognised.

(** *** Refutations and examples *)

(** Class 2 derives from UndefinedType and inherits its __reduce__; class 3
    derives from SingletonType and defines none. *)
Definition ex_reduce (c : cls) : option cls :=
  match c with 0 => Some 0 | 1 => Some 1 | 2 => Some 0 | _ => None end.

Definition ex_state (a b : list op) : state :=
  State (fun c => match c with 0 => Some undefined | 1 => Some unset | _ => None end) 2
    (fun t => match t with 0 => Thread Idle a [] | 1 => Thread Idle b [] | _ => Thread Idle [] [] end).

Fixpoint exec (r : cls -> option cls) (l : list nat) (s : state) : option state :=
  match l with
  | [] => Some s
  | t :: l => match step r s t with Some s' => exec r l s' | None => None end
  end.

Lemma run_trans r s s1 s2 : run r s s1 -> run r s1 s2 -> run r s s2.
Proof.
  intros A B. induction B as [s1|s1 s2 s3 t B IH E]; [exact A|].
  exact (run_step _ _ _ _ _ (IH A) E).
Qed.

Lemma exec_run r l : forall s s', exec r l s = Some s' -> run r s s'.
Proof.
  induction l as [|t l IH]; cbn; intros s s' H.
  - injection H as <-. constructor.
  - destruct (step r s t) as [s1|] eqn:E; [|discriminate].
    eapply run_trans; [econstructor; [constructor|exact E]|auto].
Qed.

Lemma exec_ex r l s (P : state -> Prop) :
  match exec r l s with Some s' => P s' | None => False end ->
  exists s', run r s s' /\ P s'.
Proof.
  destruct (exec r l s) as [s'|] eqn:E; [|intros []].
  intros H. exists s'. split; [eapply exec_run; eauto|exact H].
Qed.

Example C108_ex_library :
  exists s', run ex_reduce (ex_state [Make 0; Pickle undefined] [Deep undefined; Make 1]) s'
    /\ t_got (s_thr s' 0) = [(Make 0, undefined); (Pickle undefined, undefined)]
    /\ t_got (s_thr s' 1) = [(Deep undefined, undefined); (Make 1, unset)].
Proof.
  apply (exec_ex _ [0; 1; 0; 1; 0; 1; 0]). vm_compute. auto.
Qed.

(** Two threads that call a new class at the same time can get two different
    objects. *)
Theorem C108_race_refuted :
  ~ (forall r s s' c x y t1 t2, quiet s -> fresh s -> tidy s -> run r s s' ->
       gave s' t1 (Make c) x -> gave s' t2 (Make c) y -> x = y).
Proof.
  intros H.
  assert (exists s', run ex_reduce (ex_state [Make 2] [Make 2]) s'
            /\ gave s' 0 (Make 2) (Inst 2 2) /\ gave s' 1 (Make 2) (Inst 2 3)) as (s' & R & G1 & G2).
  { apply (exec_ex _ [0; 1; 0; 0; 0; 1; 1; 1]). vm_compute. auto. }
  assert (Inst 2 2 = Inst 2 3); [|discriminate].
  eapply (H _ _ _ 2 _ _ 0 1); eauto.
  - intros [|[|t]]; reflexivity.
  - intros [|[|t]]; reflexivity.
  - intros [|[|c]] x E; cbn in E; try discriminate; injection E as <-; reflexivity.
Qed.
Print Assumptions C108_race_refuted.

(** Pickling does not preserve every singleton: an instance of a subclass of
    UndefinedType comes back as Undefined, and one of a class without its own
    __reduce__ as a second instance. *)
Theorem C108_pickle_refuted :
  ~ (forall r s s' t x y, quiet s -> fresh s -> run r s s' ->
       s_cache s (i_cls x) = Some x -> gave s' t (Pickle x) y -> y = x)
  /\ ~ (forall r s s' t x y, quiet s -> fresh s -> run r s s' ->
       s_cache s (i_cls x) = Some x -> gave s' t (Pickle x) y -> i_cls y = i_cls x -> y = x).
Proof.
  set (st := fun x => State (fun c => match c with
                 | 0 => Some undefined | 1 => Some unset
                 | 2 => Some (Inst 2 2) | 3 => Some (Inst 3 3) | _ => None end) 4
       (fun t => match t with 0 => Thread Idle [Pickle x] [] | _ => Thread Idle [] [] end)).
  assert (forall x, quiet (st x)) as Q by (intros x [|t]; reflexivity).
  assert (forall x, fresh (st x)) as F by (intros x [|t]; reflexivity).
  assert (exists s', run ex_reduce (st (Inst 2 2)) s' /\ gave s' 0 (Pickle (Inst 2 2)) undefined)
    as (s1 & Ra & G1).
  { apply (exec_ex _ [0; 0]). vm_compute. auto. }
  assert (exists s', run ex_reduce (st (Inst 3 3)) s' /\ gave s' 0 (Pickle (Inst 3 3)) (Inst 3 4))
    as (s2 & Rb & G2).
  { apply (exec_ex _ [0]). vm_compute. auto. }
  split; intros H.
  - specialize (H _ _ _ _ (Inst 2 2) _ (Q _) (F _) Ra eq_refl G1). discriminate.
  - specialize (H _ _ _ _ (Inst 3 3) _ (Q _) (F _) Rb eq_refl G2 eq_refl). discriminate.
Qed.
Print Assumptions C108_pickle_refuted.

(** Instances of a subclass of UndefinedType are not recognised by
    is_sentinel. *)
Example C108_ex_subclass : is_sent undefined unset (Inst 2 2) = false.
Proof. reflexivity. Qed.

Example C108_ex_one_thread :
  exists s', run ex_reduce (ex_state [Make 5; Make 5; Make 6] []) s'
    /\ t_got (s_thr s' 0) = [(Make 5, Inst 5 2); (Make 5, Inst 5 2); (Make 6, Inst 6 3)].
Proof.
  apply (exec_ex _ (repeat 0 10)). vm_compute. auto.
Qed.
