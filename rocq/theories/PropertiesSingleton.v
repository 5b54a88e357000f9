(** Property C127: the instances of broadcaster classes. *)
From Coq Require Import List Bool Arith Lia.
From Verif Require Import PyBase PyFacts ModelSingleton.
Import ListNotations.

(** Nothing called yet; [own]: the classes that write _instance = None in their body (the base class does). *)
Definition start (own : list nat) : store := Store (map (fun c => (c, None)) own) [].
(** A method resolution order starts with the class. *)
Definition proper (mro : nat -> list nat) : Prop := forall c, exists l, mro c = c :: l.
(** Single inheritance: the order of an ancestor is the rest of the order. *)
Definition single (mro : nat -> list nat) : Prop := forall c l1 b l2, mro c = l1 ++ b :: l2 -> mro b = b :: l2.
Definition class_of (st : store) (x : nat) : option nat := nth_error (made st) x.

Section C127.
  Variable mro : nat -> list nat.
  Variable own : list nat.
  Hypothesis Pm : proper mro.
  Notation look := (look mro). Notation call := (call mro). Notation calls := (calls mro). Notation steps := (steps mro).

  Definition Good (st : store) : Prop := forall a x, dget a (slots st) = Some (Some x) -> class_of st x = Some a.
  Lemma start_good : Good (start own).
  Proof.
    intros a x D. exfalso. unfold start in D. cbn in D. induction own as [|c l IH]; cbn [map dget] in D; [discriminate|]. destruct (eqb a c); [discriminate|auto].
  Qed.
  Lemma make_good st c : Good st -> Good (make st c).
  Proof.
    intros G a x. cbn. rewrite dget_dset. unfold class_of. cbn [make made]. destruct (eqb_spec a c) as [->|].
    - intros Q. injection Q as <-. rewrite nth_error_app2, Nat.sub_diag by lia. reflexivity.
    - intros D. apply G in D. rewrite nth_error_app1; [exact D|]. apply nth_error_Some. unfold class_of in D. congruence.
  Qed.
  Lemma find_some d l x : find_slot d l = Some x -> exists l1 a l2, l = l1 ++ a :: l2 /\ dget a d = Some (Some x) /\ forall b, In b l1 -> dget b d = None.
  Proof.
    induction l as [|b l IH]; cbn; [discriminate|]. destruct (dget b d) as [v|] eqn:D.
    - intros ->. exists [], b, l. cbn. intuition.
    - intros F. destruct (IH F) as (l1 & a & l2 & -> & Da & N). exists (b :: l1), a, l2. split; [reflexivity|]. split; [exact Da|]. intros b' [<-|J]; auto.
  Qed.
  Lemma find_here d l1 a l2 v : (forall b, In b l1 -> dget b d = None) -> dget a d = Some v -> find_slot d (l1 ++ a :: l2) = v.
  Proof.
    induction l1 as [|b l1 IH]; intros N D; cbn; [rewrite D; reflexivity|]. rewrite (N b (or_introl eq_refl)). apply IH; auto. intros b' J. apply N. right. exact J.
  Qed.
  Lemma look_good st c x : Good st -> look st c = Some x -> exists a, In a (mro c) /\ class_of st x = Some a.
  Proof.
    intros G L. apply find_some in L. destruct L as (l1 & a & l2 & E & D & _). exists a. split; [rewrite E, in_app_iff; right; left; reflexivity|apply G, D].
  Qed.
  Lemma look_make st c : look (make st c) c = Some (length (made st)).
  Proof. unfold ModelSingleton.look. destruct (Pm c) as [l ->]. cbn. rewrite dget_dset_same. reflexivity. Qed.
  Lemma look_stays st d c : look st c <> None -> look (make st d) c <> None.
  Proof.
    unfold ModelSingleton.look. cbn. induction (mro c) as [|a l IH]; cbn; [auto|]. rewrite dget_dset. destruct (eqb a d); [discriminate|].
    destruct (dget a (slots st)); auto.
  Qed.
  Lemma call_some st c : exists x, snd (call st c) = Some x.
  Proof. unfold ModelSingleton.call. destruct (look st c) as [x|] eqn:L; cbn; [rewrite L; eauto|rewrite look_make; eauto]. Qed.
  Lemma call_good st c : Good st -> Good (fst (call st c)).
  Proof. intros G. unfold ModelSingleton.call. destruct (look st c); cbn; [exact G|apply make_good, G]. Qed.
  Lemma calls_good cs : forall st, Good st -> Good (calls st cs).
  Proof. induction cs as [|c cs IH]; intros st G; [exact G|]. apply IH, call_good, G. Qed.

  (** ** C127 *)
  (** A call always gives an object, of the class called or one of its ancestors. *)
  Theorem C127_class cs c : exists x a, snd (call (calls (start own) cs) c) = Some x /\
    class_of (fst (call (calls (start own) cs) c)) x = Some a /\ In a (mro c).
  Proof.
    set (st := calls (start own) cs). assert (G : Good st) by apply calls_good, start_good. destruct (call_some st c) as [x E].
    destruct (look_good (fst (call st c)) c x (call_good st c G)) as (a & I & C); [exact E|]. exists x, a. auto.
  Qed.
  (** With single inheritance every later call of the class gives the same object. *)
  Theorem C127_same st c cs : single mro -> snd (call (calls (fst (call st c)) cs) c) = snd (call st c).
  Proof.
    intros Sg. destruct (call_some st c) as [x E]. rewrite E.
    assert (K : forall cs s, look s c = Some x -> look (calls s cs) c = Some x).
    { clear cs. induction cs as [|d cs IH]; intros s L; [exact L|]. apply IH. unfold ModelSingleton.call. destruct (look s d) as [y|] eqn:Ld; [exact L|]. cbn [fst].
      unfold ModelSingleton.look in *. apply find_some in L. destruct L as (l1 & a & l2 & M & D & N). rewrite M.
      assert (~ In d l1).
      { intros J. apply in_split in J. destruct J as (k1 & k2 & ->). rewrite <- app_assoc in M. cbn in M. rewrite (Sg _ _ _ _ M) in Ld. cbn in Ld.
        rewrite (N d) in Ld by (apply in_app_iff; right; left; reflexivity). rewrite (find_here _ k2 a l2 (Some x)) in Ld; [discriminate| |exact D].
        intros b J. apply N, in_app_iff. right. right. exact J. }
      assert (d <> a).
      { intros ->. rewrite (Sg _ _ _ _ M) in Ld. cbn in Ld. rewrite D in Ld. discriminate. }
      apply find_here; cbn; [intros b J; rewrite dget_dset_other by (intros ->; contradiction); apply N, J|rewrite dget_dset_other by congruence; exact D]. }
    assert (L : look (fst (call st c)) c = Some x) by exact E.
    specialize (K cs _ L). unfold ModelSingleton.call at 1. rewrite K. exact K.
  Qed.
  (** A class with its own _instance, and one none of whose proper ancestors was called before, gives an object of the class itself. *)
  Theorem C127_exact cs c : In c own \/ (forall b, In b (mro c) -> b <> c -> ~ In b cs) ->
    exists x, snd (call (calls (start own) cs) c) = Some x /\ class_of (fst (call (calls (start own) cs) c)) x = Some c.
  Proof.
    intros H. set (st := calls (start own) cs). assert (G : Good st) by apply calls_good, start_good.
    assert (K : forall cs s a x, dget a (slots (calls s cs)) = Some (Some x) -> dget a (slots s) = Some (Some x) \/ In a cs).
    { clear. induction cs as [|d cs IH]; intros s a x D; [auto|]. destruct (IH _ _ _ D) as [D1|J]; [|right; right; exact J].
      unfold ModelSingleton.call in D1. destruct (look s d); [auto|]. cbn in D1. rewrite dget_dset in D1. destruct (eqb_spec a d) as [->|]; [right; left; reflexivity|auto]. }
    assert (O : In c own -> exists v, dget c (slots st) = Some v).
    { intros J. assert (Q : forall cs s, (exists v, dget c (slots s) = Some v) -> exists v, dget c (slots (calls s cs)) = Some v).
      { clear. induction cs as [|d cs IH]; intros s [v D]; [eauto|]. apply IH. unfold ModelSingleton.call. destruct (look s d); [eauto|]. cbn. rewrite dget_dset. destruct (eqb c d); eauto. }
      apply Q. unfold start. cbn [slots]. clear - J. induction own as [|b l IH]; [destruct J|]. cbn [map dget]. destruct (eqb_spec c b) as [->|]; [eauto|]. destruct J as [->|J]; [congruence|auto]. }
    destruct (look st c) as [x|] eqn:L.
    - exists x. unfold ModelSingleton.call. rewrite L. cbn [fst snd]. split; [exact L|]. unfold ModelSingleton.look in L.
      destruct H as [Ho|Hn].
      + destruct (O Ho) as [v D]. destruct (Pm c) as [l M]. rewrite M in L. cbn in L. rewrite D in L. subst v. apply G, D.
      + apply find_some in L. destruct L as (l1 & a & l2 & M & D & _). assert (a = c) as ->; [|apply G, D].
        destruct (Nat.eq_dec a c) as [|Ne]; [assumption|]. exfalso. apply (Hn a); [rewrite M, in_app_iff; right; left; reflexivity|exact Ne|].
        destruct (K cs (start own) a x D) as [D0|J]; [|exact J]. exfalso. pose proof (start_good a x D0) as X. unfold class_of in X. cbn in X. destruct x; discriminate.
    - exists (length (made st)). unfold ModelSingleton.call. rewrite L. cbn [fst snd]. split; [apply look_make|]. unfold class_of. cbn. rewrite nth_error_app2, Nat.sub_diag by lia. reflexivity.
  Qed.
  (** In threads: every call that returns gives an object, of the class called or one of its ancestors. *)
  Theorem C127_threads k t c r : steps (Cfg (start own) (fun _ => Idle)) k -> pcs k t = Done c r ->
    exists x a, r = Some x /\ class_of (sto k) x = Some a /\ In a (mro c).
  Proof.
    intros R. assert (I : Good (sto k) /\ (forall t c, pcs k t = Reading c -> look (sto k) c <> None) /\
      (forall t c r, pcs k t = Done c r -> exists x a, r = Some x /\ class_of (sto k) x = Some a /\ In a (mro c))).
    { remember (Cfg (start own) (fun _ => Idle)) as k0 eqn:E0. induction R as [k|k1 k2 k3 R IH S]; [subst k; split; [apply start_good|split; intros; discriminate]|].
      destruct (IH E0) as (G & Rd & Dn). clear IH R E0.
      destruct S as [k t0 c0 _ L|k t0 c0 x _ L|k t0 c0 P|k t0 c0 P]; cbn [sto pcs].
      - split; [exact G|]. split; [intros t1 c1 Q|intros t1 c1 r1 Q]; unfold upd in Q; destruct (t1 =? t0); try discriminate Q; [apply (Rd _ _ Q)|apply (Dn _ _ _ Q)].
      - split; [exact G|]. split; [intros t1 c1 Q|intros t1 c1 r1 Q]; unfold upd in Q; destruct (t1 =? t0); try discriminate Q; [|apply (Rd _ _ Q)|apply (Dn _ _ _ Q)].
        injection Q as <-. congruence.
      - split; [apply make_good, G|]. split; [intros t1 c1 Q|intros t1 c1 r1 Q]; unfold upd in Q; destruct (t1 =? t0); try discriminate Q.
        + injection Q as <-. rewrite look_make. discriminate.
        + apply look_stays, (Rd _ _ Q).
        + destruct (Dn _ _ _ Q) as (x & a & -> & C & J). exists x, a. split; [reflexivity|]. split; [|exact J]. unfold class_of in *. cbn.
          rewrite nth_error_app1; [exact C|]. apply nth_error_Some. congruence.
      - split; [exact G|]. split; [intros t1 c1 Q|intros t1 c1 r1 Q]; unfold upd in Q; destruct (t1 =? t0); try discriminate Q; [apply (Rd _ _ Q)| |apply (Dn _ _ _ Q)].
        injection Q as <- <-. destruct (look (sto k) c0) as [x|] eqn:L; [|destruct (Rd _ _ P L)]. destruct (look_good _ _ _ G L) as (a & J & C). eauto. }
    intros D. apply I in D. exact D.
  Qed.
End C127.
Print Assumptions C127_class.
Print Assumptions C127_same.
Print Assumptions C127_exact.
Print Assumptions C127_threads.

(** Classes: 0 the base class, 1 and 2 derived from it, 3 derived from 1, 4 derived from 1 and 2. *)
Definition ex_mro (c : nat) : list nat := match c with 0 => [0] | 3 => [3; 1; 0] | 4 => [4; 1; 2; 0] | S n => [S n; 0] end.
Definition ex_single (c : nat) : list nat := match c with 0 => [0] | 3 => [3; 1; 0] | S n => [S n; 0] end.
Example ex_proper : proper ex_mro /\ proper ex_single.
Proof. split; intros [|[|[|[|[|c]]]]]; cbn; eauto. Qed.
Example ex_is_single : single ex_single.
Proof.
  intros [|[|[|[|c]]]] l1 b l2; cbn; intros E; repeat (destruct l1 as [|? l1]; cbn in E; [injection E as <- <-; reflexivity|]; injection E as _ E);
    destruct l1; discriminate.
Qed.

(** Not so: an object of the class called, once an ancestor has been called. *)
Theorem C127_exact_refuted : exists c x, let st := calls ex_mro (start [0]) [1] in
  call ex_mro st c = (st, Some x) /\ class_of st x <> Some c /\ In 1 (ex_mro c).
Proof. exists 3, 0. cbn. split; [reflexivity|]. split; [discriminate|auto]. Qed.
(** Not so: always the same object, with multiple inheritance. *)
Theorem C127_same_refuted : exists c cs, let st := calls ex_mro (start [0]) [2] in
  snd (call ex_mro (calls ex_mro (fst (call ex_mro st c)) cs) c) <> snd (call ex_mro st c).
Proof. exists 4, [1]. discriminate. Qed.
(** Not so: one object, with threads. *)
Theorem C127_threads_refuted : exists k x y, steps ex_mro (Cfg (start [0]) (fun _ => Idle)) k /\
  pcs k 0 = Done 1 (Some x) /\ pcs k 1 = Done 1 (Some y) /\ x <> y.
Proof.
  eexists. exists 0, 1. split.
  - eapply ss_step; [eapply ss_step; [eapply ss_step; [eapply ss_step; [eapply ss_step; [eapply ss_step; [apply ss_refl|]|]|]|]|]|].
    + apply (s_make _ _ 0 1); [left; reflexivity|reflexivity].
    + apply (s_make _ _ 1 1); [left; reflexivity|reflexivity].
    + apply (s_set _ _ 0 1). reflexivity.
    + apply (s_read _ _ 0 1). reflexivity.
    + apply (s_set _ _ 1 1). reflexivity.
    + apply (s_read _ _ 1 1). reflexivity.
  - cbn. repeat split. discriminate.
Qed.
Print Assumptions C127_exact_refuted. Print Assumptions C127_same_refuted. Print Assumptions C127_threads_refuted.
Example C127_ex : let st := calls ex_single (start [0; 2]) [0; 3; 2; 1] in
  made st = [0; 2] /\ map (fun c => snd (call ex_single st c)) [0; 1; 2; 3] = [Some 0; Some 0; Some 1; Some 0] /\
  made (calls ex_single (start [0]) [3; 1; 0; 2; 3]) = [3; 1; 0].
Proof. repeat split. Qed.
