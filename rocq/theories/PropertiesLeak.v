(** C72: the leak tracker reports exactly the live tracked objects. *)
From Coq Require Import String.
From Coq Require Import List ZArith Bool Arith Lia.
From Verif Require Import PyBase PyFacts ModelLeak.
Import ListNotations.
Local Open Scope string_scope.
Local Open Scope nat_scope.
Local Open Scope list_scope.
#[local] Arguments eqb : simpl never.

(** * Vocabulary *)

(** The objects that exist after a history. *)
Fixpoint alive (h : list event) : list nat :=      (** latest event first *)
  match h with
  | [] => []
  | Born o :: h => o :: alive h
  | Die o :: h => filter (fun x => negb (Nat.eqb x o)) (alive h)
  | _ :: h => alive h
  end.

(** A history that can happen: objects are used while they exist, and no two
    objects that exist have the same address. *)
Fixpoint possible (addr : nat -> nat) (h : list event) : Prop :=
  match h with
  | [] => True
  | e :: h =>
      possible addr h /\
      match e with
      | Track o _ _ _ | Untrack o | Die o => In o (alive h)
      | Clear => True
      | Born o => forall x, In x (alive h) -> addr x <> addr o
      end
  end.

(** What should be reported about an object: what its last track said, unless it
    was untracked or collected or the tracker cleared since. *)
Fixpoint reported (info_of : nat -> option string -> option string -> Z -> info) (h : list event)
    (o : nat) : option info :=
  match h with
  | [] => None
  | Track x n k a :: h => if Nat.eqb x o then Some (info_of o n k a) else reported info_of h o
  | Untrack x :: h | Die x :: h => if Nat.eqb x o then None else reported info_of h o
  | Clear :: _ => None
  | Born _ :: h => reported info_of h o
  end.

Section Leak.
  Variable addr : nat -> nat.
  Variable weak : nat -> bool.
  Variable show : nat -> string.
  Notation run := (run addr weak show).
  Notation info_of := (make_info addr show).

  Definition all_weak (h : list event) : Prop :=
    forall o n k a, In (Track o n k a) h -> weak o = true.

  Lemma run_snoc h e : run (h ++ [e]) = fst (step addr weak show e (run h)).
  Proof. unfold ModelLeak.run. rewrite fold_left_app. reflexivity. Qed.

  Lemma possible_alive h : possible addr h ->
    forall x y, In x (alive h) -> In y (alive h) -> addr x = addr y -> x = y.
  Proof.
    induction h as [|e h IH]; cbn; [tauto|]. intros [Hp He].
    destruct e as [o n k a|o| |o|o]; cbn; try (apply IH; exact Hp).
    - intros x y [<-|Hx] [<-|Hy] Heq; try reflexivity.
      + exfalso. apply (He y Hy). congruence.
      + exfalso. apply (He x Hx). congruence.
      + apply IH; assumption.
    - intros x y Hx Hy. apply filter_In in Hx, Hy. apply IH; tauto.
  Qed.

  Lemma reported_alive h o i : possible addr h -> reported info_of h o = Some i -> In o (alive h).
  Proof.
    induction h as [|e h IH]; cbn; [discriminate|]. intros [Hp He] Hr.
    destruct e as [x n k a|x| |x|x]; cbn.
    - destruct (Nat.eqb_spec x o) as [->|]; [exact He|]. apply IH; assumption.
    - destruct (Nat.eqb_spec x o) as [->|]; [discriminate|]. apply IH; assumption.
    - discriminate.
    - right. apply IH; assumption.
    - destruct (Nat.eqb_spec x o) as [->|Hne]; [discriminate|]. apply filter_In.
      split; [apply IH; assumption|]. destruct (Nat.eqb_spec o x); [congruence|reflexivity].
  Qed.

  Lemma fold_fins o l fins : NoDup (dkeys l) ->
    let r := fold_left (fun l x => if Nat.eqb x o then finalizer (addr x) l else l) fins l in
    NoDup (dkeys r) /\
    forall a, dget a r = if existsb (Nat.eqb o) fins && Nat.eqb a (addr o)
                         then None else dget a l.
  Proof.
    revert l. induction fins as [|x fins IH]; intros l Hnd; cbn; [split; [exact Hnd|reflexivity]|].
    destruct (Nat.eqb_spec x o) as [->|Hne].
    - destruct (IH (finalizer (addr o) l)) as [H1 H2]; [apply dkeys_ddel_NoDup; exact Hnd|].
      split; [exact H1|]. intro a. rewrite H2. unfold finalizer.
      rewrite Nat.eqb_refl. cbn [orb andb].
      destruct (Nat.eqb_spec a (addr o)) as [->|Ha].
      + rewrite andb_true_r. destruct (existsb _ fins); [reflexivity|].
        apply dget_ddel_same. exact Hnd.
      + rewrite andb_false_r. apply dget_ddel_other. congruence.
    - destruct (IH l Hnd) as [H1 H2]. split; [exact H1|]. intro a. rewrite H2.
      destruct (Nat.eqb_spec o x); [congruence|]. reflexivity.
  Qed.

  (** The table holds at each address what should be reported about the object
      there, and every tracked object that exists has a finalizer. *)
  Definition good (h : list event) (t : tracker) : Prop :=
    NoDup (dkeys (t_live t)) /\
    (forall a i, dget a (t_live t) = Some i <->
       exists o, addr o = a /\ reported info_of h o = Some i) /\
    (forall o, reported info_of h o <> None -> In o (t_fins t)).

  Lemma good_run h : possible addr h -> all_weak h -> good h (run (rev h)).
  Proof.
    induction h as [|e h IH]; intros Hp Hw.
    { split; [constructor|]. split; [|intros o H; contradiction].
      intros a i. split; [discriminate|]. intros (o & _ & H). discriminate. }
    destruct Hp as [Hp He].
    assert (Hwh : all_weak h) by (intros o n k a Hin; apply (Hw o n k a); right; exact Hin).
    specialize (IH Hp Hwh). cbn [rev]. rewrite run_snoc.
    pose proof (possible_alive h Hp) as Huniq.
    assert (Hal : forall o i, reported info_of h o = Some i -> In o (alive h))
      by (intros; eapply reported_alive; eassumption).
    destruct (run (rev h)) as [l fins]. destruct IH as (Hnd & Hl & Hf). cbn [t_live t_fins] in *.
    destruct e as [o n k z|o| |o|o]; cbn [step fst].
    - rewrite (Hw o n k z (or_introl eq_refl)). cbn [fst]. split; [|split]; cbn [t_live t_fins].
      + apply dkeys_dset_NoDup. exact Hnd.
      + intros a i. rewrite dget_dset. change (eqb a (addr o)) with (Nat.eqb a (addr o)). cbn [reported].
        destruct (Nat.eqb_spec a (addr o)) as [->|Ha].
        * split.
          -- intros [= <-]. exists o. rewrite Nat.eqb_refl. split; reflexivity.
          -- intros (x & Hx & Hr). destruct (Nat.eqb_spec o x) as [->|Hne]; [congruence|].
             exfalso. apply Hne. apply Huniq; [exact He| |congruence]. eapply Hal; exact Hr.
        * rewrite Hl. split; intros (x & Hx & Hr); exists x; (split; [exact Hx|]).
          -- destruct (Nat.eqb_spec o x) as [->|]; [congruence|exact Hr].
          -- destruct (Nat.eqb_spec o x) as [->|]; [congruence|exact Hr].
      + intros x Hr. cbn [reported] in Hr. destruct (Nat.eqb_spec o x) as [->|]; [left; reflexivity|].
        right. apply Hf. exact Hr.
    - split; [|split]; cbn [t_live t_fins].
      + apply dkeys_ddel_NoDup. exact Hnd.
      + intros a i. cbn [reported]. destruct (Nat.eq_dec a (addr o)) as [->|Ha].
        * rewrite dget_ddel_same by exact Hnd. split; [discriminate|].
          intros (x & Hx & Hr). destruct (Nat.eqb_spec o x) as [->|Hne]; [discriminate|].
          exfalso. apply Hne. apply Huniq; [exact He| |congruence]. eapply Hal; exact Hr.
        * rewrite dget_ddel_other by congruence. rewrite Hl.
          split; intros (x & Hx & Hr); exists x; (split; [exact Hx|]);
            destruct (Nat.eqb_spec o x) as [->|]; congruence.
      + intros x Hr. cbn [reported] in Hr. destruct (Nat.eqb_spec o x) as [->|]; [contradiction|].
        apply Hf. exact Hr.
    - split; [constructor|]. split; cbn.
      + intros a i. split; [discriminate|]. intros (x & _ & Hr). discriminate.
      + intros x H. contradiction.
    - split; [exact Hnd|]. split; cbn; assumption.
    - destruct (fold_fins o l fins Hnd) as [H1 H2]. split; [exact H1|].
      split; cbn [t_live t_fins].
      + intros a i. rewrite H2. cbn [reported].
        destruct (Nat.eqb_spec a (addr o)) as [->|Ha].
        * rewrite andb_true_r. split.
          -- destruct (existsb (Nat.eqb o) fins) eqn:Hno; [discriminate|].
             intro Hg. exfalso. apply Hl in Hg. destruct Hg as (x & Hx & Hr).
             assert (x = o) by (apply Huniq; [eapply Hal; exact Hr|exact He|exact Hx]). subst x.
             assert (Ht : existsb (Nat.eqb o) fins = true); [|congruence].
             apply existsb_exists. exists o. split; [apply Hf; congruence|apply Nat.eqb_refl].
          -- intros (x & Hx & Hr). destruct (Nat.eqb_spec o x) as [->|Hne]; [discriminate|].
             exfalso. apply Hne. apply Huniq; [exact He| |congruence]. eapply Hal; exact Hr.
        * rewrite andb_false_r. rewrite Hl.
          split; intros (x & Hx & Hr); exists x; (split; [exact Hx|]);
            destruct (Nat.eqb_spec o x) as [->|]; congruence.
      + intros x Hr. cbn [reported] in Hr. destruct (Nat.eqb_spec o x) as [->|Hne]; [contradiction|].
        apply filter_In. split; [apply Hf; exact Hr|].
        destruct (Nat.eqb_spec x o); [congruence|reflexivity].
  Qed.

  (** * C72 *)

  (** For every history, also if addresses are used again: live() reports exactly one
      entry for each object that is to be reported, with the data of its last track. *)
  Theorem C72_live_exact h :
    possible addr h -> all_weak h ->
    exists entries : list (nat * info),
      live (run (rev h)) = map snd entries /\
      NoDup (map fst entries) /\
      forall o i, In (o, i) entries <-> reported info_of h o = Some i.
  Proof.
    intros Hp Hw. destruct (good_run h Hp Hw) as (Hnd & Hl & _).
    set (l := t_live (run (rev h))) in *. unfold live. fold l.
    assert (Hex : forall l', (forall a i, In (a, i) l' -> In (a, i) l) -> NoDup (dkeys l') ->
      exists es, dvals l' = map snd es /\ map addr (map fst es) = dkeys l' /\
        forall o i, In (o, i) es -> reported info_of h o = Some i).
    { induction l' as [|[a i] l' IH]; intros Hin Hn.
      - exists []. repeat split. intros o i [].
      - destruct IH as (es & H1 & H2 & H3).
        + intros b j Hb. apply Hin. right. exact Hb.
        + inversion Hn; assumption.
        + assert (Hg : dget a l = Some i) by (apply In_dget; [exact Hnd|apply Hin; left; reflexivity]).
          apply Hl in Hg. destruct Hg as (o & Ho & Hr).
          exists ((o, i) :: es). unfold dvals, dkeys in *. cbn [map fst snd]. rewrite H1, H2, Ho.
          split; [reflexivity|]. split; [reflexivity|].
          intros x j [[= <- <-]|Hx]; [exact Hr|apply H3; exact Hx]. }
    destruct (Hex l (fun _ _ H => H) Hnd) as (es & H1 & H2 & H3).
    exists es. split; [exact H1|]. split.
    - apply (NoDup_map_inv addr). rewrite H2. exact Hnd.
    - intros o i. split; [apply H3|]. intro Hr.
      assert (Hg : dget (addr o) l = Some i) by (apply Hl; eauto).
      assert (Hk : In (addr o) (dkeys l)).
      { apply dget_In in Hg. apply in_map_iff. exists (addr o, i). auto. }
      rewrite <- H2 in Hk. rewrite map_map in Hk. apply in_map_iff in Hk.
      destruct Hk as ([x j] & Hx & Hin). cbn in Hx. pose proof (H3 x j Hin) as Hrx.
      assert (x = o).
      { apply (possible_alive h Hp); [eapply reported_alive; eassumption| |exact Hx].
        eapply reported_alive; eassumption. }
      subst x. congruence.
  Qed.

  (** Once every tracked object is untracked or collected, nothing is reported. *)
  Theorem C72_no_false_leaks h :
    possible addr h -> all_weak h -> (forall o, reported info_of h o = None) ->
    live (run (rev h)) = [].
  Proof.
    intros Hp Hw Hn. destruct (C72_live_exact h Hp Hw) as ([|[o i] es] & H & _ & Hin); [exact H|].
    pose proof (proj1 (Hin o i) (or_introl eq_refl)). rewrite Hn in H0. discriminate.
  Qed.

  (** track fails exactly for objects without weak references; the entry is made
      nevertheless, and only untrack, clear or another object at that address
      removes it. *)
  Theorem C72_not_weak o n k z t :
    (snd (step addr weak show (Track o n k z) t) = Raise TypeError <-> weak o = false) /\
    (dget (addr o) (t_live (fst (step addr weak show (Track o n k z) t))) = Some (info_of o n k z)).
  Proof.
    cbn. destruct (weak o); cbn; (split; [split; congruence|]); apply dget_dset_same.
  Qed.
  Theorem C72_stale a i l t :
    dget a (t_live t) = Some i -> NoDup (dkeys (t_live t)) ->
    (forall e, In e l -> match e with Track o _ _ _ | Untrack o => addr o <> a
                                    | Die o => addr o <> a \/ ~ In o (t_fins t)
                                    | Clear => False | Born _ => True end) ->
    dget a (t_live (fold_left (fun t e => fst (step addr weak show e t)) l t)) = Some i.
  Proof.
    intros Hg Hnd Hok. revert t Hg Hnd Hok. induction l as [|e l IH]; intros t Hg Hnd Hok; [exact Hg|].
    cbn [fold_left]. pose proof (Hok e (or_introl eq_refl)) as He.
    apply IH.
    - destruct e as [o n k z|o| |o|o]; cbn; try exact Hg; try contradiction.
      + destruct (weak o); cbn; rewrite dget_dset_other by congruence; exact Hg.
      + rewrite dget_ddel_other by congruence. exact Hg.
      + destruct (fold_fins o (t_live t) (t_fins t) Hnd) as [_ H2]. rewrite H2.
        destruct (existsb (Nat.eqb o) (t_fins t)) eqn:Hi; [|exact Hg].
        apply existsb_exists in Hi. destruct Hi as (y & Hi & Hy). apply Nat.eqb_eq in Hy. subst y.
        destruct (Nat.eqb_spec a (addr o)) as [->|]; [|exact Hg]. destruct He; congruence || contradiction.
    - destruct e as [o n k z|o| |o|o]; cbn; try exact Hnd; try contradiction.
      + destruct (weak o); cbn; apply dkeys_dset_NoDup; exact Hnd.
      + apply dkeys_ddel_NoDup; exact Hnd.
      + apply fold_fins. exact Hnd.
    - intros e' Hin. pose proof (Hok e' (or_intror Hin)) as He'.
      destruct e' as [o n k z|o| |o|o]; try exact He'.
      destruct He' as [Ha|Ha]; [left; exact Ha|].
      destruct (Nat.eq_dec (addr o) a) as [Heq|]; [|left; assumption]. right.
      destruct e as [x n k z|x| |x|x]; cbn; try exact Ha; try contradiction.
      + destruct (weak x); cbn; [|exact Ha]. intros [->|Hi]; [congruence|contradiction].
      + intro Hi. apply filter_In in Hi. tauto.
  Qed.
End Leak.

(** ** The lock *)

(** No tracked object is collected while the lock is held. *)
Fixpoint quiet (s : list act) (t : thread) : Prop :=
  match s with
  | [] => True
  | Exec :: s => match exec t with Some t' => quiet s t' | None => True end
  | Gc n :: s => (th_held t = true -> n = 0) /\ quiet s (collect n t)
  end.

Definition resting (t : thread) : Prop :=
  exists n, (th_held t = false /\ th_code t = concat (repeat section n)) \/
    (th_held t = true /\ (th_code t = [Work; Release] ++ concat (repeat section n) \/
                          th_code t = [Release] ++ concat (repeat section n))).

Lemma exec_resting t t' : resting t -> exec t = Some t' -> resting t'.
Proof.
  intros (n & [(Hh & Hc)|(Hh & [Hc|Hc])]) H; unfold exec in H; rewrite Hc in H.
  - destruct n as [|n]; [discriminate|]. cbn in H. rewrite Hh in H. injection H as <-.
    exists n. right. split; [reflexivity|]. left. reflexivity.
  - cbn in H. injection H as <-. exists n. right. split; [exact Hh|]. right. reflexivity.
  - cbn in H. injection H as <-. exists n. left. split; reflexivity.
Qed.

(** Methods and finalizers that run between methods always get to their end. *)
Theorem C72_progress n s t : quiet s (Thread (concat (repeat section n)) false) ->
  drive s (Thread (concat (repeat section n)) false) = Some t ->
  th_code t = [] \/ exists t', exec t = Some t'.
Proof.
  assert (Hgen : forall s t0 t, resting t0 -> quiet s t0 -> drive s t0 = Some t -> resting t).
  { clear. induction s as [|[|k] s IH]; intros t0 t Hr Hq Hd; cbn in *.
    - injection Hd as <-. exact Hr.
    - destruct (exec t0) as [t1|] eqn:He; [|discriminate].
      apply (IH t1); try assumption. apply (exec_resting t0); assumption.
    - destruct Hq as [Hk Hq]. apply (IH (collect k t0)); try assumption. unfold collect.
      destruct Hr as (m & [(Hh & Hc)|(Hh & Hc)]).
      + exists (k + m). left. cbn. split; [exact Hh|]. rewrite Hc, repeat_app, concat_app. reflexivity.
      + rewrite (Hk Hh). exists m. right. cbn. split; [exact Hh|exact Hc]. }
  intros Hq Hd.
  assert (Hr : resting t).
  { apply (Hgen s (Thread (concat (repeat section n)) false)); try assumption.
    exists n. left. split; reflexivity. }
  destruct Hr as (m & [(Hh & Hc)|(Hh & [Hc|Hc])]); unfold exec; rewrite Hc; cbn; eauto.
  destruct m; [left; reflexivity|]. right. cbn. rewrite Hh. eauto.
Qed.

(** If a tracked object is collected while the lock is held, the thread never goes on. *)
Theorem C72_blocked n s t t' : th_held t = true ->
  drive s (collect (S n) t) = Some t' -> exec t' = None /\ th_code t' <> [].
Proof.
  intros Hh. assert (Hgen : forall s c, drive s (Thread (Acquire :: c) true) = Some t' ->
    exec t' = None /\ th_code t' <> []).
  { clear. induction s as [|[|k] s IH]; intros c Hd; cbn in Hd.
    - injection Hd as <-. split; [reflexivity|discriminate].
    - discriminate.
    - unfold collect in Hd. cbn in Hd. destruct k as [|k]; cbn in Hd; apply IH in Hd; exact Hd. }
  unfold collect. rewrite Hh. cbn. apply Hgen.
Qed.

Print Assumptions C72_live_exact. Print Assumptions C72_no_false_leaks. Print Assumptions C72_not_weak.
Print Assumptions C72_stale. Print Assumptions C72_progress. Print Assumptions C72_blocked.

(** * Examples: objects 1 and 11 have the same address. *)
Definition ad (o : nat) : nat := o mod 10.
Definition wk (o : nat) : bool := o <? 20.
Definition sh (a : nat) : string := "obj".
Definition Tr o n := Track o (Some n) None 0%Z.
Definition names (h : list event) : list string := map li_name (live (run ad wk sh h)).
Example reuse :
  let h := [Born 1; Tr 1 "a"; Born 2; Tr 2 "b"; Tr 1 "a2"; Die 1; Born 11; Tr 11 "c"; Untrack 2; Tr 2 ""] in
  names h = ["c"; "obj"] /\ possible ad (rev h) /\ all_weak wk (rev h).
Proof.
  split; [reflexivity|]. split.
  - cbn; repeat split; try tauto; intuition (subst; discriminate).
  - intros o n k a H. cbn in H.
    repeat (destruct H as [H|H]; [try discriminate H; injection H as <-; reflexivity|]). contradiction.
Qed.
(** An object without weak references stays after its end, and another object then
    stands for it. *)
Theorem C72_not_weak_refuted :
  names [Born 21; Tr 21 "list"; Die 21] = ["list"] /\
  snd (step ad wk sh (Tr 21 "list") empty) = Raise TypeError /\
  names [Born 21; Tr 21 "list"; Die 21; Born 1; Untrack 1] = [].
Proof. repeat split. Qed.
(** A collection inside live() or untrack() blocks the thread. *)
Theorem C72_deadlock_refuted : exists t,
  drive [Exec; Gc 1] (Thread section false) = Some t /\ exec t = None /\ th_code t <> [] /\
  drive [Gc 1; Exec; Exec; Exec; Exec; Exec; Exec] (Thread section false) = Some (Thread [] false).
Proof. eexists. repeat split; try reflexivity. discriminate. Qed.
Print Assumptions C72_not_weak_refuted. Print Assumptions C72_deadlock_refuted.
