(** Property C122: Executor.cleanup_events. *)
From Coq Require Import List Bool Arith ZArith Lia Permutation.
From Verif Require Import PyBase PyFacts ModelHeap ModelEvent ModelProcessor SpecProcessor ProofsFlow
  ProofsEvent ProofsProcessor ProofsProcessorRun ProofsProcessorCap ProofsProcessorDeny PropertiesProcessor.
Import ListNotations.

(** Events listed under one of the statuses given. *)
Definition listed (s : pst) (l : list status) (u : uuid) : Prop := exists x, In x l /\ In u (progs s x).

(** Denial counts are kept once per event, whatever is called. *)
Lemma nd_evict k s : NoDup (dkeys (denial s)) -> NoDup (dkeys (evict k s)).
Proof.
  intros H. unfold evict. destruct (_ <=? _); [|exact H].
  destruct (denial s) as [|[o c] d]; [exact H|]. apply dkeys_ddel_NoDup. exact H.
Qed.
Lemma nd_clean : forall ids s n, NoDup (dkeys (denial s)) -> NoDup (dkeys (denial (fst (clean_ids s ids n)))).
Proof.
  induction ids as [|u t IH]; intros s n H; cbn [clean_ids]; [exact H|].
  assert (G : NoDup (dkeys (if started s then ddel u (denial s) else denial s))) by (destruct (started s); [apply dkeys_ddel_NoDup|]; exact H).
  destruct (remove_first u (items s)) as [l|]; [apply IH|]; exact G.
Qed.
Lemma nd_cleanup : forall l s n, NoDup (dkeys (denial s)) -> NoDup (dkeys (denial (fst (cleanup s l n)))).
Proof.
  induction l as [|x t IH]; intros s n H; cbn [cleanup]; [exact H|]. destruct (forallb _ _); [|exact H].
  pose proof (nd_clean (progs s x) s n H) as G. destruct (clean_ids s (progs s x) n) as [s' [m|e]]; [apply IH|]; exact G.
Qed.
Lemma nd_step k s a : NoDup (dkeys (denial s)) -> NoDup (dkeys (denial (pact k s a))).
Proof.
  intros H. destruct a as [c|t|t b|t x|l|]; cbn [pact].
  - assert (E : denial (spawn k s c) = denial s); [|rewrite E; exact H].
    unfold spawn. destruct c as [u e p|u p| |].
    + destruct (memb u (items s)); [reflexivity|].
      set (s2 := if dmem u (objs s) then _ else _).
      assert (Q : denial s2 = denial s) by (unfold s2; destruct (dmem u (objs s)); auto).
      destruct (started s); [destruct (enq_check k s2 u p)|]; exact Q.
    + destruct (started s); [destruct (enq_check k s u p)|]; reflexivity.
    + destruct (started s); [reflexivity|]. destruct (forallb _ _); [|reflexivity].
      destruct (back k (w_started s) (progs s PENDING)) as [s2 q] eqn:Eb. apply (back_denial _ _ _ _ _ Eb).
    + destruct (started s); reflexivity.
  - unfold step. destruct (nth_error (tasks s) t) as [p|] eqn:Ht; [|exact H].
    destruct p as [p u|p u rest|n|n p u|n u|n u|n p u|n|par u|par u mine|par u|par u| |e l]; try exact H.
    + destruct (back k (push s p u) rest) as [s1 q] eqn:Eb. destruct (back_denial _ _ _ _ _ Eb) as (A & _). simpl. rewrite A. exact H.
    + destruct (heappop qlt (queue s)) as [[[p u] h]|]; [|exact H]. destruct (memb u (items s)); [exact H|].
      apply (dkeys_ddel_NoDup u (denial s)). exact H.
    + apply (dkeys_ddel_NoDup u (denial s)). exact H.
    + destruct (existsb _ _); [exact H|]. destruct (0 <? n); exact H.
    + destruct (sem s) as [|m]; [exact H|]. destruct (_ && _); [|exact H].
      simpl. destruct (set_status_fields (w_sem s m) u PROCESSING) as (_ & _ & _ & _ & _ & A & _). rewrite A. exact H.
  - unfold grant. destruct (nth_error (tasks s) t) as [p|] eqn:Ht; [|exact H].
    destruct p as [p u|p u rest|n|n p u|n u|n u|n p u|n|par u|par u mine|par u|par u| |e l]; try exact H.
    destruct b; [apply (dkeys_ddel_NoDup u (denial s)); exact H|].
    assert (G : NoDup (dkeys (dset u (S (strikes (evict k s) u)) (evict k s)))) by (apply dkeys_dset_NoDup, nd_evict, H).
    destruct (3 <=? _); exact G.
  - unfold finish_ev. destruct (nth_error (tasks s) t) as [p|] eqn:Ht; [|exact H].
    destruct p as [p u|p u rest|n|n p u|n u|n u|n p u|n|par u|par u mine|par u|par u| |e l]; try exact H.
    destruct (set_status_fields s u x) as (_ & _ & _ & _ & _ & G & _).
    destruct (streaming s u); [|destruct mine; [destruct x | destruct (existsb _ _)]]; cbn [denial set_task w_tasks]; rewrite ?G; exact H.
  - apply nd_cleanup. exact H.
  - destruct (started s); [constructor | exact H].
Qed.
Lemma nd_reach k s : reach k normal s -> NoDup (dkeys (denial s)).
Proof.
  revert s. apply reach_inv; [constructor|]. intros s a _. apply nd_step.
Qed.

(** One status. *)
Definition without (ids : list uuid) (u : uuid) : bool := negb (memb u ids).
Lemma strip1_filter u l : NoDup l -> strip1 u l = filter (without [u]) l.
Proof.
  intros N. unfold strip1. rewrite remove_first_NoDup_filter by exact N. apply filter_ext. intros v.
  unfold without. cbn [memb existsb]. unfold memb. cbn [existsb]. rewrite orb_false_r. reflexivity.
Qed.
Lemma without_cons u t v : without (u :: t) v = without [u] v && without t v.
Proof. unfold without, memb. cbn [existsb]. rewrite orb_false_r. apply negb_orb. Qed.
Lemma filter_and {A} (f g : A -> bool) l : filter g (filter f l) = filter (fun x => f x && g x) l.
Proof.
  induction l as [|a t IH]; [reflexivity|]. cbn [filter]. destruct (f a); cbn [filter andb]; [destruct (g a)|]; rewrite IH; reflexivity.
Qed.
Lemma clean_exact : forall ids s n, NoDup ids -> NoDup (items s) -> (forall y, NoDup (progs s y)) -> NoDup (dkeys (denial s)) ->
  incl ids (items s) ->
  exists s', clean_ids s ids n = (s', Ret (n + length ids)) /\
    items s' = filter (without ids) (items s) /\
    (forall y, progs s' y = filter (without ids) (progs s y)) /\
    (forall u, dget u (denial s') = if started s && memb u ids then None else dget u (denial s)).
Proof.
  induction ids as [|id t IH]; intros s n Ni N Np Nd I; cbn [clean_ids].
  - exists s. rewrite Nat.add_0_r. split; [reflexivity|]. assert (F : forall l, l = filter (without []) l).
    { induction l as [|a l' IHl]; [reflexivity|]. cbn. f_equal. exact IHl. }
    split; [apply F|]. split; [intros y; apply F|]. intros u. cbn. rewrite andb_false_r. reflexivity.
  - inversion Ni as [|a b Na Nb]; subst.
    pose proof (strip1_filter id (items s) N) as Q. unfold strip1 in Q.
    destruct (remove_first id (items s)) as [l|] eqn:R.
    2:{ exfalso. apply remove_first_None in R. apply R, I. left. reflexivity. }
    set (d := if started s then ddel id (denial s) else denial s).
    destruct (IH (w_items (w_denial s d) l (fun x => strip1 id (progs s x))) (S n)) as (s' & E & A & B & C).
    + exact Nb.
    + cbn. rewrite Q. apply NoDup_filter, N.
    + intros y. cbn. rewrite strip1_filter by apply Np. apply NoDup_filter, Np.
    + cbn. unfold d. destruct (started s); [apply dkeys_ddel_NoDup|]; exact Nd.
    + intros u Hu. cbn. rewrite Q. apply filter_In. split; [apply I; right; exact Hu|].
      unfold without, memb. cbn [existsb]. rewrite orb_false_r. destruct (eqb_spec u id) as [->|]; [contradiction|reflexivity].
    + exists s'. cbn [items progs denial started w_items w_denial] in *. split; [rewrite E; f_equal; f_equal; cbn [length]; lia|]. split.
      * rewrite A, Q, filter_and. apply filter_ext. intros v. symmetry. apply without_cons.
      * split.
        -- intros y. rewrite B, strip1_filter by apply Np. rewrite filter_and. apply filter_ext. intros v. symmetry. apply without_cons.
        -- intros u. rewrite C. unfold d, memb. cbn [existsb]. destruct (started s); [|reflexivity]. cbn [andb].
           destruct (existsb (eqb u) t); [rewrite orb_true_r; reflexivity|]. rewrite orb_false_r.
           destruct (eqb_spec u id) as [->|Ne]; [apply dget_ddel_same, Nd | apply dget_ddel_other, Ne].
Qed.

Record sorted (s : pst) : Prop := {
  o_nd : NoDup (items s);
  o_p : forall x, NoDup (progs s x);
  o_one : forall x y u, In u (progs s x) -> In u (progs s y) -> x = y;
  o_in : forall x u, In u (progs s x) -> In u (items s);
  o_d : NoDup (dkeys (denial s))
}.
Lemma filter_all {A} (f : A -> bool) l : (forall x, In x l -> f x = true) -> filter f l = l.
Proof.
  induction l as [|a t IH]; intros H; [reflexivity|]. cbn. rewrite (H a) by (left; reflexivity). f_equal. apply IH. intros x I. apply H. right. exact I.
Qed.
Lemma filter_none {A} (f : A -> bool) l : (forall x, In x l -> f x = false) -> filter f l = [].
Proof.
  induction l as [|a t IH]; intros H; [reflexivity|]. cbn. rewrite (H a) by (left; reflexivity). apply IH. intros x I. apply H. right. exact I.
Qed.
Lemma without_spec ids u : without ids u = true <-> ~ In u ids.
Proof.
  unfold without. destruct (memb u ids) eqn:M; cbn; [apply memb_In in M; split; [discriminate|contradiction]|].
  split; [|reflexivity]. intros _ I. apply memb_In in I. congruence.
Qed.
Lemma filter_count {A} (f : A -> bool) l : length (filter f l) + length (filter (fun x => negb (f x)) l) = length l.
Proof. induction l as [|a t IH]; [reflexivity|]. cbn. destruct (f a); cbn; lia. Qed.
Lemma without_count ids l : NoDup ids -> NoDup l -> incl ids l -> length (filter (without ids) l) + length ids = length l.
Proof.
  intros Ni N I. rewrite <- (filter_count (without ids) l). f_equal. apply Permutation_length, NoDup_Permutation; [exact Ni|apply NoDup_filter, N|].
  intros u. rewrite filter_In. unfold without. rewrite negb_involutive. split.
  - intros H. split; [apply I, H|apply memb_In, H].
  - intros [_ H]. apply memb_In, H.
Qed.
Lemma cleanup_exact : forall l s n, sorted s -> exists s' f,
  cleanup s l n = (s', Ret (n + (length (items s) - length (items s')))) /\
  items s' = filter f (items s) /\ (forall u, f u = true <-> ~ listed s l u) /\
  (forall x, In x l -> progs s' x = []) /\ (forall x, ~ In x l -> progs s' x = progs s x) /\
  (forall u, listed s l u -> started s = true -> dget u (denial s') = None) /\
  (forall u, ~ listed s l u -> dget u (denial s') = dget u (denial s)).
Proof.
  induction l as [|x t IH]; intros s n O; cbn [cleanup].
  - exists s, (fun _ => true). split; [do 2 f_equal; lia|]. split; [symmetry; apply filter_all; reflexivity|].
    split; [intros u; split; [intros _ (y & [] & _)|reflexivity]|]. split; [intros y []|]. split; [reflexivity|].
    split; [intros u (y & [] & _)|reflexivity].
  - replace (forallb _ (progs s x)) with true.
    2:{ symmetry. apply forallb_forall. intros u I. apply memb_In. eapply (o_in _ O); eauto. }
    destruct (clean_exact (progs s x) s n (o_p _ O x) (o_nd _ O) (o_p _ O) (o_d _ O)) as (s1 & E & A & B & C).
    { intros u I. eapply (o_in _ O); eauto. }
    rewrite E.
    assert (S1 : started s1 = started s).
    { pose proof (clean_ids_fields (progs s x) s n) as Z. rewrite E in Z. cbn in Z. intuition. }
    assert (Bx : progs s1 x = []).
    { rewrite B. apply filter_none. intros u I. destruct (without (progs s x) u) eqn:W; [|reflexivity].
      apply without_spec in W. contradiction. }
    assert (Bo : forall y, y <> x -> progs s1 y = progs s y).
    { intros y Ne. rewrite B. apply filter_all. intros u I. apply without_spec. intros J. apply Ne. eapply (o_one _ O); eauto. }
    assert (O1 : sorted s1).
    { constructor.
      - rewrite A. apply NoDup_filter, (o_nd _ O).
      - intros y. rewrite B. apply NoDup_filter, (o_p _ O).
      - intros y z u. rewrite !B, !filter_In. intros [I1 _] [I2 _]. eapply (o_one _ O); eauto.
      - intros y u. rewrite A, B, !filter_In. intros [I W]. split; [eapply (o_in _ O); eauto|exact W].
      - pose proof (nd_clean (progs s x) s n (o_d _ O)) as Z. rewrite E in Z. exact Z. }
    assert (L1 : forall u, listed s (x :: t) u <-> In u (progs s x) \/ listed s1 t u).
    { intros u. split.
      - intros (y & [<-|Iy] & I); [left; exact I|]. destruct (eqb_spec y x) as [->|Ne]; [left; exact I|].
        right. exists y. split; [exact Iy|]. rewrite Bo by exact Ne. exact I.
      - intros [I|(y & Iy & I)]; [exists x; split; [left; reflexivity|exact I]|].
        exists y. split; [right; exact Iy|]. rewrite B in I. apply filter_In in I. apply I. }
    destruct (IH s1 (n + length (progs s x)) O1) as (s' & f & E' & A' & F & P1 & P2 & D1 & D2).
    exists s', (fun u => without (progs s x) u && f u). split.
    { rewrite E'. do 2 f_equal. pose proof (without_count (progs s x) (items s) (o_p _ O x) (o_nd _ O)) as W.
      rewrite <- A in W. assert (length (items s') <= length (items s1)) by (rewrite A'; pose proof (filter_count f (items s1)); lia).
      enough (length (items s1) + length (progs s x) = length (items s)) by lia. apply W. intros u I. eapply (o_in _ O); eauto. }
    split; [rewrite A', A; apply filter_and|]. split.
    { intros u. rewrite andb_true_iff, without_spec, F, L1. tauto. }
    split.
    { intros y [<-|Iy]; [|apply P1, Iy]. destruct (in_dec (fun a b : status => ltac:(decide equality)) x t) as [I|N]; [apply P1, I|]. rewrite P2 by exact N. exact Bx. }
    split.
    { intros y Ny. rewrite P2 by (intros I; apply Ny; right; exact I). apply Bo. intros ->. apply Ny. left. reflexivity. }
    split.
    { intros u Lu St. destruct (in_dec Nat.eq_dec u (progs s x)) as [I|N].
      - assert (~ listed s1 t u) as NL.
        { intros (y & _ & J). rewrite B in J. apply filter_In in J as [_ W]. apply without_spec in W. contradiction. }
        rewrite (D2 u NL), C, St. cbn [andb]. destruct (memb u (progs s x)) eqn:M; [reflexivity|]. apply (proj2 (memb_In u (progs s x))) in I. congruence.
      - apply L1 in Lu as [I|J]; [contradiction|]. apply D1; [exact J|congruence]. }
    { intros u Nu. rewrite D2 by (intros J; apply Nu, L1; right; exact J). rewrite C.
      destruct (memb u (progs s x)) eqn:M; [|rewrite andb_false_r; reflexivity]. apply memb_In in M. exfalso. apply Nu, L1. left. exact M. }
Qed.
Lemma sorted_reach k s : reach k normal s -> sorted s.
Proof.
  intros H. pose proof (nd_reach k s H) as D. apply SI_reach in H as ([A B C E _ _ _] & _ & _).
  constructor; auto. intros x u I. apply E. eauto.
Qed.

(** ** C122 *)
(** cleanup_events never raises in normal use, whatever the statuses; it removes exactly the events listed
    under them, keeping the order of the rest, answers their number, forgets their denials and
    leaves everything else alone. *)
Theorem C122_exact k s l : reach k normal s -> exists s' f,
  cleanup s l 0 = (s', Ret (length (items s) - length (items s'))) /\
  items s' = filter f (items s) /\ (forall u, f u = true <-> ~ listed s l u) /\
  (forall x, In x l -> progs s' x = []) /\ (forall x, ~ In x l -> progs s' x = progs s x) /\
  (forall u, listed s l u -> started s = true -> dget u (denial s') = None) /\
  (forall u, ~ listed s l u -> dget u (denial s') = dget u (denial s)) /\
  queue s' = queue s /\ tasks s' = tasks s /\ objs s' = objs s /\ sem s' = sem s /\ avail s' = avail s.
Proof.
  intros H. destruct (cleanup_exact l s 0 (sorted_reach k s H)) as (s' & f & E & R).
  exists s', f. split; [exact E|]. pose proof (cleanup_fields l s 0) as Z. rewrite E in Z. cbn in Z. intuition.
Qed.
(** Doing it again finds nothing. *)
Theorem C122_again k s l s' n m : reach k normal s -> cleanup s l 0 = (s', Ret n) -> incl m l -> cleanup s' m 0 = (s', Ret 0).
Proof.
  intros H E I. destruct (C122_exact k s l H) as (s2 & f & E2 & _ & _ & P & _). rewrite E in E2. injection E2 as <- _.
  clear E. induction m as [|x t IH]; [reflexivity|]. cbn [cleanup]. rewrite (P x) by (apply I; left; reflexivity).
  cbn [forallb clean_ids]. apply IH. intros y Iy. apply I. right. exact Iy.
Qed.
(** If a progression lists an event that is not stored, nothing under that status is removed. *)
Theorem C122_missing s x t n u : In u (progs s x) -> ~ In u (items s) -> cleanup s (x :: t) n = (s, Raise NotFoundError).
Proof.
  intros I N. cbn [cleanup]. destruct (forallb _ _) eqn:F; [|reflexivity].
  rewrite forallb_forall in F. specialize (F u I). apply memb_In in F. contradiction.
Qed.

(** Cleaning away events while they are processed can lead there. *)
Theorem C122_missing_refuted : exists k l, let s := pexec k (pst0 k) l in
  Forall (fun a => forall id p, a <> Spawn (CEnqueue id p)) l /\ cleanup s [COMPLETED] 0 = (s, Raise NotFoundError) /\
  In 1 (progs s COMPLETED) /\ In 2 (progs s COMPLETED) /\ In 2 (items s).
Proof.
  exists (Cfg 2 2 9 9), [app 1 0; app 2 0; Spawn CStart; Step 2; Step 2; Spawn CForward; Step 3; Grant 3 true; Step 3; Step 4;
    Cleanup [PROCESSING]; Finish 4 COMPLETED; Step 4; Step 3; Grant 3 true; Step 3; Step 5; Finish 5 COMPLETED; Step 5].
  cbn zeta. split; [repeat constructor; intros; discriminate|]. split; [|vm_compute; auto 10].
  apply (C122_missing _ _ _ _ 1); vm_compute; intuition discriminate.
Qed.

(** A pending event that is cleaned away while no call is deciding on it is never run, whatever is called
    and however it interleaves, unless it is appended again: its entry in the queue is dropped. *)
Definition about (id : uuid) (p : tpc) : bool :=
  match p with
  | LPerm _ _ u | LUpd _ u | LAbort _ u | LRequeue _ _ u | KSem _ u | KRun _ u _ | KUpd _ u => u =? id
  | _ => false
  end.
Definition gone (id : uuid) (s : pst) : Prop :=
  ~ In id (items s) /\ (forall x, ~ In id (progs s x)) /\ forall p, In p (tasks s) -> about id p = false.

Lemma strip1_In id u l : In u (strip1 id l) -> In u l.
Proof. unfold strip1. destruct (remove_first id l) as [l'|] eqn:E; [|auto]. intros H. eapply remove_first_In; eauto. Qed.
Lemma gone_task id s t p : gone id s -> about id p = false -> gone id (set_task s t p).
Proof.
  intros (A & B & C) P. split; [exact A|]. split; [exact B|]. intros q I. apply In_upd in I as [->|I]; auto.
Qed.
Lemma gone_new id s p : gone id s -> about id p = false -> gone id (new_task s p).
Proof.
  intros (A & B & C) P. split; [exact A|]. split; [exact B|]. intros q I. apply in_app_or in I as [I|[<-|[]]]; auto.
Qed.
Lemma gone_move id s u x : gone id s -> u <> id -> gone id (w_progs s (move_to u x (progs s))).
Proof.
  intros (A & B & C) N. split; [exact A|]. split; [|exact C]. intros y I. cbn [progs w_progs] in I. unfold move_to in I.
  destruct (eqb y x); [apply in_app_or in I as [I|[->|[]]]; [|contradiction]|]; apply strip1_In in I; eapply B; eauto.
Qed.
Lemma about_back k s ids s' q id : back k s ids = (s', q) -> about id q = false.
Proof.
  destruct ids as [|u r]; cbn; [intros E; injection E as _ <-; reflexivity|].
  destruct (enq_check k s u PNone); intros E; injection E as _ <-; reflexivity.
Qed.
Lemma gone_same id s s' : gone id s -> items s' = items s -> progs s' = progs s -> tasks s' = tasks s -> gone id s'.
Proof. intros (A & B & C) E1 E2 E3. unfold gone. rewrite E1, E2, E3. auto. Qed.
Lemma gone_status id s u x : gone id s -> u <> id -> gone id (set_status s u x) /\ dget id (objs (set_status s u x)) = dget id (objs s).
Proof.
  intros G N. pose proof (set_status_fields s u x) as (A & B & _ & _ & C & _). split; [apply (gone_same id s); assumption|].
  unfold set_status. destruct (dget u (objs s)); [|reflexivity]. cbn. apply dget_dset_other. congruence.
Qed.
Lemma clean_progs : forall ids s n x u, In u (progs (fst (clean_ids s ids n)) x) -> In u (progs s x).
Proof.
  induction ids as [|id t IH]; intros s n x u; cbn [clean_ids]; [auto|].
  destruct (remove_first id (items s)) as [l|]; intros H; [apply IH in H|]; cbn in H; apply strip1_In in H; exact H.
Qed.
Lemma clean_items : forall ids s n u, In u (items (fst (clean_ids s ids n))) -> In u (items s).
Proof.
  induction ids as [|id t IH]; intros s n u; cbn [clean_ids]; [auto|].
  destruct (remove_first id (items s)) as [l|] eqn:E; intros H; [apply IH in H; cbn in H; eapply remove_first_In; eauto|exact H].
Qed.
Lemma cleanup_less : forall l s n, (forall u, In u (items (fst (cleanup s l n))) -> In u (items s)) /\
  (forall x u, In u (progs (fst (cleanup s l n)) x) -> In u (progs s x)).
Proof.
  induction l as [|x t IH]; intros s n; cbn [cleanup]; [auto|]. destruct (forallb _ _); [|auto].
  pose proof (clean_progs (progs s x) s n) as P. pose proof (clean_items (progs s x) s n) as I.
  destruct (clean_ids s (progs s x) n) as [s' [m|e]]; cbn in *; [|auto]. destruct (IH s' m) as [I' P']. split; auto.
Qed.
Lemma gone_step k id s a : gone id s -> (forall e p, a <> Spawn (CAppend id e p)) ->
  gone id (pact k s a) /\ dget id (objs (pact k s a)) = dget id (objs s).
Proof.
  intros G Na. destruct a as [c|t|t b|t x|l|]; cbn [pact].
  - unfold spawn. destruct c as [u e p|u p| |].
    + assert (u <> id) as Ne by (intros ->; apply (Na e p); reflexivity).
      destruct (memb u (items s)); [split; [apply gone_new; auto|reflexivity]|].
      set (s2 := if dmem u (objs s) then _ else _).
      assert (G2 : gone id s2 /\ dget id (objs s2) = dget id (objs s)).
      { assert (H : forall o, gone id (PSt o (items s ++ [u]) (fun x => if eqb x PENDING then progs s x ++ [u] else progs s x)
            (started s) (queue s) (denial s) (avail s) (stopped s) (sem s) (tasks s))).
        { intros o. destruct G as (A & B & C). split; [|split].
          - cbn. intros I. apply in_app_or in I as [I|[I|[]]]; auto.
          - cbn [progs]. intros y I. destruct (eqb y PENDING); [apply in_app_or in I as [I|[I|[]]]; eauto|]; eapply B; eauto.
          - exact C. }
        unfold s2. destruct (dmem u (objs s)); (split; [apply H|]); [reflexivity|]. cbn. apply dget_dset_other. congruence. }
      destruct (started s); [destruct (enq_check k s2 u p)|]; (split; [apply gone_new; [apply G2|reflexivity]|apply G2]).
    + destruct (started s); [destruct (enq_check k s u p)|]; (split; [try exact G; apply gone_new; auto|reflexivity]).
    + destruct (started s); [split; [apply gone_new; auto|reflexivity]|].
      destruct (forallb _ _); [|split; [apply gone_new; auto|reflexivity]].
      destruct (back k (w_started s) (progs s PENDING)) as [s2 q] eqn:Eb.
      pose proof (about_back _ _ _ _ _ id Eb) as Q. destruct (back_spec _ _ _ _ _ Eb) as ([->| ->] & _); (split; [apply gone_new; auto|reflexivity]).
    + destruct (started s); (split; [apply gone_new; auto|reflexivity]). unfold top. destruct (_ && _); reflexivity.
  - unfold step. destruct (nth_error (tasks s) t) as [p|] eqn:Ht; [|auto].
    pose proof (proj2 (proj2 G) _ (nth_error_In _ _ Ht)) as Hp.
    destruct p as [p u|p u rest|n|n p u|n u|n u|n p u|n|par u|par u mine|par u|par u| |e l]; auto; cbn [about] in Hp; try apply Nat.eqb_neq in Hp.
    + split; [apply gone_task; auto|reflexivity].
    + destruct (back k (push s p u) rest) as [s1 q] eqn:Eb. pose proof (about_back _ _ _ _ _ id Eb) as Q.
      destruct (back_spec _ _ _ _ _ Eb) as ([->| ->] & _); (split; [apply gone_task; auto|reflexivity]).
    + destruct (heappop qlt (queue s)) as [[[p u] h]|]; [|auto]. destruct (memb u (items s)) eqn:M.
      * split; [apply gone_task; auto|reflexivity]. cbn. apply Nat.eqb_neq. intros ->. apply memb_In in M. apply G in M. exact M.
      * split; [apply gone_task; auto|reflexivity]. unfold top. destruct (_ && _); reflexivity.
    + split; [|reflexivity]. apply gone_new; [|apply Nat.eqb_neq; exact Hp]. apply gone_task; [|unfold top; destruct (_ && _); reflexivity].
      apply (gone_move id s u PROCESSING G Hp).
    + split; [|reflexivity]. apply gone_task; [|reflexivity]. apply (gone_move id s u ABORTED G Hp).
    + split; [apply gone_task; auto|reflexivity].
    + destruct (existsb _ _); [auto|]. destruct (0 <? n); (split; [apply gone_task; auto|reflexivity]).
    + destruct (sem s) as [|m]; [auto|]. destruct (_ && _).
      * destruct (gone_status id (w_sem s m) u PROCESSING G Hp) as [A B]. split; [|exact B].
        apply gone_task; [exact A|]. apply Nat.eqb_neq. exact Hp.
      * split; [|reflexivity]. apply gone_task; [exact G|]. apply Nat.eqb_neq. exact Hp.
    + split; [|reflexivity]. apply gone_task; [|reflexivity]. apply (gone_move id s u (status_of s u) G Hp).
  - unfold grant. destruct (nth_error (tasks s) t) as [p|] eqn:Ht; [|auto].
    pose proof (proj2 (proj2 G) _ (nth_error_In _ _ Ht)) as Hp.
    destruct p as [p u|p u rest|n|n p u|n u|n u|n p u|n|par u|par u mine|par u|par u| |e l]; auto.
    destruct b; [|destruct (3 <=? _)]; (split; [apply gone_task; auto|reflexivity]).
  - unfold finish_ev. destruct (nth_error (tasks s) t) as [p|] eqn:Ht; [|auto].
    pose proof (proj2 (proj2 G) _ (nth_error_In _ _ Ht)) as Hp.
    destruct p as [p u|p u rest|n|n p u|n u|n u|n p u|n|par u|par u mine|par u|par u| |e l]; auto.
    assert (u <> id) as Ne by (apply Nat.eqb_neq; exact Hp). destruct (gone_status id s u x G Ne) as [A B].
    destruct (streaming s u); [|destruct mine; [destruct x|destruct (existsb _ _)]]; auto; (split; [apply gone_task; auto|]); auto.
  - destruct (cleanup_less l s 0) as [I P]. destruct (cleanup_fields l s 0) as (_ & T & _ & _ & B & _).
    split; [|rewrite B; reflexivity]. destruct G as (G1 & G2 & G3). split; [auto|]. split; [intros x J; eapply G2; eauto|]. rewrite T. exact G3.
  - destruct (started s); auto.
Qed.
Theorem C122_never_run k s l id acts : reach k normal s -> listed s l id -> (forall p, In p (tasks s) -> about id p = false) ->
  Forall (fun a => forall e p, a <> Spawn (CAppend id e p)) acts ->
  let s' := pexec k s (Cleanup l :: acts) in
  ~ In id (items s') /\ (forall x, ~ In id (progs s' x)) /\ (forall p, In p (tasks s') -> about id p = false) /\
  status_of s' id = status_of s id.
Proof.
  intros H L T F. cbn zeta. unfold pexec. cbn [fold_left pact].
  destruct (C122_exact k s l H) as (s1 & f & E & A & Ff & P1 & P2 & _ & _ & _ & T1 & O1 & _). rewrite E. cbn [fst].
  assert (G : gone id s1).
  { split; [rewrite A, filter_In; intros [_ W]; apply Ff in W; contradiction|]. split; [|rewrite T1; exact T].
    intros x I. destruct L as (y & Iy & J). destruct (in_dec (fun a b : status => ltac:(decide equality)) x l) as [K|K]; [rewrite P1 in I by exact K; exact I|].
    rewrite P2 in I by exact K. pose proof (o_one _ (sorted_reach k s H) _ _ _ I J). subst y. contradiction. }
  assert (Z : forall m s2, gone id s2 -> Forall (fun a => forall e p, a <> Spawn (CAppend id e p)) m ->
    gone id (fold_left (pact k) m s2) /\ dget id (objs (fold_left (pact k) m s2)) = dget id (objs s2)).
  { induction m as [|a m IH]; intros s2 G2 Fm; [auto|]. inversion Fm; subst. cbn [fold_left].
    destruct (gone_step k id s2 a G2) as [G3 D3]; [assumption|]. destruct (IH _ G3) as [G4 D4]; [assumption|]. split; [exact G4|congruence]. }
  destruct (Z acts s1 G F) as [(Z1 & Z2 & Z3) D]. repeat (split; [assumption|]). unfold status_of. rewrite D, O1. reflexivity.
Qed.
Example C122_example :
  let k := Cfg 2 2 9 9 in
  let s := pexec k (pst0 k) [app 1 5; app 2 3; Spawn CStart; Step 2; Step 2; app 3 1; Step 3; Spawn CForward;
    Step 4; Grant 4 true; Step 4; Step 4; Grant 4 true; Step 4; Step 5; Step 6; Finish 5 CANCELLED; Step 5; Finish 6 FAILED; Step 6; Step 4; app 4 7; Step 7] in
  items s = [1; 2; 3; 4] /\ snd (cleanup s cleanup_default 0) = Ret 1 /\ items (fst (cleanup s cleanup_default 0)) = [1; 3; 4] /\
  snd (cleanup s [PENDING; PENDING] 0) = Ret 2 /\
  let s' := pexec k s [Cleanup [PENDING]; Spawn CForward; Step 8; Step 8; Step 8] in
  map snd (queue s) = [3; 4] /\ queue s' = [] /\ status_of s' 4 = PENDING.
Proof. vm_compute. repeat split. Qed.

Print Assumptions C122_exact.
Print Assumptions C122_again.
Print Assumptions C122_missing.
Print Assumptions C122_missing_refuted.
Print Assumptions C122_never_run.
