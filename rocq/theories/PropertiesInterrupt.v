(** Property C115: what a process() call leaves behind when it is cut short. *)
From Coq Require Import List Bool Arith ZArith Lia Permutation.
From Verif Require Import PyBase PyFacts ModelHeap SpecHeap ModelEvent ProofsEvent ModelProcessor SpecProcessor
  ProofsProcessor ProofsProcessorRun ProofsProcessorCap ProofsProcessorFate ModelInterrupt SpecInterrupt ProofsInterrupt ProofsStranded ProofsListed ProofsOutcome.
Import ListNotations.
Local Open Scope nat_scope.
#[local] Arguments eqb : simpl never.

Definition app (id : uuid) (z : Z) : action := Spawn (CAppend id (Ev z false PENDING) PNone).
Definition apps (id : uuid) (z : Z) : action := Spawn (CAppend id (Ev z true PENDING) PNone).

(** Whatever is cut short when, every event is listed under exactly one status, and
    one listed as completed, failed, cancelled or skipped has that status. *)
Theorem C115_partition : forall k x, ireach k inormal x -> let s := i_s x in
  NoDup (items s) /\ Permutation (in_progs s) (items s) /\
  (forall u, In u (items s) -> exists z, In u (progs s z) /\ forall y, In u (progs s y) -> y = z) /\
  (forall z u, final z = true -> In u (progs s z) -> status_of s u = z) /\
  (forall u, In u (running_ids s) -> In u (progs s PROCESSING)) /\
  NoDup (running_ids s).
Proof.
  intros k x H s. pose proof (FS_ireach k x H) as HF. apply SI_ireach in H. destruct H as ([A B C D E F G] & _ & _). fold s in A, B, C, D, E, F, G.
  split; [exact A|]. split; [|split; [|split; [|split]]].
  - apply NoDup_Permutation; [apply (NoDup_flat (progs s) B C) | exact A|].
    intros u. rewrite D. unfold in_progs. rewrite in_flat_map. split.
    + intros (z & _ & Hz). eauto.
    + intros (z & Hz). exists z. split; [apply all_status_In | exact Hz].
  - intros u Hu. apply D in Hu. destruct Hu as [z Hz]. exists z. split; [exact Hz|]. intros y Hy. eapply C; eauto.
  - exact HF.
  - exact G.
  - apply NoDup_app_l in E. exact E.
Qed.
Print Assumptions C115_partition.

(** No semaphore slot is lost: the free ones and the held ones always make up the
    concurrency limit, so a processor where nothing runs has all of them. *)
Theorem C115_slots : forall k x, ireach k (fun _ => True) x ->
  sem (i_s x) + countp holds (i_s x) = k_conc k /\
  (running_ids (i_s x) = [] -> sem (i_s x) = k_conc k).
Proof.
  intros k x H. pose proof (sem_ireach k _ x H) as E. split; [exact E|]. intros R.
  assert (Z : countp holds (i_s x) = 0); [|lia]. unfold countp. apply filter_none. intros p Hp.
  destruct (holds p) eqn:Hh; [|reflexivity]. exfalso.
  assert (Hl : exists u, In u (late p)) by (destruct p; try discriminate; simpl; eauto). destruct Hl as [u Hu].
  assert (Hc : In u (running_ids (i_s x))) by (unfold running_ids; apply in_flat_map; eauto). rewrite R in Hc. destruct Hc.
Qed.
Print Assumptions C115_slots.

(** A call that is cut short ends, like any other, after every event it started. *)
Theorem C115_joins : forall k x t p u q, ireach k (fun _ => True) x ->
  nth_error (tasks (i_s x)) t = Some p -> call_over p = true ->
  nth_error (tasks (i_s x)) u = Some q -> started_by t q = true -> exists id, q = KDone t id.
Proof.
  intros k x t p u q H Ht Hp Hu Hq. pose proof (joined_ireach k _ x H) as J.
  destruct q as [| | | | | | | |par id|par id mine|par id|par id| |]; try discriminate;
    simpl in Hq; apply Nat.eqb_eq in Hq; subst par; eauto;
    (edestruct (J t) as (r & Hr & Lr); [eapply nth_error_In; exact Hu | simpl; apply Nat.eqb_refl|]);
    rewrite Ht in Hr; injection Hr as <-; destruct p; discriminate.
Qed.
Print Assumptions C115_joins.

(** And it can always end without waiting for a permission, for a semaphore slot or
    for an operation to end by itself. *)
Theorem C115_ends : forall k x t p, nth_error (tasks (i_s x)) t = Some p -> is_loop p = true -> is_cut x t = true ->
  exists l q, Forall (fun a => match a with IUnwind _ | IBreak _ _ => True | _ => False end) l /\
    nth_error (tasks (i_s (irun k x l))) t = Some q /\ call_over q = true.
Proof. intros k x t p Ht Lp Hc. eapply can_end; eauto. Qed.
Print Assumptions C115_ends.

(** A call whose caller was cancelled raises, whatever else happens; one in which
    request_permission raised raises an exception group; one cut short by an operation
    returns normally unless one of these happens as well. *)
Theorem C115_outcome : forall k x a t p l q, nth_error (tasks (i_s x)) t = Some p -> is_loop p = true ->
  nth_error (tasks (i_s (irun k (iact1 k x a) l))) t = Some q -> call_over q = true ->
  (a = IInterrupt t -> q = AErr OtherErr [] \/ q = AErr ExceptionGroupErr []) /\
  (a = IFail t -> (exists n z u, p = LPerm n z u) -> q = AErr ExceptionGroupErr []) /\
  (is_cut x t = true -> q = ADone \/ q = AErr OtherErr [] \/ q = AErr ExceptionGroupErr []).
Proof.
  intros k x a t p l q Ht Lp Hq Ho.
  assert (G : forall w, doomed w t (iact1 k x a) -> exists v, rank w <= rank v /\
    q = match v with ByChild => ADone | ByCaller => AErr OtherErr [] | ByError => AErr ExceptionGroupErr [] end).
  { intros w Hw. apply (doomed_run k l) in Hw. destruct Hw as (q' & Hq' & HD). rewrite Hq in Hq'. injection Hq' as <-.
    destruct HD as [[L _]|HD]; [destruct q; discriminate | exact HD]. }
  assert (R : forall w, exists v, dget t (cut_short x t w) = Some v /\ rank w <= rank v).
  { intros w. unfold cut_short. rewrite dget_dset, eqb_refl. eexists. split; [reflexivity|].
    destruct (cut x t) as [v|]; [|lia]. unfold worse. destruct (rank v <? rank w) eqn:E; [lia|]. apply Nat.ltb_ge in E. exact E. }
  split; [|split].
  - intros ->. destruct (G ByCaller) as (v & Hv & ->).
    + exists p. simpl. unfold interrupt. rewrite Ht.
      assert (E : (match p with LGet _ | LPerm _ _ _ | LUpd _ _ | LAbort _ _ | LRequeue _ _ _ | LJoin _ => ISt (i_s x) (cut_short x t ByCaller) | _ => x end)
        = ISt (i_s x) (cut_short x t ByCaller)) by (destruct p; try discriminate; reflexivity).
      rewrite E. split; [exact Ht|]. left. split; [exact Lp | apply R].
    + destruct v; simpl in Hv; [lia | auto | auto].
  - intros -> (n & z & u & ->). destruct (G ByError) as (v & Hv & ->).
    + exists (LJoin n). simpl. unfold fail. rewrite Ht. simpl. rewrite (nth_upd _ _ _ _ _ _ Ht), Nat.eqb_refl. split; [reflexivity|].
      left. split; [reflexivity | apply R].
    + destruct v; simpl in Hv; [lia | lia | reflexivity].
  - intros Hc. destruct (G ByChild) as (v & _ & ->); [|destruct v; auto].
    apply doomed_step. exists p. split; [exact Ht|]. left. split; [exact Lp|]. unfold is_cut, dmem in Hc. unfold cut.
    destruct (dget t (i_cut x)) as [v|]; [|discriminate]. exists v. split; [reflexivity | simpl; lia].
Qed.
Print Assumptions C115_outcome.

(** The available capacity falls by one per event started, comes back in full when a
    call that started something ends without raising, and nothing else changes it. *)
Theorem C115_capacity_moves : forall k x a, let s := i_s x in let s' := i_s (iact1 k x a) in
  avail s' = avail s \/
  (avail s' = (avail s - 1)%Z /\ exists t n u, nth_error (tasks s) t = Some (LUpd n u) /\ running_ids s' = running_ids s ++ [u]) \/
  (avail s' = Z.of_nat (k_cap k) /\ exists t n, nth_error (tasks s) t = Some (LJoin (S n)) /\ nth_error (tasks s') t = Some ADone /\
     cut x t <> Some ByCaller /\ cut x t <> Some ByError).
Proof.
  intros k x a s s'. subst s s'. destruct a as [a|t|t|t st|t]; simpl.
  - assert (Other : forall b, (forall t, b <> Step t) -> avail (pact k (i_s x) b) = avail (i_s x)).
    { intros b Hb. destruct b as [c|t|t b|t y|l|]; simpl.
      - unfold spawn. destruct c as [id e p|id p| |].
        + destruct (memb id (items (i_s x))); [reflexivity|]. set (s2 := if dmem id _ then _ else _).
          assert (Q : avail s2 = avail (i_s x)) by (unfold s2; destruct (dmem id _); reflexivity).
          destruct (started (i_s x)); [destruct (enq_check k s2 id p)|]; exact Q.
        + destruct (started (i_s x)); [destruct (enq_check k (i_s x) id p)|]; reflexivity.
        + destruct (started (i_s x)); [reflexivity|]. destruct (forallb _ _); [|reflexivity].
          destruct (back k (w_started (i_s x)) (progs (i_s x) PENDING)) as [s2 q] eqn:Eb.
          destruct (back_shape k _ _ _ _ Eb) as (_ & A & _). exact A.
        + destruct (started (i_s x)); reflexivity.
      - destruct (Hb t eq_refl).
      - unfold grant. destruct (nth_error _ _) as [[]|]; try reflexivity. destruct b; [|destruct (3 <=? _)]; reflexivity.
      - unfold finish_ev. destruct (nth_error _ _) as [p|]; [|reflexivity]. destruct p as [| | | | | | | | |par id mine| | | |]; try reflexivity.
        destruct (set_status_fields (i_s x) id y) as (_ & _ & _ & _ & _ & _ & A & _).
        destruct (streaming _ _); [exact A|]. destruct mine; [destruct y; try reflexivity; exact A|]. destruct (existsb _ _); reflexivity.
      - destruct (cleanup_fields l (i_s x) 0) as (_ & _ & _ & A & _). exact A.
      - destruct (started _); reflexivity. }
    destruct a as [c|t|t b|t y|l|]; try (left; apply Other; discriminate).
    destruct (halted x t) eqn:Eh; [left; reflexivity|]. simpl. unfold step.
    destruct (nth_error (tasks (i_s x)) t) as [p|] eqn:Ht; [|left; reflexivity].
    destruct p as [p id|p id rest|n|n p id|n id|n id|n p id|n|par id|par id mine|par id|par id| |e l]; try (left; reflexivity).
    + left. destruct (back k (push (i_s x) p id) rest) as [s1 q] eqn:Eb. destruct (back_shape k _ _ _ _ Eb) as (_ & A & _). exact A.
    + left. destruct (heappop _ _) as [[[p id] h]|]; [|reflexivity]. destruct (memb id _); reflexivity.
    + right. left. split; [reflexivity|]. exists t, n, id. split; [exact Ht|]. unfold running_ids. simpl.
      rewrite flat_map_app. simpl. f_equal.
      assert (Lu : forall l t p q, nth_error l t = Some p -> late p = [] -> late q = [] -> flat_map late (upd t q l) = flat_map late l).
      { induction l as [|r l IH]; intros [|j] p q Hj Lp Lq; simpl in *; try discriminate.
        - injection Hj as ->. rewrite Lp, Lq. reflexivity.
        - rewrite (IH _ _ _ Hj Lp Lq). reflexivity. }
      eapply Lu; [exact Ht | reflexivity | apply top_late].
    + destruct (existsb _ _); [left; reflexivity|]. destruct n as [|n]; [left; reflexivity|].
      right. right. split; [reflexivity|]. exists t, n. split; [exact Ht|]. simpl. rewrite (nth_upd _ _ _ _ _ _ Ht), Nat.eqb_refl. split; [reflexivity|].
      unfold halted in Eh. rewrite Ht in Eh. unfold is_cut, dmem in Eh. unfold cut. destruct (dget t (i_cut x)); [discriminate | split; discriminate].
    + left. destruct (sem (i_s x)) as [|m]; [reflexivity|]. destruct (_ && _); [|reflexivity].
      destruct (set_status_fields (w_sem (i_s x) m) id PROCESSING) as (_ & _ & _ & _ & _ & _ & A & _). exact A.
  - left. unfold interrupt. destruct (nth_error _ _) as [[]|]; reflexivity.
  - left. unfold fail. destruct (nth_error _ _) as [[]|]; reflexivity.
  - left. unfold break. destruct (nth_error _ _) as [p|]; [|reflexivity]. destruct p as [| | | | | | | | |par id mine| | | |]; try reflexivity.
    assert (A : forall v, avail (set_status (i_s x) id v) = avail (i_s x)) by (intros v; apply (set_status_fields (i_s x) id v)).
    destruct (streaming _ _); [apply A|]. destruct mine; [|reflexivity]. destruct (is_cut x par); apply A.
  - unfold unwind. destruct (nth_error (tasks (i_s x)) t) as [p|] eqn:Ht; [|left; reflexivity].
    destruct p as [| |n|n p id|n id|n id|n p id|n|par id|par id mine|par id| | |]; try (left; reflexivity);
      try (left; destruct (is_cut x _); reflexivity).
    + destruct (cut x t) as [w|] eqn:Ec; [|left; reflexivity]. destruct (existsb _ _); [left; reflexivity|]. simpl. unfold leave.
      destruct w; try (left; reflexivity). destruct n as [|n]; [left; reflexivity|].
      right. right. split; [reflexivity|]. exists t, n. split; [exact Ht|]. simpl. rewrite (nth_upd _ _ _ _ _ _ Ht), Nat.eqb_refl.
      split; [reflexivity|]. split; congruence.
    + left. destruct (_ && _); reflexivity.
Qed.
Print Assumptions C115_capacity_moves.

(** If process() calls do not overlap, the available capacity stays between zero and
    queue_capacity and no call starts more than queue_capacity events. *)
Theorem C115_capacity : forall k l, ialways k (fun s => countp is_loop s <= 1) (ist0 k) l ->
  let s := i_s (irun k (ist0 k) l) in
  (0 <= avail s <= Z.of_nat (k_cap k))%Z /\ forall t, countp (started_by t) s <= k_cap k.
Proof.
  intros k l H s. destruct (CJ_run k l (ist0 k) (CJ_0 k) H) as [_ A _ B]. auto.
Qed.
Print Assumptions C115_capacity.

(** A processor whose capacity is used up when no call is under way never starts an
    event again, whatever is done with it, and its capacity never comes back. *)
Theorem C115_worn_out : forall k x l, worn_out (i_s x) ->
  running_ids (i_s (irun k x l)) = [] /\ avail (i_s (irun k x l)) = avail (i_s x).
Proof.
  intros k x l H. destruct (worn_run k l x H) as [A B]. split; [apply worn_running; exact A | exact B].
Qed.
Print Assumptions C115_worn_out.

(** One timeout around forward() is enough to get there. *)
Definition ex115 : list iact := [IDo (Spawn CStart); IDo (app 1 5); IDo (Step 1); IDo (app 2 6); IDo (Step 2);
  IDo (Spawn CForward); IDo (Step 3); IDo (Grant 3 true); IDo (Step 3); IDo (Step 4);
  IInterrupt 3; IBreak 4 CANCELLED; IUnwind 3].
Theorem C115_timeout_refuted : exists k l, 1 <= k_cap k /\ 1 <= k_conc k /\ Forall inormal l /\
  length (filter (fun a => match a with IInterrupt _ | IFail _ => true | _ => false end) l) = 1 /\
  let x := irun k (ist0 k) l in worn_out (i_s x) /\ queue (i_s x) = [(6%Z, 2)] /\ progs (i_s x) PENDING = [2] /\
  progs (i_s x) PROCESSING = [1] /\ status_of (i_s x) 1 = CANCELLED.
Proof.
  exists (Cfg 1 1 9 9), ex115. split; [simpl; lia|]. split; [simpl; lia|]. split; [repeat constructor; discriminate|].
  split; [reflexivity|]. vm_compute. split; [|auto]. split; [discriminate|].
  intros p [<-|[<-|[<-|[<-|[<-|[]]]]]]; reflexivity.
Qed.
Print Assumptions C115_timeout_refuted.

(** An event that a call had taken from the queue and not yet started, or that one of
    its tasks had not yet filed, when the call is cut short stays where it was listed
    for ever: appending it again raises, and no process() call looks at it again. *)
Theorem C115_stranded : forall k x a t p u l, ireach k inormal x -> a = IFail t \/ a = IUnwind t ->
  nth_error (tasks (i_s x)) t = Some p -> In u (early p ++ late p) ->
  let y := iact1 k x a in
  (exists q, nth_error (tasks (i_s y)) t = Some q /\ q <> p) -> Forall inormal l ->
  stranded (i_s (irun k y l)) u (if memb u (early p) then PENDING else PROCESSING) (status_of (i_s x) u).
Proof.
  intros k x a t p u l Hr Ha Ht Hu y (q & Hq & Hne) Hl. pose proof (SI_ireach k x Hr) as HI.
  assert (K : exists p', tasks (i_s y) = upd t p' (tasks (i_s x)) /\ items (i_s y) = items (i_s x) /\ progs (i_s y) = progs (i_s x) /\
    queue (i_s y) = queue (i_s x) /\ started (i_s y) = started (i_s x) /\ early p' = [] /\ late p' = [] /\ status_of (i_s y) u = status_of (i_s x) u).
  { assert (Z : y <> x) by (intros E; rewrite E, Ht in Hq; congruence).
    subst y. destruct Ha as [-> | ->]; simpl in *.
    - unfold fail in *. rewrite Ht in *. destruct p; try congruence. eexists. repeat split.
    - unfold unwind in *. rewrite Ht in *. destruct p as [| |n|n p id|n id|n id|n p id|n|par id|par id mine|par id| | |]; try congruence;
        try (destruct (is_cut x _); [|congruence]; simpl in *; eexists; repeat split; reflexivity).
      + simpl in Hu. destruct Hu.
      + destruct (_ && _); [|congruence]. simpl in *. eexists. repeat split. }
  destruct K as (p' & T & I & P & Q & S & E1 & E2 & St).
  destruct (give_up (i_s x) (i_s y) t p p' u HI Ht T I P Q S E1 E2 Hu) as [G1 G2]. rewrite St in G2.
  apply stranded_run; auto; [|destruct (memb u (early p)); auto].
  apply SI_iact; [|exact HI]. destruct Ha as [-> | ->]; exact Logic.I.
Qed.
Print Assumptions C115_stranded.

(** The same goes for an event whose operation gets the cancellation while its call is
    cut short, and for every streaming event whose stream() raises it: the event stays
    listed as processing, whatever its status. *)
Theorem C115_stranded_running : forall k x t par id mine st l, ireach k inormal x ->
  nth_error (tasks (i_s x)) t = Some (KRun par id mine) -> mine = true \/ streaming (i_s x) id = true ->
  is_cut x par = true \/ streaming (i_s x) id = true ->
  Forall inormal l ->
  stranded (i_s (irun k (iact1 k x (IBreak t st)) l)) id PROCESSING (if streaming (i_s x) id then st else CANCELLED).
Proof.
  intros k x t par id mine st l Hr Ht Hm Hc Hl. pose proof (SI_ireach k x Hr) as HI.
  set (z := if streaming (i_s x) id then st else CANCELLED).
  assert (K : i_s (iact1 k x (IBreak t st)) = set_task (w_sem (set_status (i_s x) id z) (S (sem (i_s x)))) t (KDone par id)).
  { simpl. unfold break. rewrite Ht. unfold z. destruct (streaming (i_s x) id); [reflexivity|].
    destruct Hm as [-> |]; [|discriminate]. destruct Hc as [-> |]; [reflexivity | discriminate]. }
  destruct (set_status_fields (i_s x) id z) as (F1 & F2 & F3 & F4 & F5 & _).
  assert (Ho : dmem id (objs (i_s x)) = true).
  { assert (G : forall x, ireach k inormal x -> OB (i_s x)).
    { apply ireach_inv; [intros u []|]. intros x0 a _. apply OB_iact. }
    apply (G x Hr). destruct HI as (HP & _). apply (i_mem _ _ _ _ HP). exists PROCESSING. apply (i_r _ _ _ _ HP).
    apply (token_here (i_s x) t _ id Ht). left; reflexivity. }
  assert (St : status_of (i_s (iact1 k x (IBreak t st))) id = z).
  { rewrite K. change (status_of (set_status (i_s x) id z) id = z). rewrite status_set, Nat.eqb_refl, Ho. reflexivity. }
  destruct (give_up (i_s x) (i_s (iact1 k x (IBreak t st))) t _ (KDone par id) id HI Ht) as [G1 G2];
    try (rewrite K; simpl; rewrite ?F1, ?F2, ?F3, ?F4, ?F5; reflexivity); try reflexivity; [left; reflexivity|].
  rewrite St in G2. simpl in G2. apply stranded_run; auto. apply SI_iact; [exact Logic.I | exact HI].
Qed.
Print Assumptions C115_stranded_running.

(** An event whose operation raises the cancellation by itself takes the events started
    with it along, although process() returns as if nothing had happened: here event 2
    never ran, has status PENDING and stays listed as processing. *)
Definition ex115b : list iact := [IDo (Spawn CStart); IDo (app 1 5); IDo (Step 1); IDo (app 2 6); IDo (Step 2);
  IDo (Spawn CForward); IDo (Step 3); IDo (Grant 3 true); IDo (Step 3); IDo (Step 3); IDo (Grant 3 true); IDo (Step 3);
  IDo (Step 4); IBreak 4 CANCELLED; IUnwind 5; IUnwind 3].
Theorem C115_siblings_refuted : exists k l, Forall inormal l /\
  Forall (fun a => match a with IInterrupt _ | IFail _ => False | _ => True end) l /\
  let x := irun k (ist0 k) l in nth_error (tasks (i_s x)) 3 = Some ADone /\ avail (i_s x) = Z.of_nat (k_cap k) /\
  progs (i_s x) CANCELLED = [1] /\ status_of (i_s x) 1 = CANCELLED /\
  stranded (i_s x) 2 PROCESSING PENDING.
Proof.
  exists (Cfg 2 1 9 9), ex115b. split; [repeat constructor; discriminate|]. split; [repeat constructor|]. cbv zeta.
  split; [reflexivity|]. split; [reflexivity|]. split; [reflexivity|]. split; [reflexivity|].
  split; [vm_compute; auto|]. split; [intros z; destruct z; vm_compute; intuition congruence|].
  split; [reflexivity|]. split; vm_compute; tauto.
Qed.
Print Assumptions C115_siblings_refuted.

(** request_permission raising: the event it was asked for is in no queue any more. *)
Definition ex115c : list iact := [IDo (Spawn CStart); IDo (app 1 5); IDo (Step 1); IDo (Spawn CForward); IDo (Step 2); IFail 2; IUnwind 2].
Example C115_ex_permission : let x := irun (Cfg 2 1 9 9) (ist0 (Cfg 2 1 9 9)) ex115c in
  nth_error (tasks (i_s x)) 2 = Some (AErr ExceptionGroupErr []) /\ queue (i_s x) = [] /\ progs (i_s x) PENDING = [1] /\
  nth_error (tasks (i_s (irun (Cfg 2 1 9 9) x [IDo (app 1 5)]))) 3 = Some (AErr ExistsError []).
Proof. vm_compute. auto. Qed.

(** A streaming event cancelled half way, and the processor going on: another call
    finds the rest of the capacity and gives all of it back. *)
Definition ex115d : list iact := [IDo (Spawn CStart); IDo (apps 1 5); IDo (Step 1); IDo (Spawn CForward); IDo (Step 2);
  IDo (Grant 2 true); IDo (Step 2); IDo (Step 3); IInterrupt 2; IDo (Step 2); IBreak 3 PROCESSING; IUnwind 2].
Example C115_ex_stream : let k := Cfg 2 1 9 9 in let x := irun k (ist0 k) ex115d in
  nth_error (tasks (i_s x)) 2 = Some (AErr OtherErr []) /\ avail (i_s x) = 1%Z /\ sem (i_s x) = 1 /\
  progs (i_s x) PROCESSING = [1] /\ cut x 2 = Some ByCaller /\
  let y := irun k x [IDo (app 2 5); IDo (Step 4); IDo (Spawn CForward); IDo (Step 5); IDo (Grant 5 true); IDo (Step 5);
                     IDo (Step 6); IDo (Finish 6 COMPLETED); IDo (Step 6); IDo (Step 5)] in
  nth_error (tasks (i_s y)) 5 = Some ADone /\ avail (i_s y) = 2%Z /\ progs (i_s y) COMPLETED = [2].
Proof. vm_compute. repeat split. Qed.
