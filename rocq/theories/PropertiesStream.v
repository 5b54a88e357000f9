(** Properties C38 (retry), C39 (CompletionStream), C41 (bcall), C77 (race). *)
From Coq Require Import String.
From Coq Require Import List Bool Arith ZArith QArith Qminmax Lia Permutation.
From Verif Require Import PyBase ModelHeap ModelExc SpecExc ModelGroup ModelStream ModelRetry SpecStream ProofsStream.
Import ListNotations.
Local Close Scope Q_scope.
Local Open Scope string_scope.
Local Open Scope nat_scope.
Local Open Scope list_scope.

(** ** C38: retry *)

(** The calls and sleeps of a run: m calls, each of the first m-1 followed by one
    sleep; [b] tells whether there was a sleep after the last.  [goes_on j] and
    [ending m b r] (ProofsStream) say when a further call is made and what the
    result is; they mention only the outcomes, the clock and the arguments. *)
Theorem C38_trace : forall V c (w : world V),
  exists m (b : bool) r, 1 <= m /\
    retry_run c w =
      (flat_map (fun j => [YCall (w_call w j); YSleep (y_delay c w j)]) (seq 1 (m - 1)) ++
       YCall (w_call w m) :: (if b then [YSleep (y_delay c w m)] else []), Some r) /\
    ending c w m b r /\ (forall j, 1 <= j < m -> goes_on c w j).
Proof. intros V c w. exact (retry_spec c w). Qed.
Print Assumptions C38_trace.

Theorem C38_attempts : forall V c (w : world V) l r,
  retry_run c w = (l, r) ->
  1 <= length (calls l) /\ (Z.of_nat (length (calls l)) <= Z.max 1 (y_attempts c))%Z /\
  calls l = map (w_call w) (seq 1 (length (calls l))) /\
  length (sleeps l) <= length (calls l).
Proof.
  intros V c w l r E. destruct (retry_spec c w) as (m & b & x & Hm & R & EN & G). rewrite E in R. injection R as -> ->.
  rewrite calls_app, calls_rounds, sleeps_app, sleeps_rounds.
  replace (calls (YCall (w_call w m) :: (if b then [YSleep (y_delay c w m)] else []))) with [w_call w m] by now destruct b.
  rewrite app_length, map_length, seq_length. simpl length. replace (m - 1 + 1) with m by lia.
  repeat split; auto.
  - destruct (Nat.eq_dec m 1); [lia|]. destruct (G (m - 1)) as (_ & X & _); lia.
  - replace m with (m - 1 + 1) at 3 by lia. rewrite seq_app, map_app. simpl. now replace (S (m - 1)) with m by lia.
  - rewrite app_length, map_length, seq_length. destruct b; simpl; lia.
Qed.
Print Assumptions C38_attempts.

(** Every call but the last raised a retryable error, so the first success and the
    first error of another kind are the last call and the result. *)
Theorem C38_stops : forall V c (w : world V) l r pre x,
  retry_run c w = (l, r) -> calls l = pre ++ [x] ->
  Forall (fun y => retryable (y_retry_on c) y = true) pre /\
  (retryable (y_retry_on c) x = false -> r = Some x).
Proof.
  intros V c w l r pre x E P. destruct (retry_spec c w) as (m & b & y & Hm & R & EN & G). rewrite E in R. injection R as -> ->.
  rewrite calls_app, calls_rounds in P.
  replace (calls (YCall (w_call w m) :: (if b then [YSleep (y_delay c w m)] else []))) with [w_call w m] in P by now destruct b.
  apply app_inj_tail in P. destruct P as (<- & <-). split.
  - apply Forall_forall. intros z Z. apply in_map_iff in Z. destruct Z as (j & <- & J). apply in_seq in J. apply G. lia.
  - intros N. inversion EN; subst; try congruence; auto.
Qed.
Print Assumptions C38_stops.

(** Without deadline, interruption and float overflow: retryable errors are
    retried until the attempts are used up, with one sleep between two calls and
    none after the last; the result is that of the last call. *)
Theorem C38_no_deadline : forall V c (w : world V),
  y_deadline c = None -> (forall k, w_sleep w k = None) -> (y_float c = true -> (y_attempts c <= 1025)%Z) ->
  exists m, retry_run c w =
      (flat_map (fun j => [YCall (w_call w j); YSleep (y_delay c w j)]) (seq 1 (m - 1)) ++ [YCall (w_call w m)],
       Some (w_call w m)) /\ 1 <= m /\
    (forall j, 1 <= j < m -> retryable (y_retry_on c) (w_call w j) = true) /\
    (retryable (y_retry_on c) (w_call w m) = true -> Z.of_nat m = Z.max 1 (y_attempts c)).
Proof.
  intros V c w D S O. destruct (retry_spec c w) as (m & b & y & Hm & R & EN & G). exists m.
  assert (B : (Z.of_nat m <= Z.max 1 (y_attempts c))%Z).
  { destruct (Nat.eq_dec m 1); [lia|]. destruct (G (m - 1)) as (_ & X & _); lia. }
  rewrite R. inversion EN; subst; try congruence.
  - repeat split; auto; [intros j J; apply G; auto|congruence].
  - repeat split; auto; [intros j J; apply G; auto|]. lia.
  - specialize (O H0). lia.
Qed.
Print Assumptions C38_no_deadline.

(** The sleeps: exponential, capped before the jitter is applied. *)
Theorem C38_delay : forall V c (w : world V) k,
  (y_jitter c == 0 -> y_delay c w k == Qmin (y_max c) (y_base c * two (k - 1)))%Q /\
  (0 <= y_jitter c -> 0 <= y_max c -> 0 <= y_base c -> 0 <= w_random w k -> w_random w k <= 1 ->
   Qmin (y_max c) (y_base c * two (k - 1)) <= y_delay c w k /\
   y_delay c w k <= y_max c * (1 + y_jitter c))%Q.
Proof.
  intros V c w k. unfold y_delay. set (d := Qmin (y_max c) (y_base c * two (k - 1))%Q). split.
  - intros J. apply Qeq_bool_iff in J. rewrite J. reflexivity.
  - intros J M B R0 R1.
    assert (T : forall n, (0 <= two n)%Q). { induction n; simpl; [discriminate|]. apply Qmult_le_0_compat; auto; discriminate. }
    assert (D0 : (0 <= d)%Q). { unfold d. apply Q.min_glb; auto. apply Qmult_le_0_compat; auto. }
    assert (D1 : (d <= y_max c)%Q) by apply Q.le_min_l.
    assert (RJ : (0 <= w_random w k * y_jitter c)%Q) by now apply Qmult_le_0_compat.
    assert (RJ1 : (w_random w k * y_jitter c <= y_jitter c)%Q).
    { setoid_replace (y_jitter c) with (1 * y_jitter c)%Q at 2 by ring. apply Qmult_le_compat_r; auto. }
    assert (one : (0 <= 1)%Q) by discriminate.
    destruct (Qeq_bool (y_jitter c) 0).
    + split; [apply Qle_refl|]. apply Qle_trans with (y_max c); auto.
      setoid_replace (y_max c) with (y_max c * 1)%Q at 1 by ring.
      rewrite !(Qmult_comm (y_max c)). apply Qmult_le_compat_r; auto.
      setoid_replace 1%Q with (1 + 0)%Q at 1 by ring. apply Qplus_le_compat; auto. apply Qle_refl.
    + split.
      * setoid_replace d with (d * 1)%Q at 1 by ring. rewrite !(Qmult_comm d). apply Qmult_le_compat_r; auto.
        setoid_replace 1%Q with (1 + 0)%Q at 1 by ring. apply Qplus_le_compat; auto. apply Qle_refl.
      * apply Qle_trans with (y_max c * (1 + w_random w k * y_jitter c))%Q.
        -- apply Qmult_le_compat_r; auto. setoid_replace 0%Q with (0 + 0)%Q by ring. apply Qplus_le_compat; auto.
        -- rewrite !(Qmult_comm (y_max c)). apply Qmult_le_compat_r; auto. apply Qplus_le_compat; auto. apply Qle_refl.
Qed.
Print Assumptions C38_delay.

(** Under a deadline no further call starts once the clock has reached it, and a
    retryable error is then re-raised. *)
Theorem C38_deadline : forall V c (w : world V) l r dl,
  retry_run c w = (l, r) -> y_deadline c = Some dl ->
  (forall j, 1 <= j < length (calls l) -> (w_after w j < dl)%Q) /\
  (forall pre e, calls l = pre ++ [Err e] -> (forall k, w_sleep w k = None) -> (y_float c = true -> (y_attempts c <= 1025)%Z) ->
     r = Some (Err e)).
Proof.
  intros V c w l r dl E D. destruct (retry_spec c w) as (m & b & y & Hm & R & EN & G). rewrite E in R. injection R as -> ->.
  rewrite calls_app, calls_rounds.
  replace (calls (YCall (w_call w m) :: (if b then [YSleep (y_delay c w m)] else []))) with [w_call w m] by now destruct b.
  rewrite app_length, map_length, seq_length. simpl length. split.
  - intros j J. destruct (G j) as (_ & _ & _ & _ & X); [lia|]. apply (X dl D).
  - intros pre e P S O. apply app_inj_tail in P. destruct P as (_ & P). rewrite <- P.
    assert (B : (Z.of_nat m <= Z.max 1 (y_attempts c))%Z).
    { destruct (Nat.eq_dec m 1); [lia|]. destruct (G (m - 1)) as (_ & X & _); lia. }
    inversion EN; subst; auto; try (specialize (S m); congruence). specialize (O H0). lia.
Qed.
Print Assumptions C38_deadline.

Definition ex_world (outs : list (res nat)) : world nat :=
  Build_world (fun k => nth (k - 1) outs (Err (Plain "ValueError" "last"))) (fun _ => (1 # 2)%Q)
    (fun _ => 0%Q) (fun _ => 0%Q) (fun _ => None).
Definition ex_cfg (attempts : Z) (jitter : Q) : rcfg :=
  Build_rcfg attempts (1 # 10)%Q true (3 # 10)%Q jitter (fun e => match e with Plain "KeyError" _ => false | _ => is_exception e end) None.

Example C38_ex :
  let e := Err (Plain "ValueError" "x") in
  let '(l, r) := retry_run (ex_cfg 5 0%Q) (ex_world [e; e; e; Val 7]) in
  calls l = [e; e; e; Val 7] /\ map Qred (sleeps l) = [1#10; 1#5; 3#10]%Q /\ r = Some (Val 7) /\
  snd (retry_run (ex_cfg 5 0%Q) (ex_world [e; Err (Plain "KeyError" "k"); Val 7])) = Some (Err (Plain "KeyError" "k")) /\
  retry_run (ex_cfg 0 0%Q) (ex_world [e; Val 7]) = ([YCall e], Some e).
Proof. repeat split; reflexivity. Qed.

(** The jitter is added after the cap: max_delay is not an upper bound. *)
Theorem C38_max_delay_refuted : exists c (w : world nat) l r d,
  retry_run c w = (l, r) /\ In d (sleeps l) /\ (y_max c < d)%Q /\ (0 <= w_random w 1 < 1)%Q.
Proof.
  set (c := Build_rcfg 2 1%Q true 1%Q (1 # 2)%Q (fun _ => true) None).
  exists c, (ex_world [Err (Plain "E" "x"); Val 7]). do 2 eexists. exists (5 # 4)%Q.
  split; [reflexivity|]. repeat split; try reflexivity; try discriminate. now left.
Qed.
Print Assumptions C38_max_delay_refuted.

(** With a float base_delay the 1025th failure raises OverflowError instead of
    being retried, although attempts remain and the next call would succeed. *)
Theorem C38_overflow_refuted :
  let e := Err (Plain "ValueError" "x") in
  let w := Build_world (fun k => if k <=? 1025 then e else Val 7) (fun _ => 0%Q) (fun _ => 0%Q) (fun _ => 0%Q) (fun _ => None) in
  snd (retry_run (Build_rcfg 3000 (1#10)%Q true 0%Q 0%Q (fun _ => true) None) w) = Some (Err overflow) /\
  snd (retry_run (Build_rcfg 3000 1%Q false 0%Q 0%Q (fun _ => true) None) w) = Some (Val 7).
Proof. split; vm_compute; reflexivity. Qed.
Print Assumptions C38_overflow_refuted.

(** ** C39: CompletionStream.  [s_done]: the awaitables that ended, in order. *)

(** At any moment the items yielded are a prefix of the successes in completion
    order; each index at most once. *)
Theorem C39_order : forall V lim n ops,
  let '(s, outs) := srun (V:=V) lim (sinit lim n) ops in
  (exists more, successes (s_done s) = items outs ++ more) /\
  NoDup (map fst (items outs)) /\ (forall i v, In (i, v) (items outs) -> i < n /\ In (i, Val v) (s_done s)).
Proof.
  intros V lim n ops. pose proof (yields lim n ops) as Y. pose proof (yields_nodup lim n ops) as N.
  destruct (srun lim (sinit lim n) ops) as (s, outs). destruct Y as (a & l' & P & _ & E & _). split; auto.
  rewrite P, successes_app, E, <- app_assoc. eauto.
Qed.
Print Assumptions C39_order.

(** Nothing is withheld: while no awaitable has failed and the caller is not cancelled, __anext__ yields the next
    success that has not been yielded, and blocks only if there is none. *)
Theorem C39_next : forall V lim n ops,
  let '(s, outs) := srun (V:=V) lim (sinit lim n) ops in
  s_cons s = CReading -> any_failure (s_done s) = false -> ~ In SOuter ops -> length (items outs) < n ->
  (forall p, snd (sstep lim s SNext) = SItem p <-> exists more, successes (s_done s) = items outs ++ p :: more) /\
  (snd (sstep lim s SNext) = SBlocked <-> successes (s_done s) = items outs).
Proof.
  intros V lim n ops. pose proof (yields lim n ops) as Y. pose proof (reach_SI (V:=V) lim n ops) as I.
  pose proof (srun_got lim (sinit (V:=V) lim n) ops) as G.
  pose proof (outer_iff_s lim (sinit (V:=V) lim n) ops eq_refl) as O.
  destruct (srun lim (sinit lim n) ops) as (s, outs). destruct Y as (a & l' & P & NF & E & Em). cbn [fst snd] in *. intros R F NO L.
  pose proof (si_len _ _ _ I) as LN. pose proof (si_cancel _ _ _ I) as C. rewrite F in C.
  assert (RN : s_raised s = None).
  { pose proof (si_block _ _ _ I) as BK. destruct (s_raised s); auto. rewrite BK in R; discriminate. }
  assert (ON : s_outer s = false) by (destruct (s_outer s); auto; exfalso; apply NO, O; reflexivity).
  rewrite RN, ON in C. simpl in C. rewrite (Em C), app_nil_r in P. subst a. rewrite E.
  destruct s as [tasks free buf got errs canc who begun done outer raised]. cbn [s_cons s_done s_buf s_tasks s_cancel s_got] in *.
  subst who canc. simpl in G. subst got. simpl.
  destruct (Nat.leb_spec (length tasks) (length (items outs))); [lia|].
  destruct buf as [|q b]; simpl.
  - rewrite app_nil_r. split; [|tauto]. intros p. split; [discriminate|]. intros (m & X).
    apply (f_equal (@length _)) in X. rewrite app_length in X. simpl in X. lia.
  - split.
    + intros p. split.
      * intros [= <-]. eauto.
      * intros (m & X). apply app_inv_head in X. congruence.
    + split; [discriminate|]. intros X. apply (f_equal (@length _)) in X. rewrite app_length in X. simpl in X. lia.
Qed.
Print Assumptions C39_next.

(** Iteration ends by itself exactly when every awaitable's result was yielded. *)
Theorem C39_stops : forall V lim n ops,
  let '(s, outs) := srun (V:=V) lim (sinit lim n) ops in
  s_cons s = CReading ->
  (snd (sstep lim s SNext) = SStop <-> Permutation (map fst (items outs)) (seq 0 n)) /\
  (snd (sstep lim s SNext) = SStop -> items outs = successes (s_done s)).
Proof.
  intros V lim n ops. pose proof (stops (V:=V) lim n ops) as S.
  destruct (srun lim (sinit lim n) ops) as (s, outs). intros R. destruct (S R) as (A & B). split; auto.
  intros T. apply (B T).
Qed.
Print Assumptions C39_stops.

(** The limit, each awaitable awaited at most once, and no lost slots. *)
Theorem C39_limit : forall V limit lim n ops,
  stream_limit limit = Ret lim ->
  let s := fst (srun (V:=V) lim (sinit lim n) ops) in
  (forall l, limit = Some l -> l <> 0%Z -> (Z.of_nat (s_active s) <= l)%Z) /\ NoDup (s_begun s) /\
  (snd (sstep lim s SNext) = SBlocked -> s_active s = 0 -> exists i, sstep lim s (SStart i) <> (s, SNone)).
Proof.
  intros V limit lim n ops E s. split; [|split].
  - intros l -> Hl. unfold stream_limit in E. destruct (Z.eqb_spec l 0); [contradiction|].
    destruct (Z.ltb_spec l 0); [discriminate|]. injection E as <-.
    pose proof (stream_bounded (V:=V) (Some (Z.to_nat l)) n ops (Z.to_nat l) eq_refl) as B. fold s in B. lia.
  - apply stream_once.
  - apply stream_progress. unfold stream_limit in E. destruct limit as [l|]; [|injection E as <-; discriminate].
    destruct (Z.eqb_spec l 0); [injection E as <-; discriminate|].
    destruct (Z.ltb_spec l 0); [discriminate|]. injection E as <-. intros [= X]. lia.
Qed.
Print Assumptions C39_limit.

(** A negative limit is refused; None and 0 are no limit. *)
Theorem C39_refused : forall limit,
  (stream_limit limit = Raise ValueError <-> exists l, limit = Some l /\ (l < 0)%Z) /\
  (limit = None \/ limit = Some 0%Z -> stream_limit limit = Ret None) /\
  (forall l, limit = Some (Z.of_nat (S l)) -> stream_limit limit = Ret (Some (S l))).
Proof.
  intros limit. split; [|split].
  - unfold stream_limit. destruct limit as [l|]; [|split; [discriminate|intros (l & E & _); discriminate]].
    destruct (Z.eqb_spec l 0); [split; [discriminate|intros (l' & [= <-] & ?); lia]|].
    destruct (Z.ltb_spec l 0); [split; [eauto|reflexivity]|split; [discriminate|intros (l' & [= <-] & ?); lia]].
  - intros [->| ->]; reflexivity.
  - intros l ->. unfold stream_limit. destruct (Z.eqb_spec (Z.of_nat (S l)) 0); [lia|].
    destruct (Z.ltb_spec (Z.of_nat (S l)) 0); [lia|]. now rewrite Nat2Z.id.
Qed.
Print Assumptions C39_refused.

(** Leaving the block: everything started has ended; the errors of the awaitables
    and of the block ([s_raised]) are raised as one group, in the order in which
    they occurred; a cancellation of the caller is raised if there are none. *)
Theorem C39_leave : forall V lim n ops,
  let s := fst (srun (V:=V) lim (sinit lim n) ops) in
  (sfinal s = XLeave -> failures (s_done s) = [] /\ s_raised s = None /\ ~ In SOuter ops) /\
  (forall e, sfinal s = XRaise e ->
     (exists a b, failures (s_done s) = a ++ b /\
        let l := a ++ (match s_raised s with Some x => [x] | None => [] end) ++ b in
        l <> [] /\ e = Group 0 group_msg l) \/
     (failures (s_done s) = [] /\ s_raised s = None /\ In SOuter ops /\ e = Cancelled "")) /\
  (sfinal s <> XPending -> forall i, In i (s_begun s) -> In i (map fst (s_done s))) /\
  (sfinal s <> XPending -> any_failure (s_done s) = false -> s_raised s = None -> ~ In SOuter ops ->
   Permutation (map fst (s_done s)) (seq 0 n)).
Proof.
  intros V lim n ops s. destruct (leaving (V:=V) lim n ops) as (A & B & C & D). fold s in A, B, C, D.
  pose proof (outer_iff_s lim (sinit (V:=V) lim n) ops eq_refl) as O. fold s in O. repeat split; auto.
  - now apply A.
  - now apply A.
  - rewrite <- O. destruct (A H) as (_ & _ & ->). discriminate.
  - intros e E. destruct (B e E) as [X|(X & Y & Z & W)]; [left; exact X|right]. rewrite <- O. auto.
  - intros P F R N. apply D; auto. destruct (s_outer s); auto. exfalso. apply N, O. reflexivity.
Qed.
Print Assumptions C39_leave.

(** If the block raises, the awaitables still running are cancelled, and the
    block's error stands in the group after the failures it came after. *)
Theorem C39_block_raises : forall V lim n ops1 ops2 e,
  let s1 := fst (srun (V:=V) lim (sinit lim n) ops1) in
  let s2 := fst (srun lim (sinit lim n) (ops1 ++ SFail e :: ops2)) in
  s_cons s1 = CReading -> is_cancelled e = false ->
  s_cancel (fst (sstep lim s1 (SFail e))) = true /\
  (sfinal s2 <> XPending -> exists b, failures (s_done s2) = failures (s_done s1) ++ b /\
     sfinal s2 = XRaise (Group 0 group_msg (failures (s_done s1) ++ e :: b))).
Proof. intros V lim n ops1 ops2 e. apply block_raises. Qed.
Print Assumptions C39_block_raises.

(** Waiting after the block never gets stuck: something can go on without another
    cancellation. *)
Theorem C39_progress : forall V limit lim n ops,
  stream_limit limit = Ret lim ->
  let s := fst (srun (V:=V) lim (sinit lim n) ops) in
  s_cons s = CLeft -> sfinal s = XPending -> exists a, a <> SOuter /\ fst (sstep lim s a) <> s.
Proof.
  intros V limit lim n ops E. apply leave_progress. unfold stream_limit in E.
  destruct limit as [l|]; [|injection E as <-; discriminate].
  destruct (Z.eqb_spec l 0); [injection E as <-; discriminate|].
  destruct (Z.ltb_spec l 0); [discriminate|]. injection E as <-. intros [= X]. lia.
Qed.
Print Assumptions C39_progress.

Example C39_ex_block :
  let x := Plain "KeyError" "k" in let y := Plain "OSError" "o" in
  let go := fun ops => fst (srun (V:=nat) (Some 1) (sinit (Some 1) 3) ops) in
  sfinal (go [SStart 0; SEnd 0 (Val 10); SNext; SStart 1; SFail x; SEnd 1 (Err y); SAbort 2]) =
    XRaise (Group 0 group_msg [x; y]) /\
  sfinal (go [SStart 0; SEnd 0 (Val 10); SNext; SStart 1; SFail x; SEnd 1 (Err (Cancelled "")); SAbort 2]) =
    XRaise (Group 0 group_msg [x]) /\
  sfinal (go [SStart 0; SOuter; SEnd 0 (Err (Cancelled "")); SNext; SAbort 1]) = XPending /\
  sfinal (go [SStart 0; SOuter; SEnd 0 (Err (Cancelled "")); SNext; SAbort 1; SAbort 2]) = XRaise (Cancelled "") /\
  sfinal (go [SStart 0; SOuter; SEnd 0 (Err y); SNext; SAbort 1; SAbort 2]) = XRaise (Group 0 group_msg [y]).
Proof. repeat split; reflexivity. Qed.

Example C39_ex :
  let ops := [SStart 0; SStart 2; SStart 1; SEnd 2 (Val 12); SStart 1; SNext; SNext; SEnd 1 (Val 11); SEnd 0 (Val 10);
              SNext; SNext; SNext; SLeave] in
  let '(s, outs) := srun (Some 2) (sinit (Some 2) 3) ops in
  items outs = [(2, 12); (1, 11); (0, 10)] /\ nth 11 outs SNone = SStop /\ nth 6 outs SNone = SBlocked /\
  s_begun s = [0; 2; 1] /\ sfinal s = XLeave.
Proof. repeat split; reflexivity. Qed.

(** Breaking out of the loop does not cancel the remaining awaitables: they are
    still started and run to their end. *)
Theorem C39_break_cancels_refuted : exists ops1 ops2,
  let s1 := fst (srun (Some 1) (sinit (V:=nat) (Some 1) 2) ops1) in
  let s2 := fst (srun (Some 1) s1 ops2) in
  s_cons s1 = CLeft /\ ~ In 1 (s_begun s1) /\ In (1, Val 11) (s_done s2) /\ s_cancel s2 = false /\ sfinal s2 = XLeave /\
  sfinal s1 = XPending.
Proof.
  exists [SStart 0; SEnd 0 (Val 10); SNext; SLeave], [SStart 1; SEnd 1 (Val 11)].
  repeat split; simpl; auto. intros [H|[]]; discriminate.
Qed.
Print Assumptions C39_break_cancels_refuted.

(** A failure hides results that had already been produced but not been read. *)
Theorem C39_yield_all_completed_refuted : exists ops,
  let '(s, outs) := srun None (sinit (V:=nat) None 2) ops in
  successes (s_done s) = [(0, 10)] /\ items outs = [] /\ In SCancelled outs /\ s_quiet s = true.
Proof.
  exists [SStart 0; SStart 1; SEnd 0 (Val 10); SEnd 1 (Err (Plain "E" "x")); SNext].
  repeat split; simpl; auto 10.
Qed.
Print Assumptions C39_yield_all_completed_refuted.

(** ** C41: bcall; [run] is alcall on one batch, [k] the number of batches asked for *)
Theorem C41_batches : forall A B (run : list A -> outcome B) l size k handled ys e,
  (0 < size)%Z -> bcall run l size k = (handled, ys, e) ->
  exists rest, cut (Z.to_nat size) l (handled ++ rest) /\
    (e = None -> length handled = length ys /\ (length handled < k -> rest = [])) /\
    (forall j y, nth_error ys j = Some y -> exists b, nth_error handled j = Some b /\ run b = Ret y) /\
    (forall x, e = Some x -> exists pre b, handled = pre ++ [b] /\ run b = Raise x /\ length ys = length pre) /\
    length handled <= k.
Proof.
  intros A B run l size k handled ys e P H. unfold bcall, range0 in H.
  destruct (Z.eqb_spec size 0); [lia|]. destruct (Z.ltb_spec size 0); [lia|].
  set (st := Z.to_nat size) in *. set (bs := map (batch_at l st) _) in H.
  assert (C : cut st l bs). { apply chunks_cut; auto; lia. }
  clearbody bs. enough (X : exists rest, bs = handled ++ rest /\
    (e = None -> length handled = length ys /\ (length handled < k -> rest = [])) /\
    (forall j y, nth_error ys j = Some y -> exists b, nth_error handled j = Some b /\ run b = Ret y) /\
    (forall x, e = Some x -> exists pre b, handled = pre ++ [b] /\ run b = Raise x /\ length ys = length pre) /\
    length handled <= k).
  { destruct X as (rest & -> & X). eauto. }
  clear C. revert k handled ys e H. induction bs as [|b bs IH]; intros [|k] handled ys e H; simpl in H.
  - injection H as <- <- <-. exists []. split; [auto|]. split; [simpl; auto|]. split; [intros [|j]; discriminate|].
    split; [discriminate|simpl; lia].
  - injection H as <- <- <-. exists []. split; [auto|]. split; [simpl; auto|]. split; [intros [|j]; discriminate|].
    split; [discriminate|simpl; lia].
  - injection H as <- <- <-. exists (b :: bs). split; [auto|]. split; [simpl; split; auto; lia|]. split; [intros [|j]; discriminate|].
    split; [discriminate|simpl; lia].
  - destruct (run b) as [y|x] eqn:R.
    + destruct (yield_all run bs k) as ((h, ys'), e') eqn:Y. injection H as <- <- <-.
      destruct (IH k h ys' e' Y) as (rest & -> & I1 & I2 & I3 & I4). exists rest. split; [auto|]. split; [|split; [|split]].
      * intros N. destruct (I1 N) as (J1 & J2). simpl. split; [lia|]. intros L. apply J2. lia.
      * intros [|j] z E; simpl in *; [injection E as <-; eauto|eauto].
      * intros x E. destruct (I3 x E) as (pre & b' & -> & J1 & J2). exists (b :: pre), b'. simpl. repeat split; auto.
      * simpl. lia.
    + injection H as <- <- <-. exists bs. split; [auto|]. split; [discriminate|]. split; [intros [|j]; discriminate|].
      split; [|simpl; lia]. intros x' [= <-]. exists [], b. auto.
Qed.
Print Assumptions C41_batches.

(** Consumed to the end without an error: the batches are the whole input. *)
Theorem C41_all : forall A B (run : list A -> outcome B) l size k handled ys,
  (0 < size)%Z -> bcall run l size k = (handled, ys, None) -> length l < k ->
  cut (Z.to_nat size) l handled /\ concat handled = l /\ length ys = length handled.
Proof.
  intros A B run l size k handled ys P H L.
  destruct (C41_batches _ _ run l size k handled ys None P H) as (rest & C & N & _).
  destruct (N eq_refl) as (N1 & N2).
  assert (X : length (handled ++ rest) <= length l).
  { destruct C as (<- & NE & _). clear - NE. induction (handled ++ rest) as [|b bs IH]; simpl; auto.
    rewrite app_length. assert (b <> []) by (intros ->; apply NE; simpl; auto). destruct b; [congruence|].
    assert (length bs <= length (concat bs)) by (apply IH; intros I; apply NE; simpl; auto). simpl. lia. }
  rewrite app_length in X. rewrite N2, app_nil_r in C by lia. split; auto. split; auto. apply C.
Qed.
Print Assumptions C41_all.

Theorem C41_zero : forall A B (run : list A -> outcome B) l k,
  bcall run l 0 (S k) = ([], [], Some ValueError).
Proof. reflexivity. Qed.
Print Assumptions C41_zero.

Example C41_ex :
  let run b := if existsb (Nat.eqb 5) b then Raise KeyError else Ret (map (fun x => 10 * x) b) in
  bcall run [1; 2; 3; 4; 6] 2 9 = ([[1; 2]; [3; 4]; [6]], [[10; 20]; [30; 40]; [60]], None) /\
  bcall run [1; 2; 5; 4; 6] 2 9 = ([[1; 2]; [5; 4]], [[10; 20]], Some KeyError) /\
  bcall run [1; 2; 3] 2 1 = ([[1; 2]], [[10; 20]], None).
Proof. repeat split; reflexivity. Qed.

(** A negative batch size is accepted and drops the whole input. *)
Theorem C41_negative_refuted : exists l size,
  bcall (fun b : list nat => Ret b) l size 9 = ([], [], None) /\ l <> [] /\ (size < 0)%Z.
Proof. exists [1; 2; 3], (-2)%Z. repeat split; discriminate. Qed.
Print Assumptions C41_negative_refuted.

(** ** C77: race.  [r_log]: the awaitables that ended, in order. *)
Theorem C77_first : forall V n (s0 : rst V) ops,
  rinit n = Ret s0 -> ~ In ROuter ops ->
  let s := rrun s0 ops in
  rfinal s <> RPending ->
  exists i x rest, r_log s = (i, x) :: rest /\
    rfinal s = match x with Val v => RReturn v | Err e => RRaise e end /\
    Permutation (map fst (r_log s)) (seq 0 n).
Proof.
  intros V n s0 ops H N s P. destruct (race_first n s0 ops H P) as (A & _ & B).
  destruct (B N) as (i & x & rest & B1 & B2). exists i, x, rest. auto.
Qed.
Print Assumptions C77_first.

(** If the caller is cancelled before race has ended, the cancellation is raised,
    even if an awaitable had already ended (or failed), again only after all of them. *)
Theorem C77_outer : forall V n (s0 : rst V) ops,
  rinit n = Ret s0 -> In ROuter ops ->
  let s := rrun s0 ops in
  rfinal s <> RPending ->
  rfinal s = RRaise (Cancelled "") /\ Permutation (map fst (r_log s)) (seq 0 n).
Proof. intros V n s0 ops H N s P. destruct (race_first n s0 ops H P) as (A & B & _). auto. Qed.
Print Assumptions C77_outer.

(** [ROuter] is the only step that does not come from race and its awaitables. *)
Theorem C77_progress : forall V n (s0 : rst V) ops,
  rinit n = Ret s0 -> rfinal (rrun s0 ops) = RPending -> exists a, a <> ROuter /\ rstep (rrun s0 ops) a <> rrun s0 ops.
Proof. intros V n s0 ops. apply race_progress. Qed.
Print Assumptions C77_progress.

Theorem C77_empty : forall V n, rinit (V:=V) n = Raise ValueError <-> n = 0.
Proof. intros V n. unfold rinit. destruct n; simpl; split; auto; discriminate. Qed.
Print Assumptions C77_empty.

Example C77_ex :
  match rinit 3 with
  | Ret s0 =>
      let s := rrun s0 [RAwaited 2 (Val 12); RAwaited 0 (Err (Plain "E" "x")); RReceive; RCancelled 0;
                        RAwaited 1 (Err (Cancelled ""))] in
      rfinal s = RReturn 12 /\
      rfinal (rrun s0 [RAwaited 0 (Err (Plain "E" "x")); RReceive; RAwaited 2 (Val 12)]) = RPending /\
      rfinal (rrun s0 [RAwaited 0 (Val 10); ROuter; RReceive; RAwaited 1 (Err (Cancelled "")); RAwaited 2 (Val 12)]) = RPending /\
      rfinal (rrun s0 [RAwaited 0 (Val 10); ROuter; RReceive; RAwaited 1 (Err (Cancelled "")); RAwaited 2 (Val 12); RCancelled 0]) =
        RRaise (Cancelled "") /\
      rfinal (rrun s0 [RAwaited 0 (Err (Plain "E" "x")); RReceive; RAwaited 2 (Val 12); RAwaited 1 (Val 11)]) = RRaise (Plain "E" "x")
  | Raise _ => False
  end.
Proof. repeat split; reflexivity. Qed.
