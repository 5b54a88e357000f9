(** Proofs about ModelGroup. *)
From Coq Require Import List Bool Arith ZArith QArith Lia Permutation.
From Verif Require Import PyBase ModelHeap ModelExc SpecExc ProofsExc ModelGroup SpecGroup ProofsPQueue.
Import ListNotations.
Local Close Scope Q_scope.
Local Open Scope nat_scope.

Section P.
Context {V : Type}.
Variable c : cfg V.

Definition hold (p : tpc) : nat := match p with TRun _ _ | TSleep _ _ => 1 | _ => 0 end.

(** The transitions of one task. *)
Inductive tr (i : nat) (cancel : bool) : tpc -> tpc -> option (res V) -> list (lev V) -> option pyexc -> Prop :=
| tr_spawn : tr i cancel TNew TWait None [] None
| tr_start : tr i cancel TWait (TRun 0 (c_delay c)) None [LBegin i] None
| tr_val k d v : tr i cancel (TRun k d) TDone (Some (Val v)) [LEnd i (Val v)] None
| tr_again k d e : is_exception e = true -> (Z.of_nat (S k) <= c_retry c)%Z -> Qeq_bool d 0 = true ->
    tr i cancel (TRun k d) (TRun (S k) d) None [LEnd i (Err e); LBegin i] None
| tr_nap k d e : is_exception e = true -> (Z.of_nat (S k) <= c_retry c)%Z -> Qeq_bool d 0 = false ->
    tr i cancel (TRun k d) (TSleep (S k) d) None [LEnd i (Err e); LSleep i d] None
| tr_default k d e v : is_exception e = true -> (c_retry c < Z.of_nat (S k))%Z -> c_default c = Some v ->
    tr i cancel (TRun k d) TDone (Some (Val v)) [LEnd i (Err e)] None
| tr_fail k d e : is_exception e = true -> (c_retry c < Z.of_nat (S k))%Z -> c_default c = None ->
    tr i cancel (TRun k d) TDone (Some (Err e)) [LEnd i (Err e)] (if c_rexc c then None else Some e)
| tr_fatal k d e : is_exception e = false ->
    tr i cancel (TRun k d) TDone (Some (Err e)) [LEnd i (Err e)] (if c_rexc c then None else Some e)
| tr_wake k d : tr i cancel (TSleep k d) (TRun k (d * c_backoff c)%Q) None [LBegin i] None
| tr_abort_sleep k d m : cancel = true ->
    tr i cancel (TSleep k d) TDone (Some (Err (Cancelled m))) [] (if c_rexc c then None else Some (Cancelled m))
| tr_abort_in m : cancel = true -> c_inside c = true ->
    tr i cancel TWait TDone (Some (Err (Cancelled m))) [] (if c_rexc c then None else Some (Cancelled m))
| tr_abort_out m : cancel = true -> c_inside c = false ->
    tr i cancel TWait TDone None [] (Some (Cancelled m)).

Definition raise_errs (e : option pyexc) (errs : list pyexc) : list pyexc :=
  match e with Some e => if is_cancelled e then errs else errs ++ [e] | None => errs end.

Definition moved (s s' : gst V) : Prop := exists i p p' o evs e,
  nth_error (g_tasks s) i = Some p /\ tr i (g_cancel s) p p' o evs e /\
  (p = TNew -> g_stop s = false) /\
  g_tasks s' = upd i p' (g_tasks s) /\
  g_out s' = match o with Some x => upd i (Some x) (g_out s) | None => g_out s end /\
  g_log s' = g_log s ++ evs /\
  g_errs s' = raise_errs e (g_errs s) /\
  g_cancel s' = (match e with Some _ => true | None => g_cancel s end) /\
  g_outer s' = g_outer s /\ g_stop s' = g_stop s /\
  match c_limit c with
  | Some _ => g_free s' + hold p' = g_free s + hold p
  | None => True
  end.

Lemma first_new_Some l i : first_new l = Some i -> nth_error l i = Some TNew.
Proof.
  revert i; induction l as [|p l IH]; intros i H; simpl in H; [discriminate|].
  destruct p; try (injection H as <-; reflexivity);
    destruct (first_new l) eqn:E; simpl in H; try discriminate; injection H as <-; simpl; apply IH; auto.
Qed.
Lemma first_new_None l : first_new l = None -> ~ In TNew l.
Proof.
  induction l as [|p l IH]; simpl; intros H; auto.
  destruct p; try discriminate; destruct (first_new l); try discriminate; intros [E|E]; try discriminate; apply IH; auto.
Qed.

Lemma is_exception_cancelled e : is_cancelled e || negb (is_exception e) = negb (is_exception e).
Proof. destruct e; simpl; auto. Qed.

Lemma gstep_cases s a :
  gstep c s a = s \/ moved s (gstep c s a) \/
  (a = GOuter /\ gstep c s a = Build_gst (g_tasks s) (g_out s) (g_free s) (g_errs s) true true (g_stop s) (g_log s)) \/
  (a = GStop /\ g_cancel s = true /\ c_throttle c = true /\
   gstep c s a = Build_gst (g_tasks s) (g_out s) (g_free s) (g_errs s) (g_cancel s) (g_outer s) true (g_log s)).
Proof.
  destruct a as [|i|i r|i|i m| |]; cbn [gstep].
  - destruct (g_stop s) eqn:ST; auto. destruct (first_new (g_tasks s)) as [i|] eqn:F; auto. right; left.
    exists i, TNew, TWait, None, [], None. apply first_new_Some in F. simpl.
    rewrite app_nil_r. repeat split; auto. constructor. destruct (c_limit c); auto.
  - destruct (nth_error (g_tasks s) i) as [[| |k d|k d|]|] eqn:N; auto.
    destruct (can_start c s) eqn:CS; auto. right; left.
    exists i, TWait, (TRun 0 (c_delay c)), None, [LBegin i], None.
    unfold can_start, take in *. destruct (c_limit c); simpl; repeat split; auto; try constructor; try discriminate.
    apply Nat.ltb_lt in CS. lia.
  - destruct (nth_error (g_tasks s) i) as [[| |k d|k d|]|] eqn:N; auto. right; left.
    unfold after_call. destruct r as [v|e].
    + exists i, (TRun k d), TDone, (Some (Val v)), [LEnd i (Val v)], None.
      unfold release. destruct (c_limit c); simpl; repeat split; auto; try constructor; try discriminate; lia.
    + rewrite is_exception_cancelled. destruct (is_exception e) eqn:X; simpl.
      * destruct (Z.leb_spec (Z.pos (Pos.of_succ_nat k)) (c_retry c)) as [L|L].
        -- destruct (Qeq_bool d 0) eqn:D.
           ++ exists i, (TRun k d), (TRun (S k) d), None, [LEnd i (Err e); LBegin i], None. simpl.
              rewrite <- app_assoc. repeat split; auto; try discriminate.
              ** apply tr_again; auto.
              ** destruct (c_limit c); auto.
           ++ exists i, (TRun k d), (TSleep (S k) d), None, [LEnd i (Err e); LSleep i d], None. simpl.
              rewrite <- app_assoc. repeat split; auto; try discriminate.
              ** apply tr_nap; auto.
              ** destruct (c_limit c); auto.
        -- destruct (c_default c) as [v|] eqn:DF.
           ++ exists i, (TRun k d), TDone, (Some (Val v)), [LEnd i (Err e)], None.
              unfold release. destruct (c_limit c) eqn:CL; simpl; repeat split; auto; try discriminate; try lia;
                apply tr_default; auto.
           ++ exists i, (TRun k d), TDone, (Some (Err e)), [LEnd i (Err e)], (if c_rexc c then None else Some e).
              unfold record_exc, release.
              split; [auto|]. split; [apply tr_fail; auto|]. split; [discriminate|].
              destruct (c_limit c) eqn:CL; destruct (c_rexc c); simpl; repeat split; auto; lia.
      * exists i, (TRun k d), TDone, (Some (Err e)), [LEnd i (Err e)], (if c_rexc c then None else Some e).
        unfold record_exc, release.
        split; [auto|]. split; [apply tr_fatal; auto|]. split; [discriminate|].
        destruct (c_limit c) eqn:CL; destruct (c_rexc c); simpl; repeat split; auto; lia.
  - destruct (nth_error (g_tasks s) i) as [[| |k d|k d|]|] eqn:N; auto. right; left.
    exists i, (TSleep k d), (TRun k (d * c_backoff c)%Q), None, [LBegin i], None. simpl.
    repeat split; auto; try discriminate. constructor. destruct (c_limit c); auto.
  - destruct (g_cancel s) eqn:C; auto.
    destruct (nth_error (g_tasks s) i) as [[| |k d|k d|]|] eqn:N; auto.
    + destruct (c_limit c) eqn:CL; auto. right; left. destruct (c_inside c) eqn:CI.
      * exists i, TWait, TDone, (Some (Err (Cancelled m))), [], (if c_rexc c then None else Some (Cancelled m)).
        rewrite C, app_nil_r, CL.
        split; [auto|]. split; [apply tr_abort_in; auto|]. split; [discriminate|].
        unfold record_exc. destruct (c_rexc c); simpl; repeat split; auto.
      * exists i, TWait, TDone, None, [], (Some (Cancelled m)).
        rewrite C, app_nil_r, CL.
        split; [auto|]. split; [apply tr_abort_out; auto|]. split; [discriminate|]. simpl. repeat split; auto.
    + right; left.
      exists i, (TSleep k d), TDone, (Some (Err (Cancelled m))), [], (if c_rexc c then None else Some (Cancelled m)).
      rewrite C, app_nil_r.
      split; [auto|]. split; [apply tr_abort_sleep; auto|]. split; [discriminate|].
      unfold record_exc, release. destruct (c_limit c), (c_rexc c); simpl; repeat split; auto; lia.
  - destruct (g_cancel s) eqn:C, (c_throttle c) eqn:T; simpl; auto.
    destruct (first_new (g_tasks s)); auto 10.
  - auto.
Qed.

(** ** Logs *)
Definition about (i : nat) (e : lev V) : Prop :=
  match e with LBegin j => j = i | LEnd j _ => j = i | LSleep j _ => j = i end.

Lemma ends_app i a b : ends i (a ++ b) = ends i a ++ ends (V:=V) i b.
Proof. apply flat_map_app. Qed.
Lemma naps_app i a b : naps i (a ++ b) = naps i a ++ naps (V:=V) i b.
Proof. apply flat_map_app. Qed.
Lemma begins_app i a b : begins i (a ++ b) = begins i a + begins (V:=V) i b.
Proof. unfold begins. now rewrite filter_app, app_length. Qed.

Lemma about_other i j evs : i <> j -> Forall (about i) evs ->
  ends j evs = [] /\ naps j evs = [] /\ begins j evs = 0.
Proof.
  intros N F. induction F as [|e evs A F (E1 & E2 & E3)]; [repeat split|].
  assert (M : (i =? j) = false) by (apply Nat.eqb_neq; auto).
  destruct e; simpl in A; subst; simpl; rewrite ?M; repeat split; auto; unfold begins in *; simpl; rewrite ?M; auto.
Qed.

Lemma tr_about i b p p' o evs e : tr i b p p' o evs e -> Forall (about i) evs.
Proof. intros T. destruct T; repeat constructor. Qed.

(** ** Invariant of one task *)
Definition tries (k : nat) (l : list (res V)) : Prop :=
  length l = k /\ Forall (fun r => failed r = true) l /\ (Z.of_nat k <= Z.max 0 (c_retry c))%Z.

Definition naps_ok (m : nat) (l : list Q) : Prop := Forall2 Qeq l (pauses (c_delay c) (c_backoff c) m).

Definition TI (cancel : bool) (log : list (lev V)) (i : nat) (p : tpc) (o : option (res V)) : Prop :=
  match p with
  | TNew | TWait => ends i log = [] /\ begins i log = 0 /\ naps i log = [] /\ o = None
  | TRun k d => tries k (ends i log) /\ begins i log = S k /\ naps_ok k (naps i log) /\ o = None /\
      (d == c_delay c * qpow (c_backoff c) k)%Q
  | TSleep k d => tries k (ends i log) /\ begins i log = k /\ naps_ok k (naps i log) /\ o = None /\
      (d * c_backoff c == c_delay c * qpow (c_backoff c) k)%Q
  | TDone => begins i log = length (ends i log) /\
      ((exists x, o = Some x /\ settles (c_retry c) (c_default c) (ends i log) x /\
          naps_ok (pred (length (ends i log))) (naps i log)) \/
       (cancel = true /\ tries (length (ends i log)) (ends i log) /\
        naps_ok (length (ends i log)) (naps i log) /\
        ((o = None /\ ends i log = [] /\ c_inside c = false) \/ exists m, o = Some (Err (Cancelled m)))))
  end.

Lemma TI_none cancel log i p o : TI cancel log i p o -> p <> TDone -> o = None.
Proof. destruct p; simpl; intros H N; try (decompose [and] H; assumption). congruence. Qed.
Lemma tr_live i cancel p p' o evs e : tr i cancel p p' o evs e -> p <> TDone.
Proof. destruct 1; discriminate. Qed.

Lemma pauses_S d b m : pauses d b (S m) =
  pauses d b m ++ (if Qeq_bool (d * qpow b m) 0 then [] else [(d * qpow b m)%Q]).
Proof.
  unfold pauses. rewrite seq_S, map_app, filter_app. simpl. destruct (Qeq_bool _ 0); auto.
Qed.

Lemma Qeq_bool_compat x y : (x == y)%Q -> Qeq_bool x 0 = Qeq_bool y 0.
Proof.
  intros E. destruct (Qeq_bool x 0) eqn:X, (Qeq_bool y 0) eqn:Y; auto.
  - apply Qeq_bool_iff in X. apply Qeq_bool_neq in Y. exfalso. apply Y. rewrite <- E; auto.
  - apply Qeq_bool_iff in Y. apply Qeq_bool_neq in X. exfalso. apply X. rewrite E; auto.
Qed.

Lemma tries_snoc k l e : tries k l -> is_exception e = true -> (Z.of_nat (S k) <= c_retry c)%Z ->
  tries (S k) (l ++ [Err e]).
Proof.
  intros (A & B & C) X L. repeat split.
  - rewrite app_length; simpl; lia.
  - apply Forall_app; split; auto.
  - lia.
Qed.

Lemma tr_TI cancel cancel' log i p p' o o' evs e :
  tr i cancel p p' o evs e -> TI cancel log i p o' -> (cancel = true -> cancel' = true) ->
  TI cancel' (log ++ evs) i p' (match o with Some x => Some x | None => o' end).
Proof.
  intros T H M. destruct T; simpl in *.
  - rewrite app_nil_r. exact H.
  - destruct H as (A & B & C & D). rewrite ends_app, naps_app, begins_app, A, B, C. simpl.
    unfold begins; simpl. rewrite Nat.eqb_refl. simpl. repeat split; auto; try constructor; try lia.
    unfold Qeq; simpl; lia.
  - destruct H as (A & B & C & D & E). rewrite ends_app, naps_app, begins_app. simpl. rewrite Nat.eqb_refl.
    unfold begins at 2; simpl. destruct A as (A1 & A2 & A3). split.
    + rewrite app_length, A1; simpl; lia.
    + left. exists (Val v). split; auto. split.
      * exists (ends i log), (Val v). rewrite A1. repeat split; auto.
      * rewrite app_length, app_nil_r. simpl. rewrite Nat.add_1_r. simpl. rewrite A1. auto.
  - destruct H as (A & B & C & D & E). rewrite ends_app, naps_app, begins_app. simpl. rewrite Nat.eqb_refl.
    unfold begins at 2; simpl. rewrite Nat.eqb_refl. simpl. split; [apply tries_snoc; auto|].
    split; [lia|]. split; [|split; auto].
    + rewrite app_nil_r. unfold naps_ok. rewrite pauses_S.
      rewrite <- (Qeq_bool_compat _ _ E), H2, app_nil_r. exact C.
    + apply Qeq_bool_iff in H2. rewrite H2 in *. simpl.
      rewrite (Qmult_comm (c_backoff c)), Qmult_assoc, <- E. now rewrite Qmult_0_l.
  - destruct H as (A & B & C & D & E). rewrite ends_app, naps_app, begins_app. simpl. rewrite Nat.eqb_refl.
    unfold begins at 2; simpl. split; [apply tries_snoc; auto|].
    split; [lia|]. split; [|split; auto].
    + unfold naps_ok. rewrite pauses_S. rewrite <- (Qeq_bool_compat _ _ E), H2.
      apply Forall2_app; auto.
    + simpl. rewrite E. ring.
  - destruct H as (A & B & C & D & E). rewrite ends_app, naps_app, begins_app. simpl. rewrite Nat.eqb_refl.
    unfold begins at 2; simpl. destruct A as (A1 & A2 & A3). split.
    + rewrite app_length, A1; simpl; lia.
    + left. exists (Val v). split; auto. split.
      * exists (ends i log), (Err e). rewrite A1, H0, H2. repeat split; auto. lia.
      * rewrite app_length, app_nil_r. simpl. rewrite Nat.add_1_r. simpl. rewrite A1. auto.
  - destruct H as (A & B & C & D & E). rewrite ends_app, naps_app, begins_app. simpl. rewrite Nat.eqb_refl.
    unfold begins at 2; simpl. destruct A as (A1 & A2 & A3). split.
    + rewrite app_length, A1; simpl; lia.
    + left. exists (Err e). split; auto. split.
      * exists (ends i log), (Err e). rewrite A1, H0, H2. repeat split; auto. lia.
      * rewrite app_length, app_nil_r. simpl. rewrite Nat.add_1_r. simpl. rewrite A1. auto.
  - destruct H as (A & B & C & D & E). rewrite ends_app, naps_app, begins_app. simpl. rewrite Nat.eqb_refl.
    unfold begins at 2; simpl. destruct A as (A1 & A2 & A3). split.
    + rewrite app_length, A1; simpl; lia.
    + left. exists (Err e). split; auto. split.
      * exists (ends i log), (Err e). rewrite A1, H0. repeat split; auto.
      * rewrite app_length, app_nil_r. simpl. rewrite Nat.add_1_r. simpl. rewrite A1. auto.
  - destruct H as (A & B & C & D & E). rewrite ends_app, naps_app, begins_app. simpl.
    unfold begins at 2; simpl. rewrite Nat.eqb_refl, !app_nil_r. simpl. repeat split; auto; try apply A. lia.
  - destruct H as (A & B & C & D & E). rewrite app_nil_r. destruct A as (A1 & A2 & A3). split; [congruence|].
    right. rewrite A1. repeat split; eauto.
  - destruct H as (A & B & C & D). rewrite app_nil_r, A, B, C. simpl. split; auto.
    right. repeat split; eauto; simpl; try lia. constructor.
  - destruct H as (A & B & C & D). rewrite app_nil_r, A, B, C. simpl. split; auto.
    right. repeat split; eauto; simpl; try lia. constructor.
Qed.

(** ** Invariant of the group *)
Definition limit_ok (s : gst V) : Prop :=
  match c_limit c with Some l => g_free s + wsum hold (g_tasks s) = l | None => True end.

Record GI (n : nat) (s : gst V) : Prop := {
  gi_len : length (g_tasks s) = n;
  gi_olen : length (g_out s) = n;
  gi_task : forall i p, nth_error (g_tasks s) i = Some p ->
    exists o, nth_error (g_out s) i = Some o /\ TI (g_cancel s) (g_log s) i p o;
  gi_limit : limit_ok s;
  gi_errs : if c_rexc c then g_errs s = [] else Permutation (g_errs s) (errors_of (g_out s));
  gi_cancel : g_cancel s = true -> g_outer s = true \/
     (c_rexc c = false /\ (exists i e, nth_error (g_out s) i = Some (Some (Err e))));
  gi_cancel' : c_rexc c = false -> (exists i e, nth_error (g_out s) i = Some (Some (Err e))) -> g_cancel s = true;
  gi_outer : g_outer s = true -> g_cancel s = true;
  gi_stop : g_stop s = true -> g_cancel s = true
}.

Lemma nth_upd_iff {A} (l : list A) i j x y :
  nth_error (upd i x l) j = Some y ->
  (i = j /\ y = x /\ i < length l) \/ (nth_error l j = Some y /\ (i = j -> length l <= i)).
Proof.
  rewrite nth_error_upd. destruct (Nat.eqb_spec i j) as [->|N]; simpl.
  - destruct (Nat.ltb_spec j (length l)).
    + intros [= <-]. auto.
    + intros E. right; split; auto.
  - intros E. right; split; auto. contradiction.
Qed.
Lemma nth_upd_eq {A} (l : list A) i x : i < length l -> nth_error (upd i x l) i = Some x.
Proof. intros H. rewrite nth_error_upd, Nat.eqb_refl. apply Nat.ltb_lt in H. now rewrite H. Qed.
Lemma nth_upd_neq {A} (l : list A) i j x : i <> j -> nth_error (upd i x l) j = nth_error l j.
Proof. intros H. rewrite nth_error_upd. apply Nat.eqb_neq in H. now rewrite H. Qed.
Lemma upd_len' {A} i (x : A) l : length (upd i x l) = length l.
Proof. revert i; induction l; intros [|i]; simpl; auto. Qed.

Lemma TI_mono cancel cancel' log evs i j p o : i <> j -> Forall (about i) evs ->
  (cancel = true -> cancel' = true) -> TI cancel log j p o -> TI cancel' (log ++ evs) j p o.
Proof.
  intros N F M. destruct (about_other i j evs N F) as (E1 & E2 & E3).
  unfold TI. rewrite ends_app, naps_app, begins_app, E1, E2, E3, !app_nil_r, Nat.add_0_r.
  destruct p; auto. intros (A & [B|(B & C)]); split; auto.
Qed.

Lemma moved_GI n s s' : GI n s -> moved s s' -> GI n s'.
Proof.
  intros G (i & p & p' & o & evs & e & N & T & NS & Ht & Ho & Hl & He & Hc & Hou & Hst & Hf).
  destruct G as [L OL TK LM ER CN CN' OU ST].
  destruct (TK i p N) as (o0 & O0 & TI0).
  assert (Li : i < n) by (rewrite <- L; apply nth_error_Some; congruence).
  assert (Mc : g_cancel s = true -> g_cancel s' = true) by (rewrite Hc; destruct e; auto).
  pose proof (tr_TI _ (g_cancel s') _ _ _ _ _ _ _ _ T TI0 Mc) as T1.
  assert (O1 : nth_error (g_out s') i = Some (match o with Some x => Some x | None => o0 end)).
  { rewrite Ho. destruct o; auto. apply nth_upd_eq. lia. }
  assert (O2 : forall j, i <> j -> nth_error (g_out s') j = nth_error (g_out s) j).
  { intros j Nj. rewrite Ho. destruct o; auto. apply nth_upd_neq; auto. }
  constructor.
  - rewrite Ht, upd_len'. auto.
  - rewrite Ho. destruct o; auto. rewrite upd_len'; auto.
  - intros j q Hj. rewrite Ht in Hj. apply nth_upd_iff in Hj. rewrite Hl.
    destruct Hj as [(-> & -> & _)|(Hj & Nj)]; [eauto|].
    assert (i <> j) by (intros ->; specialize (Nj eq_refl); lia).
    destruct (TK j q Hj) as (oj & Oj & Tj). exists oj. rewrite O2 by auto. split; auto.
    eapply TI_mono; eauto using tr_about.
  - unfold limit_ok in *. destruct (c_limit c); auto. rewrite Ht.
    pose proof (wsum_upd hold (g_tasks s) i p p' N). lia.
  - assert (o0 = None).
    { destruct T; simpl in TI0; intuition. }
    subst o0. rewrite He. unfold errors_of. rewrite Ho.
    set (f := fun o : option (res V) => match o with Some (Err e) => if is_cancelled e then [] else [e] | _ => [] end).
    assert (F : forall x, Permutation (flat_map f (upd i (Some x) (g_out s))) (f (Some x) ++ flat_map f (g_out s)))
      by (intros x; apply (flat_map_upd pyexc f (g_out s) i None (Some x)); auto).
    destruct (c_rexc c) eqn:RX.
    + rewrite ER. destruct T; simpl; auto; rewrite RX in *; reflexivity.
    + unfold errors_of in ER. fold f in ER.
      assert (K : forall e, Permutation (raise_errs (Some e) (g_errs s)) (f (Some (Err e)) ++ flat_map f (g_out s))).
      { intros e1. simpl. destruct (is_cancelled e1); simpl; auto.
        rewrite ER. symmetry. apply Permutation_cons_append. }
      destruct T; rewrite ?RX in *; simpl raise_errs at 1; auto; try (rewrite F; simpl f at 1; exact ER);
        try (rewrite F; apply K). 
  - rewrite Hou. intros HC. rewrite Hc in HC.
    destruct (g_cancel s) eqn:GC.
    + destruct (CN eq_refl) as [|(R & j & ej & Ej)]; auto. right; split; auto.
      destruct (Nat.eq_dec i j) as [->|Nj].
      * rewrite Ej in O0. injection O0 as <-. destruct o; [|eauto].
        exfalso. pose proof (TI_none _ _ _ _ _ TI0 (tr_live _ _ _ _ _ _ _ T)); discriminate.
      * exists j, ej. rewrite O2; auto.
    + destruct e as [e|]; [|discriminate].
      inversion T; subst; try discriminate; destruct (c_rexc c) eqn:RX; try discriminate.
      all: right; split; auto; exists i; eexists; exact O1.
  - intros R (j & ej & Ej). rewrite Hc. destruct e; auto.
    destruct (Nat.eq_dec i j) as [->|Nj].
    + rewrite O1 in Ej. injection Ej as Ej. assert (o0 = None) by exact (TI_none _ _ _ _ _ TI0 (tr_live _ _ _ _ _ _ _ T)).
      clear TI0. inversion T; subst; rewrite ?R in *; try discriminate; simpl in Ej; try discriminate.
    + rewrite O2 in Ej by auto. eauto.
  - rewrite Hou. intros H. apply Mc, OU, H.
  - rewrite Hst. intros H. apply Mc, ST, H.
Qed.

Lemma gstep_GI n s a : GI n s -> GI n (gstep c s a).
Proof.
  intros G. destruct (gstep_cases s a) as [->|[M|[(_ & E)|(_ & C & _ & E)]]]; auto.
  - eapply moved_GI; eauto.
  - rewrite E. destruct G as [L OL TK LM ER CN CN' OU ST]. constructor; simpl; auto.
    intros i p N. destruct (TK i p N) as (o & O & T). exists o; split; auto.
    rewrite <- (app_nil_r (g_log s)). apply (TI_mono (g_cancel s) true _ [] (S i) i); auto.
  - rewrite E. destruct G as [L OL TK LM ER CN CN' OU ST]. constructor; simpl; auto.
Qed.

Lemma nth_repeat_some {A} (x : A) n i y : nth_error (repeat x n) i = Some y -> y = x /\ i < n.
Proof. revert i; induction n; intros [|i] H; simpl in *; try discriminate; [injection H as <-; split; auto; lia|].
  destruct (IHn _ H); split; auto; lia. Qed.

Lemma nth_repeat_lt {A} (x : A) n i : i < n -> nth_error (repeat x n) i = Some x.
Proof. revert i; induction n; intros [|i] H; simpl; auto; try lia. apply IHn; lia. Qed.

Lemma errors_of_none n : errors_of (V:=V) (repeat None n) = [].
Proof. induction n; simpl; auto. Qed.

Lemma ginit_GI n : GI n (ginit c n).
Proof.
  constructor; simpl; try rewrite repeat_length; auto; try discriminate.
  - intros i p H. apply nth_repeat_some in H. destruct H as [-> Hi]. exists None.
    split; [apply nth_repeat_lt; auto|]. destruct (c_throttle c); simpl; auto.
  - unfold limit_ok. simpl. destruct (c_limit c); auto.
    replace (wsum hold _) with 0; [lia|]. destruct (c_throttle c); induction n; simpl; auto.
  - destruct (c_rexc c); auto. rewrite errors_of_none. constructor.
  - intros _ (i & e & H). apply nth_repeat_some in H. destruct H; discriminate.
Qed.

Lemma grun_GI n ops : forall s, GI n s -> GI n (grun c s ops).
Proof. induction ops as [|a ops IH]; simpl; intros s H; auto. apply IH, gstep_GI, H. Qed.

Lemma active_wsum (s : gst V) : active s = wsum hold (g_tasks s).
Proof.
  unfold active. induction (g_tasks s) as [|p l IH]; simpl; auto. destruct p; simpl; rewrite ?IH; auto.
Qed.

End P.

(** ** Why a group is cancelled, and what it raises *)
Section P2.
Context {V : Type}.
Variable c : cfg V.

Lemma In_ends (log : list (lev V)) i r : In r (ends i log) <-> In (LEnd i r) log.
Proof.
  unfold ends. rewrite in_flat_map. split.
  - intros (e & I & E). destruct e as [|j r'|]; simpl in E; try contradiction.
    destruct (Nat.eqb_spec j i) as [->|]; [|contradiction]. destruct E as [->|[]]. auto.
  - intros I. exists (LEnd i r). split; auto. rewrite Nat.eqb_refl. simpl; auto.
Qed.

Definition cause (s : gst V) : Prop :=
  g_cancel s = true -> g_outer s = true \/ errors_of (g_out s) <> [] \/ self_cancelled (g_log s).

Lemma in_errors_of (out : list (option (res V))) e :
  In e (errors_of out) <-> is_cancelled e = false /\ exists i, nth_error out i = Some (Some (Err e)).
Proof.
  unfold errors_of. rewrite in_flat_map. split.
  - intros (o & I & E). destruct o as [[v|e']|]; simpl in E; try contradiction.
    destruct (is_cancelled e') eqn:C; [contradiction|]. destruct E as [->|[]].
    split; auto. apply In_nth_error in I. auto.
  - intros (C & i & N). exists (Some (Err e)). split; [eapply nth_error_In; eauto|]. rewrite C. simpl; auto.
Qed.

Lemma gstep_cause n s a : GI c n s -> cause s -> cause (gstep c s a).
Proof.
  intros G H. destruct (gstep_cases c s a) as [->|[M|[(_ & E)|(_ & C & _ & E)]]]; auto.
  - set (s' := gstep c s a) in *. clearbody s'.
    destruct M as (i & p & p' & o & evs & e & N & T & NS & Ht & Ho & Hl & He & Hc & Hou & Hst & Hf).
    intros HC. rewrite Hou, Hl.
    destruct (gi_task _ _ _ G i p N) as (o0 & O0 & TI0).
    assert (KE : errors_of (g_out s) <> [] -> errors_of (g_out s') <> []).
    { intros NE E. destruct (errors_of (g_out s)) as [|x l] eqn:EE; [congruence|].
      assert (I : In x (errors_of (g_out s))) by (rewrite EE; simpl; auto).
      apply in_errors_of in I. destruct I as (C & j & Ej).
      assert (I : In x (errors_of (g_out s'))); [|rewrite E in I; exact I].
      apply in_errors_of. split; auto. exists j. rewrite Ho. destruct o as [x'|]; auto.
      destruct (Nat.eq_dec i j) as [->|Nj]; [|rewrite nth_upd_neq; auto].
      exfalso. rewrite Ej in O0. injection O0 as <-. pose proof (TI_none _ _ _ _ _ _ TI0 (tr_live _ _ _ _ _ _ _ _ T)); discriminate. }
    assert (KS : self_cancelled (g_log s) -> self_cancelled (g_log s ++ evs)).
    { intros (j & m & I). exists j, m. apply in_or_app; auto. }
    destruct (g_cancel s) eqn:GC; [destruct (H GC) as [|[|]]; auto|].
    rewrite Hc in HC. destruct e as [e|]; [|discriminate].
    assert (Li : i < length (g_out s)) by (apply nth_error_Some; congruence).
    assert (Q : o = Some (Err e) /\ In (LEnd i (Err e)) evs).
    { inversion T; subst; try discriminate; destruct (c_rexc c); try discriminate;
        match goal with E : Some _ = Some _ |- _ => injection E as -> end; simpl; auto. }
    destruct Q as [-> Q]. destruct (is_cancelled e) eqn:IC.
    + right; right. destruct e; try discriminate. exists i, msg. apply in_or_app; auto.
    + right; left. intros E. assert (I : In e (errors_of (g_out s'))); [|rewrite E in I; exact I].
      apply in_errors_of. split; auto. exists i. rewrite Ho. apply nth_upd_eq; auto.
  - rewrite E. intros _. simpl. auto.
  - rewrite E. intros _. simpl. auto.
Qed.

Lemma grun_cause n ops : forall s, GI c n s -> cause s -> cause (grun c s ops).
Proof.
  induction ops as [|a ops IH]; simpl; intros s G H; auto.
  apply IH; [apply gstep_GI; auto | eapply gstep_cause; eauto].
Qed.

Lemma gstep_outer s a : a <> GOuter -> g_outer (gstep c s a) = g_outer s.
Proof.
  intros N. destruct (gstep_cases c s a) as [->|[M|[(E & _)|(_ & C & _ & E)]]]; auto.
  - destruct M as (i & p & p' & o & evs & e & M). intuition.
  - contradiction.
  - now rewrite E.
Qed.
Lemma grun_outer ops : forall s, ~ In GOuter ops -> g_outer (grun c s ops) = g_outer s.
Proof.
  induction ops as [|a ops IH]; simpl; intros s N; auto.
  rewrite (IH (gstep c s a)) by auto. apply gstep_outer. intros ->. auto.
Qed.
End P2.

Lemma split_exception e : is_exception e = true -> proper e -> split is_cancelled e = (None, Some e).
Proof.
  induction e as [e He|o m l F] using pyexc_tree_ind; intros E P.
  { destruct e; simpl in *; auto; try discriminate. exfalso. eapply He; reflexivity. }
  simpl in E. inversion P as [e' H|o' m' l' NE FP]; subst; [exfalso; eapply H; eauto|].
  assert (G : map (split is_cancelled) l = map (fun x => (None, Some x)) l).
  { apply map_ext_in. intros x I. rewrite Forall_forall in F, FP. rewrite forallb_forall in E. apply F; auto. }
  cbn [split]. rewrite G, !flat_map_concat_map, !map_map. simpl.
  assert (A : concat (map (fun _ : pyexc => @nil pyexc) l) = []) by (clear; induction l; simpl; auto).
  assert (B : concat (map (fun x : pyexc => [x]) l) = l) by (clear; induction l; simpl; congruence).
  rewrite A, B. destruct l; [congruence | reflexivity].
Qed.

(** ** Results, for any configuration *)
Section P3.
Context {V : Type}.
Variable c : cfg V.
Variable n : nat.
Variable ops : list (gop V).
Let s := grun c (ginit c n) ops.

Lemma reach_GI : GI c n s.
Proof. apply grun_GI, ginit_GI. Qed.
Lemma reach_cause : cause s.
Proof. apply (grun_cause c n); [apply ginit_GI|]. intros H; discriminate. Qed.
Lemma reach_outer : ~ In GOuter ops -> g_outer s = false.
Proof. intros H. unfold s. now rewrite grun_outer. Qed.

Lemma quiet_done i : quiet s = true -> g_cancel s = false -> i < n -> nth_error (g_tasks s) i = Some TDone.
Proof.
  intros Q C L. pose proof reach_GI as G. rewrite <- (gi_len _ _ _ G) in L.
  destruct (nth_error (g_tasks s) i) as [p|] eqn:E; [|apply nth_error_None in E; lia].
  unfold quiet in Q. rewrite forallb_forall in Q. pose proof (Q p (nth_error_In _ _ E)) as Qp.
  destruct p; auto; try discriminate.
  pose proof (gi_stop _ _ _ G Qp). congruence.
Qed.

Lemma settled i : quiet s = true -> g_cancel s = false -> i < n ->
  exists x, nth_error (g_out s) i = Some (Some x) /\
    settles (c_retry c) (c_default c) (ends i (g_log s)) x /\
    begins i (g_log s) = length (ends i (g_log s)) /\
    Forall2 Qeq (naps i (g_log s)) (pauses (c_delay c) (c_backoff c) (pred (length (ends i (g_log s))))).
Proof.
  intros Q C L. pose proof reach_GI as G.
  destruct (gi_task _ _ _ G i TDone (quiet_done i Q C L)) as (o & O & B & [(x & -> & S & N)|(C' & _)]).
  - exists x. auto.
  - congruence.
Qed.

Lemma collects : c_rexc c = true -> ~ In GOuter ops -> quiet s = true ->
  gfinal c s = GReturn (g_out s) /\ length (g_out s) = n /\ g_cancel s = false.
Proof.
  intros R NO Q. pose proof reach_GI as G. pose proof (gi_errs _ _ _ G) as E. rewrite R in E.
  assert (C : g_cancel s = false).
  { destruct (g_cancel s) eqn:C; auto. destruct (gi_cancel _ _ _ G C) as [O|(R' & _)]; [|congruence].
    rewrite reach_outer in O; auto. }
  split; [|split; [apply (gi_olen _ _ _ G) | auto]].
  unfold gfinal. rewrite Q, E, reach_outer; auto.
Qed.

Lemma returns_values l : c_rexc c = false -> ~ In GOuter ops -> gfinal c s = GReturn l ->
  ~ self_cancelled (g_log s) ->
  l = g_out s /\ g_cancel s = false /\ quiet s = true /\
  (forall i e, nth_error (g_out s) i <> Some (Some (Err e))).
Proof.
  intros R NO F NC. pose proof reach_GI as G. pose proof (gi_errs _ _ _ G) as E. rewrite R in E.
  unfold gfinal in F. destruct (quiet s) eqn:Q; [|discriminate]. cbn [negb] in F.
  destruct (g_errs s) as [|x errs] eqn:ER.
  - rewrite reach_outer in F by auto. injection F as <-.
    assert (C : g_cancel s = false).
    { destruct (g_cancel s) eqn:C; auto. destruct (reach_cause C) as [O|[O|O]]; [|exfalso|contradiction].
      - rewrite reach_outer in O; auto.
      - apply O, Permutation_nil; auto. }
    repeat split; auto. intros i e X.
    enough (g_cancel s = true) by congruence. apply (gi_cancel' _ _ _ G); eauto.
  - cbv zeta in F. rewrite R in F. destruct (forallb is_exception (x :: errs)); [|discriminate].
    destruct (non_cancel_subgroup _); discriminate.
Qed.

Lemma in_out_ends i x : g_cancel s = true \/ g_cancel s = false -> nth_error (g_out s) i = Some (Some x) ->
  settles (c_retry c) (c_default c) (ends i (g_log s)) x \/ exists m, x = Err (Cancelled m).
Proof.
  intros _ N. pose proof reach_GI as G.
  assert (L : i < length (g_tasks s)).
  { rewrite (gi_len _ _ _ G), <- (gi_olen _ _ _ G). apply nth_error_Some. congruence. }
  destruct (nth_error (g_tasks s) i) as [p|] eqn:E; [|apply nth_error_None in E; lia].
  destruct (gi_task _ _ _ G i p E) as (o & O & T). rewrite N in O. injection O as <-.
  destruct p; simpl in T; try (exfalso; intuition; discriminate).
  destruct T as (_ & [(y & Ey & S & _)|(_ & _ & _ & [(X & _)|(m & Em)])]).
  - injection Ey as <-. auto.
  - discriminate.
  - injection Em as ->. eauto.
Qed.

Lemma settles_last r d l (x : res V) : settles r d l x -> exists fs y, l = fs ++ [y] /\
  (match x with Err e => y = Err e | Val _ => True end).
Proof.
  intros (fs & y & -> & _ & _ & H). exists fs, y. split; auto.
  destruct y as [v|e]; [subst; auto|].
  destruct (is_exception e); [destruct H as (_ & ->); destruct d; auto | subst; auto].
Qed.

Lemma errors_proper e : (forall i e, In (LEnd i (Err e)) (g_log s) -> proper e) ->
  In e (errors_of (g_out s)) -> proper e /\ exists i, In (LEnd i (Err e)) (g_log s).
Proof.
  intros P I. apply in_errors_of in I. destruct I as (C & i & N).
  assert (In (LEnd i (Err e)) (g_log s)).
  { destruct (in_out_ends i (Err e)) as [S|(m & X)]; auto.
    - destruct (g_cancel s); auto.
    - apply settles_last in S. destruct S as (fs & y & E & ->).
      apply In_ends. rewrite E. apply in_or_app; simpl; auto.
    - injection X as ->. discriminate. }
  split; eauto.
Qed.

Lemma raises_group : c_rexc c = false -> quiet s = true -> errors_of (g_out s) <> [] ->
  (forall i e, In (LEnd i (Err e)) (g_log s) -> proper e) ->
  gfinal c s = GRaise (Group 0 group_msg (g_errs s)) /\ Permutation (g_errs s) (errors_of (g_out s)).
Proof.
  intros R Q NE P. pose proof reach_GI as G. pose proof (gi_errs _ _ _ G) as E. rewrite R in E.
  split; auto. unfold gfinal. rewrite Q. cbn [negb].
  assert (NE' : g_errs s <> []). { intros X. rewrite X in E. apply NE, Permutation_nil; auto. }
  destruct (g_errs s) as [|x errs] eqn:ER; [congruence|].
  destruct (forallb is_exception (x :: errs)) eqn:X; auto. rewrite R.
  unfold non_cancel_subgroup. rewrite split_exception; auto.
  apply proper_group; [discriminate|]. rewrite Forall_forall. intros e I.
  apply (errors_proper e P). eapply Permutation_in; eauto.
Qed.

Lemma outer_raises : In GOuter ops -> quiet s = true -> exists e, gfinal c s = GRaise e.
Proof.
  intros O Q. pose proof reach_GI as G. pose proof (gi_errs _ _ _ G) as E.
  assert (OU : g_outer s = true).
  { assert (K : forall l x, g_outer x = true -> g_outer (grun c x l) = true).
    { induction l as [|a l IH]; simpl; intros x H; auto. apply IH.
      destruct (gstep_cases c x a) as [->|[M|[(-> & ->)|(_ & _ & _ & ->)]]]; auto.
      destruct M as (i & p & p' & o & evs & e & M). intuition congruence. }
    apply in_split in O. destruct O as (l1 & l2 & Eq). unfold s. rewrite Eq. unfold grun. rewrite fold_left_app.
    simpl. apply K. reflexivity. }
  unfold gfinal. rewrite Q, OU. cbn [negb]. destruct (g_errs s) as [|x errs]; [eauto|].
  destruct (c_rexc c); [discriminate|]. destruct (forallb is_exception (x :: errs)); [|eauto].
  destruct (non_cancel_subgroup _); eauto.
Qed.

Lemma bounded l : c_limit c = Some l -> active s <= l.
Proof.
  intros E. pose proof (gi_limit _ _ _ reach_GI) as L. unfold limit_ok in L. rewrite E in L.
  rewrite active_wsum. lia.
Qed.

Lemma progress : quiet s = false -> active s = 0 -> c_limit c <> Some 0 ->
  gstep c s GSpawn <> s \/ exists i, gstep c s (GStart i) <> s.
Proof.
  intros Q A L. rewrite active_wsum in A.
  assert (X : exists p, In p (g_tasks s) /\ (p = TWait \/ (p = TNew /\ g_stop s = false))).
  { clear L. unfold quiet in Q. revert Q A. induction (g_tasks s) as [|p l IH]; simpl; intros Q A; [discriminate|].
    destruct p; simpl in *; try lia.
    - destruct (g_stop s) eqn:ST; [|exists TNew; auto].
      destruct (IH Q A) as (p & I & H). exists p. auto.
    - exists TWait; auto.
    - destruct (IH Q A) as (p & I & H). exists p. auto. }
  destruct X as (p & I & [->|(-> & ST)]).
  - apply In_nth_error in I. destruct I as (i & N). right. exists i. cbn [gstep]. rewrite N.
    assert (CS : can_start c s = true).
    { unfold can_start. destruct (c_limit c) as [k|] eqn:E; auto.
      pose proof (gi_limit _ _ _ reach_GI) as LM. unfold limit_ok in LM. rewrite E in LM.
      apply Nat.ltb_lt. destruct k; [congruence | lia]. }
    rewrite CS. intros X. apply (f_equal g_log) in X. apply (f_equal (@length _)) in X. revert X.
    unfold add_log. cbn [g_log]. rewrite app_length. unfold set_task, take. destruct (c_limit c); simpl; lia.
  - left. cbn [gstep]. rewrite ST. destruct (first_new (g_tasks s)) as [i|] eqn:F.
    + apply first_new_Some in F. intros X. apply (f_equal g_tasks) in X. cbn [set_task g_tasks] in X.
      assert (Y : nth_error (upd i TWait (g_tasks s)) i = Some TWait)
        by (apply nth_upd_eq; apply nth_error_Some; congruence).
      rewrite X in Y. congruence.
    + apply first_new_None in F. contradiction.
Qed.

Lemma attempts i : (Z.of_nat (begins i (g_log s)) <= 1 + Z.max 0 (c_retry c))%Z.
Proof.
  pose proof reach_GI as G.
  destruct (nth_error (g_tasks s) i) as [p|] eqn:E.
  - destruct (gi_task _ _ _ G i p E) as (o & _ & T). destruct p; simpl in T.
    + destruct T as (_ & -> & _). lia.
    + destruct T as (_ & -> & _). lia.
    + destruct T as ((_ & _ & K) & -> & _). lia.
    + destruct T as ((_ & _ & K) & -> & _). lia.
    + destruct T as (-> & [(x & _ & (fs & r & -> & _ & K & _) & _)|(_ & (_ & _ & K) & _)]).
      * rewrite app_length. cbn [length]. lia.
      * lia.
  - replace (begins i (g_log s)) with 0; [lia|].
    apply nth_error_None in E. rewrite (gi_len _ _ _ G) in E.
    assert (K : forall l x, length (g_tasks x) = n -> begins i (g_log x) = 0 -> begins i (g_log (grun c x l)) = 0).
    { induction l as [|a l IH]; simpl; intros x Lx B; auto.
      destruct (gstep_cases c x a) as [->|[M|[(_ & ->)|(_ & _ & _ & ->)]]]; auto.
      - set (x' := gstep c x a) in *. clearbody x'.
        destruct M as (j & p & p' & o & evs & e & N & T & _ & Ht & _ & Hl & _).
        apply IH; [rewrite Ht, upd_len'; auto|]. rewrite Hl, begins_app, B.
        assert (j <> i) by (assert (j < length (g_tasks x)) by (apply nth_error_Some; congruence); lia).
        destruct (about_other j i evs) as (_ & _ & ->); auto. eapply tr_about; eauto. }
    symmetry. apply K; auto. simpl. apply repeat_length.
Qed.
End P3.
