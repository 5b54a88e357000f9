(** C95: timeouts and shields. *)
From Coq Require Import List Bool ZArith Lia.
From Verif Require Import ModelDeadline.
Import ListNotations.
Local Open Scope Z_scope.

(** * Facts about stacks of scopes *)
Definition same (s s' : scope) : Prop :=
  deadline s' = deadline s /\ shielded s' = shielded s /\ (called s = true -> called s' = true).
Lemma same_refl st : Forall2 same st st.
Proof. induction st; constructor; [repeat split; auto|assumption]. Qed.
Lemma same_trans a b c : Forall2 same a b -> Forall2 same b c -> Forall2 same a c.
Proof.
  intro H. revert c. induction H as [|x y a b (A & B & C) H IH]; intros c K; inversion K as [|? z ? ? (D & E & F) K']; subst; constructor.
  - repeat split; [congruence|congruence|auto].
  - apply IH, K'.
Qed.
Lemma later_same t a b : later t a b -> Forall2 same a b.
Proof.
  intro H. induction H as [|x y a b (A & B & C) H IH]; constructor; [|exact IH]. repeat split; auto. intro D. destruct C as [C|[C _]]; congruence.
Qed.
Lemma cancel_same i st : Forall2 same st (cancel i st).
Proof.
  revert i. induction st as [|s st IH]; intros [|i]; cbn; constructor; try apply same_refl; try apply IH; repeat split; auto.
Qed.
Lemma run_same p t st t' st' r : run p t st t' st' r -> t <= t' /\ Forall2 same st st'.
Proof.
  induction 1; try (split; [lia|apply same_refl || (eapply later_same; eassumption) || apply cancel_same]).
  - destruct IHrun1, IHrun2. split; [lia|eapply same_trans; eassumption].
  - exact IHrun.
  - exact IHrun.
  - destruct IHrun1, IHrun2. split; [lia|eapply same_trans; eassumption].
  - destruct IHrun as [A B]. inversion B; subst. auto.
  - destruct IHrun as [A B]. inversion B; subst. auto.
  - destruct IHrun as [A B]. inversion B; subst. auto.
Qed.
Lemma visible_same a b : Forall2 same a b -> map deadline (visible a) = map deadline (visible b) /\ (pending a = true -> pending b = true).
Proof.
  unfold pending. intro H. induction H as [|x y a b (A & B & C) H [IH1 IH2]]; [auto|]. cbn. rewrite A, B. destruct (shielded x); cbn.
  - split; [reflexivity|]. rewrite !orb_false_r. exact C.
  - split; [f_equal; exact IH1|]. rewrite !orb_true_iff. intuition.
Qed.
Lemma limit_same a b : Forall2 same a b -> limit b = limit a.
Proof. intro H. unfold limit. rewrite (proj1 (visible_same a b H)). reflexivity. Qed.

(** ** Cancellations come from a cancelled scope around *)
Lemma run_pending p t st t' st' : run p t st t' st' Cancelled -> pending st' = true.
Proof.
  intro H. remember Cancelled as r eqn:E. revert E. induction H; intro R; try discriminate; try assumption; auto.
  - unfold stopped in R. destruct k as [[s0|]|[s0|]|[s0|]|[s0|]|]; try discriminate; destruct (past _ _); discriminate.
  - specialize (IHrun eq_refl). destruct H0 as [H0|H0]; [|exact H0]. unfold pending in *. cbn [visible existsb] in IHrun. rewrite H0 in IHrun.
    cbn [orb] in IHrun. destruct (shielded s); [discriminate|exact IHrun].
Qed.

(** * C95 *)
(** The deadline of a timeout that begins at [now]. *)
Definition due (k : kind) (now : Z) : option Z :=
  match k with
  | Fail_after s | Move_on_after s => option_map (Z.add now) s
  | Fail_at d | Move_on_at d => option_map (Z.max now) d
  | Shield => None
  end.
Lemma starts_due k t : starts k t = due k t.
Proof. destruct k as [[s|]|[s|]|[d|]|[d|]|]; cbn; try reflexivity; f_equal; lia. Qed.
(** The blocking work in a program, and whether it has shields. *)
Fixpoint work (p : prog) : Z :=
  match p with
  | Work n => Z.of_nat n
  | Seq p q | Try p q => work p + work q
  | Within _ p => work p
  | _ => 0
  end.
Fixpoint unshielded (p : prog) : bool :=
  match p with
  | Seq p q | Try p q => unshielded p && unshielded q
  | Within Shield _ => false
  | Within _ p => unshielded p
  | _ => true
  end.
Lemma work_pos p : 0 <= work p.
Proof. induction p; cbn; lia. Qed.
Lemma limit_cons s st d : shielded s = false -> limit st = Some d -> exists d', limit (s :: st) = Some d' /\ d' <= d.
Proof.
  intros S L. unfold limit in *. cbn [visible]. rewrite S. cbn [map fold_right]. rewrite L. destruct (deadline s) as [x|]; cbn; [exists (Z.min x d)|exists d]; (split; [reflexivity|lia]).
Qed.
Lemma limit_head s st d : shielded s = false -> deadline s = Some d -> exists d', limit (s :: st) = Some d' /\ d' <= d.
Proof.
  intros S L. unfold limit. cbn [visible]. rewrite S. cbn [map fold_right]. rewrite L.
  destruct (fold_right earlier None (map deadline (visible st))) as [x|]; cbn; [exists (Z.min d x)|exists d]; (split; [reflexivity|lia]).
Qed.

(** Under a deadline, a program without shields ends by then, up to the blocking work in it:
    scopes in it with later deadlines do not extend it, nor does catching exceptions. *)
Lemma timely p : unshielded p = true -> forall t st t' st' r d, run p t st t' st' r -> limit st = Some d -> t' <= Z.max t d + work p.
Proof.
  induction p as [n|n| |i|p IHp q IHq|p IHp q IHq|k p IHp]; cbn [unshielded work]; intros U t st t' st' r d R L.
  - inversion R; subst. lia.
  - inversion R as [|? ? ? ?|n' ? ? ? P [->|D] ?|? ? ? d' ? P D ? ?| | | | | | | | |]; subst; try lia.
    + specialize (D _ L). lia.
    + rewrite D in L. injection L as <-. lia.
  - inversion R; subst. lia.
  - inversion R; subst. lia.
  - apply andb_true_iff in U. destruct U as [U1 U2]. assert (W := work_pos q). assert (W' := work_pos p).
    inversion R as [| | | | | |? ? ? ? t1 st1 ? ? ? R1 R2|? ? ? ? ? ? ? R1 N| | | | |]; subst.
    + assert (A := IHp U1 _ _ _ _ _ _ R1 L). assert (L1 : limit st1 = Some d) by (rewrite (limit_same st st1); [exact L|apply (run_same _ _ _ _ _ _ R1)]).
      assert (B := IHq U2 _ _ _ _ _ _ R2 L1). lia.
    + assert (A := IHp U1 _ _ _ _ _ _ R1 L). lia.
  - apply andb_true_iff in U. destruct U as [U1 U2]. assert (W := work_pos q). assert (W' := work_pos p).
    inversion R as [| | | | | | | |? ? ? ? ? ? ? R1 N|? ? ? ? t1 st1 r1 ? ? ? R1 N R2| | |]; subst.
    + assert (A := IHp U1 _ _ _ _ _ _ R1 L). lia.
    + assert (A := IHp U1 _ _ _ _ _ _ R1 L). assert (L1 : limit st1 = Some d) by (rewrite (limit_same st st1); [exact L|apply (run_same _ _ _ _ _ _ R1)]).
      assert (B := IHq U2 _ _ _ _ _ _ R2 L1). lia.
  - assert (S : shielded (enter k t) = false /\ unshielded p = true) by (destruct k; try discriminate; auto). destruct S as [S U'].
    destruct (limit_cons _ st d S L) as (d' & L' & D).
    assert (X : exists r st1, run p t (enter k t :: st) t' st1 r) by (inversion R; subst; eauto).
    destruct X as (r1 & st1 & R1). assert (A := IHp U' _ _ _ _ _ _ R1 L'). lia.
Qed.
Theorem C95_timely k p t st t' st' r d : due k t = Some d -> unshielded p = true -> run (Within k p) t st t' st' r ->
  t' <= Z.max t d + work p.
Proof.
  rewrite <- starts_due. intros S U R. assert (K : shielded (enter k t) = false) by (destruct k; try discriminate; reflexivity).
  destruct (limit_head (enter k t) st d K S) as (d' & L & D).
  assert (X : exists r st1, run p t (enter k t :: st) t' st1 r) by (inversion R; subst; eauto).
  destruct X as (r1 & st1 & R1). assert (A := timely p U _ _ _ _ _ _ R1 L). lia.
Qed.

(** ** Deadlines that are not reached *)
(** [lift i p]: the program with the i-th scope around left out of its numbering *)
Fixpoint lift (i : nat) (p : prog) : prog :=
  match p with
  | Cancel j => Cancel (if Nat.ltb j i then j else S j)
  | Seq p q => Seq (lift i p) (lift i q)
  | Try p q => Try (lift i p) (lift i q)
  | Within k p => Within k (lift (S i) p)
  | p => p
  end.
Definition after (d : option Z) (t : Z) : Prop := match d with Some d => t < d | None => True end.
Definition neutral (s : scope) : Prop := called s = false /\ shielded s = false.
Lemma pending_insert a s b : neutral s -> pending (a ++ s :: b) = pending (a ++ b).
Proof.
  intros [C S]. unfold pending. induction a as [|x a IH]; cbn; [rewrite C, S; reflexivity|]. destruct (shielded x); [reflexivity|]. rewrite IH. reflexivity.
Qed.
Lemma limit_insert a s b : neutral s -> limit (a ++ s :: b) = limit (a ++ b) \/ limit (a ++ s :: b) = earlier (limit (a ++ b)) (deadline s).
Proof.
  intros [C S]. unfold limit. induction a as [|x a IH]; cbn.
  - right. rewrite S. destruct (deadline s), (fold_right _ _ _); cbn; try reflexivity; f_equal; lia.
  - destruct (shielded x); [left; reflexivity|]. cbn. destruct IH as [->| ->]; [left; reflexivity|right].
    destruct (deadline x), (fold_right _ _ _), (deadline s); cbn; try reflexivity; f_equal; lia.
Qed.
Lemma later_insert t a s b x : after (deadline s) t -> later t (a ++ s :: b) x -> neutral s ->
  exists a' b', x = a' ++ s :: b' /\ length a' = length a /\ later t (a ++ b) (a' ++ b').
Proof.
  intros A H N. revert x H. induction a as [|y a IH]; intros x H; inversion H as [|? z ? x' F H']; subst.
  - exists [], x'. split; [|split; [reflexivity|exact H']]. cbn. f_equal. destruct F as (F1 & F2 & F3). destruct N as [N1 N2]. destruct s as [d c h], z as [d' c' h']; cbn in *. subst.
    destruct F3 as [->|[-> P]]; [reflexivity|]. destruct d; cbn in *; [|discriminate]. apply Z.leb_le in P. lia.
  - destruct (IH _ H') as (a' & b' & -> & L & K). exists (z :: a'), b'. split; [reflexivity|]. split; [cbn; congruence|constructor; assumption].
Qed.
Lemma later_insert' t a s b x : later t (a ++ b) x -> exists a' b', x = a' ++ b' /\ length a' = length a /\ later t (a ++ s :: b) (a' ++ s :: b').
Proof.
  revert x. induction a as [|y a IH]; intros x H.
  - exists [], x. split; [reflexivity|]. split; [reflexivity|]. constructor; [repeat split; auto|exact H].
  - inversion H as [|? z ? x' F H']; subst. destruct (IH _ H') as (a' & b' & -> & L & K). exists (z :: a'), b'.
    split; [reflexivity|]. split; [cbn; congruence|constructor; assumption].
Qed.
Lemma cancel_insert i a s b : exists a' b', cancel (if Nat.ltb i (length a) then i else S i) (a ++ s :: b) = a' ++ s :: b' /\ length a' = length a /\ cancel i (a ++ b) = a' ++ b'.
Proof.
  revert i. induction a as [|x a IH]; intros i; cbn [length app].
  - exists [], (cancel i b). cbn. auto.
  - destruct i as [|i].
    + exists (Scope (deadline x) true (shielded x) :: a), b. split; [reflexivity|]. split; reflexivity.
    + destruct (IH i) as (a' & b' & E1 & L & E2). exists (x :: a'), b'. change (Nat.ltb (S i) (S (length a))) with (Nat.ltb i (length a)).
      destruct (Nat.ltb i (length a)); (split; [cbn [cancel app]; f_equal; exact E1|split; [cbn; congruence|cbn [cancel app]; f_equal; exact E2]]).
Qed.
Lemma after_before d t t' : after d t' -> t <= t' -> after d t.
Proof. destruct d; cbn; [lia|auto]. Qed.

Lemma leave_out p : forall a s b t t' x r, neutral s -> after (deadline s) t' -> run (lift (length a) p) t (a ++ s :: b) t' x r ->
  exists a' b', x = a' ++ s :: b' /\ length a' = length a /\ run p t (a ++ b) t' (a' ++ b') r.
Proof.
  induction p as [n|n| |i|p IHp q IHq|p IHp q IHq|k p IHp]; cbn [lift]; intros a s b t t' x r N D R.
  - inversion R; subst. exists a, b. repeat split; constructor.
  - assert (P := pending_insert a s b N). assert (LI := limit_insert a s b N).
    inversion R as [|? ? ? Q|n' ? ? ? Q W La|? ? ? d' ? Q L0 W La Q'| | | | | | | | |]; subst.
    + exists a, b. repeat split. constructor. congruence.
    + destruct (later_insert _ _ _ _ _ D La N) as (a' & b' & -> & Le & La'). exists a', b'. repeat split; [exact Le|].
      apply R_wait; [congruence| |exact La']. destruct W as [W|W]; [auto|right]. intros d E. rewrite E in LI. destruct LI as [LI|LI].
      * apply W, LI.
      * destruct (deadline s) as [ds|]; cbn in LI; [|apply W, LI]. specialize (W _ LI). lia.
    + destruct (later_insert _ _ _ _ _ D La N) as (a' & b' & -> & Le & La'). exists a', b'. repeat split; [exact Le|].
      apply R_deadline; [congruence| |exact W|exact La'|rewrite pending_insert in Q'; assumption].
      destruct LI as [LI|LI]; [congruence|]. rewrite LI in L0. destruct (limit (a ++ b)) as [x|], (deadline s) as [ds|]; cbn in *; try congruence; f_equal; injection L0 as <-; lia.
  - inversion R; subst. exists a, b. repeat split; constructor.
  - inversion R; subst. destruct (cancel_insert i a s b) as (a' & b' & E1 & L & E2). exists a', b'. split; [exact E1|]. split; [exact L|].
    rewrite <- E2. constructor.
  - inversion R as [| | | | | |? ? ? ? t1 st1 ? ? ? R1 R2|? ? ? ? ? ? ? R1 NE| | | | |]; subst.
    + assert (D1 := after_before _ t1 _ D (proj1 (run_same _ _ _ _ _ _ R2))).
      destruct (IHp _ _ _ _ _ _ _ N D1 R1) as (a1 & b1 & -> & L1 & R1'). rewrite <- L1 in R2.
      destruct (IHq _ _ _ _ _ _ _ N D R2) as (a2 & b2 & -> & L2 & R2'). exists a2, b2. repeat split; [congruence|]. eapply R_seq; eassumption.
    + destruct (IHp _ _ _ _ _ _ _ N D R1) as (a1 & b1 & -> & L1 & R1'). exists a1, b1. repeat split; [exact L1|]. apply R_seq_end; assumption.
  - inversion R as [| | | | | | | |? ? ? ? ? ? ? R1 NE|? ? ? ? t1 st1 r1 ? ? ? R1 NE R2| | |]; subst.
    + destruct (IHp _ _ _ _ _ _ _ N D R1) as (a1 & b1 & -> & L1 & R1'). exists a1, b1. repeat split; [exact L1|]. apply R_try; assumption.
    + assert (D1 := after_before _ t1 _ D (proj1 (run_same _ _ _ _ _ _ R2))).
      destruct (IHp _ _ _ _ _ _ _ N D1 R1) as (a1 & b1 & -> & L1 & R1'). rewrite <- L1 in R2.
      destruct (IHq _ _ _ _ _ _ _ N D R2) as (a2 & b2 & -> & L2 & R2'). exists a2, b2. repeat split; [congruence|]. eapply R_except; eassumption.
  - inversion R as [| | | | | | | | | |? ? ? ? ? s1 st1 ? R1 NE|? ? ? ? ? s1 st1 R1 C|? ? ? ? ? s1 st1 R1 C]; subst;
      destruct (IHp (enter k t :: a) s b t t' _ _ N D R1) as ([|y a1] & b1 & E & L1 & R1'); try discriminate; cbn in E, L1; injection E as -> ->; injection L1 as L1;
      exists a1, b1; (split; [reflexivity|]); (split; [exact L1|]).
    + eapply R_within; eassumption.
    + eapply R_stop; eassumption.
    + eapply R_pass; [eassumption|]. rewrite pending_insert in C by exact N. exact C.
Qed.
Lemma put_in p : forall a s b t t' x r, neutral s -> after (deadline s) t' -> run p t (a ++ b) t' x r ->
  exists a' b', x = a' ++ b' /\ length a' = length a /\ run (lift (length a) p) t (a ++ s :: b) t' (a' ++ s :: b') r.
Proof.
  induction p as [n|n| |i|p IHp q IHq|p IHp q IHq|k p IHp]; cbn [lift]; intros a s b t t' x r N D R.
  - inversion R; subst. exists a, b. repeat split; constructor.
  - assert (P := pending_insert a s b N). assert (LI := limit_insert a s b N).
    inversion R as [|? ? ? Q|n' ? ? ? Q W La|? ? ? d' ? Q L0 W La Q'| | | | | | | | |]; subst.
    + exists a, b. repeat split. constructor. congruence.
    + destruct (later_insert' _ _ s _ _ La) as (a' & b' & -> & Le & La'). exists a', b'. repeat split; [exact Le|].
      apply R_wait; [congruence| |exact La']. destruct W as [W|W]; [auto|right]. intros d E. rewrite E in LI. destruct LI as [LI|LI].
      * apply W. congruence.
      * destruct (deadline s) as [ds|]; cbn in D, LI; [|apply W; destruct (limit (a ++ b)); cbn in LI; congruence].
        destruct (limit (a ++ b)) as [y|]; cbn in LI; injection LI as ->; [specialize (W y eq_refl)|]; lia.
    + destruct (later_insert' _ _ s _ _ La) as (a' & b' & -> & Le & La'). exists a', b'. repeat split; [exact Le|].
      apply R_deadline; [congruence| |exact W|exact La'|rewrite pending_insert; assumption].
      rewrite L0 in LI. destruct LI as [LI|LI]; [exact LI|]. rewrite LI. destruct (deadline s) as [ds|]; cbn in *; [f_equal; lia|reflexivity].
  - inversion R; subst. exists a, b. repeat split; constructor.
  - inversion R; subst. destruct (cancel_insert i a s b) as (a' & b' & E1 & L & E2). exists a', b'. split; [exact E2|]. split; [exact L|].
    rewrite <- E1. constructor.
  - inversion R as [| | | | | |? ? ? ? t1 st1 ? ? ? R1 R2|? ? ? ? ? ? ? R1 NE| | | | |]; subst.
    + assert (D1 := after_before _ t1 _ D (proj1 (run_same _ _ _ _ _ _ R2))).
      destruct (IHp _ s _ _ _ _ _ N D1 R1) as (a1 & b1 & -> & L1 & R1').
      destruct (IHq _ s _ _ _ _ _ N D R2) as (a2 & b2 & -> & L2 & R2'). rewrite L1 in *. exists a2, b2. repeat split; [congruence|]. eapply R_seq; eassumption.
    + destruct (IHp _ s _ _ _ _ _ N D R1) as (a1 & b1 & -> & L1 & R1'). exists a1, b1. repeat split; [exact L1|]. apply R_seq_end; assumption.
  - inversion R as [| | | | | | | |? ? ? ? ? ? ? R1 NE|? ? ? ? t1 st1 r1 ? ? ? R1 NE R2| | |]; subst.
    + destruct (IHp _ s _ _ _ _ _ N D R1) as (a1 & b1 & -> & L1 & R1'). exists a1, b1. repeat split; [exact L1|]. apply R_try; assumption.
    + assert (D1 := after_before _ t1 _ D (proj1 (run_same _ _ _ _ _ _ R2))).
      destruct (IHp _ s _ _ _ _ _ N D1 R1) as (a1 & b1 & -> & L1 & R1').
      destruct (IHq _ s _ _ _ _ _ N D R2) as (a2 & b2 & -> & L2 & R2'). rewrite L1 in *. exists a2, b2. repeat split; [congruence|]. eapply R_except; eassumption.
  - inversion R as [| | | | | | | | | |? ? ? ? ? s1 st1 ? R1 NE|? ? ? ? ? s1 st1 R1 C|? ? ? ? ? s1 st1 R1 C]; subst;
      destruct (IHp (enter k t :: a) s b t t' _ _ N D R1) as ([|y a1] & b1 & E & L1 & R1'); try discriminate; cbn in E, L1; injection E as -> ->; injection L1 as L1;
      exists a1, b1; (split; [reflexivity|]); (split; [exact L1|]).
    + eapply R_within; eassumption.
    + eapply R_stop; eassumption.
    + eapply R_pass; [eassumption|]. rewrite pending_insert by exact N. exact C.
Qed.
(** A timeout whose deadline is still to come when the program ends changes nothing: the
    program ends then in the same way without it. *)
Theorem C95_transparent k p t st t' st' r : k <> Shield -> after (due k t) t' ->
  run (Within k (lift 0 p)) t st t' st' r <-> run p t st t' st' r.
Proof.
  rewrite <- starts_due. intros K A. split; intro R.
  - assert (N : neutral (enter k t)).
    { split; [|destruct k; congruence || reflexivity]. cbn. assert (T : t <= t') by apply (run_same _ _ _ _ _ _ R).
      destruct (starts k t) as [d|]; cbn in *; [|reflexivity]. apply Z.leb_gt. lia. }
    inversion R as [| | | | | | | | | |? ? ? ? ? s1 st1 ? R1 NE|? ? ? ? ? s1 st1 R1 C|? ? ? ? ? s1 st1 R1 C]; subst;
      destruct (leave_out p [] _ st _ _ _ _ N A R1) as ([|y a'] & b' & E & L & R'); try discriminate; cbn in E, R'; injection E as -> ->; try exact R'.
    exfalso. destruct N as [N _]. congruence.
  - assert (N : neutral (enter k t)).
    { split; [|destruct k; congruence || reflexivity]. cbn. assert (T : t <= t') by apply (run_same _ _ _ _ _ _ R).
      destruct (starts k t) as [d|]; cbn in *; [|reflexivity]. apply Z.leb_gt. lia. }
    destruct (put_in p [] (enter k t) st _ _ _ _ N A R) as ([|y a'] & b' & E & L & R'); try discriminate; cbn in E, R'. subst b'.
    assert (X : r = Cancelled \/ r <> Cancelled) by (destruct r; auto; right; discriminate). destruct X as [->|X].
    + eapply R_pass; [exact R'|]. left. apply N.
    + eapply R_within; eassumption.
Qed.

(** ** Which timeouts raise *)
Definition fails (k : kind) : bool := match k with Fail_after (Some _) | Fail_at (Some _) => true | _ => false end.
Fixpoint no_fail (p : prog) : bool :=
  match p with
  | Seq p q | Try p q => no_fail p && no_fail q
  | Within k p => negb (fails k) && no_fail p
  | _ => true
  end.
Lemma no_fail_run p t st t' st' r : run p t st t' st' r -> no_fail p = true -> r <> Timeout.
Proof.
  induction 1; cbn [no_fail]; rewrite ?andb_true_iff; try discriminate; try tauto; intros [A B].
  destruct k as [[|]|[|]|[|]|[|]|]; try discriminate; cbn in A; discriminate.
Qed.
(** TimeoutError comes only from fail_after and fail_at, and not before the deadline. *)
Theorem C95_timeout k p t st t' st' : no_fail p = true -> run (Within k p) t st t' st' Timeout ->
  fails k = true /\ exists d, due k t = Some d /\ d <= t'.
Proof.
  rewrite <- starts_due. intros N R. remember (Within k p) as w eqn:W. remember Timeout as r eqn:E. destruct R; try discriminate; injection W as -> ->.
  - subst. exfalso. eapply no_fail_run; [eassumption|exact N|reflexivity].
  - assert (S : deadline s = starts k t) by (destruct (run_same _ _ _ _ _ _ R) as [_ F]; inversion F as [|? ? ? ? (D & _)]; subst; exact D).
    unfold stopped in E. rewrite S in E. unfold past in E.
    destruct k as [[d|]|[d|]|[d|]|[d|]|]; try discriminate; cbn [starts] in *; (split; [reflexivity|]); eexists; (split; [reflexivity|]);
      destruct (_ <=? _) eqn:L; try discriminate; apply Z.leb_le in L; exact L.
Qed.
(** A cancellation leaves a scope only if one around it is cancelled; with none around, never. *)
Theorem C95_contained k p t st t' st' : run (Within k p) t st t' st' Cancelled ->
  exists s, In s (visible st') /\ called s = true.
Proof. intro R. apply run_pending in R. apply existsb_exists in R. exact R. Qed.
Theorem C95_contained_all p t t' st' : ~ run p t [] t' st' Cancelled.
Proof.
  intro R. assert (P := run_pending _ _ _ _ _ R). destruct (run_same _ _ _ _ _ _ R) as [_ F]. inversion F; subst. discriminate.
Qed.
(** The outcome of one wait under one timeout. *)
Theorem C95_exact (n : option nat) s t t' st' r :
  run (Within (Fail_after (Some s)) (Wait n)) t [] t' st' r ->
  match n with Some n => Z.of_nat n < s -> r = Done /\ t' = t + Z.of_nat n | None => True end /\
  (match n with Some n => s < Z.of_nat n | None => True end -> r = Timeout /\ t' = Z.max t (t + s)).
Proof.
  intro R. inversion R as [| | | | | | | | | |? ? ? ? ? s1 st1 ? R1 NE|? ? ? ? ? s1 st1 R1 C|? ? ? ? ? s1 st1 R1 C]; subst.
  - inversion R1 as [|m ? ? P|m ? ? ? P Q La|m ? ? d ? P Q Q' La P'| | | | | | | | |]; subst; try congruence.
    cbn in P. unfold pending in P. cbn [visible existsb enter called shielded starts past] in P. rewrite orb_false_r in P. apply Z.leb_gt in P. split; [auto|].
    intro L. destruct Q as [->|Q]; [lia|]. specialize (Q _ eq_refl). lia.
  - assert (T : stopped (Fail_after (Some s)) s1 t' = if t + s <=? t' then Timeout else Done).
    { unfold stopped. destruct (run_same _ _ _ _ _ _ R1) as [_ F]. inversion F as [|? ? ? ? (D & _)]; subst. rewrite D. reflexivity. }
    rewrite T. inversion R1 as [|m ? ? P|m ? ? ? P Q La|m ? ? d ? P Q Q' La P'| | | | | | | | |]; subst;
      unfold pending in P; cbn [visible existsb enter called shielded starts past] in P; rewrite orb_false_r in P.
    + rewrite P. apply Z.leb_le in P. split; [destruct n; [lia|exact I]|]. intros _. split; [reflexivity|lia].
    + injection Q as <-. apply Z.leb_gt in P. split.
      * destruct n; [|exact I]. lia.
      * intros _. replace (Z.max t (t + s)) with (t + s) by lia. rewrite Z.leb_refl. auto.
  - exfalso. assert (P := run_pending _ _ _ _ _ R1). assert (F := proj2 (run_same _ _ _ _ _ _ R1)). inversion F as [|? ? ? ? _ F']; subst. inversion F'; subst.
    unfold pending in *. cbn in *. destruct C as [C|C]; [|discriminate]. rewrite C in P. destruct (shielded s1); discriminate.
Qed.

(** A cancellation is not caught by except clauses. *)
Theorem C95_uncaught p q t st t' st' r : (forall t1 st1 r1, run p t st t1 st1 r1 -> r1 = Cancelled) ->
  run (Try p q) t st t' st' r -> r = Cancelled /\ run p t st t' st' Cancelled.
Proof.
  intros A R. inversion R as [| | | | | | | |? ? ? ? ? ? ? R1 N|? ? ? ? t1 st1 r1 ? ? ? R1 N R2| | |]; subst.
  - assert (X := A _ _ _ R1). subst. auto.
  - rewrite (A _ _ _ R1) in N. destruct N; discriminate.
Qed.
(** Under a cancelled scope, a program without shields waits for nothing. *)
Theorem C95_over p : unshielded p = true -> forall t st t' st' r, pending st = true -> run p t st t' st' r -> t' <= t + work p.
Proof.
  induction p as [n|n| |i|p IHp q IHq|p IHp q IHq|k p IHp]; cbn [unshielded work]; intros U t st t' st' r L R.
  - inversion R; subst. lia.
  - inversion R; subst; try congruence; lia.
  - inversion R; subst. lia.
  - inversion R; subst. lia.
  - apply andb_true_iff in U. destruct U as [U1 U2]. assert (W := work_pos q).
    inversion R as [| | | | | |? ? ? ? t1 st1 ? ? ? R1 R2|? ? ? ? ? ? ? R1 N| | | | |]; subst; assert (A := IHp U1 _ _ _ _ _ L R1); [|lia].
    assert (B := IHq U2 _ _ _ _ _ (proj2 (visible_same _ _ (proj2 (run_same _ _ _ _ _ _ R1))) L) R2). lia.
  - apply andb_true_iff in U. destruct U as [U1 U2]. assert (W := work_pos q).
    inversion R as [| | | | | | | |? ? ? ? ? ? ? R1 N|? ? ? ? t1 st1 r1 ? ? ? R1 N R2| | |]; subst; assert (A := IHp U1 _ _ _ _ _ L R1); [lia|].
    assert (B := IHq U2 _ _ _ _ _ (proj2 (visible_same _ _ (proj2 (run_same _ _ _ _ _ _ R1))) L) R2). lia.
  - assert (S : shielded (enter k t) = false /\ unshielded p = true) by (destruct k; try discriminate; auto). destruct S as [S U'].
    assert (X : exists r st1, run p t (enter k t :: st) t' st1 r) by (inversion R; subst; eauto).
    destruct X as (r1 & st1 & R1). refine (IHp U' _ _ _ _ _ _ R1). unfold pending in *. cbn [visible existsb]. rewrite S, L. apply orb_true_r.
Qed.

(** ** effective_deadline *)
(** A number is the time by which a program without shields ends, up to its blocking work. *)
Theorem C95_effective st d p t t' st' r : effective_deadline st = Some d -> unshielded p = true -> run p t st t' st' r ->
  t' <= Z.max t d + work p.
Proof. unfold effective_deadline. destruct (pending st); [discriminate|]. intros L U R. eapply timely; eassumption. Qed.
(** In a new timeout it is the earlier of its deadline and the one outside. *)
Theorem C95_effective_nested k t st d : k <> Shield -> pending st = false -> due k t = Some d -> t < d ->
  effective_deadline (enter k t :: st) = Some (match effective_deadline st with Some e => Z.min d e | None => d end).
Proof.
  rewrite <- starts_due. intros K P S L. assert (H : shielded (enter k t) = false) by (destruct k; congruence || reflexivity).
  assert (Q : past (Some d) t = false) by (apply Z.leb_gt; exact L).
  unfold effective_deadline, pending, limit in *. cbn [visible existsb map fold_right]. rewrite H. unfold enter. cbn [called deadline]. rewrite S, Q. cbn [orb]. rewrite P.
  destruct (fold_right _ _ _); reflexivity.
Qed.
(** None does not mean that there is no deadline: in a timeout that is over, every wait is
    cancelled at once. *)
Theorem C95_effective_refuted t :
  let st := [enter (Move_on_at (Some (t - 1))) t] in
  effective_deadline st = None /\ forall n t' st' r, run (Wait n) t st t' st' r -> r = Cancelled /\ t' = t.
Proof.
  cbn zeta. assert (P : pending [enter (Move_on_at (Some (t - 1))) t] = true).
  { unfold pending. cbn. rewrite orb_false_r. apply Z.leb_le. lia. }
  split; [unfold effective_deadline; rewrite P; reflexivity|]. intros n t' st' r R. inversion R; subst; try congruence; auto.
Qed.

(** ** shield *)
(** The program cancels no scopes but its own. *)
Fixpoint free (i : nat) (p : prog) : bool :=
  match p with
  | Cancel j => Nat.ltb j i
  | Seq p q | Try p q => free i p && free i q
  | Within _ p => free (S i) p
  | _ => true
  end.
Lemma visible_shield a s b : shielded s = true -> visible (a ++ s :: b) = visible (a ++ [s]).
Proof. intro S. induction a as [|x a IH]; cbn; [rewrite S; reflexivity|]. rewrite IH. reflexivity. Qed.
Definition closed (s : scope) : Prop := shielded s = true /\ called s = false /\ deadline s = None.
Lemma later_shield t a s b x : closed s -> later t (a ++ s :: b) x ->
  exists a' b', x = a' ++ s :: b' /\ length a' = length a /\ later t (a ++ [s]) (a' ++ [s]).
Proof.
  intros (C1 & C2 & C3). revert x. induction a as [|y a IH]; intros x H; inversion H as [|? z ? x' F H']; subst.
  - exists [], x'. destruct F as (F1 & F2 & F3). assert (z = s).
    { destruct s as [d c h], z as [d' c' h']; cbn in *. subst. destruct F3 as [->|[-> P]]; [reflexivity|discriminate]. }
    subst. split; [reflexivity|]. split; [reflexivity|]. constructor; [repeat split; auto|constructor].
  - destruct (IH _ H') as (a' & b' & -> & L & K). exists (z :: a'), b'. split; [reflexivity|]. split; [cbn; congruence|constructor; assumption].
Qed.
Lemma cancel_shield i a s b : Nat.ltb i (length a) = true -> exists a', cancel i (a ++ s :: b) = a' ++ s :: b /\ length a' = length a /\ cancel i (a ++ [s]) = a' ++ [s].
Proof.
  revert i. induction a as [|x a IH]; intros i; cbn [length app]; [intro H; apply Nat.ltb_lt in H; lia|].
  destruct i as [|i]; cbn [cancel].
  - exists (Scope (deadline x) true (shielded x) :: a). auto.
  - intro H. destruct (IH i) as (a' & E1 & L & E2); [apply Nat.ltb_lt in H; apply Nat.ltb_lt; lia|]. exists (x :: a'). cbn. rewrite E1, E2, L. auto.
Qed.
Lemma behind_shield p : forall a s b t t' x r, closed s -> free (length a) p = true -> run p t (a ++ s :: b) t' x r ->
  exists a' b', x = a' ++ s :: b' /\ length a' = length a /\ run p t (a ++ [s]) t' (a' ++ [s]) r.
Proof.
  induction p as [n|n| |i|p IHp q IHq|p IHp q IHq|k p IHp]; cbn [free]; intros a s b t t' x r N D R.
  - inversion R; subst. exists a, b. repeat split; constructor.
  - assert (V : forall a b, pending (a ++ s :: b) = pending (a ++ [s]) /\ limit (a ++ s :: b) = limit (a ++ [s])).
    { intros a0 b0. unfold pending, limit. rewrite (visible_shield a0 s b0 (proj1 N)). auto. }
    destruct (V a b) as [P L].
    inversion R as [|? ? ? Q|n' ? ? ? Q W La|? ? ? d' ? Q L0 W La Q'| | | | | | | | |]; subst.
    + exists a, b. repeat split. constructor. congruence.
    + destruct (later_shield _ _ _ _ _ N La) as (a' & b' & -> & Le & La'). exists a', b'. repeat split; [exact Le|].
      apply R_wait; [congruence|rewrite <- L; exact W|exact La'].
    + destruct (later_shield _ _ _ _ _ N La) as (a' & b' & -> & Le & La'). exists a', b'. repeat split; [exact Le|].
      apply R_deadline; [congruence|congruence|exact W|exact La'|rewrite <- (proj1 (V a' b')); exact Q'].
  - inversion R; subst. exists a, b. repeat split; constructor.
  - inversion R; subst. destruct (cancel_shield i a s b D) as (a' & E1 & L & E2). exists a', b. split; [exact E1|]. split; [exact L|].
    rewrite <- E2. constructor.
  - apply andb_true_iff in D. destruct D as [D1 D2].
    inversion R as [| | | | | |? ? ? ? t1 st1 ? ? ? R1 R2|? ? ? ? ? ? ? R1 NE| | | | |]; subst.
    + destruct (IHp _ _ _ _ _ _ _ N D1 R1) as (a1 & b1 & -> & L1 & R1'). rewrite <- L1 in D2.
      destruct (IHq _ _ _ _ _ _ _ N D2 R2) as (a2 & b2 & -> & L2 & R2'). exists a2, b2. repeat split; [congruence|]. eapply R_seq; eassumption.
    + destruct (IHp _ _ _ _ _ _ _ N D1 R1) as (a1 & b1 & -> & L1 & R1'). exists a1, b1. repeat split; [exact L1|]. apply R_seq_end; assumption.
  - apply andb_true_iff in D. destruct D as [D1 D2].
    inversion R as [| | | | | | | |? ? ? ? ? ? ? R1 NE|? ? ? ? t1 st1 r1 ? ? ? R1 NE R2| | |]; subst.
    + destruct (IHp _ _ _ _ _ _ _ N D1 R1) as (a1 & b1 & -> & L1 & R1'). exists a1, b1. repeat split; [exact L1|]. apply R_try; assumption.
    + destruct (IHp _ _ _ _ _ _ _ N D1 R1) as (a1 & b1 & -> & L1 & R1'). rewrite <- L1 in D2.
      destruct (IHq _ _ _ _ _ _ _ N D2 R2) as (a2 & b2 & -> & L2 & R2'). exists a2, b2. repeat split; [congruence|]. eapply R_except; eassumption.
  - inversion R as [| | | | | | | | | |? ? ? ? ? s1 st1 ? R1 NE|? ? ? ? ? s1 st1 R1 C|? ? ? ? ? s1 st1 R1 C]; subst;
      destruct (IHp (enter k t :: a) s b t t' _ _ N D R1) as ([|y a1] & b1 & E & L1 & R1'); try discriminate; cbn in E, L1; injection E as -> ->; injection L1 as L1;
      exists a1, b1; (split; [reflexivity|]); (split; [exact L1|]).
    + eapply R_within; eassumption.
    + eapply R_stop; eassumption.
    + eapply R_pass; [eassumption|]. unfold pending in *. rewrite (visible_shield a1 s b1 (proj1 N)) in C. exact C.
Qed.
(** In a shield a program runs as if there were no scopes around, and is not cancelled. *)
Theorem C95_shield p t st t' st' r : free 0 p = true -> run (Within Shield p) t st t' st' r ->
  r <> Cancelled /\ run (Within Shield p) t [] t' [] r.
Proof.
  intros F R. assert (N : closed (enter Shield t)) by (repeat split).
  inversion R as [| | | | | | | | | |? ? ? ? ? s1 st1 ? R1 NE|? ? ? ? ? s1 st1 R1 C|? ? ? ? ? s1 st1 R1 C]; subst;
    destruct (behind_shield p [] _ st _ _ _ _ N F R1) as ([|y a'] & b' & E & L & R'); try discriminate; cbn in E, R'; injection E as -> ->.
  - split; [exact NE|]. eapply R_within; eassumption.
  - discriminate.
  - apply run_pending in R'. discriminate.
Qed.

(** ** Every program runs *)
Fixpoint ends (p : prog) : bool :=
  match p with
  | Wait None => false
  | Seq p q | Try p q => ends p && ends q
  | Within _ p => ends p
  | _ => true
  end.
Definition fire (t : Z) (s : scope) : scope := Scope (deadline s) (called s || past (deadline s) t) (shielded s).
Lemma fire_later t st : later t st (map (fire t) st).
Proof.
  induction st as [|s st IH]; constructor; [|exact IH]. repeat split. cbn. destruct (called s) eqn:C; cbn; [auto|]. destruct (past (deadline s) t); auto.
Qed.
Lemma fire_pending t st d : limit st = Some d -> d <= t -> pending (map (fire t) st) = true.
Proof.
  unfold limit, pending. intros L D. revert d L D. induction st as [|s st IH]; [discriminate|]. intros d. cbn. destruct (shielded s) eqn:S; cbn.
  - intros L D. destruct (deadline s) as [x|]; cbn in *; [|discriminate]. injection L as ->. apply Z.leb_le in D. rewrite D, !orb_true_r. reflexivity.
  - destruct (fold_right _ _ _) as [y|] eqn:F.
    + destruct (deadline s) as [x|]; cbn; intros [= <-] D.
      * destruct (Z.min_dec x y) as [M|M]; rewrite M in D; [apply Z.leb_le in D; rewrite D, orb_true_r; reflexivity|].
        rewrite (IH y eq_refl D), !orb_true_r. reflexivity.
      * rewrite (IH y eq_refl D), !orb_true_r. reflexivity.
    + destruct (deadline s) as [x|]; cbn; intros [= <-] D. apply Z.leb_le in D. rewrite D, orb_true_r. reflexivity.
Qed.
Theorem C95_runs p t st : ends p = true -> exists t' st' r, run p t st t' st' r.
Proof.
  revert t st. induction p as [n|n| |i|p IHp q IHq|p IHp q IHq|k p IHp]; cbn [ends]; intros t st E.
  - repeat eexists. constructor.
  - destruct n as [n|]; [|discriminate]. destruct (pending st) eqn:P; [repeat eexists; constructor; exact P|].
    assert (La : forall t, later t st st) by (intro; clear; induction st; constructor; [repeat split; auto|assumption]).
    destruct (limit st) as [d|] eqn:L; [|repeat eexists; apply (R_wait n t st st P); [right; intros; congruence|apply La]].
    destruct (Z_le_dec (t + Z.of_nat n) d) as [D|D].
    + repeat eexists. apply (R_wait n t st st P); [right; intros d0 E0; rewrite L in E0; injection E0 as <-; exact D|apply La].
    + repeat eexists. apply (R_deadline (Some n) t st d _ P L); [lia|apply fire_later|]. eapply fire_pending; [exact L|lia].
  - repeat eexists. constructor.
  - repeat eexists. constructor.
  - apply andb_true_iff in E. destruct E as [E1 E2]. destruct (IHp t st E1) as (t1 & st1 & r & R1).
    assert (X : r = Done \/ r <> Done) by (destruct r; auto; right; discriminate). destruct X as [->|X].
    + destruct (IHq t1 st1 E2) as (t2 & st2 & r2 & R2). repeat eexists. eapply R_seq; eassumption.
    + repeat eexists. apply R_seq_end; eassumption.
  - apply andb_true_iff in E. destruct E as [E1 E2]. destruct (IHp t st E1) as (t1 & st1 & r & R1).
    assert (X : (r = Done \/ r = Cancelled) \/ (r = Timeout \/ r = Error)) by (destruct r; auto). destruct X as [X|X].
    + repeat eexists. apply R_try; eassumption.
    + destruct (IHq t1 st1 E2) as (t2 & st2 & r2 & R2). repeat eexists. eapply R_except; eassumption.
  - destruct (IHp t (enter k t :: st) E) as (t1 & st1 & r & R1). assert (F := proj2 (run_same _ _ _ _ _ _ R1)). inversion F as [|? s ? st1' _ _]; subst.
    assert (X : r = Cancelled \/ r <> Cancelled) by (destruct r; auto; right; discriminate). destruct X as [->|X].
    + destruct (called s) eqn:C; repeat eexists; [eapply R_stop|eapply R_pass]; eauto.
    + repeat eexists. eapply R_within; eassumption.
Qed.

(** ** What timeouts do not do *)
(** Work without a wait is not interrupted, and fail_after raises nothing after it, however
    long it took; also if the deadline of fail_at had passed before. *)
Theorem C95_work_refuted k n t st t' st' r : run (Within k (Work n)) t st t' st' r -> r = Done /\ t' = t + Z.of_nat n.
Proof.
  intro R. inversion R as [| | | | | | | | | |? ? ? ? ? s1 st1 ? R1 NE|? ? ? ? ? s1 st1 R1 C|? ? ? ? ? s1 st1 R1 C]; subst; inversion R1; subst; auto.
Qed.
(** Cancelling the scope of fail_after before its deadline: no TimeoutError. *)
Theorem C95_cancel_refuted s n t t' st' r : 0 < s -> run (Within (Fail_after (Some s)) (Seq (Cancel 0) (Wait n))) t [] t' st' r -> r = Done /\ t' = t.
Proof.
  intros S R. assert (T : forall t1 x r1, run (Seq (Cancel 0) (Wait n)) t [enter (Fail_after (Some s)) t] t1 x r1 -> t1 = t /\ r1 = Cancelled /\ x = [Scope (Some (t + s)) true false]).
  { intros t1 x r1 R1. inversion R1 as [| | | | | |? ? ? ? t2 st2 ? ? ? Ra Rb|? ? ? ? ? ? ? Ra NE| | | | |]; subst; inversion Ra; subst; [|congruence].
    inversion Rb; subst; try discriminate. auto. }
  inversion R as [| | | | | | | | | |? ? ? ? ? s1 st1 ? R1 NE|? ? ? ? ? s1 st1 R1 C|? ? ? ? ? s1 st1 R1 C]; subst; destruct (T _ _ _ R1) as (-> & R0 & E); try congruence.
  - injection E as -> ->. cbn. split; [|reflexivity]. replace (t + s <=? t) with false by (symmetry; apply Z.leb_gt; lia). reflexivity.
  - injection E as -> ->. destruct C as [C|C]; discriminate.
Qed.

Print Assumptions C95_timely.
Print Assumptions C95_transparent.
Print Assumptions C95_timeout.
Print Assumptions C95_contained.
Print Assumptions C95_contained_all.
Print Assumptions C95_exact.
Print Assumptions C95_uncaught.
Print Assumptions C95_over.
Print Assumptions C95_effective.
Print Assumptions C95_effective_nested.
Print Assumptions C95_effective_refuted.
Print Assumptions C95_shield.
Print Assumptions C95_runs.
Print Assumptions C95_work_refuted.
Print Assumptions C95_cancel_refuted.

(** * Examples *)
(** A timeout of 10 around one of 30 around a wait of 20: over at 10, and the inner one
    raises nothing. *)
Example ex_nested : run (Within (Fail_after (Some 10)) (Within (Fail_after (Some 30)) (Wait (Some 20%nat)))) 0 [] 10 [] Timeout.
Proof.
  apply (R_stop (Fail_after (Some 10)) _ 0 [] 10 (Scope (Some 10) true false) []); [|reflexivity].
  apply (R_pass _ _ 0 _ 10 (Scope (Some 30) false false)); [|left; reflexivity].
  apply (R_deadline _ 0 _ 10); try reflexivity; [cbn; lia|]. repeat (apply Forall2_cons || apply Forall2_nil); repeat split; cbn; auto.
Qed.
(** The other way round, the outer one does not notice. *)
Example ex_nested' : run (Within (Move_on_after (Some 30)) (Seq (Within (Move_on_after (Some 10)) (Wait (Some 20%nat))) (Wait (Some 5%nat)))) 0 [] 15 [] Done.
Proof.
  apply (R_within _ _ 0 [] 15 (Scope (Some 30) false false)); [|discriminate].
  eapply (R_seq _ _ 0 _ 10).
  - apply (R_stop (Move_on_after (Some 10)) _ 0 _ 10 (Scope (Some 10) true false) [Scope (Some 30) false false]); [|reflexivity].
    apply (R_deadline _ 0 _ 10); try reflexivity; [cbn; lia|]. repeat (apply Forall2_cons || apply Forall2_nil); repeat split; cbn; auto.
  - apply (R_wait 5 10); [reflexivity|right; intros d [= <-]; cbn; lia|]. repeat (apply Forall2_cons || apply Forall2_nil); repeat split; cbn; auto.
Qed.
(** A shielded wait outlives the timeout around it; the next wait is cancelled. *)
Example ex_shield : run (Within (Fail_after (Some 10)) (Seq (Within Shield (Wait (Some 20%nat))) (Wait (Some 1%nat)))) 0 [] 20 [] Timeout.
Proof.
  apply (R_stop (Fail_after (Some 10)) _ 0 [] 20 (Scope (Some 10) true false) []); [|reflexivity].
  eapply (R_seq _ _ 0 _ 20).
  - apply (R_within Shield _ 0 _ 20 (Scope None false true) [Scope (Some 10) true false]); [|discriminate].
    apply (R_wait 20 0); [reflexivity|right; discriminate|]. repeat (apply Forall2_cons || apply Forall2_nil); repeat split; cbn; auto.
  - apply R_pending. reflexivity.
Qed.
Example ex_effective : effective_deadline [enter (Fail_after (Some 10)) 0; enter (Fail_at (Some 7)) 0] = Some 7.
Proof. reflexivity. Qed.
