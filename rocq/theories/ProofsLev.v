(** The Levenshtein table holds edit distances. *)
From Coq Require Import List Bool Arith ZArith Lia.
From Verif Require Import PyBase ModelSim SpecSim.
Import ListNotations.
Local Open Scope nat_scope.
Local Open Scope list_scope.

(** Alignments of two strings with their cost. *)
Inductive aln : nat -> pystr -> pystr -> Prop :=
| aln_nil : aln 0 [] []
| aln_keep n x a b : aln n a b -> aln n (x :: a) (x :: b)
| aln_sub n x y a b : aln n a b -> aln (S n) (x :: a) (y :: b)
| aln_ins n y a b : aln n a b -> aln (S n) a (y :: b)
| aln_del n x a b : aln n a b -> aln (S n) (x :: a) b.

Fixpoint ed (a : pystr) : pystr -> nat :=
  match a with
  | [] => fun b => length b
  | x :: a' =>
      fix ed_a (b : pystr) : nat :=
        match b with
        | [] => S (length a')
        | y :: b' => min (min (ed a' b + 1) (ed_a b' + 1)) (ed a' b' + (if x =? y then 0 else 1))
        end
  end.

Lemma ed_nil_r a : ed a [] = length a.
Proof. destruct a; auto. Qed.
Lemma ed_cons x a y b :
  ed (x :: a) (y :: b) = min (min (ed a (y :: b) + 1) (ed (x :: a) b + 1)) (ed a b + (if x =? y then 0 else 1)).
Proof. reflexivity. Qed.
Lemma ed_nil_l b : ed [] b = length b.
Proof. reflexivity. Qed.

Lemma aln_ins_all b : aln (length b) [] b.
Proof. induction b; simpl; [constructor|now constructor]. Qed.
Lemma aln_del_all a : aln (length a) a [].
Proof. induction a; simpl; [constructor|now constructor]. Qed.

Lemma ed_aln a b : aln (ed a b) a b.
Proof.
  revert b; induction a as [|x a IHa]; intros b; [apply aln_ins_all|].
  induction b as [|y b IHb]; [apply (aln_del_all (x :: a))|].
  rewrite ed_cons.
  destruct (Nat.min_spec (min (ed a (y :: b) + 1) (ed (x :: a) b + 1)) (ed a b + (if x =? y then 0 else 1))) as [(_ & ->)|(_ & ->)].
  - destruct (Nat.min_spec (ed a (y :: b) + 1) (ed (x :: a) b + 1)) as [(_ & ->)|(_ & ->)].
    + rewrite Nat.add_1_r. now apply aln_del.
    + rewrite Nat.add_1_r. now apply aln_ins.
  - destruct (Nat.eqb_spec x y) as [->|].
    + rewrite Nat.add_0_r. now apply aln_keep.
    + rewrite Nat.add_1_r. now apply aln_sub.
Qed.

Lemma ed_min n a b : aln n a b -> ed a b <= n.
Proof.
  induction 1 as [|n x a b H IH|n x y a b H IH|n y a b H IH|n x a b H IH]; auto.
  - rewrite ed_cons, Nat.eqb_refl. lia.
  - rewrite ed_cons. destruct (x =? y); lia.
  - destruct a as [|x a]; [simpl in *; lia|]. rewrite ed_cons. lia.
  - destruct b as [|y b]; [simpl in *; rewrite ed_nil_r in IH; lia|]. rewrite ed_cons. lia.
Qed.

Lemma aln_app n m a b a' b' : aln n a b -> aln m a' b' -> aln (n + m) (a ++ a') (b ++ b').
Proof. induction 1; simpl; intros; auto using aln. Qed.
Lemma aln_rev n a b : aln n a b -> aln n (rev a) (rev b).
Proof.
  induction 1 as [|n x a b H IH|n x y a b H IH|n y a b H IH|n x a b H IH]; simpl; [constructor| | | |].
  - replace n with (n + 0) by lia. apply aln_app; auto. apply aln_keep, aln_nil.
  - rewrite <- Nat.add_1_r. apply aln_app; auto. apply aln_sub, aln_nil.
  - rewrite <- Nat.add_1_r. rewrite <- (app_nil_r (rev a)). apply aln_app; auto. apply aln_ins, aln_nil.
  - rewrite <- Nat.add_1_r. rewrite <- (app_nil_r (rev b)). apply aln_app; auto. apply aln_del, aln_nil.
Qed.
Lemma aln_sym n a b : aln n a b -> aln n b a.
Proof. induction 1; auto using aln. Qed.
Lemma aln_refl a : aln 0 a a.
Proof. induction a; auto using aln. Qed.

Lemma ed_rev a b : ed (rev a) (rev b) = ed a b.
Proof.
  apply Nat.le_antisymm; apply ed_min.
  - apply aln_rev, ed_aln.
  - rewrite <- (rev_involutive a), <- (rev_involutive b) at 1. rewrite <- (rev_involutive a) at 2. rewrite <- (rev_involutive b) at 2.
    apply aln_rev. rewrite !rev_involutive. apply ed_aln.
Qed.

(** ** The table *)
(** ed ra (prefixes of rb-reversed followed by b) *)
Fixpoint rowof (ra rb b : pystr) : list nat :=
  ed ra rb :: match b with [] => [] | y :: b => rowof ra (y :: rb) b end.

Lemma lev_row_spec x ra b : forall rb,
  lev_row x b (rowof ra rb b) (ed (x :: ra) rb) = tl (rowof (x :: ra) rb b).
Proof.
  induction b as [|y b IH]; intros rb; [reflexivity|].
  cbn [rowof lev_row tl].
  assert (E : match b with [] => [ed ra (y :: rb)] | _ => rowof ra (y :: rb) b end = rowof ra (y :: rb) b) by (destruct b; auto).
  destruct (rowof ra (y :: rb) b) as [|up r] eqn:R; [destruct b; discriminate|].
  assert (U : up = ed ra (y :: rb)) by (destruct b; simpl in R; congruence). subst up.
  rewrite <- ed_cons. rewrite <- R. rewrite IH. destruct b; reflexivity.
Qed.

Lemma lev_rows_spec a : forall ra b i, i = S (length ra) ->
  lev_rows a b i (rowof ra [] b) = rowof (rev a ++ ra) [] b.
Proof.
  induction a as [|x a IH]; intros ra b i ->; [reflexivity|]. cbn [lev_rows].
  replace (S (length ra) :: lev_row x b (rowof ra [] b) (S (length ra))) with (rowof (x :: ra) [] b).
  - rewrite (IH (x :: ra)); auto. simpl rev. now rewrite <- app_assoc.
  - pose proof (lev_row_spec x ra b []) as L. rewrite ed_nil_r in L. simpl length in L. rewrite L.
    destruct b; simpl; reflexivity.
Qed.

Lemma rowof_zero b : forall rb, rowof [] rb b = seq (length rb) (S (length b)).
Proof. induction b as [|y b IH]; intros rb; [reflexivity|]. cbn [rowof]. rewrite IH. reflexivity. Qed.

Lemma last_rowof ra b : forall rb d, last (rowof ra rb b) d = ed ra (rev b ++ rb).
Proof.
  induction b as [|y b IH]; intros rb d; [reflexivity|]. cbn [rowof].
  specialize (IH (y :: rb) d). simpl rev. rewrite <- app_assoc. simpl app. rewrite <- IH.
  destruct (rowof ra (y :: rb) b) eqn:E; [destruct b; discriminate|]. reflexivity.
Qed.

Lemma levenshtein_ed a b : levenshtein a b = ed a b.
Proof.
  unfold levenshtein. destruct a as [|x a]; [reflexivity|]. destruct b as [|y b]; [reflexivity|].
  change (seq 0 (S (length (y :: b)))) with (seq (@length nat []) (S (length (y :: b)))).
  rewrite <- (rowof_zero (y :: b) []). rewrite lev_rows_spec by auto. rewrite last_rowof, !app_nil_r. apply ed_rev.
Qed.

(** ** Edits and alignments *)
Lemma aln_cons_edits n a b x : edits n a b -> edits n (x :: a) (x :: b).
Proof.
  induction 1 as [|n a b c E H IH]; [constructor|]. econstructor; [|exact IH].
  destruct E as [p z s|p z s|p z z' s].
  - apply (edit_ins (x :: p)).
  - apply (edit_del (x :: p)).
  - apply (edit_sub (x :: p)).
Qed.
Lemma aln_edits n a b : aln n a b -> edits n a b.
Proof.
  induction 1 as [|n x a b H IH|n x y a b H IH|n y a b H IH|n x a b H IH].
  - constructor.
  - now apply aln_cons_edits.
  - apply edits_step with (y :: a); [apply (edit_sub [] x y a)|now apply aln_cons_edits].
  - apply edits_step with (y :: a); [apply (edit_ins [] y a)|now apply aln_cons_edits].
  - apply edits_step with a; [apply (edit_del [] x a)|auto].
Qed.

(** An edit on the left changes the cost by at most one. *)
Lemma edit1_aln a b : edit1 a b -> forall n c, aln n b c -> exists m, m <= S n /\ aln m a c.
Proof.
  intros E. destruct E as [p z s|p z s|p z z' s].
  - (* a = p ++ s, b = p ++ z :: s *)
    induction p as [|w p IH]; simpl; intros n c H.
    + remember (z :: s) as zs eqn:Z. induction H as [|n x a b H IH|n x y a b H IH|n y a b H IH|n x a b H IH]; try discriminate.
      * injection Z as -> ->. exists (S n). split; auto using aln.
      * injection Z as -> ->. exists (S n). split; auto using aln.
      * destruct (IH Z) as (m & L & A). exists (S m). split; [lia|auto using aln].
      * injection Z as -> ->. exists n. split; [lia|auto].
    + remember (w :: p ++ z :: s) as zs eqn:Z.
      revert Z. induction H as [|n x a b H IHn|n x y a b H IHn|n y a b H IHn|n x a b H IHn]; intros Z; try discriminate.
      * injection Z as -> ->. destruct (IH _ _ H) as (m & L & A). exists m. split; auto using aln.
      * injection Z as -> ->. destruct (IH _ _ H) as (m & L & A). exists (S m). split; [lia|auto using aln].
      * destruct (IHn Z) as (m & L & A). exists (S m). split; [lia|auto using aln].
      * injection Z as -> ->. destruct (IH _ _ H) as (m & L & A). exists (S m). split; [lia|auto using aln].
  - induction p as [|w p IH]; simpl; intros n c H.
    + exists (S n). split; auto using aln.
    + remember (w :: p ++ s) as zs eqn:Z.
      revert Z. induction H as [|n x a b H IHn|n x y a b H IHn|n y a b H IHn|n x a b H IHn]; intros Z; try discriminate.
      * injection Z as -> ->. destruct (IH _ _ H) as (m & L & A). exists m. split; auto using aln.
      * injection Z as -> ->. destruct (IH _ _ H) as (m & L & A). exists (S m). split; [lia|auto using aln].
      * destruct (IHn Z) as (m & L & A). exists (S m). split; [lia|auto using aln].
      * injection Z as -> ->. destruct (IH _ _ H) as (m & L & A). exists (S m). split; [lia|auto using aln].
  - induction p as [|w p IH]; simpl; intros n c H.
    + remember (z' :: s) as zs eqn:Z. induction H as [|n x a b H IH|n x y a b H IH|n y a b H IH|n x a b H IH]; try discriminate.
      * injection Z as -> ->. exists (S n). split; auto using aln.
      * injection Z as -> ->. exists (S n). split; auto using aln.
      * destruct (IH Z) as (m & L & A). exists (S m). split; [lia|auto using aln].
      * injection Z as -> ->. exists (S n). split; [lia|auto using aln].
    + remember (w :: p ++ z' :: s) as zs eqn:Z.
      revert Z. induction H as [|n x a b H IHn|n x y a b H IHn|n y a b H IHn|n x a b H IHn]; intros Z; try discriminate.
      * injection Z as -> ->. destruct (IH _ _ H) as (m & L & A). exists m. split; auto using aln.
      * injection Z as -> ->. destruct (IH _ _ H) as (m & L & A). exists (S m). split; [lia|auto using aln].
      * destruct (IHn Z) as (m & L & A). exists (S m). split; [lia|auto using aln].
      * injection Z as -> ->. destruct (IH _ _ H) as (m & L & A). exists (S m). split; [lia|auto using aln].
Qed.

Lemma edits_aln n a b : edits n a b -> exists m, m <= n /\ aln m a b.
Proof.
  induction 1 as [a|n a b c E H (m & L & A)]; [exists 0; split; auto; apply aln_refl|].
  destruct (edit1_aln a b E m c A) as (m' & L' & A'). exists m'. split; [lia|auto].
Qed.

Lemma lev_achieved a b : edits (levenshtein a b) a b.
Proof. rewrite levenshtein_ed. apply aln_edits, ed_aln. Qed.
Lemma lev_minimal n a b : edits n a b -> levenshtein a b <= n.
Proof. intros H. rewrite levenshtein_ed. apply edits_aln in H. destruct H as (m & L & A). apply ed_min in A. lia. Qed.

Lemma edits_trans n m a b c : edits n a b -> edits m b c -> edits (n + m) a c.
Proof. induction 1; simpl; auto. intros. econstructor; eauto. Qed.
Lemma edit1_sym a b : edit1 a b -> edit1 b a.
Proof. destruct 1; constructor. Qed.
Lemma edits_sym n a b : edits n a b -> edits n b a.
Proof.
  induction 1 as [|n a b c E H IH]; [constructor|]. rewrite <- Nat.add_1_r.
  eapply edits_trans; eauto. econstructor; [apply edit1_sym, E|constructor].
Qed.

Lemma lev_zero a b : levenshtein a b = 0 <-> a = b.
Proof.
  split.
  - intros H. pose proof (lev_achieved a b) as E. rewrite H in E. now inversion E.
  - intros ->. pose proof (lev_minimal 0 b b (edits_refl b)). lia.
Qed.
Lemma lev_sym a b : levenshtein a b = levenshtein b a.
Proof. apply Nat.le_antisymm; apply lev_minimal, edits_sym, lev_achieved. Qed.
Lemma lev_triangle a b c : levenshtein a c <= levenshtein a b + levenshtein b c.
Proof. apply lev_minimal. eapply edits_trans; apply lev_achieved. Qed.

Lemma edit1_length a b : edit1 a b -> length a <= S (length b) /\ length b <= S (length a).
Proof. destruct 1; rewrite !app_length; simpl; lia. Qed.
Lemma edits_length n a b : edits n a b -> length b <= length a + n.
Proof. induction 1 as [|n a b c E H IH]; [lia|]. apply edit1_length in E. lia. Qed.
Lemma aln_upper a : forall b, exists n, n <= max (length a) (length b) /\ aln n a b.
Proof.
  induction a as [|x a IH]; intros b.
  - exists (length b). split; [simpl; lia|apply aln_ins_all].
  - destruct b as [|y b]; [exists (length (x :: a)); split; [simpl; lia|apply aln_del_all]|].
    destruct (IH b) as (n & L & A). exists (S n). simpl length. split; [lia|now constructor].
Qed.
Lemma lev_upper a b : levenshtein a b <= max (length a) (length b).
Proof. destruct (aln_upper a b) as (n & L & A). rewrite levenshtein_ed. apply ed_min in A. lia. Qed.
Lemma lev_lower a b : length b - length a <= levenshtein a b /\ length a - length b <= levenshtein a b.
Proof.
  pose proof (edits_length _ _ _ (lev_achieved a b)). pose proof (edits_length _ _ _ (lev_achieved b a)).
  rewrite lev_sym in H0. lia.
Qed.
