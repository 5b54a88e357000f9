(** Proofs about fix_json_string. *)
From Coq Require Import List Bool Arith Lia.
From Verif Require Import PyBase ModelJson SpecJson.
Import ListNotations.
Local Open Scope list_scope.

(** Reading a bracket word with a stack of expected closers. *)
Fixpoint run (w : list nat) (open : list nat) : option (list nat) :=
  match w with
  | [] => Some open
  | c :: w =>
      match brackets c with
      | Some b => run w (b :: open)
      | None => match open with [] => None | b :: open => if b =? c then run w open else None end
      end
  end.

Lemma run_app w1 w2 open : run (w1 ++ w2) open = match run w1 open with Some o => run w2 o | None => None end.
Proof.
  revert open; induction w1 as [|c w IH]; intros open; simpl; auto. destruct (brackets c); auto.
  destruct open as [|b open]; auto. destruct (b =? c); auto.
Qed.
Lemma brackets_cases c b : brackets c = Some b <-> (c = 123 /\ b = 125) \/ (c = 91 /\ b = 93).
Proof.
  unfold brackets. destruct (Nat.eqb_spec c 123); [subst; split; [intros [= <-]; auto|intros [(_ & ->)|(X & _)]; [auto|discriminate]]|].
  destruct (Nat.eqb_spec c 91); [subst; split; [intros [= <-]; auto|intros [(X & _)|(_ & ->)]; [discriminate|auto]]|].
  split; [discriminate|]. intros [(X & _)|(X & _)]; congruence.
Qed.
Lemma balanced_run w : balanced w -> forall open, run w open = Some open.
Proof.
  induction 1 as [|a b A IA B IB|a b A IA B IB]; intros open; auto.
  - change (123 :: a ++ 125 :: b) with ([123] ++ a ++ [125] ++ b). rewrite !run_app. cbn [run app brackets Nat.eqb].
    rewrite run_app, IA. cbn. apply IB.
  - change (91 :: a ++ 93 :: b) with ([91] ++ a ++ [93] ++ b). rewrite !run_app. cbn [run app brackets Nat.eqb].
    rewrite run_app, IA. cbn. apply IB.
Qed.

Lemma balanced_app a b : balanced a -> balanced b -> balanced (a ++ b).
Proof.
  induction 1; intros; auto; simpl; rewrite <- app_assoc; simpl; [apply bal_brace|apply bal_square]; auto.
Qed.
(** What follows after [open] are expected decomposes. *)
Fixpoint decomp (w : list nat) (open : list nat) : Prop :=
  match open with
  | [] => balanced w
  | b :: open => exists a r, w = a ++ b :: r /\ balanced a /\ decomp r open
  end.
Lemma decomp_pre a w open : balanced a -> decomp w open -> decomp (a ++ w) open.
Proof.
  destruct open as [|b open]; simpl; [apply balanced_app|]. intros A (a' & r & -> & A' & D).
  exists (a ++ a'), r. rewrite <- app_assoc. split; auto. split; auto. now apply balanced_app.
Qed.
Lemma run_decomp w : forall open, run w open = Some [] -> decomp w open.
Proof.
  induction w as [|c w IH]; intros open R; simpl in R.
  - injection R as ->. constructor.
  - destruct (brackets c) as [b|] eqn:B.
    + apply IH in R. simpl in R. destruct R as (a & r & -> & A & D).
      assert (P : balanced (c :: a ++ [b])).
      { apply brackets_cases in B. destruct B as [(-> & ->)|(-> & ->)]; [apply bal_brace|apply bal_square]; auto; constructor. }
      replace (c :: a ++ b :: r) with ((c :: a ++ [b]) ++ r) by (simpl; rewrite <- app_assoc; reflexivity).
      now apply decomp_pre.
    + destruct open as [|b open]; [discriminate|]. destruct (Nat.eqb_spec b c) as [->|]; [|discriminate].
      apply IH in R. simpl. exists [], w. split; auto. split; [constructor|auto].
Qed.
Lemma run_balanced w : run w [] = Some [] <-> balanced w.
Proof. split; [apply (run_decomp w [])|]. intros B. now apply balanced_run. Qed.

Lemma run_stack w : forall open o, Forall is_closer open -> run w open = Some o -> Forall is_closer o.
Proof.
  induction w as [|c w IH]; intros open o F R; simpl in R; [injection R as <-; auto|].
  destruct (brackets c) eqn:B.
  - eapply IH; [|exact R]. constructor; auto. apply brackets_cases in B. unfold is_closer. tauto.
  - destruct open; [discriminate|]. inversion F; subst. destruct (n =? c); [|discriminate]. eapply IH; eauto.
Qed.
Lemma run_closers t : Forall is_closer t -> forall open, run t open = Some [] <-> t = open.
Proof.
  induction 1 as [|c t C F IH]; intros open; simpl; [split; congruence|].
  assert (B : brackets c = None) by (destruct C as [->| ->]; reflexivity). rewrite B.
  destruct open as [|b open]; [split; discriminate|]. destruct (Nat.eqb_spec b c) as [->|N].
  - rewrite IH. split; congruence.
  - split; [discriminate|]. intros [= -> _]. congruence.
Qed.

(** ** The scanner *)
Lemma skip_len s : length (skip_string s) <= length s.
Proof.
  assert (G : forall n s, length s <= n -> length (skip_string s) <= length s).
  { induction n as [|n IH]; intros [|c t] L; simpl in *; try lia. destruct (c =? backslash).
    - destruct t as [|d t]; simpl in *; [lia|]. specialize (IH t ltac:(lia)). lia.
    - destruct (c =? quote); [lia|]. specialize (IH t ltac:(lia)). lia. }
  eapply G; eauto.
Qed.
Lemma skip_outer n : forall s, length s <= n ->
  outer Str s = outer Out (skip_string s).
Proof.
  induction n as [|n IH]; intros [|c t] L; simpl in *; try lia; auto. unfold backslash, quote.
  destruct (c =? 92).
  - destruct t as [|d t]; auto. simpl. apply IH. simpl in L. lia.
  - destruct (c =? 34); auto. apply IH. lia.
Qed.
Lemma closer_bracket c : closer c = true -> is_bracket c = true /\ brackets c = None.
Proof.
  unfold closer, is_bracket, brackets. intros H. apply orb_true_iff in H.
  destruct H as [H|H]; apply Nat.eqb_eq in H; subst; auto.
Qed.
Lemma brackets_bracket c b : brackets c = Some b -> is_bracket c = true.
Proof. intros H. apply brackets_cases in H. destruct H as [(-> & _)|(-> & _)]; reflexivity. Qed.
Lemma not_bracket c : brackets c = None -> closer c = false -> is_bracket c = false.
Proof.
  unfold closer, is_bracket, brackets. destruct (c =? 123); [discriminate|]. destruct (c =? 91); [discriminate|].
  intros _ H. apply orb_false_iff in H. destruct H as (-> & ->). reflexivity.
Qed.
Lemma scan_run fuel : forall s open, length s <= fuel ->
  scan fuel s open = match run (outer Out s) open with Some o => Ret o | None => Raise ValueError end.
Proof.
  induction fuel as [|fuel IH]; intros [|c t] open L; simpl in L; try lia; auto.
  cbn [scan]. unfold backslash, quote. cbn [outer].
  destruct (Nat.eqb_spec c 92) as [->|N1].
  { cbn [is_bracket Nat.eqb orb]. rewrite IH by (destruct t; simpl in *; lia). destruct t as [|d t]; auto. }
  destruct (Nat.eqb_spec c 34) as [->|N2].
  { rewrite IH by (pose proof (skip_len t); lia). rewrite <- (skip_outer (length t)) by auto. reflexivity. }
  assert (NX : next Out c = Out).
  { unfold next. apply Nat.eqb_neq in N1, N2. now rewrite N1, N2. }
  rewrite NX. destruct (brackets c) as [b|] eqn:B.
  - rewrite (brackets_bracket c b B). cbn [run]. rewrite B. apply IH. lia.
  - destruct (closer c) eqn:C.
    + destruct (closer_bracket c C) as (-> & _). cbn [run]. rewrite B. destruct open as [|o open]; auto.
      destruct (o =? c); auto. apply IH. lia.
    + rewrite (not_bracket c B C). apply IH. lia.
Qed.

Lemma outer_closers t : Forall is_closer t -> outer Out t = t.
Proof. induction 1 as [|c t [->| ->] F IH]; simpl; auto; now rewrite IH. Qed.
Lemma outer_app s t : forall m, outer m (s ++ t) = outer m s ++ outer (fold_left next s m) t.
Proof.
  induction s as [|c s IH]; intros m; simpl; auto. rewrite !IH. destruct m; auto. destruct (is_bracket c); auto.
Qed.
Lemma final_closers t : Forall is_closer t -> fold_left next t Out = Out.
Proof. induction 1 as [|c t [->| ->] F IH]; simpl; auto. Qed.

Lemma fix_spec s : s <> [] ->
  fix_json_string s = match run (outer Out s) [] with Some o => Ret (s ++ o) | None => Raise ValueError end.
Proof. intros N. unfold fix_json_string. destruct s; [congruence|]. rewrite scan_run by auto. destruct (run _ _); auto. Qed.
(** A prefix that can be completed. *)
Lemma run_none w : run w [] = None <-> forall t, ~ balanced (w ++ t).
Proof.
  split.
  - intros R t B. apply run_balanced in B. rewrite run_app, R in B. discriminate.
  - intros H. destruct (run w []) as [o|] eqn:R; auto. exfalso. apply (H o), run_balanced. rewrite run_app, R.
    apply run_closers; auto. eapply run_stack; [|exact R]. constructor.
Qed.
