From Coq Require Import String.
From Coq Require Import List Bool Arith ZArith QArith Qabs Lia Lqa.
From Verif Require Import PyBase PyFacts ModelLexer ModelParser ModelResolver ModelFuzzy SpecFuzzy SpecSim.
From Verif Require ModelSim PropertiesSim.
Import ListNotations.
Local Close Scope Q_scope.
Local Open Scope string_scope.
Local Open Scope nat_scope.
Local Open Scope list_scope.
#[local] Arguments eqb : simpl never.

Lemma existsb_eqb (a : text) l : existsb (eqb a) l = true <-> In a l.
Proof.
  rewrite existsb_exists. split.
  - intros (x & I & E). destruct (eqb_spec a x); [subst; exact I|discriminate].
  - intros I. exists a. split; [exact I|]. destruct (eqb_spec a a); congruence.
Qed.
Lemma existsb_eqb_false (a : text) l : existsb (eqb a) l = false <-> ~ In a l.
Proof. rewrite <- existsb_eqb. destruct (existsb (eqb a) l); split; congruence. Qed.
Lemma Qle_false x y : Qle_bool x y = false <-> (y < x)%Q.
Proof.
  split; intros H.
  - apply Qnot_le_lt. intros L. apply Qle_bool_iff in L. congruence.
  - destruct (Qle_bool x y) eqn:E; [|reflexivity]. apply Qle_bool_iff in E. lra.
Qed.

Lemma argmax_ok l best :
  In (argmax best l) (best :: l) /\ forall e, In e (best :: l) -> (snd e <= snd (argmax best l))%Q.
Proof.
  revert best. induction l as [|e l IH]; intros best; cbn [argmax].
  - split; [left; reflexivity|]. intros e [<-|[]]. lra.
  - destruct (Qle_bool (snd e) (snd best)) eqn:E.
    + apply Qle_bool_iff in E. destruct (IH best) as [I M]. split.
      * destruct I as [I|I]; [left|right; right]; auto.
      * intros x [<-|[<-|I']]; [apply M; left; reflexivity| |apply M; right; exact I'].
        specialize (M best (or_introl eq_refl)). lra.
    + apply Qle_false in E. destruct (IH e) as [I M]. split.
      * destruct I as [I|I]; right; [left|right]; auto.
      * intros x [<-|I']; [|apply M; exact I']. specialize (M e (or_introl eq_refl)). lra.
Qed.

Section Correct.
Variables (lowers : text -> text) (score : text -> text -> Q).
Notation correct_name := (correct_name lowers score).
Notation eligible := (eligible lowers score).
Notation corrects := (corrects lowers score).
Notation unknown := (unknown lowers score).
Notation ambiguous := (ambiguous lowers score).

Lemma scores_ok a words d :
  NoDup (dkeys d) -> (forall k q, In (k, q) d -> q = score a k) ->
  let d' := fold_left (fun d c => dset c (score a c) d) words d in
  NoDup (dkeys d') /\ (forall k q, In (k, q) d' -> q = score a k) /\ forall k, In k (dkeys d') <-> In k (dkeys d) \/ In k words.
Proof.
  revert d. induction words as [|w words IH]; intros d N H; cbn [fold_left].
  - cbn. split; [exact N|]. split; [exact H|]. tauto.
  - destruct (IH (dset w (score a w) d)) as (N' & H' & K').
    + apply dkeys_dset_NoDup. exact N.
    + intros k q I. apply In_dget in I; [|apply dkeys_dset_NoDup; exact N]. rewrite dget_dset in I.
      destruct (eqb_spec k w) as [->|NE].
      * injection I as <-. reflexivity.
      * apply dget_In in I. apply H. exact I.
    + split; [exact N'|]. split; [exact H'|]. intros k. rewrite K'. rewrite In_dkeys_dset. cbn [In]. intuition.
Qed.

Lemma ties_one (f : text * Q -> bool) l : NoDup (dkeys l) -> (1 <? length (filter f l)) = true <-> exists x y, In x l /\ In y l /\ fst x <> fst y /\ f x = true /\ f y = true.
Proof.
  intros N. rewrite Nat.ltb_lt. assert (NoDup (dkeys (filter f l))) as N'.
  { clear - N. induction l as [|e l IH]; cbn; [constructor|]. inversion N as [|? ? N1 N2]; subst.
    destruct (f e); [|auto]. constructor; [|auto]. intros I. apply N1. unfold dkeys in *. apply in_map_iff in I as (z & E & I).
    apply filter_In in I as [I _]. apply in_map_iff. eauto. }
  split.
  - intros L. destruct (filter f l) as [|x [|y r]] eqn:E; cbn in L; try lia.
    exists x, y. assert (In x (filter f l) /\ In y (filter f l)) as [I1 I2] by (rewrite E; cbn; auto).
    apply filter_In in I1 as [I1 F1]. apply filter_In in I2 as [I2 F2]. repeat split; auto.
    intros EQ. cbn in N'. inversion N' as [|? ? N1 N2]; subst. apply N1. left. congruence.
  - intros (x & y & I1 & I2 & NE & F1 & F2).
    assert (In x (filter f l)) as J1 by (apply filter_In; auto). assert (In y (filter f l)) as J2 by (apply filter_In; auto).
    destruct (filter f l) as [|u [|v r]]; cbn; try lia; [contradiction|]. destruct J1 as [<-|[]], J2 as [<-|[]]. congruence.
Qed.

Lemma corrects_fun thr cands a b b' : corrects thr cands a b -> corrects thr cands a b' -> b = b'.
Proof.
  intros [I|b1 N T0 T1 E M] [I'|b2 N' T0' T1' E' M']; try contradiction; [reflexivity|].
  destruct (list_eq_dec Nat.eq_dec b1 b2) as [|NE]; [assumption|].
  pose proof (M b2 E' (fun H => NE (eq_sym H))). pose proof (M' b1 E NE). lra.
Qed.

Lemma correct_name_ok a cands thr :
  match correct_name a cands thr with
  | Ret b => corrects thr cands a b
  | Raise LNDLMissingField => unknown thr cands a
  | Raise LNDLAmbiguous => ambiguous thr cands a
  | Raise ValueError => unusable thr cands a
  | Raise _ => False
  end.
Proof.
  unfold ModelFuzzy.correct_name. destruct (existsb (eqb a) cands) eqn:EX.
  { apply existsb_eqb in EX. constructor. exact EX. }
  apply existsb_eqb_false in EX. destruct (Qle_bool 1 thr) eqn:T1.
  { apply Qle_bool_iff in T1. split; [exact EX|]. left. exact T1. }
  apply Qle_false in T1.
  destruct (PropertiesSim.C44_errors lowers score a cands false thr false) as [B G].
  destruct (Qle_bool 0 thr) eqn:T0; [apply Qle_bool_iff in T0|apply Qle_false in T0].
  2:{ destruct B as [_ ->]; [right; intros [H _]; lra|]. split; [exact EX|]. split; [exact T1|]. right. exact T0. }
  destruct (list_eq_dec (list_eq_dec Nat.eq_dec) cands []) as [->|NE].
  { destruct B as [_ ->]; [left; reflexivity|]. split; [exact EX|]. split; [exact T1|]. left. reflexivity. }
  destruct (G NE T0 ltac:(lra)) as (_ & l & _ & E). rewrite E. apply PropertiesSim.C44_all in E. clear B G.
  assert (forall i w q, PropertiesSim.candidate lowers score a cands false thr false i w q <->
     nth_error cands i = Some w /\ q = score (lowers a) (lowers w) /\ (thr <= q)%Q) as CD.
  { intros i w q. unfold PropertiesSim.candidate, reaches, PropertiesSim.form, PropertiesSim.admits. cbn. tauto. }
  destruct l as [words|].
  2:{ split; [exact EX|]. right. split; [exact NE|]. split; [exact T0|]. intros c [I L]. apply In_nth_error in I as [i I].
      apply (E i c (score (lowers a) (lowers c))). apply CD. auto. }
  assert (forall c, In c words <-> eligible thr cands a c) as EL.
  { destruct E as (ranked & -> & _ & _ & _ & E). intros c. rewrite in_map_iff. split.
    - intros ([[i w] q] & <- & I). apply E, CD in I as (I & -> & L). apply nth_error_In in I. split; assumption.
    - intros [I L]. apply In_nth_error in I as [i I]. exists (i, c, score (lowers a) (lowers c)). split; [reflexivity|].
      apply E, CD. auto. }
  assert (words <> []) as WN by (destruct E as (ranked & -> & R & _); destruct ranked; [congruence|discriminate]).
  clear E CD. destruct (scores_ok a words []) as (N & SC & K); [constructor|contradiction|].
  remember (fold_left (fun d c => dset c (score a c) d) words []) as sc.
  assert (forall k, In k (dkeys sc) <-> eligible thr cands a k) as K' by (intros k; rewrite K, EL; cbn; tauto).
  assert (forall k q, In (k, q) sc <-> eligible thr cands a k /\ q = score a k) as K2.
  { intros k q. rewrite <- K'. unfold dkeys. rewrite in_map_iff. split.
    - intros I. split; [exists (k, q); auto|auto].
    - intros [([k' q'] & EK & I) ->]. cbn in EK. subst k'. pose proof (SC _ _ I). subst. exact I. }
  destruct sc as [|s sc].
  { exfalso. destruct words as [|w words]; [congruence|]. apply (K w). right. left. reflexivity. }
  destruct (argmax_ok sc s) as [AI AM]. destruct (argmax s sc) as [b q] eqn:AB. cbn [snd fst] in *.
  apply K2 in AI as [EB ->].
  destruct (1 <? length _) eqn:T.
  - apply ties_one in T as ([x qx] & [y qy] & I1 & I2 & NE' & F1 & F2); [|exact N]. cbn [fst snd] in *.
    rewrite negb_true_iff, Qle_false in F1, F2.
    pose proof (AM _ I1) as M1. pose proof (AM _ I2) as M2. cbn [snd] in M1, M2.
    apply K2 in I1 as [E1 ->]. apply K2 in I2 as [E2 ->].
    assert (best lowers score thr cands a b) as BB.
    { split; [exact EB|]. intros c' E'. apply (AM (c', score a c')). apply K2. auto. }
    split; [exact EX|]. split; [exact T0|]. split; [exact T1|].
    rewrite Qabs_neg in F1, F2 by lra.
    destruct (list_eq_dec Nat.eq_dec b x) as [->|NB].
    + exists x, y. split; [assumption|]. split; [assumption|]. split; [assumption|]. lra.
    + exists b, x. split; [assumption|]. split; [assumption|]. split; [assumption|]. lra.
  - apply co_near; auto. intros c EC NC. apply Qnot_lt_le. intros L.
    assert ((1 <? length (filter (fun e : text * Q => negb (Qle_bool (1 # 20) (Qabs (snd e - score a b)))) (s :: sc))) = true) as X.
    { apply ties_one; [exact N|]. exists (b, score a b), (c, score a c). split; [apply K2; auto|]. split; [apply K2; auto|].
      cbn [fst snd]. split; [congruence|]. rewrite !negb_true_iff, !Qle_false. split.
      - rewrite Qabs_pos; lra.
      - assert (score a c <= score a b)%Q by (apply (AM (c, score a c)); apply K2; auto). rewrite Qabs_neg; lra. }
    congruence.
Qed.

Lemma exclusive thr cands a :
  ~ ((exists b, corrects thr cands a b) /\ unknown thr cands a) /\ ~ ((exists b, corrects thr cands a b) /\ ambiguous thr cands a) /\
  ~ ((exists b, corrects thr cands a b) /\ unusable thr cands a) /\ ~ (unknown thr cands a /\ ambiguous thr cands a) /\
  ~ (unknown thr cands a /\ unusable thr cands a) /\ ~ (ambiguous thr cands a /\ unusable thr cands a).
Proof.
  repeat split.
  - intros [[b C] [N U]]. destruct C as [I|b _ T0 T1 E M]; [contradiction|]. destruct U as [U|(_ & _ & U)]; [lra|]. exact (U _ E).
  - intros [[b C] (N & _ & _ & c & c' & NE & [E1 B] & E2 & L)]. destruct C as [I|b _ T0 T1 E M]; [contradiction|].
    destruct (list_eq_dec Nat.eq_dec c b) as [->|NB].
    + specialize (M c' E2 (fun H => NE (eq_sym H))). lra.
    + specialize (M c E1 NB). specialize (B b E). lra.
  - intros [[b C] (N & T & U)]. destruct C as [I|b _ T0 T1 E M]; [contradiction|]. destruct U as [->|U]; [|lra]. destruct E as [[] _].
  - intros [[_ U] (_ & T0 & T1 & c & c' & _ & [E _] & _)]. destruct U as [U|(_ & _ & U)]; [lra|]. exact (U _ E).
  - intros [[_ U] (_ & T & U')]. destruct U as [U|(U & U0 & _)]; [lra|]. destruct U' as [U'|U']; [contradiction|lra].
  - intros [(_ & T0 & T1 & c & c' & _ & [[E _] _] & _) (_ & _ & U)]. destruct U as [->|U]; [contradiction|lra].
Qed.
Lemma corrects_iff a cands thr b : correct_name a cands thr = Ret b <-> corrects thr cands a b.
Proof.
  pose proof (correct_name_ok a cands thr) as H. pose proof (exclusive thr cands a) as X. split.
  - intros E. rewrite E in H. exact H.
  - intros C. destruct (correct_name a cands thr) as [b'|e]; [f_equal; eapply corrects_fun; eauto|].
    exfalso. destruct e; try contradiction; intuition eauto.
Qed.
Lemma unknown_iff a cands thr : correct_name a cands thr = Raise LNDLMissingField <-> unknown thr cands a.
Proof.
  pose proof (correct_name_ok a cands thr) as H. pose proof (exclusive thr cands a) as X. split.
  - intros E. rewrite E in H. exact H.
  - intros C. destruct (correct_name a cands thr) as [b'|e]; [exfalso; intuition eauto|].
    destruct e; try contradiction; try reflexivity; exfalso; intuition eauto.
Qed.
Lemma ambiguous_iff a cands thr : correct_name a cands thr = Raise LNDLAmbiguous <-> ambiguous thr cands a.
Proof.
  pose proof (correct_name_ok a cands thr) as H. pose proof (exclusive thr cands a) as X. split.
  - intros E. rewrite E in H. exact H.
  - intros C. destruct (correct_name a cands thr) as [b'|e]; [exfalso; intuition eauto|].
    destruct e; try contradiction; try reflexivity; exfalso; intuition eauto.
Qed.
Lemma unusable_iff a cands thr : correct_name a cands thr = Raise ValueError <-> unusable thr cands a.
Proof.
  pose proof (correct_name_ok a cands thr) as H. pose proof (exclusive thr cands a) as X. split.
  - intros E. rewrite E in H. exact H.
  - intros C. destruct (correct_name a cands thr) as [b'|e]; [exfalso; intuition eauto|].
    destruct e; try contradiction; try reflexivity; exfalso; intuition eauto.
Qed.
Lemma correct_name_errors a cands thr e : correct_name a cands thr = Raise e -> e = LNDLMissingField \/ e = LNDLAmbiguous \/ e = ValueError.
Proof. pose proof (correct_name_ok a cands thr) as H. intros E. rewrite E in H. destruct e; try contradiction; auto. Qed.
Lemma corrects_order thr cands cands' a b : (forall c, In c cands <-> In c cands') -> corrects thr cands a b -> corrects thr cands' a b.
Proof.
  intros H [I|b' N T0 T1 [I L] M].
  - constructor. apply H. exact I.
  - apply co_near; auto; [rewrite <- H; exact N|split; [apply H; exact I|exact L]|].
    intros c [I' L'] NE. apply M; [split; [apply H; exact I'|exact L']|exact NE].
Qed.
Lemma correct_name_order thr cands cands' a : (forall c, In c cands <-> In c cands') -> correct_name a cands thr = correct_name a cands' thr.
Proof.
  intros H. assert (forall c, eligible thr cands a c <-> eligible thr cands' a c) as EL by (intros c; unfold SpecFuzzy.eligible; rewrite H; tauto).
  assert (cands = [] <-> cands' = []) as NIL.
  { split; intros ->; [destruct cands' as [|c r]|destruct cands as [|c r]]; try reflexivity; exfalso; apply (H c); left; reflexivity. }
  destruct (correct_name a cands' thr) as [b|e] eqn:E.
  - apply corrects_iff. apply corrects_iff in E. eapply corrects_order; [|exact E]. intros c. symmetry. apply H.
  - destruct (correct_name_errors _ _ _ _ E) as [->|[->| ->]].
    + apply unknown_iff. apply unknown_iff in E as [N U]. split; [rewrite H; exact N|].
      destruct U as [U|(U1 & U2 & U3)]; [left; exact U|]. right. rewrite NIL. split; [exact U1|]. split; [exact U2|]. intros c. rewrite EL. apply U3.
    + apply ambiguous_iff. apply ambiguous_iff in E as (N & T0 & T1 & c & c' & NE & [E1 B] & E2 & L). split; [rewrite H; exact N|].
      split; [exact T0|]. split; [exact T1|]. exists c, c'. split; [exact NE|]. split; [split; [apply EL; exact E1|]|split; [apply EL; exact E2|exact L]].
      intros x X. apply B, EL, X.
    + apply unusable_iff. apply unusable_iff in E as (N & T1 & U). split; [rewrite H; exact N|]. split; [exact T1|]. rewrite NIL. exact U.
Qed.
End Correct.
