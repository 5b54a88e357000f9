From Coq Require Import List Bool Arith Lia Sorted Permutation.
From Verif Require Import ModelSemaphore SpecSemaphore.
Import ListNotations.
Local Open Scope nat_scope.

Lemma asked_app : forall a b, asked (a ++ b) = asked a ++ asked b. Proof. intros. apply flat_map_app. Qed.
Lemma granted_app : forall a b, granted (a ++ b) = granted a ++ granted b. Proof. intros. apply flat_map_app. Qed.
Lemma dropped_app : forall a b, dropped (a ++ b) = dropped a ++ dropped b. Proof. intros. apply flat_map_app. Qed.
Lemma released_app : forall a b, released (a ++ b) = released a ++ released b. Proof. intros. apply flat_map_app. Qed.
Lemma extras_app : forall a b, extras (a ++ b) = extras a + extras b.
Proof. intros. unfold extras. now rewrite filter_app, app_length. Qed.
Lemma returns_app : forall a b, returns (a ++ b) = returns a + returns b.
Proof. intros. unfold returns. rewrite released_app, extras_app, app_length. lia. Qed.

Definition nums (l : list ticket) := map fst l.

Record inv (d n : nat) (s : sem) : Prop := {
  i_sum : free s + length (inside s) + length (woken s) + d = n + extras (trace s);
  i_line : 0 < free s -> line s = [];
  i_sorted : StronglySorted lt (nums (granted (trace s) ++ line s));
  i_nodup : NoDup (nums (line s ++ woken s ++ inside s));
  i_asked : nums (asked (trace s)) = seq 0 (count s);
  i_known : forall e, In e (granted (trace s) ++ line s ++ dropped (trace s)) -> In e (asked (trace s));
  i_all : forall e, In e (asked (trace s)) -> In e (granted (trace s) ++ line s ++ dropped (trace s));
  i_held : forall e, In e (woken s ++ inside s) <-> In e (granted (trace s)) /\ ~ In e (dropped (trace s)) /\ ~ In e (released (trace s));
  i_over : forall e, In e (released (trace s)) -> In e (granted (trace s)) /\ ~ In e (dropped (trace s));
  i_ldrop : forall e, In e (line s) -> ~ In e (dropped (trace s))
}.

Lemma in_nums : forall e l, In e l -> In (fst e) (nums l). Proof. intros. now apply in_map. Qed.

Lemma drop_in : forall i l e, In e (drop i l) <-> In e l /\ fst e <> i.
Proof. intros i l e. unfold drop. rewrite filter_In, negb_true_iff, Nat.eqb_neq. tauto. Qed.
Lemma drop_other : forall i l, ~ In i (nums l) -> drop i l = l.
Proof.
  intros i l; induction l as [|a l IH]; intros N; [reflexivity|]. unfold drop, nums in *. cbn [filter map In] in *.
  destruct (Nat.eqb_spec (fst a) i) as [X|]; [tauto|]. cbn. f_equal. apply IH. tauto.
Qed.
Lemma find_in : forall i l e, find_ticket i l = Some e -> In e l /\ fst e = i.
Proof. intros i l e H. apply find_some in H. now rewrite Nat.eqb_eq in H. Qed.
Lemma split_at : forall i l e, find_ticket i l = Some e -> NoDup (nums l) ->
  exists a b, l = a ++ e :: b /\ drop i l = a ++ b.
Proof.
  intros i l e F N. destruct (find_in _ _ _ F) as (I & <-). apply in_split in I as (a & b & ->). exists a, b.
  split; [reflexivity|]. unfold nums in N. rewrite map_app in N. cbn in N.
  pose proof (NoDup_remove_2 _ _ _ N) as X. rewrite in_app_iff in X.
  unfold drop. rewrite filter_app. cbn. rewrite Nat.eqb_refl. cbn. f_equal.
  - apply (drop_other (fst e) a). tauto.
  - apply (drop_other (fst e) b). tauto.
Qed.
Lemma sorted_snoc : forall l x, StronglySorted lt l -> (forall y, In y l -> y < x) -> StronglySorted lt (l ++ [x]).
Proof.
  induction l as [|a l IH]; intros x S B; cbn; [repeat constructor|]. inversion S; subst. constructor.
  - apply IH; [assumption|]. intros y I. apply B. now right.
  - apply Forall_app. split; [assumption|]. constructor; [apply B; now left|constructor].
Qed.
Lemma sorted_del : forall a x b, StronglySorted lt (a ++ x :: b) -> StronglySorted lt (a ++ b).
Proof.
  induction a as [|y a IH]; intros x b S; cbn in *; inversion S; subst; [assumption|]. constructor; [eapply IH; eauto|].
  rewrite Forall_app in *. destruct H2 as [F G]. inversion G; subst. now split.
Qed.
Lemma same_ticket : forall d n s e f, inv d n s -> In e (asked (trace s)) -> In f (asked (trace s)) -> fst e = fst f -> e = f.
Proof.
  intros d n s e f I A B E. assert (N : NoDup (nums (asked (trace s)))) by (rewrite (i_asked _ _ _ I); apply seq_NoDup).
  revert N A B E. generalize (asked (trace s)) as l. induction l as [|a l IH]; intros N A B E; [easy|].
  cbn in N. inversion N; subst. destruct A as [<-|A], B as [<-|B]; auto.
  - exfalso. apply H1. rewrite E. now apply in_nums.
  - exfalso. apply H1. rewrite <- E. now apply in_nums.
Qed.

Lemma log_simpl : forall s x, log s x = Sem (free s) (line s) (woken s) (inside s) (count s) (trace s ++ [x]).
Proof. reflexivity. Qed.

Lemma asked_Asked : forall e, asked [(Asked e)] = [e]. Proof. reflexivity. Qed.
Lemma asked_Granted : forall e, asked [(Granted e)] = []. Proof. reflexivity. Qed.
Lemma asked_Dropped : forall e, asked [(Dropped e)] = []. Proof. reflexivity. Qed.
Lemma asked_Released : forall e, asked [(Released e)] = []. Proof. reflexivity. Qed.
Lemma asked_Extra : asked [Extra] = []. Proof. reflexivity. Qed.
Lemma granted_Asked : forall e, granted [(Asked e)] = []. Proof. reflexivity. Qed.
Lemma granted_Granted : forall e, granted [(Granted e)] = [e]. Proof. reflexivity. Qed.
Lemma granted_Dropped : forall e, granted [(Dropped e)] = []. Proof. reflexivity. Qed.
Lemma granted_Released : forall e, granted [(Released e)] = []. Proof. reflexivity. Qed.
Lemma granted_Extra : granted [Extra] = []. Proof. reflexivity. Qed.
Lemma dropped_Asked : forall e, dropped [(Asked e)] = []. Proof. reflexivity. Qed.
Lemma dropped_Granted : forall e, dropped [(Granted e)] = []. Proof. reflexivity. Qed.
Lemma dropped_Dropped : forall e, dropped [(Dropped e)] = [e]. Proof. reflexivity. Qed.
Lemma dropped_Released : forall e, dropped [(Released e)] = []. Proof. reflexivity. Qed.
Lemma dropped_Extra : dropped [Extra] = []. Proof. reflexivity. Qed.
Lemma released_Asked : forall e, released [(Asked e)] = []. Proof. reflexivity. Qed.
Lemma released_Granted : forall e, released [(Granted e)] = []. Proof. reflexivity. Qed.
Lemma released_Dropped : forall e, released [(Dropped e)] = []. Proof. reflexivity. Qed.
Lemma released_Released : forall e, released [(Released e)] = [e]. Proof. reflexivity. Qed.
Lemma released_Extra : released [Extra] = []. Proof. reflexivity. Qed.
Lemma extras_Asked : forall e, extras [(Asked e)] = 0. Proof. reflexivity. Qed.
Lemma extras_Granted : forall e, extras [(Granted e)] = 0. Proof. reflexivity. Qed.
Lemma extras_Dropped : forall e, extras [(Dropped e)] = 0. Proof. reflexivity. Qed.
Lemma extras_Released : forall e, extras [(Released e)] = 0. Proof. reflexivity. Qed.
Lemma extras_Extra : extras [Extra] = 1. Proof. reflexivity. Qed.
Lemma two : forall (x y : sevent), [x; y] = [x] ++ [y]. Proof. reflexivity. Qed.
#[global] Hint Rewrite asked_app granted_app dropped_app released_app extras_app two asked_Asked asked_Granted asked_Dropped asked_Released asked_Extra granted_Asked granted_Granted granted_Dropped granted_Released granted_Extra dropped_Asked dropped_Granted dropped_Dropped dropped_Released dropped_Extra released_Asked released_Granted released_Dropped released_Released released_Extra extras_Asked extras_Granted extras_Dropped extras_Released extras_Extra : sem.
Ltac traces := autorewrite with sem in *; rewrite ?app_nil_r, ?Nat.add_0_r in *.
Ltac mem := repeat (progress (rewrite ?in_app_iff in *; cbn [In app fst snd] in *)).

Lemma inv_release : forall n s, inv 1 n s -> inv 0 n (release s).
Proof.
  intros n s I. destruct I as [a b c d e f g h o q]. unfold release. destruct (line s) as [|x l] eqn:L.
  - constructor; cbn [free line woken inside count trace]; auto. lia.
  - assert (F : free s = 0) by (destruct (free s); [reflexivity|exfalso; now assert (x :: l = []) by (apply b; lia)]).
    constructor; cbn [free line woken inside count trace]; traces; auto.
    + rewrite app_length. cbn. lia.
    + lia.
    + now rewrite <- app_assoc.
    + unfold nums in *. rewrite !map_app in *. cbn in *. rewrite <- app_assoc. cbn. eapply Permutation_NoDup; [|exact d].
      rewrite ?map_app, !(app_assoc (map fst l)). apply Permutation_middle.
    + intros y Y. apply f. mem. tauto.
    + intros y Y. apply g in Y. mem. tauto.
    + intros y. split.
      * intros Y. rewrite !in_app_iff in Y. cbn in Y. assert (In y (woken s ++ inside s) \/ y = x) as [Z| ->] by (rewrite in_app_iff; intuition).
        -- apply h in Z as (A & B & C). mem. tauto.
        -- split; [rewrite in_app_iff; cbn; tauto|]. split; [apply q; now left|]. intros R. apply o in R as [R _].
           unfold nums in c. rewrite map_app in c. clear -c R. induction (granted (trace s)) as [|y k IH]; [easy|]. cbn in c. inversion c; subst.
           destruct R as [->|R]; [|now apply IH]. rewrite Forall_app in H2. destruct H2 as [_ G]. inversion G; subst. lia.
      * intros ([A|[<-|[]]]%in_app_iff & B & C); rewrite !in_app_iff; cbn; [|tauto].
        assert (In y (woken s ++ inside s)) as Z by (apply h; tauto). rewrite in_app_iff in Z. tauto.
    + intros y Y. apply o in Y. mem. tauto.
    + intros y Y. apply q. now right.
Qed.

Lemma sorted_last : forall k x l, StronglySorted lt (nums (k ++ x :: l)) -> ~ In x k.
Proof.
  intros k x l c R. unfold nums in c. rewrite map_app in c. induction k as [|y k IH]; [easy|]. cbn in c. inversion c; subst.
  destruct R as [->|R]; [|now apply IH]. rewrite Forall_app in H2. destruct H2 as [_ G]. inversion G; subst. lia.
Qed.

Lemma nodup_l : forall (a b : list nat), NoDup (a ++ b) -> NoDup a.
Proof. induction a as [|x a IH]; intros b N; [constructor|]. cbn in N. inversion N; subst. constructor; [rewrite in_app_iff in H1; tauto|eauto]. Qed.
Lemma nodup_r : forall (a b : list nat), NoDup (a ++ b) -> NoDup b.
Proof. induction a as [|x a IH]; intros b N; [exact N|]. cbn in N. inversion N; subst. auto. Qed.

Lemma inv_start : forall n, inv 0 n (Sem n [] [] [] 0 []).
Proof. intros n. constructor; cbn; auto; try (intros; tauto); try constructor. lia. Qed.

Lemma below : forall d n s e, inv d n s -> In e (asked (trace s)) -> fst e < count s.
Proof.
  intros d n s e I A. apply in_nums in A. rewrite (i_asked _ _ _ I) in A. apply in_seq in A. lia.
Qed.

Lemma held_asked : forall d n s e, inv d n s -> In e (line s ++ woken s ++ inside s) -> In e (asked (trace s)).
Proof.
  intros d n s e I A. rewrite in_app_iff in A. apply (i_known _ _ _ I). rewrite !in_app_iff. destruct A as [A|A]; [tauto|].
  apply (i_held _ _ _ I) in A. tauto.
Qed.

Lemma inv_enter : forall n s t, inv 0 n s -> inv 0 n (sstep s (Enter t)).
Proof.
  intros n s t I. cbn [sstep]. destruct (suspended s t); [exact I|].
  assert (NEW : forall y, In y (asked (trace s)) -> fst y < count s) by (intros; eapply below; eauto).
  assert (HA : forall y, In y (line s ++ woken s ++ inside s) -> In y (asked (trace s))) by (intros; eapply held_asked; eauto).
  destruct I as [a b c d e f g h o q].
  assert (A1 : forall x, asked [Asked x] = [x]) by reflexivity.
  assert (NA : ~ In (count s, t) (asked (trace s))) by (intros Y; apply NEW in Y; cbn in Y; lia).
  assert (ND : forall l, (forall y, In y l -> In y (asked (trace s))) -> ~ In (count s) (nums l)).
  { intros l Hl Y. apply in_map_iff in Y as (y & E & Y). apply Hl, NEW in Y. lia. }
  destruct (free s) as [|m] eqn:F; [|destruct (line s) as [|x l] eqn:L].
  - constructor; cbn [free line woken inside count trace]; traces; auto.
    + lia.
    + rewrite app_assoc. unfold nums. rewrite (map_app _ (_ ++ _)). apply sorted_snoc; [exact c|].
      intros y Y. apply in_map_iff in Y as (z & <- & Z). apply NEW, f. mem. tauto.
    + unfold nums in *. rewrite !map_app in *. rewrite <- app_assoc. cbn. eapply Permutation_NoDup; [apply Permutation_middle|].
      constructor; [|exact d]. rewrite <- !map_app. now apply ND.
    + unfold nums in *. rewrite map_app, seq_S. f_equal. exact e.
    + intros y Y. assert (In y (granted (trace s) ++ line s ++ dropped (trace s)) \/ y = (count s, t)) as [Z| ->].
      { mem. intuition. }
      * apply f in Z. mem. tauto.
      * mem. tauto.
    + intros y Y. rewrite in_app_iff in Y. destruct Y as [Y|[<-|[]]]; [apply g in Y|]; mem; tauto.
    + intros y Y. rewrite in_app_iff in Y. destruct Y as [Y|[<-|[]]]; [now apply q|]. intros Z. apply NA, f. mem. tauto.
  - constructor; cbn [free line woken inside count trace]; traces; auto.
    + rewrite app_length. cbn [length] in *. lia.
    + unfold nums in *. rewrite map_app. apply sorted_snoc; [exact c|].
      intros y Y. apply in_map_iff in Y as (z & <- & Z). apply NEW, f. mem. tauto.
    + cbn in *. rewrite app_assoc. unfold nums in *. rewrite map_app. eapply Permutation_NoDup; [apply Permutation_cons_append|].
      constructor; [|exact d]. apply ND. exact HA.
    + unfold nums in *. rewrite map_app, seq_S. f_equal. exact e.
    + intros y Y. assert (In y (granted (trace s) ++ [] ++ dropped (trace s)) \/ y = (count s, t)) as [Z| ->].
      { mem. intuition. }
      * apply f in Z. mem. tauto.
      * mem. tauto.
    + intros y Y. rewrite in_app_iff in Y. destruct Y as [Y|[<-|[]]]; [apply g in Y|]; mem; tauto.
    + intros y. split.
      * intros Y. assert (In y (woken s ++ inside s) \/ y = (count s, t)) as [Z| ->].
        { mem. intuition. }
        -- apply h in Z. mem. tauto.
        -- rewrite in_app_iff. cbn. split; [tauto|]. split; intros R; apply NA, f; rewrite !in_app_iff; [tauto|].
           apply o in R. tauto.
      * intros (A & B & C). rewrite in_app_iff in A. destruct A as [A|[<-|[]]].
        -- assert (In y (woken s ++ inside s)) as Z by (apply h; tauto). mem. tauto.
        -- mem. tauto.
    + intros y Y. apply o in Y. mem. tauto.
  - exfalso. now assert (x :: l = []) by (apply b; lia).
Qed.

Lemma inv_wake : forall n s i, inv 0 n s -> inv 0 n (sstep s (Wake i)).
Proof.
  intros n s i I. cbn [sstep]. destruct (find_ticket i (woken s)) as [x|] eqn:F; [|exact I].
  destruct I as [a b c d e f g h o q].
  assert (NW : NoDup (nums (woken s))).
  { unfold nums in *. rewrite !map_app in d. apply nodup_r, nodup_l in d. exact d. }
  destruct (split_at _ _ _ F NW) as (u & v & E & D). rewrite D.
  assert (P : Permutation (woken s ++ inside s) ((u ++ v) ++ inside s ++ [x])).
  { rewrite E, <- !app_assoc. apply Permutation_app_head. cbn. rewrite app_assoc. apply Permutation_cons_append. }
  constructor; cbn [free line woken inside count trace]; auto.
  - apply Permutation_length in P. rewrite !app_length in *. cbn in *. lia.
  - unfold nums in *. eapply Permutation_NoDup; [|exact d]. apply Permutation_map, Permutation_app_head, P.
  - intros y. rewrite <- h. split; apply Permutation_in; [symmetry|]; exact P.
Qed.

Lemma sorted_nodup : forall l, StronglySorted lt l -> NoDup l.
Proof.
  induction l as [|a l IH]; intros S; constructor; inversion S; subst; auto.
  intros A. rewrite Forall_forall in H2. apply H2 in A. lia.
Qed.

Lemma distinct_in : forall a (e : ticket) b, NoDup (nums (a ++ e :: b)) -> forall y, In y (a ++ b) -> y <> e.
Proof.
  intros a e b N y Y ->. unfold nums in N. rewrite map_app in N. cbn in N. apply NoDup_remove_2 in N. apply N.
  rewrite <- map_app. now apply in_map.
Qed.

Lemma inv_leave : forall n s i, inv 0 n s -> inv 0 n (sstep s (Leave i)).
Proof.
  intros n s i I. cbn [sstep]. destruct (find_ticket i (inside s)) as [x|] eqn:F; [|exact I].
  destruct (suspended s (snd x)); [exact I|]. apply inv_release. rewrite log_simpl. cbn [free line woken inside count trace].
  assert (ND : NoDup (nums (woken s ++ inside s))).
  { pose proof (i_nodup _ _ _ I) as d. unfold nums in *. rewrite !map_app in *. now apply nodup_r in d. }
  assert (NI : NoDup (nums (inside s))) by (unfold nums in *; rewrite !map_app in *; now apply nodup_r in ND).
  destruct (split_at _ _ _ F NI) as (u & v & E & D). rewrite D.
  assert (P : Permutation (woken s ++ inside s) (x :: woken s ++ u ++ v)).
  { rewrite E, !(app_assoc (woken s)). symmetry. apply Permutation_middle. }
  assert (NX : forall y, In y (woken s ++ u ++ v) -> y <> x).
  { rewrite E, app_assoc in ND. rewrite app_assoc. intros y Y. exact (distinct_in _ _ _ ND y Y). }
  destruct I as [a b c d e f g h o q].
  assert (HX : In x (woken s ++ inside s)) by (eapply Permutation_in; [symmetry; exact P|now left]).
  pose proof (proj1 (h x) HX) as (X1 & X2 & X3).
  constructor; cbn [free line woken inside count trace]; traces; auto.
  - apply Permutation_length in P. cbn [length] in P. rewrite !app_length in *. lia.
  - unfold nums in *. rewrite map_app in *. apply (Permutation_map fst) in P. eapply Permutation_NoDup in d; [|apply Permutation_app_head, P].
    cbn in d. eapply NoDup_remove_1, d.
  - intros y. split.
    + intros Y. assert (In y (woken s ++ inside s)) as Z by (eapply Permutation_in; [symmetry; exact P|now right]).
      apply h in Z as (Z1 & Z2 & Z3). repeat split; auto. mem. intros [Z|[->|[]]]; [tauto|]. apply (NX y); [mem; exact Y|reflexivity].
    + intros (Y1 & Y2 & Y3). mem. assert (In y (woken s ++ inside s)) as Z by (apply h; tauto).
      eapply Permutation_in in Z; [|exact P]. destruct Z as [->|Z]; [tauto|]. mem. tauto.
  - intros y Y. mem. destruct Y as [Y|[<-|[]]]; [now apply o|tauto].
Qed.

Lemma inv_cancel : forall n s i, inv 0 n s -> inv 0 n (sstep s (Cancel i)).
Proof.
  intros n s i I. cbn [sstep]. destruct (find_ticket i (line s)) as [x|] eqn:F.
  - rewrite log_simpl. cbn [free line woken inside count trace].
    assert (NL : NoDup (nums (line s))).
    { pose proof (i_nodup _ _ _ I) as d. unfold nums in *. rewrite !map_app in *. now apply nodup_l in d. }
    destruct (split_at _ _ _ F NL) as (u & v & E & D). rewrite D.
    destruct I as [a b c d e f g h o q].
    assert (NG : ~ In x (granted (trace s))).
    { rewrite E in c. rewrite app_assoc in c. apply sorted_last in c. rewrite in_app_iff in c. tauto. }
    assert (NX : forall y, In y (u ++ v) -> y <> x) by (rewrite E in NL; intros y Y; exact (distinct_in _ _ _ NL y Y)).
    assert (XL : forall y, In y (line s) <-> y = x \/ In y (u ++ v)) by (intros y; rewrite E; mem; intuition).
    constructor; cbn [free line woken inside count trace]; traces; auto.
    + intros Z. apply b in Z. rewrite Z in E. now destruct u.
    + rewrite E in c. unfold nums in *. rewrite !map_app in *. cbn in c. rewrite app_assoc in c. apply sorted_del in c. now rewrite <- app_assoc in c.
    + rewrite E in d. unfold nums in *. rewrite !map_app in *. cbn in d. rewrite <- app_assoc in d. cbn in d. apply NoDup_remove_1 in d. now rewrite <- app_assoc.
    + intros y Y. assert (In y (granted (trace s) ++ line s ++ dropped (trace s))) as Z; [|now apply f].
      rewrite !in_app_iff, XL. mem. intuition.
    + intros y Y. apply g in Y. rewrite !in_app_iff, XL in Y. mem. intuition.
    + intros y. rewrite h. mem. intuition. subst. tauto.
    + intros y Y. apply o in Y. mem. intuition. subst. tauto.
    + intros y Y. mem. intros [Z|[Z|[]]]; [|now apply (NX y); mem]. apply (q y); [|exact Z]. apply XL. right. mem. exact Y.
  - destruct (find_ticket i (woken s)) as [x|] eqn:G; [|exact I]. clear F. apply inv_release. rewrite log_simpl. cbn [free line woken inside count trace].
    assert (ND : NoDup (nums (woken s ++ inside s))).
    { pose proof (i_nodup _ _ _ I) as d. unfold nums in *. rewrite !map_app in *. now apply nodup_r in d. }
    assert (NW : NoDup (nums (woken s))) by (unfold nums in *; rewrite !map_app in *; now apply nodup_l in ND).
    destruct (split_at _ _ _ G NW) as (u & v & E & D). rewrite D.
    assert (P : Permutation (woken s ++ inside s) (x :: (u ++ v) ++ inside s)).
    { rewrite E, <- !app_assoc. symmetry. cbn. apply Permutation_middle. }
    assert (NX : forall y, In y ((u ++ v) ++ inside s) -> y <> x).
    { rewrite E, <- app_assoc in ND. rewrite <- app_assoc. intros y Y. exact (distinct_in _ _ _ ND y Y). }
    destruct I as [a b c d e f g h o q].
    assert (HX : In x (woken s ++ inside s)) by (eapply Permutation_in; [symmetry; exact P|now left]).
    pose proof (proj1 (h x) HX) as (X1 & X2 & X3).
    constructor; cbn [free line woken inside count trace]; traces; auto.
    + apply Permutation_length in P. cbn [length] in P. rewrite !app_length in *. lia.
    + unfold nums in *. rewrite map_app in *. apply (Permutation_map fst) in P. eapply Permutation_NoDup in d; [|apply Permutation_app_head, P].
      cbn in d. eapply NoDup_remove_1, d.
    + intros y Y. mem. assert (In y (granted (trace s) ++ line s ++ dropped (trace s)) \/ y = x) as [Z| ->] by (mem; intuition); [now apply f|].
      apply f. mem. tauto.
    + intros y Y. apply g in Y. mem. intuition.
    + intros y. split.
      * intros Y. assert (In y (woken s ++ inside s)) as Z by (eapply Permutation_in; [symmetry; exact P|now right]).
        apply h in Z as (Z1 & Z2 & Z3). repeat split; auto. mem. intros [Z|[->|[]]]; [tauto|]. apply (NX y); [mem; exact Y|reflexivity].
      * intros (Y1 & Y2 & Y3). mem. assert (In y (woken s ++ inside s)) as Z by (apply h; tauto).
        eapply Permutation_in in Z; [|exact P]. destruct Z as [->|Z]; [tauto|]. mem. tauto.
    + intros y Y. pose proof (o _ Y) as [O1 O2]. split; [exact O1|]. mem. intros [Z|[->|[]]]; tauto.
    + intros y Y. mem. intros [Z|[->|[]]]; [now apply (q y)|]. rewrite in_app_iff in Y || idtac. apply in_split in Y as (l1 & l2 & Y). rewrite Y, app_assoc in c. apply sorted_last in c. apply c. mem. tauto.
Qed.

Lemma inv_give : forall n s, inv 0 n s -> inv 0 n (sstep s Give).
Proof.
  intros n s I. cbn [sstep]. apply inv_release. destruct I as [a b c d e f g h o q].
  rewrite log_simpl. constructor; cbn [free line woken inside count trace]; traces; auto. lia.
Qed.

Lemma inv_step : forall n s o, inv 0 n s -> inv 0 n (sstep s o).
Proof. intros n s [t|i|i|i|] I; [apply inv_enter|apply inv_wake|apply inv_leave|apply inv_cancel|apply inv_give]; exact I. Qed.
Lemma inv_run : forall n l, inv 0 n (srun (Sem n [] [] [] 0 []) l).
Proof.
  intros n l. assert (G : forall s, inv 0 n s -> inv 0 n (srun s l)); [|apply G, inv_start].
  induction l as [|o l IH]; intros s I; [exact I|]. apply IH, inv_step, I.
Qed.
