(** Proofs about ModelPubSub. *)
From Coq Require Import List Bool Arith Lia.
From Verif Require Import PyBase PyFacts ModelHeap ModelPubSub SpecPubSub ProofsPQueue.
Import ListNotations.
#[local] Arguments eqb : simpl never.

Lemma filter_filter {A} (p q : A -> bool) l : filter p (filter q l) = filter (fun x => q x && p x) l.
Proof. induction l as [|x l IH]; simpl; auto. destruct (q x); simpl; [destruct (p x)|]; congruence. Qed.
Lemma filter_all {A} (p : A -> bool) l : (forall x, In x l -> p x = true) -> filter p l = l.
Proof. induction l as [|x l IH]; simpl; intros H; auto. rewrite H; auto. rewrite IH; auto. Qed.
Lemma filter_ext_in' {A} (p q : A -> bool) l : (forall x, In x l -> p x = q x) -> filter p l = filter q l.
Proof. induction l as [|x l IH]; simpl; intros H; auto. rewrite H, IH; auto. Qed.
Lemma existsb_nat x l : existsb (Nat.eqb x) l = true <-> In x l.
Proof.
  rewrite existsb_exists. split; [intros (y & I & E); apply Nat.eqb_eq in E; subst; auto|].
  intros I; exists x; split; auto. apply Nat.eqb_refl.
Qed.
Lemma wref_eqb_eq r r' : wref_eqb r r' = true <-> r = r'.
Proof.
  destruct r, r'; simpl; try (split; congruence).
  - rewrite Nat.eqb_eq; split; congruence.
  - rewrite andb_true_iff, !Nat.eqb_eq; split; [intros [-> ->]; auto | intros E; inversion E; auto].
Qed.

Lemma filter_snoc {A} (p : A -> bool) l x :
  filter p (l ++ [x]) = filter p l ++ (if p x then [x] else []).
Proof. rewrite filter_app. simpl. destruct (p x); auto. Qed.

(** ** Broadcaster *)
Section B.
Variable owner : nat -> nat.
Variable same : nat -> nat -> bool.
Notation step := (bstep owner same).
Notation run := (brun owner same).

Definition live (s : bstate) (ch : nat) : list wref :=
  filter (alive (bs_dead s)) (match dget ch (bs_subs s) with Some l => l | None => [] end).

Lemma brun_app s a b : run s (a ++ b) = run (run s a) b.
Proof. revert s; induction a; simpl; intros; auto. Qed.
Lemma possible_app s a b :
  possible owner same s (a ++ b) <-> possible owner same s a /\ possible owner same (run s a) b.
Proof. revert s; induction a; simpl; intros; [tauto|]. rewrite IHa. tauto. Qed.

Lemma live_set_subs s c l ch :
  live (set_subs owner s c l) ch = if ch =? owner c then filter (alive (bs_dead s)) l else live s ch.
Proof.
  unfold live, set_subs; simpl. destruct (Nat.eqb_spec ch (owner c)) as [E|N].
  - subst. now rewrite dget_dset_same.
  - rewrite dget_dset_other; auto.
Qed.

Lemma live_subs_of s c : live s (owner c) = filter (alive (bs_dead s)) (subs_of owner s c).
Proof. reflexivity. Qed.

Lemma alive_cons o d r : alive (o :: d) r = negb (referent r =? o) && alive d r.
Proof. unfold alive; simpl. now rewrite negb_orb. Qed.

(** Every stored reference comes from a subscription. *)
Definition origin (past : list bop) (s : bstate) : Prop := forall ch l r,
  dget ch (bs_subs s) = Some l -> In r l ->
  match r with
  | RObj o => exists c, In (BSubscribe c (Plain o)) past
  | RMeth o m => exists c, In (BSubscribe c (Bound o m)) past
  end.

Lemma remove_when_In {A} (p : A -> bool) l x : In x (remove_when p l) -> In x l.
Proof. induction l as [|y l IH]; simpl; auto. destruct (p y); simpl; intuition. Qed.

Lemma origin_mono past a s : origin past s -> origin (past ++ [a]) s.
Proof.
  intros H ch l r G I. specialize (H ch l r G I).
  destruct r; destruct H as [c H]; exists c; apply in_or_app; auto.
Qed.

Lemma origin_set past s c l :
  origin past s ->
  (forall r, In r l -> match r with
                       | RObj o => exists c, In (BSubscribe c (Plain o)) past
                       | RMeth o m => exists c, In (BSubscribe c (Bound o m)) past end) ->
  origin past (set_subs owner s c l).
Proof.
  intros H K ch l' r G I. unfold set_subs in G; simpl in G.
  destruct (Nat.eqb_spec ch (owner c)) as [E|N].
  - subst. rewrite dget_dset_same in G. injection G as <-. exact (K r I).
  - rewrite dget_dset_other in G by auto. exact (H ch l' r G I).
Qed.

Lemma origin_subs past s c : origin past s -> forall r, In r (subs_of owner s c) ->
  match r with
  | RObj o => exists c, In (BSubscribe c (Plain o)) past
  | RMeth o m => exists c, In (BSubscribe c (Bound o m)) past end.
Proof.
  intros H r I. unfold subs_of in I. destruct (dget (owner c) (bs_subs s)) eqn:E; [|contradiction].
  exact (H _ _ _ E I).
Qed.

Lemma origin_step past s a : origin past s -> origin (past ++ [a]) (fst (step s a)).
Proof.
  intros H0. pose proof (origin_mono past a s H0) as H. destruct a as [c cb|c cb|o|c ev ok|t res|c]; simpl.
  - destruct (callee_dead s cb); simpl; auto. unfold subscribe.
    destruct (existsb _ _); simpl; auto.
    destruct cb; simpl; auto; apply origin_set; auto; intros r I; apply in_app_or in I;
      destruct I as [I|[<-|[]]]; try (apply (origin_subs _ _ c H); auto; fail);
      exists c; apply in_or_app; simpl; auto.
  - destruct (callee_dead s cb); simpl; auto. unfold unsubscribe.
    destruct (find _ _); simpl; auto. apply origin_set; auto.
    intros r I. apply remove_when_In in I. apply (origin_subs _ _ c H); auto.
  - destruct (held _ _); simpl; auto.
  - destruct ok; simpl; auto. apply (origin_set _ s c); auto.
    intros r I. apply filter_In in I. apply (origin_subs _ _ c H); tauto.
  - destruct (nth_error (bs_tasks s) t) as [[ev all [|cb todo] [| |]]|]; simpl; auto.
  - apply origin_set; auto.
    intros r I. apply filter_In in I. apply (origin_subs _ _ c H); tauto.
Qed.

Lemma filter_remove_when {A} (p q : A -> bool) l :
  (forall x, In x l -> p x = true -> q x = true) ->
  filter q (remove_when p l) = remove_when p (filter q l).
Proof.
  induction l as [|x l IH]; simpl; intros H; auto.
  destruct (p x) eqn:P.
  - rewrite (H x); auto. simpl. now rewrite P.
  - simpl. destruct (q x); simpl; rewrite ?P, IH; auto.
Qed.

(** In the live list a plain callback occurs at most once. *)
Definition once (s : bstate) : Prop := forall ch o,
  count_occ Bool.bool_dec (map (wref_eqb (RObj o)) (live s ch)) true <= 1.

Lemma remove_when_filter {A} (p : A -> bool) l :
  count_occ Bool.bool_dec (map p l) true <= 1 ->
  remove_when p l = filter (fun x => negb (p x)) l.
Proof.
  induction l as [|x l IH]; simpl; intros H; auto. destruct (p x) eqn:P; simpl in *.
  - symmetry. apply filter_all. intros y I. destruct (p y) eqn:Q; auto.
    exfalso. assert (In true (map p l)) as K by (apply in_map_iff; eauto).
    apply (count_occ_In Bool.bool_dec) in K. lia.
  - rewrite IH; auto.
Qed.

Lemma remove_when_ext {A} (p q : A -> bool) l :
  (forall x, In x l -> p x = q x) -> remove_when p l = remove_when q l.
Proof. induction l as [|x l IH]; simpl; intros H; auto. rewrite H, IH; auto. Qed.

Lemma on_channel_app ch a b : on_channel ch (a ++ b) = on_channel ch a ++ on_channel ch b.
Proof. unfold on_channel. now rewrite filter_app, map_app. Qed.

Lemma filter_map_comm {A B} (f : A -> B) (q : B -> bool) l :
  filter q (map f l) = map f (filter (fun x => q (f x)) l).
Proof. induction l as [|x l IH]; simpl; auto. destruct (q (f x)); simpl; congruence. Qed.

Lemma on_channel_drop ch ch' r b :
  on_channel ch (drop_pair ch' r b) =
  if ch =? ch' then filter (fun x => negb (wref_eqb x r)) (on_channel ch b) else on_channel ch b.
Proof.
  unfold on_channel, drop_pair. rewrite filter_filter.
  destruct (Nat.eqb_spec ch ch') as [<-|N].
  - rewrite filter_map_comm, filter_filter. f_equal. apply filter_ext_in'. intros [a x] _; simpl.
    destruct (a =? ch); simpl; auto. now rewrite andb_true_r.
  - f_equal. apply filter_ext_in'. intros [a x] _; simpl.
    destruct (Nat.eqb_spec a ch) as [->|]; [|apply andb_false_r].
    destruct (Nat.eqb_spec ch ch'); [contradiction|]. reflexivity.
Qed.

Lemma on_channel_collect ch o b :
  on_channel ch (filter (fun p => negb (referent (snd p) =? o)) b) =
  filter (fun r => negb (referent r =? o)) (on_channel ch b).
Proof.
  unfold on_channel. rewrite filter_filter, filter_map_comm, filter_filter. f_equal.
  apply filter_ext_in'. intros [a x] _; simpl. apply andb_comm.
Qed.

Lemma wref_eqb_sym r r' : wref_eqb r r' = wref_eqb r' r.
Proof. destruct r, r'; simpl; auto; rewrite Nat.eqb_sym; auto. f_equal. apply Nat.eqb_sym. Qed.

Lemma existsb_filter {A} (p q : A -> bool) l :
  existsb p (filter q l) = existsb (fun x => q x && p x) l.
Proof. induction l as [|x l IH]; simpl; auto. destruct (q x); simpl; rewrite IH; auto. Qed.

Lemma is_target_live s c o :
  existsb (is_target (bs_dead s) (Plain o)) (subs_of owner s c) =
  existsb (wref_eqb (RObj o)) (live s (owner c)).
Proof.
  rewrite live_subs_of, existsb_filter.
  induction (subs_of owner s c) as [|r l IH]; simpl; auto. rewrite IH. f_equal.
  destruct r; simpl; [|now rewrite andb_false_r].
  rewrite Nat.eqb_sym. apply andb_comm.
Qed.

Lemma find_target s c o r :
  find (is_target (bs_dead s) (Plain o)) (subs_of owner s c) = Some r ->
  r = RObj o /\ In (RObj o) (live s (owner c)).
Proof.
  intros F. apply find_some in F. destruct F as [I T]. destruct r as [o'|]; simpl in T; [|discriminate].
  apply andb_true_iff in T. destruct T as [E A]. apply Nat.eqb_eq in E. subst o'. split; auto.
  rewrite live_subs_of. apply filter_In; auto.
Qed.

Lemma find_none_live s c o :
  find (is_target (bs_dead s) (Plain o)) (subs_of owner s c) = None ->
  forall x, In x (live s (owner c)) -> wref_eqb x (RObj o) = false.
Proof.
  intros F x I. rewrite live_subs_of in I. apply filter_In in I. destruct I as [I A].
  pose proof (find_none _ _ F x I) as T. destruct x as [o'|]; simpl in *; auto.
  rewrite A, andb_true_r in T. auto.
Qed.

Lemma once_snoc l r :
  (forall o, count_occ Bool.bool_dec (map (wref_eqb (RObj o)) l) true <= 1) ->
  (forall o, r = RObj o -> existsb (wref_eqb (RObj o)) l = false) ->
  forall o, count_occ Bool.bool_dec (map (wref_eqb (RObj o)) (l ++ [r])) true <= 1.
Proof.
  intros H N o. rewrite map_app, count_occ_app. cbn [map count_occ].
  destruct (Bool.bool_dec _ _) as [E|E]; [|specialize (H o); lia].
  apply wref_eqb_eq in E. specialize (N o (eq_sym E)).
  assert (count_occ Bool.bool_dec (map (wref_eqb (RObj o)) l) true = 0); [|lia].
  apply count_occ_not_In. intros I. apply in_map_iff in I. destruct I as (x & E' & I).
  assert (existsb (wref_eqb (RObj o)) l = true) by (apply existsb_exists; eauto). congruence.
Qed.

Lemma count_filter_le (p q : wref -> bool) l :
  count_occ Bool.bool_dec (map p (filter q l)) true <= count_occ Bool.bool_dec (map p l) true.
Proof.
  induction l as [|x l IH]; cbn [filter map count_occ]; auto.
  destruct (q x); cbn [map count_occ]; destruct (Bool.bool_dec (p x) true); lia.
Qed.

Lemma once_sub (s s' : bstate) :
  (forall ch, exists q, live s' ch = filter q (live s ch)) -> once s -> once s'.
Proof.
  intros H O ch o. destruct (H ch) as [q ->]. etransitivity; [apply count_filter_le | apply O].
Qed.

Definition refines (s : bstate) (b : board) : Prop := forall ch, live s ch = on_channel ch b.

(** Under identity comparison and separation, the live subscriptions are the board. *)
Lemma refine_step past s b a :
  (forall o o', same o o' = true -> o = o') ->
  separate (past ++ [a]) -> origin past s -> once s -> refines s b ->
  snd (step s a) <> BImpossible ->
  refines (fst (step s a)) (board_step owner b a) /\ once (fst (step s a)).
Proof.
  intros Hid Hsep Ho H1 R. destruct a as [c cb|c cb|o|c ev ok|t res|c]; cbn [bstep board_step]; intros HP.
  - destruct (callee_dead s cb) eqn:D; [simpl in HP; congruence|].
    assert (AL : forall r, cb_of cb = r -> alive (bs_dead s) r = true).
    { intros r <-. unfold callee_dead in D. unfold alive. destruct cb; simpl in *; now rewrite D. }
    unfold subscribe. destruct cb as [o|o m|o].
    + rewrite is_target_live, <- (R (owner c)).
      destruct (existsb (wref_eqb (RObj o)) (live s (owner c))) eqn:E; simpl; [auto|].
      assert (L : forall ch, live (set_subs owner s c (subs_of owner s c ++ [RObj o])) ch =
                  on_channel ch (b ++ [(owner c, RObj o)])).
      { intros ch. rewrite live_set_subs, on_channel_app. unfold on_channel at 2; simpl.
        rewrite (Nat.eqb_sym (owner c)). destruct (Nat.eqb_spec ch (owner c)) as [->|].
        - rewrite filter_snoc, (AL (RObj o) eq_refl), <- live_subs_of, R. reflexivity.
        - now rewrite app_nil_r. }
      split; [exact L|]. intros ch. rewrite L. rewrite on_channel_app. unfold on_channel at 2; simpl.
      destruct (Nat.eqb_spec (owner c) ch) as [<-|].
      * simpl. apply once_snoc; [rewrite <- R; apply H1|].
        intros o' [= ->]. now rewrite <- R.
      * rewrite app_nil_r, <- R. apply H1.
    + replace (existsb _ _) with false.
      2:{ symmetry. clear. induction (subs_of owner s c) as [|[|] l IH]; simpl; auto. }
      assert (L : forall ch, live (set_subs owner s c (subs_of owner s c ++ [RMeth o m])) ch =
                  on_channel ch (b ++ [(owner c, RMeth o m)])).
      { intros ch. rewrite live_set_subs, on_channel_app. unfold on_channel at 2; simpl.
        rewrite (Nat.eqb_sym (owner c)). destruct (Nat.eqb_spec ch (owner c)) as [->|].
        - rewrite filter_snoc, (AL (RMeth o m) eq_refl), <- live_subs_of, R. reflexivity.
        - now rewrite app_nil_r. }
      split; [exact L|]. intros ch. simpl. rewrite L. rewrite on_channel_app. unfold on_channel at 2; simpl.
      destruct (Nat.eqb_spec (owner c) ch) as [<-|].
      * simpl. apply once_snoc; [rewrite <- R; apply H1|]. intros; discriminate.
      * rewrite app_nil_r, <- R. apply H1.
    + replace (existsb _ _) with false; [simpl; auto|].
      symmetry. clear. induction (subs_of owner s c) as [|[|] l IH]; simpl; auto.
  - destruct (callee_dead s cb) eqn:D; [simpl in HP; congruence|].
    unfold unsubscribe. destruct cb as [o|o m|o].
    + destruct (find (is_target (bs_dead s) (Plain o)) (subs_of owner s c)) eqn:F; simpl.
      * apply find_target in F. destruct F as [-> I].
        assert (L : forall ch, live (set_subs owner s c
                     (remove_when (entry_eq same (bs_dead s) o) (subs_of owner s c))) ch =
                    if ch =? owner c then filter (fun x => negb (wref_eqb x (RObj o))) (live s ch) else live s ch).
        { intros ch. rewrite live_set_subs. destruct (Nat.eqb_spec ch (owner c)) as [->|]; auto.
          rewrite (remove_when_ext _ (fun x => wref_eqb (RObj o) x)).
          - rewrite filter_remove_when.
            + rewrite <- live_subs_of, remove_when_filter by (apply H1).
              apply filter_ext_in'. intros; now rewrite wref_eqb_sym.
            + intros x _ E. apply wref_eqb_eq in E. subst x.
              rewrite live_subs_of in I. apply filter_In in I. tauto.
          - intros x Ix. destruct x as [o'|o' m]; simpl.
            + rewrite (Nat.eqb_sym o o'). destruct (Nat.eqb_spec o' o) as [E|E]; auto. simpl.
              destruct (same o' o) eqn:S; [|apply andb_false_r]. apply Hid in S. contradiction.
            + destruct (same o' o) eqn:S; [|apply andb_false_r]. apply Hid in S. subst o'. exfalso.
              pose proof (origin_subs _ _ c Ho _ Ix) as [c1 O1]. simpl in O1.
              rewrite live_subs_of in I. apply filter_In in I. destruct I as [I _].
              pose proof (origin_subs _ _ c Ho _ I) as [c2 O2]. simpl in O2.
              exact (Hsep o m c2 c1 (in_or_app _ _ _ (or_introl O2)) (in_or_app _ _ _ (or_introl O1))). }
        split.
        -- intros ch. rewrite L, on_channel_drop. destruct (ch =? owner c); now rewrite R.
        -- apply (once_sub s); auto. intros ch. rewrite L. destruct (ch =? owner c); eauto.
           exists (fun _ => true). symmetry. apply filter_all; auto.
      * split; auto. intros ch. rewrite on_channel_drop, R.
        destruct (Nat.eqb_spec ch (owner c)) as [->|]; auto.
        symmetry. apply filter_all. intros x Ix. rewrite <- R in Ix.
        now rewrite (find_none_live _ _ _ F x Ix).
    + replace (find _ _) with (@None wref); [simpl; auto|].
      symmetry. clear. induction (subs_of owner s c) as [|[|] l IH]; simpl; auto.
    + replace (find _ _) with (@None wref); [simpl; auto|].
      symmetry. clear. induction (subs_of owner s c) as [|[|] l IH]; simpl; auto.
  - destruct (held (bs_tasks s) o) eqn:E; [simpl in HP; congruence|]. simpl.
    assert (L : forall ch, live (Build_bstate (o :: bs_dead s) (bs_subs s) (bs_tasks s) (bs_log s)) ch =
                filter (fun r => negb (referent r =? o)) (live s ch)).
    { intros ch. unfold live; simpl. rewrite filter_filter. apply filter_ext_in'. intros x _.
      rewrite alive_cons. apply andb_comm. }
    split; [intros ch; rewrite L, on_channel_collect; now rewrite R |].
    apply (once_sub s); auto. intros ch; rewrite L; eauto.
  - assert (L : forall ch, live (set_subs owner s c (filter (alive (bs_dead s)) (subs_of owner s c))) ch = live s ch).
    { intros ch. rewrite live_set_subs. destruct (Nat.eqb_spec ch (owner c)) as [->|]; auto.
      rewrite filter_filter, live_subs_of. apply filter_ext_in'. intros; now rewrite andb_diag. }
    destruct ok; simpl; auto. split.
    + intros ch. rewrite <- R. apply L.
    + intros ch. change (forall o, count_occ Bool.bool_dec (map (wref_eqb (RObj o))
        (live (set_subs owner s c (filter (alive (bs_dead s)) (subs_of owner s c))) ch)) true <= 1).
      rewrite L. apply H1.
  - destruct (nth_error (bs_tasks s) t) as [[ev all [|cb todo] [| |]]|]; simpl; auto.
  - assert (L : forall ch, live (set_subs owner s c (filter (alive (bs_dead s)) (subs_of owner s c))) ch = live s ch).
    { intros ch. rewrite live_set_subs. destruct (Nat.eqb_spec ch (owner c)) as [->|]; auto.
      rewrite filter_filter, live_subs_of. apply filter_ext_in'. intros; now rewrite andb_diag. }
    simpl. split; [intros ch; rewrite L; auto | intros ch; rewrite L; apply H1].
Qed.

Lemma board_of_snoc past a : board_of owner (past ++ [a]) = board_step owner (board_of owner past) a.
Proof. unfold board_of. rewrite fold_left_app. reflexivity. Qed.

Lemma refine_run ops :
  (forall o o', same o o' = true -> o = o') -> separate ops -> possible owner same binit ops ->
  refines (run binit ops) (board_of owner ops) /\ once (run binit ops) /\ origin ops (run binit ops).
Proof.
  intros Hid. induction ops as [|a ops IH] using rev_ind; intros Hs Hp.
  - simpl. repeat split; try (intros ch; reflexivity).
    + intros ch o. simpl. auto.
    + intros ch l r G. simpl in G. discriminate.
  - apply possible_app in Hp. destruct Hp as [Hp [Ha _]].
    destruct IH as (R & O & G); auto.
    { intros o m c c' A B. apply (Hs o m c c'); apply in_or_app; auto. }
    rewrite brun_app. cbn [brun]. rewrite board_of_snoc.
    destruct (refine_step ops _ _ a Hid Hs G O R Ha) as [R' O']. auto using origin_step.
Qed.

(** ** What a broadcast calls *)
Lemma calls_app t a b : calls t (a ++ b) = calls t a ++ calls t b.
Proof. unfold calls. now rewrite filter_app, map_app. Qed.

Lemma nth_upd_same {A} (l : list A) i x y : nth_error l i = Some y -> nth_error (upd i x l) i = Some x.
Proof. revert i; induction l; intros [|i] H; simpl in *; try discriminate; auto. Qed.
Lemma nth_upd_other {A} (l : list A) i j x : i <> j -> nth_error (upd i x l) j = nth_error l j.
Proof. revert i j; induction l; intros [|i] [|j] H; simpl; auto; try congruence. Qed.

Lemma other_step s a t k :
  nth_error (bs_tasks s) t = Some k -> (forall r, a <> BNext t r) ->
  nth_error (bs_tasks (fst (step s a))) t = Some k /\
  calls t (bs_log (fst (step s a))) = calls t (bs_log s).
Proof.
  intros N D. destruct a as [c cb|c cb|o|c ev ok|t' res|c]; simpl.
  - destruct (callee_dead s cb); simpl; auto. unfold subscribe. destruct (existsb _ _); simpl; auto.
    destruct cb; simpl; auto.
  - destruct (callee_dead s cb); simpl; auto. unfold unsubscribe. destruct (find _ _); simpl; auto.
  - destruct (held _ _); simpl; auto.
  - destruct ok; simpl; auto. split; auto. rewrite nth_error_app1; auto. apply nth_error_Some. congruence.
  - assert (E : t' <> t) by (intros ->; eapply D; eauto).
    destruct (nth_error (bs_tasks s) t') as [[ev all [|cb todo] [| |]]|]; simpl; auto.
    + rewrite nth_upd_other; auto.
    + rewrite nth_upd_other by auto. split; auto. rewrite calls_app. unfold calls at 2; simpl.
      destruct (Nat.eqb_spec t' t); [contradiction|]. simpl. apply app_nil_r.
  - auto.
Qed.

Definition finished_st (st : bstatus) := match st with BRunning => false | _ => true end.

Lemma run_dead s ops t ev all todo st :
  nth_error (bs_tasks s) t = Some (Build_btask ev all todo st) -> finished_st st = true ->
  nth_error (bs_tasks (run s ops)) t = Some (Build_btask ev all todo st) /\
  calls t (bs_log (run s ops)) = calls t (bs_log s).
Proof.
  revert s. induction ops as [|a ops IH]; simpl; intros s N F; auto.
  assert (X : nth_error (bs_tasks (fst (step s a))) t = Some (Build_btask ev all todo st) /\
              calls t (bs_log (fst (step s a))) = calls t (bs_log s)).
  { destruct a as [c cb|c cb|o|c ev' ok|t' res|c]; try (apply other_step; auto; congruence).
    destruct (Nat.eq_dec t' t) as [->|E]; [|apply other_step; auto; congruence].
    simpl. rewrite N. destruct st; simpl in *; try discriminate; auto. }
  destruct X as [X1 X2]. destruct (IH _ X1 F) as [Y1 Y2]. split; congruence.
Qed.

Lemma run_task ops : forall s t ev all todo,
  nth_error (bs_tasks s) t = Some (Build_btask ev all todo BRunning) ->
  calls t (bs_log (run s ops)) = calls t (bs_log s) ++ map (fun r => (r, ev)) (firstn (asked t ops) todo) /\
  exists todo' st, nth_error (bs_tasks (run s ops)) t = Some (Build_btask ev all todo' st) /\
     (st = BReturned -> length todo < asked t ops).
Proof.
  induction ops as [|a ops IH]; intros s t ev all todo N.
  - simpl. rewrite app_nil_r. split; auto. exists todo, BRunning. split; auto. discriminate.
  - assert (OT : (forall r, a <> BNext t r) ->
      calls t (bs_log (run s (a :: ops))) =
        calls t (bs_log s) ++ map (fun r => (r, ev)) (firstn (asked t (a :: ops)) todo) /\
      exists todo' st, nth_error (bs_tasks (run s (a :: ops))) t = Some (Build_btask ev all todo' st) /\
        (st = BReturned -> length todo < asked t (a :: ops))).
    { intros D. replace (asked t (a :: ops)) with (asked t ops).
      - destruct (other_step s a t _ N D) as [N' L'].
        specialize (IH (fst (step s a)) t ev all todo N'). cbn [brun]. rewrite <- L'. exact IH.
      - destruct a; simpl; auto. destruct (Nat.eqb_spec t0 t) as [->|]; auto. exfalso. eapply D; eauto. }
    destruct a as [c cb|c cb|o|c ev' ok|t' res|c]; try (apply OT; congruence).
    destruct (Nat.eq_dec t' t) as [->|E].
    + cbn [brun asked]. rewrite Nat.eqb_refl. cbn [bstep]. rewrite N.
      destruct todo as [|cb todo].
      * set (s' := fst _).
        assert (N' : nth_error (bs_tasks s') t = Some (Build_btask ev all [] BReturned))
          by (apply (nth_upd_same _ _ _ _ N)).
        destruct (run_dead s' ops _ _ _ _ _ N' eq_refl) as [A B]. rewrite B. simpl.
        split; [rewrite firstn_nil; simpl; now rewrite app_nil_r|].
        exists [], BReturned. split; auto. intros _. destruct res; simpl; lia.
      * set (s' := fst _).
        assert (C : calls t (bs_log s') = calls t (bs_log s) ++ [(cb, ev)]).
        { unfold s'; simpl. rewrite calls_app. unfold calls at 2; simpl. now rewrite Nat.eqb_refl. }
        assert (P : forall st, st = match res with CBase _ => BAborted | _ => BRunning end ->
                    nth_error (bs_tasks s') t = Some (Build_btask ev all todo st))
          by (intros st ->; apply (nth_upd_same _ _ _ _ N)).
        destruct res as [|e|e].
        -- destruct (IH s' t ev all todo (P _ eq_refl)) as (X & td & st & Y & Z).
           rewrite X, C, <- app_assoc. simpl. split; auto.
           exists td, st. split; auto. intros W. specialize (Z W). lia.
        -- destruct (IH s' t ev all todo (P _ eq_refl)) as (X & td & st & Y & Z).
           rewrite X, C, <- app_assoc. simpl. split; auto.
           exists td, st. split; auto. intros W. specialize (Z W). lia.
        -- destruct (run_dead s' ops _ _ _ _ _ (P _ eq_refl) eq_refl) as [A B]. rewrite B, C. simpl.
           split; auto. exists todo, BAborted. split; auto. discriminate.
    + apply OT; congruence.
Qed.

(** Log entries belong to started broadcasts. *)
Definition log_ok (s : bstate) : Prop := forall t r ev, In (t, r, ev) (bs_log s) -> t < length (bs_tasks s).

Lemma upd_len {A} i (x : A) l : length (upd i x l) = length l.
Proof. revert i; induction l; intros [|i]; simpl; auto. Qed.

Lemma log_ok_step s a : log_ok s -> log_ok (fst (step s a)).
Proof.
  intros H. destruct a as [c cb|c cb|o|c ev ok|t' res|c]; simpl.
  - destruct (callee_dead s cb); simpl; auto. unfold subscribe. destruct (existsb _ _); simpl; auto.
    destruct cb; simpl; auto.
  - destruct (callee_dead s cb); simpl; auto. unfold unsubscribe. destruct (find _ _); simpl; auto.
  - destruct (held _ _); simpl; auto.
  - destruct ok; simpl; auto. intros t r e I. simpl in *. rewrite app_length. specialize (H _ _ _ I). lia.
  - destruct (nth_error (bs_tasks s) t') as [[ev all [|cb todo] [| |]]|] eqn:E; simpl; auto;
      intros t r e I; simpl in *; rewrite upd_len.
    + eapply H; eauto.
    + apply in_app_or in I. destruct I as [I|[[= <- <- <-]|[]]]; [eapply H; eauto|].
      apply nth_error_Some. congruence.
  - auto.
Qed.

Lemma log_ok_run ops : forall s, log_ok s -> log_ok (run s ops).
Proof. induction ops; simpl; intros; auto. apply IHops, log_ok_step; auto. Qed.

Lemma calls_fresh s t : log_ok s -> length (bs_tasks s) <= t -> calls t (bs_log s) = [].
Proof.
  intros H L. unfold calls. replace (filter _ _) with (@nil (nat * wref * nat)); auto.
  symmetry. assert (K : forall x, In x (bs_log s) -> (fst (fst x) =? t) = false).
  { intros [[u r] e] I. apply H in I. apply Nat.eqb_neq. simpl. lia. }
  clear H L. induction (bs_log s) as [|x l IH]; simpl; auto. rewrite K by (simpl; auto).
  apply IH. intros; apply K; simpl; auto.
Qed.

Lemma broadcast_calls s c ev ops2 :
  log_ok s ->
  let t := length (bs_tasks s) in
  calls t (bs_log (run s (BBroadcast c ev true :: ops2))) =
    map (fun r => (r, ev)) (firstn (asked t ops2) (live s (owner c))) /\
  exists todo st, nth_error (bs_tasks (run s (BBroadcast c ev true :: ops2))) t =
      Some (Build_btask ev (live s (owner c)) todo st) /\
     (st = BReturned -> length (live s (owner c)) < asked t ops2).
Proof.
  intros H t. cbn [brun]. set (s' := fst (step s _)).
  assert (N : nth_error (bs_tasks s') t = Some (Build_btask ev (live s (owner c)) (live s (owner c)) BRunning)).
  { unfold s', t; simpl. rewrite nth_error_app2, Nat.sub_diag; auto. }
  destruct (run_task ops2 s' t _ _ _ N) as [A B]. split; auto.
  rewrite A. replace (calls t (bs_log s')) with (@nil (wref * nat)); auto.
  symmetry. unfold s'; simpl. apply calls_fresh; auto.
Qed.

End B.

(** ** EventBus *)
Section E.
Variable same : nat -> nat -> bool.
Notation step := (estep same).
Notation run := (erun_bus same).

Definition e_live (s : ebus) (t : nat) : list nat :=
  filter (o_alive (eb_dead s)) (match dget t (eb_subs s) with Some l => l | None => [] end).

Lemma erun_bus_app s a b : run s (a ++ b) = run (run s a) b.
Proof. revert s; induction a; simpl; intros; auto. Qed.
Lemma e_possible_app s a b :
  e_possible same s (a ++ b) <-> e_possible same s a /\ e_possible same (run s a) b.
Proof. revert s; induction a; simpl; intros; [tauto|]. rewrite IHa. tauto. Qed.

Lemma on_topic_app t a b : on_topic t (a ++ b) = on_topic t a ++ on_topic t b.
Proof. unfold on_topic. now rewrite filter_app, map_app. Qed.

Lemma on_topic_drop t t' o b :
  on_topic t (drop_first t' o b) =
  if t =? t' then remove_when (fun x => x =? o) (on_topic t b) else on_topic t b.
Proof.
  induction b as [|[u x] b IH]; simpl.
  - destruct (t =? t'); auto.
  - destruct (Nat.eqb_spec u t') as [->|N]; simpl.
    + destruct (Nat.eqb_spec t t') as [->|M].
      * destruct (Nat.eqb_spec x o) as [->|]; unfold on_topic; simpl; rewrite Nat.eqb_refl; simpl.
        -- now rewrite Nat.eqb_refl.
        -- destruct (Nat.eqb_spec x o); [contradiction|]. f_equal.
           exact IH.
      * assert (Q : (t' =? t) = false) by (apply Nat.eqb_neq; congruence).
        destruct (x =? o); unfold on_topic; simpl; rewrite ?Q; auto.
    + unfold on_topic in *; simpl.
      destruct (Nat.eqb_spec u t) as [->|]; simpl; auto.
      destruct (Nat.eqb_spec t t'); [contradiction|]. simpl. f_equal. exact IH.
Qed.

Lemma on_topic_collect t o b :
  on_topic t (filter (fun p => negb (snd p =? o)) b) = filter (fun x => negb (x =? o)) (on_topic t b).
Proof.
  unfold on_topic. rewrite filter_filter, filter_map_comm, filter_filter. f_equal.
  apply filter_ext_in'. intros [a x] _; simpl. apply andb_comm.
Qed.

Lemma on_topic_clear t u b :
  on_topic t (filter (fun p => negb (fst p =? u)) b) = if t =? u then [] else on_topic t b.
Proof.
  unfold on_topic. rewrite filter_filter. destruct (Nat.eqb_spec t u) as [->|N].
  - replace (filter _ b) with (@nil (nat * nat)); auto. symmetry.
    clear same. induction b as [|[x y] b IH]; simpl; auto. destruct (x =? u); auto.
  - f_equal. apply filter_ext_in'. intros [x y] _; simpl. destruct (Nat.eqb_spec x t) as [->|]; [|apply andb_false_r].
    destruct (Nat.eqb_spec t u); [contradiction | auto].
Qed.

Lemma e_live_dset s t l u :
  e_live (with_subs s (dset t l (eb_subs s))) u = if u =? t then filter (o_alive (eb_dead s)) l else e_live s u.
Proof.
  unfold e_live, with_subs; simpl. destruct (Nat.eqb_spec u t) as [->|N].
  - now rewrite dget_dset_same.
  - rewrite dget_dset_other; auto.
Qed.

Lemma o_alive_cons o d x : o_alive (o :: d) x = negb (x =? o) && o_alive d x.
Proof. unfold o_alive; simpl. now rewrite negb_orb. Qed.

Lemma e_live_get s t l : dget t (eb_subs s) = Some l -> filter (o_alive (eb_dead s)) l = e_live s t.
Proof. intros E. unfold e_live. now rewrite E. Qed.

Lemma existsb_live s t l o : dget t (eb_subs s) = Some l -> o_alive (eb_dead s) o = true ->
  existsb (Nat.eqb o) l = existsb (Nat.eqb o) (e_live s t).
Proof.
  intros E A. rewrite <- (e_live_get _ _ _ E). apply Bool.eq_iff_eq_true.
  rewrite !existsb_nat, filter_In. tauto.
Qed.

Lemma e_live_clean s t l u : dget t (eb_subs s) = Some l ->
  e_live (fst (e_cleanup s t l)) u = e_live s u.
Proof.
  intros E. unfold e_cleanup. simpl. rewrite e_live_dset. destruct (Nat.eqb_spec u t) as [->|]; auto.
  rewrite filter_filter, <- (e_live_get _ _ _ E). apply filter_ext_in'. intros; apply andb_diag.
Qed.

Definition e_refines (s : ebus) (b : ebook) (tp : list nat) : Prop :=
  (forall t, e_live s t = on_topic t b) /\ dkeys (eb_subs s) = tp /\ NoDup tp.

Lemma dkeys_dset_topics t (l : list nat) d tp : dkeys d = tp ->
  dkeys (dset t l d) = if existsb (Nat.eqb t) tp then tp else tp ++ [t].
Proof.
  intros <-. destruct (existsb (Nat.eqb t) (dkeys d)) eqn:E.
  - apply dkeys_dset_in. apply existsb_nat; auto.
  - rewrite dkeys_dset_notin; [now rewrite dkeys_app|]. rewrite <- existsb_nat. congruence.
Qed.

Lemma ddel_filter (t : nat) (d : dict nat (list nat)) : NoDup (dkeys d) ->
  dkeys (ddel t d) = filter (fun u => negb (u =? t)) (dkeys d).
Proof.
  induction d as [|[k v] d IH]; simpl; auto. intros N. apply NoDup_cons_iff in N. destruct N as [N1 N2].
  destruct (eqb_spec t k) as [E|E]; destruct (Nat.eqb_spec k t) as [E'|E']; try congruence; simpl.
  - subst. symmetry. apply filter_all.
    intros x I. destruct (Nat.eqb_spec x k) as [->|]; auto.
  - f_equal. auto.
Qed.

Lemma NoDup_topic l t : NoDup l -> NoDup (if existsb (Nat.eqb t) l then l else l ++ [t]).
Proof.
  intros N. destruct (existsb (Nat.eqb t) l) eqn:E; auto.
  apply NoDup_app_snoc; auto. rewrite <- existsb_nat. congruence.
Qed.

Lemma keep_topics (t : nat) (l l' : list nat) d tp : dkeys d = tp -> dget t d = Some l ->
  dkeys (dset t l' d) = tp.
Proof.
  intros K G. rewrite (dkeys_dset_topics _ _ _ _ K). replace (existsb _ _) with true; auto.
  symmetry. apply existsb_nat. rewrite <- K. eapply dget_Some_key; eauto.
Qed.

Lemma e_refine_step s b tp a :
  (forall o o', same o o' = true -> o = o') ->
  e_refines s b tp -> snd (step s a) <> EImpossible ->
  e_refines (fst (step s a)) (ebook_step b a) (topics_step tp a).
Proof.
  intros Hid (R & K & N). destruct a as [t o|t o|o|t raises|k i r|[t|]| |t]; cbn [estep ebook_step topics_step]; intros HP.
  - destruct (o_alive (eb_dead s) o) eqn:A; [|simpl in HP; congruence]. cbn [fst].
    repeat split.
    + intros u. rewrite e_live_dset, on_topic_app. unfold on_topic at 2. simpl.
      rewrite (Nat.eqb_sym t u). destruct (Nat.eqb_spec u t) as [->|].
      * rewrite filter_snoc, A. simpl. rewrite <- R. f_equal.
      * simpl. rewrite app_nil_r. auto.
    + simpl. apply dkeys_dset_topics; auto.
    + apply NoDup_topic; auto.
  - destruct (o_alive (eb_dead s) o) eqn:A; [|simpl in HP; congruence].
    destruct (dget t (eb_subs s)) as [l|] eqn:G; cbn [fst].
    + destruct (existsb (Nat.eqb o) l) eqn:E; cbn [fst].
      * repeat split; auto.
        -- intros u. rewrite e_live_dset, on_topic_drop.
           destruct (Nat.eqb_spec u t) as [->|]; auto. rewrite <- R, <- (e_live_get _ _ _ G).
           rewrite (remove_when_ext _ (fun x => x =? o)).
           ++ apply filter_remove_when. intros x _ X. apply Nat.eqb_eq in X. now subst.
           ++ intros x _. destruct (Nat.eqb_spec x o); auto. simpl.
              destruct (same x o) eqn:S; [|apply andb_false_r]. apply Hid in S. contradiction.
        -- simpl. eapply keep_topics; eauto.
      * repeat split; auto. intros u. rewrite on_topic_drop. destruct (Nat.eqb_spec u t) as [->|]; auto.
        rewrite (existsb_live _ _ _ _ G A) in E. rewrite <- R.
        clear - E. induction (e_live s t) as [|x l IH]; simpl in *; auto.
        apply orb_false_iff in E. destruct E as [E1 E2]. rewrite Nat.eqb_sym, E1. f_equal. auto.
    + repeat split; auto. intros u. rewrite on_topic_drop. destruct (Nat.eqb_spec u t) as [->|]; auto.
      rewrite <- R. unfold e_live. now rewrite G.
  - destruct (e_held (eb_emits s) o) eqn:E; [simpl in HP; congruence|]. cbn [fst].
    repeat split; auto. intros u. rewrite on_topic_collect, <- R. unfold e_live; simpl.
    rewrite filter_filter. apply filter_ext_in'. intros x _. rewrite o_alive_cons. apply andb_comm.
  - destruct (dget t (eb_subs s)) as [l|] eqn:G; cbn [fst]; [|repeat split; auto].
    assert (X : e_refines (fst (e_cleanup s t l)) b tp).
    { repeat split; auto.
      - intros u. rewrite e_live_clean; auto.
      - simpl. eapply keep_topics; eauto. }
    unfold e_cleanup in *. cbn [fst] in X. destruct (filter (o_alive (eb_dead s)) l) as [|h hs] eqn:F; auto.
    destruct (first_raise raises (h :: hs)); auto.
  - destruct (nth_error (eb_emits s) k) as [[t hs done [|]]|]; [|repeat split; auto ..].
    destruct (upd_opt done i r); repeat split; auto.
  - cbn [fst]. repeat split; auto.
    + intros u. rewrite on_topic_clear. unfold e_live, with_subs; simpl.
      destruct (Nat.eqb_spec u t) as [->|].
      * rewrite dget_ddel_same; auto. rewrite K; auto.
      * rewrite dget_ddel_other by auto. apply R.
    + simpl. rewrite ddel_filter, K; auto. rewrite K; auto.
    + apply NoDup_filter; auto.
  - cbn [fst]. repeat split; auto. constructor.
  - repeat split; auto.
  - destruct (dget t (eb_subs s)) as [l|] eqn:G; cbn [fst]; [|repeat split; auto].
    repeat split; auto.
    + intros u. etransitivity; [exact (e_live_clean s t l u G) | auto].
    + simpl. eapply keep_topics; eauto.
Qed.

Lemma e_refine_run ops :
  (forall o o', same o o' = true -> o = o') -> e_possible same einit_bus ops ->
  e_refines (run einit_bus ops) (ebook_of ops) (topics_of ops).
Proof.
  intros Hid. induction ops as [|a ops IH] using rev_ind; intros Hp.
  - repeat split; auto. constructor.
  - apply e_possible_app in Hp. destruct Hp as [Hp [Ha _]]. rewrite erun_bus_app. cbn [erun_bus].
    unfold ebook_of, topics_of. rewrite !fold_left_app. cbn [fold_left].
    apply e_refine_step; auto.
Qed.

(** Emissions. *)
Lemma started_app k a b : started k (a ++ b) = started k a ++ started k b.
Proof. unfold started. now rewrite filter_app, map_app. Qed.

Lemma started_pair k j hs : started k (map (pair j) hs) = if j =? k then hs else [].
Proof.
  unfold started. induction hs as [|h hs IH]; simpl; [destruct (j =? k); auto|].
  destruct (j =? k); simpl; congruence.
Qed.

Definition e_log_ok (s : ebus) : Prop := forall k o, In (k, o) (eb_log s) -> k < length (eb_emits s).

(** A step does not touch the starts of an existing emission. *)
Lemma e_step_keeps s a k : k < length (eb_emits s) ->
  started k (eb_log (fst (step s a))) = started k (eb_log s) /\
  length (eb_emits s) <= length (eb_emits (fst (step s a))).
Proof.
  intros L. destruct a as [t o|t o|o|t raises|k' i r|[t|]| |t]; cbn [estep].
  - destruct (o_alive _ _); simpl; auto.
  - destruct (o_alive _ _); simpl; auto. destruct (dget _ _); simpl; auto. destruct (existsb _ _); simpl; auto.
  - destruct (e_held _ _); simpl; auto.
  - destruct (dget _ _) as [l|]; simpl; auto. destruct (filter _ l) as [|h hs]; simpl; auto.
    destruct (match raises h with Some e => Some e | None => first_raise raises hs end); simpl; auto.
    rewrite app_length; simpl. split; [|lia].
    change ((length (eb_emits s), h) :: map (pair (length (eb_emits s))) hs)
      with (map (pair (length (eb_emits s))) (h :: hs)).
    rewrite started_app, started_pair. destruct (Nat.eqb_spec (length (eb_emits s)) k); [lia|].
    apply app_nil_r.
  - destruct (nth_error (eb_emits s) k') as [[t hs done [|]]|]; simpl; auto.
    destruct (upd_opt done i r); simpl; auto. rewrite upd_len; auto.
  - simpl; auto.
  - simpl; auto.
  - simpl; auto.
  - destruct (dget _ _); simpl; auto.
Qed.

Lemma e_run_keeps ops : forall s k, k < length (eb_emits s) ->
  started k (eb_log (run s ops)) = started k (eb_log s).
Proof.
  induction ops as [|a ops IH]; simpl; intros s k L; auto.
  destruct (e_step_keeps s a k L) as [A B]. rewrite IH; auto. lia.
Qed.

Lemma e_log_ok_step s a : e_log_ok s -> e_log_ok (fst (step s a)).
Proof.
  intros H. destruct a as [t o|t o|o|t raises|k' i r|[t|]| |t]; cbn [estep].
  - destruct (o_alive _ _); simpl; auto.
  - destruct (o_alive _ _); simpl; auto. destruct (dget _ _); simpl; auto. destruct (existsb _ _); simpl; auto.
  - destruct (e_held _ _); simpl; auto.
  - destruct (dget _ _) as [l|]; simpl; auto. destruct (filter _ l) as [|h hs]; simpl; auto.
    destruct (match raises h with Some e => Some e | None => first_raise raises hs end); simpl; auto.
    intros k o I. simpl in *. rewrite app_length; simpl. apply in_app_or in I. destruct I as [I|[[= <- <-]|I]].
    + apply H in I. lia.
    + lia.
    + apply in_map_iff in I. destruct I as (x & [= <- <-] & _). lia.
  - destruct (nth_error (eb_emits s) k') as [[t hs done [|]]|]; simpl; auto.
    destruct (upd_opt done i r); simpl; auto. intros k o I. simpl in *. rewrite upd_len. eapply H; eauto.
  - simpl; auto.
  - simpl; auto.
  - simpl; auto.
  - destruct (dget _ _); simpl; auto.
Qed.

Lemma e_log_ok_run ops : forall s, e_log_ok s -> e_log_ok (run s ops).
Proof. induction ops; simpl; intros; auto. apply IHops, e_log_ok_step; auto. Qed.

Lemma started_fresh s k : e_log_ok s -> length (eb_emits s) <= k -> started k (eb_log s) = [].
Proof.
  intros H L. unfold started. replace (filter _ _) with (@nil (nat * nat)); auto. symmetry.
  assert (K : forall x, In x (eb_log s) -> (fst x =? k) = false).
  { intros [u o] I. apply H in I. apply Nat.eqb_neq. simpl. lia. }
  clear H L. induction (eb_log s) as [|x l IH]; simpl; auto. rewrite K by (simpl; auto).
  apply IH. intros; apply K; simpl; auto.
Qed.

Lemma first_raise_None raises l : first_raise raises l = None <-> forall o, In o l -> raises o = None.
Proof.
  induction l as [|o l IH]; simpl; [intuition|]. destruct (raises o) eqn:E.
  - split; [discriminate|]. intros H. rewrite (H o) in E by auto. discriminate.
  - rewrite IH. split; [intros H x [<-|I]; auto | intros H x I; auto].
Qed.

(** Every emission in progress has one slot per handler and something left. *)
Definition m_ok (m : emission) : Prop :=
  length (m_done m) = length (m_all m) /\ (m_status m = EReturned <-> all_done (m_done m) = true).

Lemma upd_opt_spec {A} (l : list (option A)) i x l' : upd_opt l i x = Some l' ->
  l' = upd i (Some x) l /\ nth_error l i = Some None.
Proof.
  revert i l'. induction l as [|[y|] l IH]; intros [|i] l' H; simpl in *; try discriminate.
  - destruct (upd_opt l i x) eqn:E; [|discriminate]. injection H as <-.
    destruct (IH _ _ E) as [-> ?]. auto.
  - injection H as <-. auto.
  - destruct (upd_opt l i x) eqn:E; [|discriminate]. injection H as <-.
    destruct (IH _ _ E) as [-> ?]. auto.
Qed.

Lemma upd_opt_some {A} (l : list (option A)) i x : nth_error l i = Some None ->
  upd_opt l i x = Some (upd i (Some x) l).
Proof.
  revert i. induction l as [|[y|] l IH]; intros [|i] H; simpl in *; try discriminate; auto;
    rewrite IH; auto.
Qed.

Lemma Forall_upd {A} (P : A -> Prop) i x l : Forall P l -> P x -> Forall P (upd i x l).
Proof. intros H Px. revert i. induction H; intros [|i]; simpl; auto. Qed.

Lemma m_ok_step s a : Forall m_ok (eb_emits s) -> Forall m_ok (eb_emits (fst (step s a))).
Proof.
  intros H. destruct a as [t o|t o|o|t raises|k' i r|[t|]| |t]; cbn [estep].
  - destruct (o_alive _ _); simpl; auto.
  - destruct (o_alive _ _); simpl; auto. destruct (dget _ _); simpl; auto. destruct (existsb _ _); simpl; auto.
  - destruct (e_held _ _); simpl; auto.
  - destruct (dget _ _) as [l|]; simpl; auto. destruct (filter _ l) as [|h hs]; simpl; auto.
    destruct (match raises h with Some e => Some e | None => first_raise raises hs end); simpl; auto.
    apply Forall_app; split; auto. repeat constructor; simpl; try discriminate.
    now rewrite map_length.
  - destruct (nth_error (eb_emits s) k') as [[t hs done [|]]|] eqn:E; simpl; auto.
    destruct (upd_opt done i r) eqn:U; simpl; auto. apply Forall_upd; auto.
    apply nth_error_In in E. rewrite Forall_forall in H. specialize (H _ E). destruct H as [H1 H2]. simpl in *.
    apply upd_opt_spec in U. destruct U as [-> U]. split; simpl.
    + now rewrite upd_len.
    + destruct (all_done (upd i (Some r) done)); split; congruence.
  - simpl; auto.
  - simpl; auto.
  - simpl; auto.
  - destruct (dget _ _); simpl; auto.
Qed.

Lemma m_ok_run ops : forall s, Forall m_ok (eb_emits s) -> Forall m_ok (eb_emits (run s ops)).
Proof. induction ops; simpl; intros; auto. apply IHops, m_ok_step; auto. Qed.

End E.
