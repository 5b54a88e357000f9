(** Proofs about string_similarity and fuzzy_match_keys. *)
From Coq Require Import List Bool Arith ZArith QArith Lia Permutation Sorted Lqa.
From Verif Require Import PyBase ModelHeap ModelSim SpecSim.
Import ListNotations.
Local Close Scope Q_scope.
Local Open Scope nat_scope.
Local Open Scope list_scope.

Definition bef (a b : match_result) : Prop :=
  (m_score b < m_score a)%Q \/ ((m_score a == m_score b)%Q /\ m_index a <= m_index b).

Lemma before_spec a b : before a b = true <-> bef a b.
Proof.
  unfold before, bef. rewrite orb_true_iff, andb_true_iff, Nat.leb_le, negb_true_iff, Qeq_bool_iff.
  split; intros [H|H]; auto; left.
  - apply Qnot_le_lt. intros X. apply Qle_bool_iff in X. congruence.
  - destruct (Qle_bool (m_score a) (m_score b)) eqn:E; auto. apply Qle_bool_iff in E. lra.
Qed.
Lemma before_false a b : before a b = false -> bef b a.
Proof.
  intros H. unfold bef. destruct (Qlt_le_dec (m_score a) (m_score b)) as [L|L]; auto. right.
  assert (N : ~ bef a b) by (rewrite <- before_spec; congruence). unfold bef in N.
  destruct (Qlt_le_dec (m_score b) (m_score a)) as [L'|L']; [exfalso; apply N; auto|].
  assert (E : (m_score a == m_score b)%Q) by lra. split; [lra|].
  destruct (le_lt_dec (m_index a) (m_index b)) as [I|I]; [exfalso; apply N; auto|lia].
Qed.
Lemma bef_trans a b c : bef a b -> bef b c -> bef a c.
Proof. unfold bef. intros [H|(H & I)] [K|(K & J)]; [left; lra|left; lra|left; lra|right; split; [lra|lia]]. Qed.

Lemma insert_perm x l : Permutation (insert_result x l) (x :: l).
Proof.
  induction l as [|y l IH]; simpl; auto. destruct (before x y); auto.
  rewrite IH. apply perm_swap.
Qed.
Lemma sort_perm l : Permutation (sort_results l) l.
Proof. induction l as [|x l IH]; simpl; auto. rewrite insert_perm. now constructor. Qed.
Lemma insert_sorted x l : StronglySorted bef l -> StronglySorted bef (insert_result x l).
Proof.
  induction 1 as [|y l H IH F]; simpl; [repeat constructor|].
  destruct (before x y) eqn:B.
  - apply before_spec in B. constructor; [constructor; auto|]. constructor; auto.
    rewrite Forall_forall in *. intros z Z. eapply bef_trans; eauto.
  - apply before_false in B. constructor; auto. rewrite Forall_forall in *. intros z Z.
    apply (Permutation_in _ (insert_perm x l)) in Z. destruct Z as [<-|Z]; auto.
Qed.
Lemma sort_sorted l : StronglySorted bef (sort_results l).
Proof. induction l as [|x l IH]; simpl; [constructor|]. now apply insert_sorted. Qed.

Section Sim.
Variable lower : pystr -> pystr.
Variable score : pystr -> pystr -> Q.

Definition comp_of (cs : bool) (w : pystr) := if cs then w else lower w.
Definition len_ok (h : bool) (word comp : pystr) : bool := negb (h && negb (length comp =? length word)).

Lemma collect_spec h cs word thr words : forall idx r,
  In r (collect lower score h cs word thr words idx) <->
  exists i, m_index r = idx + i /\
    reaches score (comp_of cs) word (len_ok h word) thr words i (m_word r) (m_score r).
Proof.
  induction words as [|w words IH]; intros idx r; cbn [collect].
  - split; [contradiction|]. intros (i & _ & H & _). destruct i; discriminate.
  - fold (comp_of cs w).
    assert (X : In r (collect lower score h cs word thr words (S idx)) <->
      exists i, m_index r = idx + S i /\ reaches score (comp_of cs) word (len_ok h word) thr (w :: words) (S i) (m_word r) (m_score r)).
    { rewrite IH. split; intros (i & E & H); exists i; (split; [lia|exact H]). }
    destruct (h && negb (length (comp_of cs w) =? length word)) eqn:HE.
    + rewrite X. split; [intros (i & H); eauto|]. intros ([|i] & E & H); [|eauto].
      destruct H as (H1 & H2 & _). injection H1 as H1. rewrite <- H1 in H2. unfold len_ok in H2. rewrite HE in H2. discriminate.
    + destruct (Qle_bool thr (score word (comp_of cs w))) eqn:Q.
      * simpl. rewrite X. split.
        -- intros [<-|(i & H)]; [|eauto]. exists 0. simpl. rewrite Nat.add_0_r. split; auto.
           repeat split; auto; [unfold len_ok; now rewrite HE|]. now apply Qle_bool_iff.
        -- intros ([|i] & E & H); [|eauto]. left. destruct H as (H1 & H2 & H3 & H4). injection H1 as H1.
           destruct r as [rw rs ri]. simpl in *. subst. f_equal. lia.
      * rewrite X. split; [intros (i & H); eauto|]. intros ([|i] & E & H); [|eauto].
        destruct H as (H1 & H2 & H3 & H4). injection H1 as H1. rewrite H3, <- H1 in H4. apply Qle_bool_iff in H4. congruence.
Qed.

Lemma collect_nodup h cs word thr words : forall idx,
  NoDup (map m_index (collect lower score h cs word thr words idx)) /\
  (forall r, In r (collect lower score h cs word thr words idx) -> idx <= m_index r).
Proof.
  intros idx. split.
  - revert idx. induction words as [|w words IH]; intros idx; cbn [collect]; [constructor|].
    destruct (h && negb _); auto. destruct (Qle_bool thr _); auto. simpl. constructor; auto.
    intros I. apply in_map_iff in I. destruct I as (r & E & R). apply collect_spec in R. destruct R as (i & E' & _). lia.
  - intros r R. apply collect_spec in R. destruct R as (i & E & _). lia.
Qed.

Definition res_of (word : pystr) (words : list pystr) h thr cs : list match_result :=
  sort_results (collect lower score h cs (comp_of cs word) thr words 0).

Lemma res_spec word words h thr cs r :
  In r (res_of word words h thr cs) <->
  reaches score (comp_of cs) (comp_of cs word) (len_ok h (comp_of cs word)) thr words (m_index r) (m_word r) (m_score r).
Proof.
  unfold res_of. split.
  - intros H. apply (Permutation_in _ (sort_perm _)) in H. apply collect_spec in H. destruct H as (i & E & H). simpl in E. now rewrite E.
  - intros H. apply (Permutation_in _ (Permutation_sym (sort_perm _))). apply collect_spec. exists (m_index r). split; auto.
Qed.
Lemma res_nodup word words h thr cs : NoDup (map m_index (res_of word words h thr cs)).
Proof.
  unfold res_of. apply (Permutation_NoDup (l := map m_index (collect lower score h cs (comp_of cs word) thr words 0))).
  - apply Permutation_map, Permutation_sym, sort_perm.
  - apply collect_nodup.
Qed.

Lemma similar_spec word words h thr cs :
  similar lower score word words h thr cs =
  if (length words =? 0) || negb (Qle_bool 0 thr && Qle_bool thr 1) then Raise ValueError
  else Ret (match res_of word words h thr cs with
            | [] => None
            | r :: rs => Some (if cs then filter (fun x => Qeq_bool (m_score x) (m_score r)) (r :: rs) else r :: rs)
            end).
Proof.
  unfold similar. destruct (length words =? 0); auto. destruct (negb _); auto. cbn [orb].
  unfold res_of, comp_of. destruct cs; destruct (sort_results _); auto.
Qed.

(** The best match. *)
Lemma most_similar_spec word words h thr cs r :
  most_similar lower score word words h thr cs = Ret r ->
  let R := reaches score (comp_of cs) (comp_of cs word) (len_ok h (comp_of cs word)) thr words in
  match r with
  | None => forall i w q, ~ R i w q
  | Some w => exists i q, R i w q /\ forall i' w' q', R i' w' q' -> (q' < q)%Q \/ ((q' == q)%Q /\ i <= i')
  end.
Proof.
  intros H0 R. unfold most_similar in H0. rewrite similar_spec in H0.
  destruct ((length words =? 0) || negb (Qle_bool 0 thr && Qle_bool thr 1)); [discriminate|]. cbn [bind] in H0.
  pose proof (sort_sorted (collect lower score h cs (comp_of cs word) thr words 0)) as S.
  fold (res_of word words h thr cs) in S.
  pose proof (res_spec word words h thr cs) as RS. fold R in RS.
  destruct (res_of word words h thr cs) as [|x xs].
  - injection H0 as <-. intros i w q H. apply (RS (Build_match_result w q i)) in H. contradiction.
  - assert (E : (match Some (if cs then filter (fun y => Qeq_bool (m_score y) (m_score x)) (x :: xs) else x :: xs) with
        | Some (z :: _) => Some (m_word z) | _ => None end) = Some (m_word x)).
    { destruct cs; auto. simpl. assert (Q : Qeq_bool (m_score x) (m_score x) = true) by (apply Qeq_bool_iff; reflexivity).
      now rewrite Q. }
    cbv beta iota in E. rewrite E in H0. injection H0 as <-. exists (m_index x), (m_score x). split; [apply RS; simpl; auto|].
    intros i' w' q' H. apply (RS (Build_match_result w' q' i')) in H. inversion S as [|? ? _ F]; subst.
    destruct H as [H|H].
    + subst x. simpl. right. split; [reflexivity|lia].
    + rewrite Forall_forall in F. apply F in H. unfold bef in H. simpl in H. destruct H as [H|(H & I)]; [left; auto|right; split; [lra|auto]].
Qed.

(** ** fuzzy_match_keys *)
Context {V : Type}.
Notation dict := (list (pystr * V)).

Lemma str_eqb_eq a b : str_eqb a b = true <-> a = b.
Proof.
  revert b; induction a as [|x a IH]; intros [|y b]; simpl; split; try discriminate; auto.
  - intros H. apply andb_true_iff in H. destruct H as (H1 & H2). apply Nat.eqb_eq in H1. apply IH in H2. now subst.
  - intros [= -> ->]. rewrite Nat.eqb_refl. now apply IH.
Qed.
Lemma str_eqb_refl a : str_eqb a a = true.
Proof. now apply str_eqb_eq. Qed.
Lemma str_eqb_neq a b : str_eqb a b = false <-> a <> b.
Proof. rewrite <- str_eqb_eq. destruct (str_eqb a b); split; congruence. Qed.
Lemma str_dec (a b : pystr) : {a = b} + {a <> b}.
Proof. destruct (str_eqb a b) eqn:E; [left; now apply str_eqb_eq|right; now apply str_eqb_neq]. Defined.

Lemma mem_In k l : mem k l = true <-> In k l.
Proof.
  unfold mem. rewrite existsb_exists. split; [intros (x & I & E); apply str_eqb_eq in E; now subst|].
  intros I. exists k. split; auto. apply str_eqb_refl.
Qed.
Lemma mem_not k l : mem k l = false <-> ~ In k l.
Proof. rewrite <- mem_In. destruct (mem k l); split; congruence. Qed.
Lemma del_In k x l : In x (del k l) <-> In x l /\ x <> k.
Proof.
  unfold del. rewrite filter_In, negb_true_iff, str_eqb_neq. split; intros (A & B); auto.
Qed.

Lemma sget_sset_same k v (d : dict) : sget k (sset k v d) = Some v.
Proof. induction d as [|(k', v') d IH]; simpl; [now rewrite str_eqb_refl|]. destruct (str_eqb k k') eqn:E; simpl; now rewrite E. Qed.
Lemma sget_sset_other k k' v (d : dict) : k <> k' -> sget k (sset k' v d) = sget k d.
Proof.
  intros N. induction d as [|(k2, v2) d IH]; simpl.
  - apply str_eqb_neq in N. now rewrite N.
  - destruct (str_eqb k' k2) eqn:E; simpl.
    + apply str_eqb_eq in E. subst. apply str_eqb_neq in N. now rewrite N.
    + now rewrite IH.
Qed.
Lemma sget_None k (d : dict) : sget k d = None <-> ~ In k (map fst d).
Proof.
  induction d as [|(k', v') d IH]; simpl; [tauto|]. destruct (str_eqb k k') eqn:E.
  - apply str_eqb_eq in E. subst. split; [discriminate|tauto].
  - apply str_eqb_neq in E. rewrite IH. intuition congruence.
Qed.
Lemma sget_Some k (d : dict) : In k (map fst d) -> exists v, sget k d = Some v.
Proof. intros H. destruct (sget k d) eqn:E; eauto. apply sget_None in E. contradiction. Qed.
Lemma sset_keys k v (d : dict) x : In x (map fst (sset k v d)) <-> x = k \/ In x (map fst d).
Proof.
  induction d as [|(k', v') d IH]; simpl; [intuition congruence|].
  destruct (str_eqb k k') eqn:E; simpl; [apply str_eqb_eq in E; subst; intuition|]. rewrite IH. intuition.
Qed.
Lemma sset_nodup k v (d : dict) : NoDup (map fst d) -> NoDup (map fst (sset k v d)).
Proof.
  induction d as [|(k', v') d IH]; simpl; intros H; [repeat constructor; auto|].
  inversion H; subst. destruct (str_eqb k k') eqn:E; simpl; [now constructor|]. constructor; auto.
  rewrite sset_keys. intros [->|I]; auto. rewrite str_eqb_refl in E. discriminate.
Qed.
Lemma sget_filter k f (d : dict) : sget k (filter (fun p => f (fst p)) d) = if f k then sget k d else None.
Proof.
  induction d as [|(k', v') d IH]; simpl; [now destruct (f k)|].
  destruct (f k') eqn:F; simpl; rewrite IH; destruct (str_eqb k k') eqn:E; auto.
  - apply str_eqb_eq in E. subst. now rewrite F.
  - apply str_eqb_eq in E. subst. now rewrite F.
Qed.

Variable order : list pystr -> list pystr.
Hypothesis order_ok : forall l, NoDup (order l) /\ forall x, In x (order l) <-> In x l.

(** (input key, expected key) pairs found by the fuzzy pass. *)
Definition pairing (d : dict) (keys : list pystr) (thr : Q) (pairs : list (pystr * pystr)) : Prop :=
  NoDup (map fst pairs) /\ NoDup (map snd pairs) /\
  forall k0 k, In (k0, k) pairs ->
    In k0 (map fst d) /\ ~ In k0 keys /\ In k keys /\ ~ In k (map fst d) /\ (thr <= score (lower k0) (lower k))%Q.

Definition out_val (mode : unmatched) (d : dict) (keys : list pystr) (pairs : list (pystr * pystr)) (k : pystr) : option V :=
  if mem k keys then
    if mem k (map fst d) then sget k d
    else match find (fun p => str_eqb (snd p) k) pairs with Some p => sget (fst p) d | None => None end
  else match mode with UIgnore => if mem k (map fst pairs) then None else sget k d | _ => None end.

Lemma find_pair (pairs : list (pystr * pystr)) k0 k :
  NoDup (map snd pairs) -> In (k0, k) pairs -> find (fun p => str_eqb (snd p) k) pairs = Some (k0, k).
Proof.
  induction pairs as [|(a, b) pairs IH]; simpl; intros N I; [contradiction|]. inversion N; subst.
  destruct I as [[= -> ->]|I]; [now rewrite str_eqb_refl|].
  destruct (str_eqb b k) eqn:E; [|auto]. apply str_eqb_eq in E. subst. exfalso. apply H1, in_map_iff. exists (k0, k). auto.
Qed.
Lemma find_no_pair (pairs : list (pystr * pystr)) k :
  ~ In k (map snd pairs) -> find (fun p => str_eqb (snd p) k) pairs = None.
Proof.
  induction pairs as [|(a, b) pairs IH]; simpl; intros N; auto.
  destruct (str_eqb b k) eqn:E; [apply str_eqb_eq in E; subst; tauto|]. apply IH. tauto.
Qed.

(** State of the pass after the input keys [done]; the output agrees with the
    description except for keys of the input that are still to come. *)
Record PI (d : dict) (keys : list pystr) (thr : Q) (mode : unmatched) (todo exp : list pystr) (out : dict)
    (hit : list pystr) (pairs : list (pystr * pystr)) (full : bool) : Prop := {
  pi_pair : pairing d keys thr pairs;
  pi_hit : forall x, In x hit <-> In x (map fst pairs);
  pi_todo : forall x, In x todo -> In x (map fst d) /\ ~ In x keys /\ ~ In x hit;
  pi_tdup : NoDup todo;
  pi_exp : forall x, In x exp <-> In x keys /\ ~ In x (map fst d) /\ ~ In x (map snd pairs);
  pi_out_keys : forall k, In k keys -> sget k out = out_val mode d keys pairs k;
  pi_out_rest : forall k, ~ In k keys -> sget k out = None \/ (mode = UIgnore /\ ~ In k hit /\ ~ In k todo /\ sget k out = sget k d);
  pi_dup : NoDup (map fst out);
  pi_full : full = true -> forall x k, In x (map fst d) -> ~ In x keys -> ~ In x hit -> ~ In x todo ->
      In k exp -> k <> [] -> ~ In [] keys -> ~ (thr <= score (lower x) (lower k))%Q
}.

Lemma fuzzy_pass_PI d keys thr mode : (0 <= thr)%Q -> (thr <= 1)%Q ->
  forall todo exp out hit pairs full,
  PI d keys thr mode todo exp out hit pairs full ->
  exists out' exp' hit' pairs', fuzzy_pass lower score thr mode d todo exp out hit = Ret (out', exp', hit') /\
    PI d keys thr mode [] exp' out' hit' pairs' full /\ (forall p, In p pairs -> In p pairs').
Proof.
  intros T0 T1. induction todo as [|key todo IH]; intros exp out hit pairs full H; cbn [fuzzy_pass].
  { exists out, exp, hit, pairs. auto. }
  destruct exp as [|e0 exp0] eqn:EE.
  { exists out, [], hit, pairs. split; auto. split; auto. destruct H. constructor; auto.
    - contradiction.
    - constructor.
    - intros k K. destruct (pi_out_rest0 k K) as [|(A & B & C & D)]; auto. right. repeat split; auto. }
  rewrite <- EE in *.
  destruct (pi_todo _ _ _ _ _ _ _ _ _ _ H key (or_introl eq_refl)) as (K1 & K2 & K3).
  destruct (sget_Some key d K1) as (v & SV).
  destruct (most_similar lower score key exp false thr false) as [m|e] eqn:MS.
  2: { unfold most_similar in MS. rewrite similar_spec in MS.
       assert (Q : (length exp =? 0) || negb (Qle_bool 0 thr && Qle_bool thr 1) = false).
       { apply Qle_bool_iff in T0. apply Qle_bool_iff in T1. rewrite T0, T1, EE. reflexivity. }
       rewrite Q in MS. discriminate. }
  cbn [bind]. rewrite SV. pose proof (most_similar_spec _ _ _ _ _ _ MS) as M. cbn [comp_of] in M.
  pose proof (pi_tdup _ _ _ _ _ _ _ _ _ _ H) as TD. apply NoDup_cons_iff in TD; destruct TD as (TD1 & TD2).
  assert (skip : (forall k, In k exp -> k <> [] -> ~ In [] keys -> ~ (thr <= score (lower key) (lower k))%Q) ->
    exists out' exp' hit' pairs',
      fuzzy_pass lower score thr mode d todo exp (match mode with UIgnore => sset key v out | _ => out end) hit = Ret (out', exp', hit') /\
      PI d keys thr mode [] exp' out' hit' pairs' full /\ (forall p, In p pairs -> In p pairs')).
  { intros NM. apply IH. destruct H. constructor; auto.
    - intros x X. apply pi_todo0. simpl; auto.
    - intros k K. rewrite <- pi_out_keys0 by auto. destruct mode; auto. apply sget_sset_other. congruence.
    - intros k K. destruct (str_dec k key) as [->|Nk].
      + destruct mode; try (destruct (pi_out_rest0 key K) as [|(A & B)]; [auto|discriminate]).
        right. repeat split; auto. rewrite sget_sset_same; auto.
      + assert (E : sget k (match mode with UIgnore => sset key v out | _ => out end) = sget k out).
        { destruct mode; auto. now apply sget_sset_other. }
        rewrite E. destruct (pi_out_rest0 k K) as [|(A & B & C & D)]; auto. right. repeat split; auto. simpl in C. tauto.
    - destruct mode; auto. now apply sset_nodup.
    - intros F x k X1 X2 X3 X4 X5 X6 X7. destruct (str_dec x key) as [->|Nk]; [auto|].
      apply pi_full0; auto. simpl. intuition. }
  destruct m as [[|c k]|].
  - apply skip. intros k K K' NK. destruct M as (i & q & ((M1 & _) & _)).
    exfalso. apply NK. apply nth_error_In in M1. apply (pi_exp _ _ _ _ _ _ _ _ _ _ H) in M1. tauto.
  - set (kk := c :: k) in *. clearbody kk. destruct M as (i & q & (M1 & _ & M3 & M4) & _).
    pose proof (nth_error_In _ _ M1) as KI. pose proof KI as KI'.
    apply (pi_exp _ _ _ _ _ _ _ _ _ _ H) in KI. destruct KI as (E1 & E2 & E3).
    destruct (IH (del kk exp) (sset kk v out) (key :: hit) ((key, kk) :: pairs) full) as (o & e & h & p & -> & P & PP).
    + destruct H. destruct pi_pair0 as (PA & PB & PC). constructor.
      * repeat split; simpl.
        -- constructor; auto. rewrite <- pi_hit0. auto.
        -- constructor; auto.
        -- destruct H as [[= <- <-]|H]; [auto|apply (PC k0 k1 H)].
        -- destruct H as [[= <- <-]|H]; [auto|apply (PC k0 k1 H)].
        -- destruct H as [[= <- <-]|H]; [auto|apply (PC k0 k1 H)].
        -- destruct H as [[= <- <-]|H]; [auto|apply (PC k0 k1 H)].
        -- destruct H as [[= <- <-]|H]; [rewrite M3 in M4; exact M4|apply (PC k0 k1 H)].
      * intros x. simpl. rewrite pi_hit0. tauto.
      * intros x X. destruct (pi_todo0 x (or_intror X)) as (X1 & X2 & X3). repeat split; auto. simpl. intros [->|]; auto.
      * auto.
      * intros x. rewrite del_In, pi_exp0. simpl. split; [intros ((A & B & C) & D); repeat split; auto; intros [|]; auto|].
        intros (A & B & C). repeat split; auto.
      * intros x X. destruct (str_dec x kk) as [->|Nx].
        -- rewrite sget_sset_same. unfold out_val. apply mem_In in X. rewrite X.
           apply mem_not in E2. rewrite E2. simpl. rewrite str_eqb_refl. simpl. auto.
        -- rewrite sget_sset_other by auto. rewrite pi_out_keys0 by auto. unfold out_val. simpl.
           assert (NE : str_eqb kk x = false) by (apply str_eqb_neq; congruence). rewrite NE.
           apply mem_In in X. rewrite X. reflexivity.
      * intros x X. rewrite sget_sset_other by (intros ->; contradiction).
        destruct (pi_out_rest0 x X) as [|(A & B & C & D)]; auto. right. simpl in C. repeat split; auto.
        simpl. intros [->|]; auto.
      * now apply sset_nodup.
      * intros F x z X1 X2 X3 X4 X5 X6 X7. apply pi_full0; auto.
        -- simpl in X3. tauto.
        -- simpl in *. intros [->|]; tauto.
        -- apply del_In in X5. tauto.
    + exists o, e, h, p. split; auto. split; auto. intros x X. apply PP. simpl; auto.
  - apply skip. intros k K _ _ Q. apply In_nth_error in K. destruct K as (i & K).
    apply (M i k (score (lower key) (lower k))). repeat split; auto.
Qed.

Lemma keep_get d un : forall out k,
  sget k (fold_left (fun o k => match sget k d with Some v => sset k v o | None => o end) un out) =
  (if mem k un then match sget k d with Some v => Some v | None => sget k out end else sget k out) :> option V.
Proof.
  induction un as [|x un IH]; intros out k; simpl; auto. rewrite IH. unfold mem in *. simpl.
  destruct (str_eqb k x) eqn:E; simpl.
  - apply str_eqb_eq in E. subst. destruct (existsb _ un); destruct (sget x d) eqn:S; auto; now rewrite sget_sset_same.
  - apply str_eqb_neq in E. destruct (sget x d); auto. now rewrite sget_sset_other.
Qed.
Lemma keep_nodup (d : dict) un : forall out, NoDup (map fst out) ->
  NoDup (map fst (fold_left (fun o k => match sget k d with Some v => sset k v o | None => o end) un out)).
Proof.
  induction un as [|x un IH]; intros out N; simpl; auto. apply IH. destruct (sget x d); auto. now apply sset_nodup.
Qed.
Lemma fill_get (g : pystr -> V) un : forall (out : dict) k,
  sget k (fold_left (fun o k => sset k (g k) o) un out) = if mem k un then Some (g k) else sget k out.
Proof.
  induction un as [|x un IH]; intros out k; simpl; auto. rewrite IH. unfold mem in *. simpl.
  destruct (str_eqb k x) eqn:E; simpl.
  - apply str_eqb_eq in E. subst. destruct (existsb _ un); auto. now rewrite sget_sset_same.
  - apply str_eqb_neq in E. now rewrite sget_sset_other.
Qed.
Lemma fill_nodup (g : pystr -> V) un : forall (out : dict), NoDup (map fst out) ->
  NoDup (map fst (fold_left (fun o k => sset k (g k) o) un out)).
Proof. induction un as [|x un IH]; intros out N; simpl; auto. apply IH. now apply sset_nodup. Qed.
Lemma filter_keys f (d : dict) x : In x (map fst (filter (fun p => f (fst p)) d)) <-> In x (map fst d) /\ f x = true.
Proof.
  rewrite !in_map_iff. split.
  - intros ((a, b) & E & I). apply filter_In in I. simpl in *. subst. destruct I. split; auto. exists (x, b). auto.
  - intros (((a, b) & E & I) & F). simpl in E. subst. exists (x, b). rewrite filter_In. auto.
Qed.
Lemma filter_keys_nodup f (d : dict) : NoDup (map fst d) -> NoDup (map fst (filter (fun p => f (fst p)) d)).
Proof.
  induction d as [|(k, v) d IH]; simpl; intros N; [constructor|]. inversion N; subst.
  destruct (f k); auto. simpl. constructor; auto. rewrite filter_keys. tauto.
Qed.

Definition left_in (d : dict) keys (pairs : list (pystr * pystr)) x := In x (map fst d) /\ ~ In x keys /\ ~ In x (map fst pairs).
Definition left_exp (d : dict) keys (pairs : list (pystr * pystr)) x := In x keys /\ ~ In x (map fst d) /\ ~ In x (map snd pairs).

Lemma fuzzy_match_spec d keys thr fuzzy mode fv fm strict :
  NoDup (map fst d) -> keys <> [] -> (0 <= thr)%Q -> (thr <= 1)%Q ->
  exists pairs, pairing d keys thr pairs /\ (fuzzy = false -> pairs = []) /\
    (fuzzy = true -> ~ In [] keys -> forall x k, left_in d keys pairs x -> left_exp d keys pairs k ->
       ~ (thr <= score (lower x) (lower k))%Q) /\
    match fuzzy_match_keys lower score order d keys thr fuzzy mode fv fm strict with
    | Raise e => e = ValueError /\
        ((mode = URaise /\ exists x, left_in d keys pairs x) \/ (strict = true /\ exists x, left_exp d keys pairs x))
    | Ret out => NoDup (map fst out) /\
        ~ (mode = URaise /\ exists x, left_in d keys pairs x) /\ ~ (strict = true /\ exists x, left_exp d keys pairs x) /\
        forall k,
          (In k keys -> In k (map fst d) -> sget k out = sget k d) /\
          (forall k0, In (k0, k) pairs -> sget k out = sget k0 d) /\
          (left_exp d keys pairs k -> sget k out =
             match mode with
             | UFill | UForce => Some (match sget k fm with Some v => v | None => fv end)
             | _ => None
             end) /\
          (left_in d keys pairs k -> sget k out = match mode with UIgnore | UFill => sget k d | _ => None end) /\
          (In k (map fst pairs) -> sget k out = None) /\
          (~ In k keys -> ~ In k (map fst d) -> sget k out = None)
    end.
Proof.
  intros ND NK T0 T1. unfold fuzzy_match_keys.
  pose proof T0 as T0'. pose proof T1 as T1'. apply Qle_bool_iff in T0'. apply Qle_bool_iff in T1'. rewrite T0', T1'. cbn [andb negb].
  destruct keys as [|k0 ks] eqn:EK; [congruence|]. rewrite <- EK in *. clear EK NK k0 ks.
  set (exact := filter (fun p => mem (fst p) keys) d).
  set (rest_in := order (filter (fun k => negb (mem k keys)) (map fst d))).
  set (rest_exp := order (filter (fun k => negb (mem k (map fst exact))) keys)).
  assert (RI : forall x, In x rest_in <-> In x (map fst d) /\ ~ In x keys).
  { intros x. unfold rest_in. rewrite (proj2 (order_ok _)), filter_In, negb_true_iff, mem_not. tauto. }
  assert (RE : forall x, In x rest_exp <-> In x keys /\ ~ In x (map fst d)).
  { intros x. unfold rest_exp. rewrite (proj2 (order_ok _)), filter_In, negb_true_iff, mem_not.
    unfold exact. rewrite (filter_keys (fun k => mem k keys)), mem_In. tauto. }
  assert (P0 : PI d keys thr mode rest_in rest_exp exact [] [] true).
  { constructor.
    - repeat split; simpl; try constructor; contradiction.
    - intros x. simpl. tauto.
    - intros x X. apply RI in X. simpl. tauto.
    - apply order_ok.
    - intros x. rewrite RE. simpl. tauto.
    - intros k K. unfold exact, out_val. rewrite (sget_filter k (fun k => mem k keys)). apply mem_In in K. rewrite K. simpl.
      destruct (mem k (map fst d)) eqn:M; auto. apply sget_None. now apply mem_not.
    - intros k K. left. unfold exact. rewrite (sget_filter k (fun k => mem k keys)). apply mem_not in K. now rewrite K.
    - now apply (filter_keys_nodup (fun k => mem k keys)).
    - intros _ x k X1 X2 _ X. exfalso. apply X, RI. auto. }
  assert (ST : exists out exp hit pairs full,
     (if fuzzy then fuzzy_pass lower score thr mode d rest_in rest_exp exact [] else Ret (exact, rest_exp, [])) = Ret (out, exp, hit) /\
     pairing d keys thr pairs /\ (fuzzy = false -> pairs = []) /\ (forall x, In x hit <-> In x (map fst pairs)) /\
     (forall x, In x exp <-> left_exp d keys pairs x) /\
     (forall k, In k keys -> sget k out = out_val mode d keys pairs k) /\
     (forall k, ~ In k keys -> sget k out = None \/ (mode = UIgnore /\ ~ In k hit /\ sget k out = sget k d)) /\
     NoDup (map fst out) /\ (full = fuzzy) /\
     (full = true -> forall x k, left_in d keys pairs x -> In k exp -> ~ In [] keys -> ~ (thr <= score (lower x) (lower k))%Q)).
  { destruct fuzzy.
    - destruct (fuzzy_pass_PI d keys thr mode T0 T1 rest_in rest_exp exact [] [] true P0) as (o & e & h & p & -> & P & _).
      exists o, e, h, p, true. split; auto. destruct P.
      split; auto. split; [discriminate|]. split; auto. split; [exact pi_exp0|]. split; auto.
      split. { intros k K. destruct (pi_out_rest0 k K) as [|(A & B & C & D)]; auto. }
      split; auto. split; auto. intros _ x k (X1 & X2 & X3) K NE. apply pi_full0; auto.
      + rewrite pi_hit0. auto.
      + intros ->. apply pi_exp0 in K. tauto.
    - exists exact, rest_exp, [], [], false. split; auto. destruct P0.
      split; auto. split; auto. split; auto. split; [exact pi_exp0|]. split; auto.
      split. { intros k K. destruct (pi_out_rest0 k K) as [|(A & B & C & D)]; auto. }
      split; auto. split; [auto|]. discriminate. }
  destruct ST as (out & exp & hit & pairs & full & -> & PP & FP & HP & EP & OK & OR & OD & FU & COMP). cbn [bind].
  exists pairs. split; auto. split; auto.
  split. { intros -> NE x k X K. apply COMP; auto. now apply EP. }
  set (un_in := filter (fun k => negb (mem k hit)) rest_in).
  assert (UI : forall x, In x un_in <-> left_in d keys pairs x).
  { intros x. unfold un_in. rewrite filter_In, negb_true_iff, mem_not, RI, HP. unfold left_in. tauto. }
  assert (EXI : (length un_in =? 0) = true <-> ~ exists x, left_in d keys pairs x).
  { destruct un_in as [|y l]; simpl.
    - split; auto. intros _ (x & X). now apply UI in X.
    - split; [discriminate|]. intros N. exfalso. apply N. exists y. apply UI. simpl; auto. }
  assert (EXE : (length exp =? 0) = true <-> ~ exists x, left_exp d keys pairs x).
  { destruct exp as [|y l]; simpl.
    - split; auto. intros _ (x & X). now apply EP in X.
    - split; [discriminate|]. intros N. exfalso. apply N. exists y. apply EP. simpl; auto. }
  destruct (match mode with URaise => negb (length un_in =? 0) | _ => false end) eqn:C1.
  { split; auto. left. destruct mode; try discriminate. split; auto.
    apply negb_true_iff in C1. destruct un_in as [|y l] eqn:E; [discriminate|]. exists y. apply UI. rewrite <- E. rewrite E. simpl; auto. }
  set (keep := fun out => fold_left (fun o k => match sget k d with Some v => sset k v o | None => o end) un_in out).
  set (fill := fun out : dict => fold_left (fun o k => sset k (match sget k fm with Some v => v | None => fv end) o) exp out).
  pose (g := fun k => match sget k fm with Some v => v | None => fv end).
  assert (FG : forall o k, sget k (fill o) = if mem k exp then Some (g k) else sget k o) by (intros; apply (fill_get g)).
  assert (FN : forall o, NoDup (map fst o) -> NoDup (map fst (fill o))) by (intros; now apply (fill_nodup g)).
  destruct (strict && negb (length exp =? 0)) eqn:C2.
  { split; auto. right. apply andb_true_iff in C2. destruct C2 as (C2 & C3). split; auto.
    apply negb_true_iff in C3. destruct exp as [|y l]; [discriminate|]. exists y. apply EP. simpl; auto. }
  split.
  { destruct mode; auto; unfold keep; auto using keep_nodup. }
  split. { intros (-> & X). apply negb_false_iff in C1. apply EXI in C1. auto. }
  split. { intros (-> & X). cbn [andb] in C2. apply negb_false_iff in C2. apply EXE in C2. auto. }
  intros k.
  assert (F : sget k (match mode with UIgnore => keep out | UFill => keep (fill out) | UForce => fill out | _ => out end) =
     match mode with
     | UIgnore => if mem k un_in then sget k d else sget k out
     | UFill => if mem k un_in then sget k d else if mem k exp then Some (g k) else sget k out
     | UForce => if mem k exp then Some (g k) else sget k out
     | _ => sget k out
     end).
  { assert (D : mem k un_in = true -> exists v, sget k d = Some v).
    { intros M. apply mem_In, UI in M. apply sget_Some, M. }
    destruct mode; auto; unfold keep; rewrite ?keep_get, ?FG; auto;
      (destruct (mem k un_in); auto; destruct (D eq_refl) as (v & ->); auto). }
  rewrite F. clear F.
  assert (CK : In k keys -> mem k un_in = false) by (intros K; apply mem_not; intros X; apply UI in X; destruct X; tauto).
  assert (CE : ~ In k keys -> mem k exp = false) by (intros K; apply mem_not; intros X; apply EP in X; destruct X; tauto).
  assert (CD : In k (map fst d) -> mem k exp = false) by (intros K; apply mem_not; intros X; apply EP in X; unfold left_exp in X; tauto).
  assert (IFS : forall (A : Type) (x y : A) a b, a = false -> b = false ->
     match mode with UIgnore => if a then x else y | URaise => y | URemove => y | UFill => if a then x else if b then x else y | UForce => if b then x else y end = y).
  { intros A x y a b -> ->. destruct mode; auto. }
  destruct PP as (PA & PB & PC).
  split; [|split; [|split; [|split; [|split]]]].
  - intros K1 K2. rewrite (CK K1), (CD K2), (OK k K1). unfold out_val.
    apply mem_In in K1. apply mem_In in K2. rewrite K1, K2. destruct mode; auto.
  - intros k0 I. destruct (PC k0 k I) as (A & B & C & D & _). rewrite (CK C).
    assert (M : mem k exp = false).
    { apply mem_not. intros X. apply EP in X. destruct X as (_ & _ & X). apply X, in_map_iff. exists (k0, k). auto. }
    rewrite M, (OK k C). unfold out_val. rewrite (find_pair pairs k0 k PB I).
    apply mem_In in C. apply mem_not in D. rewrite C, D. destruct mode; auto.
  - intros L. destruct L as (A & B & C). rewrite (CK A). assert (M : mem k exp = true) by (apply mem_In, EP; repeat split; auto).
    rewrite M, (OK k A). unfold out_val. rewrite (find_no_pair pairs k C).
    apply mem_In in A. apply mem_not in B. rewrite A, B. destruct mode; auto.
  - intros L. assert (M : mem k un_in = true) by (apply mem_In, UI; auto). destruct L as (A & B & C).
    rewrite M, (CD A). destruct (OR k B) as [->|(-> & _)]; auto.
  - intros L. assert (M : mem k un_in = false) by (apply mem_not; intros X; apply UI in X; destruct X; tauto).
    apply in_map_iff in L. destruct L as ((k1, k2) & E & I). simpl in E. subst k1.
    destruct (PC k k2 I) as (A & B & _). rewrite M, (CD A).
    destruct (OR k B) as [->|(_ & X & _)]; [destruct mode; auto|].
    exfalso. apply X, HP, in_map_iff. exists (k, k2). auto.
  - intros A B. assert (M : mem k un_in = false) by (apply mem_not; intros X; apply UI in X; destruct X; tauto).
    rewrite M, (CE A). apply sget_None in B. destruct (OR k A) as [->|(_ & _ & ->)]; [|rewrite B]; destruct mode; auto.
Qed.
End Sim.
