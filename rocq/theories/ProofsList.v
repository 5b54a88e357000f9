(** Proofs about to_list. *)
From Coq Require Import List Bool Arith ZArith Lia Sorted.
From Verif Require Import PyBase ModelList SpecList.
Import ListNotations.
Local Open Scope list_scope.

(** Induction over values through the containers. *)
Fixpoint size (v : val) : nat :=
  match v with
  | VSeq _ l => list_sum (map (fun x => S (size x)) l)
  | VEnumClass l => length l
  | _ => 0
  end.
Lemma contents_size t v l : contents t v = Some l -> list_sum (map (fun x => S (size x)) l) <= size v.
Proof.
  destruct v as [| | | |k l0| | | |ms]; try discriminate.
  - intros H. assert (E : l = l0) by (destruct k, t; simpl in H; congruence). subst. simpl. lia.
  - intros [= <-]. rewrite map_map. simpl. induction ms; simpl in *; lia.
Qed.

Section P.
Variables dropna tuples : bool.

Lemma is_na_spec v : is_na v = true <-> na v.
Proof. unfold na. destruct v; simpl; split; intros H; try discriminate; auto; destruct H; discriminate. Qed.
Lemma na_leaf v : is_na v = true -> contents tuples v = None.
Proof. destruct v; simpl; auto; discriminate. Qed.

Lemma item_members f l : flat_map (item f dropna tuples) (members l) = members l.
Proof. induction l as [|(a, b) l IH]; simpl; auto. rewrite andb_false_r. simpl. now rewrite IH. Qed.

Lemma item_open f v l : contents tuples v = Some l ->
  item f dropna tuples v = if f then process f dropna tuples l else [VSeq KList (process f dropna tuples l)].
Proof.
  intros H. assert (N : is_na v = false) by (destruct (is_na v) eqn:E; auto; apply na_leaf in E; congruence).
  destruct v as [| | | |k l0| | | |ms]; try discriminate.
  - simpl. rewrite andb_false_r. destruct k, tuples; simpl in H; try discriminate; injection H as ->; reflexivity.
  - simpl in H. injection H as <-. unfold process. fold (members ms). rewrite item_members. simpl. now rewrite andb_false_r.
Qed.
Lemma item_leaf f v : contents tuples v = None -> item f dropna tuples v = if dropna && is_na v then [] else [v].
Proof.
  intros H. destruct v as [| | | |k l0| | | |ms]; try discriminate; simpl; rewrite ?andb_false_r, ?andb_true_r; auto; try (destruct dropna; reflexivity).
  destruct k; simpl in *; try discriminate; destruct tuples; try discriminate; auto.
Qed.

Lemma process_cons f v l : process f dropna tuples (v :: l) = item f dropna tuples v ++ process f dropna tuples l.
Proof. reflexivity. Qed.

(** ** flatten *)
Definition keep (w : val) : Prop := ~ (dropna = true /\ na w).

Lemma found_inv l p w : found tuples l p w -> exists i v q, p = i :: q /\ nth_error l i = Some v /\
  ((q = [] /\ w = v) \/ exists l', contents tuples v = Some l' /\ found tuples l' q w).
Proof. intros H. inversion H; subst; eauto 10. Qed.
Lemma found_nonempty l p w : found tuples l p w -> p <> [].
Proof. intros H; inversion H; discriminate. Qed.

Definition points (l : list val) (pts : list (list nat * val)) : Prop :=
  StronglySorted path_lt (map fst pts) /\
  forall p w, In (p, w) pts <-> found tuples l p w /\ leaf tuples w /\ keep w.

Definition shift (i : nat) (x : list nat * val) : list nat * val := (i :: fst x, snd x).
Definition bump (x : list nat * val) : list nat * val := (match fst x with [] => [] | i :: p => S i :: p end, snd x).

Lemma sorted_map' {A B} (R : A -> A -> Prop) (R' : B -> B -> Prop) (f : A -> B) l :
  (forall a b, In a l -> In b l -> R a b -> R' (f a) (f b)) -> StronglySorted R l -> StronglySorted R' (map f l).
Proof.
  intros H S. induction S; simpl; constructor.
  - apply IHS. intros; apply H; simpl; auto.
  - rewrite Forall_forall in *. intros x I. apply in_map_iff in I. destruct I as (y & <- & I). apply H; simpl; auto.
Qed.
Lemma sorted_app {A} (R : A -> A -> Prop) l1 l2 :
  StronglySorted R l1 -> StronglySorted R l2 -> (forall a b, In a l1 -> In b l2 -> R a b) -> StronglySorted R (l1 ++ l2).
Proof.
  intros S1 S2 H. induction S1; simpl; auto. constructor; [apply IHS1; intros; apply H; simpl; auto|].
  rewrite Forall_forall in *. intros x I. apply in_app_or in I. destruct I; auto. apply H; simpl; auto.
Qed.

Lemma flatten_points n : forall l, list_sum (map (fun v => S (size v)) l) <= n ->
  exists pts, points l pts /\ map snd pts = process true dropna tuples l.
Proof.
  induction n as [|n IH]; intros [|v l] L; simpl in L; try lia.
  - exists []. split; [|reflexivity]. split; [constructor|]. intros p w. split; [contradiction|].
    intros (F & _). apply found_inv in F. destruct F as (i & v & q & _ & N & _). destruct i; discriminate.
  - exists []. split; [|reflexivity]. split; [constructor|]. intros p w. split; [contradiction|].
    intros (F & _). apply found_inv in F. destruct F as (i & v & q & _ & N & _). destruct i; discriminate.
  - destruct (IH l ltac:(lia)) as (pts & (S1 & P1) & E1).
    assert (tail : forall p w, In (p, w) (map bump pts) <->
       (exists i q, p = S i :: q) /\ found tuples (v :: l) p w /\ leaf tuples w /\ keep w).
    { intros p w. rewrite in_map_iff. split.
      - intros ((p', w') & E & I). apply P1 in I. destruct I as (F & R). unfold bump in E. simpl in E. injection E as <- <-.
        inversion F; subst; (split; [eauto|]); (split; [|exact R]); [apply found_here; auto|eapply found_below; eauto].
      - intros ((i & q & ->) & F & R). exists (i :: q, w). split; auto. apply P1. split; auto.
        inversion F; subst; simpl in *; [apply found_here; auto|eapply found_below; eauto]. }
    assert (HD : exists hd, StronglySorted path_lt (map fst hd) /\ map snd hd = item true dropna tuples v /\
       forall p w, In (p, w) hd <-> (exists q, p = 0 :: q) /\ found tuples (v :: l) p w /\ leaf tuples w /\ keep w).
    { destruct (contents tuples v) as [l0|] eqn:C.
      - assert (LE : list_sum (map (fun x => S (size x)) l0) <= size v) by (eapply contents_size; eauto).
        destruct (IH l0 ltac:(lia)) as (pts0 & (S0 & P0) & E0).
        exists (map (shift 0) pts0). split; [|split].
        + rewrite map_map. unfold shift. simpl. rewrite <- (map_map fst (fun p => 0 :: p)).
          eapply sorted_map'; [|exact S0]. intros; now apply path_lt_below.
        + rewrite (item_open true v l0 C), map_map. simpl. exact E0.
        + intros p w. rewrite in_map_iff. split.
          * intros ((p', w') & E & I). unfold shift in E. simpl in E. injection E as <- <-. apply P0 in I. destruct I as (F & R).
            split; eauto. split; auto. eapply found_below; eauto; reflexivity.
          * intros ((q & ->) & F & R). apply found_inv in F. destruct F as (i & x & q' & [= <- <-] & N & F). simpl in N. injection N as <-.
            destruct F as [(-> & ->)|(l' & C' & F)]; [destruct R as (R & _); unfold leaf in R; congruence|].
            rewrite C in C'. injection C' as <-. exists (q, w). split; auto. apply P0. auto.
      - rewrite (item_leaf true v C). destruct (dropna && is_na v) eqn:D.
        + exists []. split; [constructor|]. split; auto. intros p w. split; [contradiction|].
          intros ((q & ->) & F & _ & K). apply found_inv in F. destruct F as (i & x & q' & [= <- <-] & N & F). simpl in N. injection N as <-.
          destruct F as [(-> & ->)|(l' & C' & F)]; [|congruence]. apply K. apply andb_true_iff in D. rewrite is_na_spec in D. auto.
        + exists [([0], v)]. split; [repeat constructor|]. split; auto. intros p w. split.
          * intros [[= <- <-]|[]]. split; eauto. split; [apply found_here; reflexivity|]. split; auto.
            intros (A & B). apply is_na_spec in B. rewrite A, B in D. discriminate.
          * intros ((q & ->) & F & _ & K). apply found_inv in F. destruct F as (i & x & q' & [= <- <-] & N & F). simpl in N. injection N as <-.
            destruct F as [(-> & ->)|(l' & C' & F)]; [|congruence]. simpl; auto. }
    destruct HD as (hd & S0 & E0 & P0).
    exists (hd ++ map bump pts). split; [split|].
    + rewrite map_app. apply sorted_app; auto.
      * rewrite map_map. unfold bump. simpl.
        rewrite <- (map_map fst (fun p => match p with [] => [] | i :: p => S i :: p end)).
        eapply sorted_map'; [|exact S1]. intros a b _ _ R. inversion R; subst; [apply path_lt_here; lia|now apply path_lt_below].
      * intros a b A B. apply in_map_iff in A, B. destruct A as ((a', w) & <- & A), B as ((b', w') & <- & B). simpl.
        apply P0 in A. apply tail in B. destruct A as ((q & ->) & _), B as ((i & q' & ->) & _). apply path_lt_here. lia.
    + intros p w. rewrite in_app_iff, P0, tail. split; [tauto|]. intros (F & R).
      pose proof F as F'. apply found_inv in F'. destruct F' as (i & x & q & -> & _). destruct i; [left|right]; split; eauto.
    + rewrite map_app, E0, map_map. rewrite process_cons, <- E1. reflexivity.
Qed.
(** ** Without flatten *)
Lemma process_app f l1 l2 : process f dropna tuples (l1 ++ l2) = process f dropna tuples l1 ++ process f dropna tuples l2.
Proof. apply flat_map_app. Qed.
Lemma reflatten n : forall l, list_sum (map (fun v => S (size v)) l) <= n ->
  process true dropna tuples (process false dropna tuples l) = process true dropna tuples l.
Proof.
  induction n as [|n IH]; intros [|v l] L; simpl in L; try lia; auto.
  rewrite !process_cons, process_app, IH by lia. f_equal.
  destruct (contents tuples v) as [l0|] eqn:C.
  - rewrite (item_open false v l0 C), (item_open true v l0 C), process_cons.
    rewrite (item_open true (VSeq KList (process false dropna tuples l0)) (process false dropna tuples l0) eq_refl).
    rewrite IH by (apply contents_size in C; lia). apply app_nil_r.
  - rewrite !item_leaf by auto. destruct (dropna && is_na v) eqn:D; auto. rewrite process_cons, item_leaf, D by auto. reflexivity.
Qed.
Lemma flatten_idem n : forall l, list_sum (map (fun v => S (size v)) l) <= n ->
  process true dropna tuples (process true dropna tuples l) = process true dropna tuples l.
Proof.
  induction n as [|n IH]; intros [|v l] L; simpl in L; try lia; auto.
  rewrite !process_cons, process_app, IH by lia. f_equal.
  destruct (contents tuples v) as [l0|] eqn:C.
  - rewrite (item_open true v l0 C). apply IH. apply contents_size in C. lia.
  - rewrite !item_leaf by auto. destruct (dropna && is_na v) eqn:D; auto. rewrite process_cons, item_leaf, D by auto. reflexivity.
Qed.

Lemma shape_kept p : forall l w, found tuples (process false dropna tuples l) p w ->
  (leaf tuples w /\ keep w) \/ exists l', w = VSeq KList l'.
Proof.
  induction p as [|i p IH]; intros l w F; apply found_inv in F; destruct F as (j & v' & q & E & N & F); [discriminate|].
  injection E as <- <-. apply nth_error_In in N. unfold process in N. apply in_flat_map in N. destruct N as (v & _ & I).
  destruct (contents tuples v) as [l0|] eqn:C.
  - rewrite (item_open false v l0 C) in I. destruct I as [<-|[]]. destruct F as [(-> & ->)|(l' & C' & F)]; [eauto|].
    injection C' as <-. eapply IH; eauto.
  - rewrite (item_leaf false v C) in I. destruct (dropna && is_na v) eqn:D; [contradiction|]. destruct I as [<-|[]].
    destruct F as [(-> & ->)|(l' & C' & F)]; [|congruence]. left. split; auto. intros (A & B). apply is_na_spec in B. rewrite A, B in D. discriminate.
Qed.

Lemma shape_found p : dropna = false -> forall l w, leaf tuples w ->
  (found tuples (process false dropna tuples l) p w <-> found tuples l p w).
Proof.
  intros ND. induction p as [|i p IH]; intros l w LW.
  - split; intros F; apply found_nonempty in F; congruence.
  - pose (conv v := match contents tuples v with Some l0 => VSeq KList (process false dropna tuples l0) | None => v end).
    assert (PM : process false dropna tuples l = map conv l).
    { induction l as [|v l IHl]; auto. rewrite process_cons, IHl. cbn [map]. change (conv v) with (match contents tuples v with Some l0 => VSeq KList (process false dropna tuples l0) | None => v end).
      destruct (contents tuples v) as [l0|] eqn:C; [rewrite (item_open false v l0 C)|rewrite (item_leaf false v C), ND]; reflexivity. }
    rewrite PM. split; intros F; apply found_inv in F; destruct F as (j & v' & q & [= <- <-] & N & F).
    + rewrite nth_error_map in N. destruct (nth_error l i) as [v|] eqn:E; [|discriminate]. injection N as <-.
      unfold conv in F. destruct (contents tuples v) as [l0|] eqn:C.
      * destruct F as [(-> & ->)|(l' & C' & F)]; [discriminate|]. injection C' as <-. eapply found_below; eauto. now apply IH.
      * destruct F as [(-> & ->)|(l' & C' & F)]; [|congruence]. now apply found_here.
    + assert (N' : nth_error (map conv l) i = Some (conv v')) by (rewrite nth_error_map, N; reflexivity).
      change (conv v') with (match contents tuples v' with Some l0 => VSeq KList (process false dropna tuples l0) | None => v' end) in N'.
      destruct F as [(-> & ->)|(l' & C' & F)].
      * unfold leaf in LW. rewrite LW in N'. now apply found_here.
      * rewrite C' in N'. apply (found_below tuples _ i _ _ p w N' eq_refl). now apply IH.
Qed.
End P.

(** ** unique *)
Section U.
Variable hash : val -> option Z.
Variable eqv : val -> val -> bool.
Variable hdict : val -> Z.

(** Increasing positions of l. *)
Definition picks (P : nat -> Prop) (l out : list val) : Prop :=
  exists idx, StronglySorted lt idx /\ map (nth_error l) idx = map Some out /\ forall i, In i idx <-> P i.

Lemma seen_has_spec v seen : seen_has eqv v seen = true <-> exists x, In x seen /\ eqv x v = true.
Proof. unfold seen_has. rewrite existsb_exists. tauto. Qed.

Hypothesis eqv_refl : forall v, eqv v v = true.
Hypothesis eqv_trans : forall a b c, eqv a b = true -> eqv b c = true -> eqv a c = true.

Lemma first_at_lt l i : first_at eqv l i -> i < length l.
Proof. intros (v & N & _). apply nth_error_Some. congruence. Qed.

Lemma direct_spec l : forall pre seen out,
  (forall v, In v l -> hash v <> None) ->
  picks (first_at eqv pre) pre seen ->
  direct hash eqv l seen = Some out -> picks (first_at eqv (pre ++ l)) (pre ++ l) out.
Proof.
  induction l as [|v l IH]; intros pre seen out HH PK D.
  { simpl in D. injection D as <-. now rewrite app_nil_r. }
  assert (HV : hash v <> None) by (apply HH; simpl; auto).
  assert (D' : direct hash eqv l (if seen_has eqv v seen then seen else seen ++ [v]) = Some out).
  { simpl in D. destruct (hash v); [exact D|congruence]. }
  replace (pre ++ v :: l) with ((pre ++ [v]) ++ l) by (rewrite <- app_assoc; reflexivity).
  apply (IH (pre ++ [v]) (if seen_has eqv v seen then seen else seen ++ [v])); auto.
  { intros; apply HH; simpl; auto. }
  destruct PK as (idx & S & M & I).
  assert (OLD : forall i, i < length pre -> (first_at eqv (pre ++ [v]) i <-> first_at eqv pre i)).
  { intros i L. unfold first_at. rewrite nth_error_app1 by auto. split; intros (x & N & F); exists x; split; auto; intros j w J W.
    - apply (F j); auto. rewrite nth_error_app1 by lia. auto.
    - rewrite nth_error_app1 in W by lia. eauto. }
  assert (NEW : first_at eqv (pre ++ [v]) (length pre) <-> seen_has eqv v seen = false).
  { split.
    - intros (x & N & F). rewrite nth_error_app2, Nat.sub_diag in N by lia. injection N as <-.
      destruct (seen_has eqv v seen) eqn:SH; auto. apply seen_has_spec in SH. destruct SH as (x & X & E).
      assert (exists j, nth_error pre j = Some x) as (j & J).
      { apply (in_map Some) in X. rewrite <- M in X. apply in_map_iff in X. destruct X as (j & J & _). eauto. }
      rewrite (F j x) in E; [discriminate| |]. { apply nth_error_Some. congruence. } { rewrite nth_error_app1; auto. apply nth_error_Some. congruence. }
    - intros SH. exists v. split; [rewrite nth_error_app2, Nat.sub_diag by lia; reflexivity|].
      intros j w J W. destruct (eqv w v) eqn:E; auto. exfalso. rewrite nth_error_app1 in W by auto.
      assert (exists i x, first_at eqv pre i /\ nth_error pre i = Some x /\ eqv x w = true) as (i & x & FI & NI & EX).
      { clear - W eqv_refl eqv_trans. revert w W. induction j as [j IHj] using lt_wf_ind. intros w W.
        destruct (existsb (fun k => match nth_error pre k with Some y => eqv y w | None => false end) (seq 0 j)) eqn:B.
        - apply existsb_exists in B. destruct B as (k & K & B). apply in_seq in K. destruct (nth_error pre k) as [y|] eqn:NY; [|discriminate].
          destruct (IHj k ltac:(lia) y NY) as (i & x & F & N & E). exists i, x. repeat split; auto. eapply eqv_trans; eauto.
        - exists j, w. repeat split; auto. exists w. split; auto. intros k y K Y.
          destruct (eqv y w) eqn:E; auto. exfalso. assert (X : existsb (fun k => match nth_error pre k with Some y => eqv y w | None => false end) (seq 0 j) = true).
          { apply existsb_exists. exists k. split; [apply in_seq; lia|]. now rewrite Y. } congruence. }
      assert (IN : In x seen).
      { apply I in FI. apply (in_map (nth_error pre)) in FI. rewrite M, NI in FI. apply in_map_iff in FI. destruct FI as (y & [= ->] & Y). auto. }
      assert (T : seen_has eqv v seen = true) by (apply seen_has_spec; exists x; split; auto; eapply eqv_trans; eauto). congruence. }
  assert (LT : forall i, In i idx -> i < length pre) by (intros i X; apply I in X; now apply first_at_lt in X).
  assert (MO : map (nth_error (pre ++ [v])) idx = map Some seen).
  { rewrite <- M. apply map_ext_in. intros i X. apply nth_error_app1. auto. }
  destruct (seen_has eqv v seen) eqn:SH.
  - exists idx. split; auto. split; auto. intros i. rewrite I. split.
    + intros F. apply OLD; auto. now apply first_at_lt in F.
    + intros F. pose proof (first_at_lt _ _ F) as L. rewrite app_length in L. simpl in L.
      destruct (Nat.eq_dec i (length pre)) as [->|]; [apply NEW in F; discriminate|]. apply OLD; auto. lia.
  - exists (idx ++ [length pre]). split; [|split].
    + apply sorted_app; auto; [repeat constructor|]. intros a b A [<-|[]]. auto.
    + rewrite !map_app, MO. simpl. rewrite nth_error_app2, Nat.sub_diag by lia. reflexivity.
    + intros i. rewrite in_app_iff, I. simpl. split.
      * intros [F|[<-|[]]]; [apply OLD; auto; now apply first_at_lt in F|]. now apply NEW.
      * intros F. pose proof (first_at_lt _ _ F) as L. rewrite app_length in L. simpl in L.
        destruct (Nat.eq_dec i (length pre)) as [->|]; auto. left. apply OLD; auto. lia.
Qed.

Lemma direct_some l : forall seen, (forall v, In v l -> hash v <> None) -> exists out, direct hash eqv l seen = Some out.
Proof.
  induction l as [|v l IH]; intros seen H; simpl; eauto.
  assert (HV : hash v <> None) by (apply H; simpl; auto). destruct (hash v); [|congruence]. apply IH. intros; apply H; simpl; auto.
Qed.

(** The key used in the fallback. *)
Definition fkey (v : val) : Z := match hash v with Some h => h | None => hdict v end.
Lemma by_hash_spec l : forall seen,
  match by_hash hash hdict l seen with
  | Raise e => e = ValueError /\ exists v, In v l /\ hash v = None /\ is_map v = false
  | Ret out => (forall v, In v l -> hash v = None -> is_map v = true) /\
      picks (fun i => exists v, nth_error l i = Some v /\ ~ In (fkey v) seen /\
               forall j w, j < i -> nth_error l j = Some w -> fkey w <> fkey v) l out
  end.
Proof.
  induction l as [|v l IH]; intros seen; cbn [by_hash].
  { split; [contradiction|]. exists []. split; [constructor|]. split; auto. intros i. split; [contradiction|].
    intros (v & N & _). destruct i; discriminate. }
  assert (K : (match hash v with Some h => Ret h | None => if is_map v then Ret (hdict v) else Raise ValueError end =
     if match hash v with None => negb (is_map v) | _ => false end then Raise ValueError else Ret (fkey v))).
  { unfold fkey. destruct (hash v); auto. destruct (is_map v); auto. }
  rewrite K. destruct (match hash v with None => negb (is_map v) | _ => false end) eqn:B; cbn [bind].
  { split; auto. exists v. destruct (hash v) eqn:HV; [discriminate|]. apply negb_true_iff in B. simpl; auto. }
  assert (OKv : hash v = None -> is_map v = true).
  { intros HV. rewrite HV in B. now apply negb_false_iff in B. }
  assert (EX : existsb (Z.eqb (fkey v)) seen = true <-> In (fkey v) seen).
  { rewrite existsb_exists. split; [intros (x & X & E); apply Z.eqb_eq in E; now subst|]. intros X. exists (fkey v). split; auto. apply Z.eqb_refl. }
  assert (lift : forall seen' (Q : Z -> Prop) r, picks (fun i => exists x, nth_error l i = Some x /\ ~ In (fkey x) seen' /\
               forall j w, j < i -> nth_error l j = Some w -> fkey w <> fkey x) l r ->
     exists idx, StronglySorted lt (map S idx) /\ map (nth_error (v :: l)) (map S idx) = map Some r /\
       forall i, In (S i) (map S idx) <-> exists x, nth_error l i = Some x /\ ~ In (fkey x) seen' /\
               forall j w, j < i -> nth_error l j = Some w -> fkey w <> fkey x).
  { intros seen' _ r (idx & S & M & I). exists idx. split; [|split].
    - eapply sorted_map'; [|exact S]. intros; lia.
    - rewrite map_map. exact M.
    - intros i. rewrite <- I. rewrite in_map_iff. split; [intros (y & [= ->] & Y); auto|eauto]. }
  destruct (existsb (Z.eqb (fkey v)) seen) eqn:E.
  - specialize (IH seen). destruct (by_hash hash hdict l seen) as [out|e].
    + destruct IH as (A & P). split; [intros x [<-|X]; auto|].
      destruct (lift seen (fun _ => True) out P) as (idx & S & M & I). exists (map Datatypes.S idx). split; auto. split; auto.
      intros [|i].
      * split; [intros X; apply in_map_iff in X; destruct X as (y & Y & _); discriminate|].
        intros (x & [= <-] & NI & _). exfalso. apply NI, EX. reflexivity.
      * rewrite I. split; intros (x & N & NI & F); exists x; split; auto; split; auto; intros j w J W.
        -- destruct j as [|j]; [simpl in W; injection W as <-; intros Q; apply NI; rewrite <- Q; now apply EX|]. apply (F j); auto. lia.
        -- apply (F (Datatypes.S j)); auto. lia.
    + destruct IH as (-> & x & X & R). split; auto. exists x. simpl; auto.
  - specialize (IH (fkey v :: seen)). destruct (by_hash hash hdict l (fkey v :: seen)) as [out|e]; cbn [bind].
    + destruct IH as (A & P). split; [intros x [<-|X]; auto|].
      destruct (lift (fkey v :: seen) (fun _ => True) out P) as (idx & S & M & I). exists (0 :: map Datatypes.S idx).
      split; [|split].
      * constructor; auto. apply Forall_forall. intros x X. apply in_map_iff in X. destruct X as (y & <- & _). lia.
      * cbn [map]. rewrite M. reflexivity.
      * intros [|i].
        -- split; [intros _|simpl; auto]. exists v. split; auto. split; [intros X; apply EX in X; congruence|]. intros; lia.
        -- cbn [In]. split.
           ++ intros [X|X]; [discriminate|]. apply I in X. destruct X as (x & N & NI & F). simpl in NI. exists x. split; auto. split; [tauto|].
              intros j w J W. destruct j as [|j]; [simpl in W; injection W as <-; intros Q; apply NI; auto|]. apply (F j); auto. lia.
           ++ intros (x & N & NI & F). right. apply I. exists x. split; auto. split.
              ** simpl. intros [Q|Q]; [|auto]. apply (F 0 v); auto; lia.
              ** intros j w J W. apply (F (Datatypes.S j)); auto. lia.
    + destruct IH as (-> & x & X & R). split; auto. exists x. simpl; auto.
Qed.
Lemma direct_None l : forall seen, direct hash eqv l seen = None -> exists v, In v l /\ hash v = None.
Proof.
  induction l as [|v l IH]; intros seen; simpl; [discriminate|]. destruct (hash v) eqn:H.
  - intros D. apply IH in D. destruct D as (x & X & Y). eauto.
  - intros _. exists v. auto.
Qed.
(** An unhashable item that is no set forces the fallback. *)
Lemma direct_unhashable l : forall seen v, In v l -> hash v = None -> (forall x, v <> VSeq KSet x) -> direct hash eqv l seen = None.
Proof.
  induction l as [|x l IH]; intros seen v I H N; [contradiction|]. cbn [direct]. destruct I as [->|I].
  - rewrite H. destruct v as [| | | |[] l1| | | |]; auto. exfalso. eapply N; eauto.
  - destruct (hash x) eqn:HX; [eapply IH; eauto|]. destruct x as [| | | |[] l1| | | |]; auto. destruct (seen_has _ _ _); auto. eapply IH; eauto.
Qed.
End U.
