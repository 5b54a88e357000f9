(** Properties C42 (edit distance), C43 (similarity scores), C44
    (string_similarity), C45 (fuzzy_match_keys), C48 (get_bins). *)
From Coq Require Import List Bool Arith ZArith QArith Lia Sorted Lqa.
From Verif Require Import PyBase ModelHeap ModelSim SpecSim ProofsLev ProofsSim ProofsFuzzy.
Import ListNotations.
Local Close Scope Q_scope.
Local Open Scope nat_scope.
Local Open Scope list_scope.

(** ** C42 *)
Theorem C42_edit_distance : forall a b,
  edits (levenshtein a b) a b /\ (forall n, edits n a b -> levenshtein a b <= n).
Proof. intros a b. split; [apply lev_achieved|intros n; apply lev_minimal]. Qed.
Print Assumptions C42_edit_distance.
Theorem C42_metric : forall a b c,
  (levenshtein a b = 0 <-> a = b) /\ levenshtein a b = levenshtein b a /\
  levenshtein a c <= levenshtein a b + levenshtein b c /\
  levenshtein a b <= max (length a) (length b) /\
  length b - length a <= levenshtein a b /\ length a - length b <= levenshtein a b.
Proof.
  intros a b c. split; [apply lev_zero|]. split; [apply lev_sym|]. split; [apply lev_triangle|].
  split; [apply lev_upper|]. apply lev_lower.
Qed.
Print Assumptions C42_metric.
(** "kitten" / "sitting" *)
Definition kitten : pystr := [107; 105; 116; 116; 101; 110].
Definition sitting : pystr := [115; 105; 116; 116; 105; 110; 103].
Example C42_example : levenshtein kitten sitting = 3 /\ levenshtein sitting kitten = 3 /\ levenshtein [] kitten = 6.
Proof. repeat split; vm_compute; reflexivity. Qed.

(** ** C43 *)
Theorem C43_range : forall s t,
  unit_interval (hamming s t) /\ unit_interval (cosine_sq s t) /\ unit_interval (levenshtein_similarity s t) /\
  (exists j, jaro s t = Ret j /\ unit_interval j /\
     forall sc, (0 <= sc)%Q -> (sc <= 1 # 4)%Q ->
       exists q, jaro_winkler s t sc = Ret q /\ unit_interval q /\ (j <= q)%Q).
Proof.
  intros s t. split; [apply hamming_unit|]. split; [apply cosine_unit|]. split; [apply levsim_unit|].
  destruct (jaro_unit s t) as (j & E & U). exists j. split; auto. split; auto. intros sc A B.
  destruct (jw_unit s t sc A B) as (q & j' & E1 & E2 & U' & L). exists q. rewrite E in E2. injection E2 as <-. auto.
Qed.
Print Assumptions C43_range.
Theorem C43_identity : forall s t,
  (s <> [] -> (hamming s s == 1)%Q /\ (cosine_sq s s == 1)%Q) /\
  ((levenshtein_similarity s t == 1)%Q <-> s = t) /\
  (exists q, jaro s s = Ret q /\ (q == 1)%Q) /\
  (forall sc, (0 <= sc)%Q -> (sc <= 1 # 4)%Q -> exists q, jaro_winkler s s sc = Ret q /\ (q == 1)%Q).
Proof.
  intros s t. split; [intros N; split; [now apply hamming_refl|now apply cosine_refl]|].
  split; [apply levsim_one|]. split; [apply jaro_refl|]. apply jw_refl.
Qed.
Print Assumptions C43_identity.
Theorem C43_symmetry : forall s t,
  (hamming s t == hamming t s)%Q /\ (cosine_sq s t == cosine_sq t s)%Q /\
  (levenshtein_similarity s t == levenshtein_similarity t s)%Q.
Proof. intros s t. split; [apply hamming_sym|]. split; [apply cosine_sym|apply levsim_sym]. Qed.
Print Assumptions C43_symmetry.
(** hamming counts the agreeing positions. *)
Theorem C43_hamming : forall s t, length s = length t -> s <> [] -> hamming s t = (qn (agree s t) / qn (length s))%Q.
Proof. apply hamming_agree. Qed.
Print Assumptions C43_hamming.
Theorem C43_scaling : forall s t sc,
  ~ ((0 <= sc)%Q /\ (sc <= 1 # 4)%Q) <-> jaro_winkler s t sc = Raise ValueError.
Proof.
  intros s t sc. unfold jaro_winkler. rewrite <- !Qle_bool_iff.
  destruct (Qle_bool 0 sc), (Qle_bool sc (1 # 4)); cbn [andb negb]; split; auto; intros; try (intros (X & Y); discriminate).
  - exfalso. auto.
  - destruct (jaro_unit s t) as (j & E & _). rewrite E in H. discriminate.
Qed.
Print Assumptions C43_scaling.
(** On the empty string hamming and cosine are 0 even against itself. *)
Theorem C43_empty_identity_refuted : hamming [] [] = 0%Q /\ cosine_sq [] [] = 0%Q.
Proof. split; reflexivity. Qed.
Print Assumptions C43_empty_identity_refuted.
(** MARTHA / MARHTA: 17/18, and with prefix 3 and scaling 1/10: 173/180 *)
Example C43_example :
  (exists q, jaro [77;65;82;84;72;65] [77;65;82;72;84;65] = Ret q /\ (q == 17 # 18)%Q) /\
  (exists q, jaro_winkler [77;65;82;84;72;65] [77;65;82;72;84;65] (1 # 10) = Ret q /\ (q == 173 # 180)%Q) /\
  Qeq (hamming [1;2;3;4] [1;0;3;0]) (1 # 2) /\ (levenshtein_similarity kitten sitting == 4 # 7)%Q.
Proof. repeat split; try (eexists; split; [vm_compute; reflexivity|]); reflexivity. Qed.

(** ** C44 *)
Theorem C44_errors : forall lower score word words h thr cs,
  ((words = [] \/ ~ ((0 <= thr)%Q /\ (thr <= 1)%Q)) ->
     most_similar lower score word words h thr cs = Raise ValueError /\ all_similar lower score word words h thr cs = Raise ValueError) /\
  (words <> [] -> (0 <= thr)%Q -> (thr <= 1)%Q ->
     exists r l, most_similar lower score word words h thr cs = Ret r /\ all_similar lower score word words h thr cs = Ret l).
Proof.
  intros lower score word words h thr cs. unfold most_similar, all_similar. rewrite similar_spec. split.
  - intros H. assert (E : (length words =? 0) || negb (Qle_bool 0 thr && Qle_bool thr 1) = true).
    { destruct H as [->|H]; auto. rewrite <- !Qle_bool_iff in H.
      destruct (Qle_bool 0 thr), (Qle_bool thr 1); try apply orb_true_r. exfalso; auto. }
    rewrite E. auto.
  - intros N A B. apply Qle_bool_iff in A. apply Qle_bool_iff in B. rewrite A, B.
    destruct words as [|w ws]; [congruence|]. cbn. eauto.
Qed.
Print Assumptions C44_errors.

Section C44.
Variable lower : pystr -> pystr.
Variable score : pystr -> pystr -> Q.
(** The comparison form of a string and the length test made for "hamming". *)
Definition form (cs : bool) (w : pystr) : pystr := if cs then w else lower w.
Definition admits (h : bool) (word comp : pystr) : bool := negb (h && negb (length comp =? length word)).
Definition candidate (word : pystr) (words : list pystr) (h : bool) (thr : Q) (cs : bool) : nat -> pystr -> Q -> Prop :=
  reaches score (form cs) (form cs word) (admits h (form cs word)) thr words.
End C44.

Theorem C44_best : forall lower score word words h thr cs r,
  most_similar lower score word words h thr cs = Ret r ->
  match r with
  | None => forall i w q, ~ candidate lower score word words h thr cs i w q
  | Some w => exists i q, candidate lower score word words h thr cs i w q /\
      forall i' w' q', candidate lower score word words h thr cs i' w' q' -> (q' < q)%Q \/ ((q' == q)%Q /\ i <= i')
  end.
Proof. intros. apply (most_similar_spec lower score word words h thr cs r H). Qed.
Print Assumptions C44_best.

Lemma sorted_map {A B} (R : A -> A -> Prop) (R' : B -> B -> Prop) (f : A -> B) l :
  (forall a b, R a b -> R' (f a) (f b)) -> StronglySorted R l -> StronglySorted R' (map f l).
Proof.
  intros H S. induction S; simpl; constructor; auto. rewrite Forall_forall in *. intros x I.
  apply in_map_iff in I. destruct I as (y & <- & I). auto.
Qed.
Lemma sorted_filter {A} (R : A -> A -> Prop) f l : StronglySorted R l -> StronglySorted R (filter f l).
Proof.
  intros S. induction S; simpl; [constructor|]. destruct (f a); auto. constructor; auto.
  rewrite Forall_forall in *. intros x I. apply filter_In in I. destruct I. auto.
Qed.
Lemma nodup_map_filter {A B} (f : A -> B) g l : NoDup (map f l) -> NoDup (map f (filter g l)).
Proof.
  induction l as [|x l IH]; simpl; intros N; auto. inversion N; subst. destruct (g x); simpl; auto. constructor; auto.
  intros I. apply in_map_iff in I. destruct I as (y & E & I). apply filter_In in I. apply H1, in_map_iff. exists y. tauto.
Qed.
Definition view (r : match_result) : nat * pystr * Q := (m_index r, m_word r, m_score r).
Lemma view_In l i w q : In (i, w, q) (map view l) <-> In (Build_match_result w q i) l.
Proof.
  rewrite in_map_iff. split; [|intros H; eexists; split; [|exact H]; reflexivity].
  intros ([w' q' i'] & [= <- <- <-] & I). exact I.
Qed.

Theorem C44_all : forall lower score word words h thr r,
  all_similar lower score word words h thr false = Ret r ->
  match r with
  | None => forall i w q, ~ candidate lower score word words h thr false i w q
  | Some l => exists ranked, l = map (fun x => snd (fst x)) ranked /\ ranked <> [] /\
      NoDup (map (fun x => fst (fst x)) ranked) /\ StronglySorted ranked_before ranked /\
      forall i w q, In (i, w, q) ranked <-> candidate lower score word words h thr false i w q
  end.
Proof.
  intros lower score word words h thr r H. unfold all_similar in H. rewrite similar_spec in H.
  destruct ((length words =? 0) || negb (Qle_bool 0 thr && Qle_bool thr 1)); [discriminate|]. cbn [bind] in H.
  pose proof (res_spec lower score word words h thr false) as RS.
  pose proof (res_nodup lower score word words h thr false) as RN.
  pose proof (sort_sorted (collect lower score h false (comp_of lower false word) thr words 0)) as SS.
  fold (res_of lower score word words h thr false) in SS.
  destruct (res_of lower score word words h thr false) as [|x xs].
  - injection H as <-. intros i w q C. apply (RS (Build_match_result w q i)) in C. contradiction.
  - cbn [option_map] in H. injection H as <-. exists (map view (x :: xs)).
    split; [simpl; rewrite map_map; reflexivity|]. split; [discriminate|].
    split; [rewrite map_map; exact RN|]. split; [apply (sorted_map bef ranked_before view); auto|].
    intros i w q. rewrite view_In. apply RS.
Qed.
Print Assumptions C44_all.

(** With case_sensitive only the candidates tied with the best one come back. *)
Theorem C44_case_sensitive : forall lower score word words h thr r,
  all_similar lower score word words h thr true = Ret r ->
  let C := candidate lower score word words h thr true in
  match r with
  | None => forall i w q, ~ C i w q
  | Some l => exists ranked, l = map (fun x => snd (fst x)) ranked /\ ranked <> [] /\
      NoDup (map (fun x => fst (fst x)) ranked) /\ StronglySorted ranked_before ranked /\
      forall i w q, In (i, w, q) ranked <-> C i w q /\ forall i' w' q', C i' w' q' -> (q' <= q)%Q
  end.
Proof.
  intros lower score word words h thr r H C. unfold all_similar in H. rewrite similar_spec in H.
  destruct ((length words =? 0) || negb (Qle_bool 0 thr && Qle_bool thr 1)); [discriminate|]. cbn [bind] in H.
  pose proof (res_spec lower score word words h thr true) as RS.
  pose proof (res_nodup lower score word words h thr true) as RN.
  pose proof (sort_sorted (collect lower score h true (comp_of lower true word) thr words 0)) as SS.
  fold (res_of lower score word words h thr true) in SS.
  destruct (res_of lower score word words h thr true) as [|x xs].
  - injection H as <-. intros i w q Q. apply (RS (Build_match_result w q i)) in Q. contradiction.
  - set (f := fun y => Qeq_bool (m_score y) (m_score x)) in *.
    assert (MX : forall i w q, C i w q -> (q <= m_score x)%Q).
    { intros i w q Q. apply (RS (Build_match_result w q i)) in Q. inversion SS as [|? ? _ F]; subst.
      destruct Q as [->|Q]; [simpl; lra|]. rewrite Forall_forall in F. apply F in Q. unfold bef in Q. simpl in Q. destruct Q as [Q|(Q & _)]; lra. }
    assert (CX : C (m_index x) (m_word x) (m_score x)) by (apply RS; simpl; auto).
    injection H as <-. exists (map view (filter f (x :: xs))). cbn [option_map].
    split; [rewrite map_map; reflexivity|].
    split. { simpl. unfold f at 1. assert (E : Qeq_bool (m_score x) (m_score x) = true) by (apply Qeq_bool_iff; reflexivity). rewrite E. discriminate. }
    split; [rewrite map_map; apply nodup_map_filter; exact RN|].
    split; [apply (sorted_map bef ranked_before view); auto; apply sorted_filter; auto|].
    intros i w q. rewrite view_In, filter_In. unfold f. cbn [m_score]. rewrite Qeq_bool_iff, (RS (Build_match_result w q i)).
    fold (candidate lower score word words h thr true). fold C. cbn [m_index m_word m_score].
    split; intros (A & B); split; auto.
    + intros i' w' q' Q. apply MX in Q. lra.
    + apply MX in A as A'. apply B in CX. lra.
Qed.
Print Assumptions C44_case_sensitive.

(** "abc" against ["abc"; "abd"] with threshold 1/2: both reach it, one is returned
    when case_sensitive is given, two otherwise. *)
Theorem C44_case_sensitive_all_refuted :
  all_similar (fun w => w) levenshtein_similarity [97;98;99] [[97;98;99]; [97;98;100]] false (1 # 2) true
    = Ret (Some [[97;98;99]]) /\
  all_similar (fun w => w) levenshtein_similarity [97;98;99] [[97;98;99]; [97;98;100]] false (1 # 2) false
    = Ret (Some [[97;98;99]; [97;98;100]]).
Proof. split; vm_compute; reflexivity. Qed.
Print Assumptions C44_case_sensitive_all_refuted.
Example C44_example :
  most_similar (fun w => w) levenshtein_similarity [1;2;3] [[9]; [1;2;4]; [1;5;3]; [7;8]] false (1 # 2) false = Ret (Some [1;2;4]) /\
  all_similar (fun w => w) levenshtein_similarity [1;2;3] [[1;9;9]; [1;2;4]; [1;5;3]; [1;2;3]] false (1 # 3) false
    = Ret (Some [[1;2;3]; [1;2;4]; [1;5;3]; [1;9;9]]) /\
  most_similar (fun w => w) hamming [1;2;3] [[1;2]; [4;5;6]] true (1 # 2) false = Ret None.
Proof. repeat split; vm_compute; reflexivity. Qed.

(** ** C45 *)
Theorem C45_errors : forall V lower score order (d : list (pystr * V)) keys thr fuzzy mode fv fm strict,
  ~ ((0 <= thr)%Q /\ (thr <= 1)%Q) ->
  fuzzy_match_keys lower score order d keys thr fuzzy mode fv fm strict = Raise ValueError.
Proof.
  intros. unfold fuzzy_match_keys. rewrite <- !Qle_bool_iff in H.
  destruct (Qle_bool 0 thr), (Qle_bool thr 1); try reflexivity. exfalso; auto.
Qed.
Print Assumptions C45_errors.
Theorem C45_no_keys : forall V lower score order (d : list (pystr * V)) thr fuzzy mode fv fm strict,
  (0 <= thr)%Q -> (thr <= 1)%Q ->
  fuzzy_match_keys lower score order d [] thr fuzzy mode fv fm strict = Ret d.
Proof. intros. unfold fuzzy_match_keys. apply Qle_bool_iff in H. apply Qle_bool_iff in H0. now rewrite H, H0. Qed.
Print Assumptions C45_no_keys.

(** The result is determined by one injective pairing of leftover input keys with
    absent expected keys. *)
Theorem C45_result : forall V lower score order (d : list (pystr * V)) keys thr fuzzy mode fv fm strict,
  set_order order -> NoDup (map fst d) -> keys <> [] -> (0 <= thr)%Q -> (thr <= 1)%Q ->
  exists pairs,
    fuzzy_pairing (fun k0 k => score (lower k0) (lower k)) d keys thr pairs /\ (fuzzy = false -> pairs = []) /\
    (fuzzy = true -> ~ In [] keys -> forall x k, spare_input d keys pairs x -> missing d keys pairs k ->
       ~ (thr <= score (lower x) (lower k))%Q) /\
    match fuzzy_match_keys lower score order d keys thr fuzzy mode fv fm strict with
    | Raise e => e = ValueError /\
        ((mode = URaise /\ exists x, spare_input d keys pairs x) \/ (strict = true /\ exists x, missing d keys pairs x))
    | Ret out => NoDup (map fst out) /\
        ~ (mode = URaise /\ exists x, spare_input d keys pairs x) /\ ~ (strict = true /\ exists x, missing d keys pairs x) /\
        forall k,
          (In k keys -> In k (map fst d) -> sget k out = sget k d) /\
          (forall k0, In (k0, k) pairs -> sget k out = sget k0 d) /\
          (missing d keys pairs k -> sget k out =
             match mode with
             | UFill | UForce => Some (match sget k fm with Some v => v | None => fv end)
             | _ => None
             end) /\
          (spare_input d keys pairs k -> sget k out = match mode with UIgnore | UFill => sget k d | _ => None end) /\
          (In k (map fst pairs) -> sget k out = None) /\
          (~ In k keys -> ~ In k (map fst d) -> sget k out = None)
    end.
Proof.
  intros V lower score order d keys thr fuzzy mode fv fm strict O N K T0 T1.
  exact (fuzzy_match_spec lower score order O d keys thr fuzzy mode fv fm strict N K T0 T1).
Qed.
Print Assumptions C45_result.

(** Consequences without the pairing. *)
Lemma sget_key {V} k (d : list (pystr * V)) : sget k d <> None <-> In k (map fst d).
Proof.
  destruct (in_dec str_dec k (map fst d)) as [I|I].
  - split; auto. intros _. destruct (sget_Some (fun w => w) (fun _ _ => 0%Q) k d I) as (v & ->). discriminate.
  - pose proof I as I'. apply (sget_None (fun w => w) (fun _ _ => 0%Q)) in I'. rewrite I'. tauto.
Qed.
Theorem C45_exact_and_origin : forall V lower score order (d : list (pystr * V)) keys thr fuzzy mode fv fm strict out,
  set_order order -> NoDup (map fst d) -> keys <> [] -> (0 <= thr)%Q -> (thr <= 1)%Q ->
  fuzzy_match_keys lower score order d keys thr fuzzy mode fv fm strict = Ret out ->
  (forall k, In k keys -> In k (map fst d) -> sget k out = sget k d) /\
  (forall k v, sget k out = Some v ->
     sget k d = Some v \/ (In k keys /\ ((exists k0, ~ In k0 keys /\ sget k0 d = Some v) \/
                                       (v = match sget k fm with Some v => v | None => fv end)))) /\
  (strict = true -> forall k, In k keys -> In k (map fst out)) /\
  (mode = UForce -> forall k, In k (map fst out) <-> In k keys) /\
  (mode = UFill -> forall k, In k keys -> In k (map fst out)) /\
  ((mode = URaise \/ mode = URemove) -> forall k, In k (map fst out) -> In k keys) /\
  (mode = UIgnore \/ mode = URaise -> forall v, (exists k0, sget k0 d = Some v) -> exists k, sget k out = Some v).
Proof.
  intros V lower score order d keys thr fuzzy mode fv fm strict out O N K T0 T1 E.
  destruct (C45_result V lower score order d keys thr fuzzy mode fv fm strict O N K T0 T1) as (pairs & (PA & PB & PC) & _ & _ & H).
  rewrite E in H. destruct H as (OD & NR & NS & H).
  assert (cases : forall k, In k keys -> In k (map fst d) \/ (exists k0, In (k0, k) pairs) \/ missing d keys pairs k).
  { intros k I. destruct (in_dec str_dec k (map fst d)); auto. right.
    destruct (in_dec str_dec k (map snd pairs)) as [J|J]; [|right; repeat split; auto].
    left. apply in_map_iff in J. destruct J as ((a, b) & E' & J). simpl in E'. subst. eauto. }
  assert (icases : forall k, In k (map fst d) -> ~ In k keys -> In k (map fst pairs) \/ spare_input d keys pairs k).
  { intros k I NI. destruct (in_dec str_dec k (map fst pairs)); auto. right. repeat split; auto. }
  split; [intros k; apply (proj1 (H k))|].
  split.
  { intros k v S. destruct (H k) as (H1 & H2 & H3 & H4 & H5 & H6).
    destruct (in_dec str_dec k keys) as [I|I].
    - destruct (cases k I) as [C|[(k0 & C)|C]].
      + left. rewrite <- H1; auto.
      + right. split; auto. left. exists k0. destruct (PC _ _ C) as (_ & X & _). rewrite <- (H2 _ C). auto.
      + right. split; auto. right. rewrite (H3 C) in S. destruct mode; congruence.
    - left. destruct (in_dec str_dec k (map fst d)) as [J|J]; [|rewrite (H6 I J) in S; discriminate].
      destruct (icases k J I) as [C|C]; [rewrite (H5 C) in S; discriminate|]. rewrite (H4 C) in S. destruct mode; congruence. }
  assert (present : (forall k, missing d keys pairs k -> In k (map fst out)) -> forall k, In k keys -> In k (map fst out)).
  { intros P k I. destruct (H k) as (H1 & H2 & _). destruct (cases k I) as [C|[(k0 & C)|C]]; auto; apply sget_key.
    - rewrite H1 by auto. now apply sget_key.
    - rewrite (H2 _ C). apply sget_key. apply (PC _ _ C). }
  split. { intros ->. apply present. intros k M. exfalso. apply NS. split; eauto. }
  assert (fills : mode = UFill \/ mode = UForce -> forall k, In k keys -> In k (map fst out)).
  { intros M. apply present. intros k C. apply sget_key. destruct (H k) as (_ & _ & H3 & _). rewrite (H3 C).
    destruct M as [->| ->]; discriminate. }
  assert (only : (forall k, spare_input d keys pairs k -> sget k out = None) -> forall k, In k (map fst out) -> In k keys).
  { intros P k I. destruct (in_dec str_dec k keys) as [J|J]; auto. exfalso. apply sget_key in I. apply I.
    destruct (H k) as (_ & _ & _ & _ & H5 & H6). destruct (in_dec str_dec k (map fst d)) as [L|L]; auto.
    destruct (icases k L J); auto. }
  split. { intros M k. split; [|apply fills; auto]. apply only. intros x C. destruct (H x) as (_ & _ & _ & H4 & _). rewrite (H4 C), M. auto. }
  split. { intros M. apply fills; auto. }
  split. { intros M. apply only. intros x C. destruct (H x) as (_ & _ & _ & H4 & _). rewrite (H4 C). destruct M as [->| ->]; auto. }
  intros M v (k0 & S). assert (I : In k0 (map fst d)) by (apply sget_key; congruence).
  destruct (in_dec str_dec k0 keys) as [J|J].
  { exists k0. destruct (H k0) as (H1 & _). rewrite H1; auto. }
  destruct (icases k0 I J) as [C|C].
  - apply in_map_iff in C. destruct C as ((a, b) & E' & C). simpl in E'. subst a. exists b.
    destruct (H b) as (_ & H2 & _). rewrite (H2 _ C). auto.
  - exists k0. destruct (H k0) as (_ & _ & _ & H4 & _). rewrite (H4 C). destruct M as [->| ->]; auto.
    exfalso. apply NR. split; eauto.
Qed.
Print Assumptions C45_exact_and_origin.

(** Two orders in which the same two input keys may be iterated. *)
Definition ord1 (l : list pystr) : list pystr := nodup str_dec l.
Definition ord2 (l : list pystr) : list pystr := rev (nodup str_dec l).
Lemma ord1_ok : set_order ord1.
Proof. intros l. split; [apply NoDup_nodup|]. intros x. apply nodup_In. Qed.
Lemma ord2_ok : set_order ord2.
Proof. intros l. split; [apply NoDup_rev, NoDup_nodup|]. intros x. unfold ord2. rewrite <- in_rev. apply nodup_In. Qed.

(** {"nam": 1, "nme": 2} against ["name"]: which value ends up under "name" depends
    on the iteration order of a set of strings. *)
Definition d_nam : list (pystr * nat) := [([110;97;109], 1); ([110;109;101], 2)].
Theorem C45_deterministic_refuted :
  exists (d : list (pystr * nat)) keys thr o1 o2,
    set_order o1 /\ set_order o2 /\
    fuzzy_match_keys (fun w => w) levenshtein_similarity o1 d keys thr true UForce 0 [] false = Ret [([110;97;109;101], 1)] /\
    fuzzy_match_keys (fun w => w) levenshtein_similarity o2 d keys thr true UForce 0 [] false = Ret [([110;97;109;101], 2)].
Proof.
  exists d_nam, [[110;97;109;101]], (1 # 2)%Q, ord1, ord2. repeat split; try apply ord1_ok; try apply ord2_ok; vm_compute; reflexivity.
Qed.
Print Assumptions C45_deterministic_refuted.
(** An expected key "" is never matched, even by a perfect score. *)
Theorem C45_empty_key_refuted :
  exists (d : list (pystr * nat)) score k x, In k [[]] /\ In x (map fst d) /\ score x k = 1%Q /\
    fuzzy_match_keys (fun w => w) score ord1 d [[]] 1 true URemove 0 [] false = Ret [].
Proof. exists [([65], 7)], (fun _ _ => 1%Q), [], [65]. repeat split; try (simpl; auto); vm_compute; reflexivity. Qed.
Print Assumptions C45_empty_key_refuted.
(** {"nam": 1, "age": 2, "zzz": 3} against ["name", "age", "city"] *)
Example C45_example :
  let d := [([110;97;109], 1); ([97;103;101], 2); ([122;122;122], 3)] in
  let keys := [[110;97;109;101]; [97;103;101]; [99;105;116;121]] in
  let run mode strict := fuzzy_match_keys (fun w => w) levenshtein_similarity ord1 d keys (7 # 10) true mode 0 [] strict in
  run UIgnore false = Ret [([97;103;101], 2); ([110;97;109;101], 1); ([122;122;122], 3)] /\
  run UForce false = Ret [([97;103;101], 2); ([110;97;109;101], 1); ([99;105;116;121], 0)] /\
  run URemove false = Ret [([97;103;101], 2); ([110;97;109;101], 1)] /\
  run URaise false = Raise ValueError /\ run UIgnore true = Raise ValueError.
Proof. repeat split; vm_compute; reflexivity. Qed.

(** ** C48: strings enter by their lengths *)
Theorem C48_bins : forall lens upper,
  let bins := get_bins lens upper in
  concat bins = seq 0 (length lens) /\
  (forall b, In b bins -> length b <= 1 \/ (Z.of_nat (total lens b) < upper)%Z) /\
  neighbours (fun b1 b2 => exists i rest, b2 = i :: rest /\ (upper <= Z.of_nat (total lens b1 + nth i lens 0%nat))%Z) bins /\
  (forall b rest, bins = b :: rest -> ~ In [] rest /\ (b = [] <-> (upper <= Z.of_nat (hd 0%nat lens))%Z)) /\
  (bins = [] <-> lens = []).
Proof.
  intros lens upper bins.
  assert (Z0 : lens = [] -> bins = []) by (unfold bins; intros ->; reflexivity).
  destruct (bins_facts lens upper lens 0 0 [] [] eq_refl eq_refl (or_introl (Nat.le_0_l 1))) as (bs & E & C & F & N & Z & H).
  fold (get_bins lens upper) in E. fold bins in E. simpl in E. rewrite E in *. clear E.
  split; auto. split. { rewrite Forall_forall in F. exact F. }
  split; auto. split.
  - intros b rest ->. destruct (H _ _ eq_refl) as (_ & H1 & H2). split.
    + rewrite Forall_forall in H1. intros I. apply (H1 _ I eq_refl).
    + rewrite H2. tauto.
  - split; auto. intros X; apply Z in X; tauto.
Qed.
Print Assumptions C48_bins.
(** A first string of at least the bound's length yields an empty first bin. *)
Theorem C48_no_empty_bin_refuted : exists lens upper, In [] (get_bins lens upper) /\ lens <> [].
Proof. exists [5; 1], 3%Z. split; [vm_compute; auto|discriminate]. Qed.
Print Assumptions C48_no_empty_bin_refuted.
Example C48_example :
  get_bins [3; 4; 5; 20; 1; 1] 10 = [[0; 1]; [2]; [3]; [4; 5]] /\ get_bins [12; 2] 10 = [[]; [0]; [1]] /\ get_bins [] 10 = [].
Proof. repeat split. Qed.
