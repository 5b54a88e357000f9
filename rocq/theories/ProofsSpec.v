(** Proofs about ModelSpec. *)
From Coq Require Import String.
From Coq Require Import List Bool Arith ZArith Lia.
From Verif Require Import PyBase PyFacts ModelParams ModelSpec SpecSpec ProofsGuard ProofsParams.
Import ListNotations.
Local Open Scope string_scope.
Local Open Scope nat_scope.
Local Open Scope list_scope.
#[local] Arguments eqb : simpl never.

Lemma existsb_str' (k : string) (l : list string) : existsb (eqb k) l = true <-> In k l.
Proof.
  rewrite existsb_exists. split.
  - intros (x & I & E). destruct (eqb_spec k x); [subst; exact I|discriminate].
  - intros I. exists k. split; [exact I|]. destruct (eqb_spec k k); congruence.
Qed.
Lemma existsb_str_f (k : string) (l : list string) : existsb (eqb k) l = false <-> ~ In k l.
Proof. rewrite <- existsb_str'. destruct (existsb (eqb k) l); intuition discriminate. Qed.
Lemma dget_app {V} (k : string) (a b : dict string V) : dget k (a ++ b) = match dget k a with Some v => Some v | None => dget k b end.
Proof. induction a as [|[k' v] a IH]; cbn; [reflexivity|]. destruct (eqb k k'); [reflexivity|exact IH]. Qed.
Lemma dget_filter {V} (p : string -> bool) (k : string) (a : dict string V) :
  dget k (filter (fun m => p (fst m)) a) = if p k then dget k a else None.
Proof.
  induction a as [|[k' v] a IH]; cbn; [destruct (p k); reflexivity|]. destruct (p k') eqn:P; cbn.
  - destruct (eqb_spec k k') as [->|]; [rewrite P; reflexivity|exact IH].
  - rewrite IH. destruct (eqb_spec k k') as [->|]; [rewrite P; reflexivity|reflexivity].
Qed.
Lemma sublist_filter {A} (p : A -> bool) l : sublist (filter p l) l.
Proof. induction l as [|x l IH]; cbn; [constructor|]. destruct (p x); constructor; exact IH. Qed.
Lemma sublist_In {A} (l m : list A) x : sublist l m -> In x l -> In x m.
Proof. induction 1; cbn; [tauto|intros [->|]; auto|auto]. Qed.
Lemma NoDup_map_filter {A B} (f : A -> B) p l : NoDup (map f l) -> NoDup (map f (filter p l)).
Proof.
  induction l as [|x l IH]; cbn; [trivial|]. intros N. inversion N as [|? ? NI N']; subst. destruct (p x); cbn; [|auto].
  constructor; [|auto]. intros I. apply NI. apply in_map_iff in I as (y & E & I). apply filter_In in I as [I _]. rewrite <- E. apply in_map. exact I.
Qed.

Section Spec.
Variables (V T : Type) (tr : traits V) (valid_type : T -> bool) (teq : T -> T -> bool).
Notation pval := (pval V). Notation meta := (meta V). Notation spec := (spec V T).
Notation new_spec := (new_spec V T tr valid_type). Notation with_updates := (with_updates V T tr valid_type).
Notation common_ok := (common_ok V tr). Notation good_name := (good_name V tr). Notation good_base := (good_base T valid_type).
Notation name := (name V T tr).

Lemma NoDup_app_split {A} (a b : list A) : NoDup (a ++ b) -> forall x, In x a -> ~ In x b.
Proof.
  induction a as [|y a IH]; cbn; [tauto|]. intros N x [->|I] J; inversion N as [|? ? NI N']; subst.
  - apply NI, in_or_app. auto.
  - exact (IH N' x I J).
Qed.
Lemma NoDup_app_l {A} (a b : list A) : NoDup (a ++ b) -> NoDup a.
Proof.
  induction a as [|y a IH]; cbn; [constructor|]. intros N. inversion N as [|? ? NI N']; subst. constructor; [|auto]. intros I. apply NI, in_or_app. auto.
Qed.
Lemma NoDup_app_r {A} (a b : list A) : NoDup (a ++ b) -> NoDup b.
Proof. induction a as [|y a IH]; cbn; [trivial|]. intros N. inversion N; auto. Qed.
Lemma collect_spec (l acc : list meta) : NoDup (map fst acc) ->
  (NoDup (map fst (acc ++ l)) /\ collect V acc l = Ret (acc ++ l)) \/ (~ NoDup (map fst (acc ++ l)) /\ collect V acc l = Raise ValueError).
Proof.
  revert acc. induction l as [|[k v] l IH]; intros acc N; cbn [collect].
  - left. rewrite app_nil_r. auto.
  - destruct (existsb (eqb k) (map fst acc)) eqn:E.
    + right. split; [|reflexivity]. apply existsb_str' in E. rewrite map_app. cbn. intros N2. apply (NoDup_app_split _ _ N2 k E). left. reflexivity.
    + apply existsb_str_f in E. specialize (IH (acc ++ [(k, v)])). rewrite <- app_assoc in IH. cbn in IH. apply IH.
      rewrite map_app. cbn. apply NoDup_app_intro; [exact N|repeat constructor; intros []|]. intros x I [<-|[]]. exact (E I).
Qed.
Lemma ptruthy_iff (v : pval) : ptruthy V tr v = true <-> true_value V tr v.
Proof.
  unfold true_value. destruct v as [| |v]; cbn; [split; [discriminate|intros (x & E & _); discriminate]..|].
  split; [intros H; exists v; auto|intros (x & E & H); injection E as <-; exact H].
Qed.
Lemma pcallable_iff (v : pval) : pcallable V tr v = true <-> can_call V tr v.
Proof.
  unfold can_call. destruct v as [| |v]; cbn; [split; [discriminate|intros (x & E & _); discriminate]..|].
  split; [intros H; exists v; auto|intros (x & E & H); injection E as <-; exact H].
Qed.
Lemma bad_iff (l : list meta) : conflict V tr l || bad_factory V tr l || bad_validator V tr l = false <-> common_ok (fun k => dget k l).
Proof.
  unfold conflict, bad_factory, bad_validator, given_truthy, kget. rewrite !orb_false_iff. split.
  - intros [[C F] W]. split; cbv beta.
    + intros d f Ed Ef [A B]. rewrite Ed, Ef in C. apply ptruthy_iff in A, B. rewrite A, B in C. discriminate.
    + intros f Ef A. rewrite Ef in F. apply ptruthy_iff in A. rewrite A in F. apply pcallable_iff. destruct (pcallable V tr f); [reflexivity|discriminate].
    + intros x Ex A L. rewrite Ex, A, L in W. cbn in W. destruct (callable tr x); [reflexivity|discriminate].
    + intros x vs Ex A L y I. rewrite Ex, A, L in W. cbn in W. apply negb_false_iff in W. rewrite forallb_forall in W. auto.
  - intros [H1 H2 H3 H4]. split; [split|].
    + destruct (dget "default" l) as [d|] eqn:Ed; [|reflexivity]. destruct (dget "default_factory" l) as [f|] eqn:Ef; [|apply andb_false_r].
      apply not_true_is_false. rewrite andb_true_iff, !ptruthy_iff. eauto.
    + destruct (dget "default_factory" l) as [f|] eqn:Ef; [|reflexivity]. apply not_true_is_false. rewrite andb_true_iff, ptruthy_iff, negb_true_iff.
      intros [A B]. apply (H2 f eq_refl) in A. apply pcallable_iff in A. congruence.
    + destruct (dget "validator" l) as [[| |x]|] eqn:Ev; try reflexivity. apply not_true_is_false. rewrite andb_true_iff, negb_true_iff. intros [A B].
      rewrite <- not_true_iff_false, forallb_forall in B. apply B. intros y I. specialize (H3 x eq_refl A). specialize (fun vs => H4 x vs eq_refl A).
      destruct (as_list tr x) as [vs|]; [exact (H4 vs eq_refl y I)|]. destruct I as [<-|[]]. auto.
Qed.
Lemma name_ok_iff (l : list meta) : name_ok V tr l = true <-> good_name (fun k => dget k l).
Proof.
  unfold name_ok, SpecSpec.good_name, kget. destruct (dget "name" l) as [v|]; [|split; [intros _ v E; discriminate|reflexivity]]. split.
  - intros H w E. injection E as <-. destruct v as [| |x]; try discriminate. destruct (as_str tr x) as [s|] eqn:A; [|discriminate].
    exists x, s. split; [reflexivity|]. split; [exact A|]. intros ->. discriminate.
  - intros H. destruct (H v eq_refl) as (x & s & -> & A & N). rewrite A. destruct (eqb_spec s ""); [congruence|reflexivity].
Qed.
Lemma base_ok_iff b : base_ok T valid_type b = true <-> good_base b.
Proof. unfold SpecSpec.good_base. destruct b as [t|]; cbn; [split; [intros H u E; injection E as <-; exact H|auto]|split; [discriminate|reflexivity]]. Qed.
Lemma prepare_spec (a b c : list meta) : let l := a ++ b ++ c in
  (~ NoDup (map fst l) /\ prepare V tr a b c = Raise ValueError) \/
  (NoDup (map fst l) /\ prepare V tr a b c = validate V tr l).
Proof.
  intros l. unfold prepare. destruct (collect_spec a [] (NoDup_nil _)) as [[N ->]|[N ->]]; cbn [bind app] in *.
  2: { left. split; [|reflexivity]. intros M. apply N. unfold l in M. rewrite map_app in M. exact (NoDup_app_l _ _ M). }
  destruct (collect_spec b a N) as [[N2 ->]|[N2 ->]]; cbn [bind].
  2: { left. split; [|reflexivity]. intros M. apply N2. unfold l in M. rewrite app_assoc, map_app in M. exact (NoDup_app_l _ _ M). }
  destruct (collect_spec c (a ++ b) N2) as [[N3 ->]|[N3 ->]]; cbn [bind]; rewrite <- app_assoc in *; fold l in N3 |- *; auto.
Qed.
(** The result of every constructor call. *)
Lemma new_spec_cases b (a1 a2 a3 : list meta) : let l := a1 ++ a2 ++ a3 in
  (~ NoDup (map fst l) /\ new_spec b a1 a2 a3 = Raise ValueError) \/
  (NoDup (map fst l) /\ ~ common_ok (fun k => dget k l) /\ new_spec b a1 a2 a3 = Raise ExceptionGroupErr) \/
  (NoDup (map fst l) /\ common_ok (fun k => dget k l) /\ ~ (good_name (fun k => dget k l) /\ good_base b) /\ new_spec b a1 a2 a3 = Raise ValueError) \/
  (NoDup (map fst l) /\ common_ok (fun k => dget k l) /\ good_name (fun k => dget k l) /\ good_base b /\ new_spec b a1 a2 a3 = Ret (MkSpec b l)).
Proof.
  intros l. unfold ModelSpec.new_spec. destruct (prepare_spec a1 a2 a3) as [[N ->]|[N ->]]; fold l in N |- *; [auto|]. right.
  unfold validate. destruct (conflict V tr l || bad_factory V tr l || bad_validator V tr l) eqn:E.
  - left. split; [exact N|]. split; [|reflexivity]. rewrite <- bad_iff, E. discriminate.
  - right. apply bad_iff in E. cbn [bind]. destruct (name_ok V tr l) eqn:A; cbn [negb].
    + apply name_ok_iff in A. destruct (base_ok T valid_type b) eqn:B; cbn [negb].
      * apply base_ok_iff in B. right. auto.
      * left. split; [exact N|]. split; [exact E|]. split; [|reflexivity]. rewrite <- base_ok_iff, B. intros [_ X]. discriminate.
    + left. split; [exact N|]. split; [exact E|]. split; [|reflexivity]. rewrite <- name_ok_iff, A. intros [X _]. discriminate.
Qed.
Lemma built_ok s : built V T tr valid_type s -> NoDup (map fst (s_meta s)) /\ common_ok (fun k => dget k (s_meta s)) /\ good_name (fun k => dget k (s_meta s)) /\ good_base (s_base s).
Proof.
  intros (b & a1 & a2 & a3 & E). destruct (new_spec_cases b a1 a2 a3) as [(_ & X)|[(_ & _ & X)|[(_ & _ & _ & X)|(N & C & G & B & X)]]]; rewrite X in E; try discriminate.
  injection E as <-. cbn. auto.
Qed.
(** with_updates *)
Definition upd (s : spec) (kw : list meta) : list meta :=
  filter (fun m => negb (existsb (eqb (fst m)) (map fst kw))) (s_meta s) ++ filter (fun m => negb (is_sent V (snd m))) kw.
Lemma dget_nonsent (kw : list meta) k : NoDup (map fst kw) ->
  dget k (filter (fun m => negb (is_sent V (snd m))) kw) = match dget k kw with Some (PV v) => Some (PV v) | _ => None end.
Proof.
  induction kw as [|[k' v] kw IH]; intros N; cbn; [reflexivity|]. inversion N as [|? ? NI N']; subst. specialize (IH N').
  destruct v as [| |v]; cbn; destruct (eqb_spec k k') as [->|]; try exact IH; try reflexivity;
  rewrite IH; destruct (dget k' kw) as [w|] eqn:G; try reflexivity; apply dget_In in G; apply (in_map fst) in G; contradiction.
Qed.
Lemma dget_upd s kw k : NoDup (map fst kw) -> dget k (upd s kw) = updated V T s kw k.
Proof.
  intros N. unfold upd, updated. rewrite dget_app, (dget_filter (fun k => negb (existsb (eqb k) (map fst kw)))), dget_nonsent by exact N.
  destruct (existsb (eqb k) (map fst kw)) eqn:E; cbn [negb].
  - apply existsb_str' in E. destruct (dget k kw) as [[| |v]|] eqn:G; try reflexivity. apply dget_None in G. contradiction.
  - apply existsb_str_f in E. destruct (dget k kw) as [v|] eqn:G; [apply dget_In in G; apply (in_map fst) in G; contradiction|].
    destruct (dget k (s_meta s)); reflexivity.
Qed.
Lemma NoDup_upd s kw : NoDup (map fst (s_meta s)) -> NoDup (map fst kw) -> NoDup (map fst (upd s kw)).
Proof.
  intros N M. unfold upd. rewrite map_app. apply NoDup_app_intro; [apply NoDup_map_filter; exact N|apply NoDup_map_filter; exact M|].
  intros k I J. apply in_map_iff in I as (m & <- & I). apply filter_In in I as [_ I]. apply negb_true_iff, existsb_str_f in I. apply I.
  apply in_map_iff in J as (m' & E & J). apply filter_In in J as [J _]. rewrite <- E. apply in_map. exact J.
Qed.
Lemma ext_common f g : (forall k, f k = g k) -> common_ok f -> common_ok g.
Proof. intros E [A B C D]. split; intros; rewrite <- !E in *; eauto. Qed.
Lemma ext_name f g : (forall k, f k = g k) -> good_name f -> good_name g.
Proof. intros E H v. rewrite <- E. apply H. Qed.
Lemma with_updates_cases s kw : NoDup (map fst (s_meta s)) -> NoDup (map fst kw) -> good_base (s_base s) ->
  (~ common_ok (updated V T s kw) /\ with_updates s kw = Raise ExceptionGroupErr) \/
  (common_ok (updated V T s kw) /\ ~ good_name (updated V T s kw) /\ with_updates s kw = Raise ValueError) \/
  (common_ok (updated V T s kw) /\ good_name (updated V T s kw) /\ with_updates s kw = Ret (MkSpec (s_base s) (upd s kw))).
Proof.
  intros N M B. unfold ModelSpec.with_updates. fold (upd s kw). pose proof (NoDup_upd s kw N M) as NU.
  assert (E : forall k, updated V T s kw k = dget k (upd s kw)) by (intros; symmetry; apply dget_upd; exact M).
  assert (E' : forall k, dget k (upd s kw) = updated V T s kw k) by (intros; symmetry; apply E).
  destruct (new_spec_cases (s_base s) (upd s kw) [] []) as [(X & _)|[(_ & X & R)|[(_ & C & X & R)|(_ & C & G & _ & R)]]]; rewrite ?app_nil_r in *; rewrite ?R.
  - contradiction.
  - left. split; [|reflexivity]. intros C. apply X. exact (ext_common _ _ E C).
  - right. left. split; [exact (ext_common _ _ E' C)|]. split; [|reflexivity]. intros G. apply X. split; [exact (ext_name _ _ E G)|exact B].
  - right. right. split; [exact (ext_common _ _ E' C)|]. split; [exact (ext_name _ _ E' G)|reflexivity].
Qed.

(** Operable *)
Lemma name_eqb_iff a b : name_eqb a b = true <-> a = b.
Proof.
  destruct a as [a|], b as [b|]; cbn; [destruct (eqb_spec a b)| | |]; split; intros; congruence.
Qed.
Lemma existsb_name k l : existsb (name_eqb k) l = true <-> In k l.
Proof.
  rewrite existsb_exists. split; [intros (x & I & E); apply name_eqb_iff in E; subst; exact I|]. intros I. exists k. split; [exact I|]. apply name_eqb_iff. reflexivity.
Qed.
Lemma distinct_iff l : distinct l = true <-> NoDup l.
Proof.
  induction l as [|a l IH]; cbn; [split; [constructor|reflexivity]|]. rewrite andb_true_iff, negb_true_iff, IH, <- not_true_iff_false, existsb_name. split.
  - intros [A B]. constructor; auto.
  - intros N. inversion N; auto.
Qed.
Lemma all_specs_iff (items : list (option spec)) l : all_specs V T items = Some l <-> items = map Some l.
Proof.
  revert l. induction items as [|[s|] items IH]; intros l; cbn.
  - destruct l; cbn; split; intros H; try reflexivity; discriminate H.
  - destruct (all_specs V T items) as [r|] eqn:E.
    + split; [intros H; injection H as <-; cbn; f_equal; apply IH; reflexivity|]. destruct l as [|x l]; cbn; [discriminate|]. intros H. injection H as <- H. apply IH in H. congruence.
    + split; [discriminate|]. destruct l as [|x l]; cbn; [discriminate|]. intros H. injection H as <- H. apply IH in H. discriminate.
  - split; [discriminate|]. destruct l; discriminate.
Qed.
Lemma all_specs_none (items : list (option spec)) : all_specs V T items = None <-> In None items.
Proof.
  induction items as [|[s|] items IH]; cbn; [split; [discriminate|tauto]| |tauto].
  destruct (all_specs V T items); split; intros H.
  - discriminate.
  - destruct H as [H|H]; [discriminate|]. apply IH in H. discriminate.
  - right. apply IH. reflexivity.
  - reflexivity.
Qed.
Lemma oget_iff (o : list spec) k s : NoDup (map name o) -> oget V T tr o k = Some s <-> In s o /\ name s = k.
Proof.
  intros N. unfold oget, allowed. split.
  - destruct (existsb (name_eqb k) (map name o)); [|discriminate]. intros F. apply find_some in F as [I E]. apply name_eqb_iff in E. auto.
  - intros [I E]. assert (existsb (name_eqb k) (map name o) = true) as ->. { apply existsb_name. rewrite <- E. apply in_map. exact I. }
    clear -N I E. induction o as [|x o IH]; [destruct I|]. cbn. inversion N as [|? ? NI N']; subst. destruct (name_eqb (name x) (name s)) eqn:Q.
    + apply name_eqb_iff in Q. destruct I as [->|I]; [reflexivity|]. exfalso. apply NI. rewrite Q. apply in_map. exact I.
    + destruct I as [->|I]; [|auto]. exfalso. rewrite <- not_true_iff_false, name_eqb_iff in Q. apply Q. reflexivity.
Qed.
Lemma oget_none (o : list spec) k : oget V T tr o k = None <-> ~ In k (map name o).
Proof.
  unfold oget, allowed. destruct (existsb (name_eqb k) (map name o)) eqn:E.
  - apply existsb_name in E. split; [|tauto]. intros F. apply in_map_iff in E as (s & <- & I). apply (find_none _ _ F) in I.
    rewrite <- not_true_iff_false, name_eqb_iff in I. tauto.
  - rewrite <- not_true_iff_false, existsb_name in E. tauto.
Qed.
Lemma somes_In {A} (l : list (option A)) x : In x (somes l) <-> In (Some x) l.
Proof. induction l as [|[y|] l IH]; cbn; [tauto| |]; rewrite IH; intuition congruence. Qed.
Lemma metas_eq_dget (l m : list meta) k : metas_eq V tr l m = true ->
  match dget k l, dget k m with Some v, Some w => value_eq V tr v w = true | None, None => True | _, _ => False end.
Proof.
  revert m. induction l as [|[a v] l IH]; intros [|[b w] m]; cbn; try discriminate; [trivial|].
  rewrite !andb_true_iff. intros [[A B] C]. destruct (eqb_spec a b) as [->|]; [|discriminate]. destruct (eqb k b); [exact B|]. apply IH. exact C.
Qed.
End Spec.

(** The cache. *)
Section Cache.
Variables (K R : Type) (keq : K -> K -> bool) (fresh : K -> R).
Hypothesis E : equivalence keq.
Notation recent := (recent K keq).
Let krefl := eqv_refl keq E. Let ksym := eqv_sym keq E. Let ktrans := eqv_trans keq E.
Lemma keq_comm a b : keq a b = keq b a.
Proof. apply eq_true_iff_eq. split; apply ksym. Qed.
Lemma keq_l a b c : keq a b = true -> keq a c = keq b c.
Proof. intros H. apply eq_true_iff_eq. split; intros; eauto. Qed.
Lemma keq_r a b c : keq a b = true -> keq c a = keq c b.
Proof. intros H. rewrite (keq_comm c a), (keq_comm c b). apply keq_l. exact H. Qed.
(** Pairwise different. *)
Inductive distinct_keys : list K -> Prop :=
| dk_nil : distinct_keys []
| dk_cons k l : (forall x, In x l -> keq k x = false) -> distinct_keys l -> distinct_keys (k :: l).
Lemma existsb_keq k l : existsb (keq k) l = false <-> forall x, In x l -> keq k x = false.
Proof.
  split.
  - intros H x I. destruct (keq k x) eqn:Q; [|reflexivity]. rewrite <- H. symmetry. apply existsb_exists. eauto.
  - intros H. apply not_true_is_false. rewrite existsb_exists. intros (x & I & Q). rewrite H in Q; [discriminate|exact I].
Qed.
Lemma recent_In x h : In x (recent h) -> In x h.
Proof. induction h as [|k h IH]; cbn; [tauto|]. destruct (existsb (keq k) h); cbn; intuition. Qed.
Lemma recent_snoc h k : recent (h ++ [k]) = filter (fun x => negb (keq x k)) (recent h) ++ [k].
Proof.
  induction h as [|a h IH]; [reflexivity|]. cbn. rewrite existsb_app. cbn. rewrite orb_false_r. destruct (existsb (keq a) h); cbn; [exact IH|].
  destruct (keq a k) eqn:Q; cbn; rewrite IH, ?Q; reflexivity.
Qed.
Lemma recent_distinct h : distinct_keys (recent h).
Proof.
  induction h as [|a h IH]; cbn; [constructor|]. destruct (existsb (keq a) h) eqn:Q; [exact IH|]. constructor; [|exact IH].
  intros x I. apply (proj1 (existsb_keq a h) Q), recent_In, I.
Qed.
Lemma distinct_app a b : distinct_keys (a ++ b) -> (forall x y, In x a -> In y b -> keq x y = false) /\ distinct_keys b.
Proof.
  induction a as [|k a IH]; cbn; [intros D; split; [tauto|exact D]|]. intros D. inversion D as [|? ? N D']; subst. destruct (IH D') as [H1 H2].
  split; [|exact H2]. intros x y [<-|I] J; [apply N, in_or_app; auto|auto].
Qed.
Lemma filter_id {A} (p : A -> bool) l : (forall x, In x l -> p x = true) -> filter p l = l.
Proof. induction l as [|x l IH]; cbn; [reflexivity|]. intros H. rewrite H by auto. f_equal. apply IH. auto. Qed.
Lemma filter_one l k x : distinct_keys l -> In x l -> keq x k = true -> length (filter (fun x => negb (keq x k)) l) + 1 = length l.
Proof.
  induction 1 as [|a l N D IH]; [intros []|]. intros I Q. cbn. destruct (keq a k) eqn:P; cbn.
  - rewrite filter_id; [lia|]. intros y J. apply negb_true_iff. rewrite keq_comm, <- (keq_l a k y P). apply N. exact J.
  - destruct I as [->|I]; [congruence|]. rewrite <- (IH I Q). reflexivity.
Qed.
Lemma lastn_all {A} n (l : list A) : length l <= n -> lastn n l = l.
Proof. unfold lastn. intros H. replace (length l - n) with 0 by lia. reflexivity. Qed.
Lemma lastn_app {A} n (a b : list A) : n <= length b -> lastn n (a ++ b) = lastn n b.
Proof.
  unfold lastn. intros H. rewrite app_length, skipn_app. replace (length a + length b - n - length a) with (length b - n) by lia.
  rewrite skipn_all2 by lia. reflexivity.
Qed.
Lemma lastn_split {A} n (l : list A) : exists a, l = a ++ lastn n l /\ (length (lastn n l) = n \/ (a = [] /\ length l < n)).
Proof.
  exists (firstn (length l - n) l). split; [symmetry; apply firstn_skipn|]. unfold lastn. rewrite skipn_length.
  destruct (Nat.lt_ge_cases (length l) n); [right|left; lia]. replace (length l - n) with 0 by lia. auto.
Qed.
Lemma lastn_app_one {A} n (a : list A) x : n <> 0 -> lastn n (a ++ [x]) = lastn (n - 1) a ++ [x].
Proof.
  intros N. unfold lastn. rewrite app_length. cbn [length]. replace (length a + 1 - n) with (length a - (n - 1)) by lia. rewrite skipn_app.
  replace (length a - (n - 1) - length a) with 0 by lia. reflexivity.
Qed.
Lemma lastn_length {A} n (l : list A) : length (lastn n l) = Nat.min n (length l).
Proof. unfold lastn. rewrite skipn_length. lia. Qed.
Lemma Forall2_lastn {A B} (P : A -> B -> Prop) n l m : Forall2 P l m -> Forall2 P (lastn n l) (lastn n m).
Proof.
  intros H. unfold lastn. assert (length l = length m) as -> by (induction H; cbn; auto). generalize (length m - n) as i. intros i. revert l m H. induction i as [|i IH]; intros l m H; [exact H|].
  destruct H; [constructor|]. cbn. apply IH. exact H0.
Qed.
Lemma hit_list n R0 k x : distinct_keys R0 -> In x (lastn n R0) -> keq x k = true ->
  lastn n (filter (fun x => negb (keq x k)) R0 ++ [k]) = filter (fun x => negb (keq x k)) (lastn n R0) ++ [k].
Proof.
  intros D I Q. destruct (lastn_split n R0) as (a & EA & C). set (L := lastn n R0) in *. rewrite EA in D |- *. apply distinct_app in D as [D1 D2].
  rewrite filter_app, (filter_id _ a).
  2: { intros y J. apply negb_true_iff. rewrite keq_comm, <- (keq_l x k y Q), keq_comm. apply D1; assumption. }
  pose proof (filter_one L k x D2 I Q) as F. rewrite <- app_assoc. destruct C as [C|[-> C]].
  - rewrite lastn_app by (rewrite app_length; cbn; lia). apply lastn_all. rewrite app_length. cbn. lia.
  - cbn [app]. apply lastn_all. rewrite app_length. cbn. rewrite EA in C. cbn in C. lia.
Qed.
Lemma miss_list n R0 k : (forall x, In x (lastn n R0) -> keq x k = false) ->
  lastn n (filter (fun x => negb (keq x k)) R0 ++ [k]) = lastn n (lastn n R0 ++ [k]).
Proof.
  intros N. destruct (lastn_split n R0) as (a & EA & C). set (L := lastn n R0) in *. rewrite EA. rewrite filter_app, (filter_id _ L).
  2: { intros y J. apply negb_true_iff. auto. }
  destruct C as [C|[-> C]]; [|reflexivity]. rewrite <- app_assoc. apply lastn_app. rewrite app_length. cbn. lia.
Qed.
Lemma Forall2_filter_k (ks L : list K) k : Forall2 (fun a b => keq a b = true) ks L ->
  Forall2 (fun a b => keq a b = true) (filter (fun x => negb (keq x k)) ks) (filter (fun x => negb (keq x k)) L).
Proof. induction 1 as [|a b l m H F IH]; cbn; [constructor|]. rewrite (keq_l a b k H). destruct (keq b k); cbn; [exact IH|constructor; assumption]. Qed.
Lemma map_filter_fst {B} (c : list (K * B)) k : map fst (filter (fun e => negb (keq (fst e) k)) c) = filter (fun x => negb (keq x k)) (map fst c).
Proof. induction c as [|[a b] c IH]; cbn; [reflexivity|]. destruct (keq a k); cbn; rewrite IH; reflexivity. Qed.
Lemma evict_ok n (c : cache K R) : evict K R (Z.of_nat n) c = (Ret tt, lastn n c).
Proof.
  induction c as [|e c IH]; cbn [evict length].
  - destruct (Z.of_nat 0 >? Z.of_nat n)%Z eqn:Q; [apply Zgt_is_gt_bool in Q; lia|]. reflexivity.
  - destruct (Z.of_nat (S (length c)) >? Z.of_nat n)%Z eqn:Q.
    + apply Zgt_is_gt_bool in Q. rewrite IH. f_equal. unfold lastn. cbn [length]. replace (S (length c) - n) with (S (length c - n)) by lia. reflexivity.
    + rewrite Z.gtb_ltb, Z.ltb_ge in Q. rewrite lastn_all by (cbn; lia). reflexivity.
Qed.
Lemma evict_neg (c : cache K R) limit : (limit < 0)%Z -> evict K R limit c = (Raise KeyError, []).
Proof.
  intros H. induction c as [|e c IH]; cbn [evict length].
  - replace (Z.of_nat 0 >? limit)%Z with true; [reflexivity|]. symmetry. apply Z.gtb_lt. lia.
  - replace (Z.of_nat (S (length c)) >? limit)%Z with true; [exact IH|]. symmetry. apply Z.gtb_lt. lia.
Qed.
Notation run n := (ModelSpec.run K R keq fresh (Z.of_nat n)). Notation lookup n := (ModelSpec.lookup K R keq fresh (Z.of_nat n)).
Definition holds (n : nat) (h : list K) (c : cache K R) : Prop :=
  Forall2 (fun a b => keq a b = true) (map fst c) (lastn n (recent h)) /\ (forall k r, In (k, r) c -> r = fresh k /\ In k h).
Lemma Forall2_In_l {A B} (P : A -> B -> Prop) l m x : Forall2 P l m -> In x l -> exists y, In y m /\ P x y.
Proof. induction 1 as [|a b l m H F IH]; [intros []|]. intros [<-|I]; [exists b; cbn; auto|]. destruct (IH I) as (y & J & Q). exists y. cbn. auto. Qed.
Lemma Forall2_In_r {A B} (P : A -> B -> Prop) l m y : Forall2 P l m -> In y m -> exists x, In x l /\ P x y.
Proof. induction 1 as [|a b l m H F IH]; [intros []|]. intros [<-|I]; [exists a; cbn; auto|]. destruct (IH I) as (x & J & Q). exists x. cbn. auto. Qed.
Lemma lookup_holds n h c k : holds n h c ->
  holds n (h ++ [k]) (snd (lookup n c k)) /\
  ((exists x k', In x (lastn n (recent h)) /\ keq x k = true /\ In k' h /\ keq k' k = true /\ fst (lookup n c k) = Ret (fresh k')) \/
   ((forall x, In x (lastn n (recent h)) -> keq x k = false) /\ fst (lookup n c k) = Ret (fresh k))).
Proof.
  intros [F H]. unfold ModelSpec.lookup. destruct (find (fun e => keq (fst e) k) c) as [[k' r]|] eqn:Q.
  - apply find_some in Q as [I Q]. cbn in Q. destruct (H k' r I) as [-> J].
    destruct (Forall2_In_l _ _ _ k' F) as (x & X & P); [apply (in_map fst) in I; exact I|].
    assert (XK : keq x k = true) by (rewrite <- (keq_l k' x k P); exact Q).
    split.
    + split.
      * cbn [snd]. rewrite recent_snoc, (hit_list n (recent h) k x (recent_distinct h) X XK), map_app, map_filter_fst. apply Forall2_app; [apply Forall2_filter_k; exact F|].
        constructor; [exact Q|constructor].
      * intros a b I'. cbn [snd] in I'. apply in_app_iff in I' as [I'|[I'|[]]].
        -- apply filter_In in I' as [I' _]. destruct (H a b I') as [-> ?]. split; [reflexivity|apply in_or_app; auto].
        -- injection I' as <- <-. split; [reflexivity|apply in_or_app; auto].
    + left. exists x, k'. cbn. auto.
  - assert (N : forall x, In x (lastn n (recent h)) -> keq x k = false).
    { intros x X. destruct (Forall2_In_r _ _ _ x F X) as (a & A & P). apply in_map_iff in A as ([a' r] & <- & A). apply (find_none _ _ Q) in A. cbn in *.
      rewrite <- (keq_l a' x k P). exact A. }
    rewrite evict_ok. cbn [fst snd]. split; [|right; auto]. split.
    + rewrite recent_snoc, (miss_list n (recent h) k N). unfold lastn at 1. rewrite <- (map_length fst). change (Forall2 (fun a b => keq a b = true) (map fst (skipn (length (map fst (c ++ [(k, fresh k)])) - n) (c ++ [(k, fresh k)]))) (lastn n (lastn n (recent h) ++ [k]))).
      rewrite <- skipn_map. apply (Forall2_lastn _ n). rewrite map_app. apply Forall2_app; [exact F|]. constructor; [apply krefl|constructor].
    + intros a b I. assert (In (a, b) (c ++ [(k, fresh k)])) as I'.
      { unfold lastn in I. rewrite <- (firstn_skipn (length (c ++ [(k, fresh k)]) - n) (c ++ [(k, fresh k)])). apply in_or_app. auto. }
      apply in_app_iff in I' as [I'|[I'|[]]].
      * destruct (H a b I') as [-> ?]. split; [reflexivity|apply in_or_app; auto].
      * injection I' as <- <-. split; [reflexivity|apply in_or_app; cbn; auto].
Qed.
Lemma run_holds n h : holds n h (run n h).
Proof.
  induction h as [|k h IH] using rev_ind; [split; [constructor|intros ? ? []]|]. unfold ModelSpec.run. rewrite fold_left_app. cbn [fold_left].
  apply (lookup_holds n h). exact IH.
Qed.
Lemma run_neg limit h : (limit < 0)%Z -> ModelSpec.run K R keq fresh limit h = [].
Proof.
  intros N. induction h as [|k h IH] using rev_ind; [reflexivity|]. unfold ModelSpec.run in *. rewrite fold_left_app. cbn [fold_left]. rewrite IH.
  unfold ModelSpec.lookup. cbn [find]. rewrite (evict_neg _ limit N). reflexivity.
Qed.
End Cache.
