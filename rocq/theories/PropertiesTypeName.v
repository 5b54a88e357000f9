(** C99: types by name.

    Spec: a name denotes a type in a world if it is MODULE.NAME, NAME without dots, MODULE
    neither empty nor relative, and the module has that attribute and it is a type. *)
From Coq Require Import String Ascii.
From Coq Require Import List Bool Arith Lia.
From Verif Require Import PyBase PyFacts ModelTypeName.
Import ListNotations.
Open Scope list_scope.
Open Scope string_scope.
#[local] Arguments eqb : simpl never.

Definition without (c : ascii) (s : string) : Prop := forall a b, s <> a ++ String c b.
Definition relative (s : string) : Prop := exists r, s = "." ++ r.
Definition named (s m n : string) : Prop := s = m ++ "." ++ n /\ without "." n.

Definition denotes (w : world) (s : string) (t : class) : Prop :=
  exists m n attrs, named s m n /\ m <> "" /\ ~ relative m /\ w m = Module attrs /\ attrs n = IsType t.

(** Among the calls up to the k-th, the first that names a type by s in its world finds t. *)
Definition first_found (h : list (world * input)) (k : nat) (s : string) (t : class) : Prop :=
  exists j w, j <= k /\ nth_error h j = Some (w, Str s) /\ denotes w s t /\
    forall i w' t', i < j -> nth_error h i = Some (w', Str s) -> ~ denotes w' s t'.

Lemma without_nil c : without c "".
Proof. intros [|] b H; discriminate. Qed.

Lemma without_cons c d s : without c (String d s) <-> d <> c /\ without c s.
Proof.
  split.
  - intros H; split.
    + intros ->. apply (H "" s); reflexivity.
    + intros a b ->. apply (H (String d a) b); reflexivity.
  - intros [Hd Hs] [|x a] b E; cbn in E; injection E as E1 E2; [congruence|exact (Hs _ _ E2)].
Qed.

Lemma rsplit_none s : rsplit s = None <-> without "." s.
Proof.
  induction s as [|d s IH]; cbn.
  - split; [intros _; apply without_nil|reflexivity].
  - rewrite without_cons. destruct (rsplit s) as [[a b]|].
    + split; [discriminate|]. intros [_ H]. apply IH in H. discriminate.
    + destruct (Ascii.eqb_spec d "."); split; try discriminate; try tauto.
Qed.

Lemma rsplit_some s m n : rsplit s = Some (m, n) <-> named s m n.
Proof.
  unfold named. revert m n. induction s as [|d s IH]; intros m n; cbn.
  - split; [discriminate|]. intros [H _]. destruct m; discriminate.
  - destruct (rsplit s) as [[a b]|] eqn:E.
    + destruct (proj1 (IH a b) eq_refl) as [E1 E2]. split.
      * intros [= <- <-]. subst s. split; [reflexivity|exact E2].
      * intros [H1 H2]. destruct m as [|x m]; cbn in H1; injection H1 as H3 H4.
        -- exfalso. subst. exact (H2 _ _ eq_refl).
        -- assert (H : Some (a, b) = Some (m, n)) by (apply IH; split; assumption).
           injection H as <- <-. subst. reflexivity.
    + pose proof (proj1 (rsplit_none s) E) as Hs. destruct (Ascii.eqb_spec d ".") as [->|Hd]; split.
      * intros [= <- <-]. split; [reflexivity|exact Hs].
      * intros [H1 H2]. destruct m as [|x m]; cbn in H1; injection H1; [intros ->; reflexivity|intros H4 H3].
        exfalso. exact (Hs _ _ H4).
      * discriminate.
      * intros [H1 H2]. destruct m as [|x m]; cbn in H1; injection H1 as H3 H4; [congruence|].
        exfalso. exact (Hs _ _ H4).
Qed.

Lemma import_ok w m attrs :
  import_module w m = Module attrs <-> m <> "" /\ ~ relative m /\ w m = Module attrs.
Proof.
  unfold import_module, relative. destruct m as [|d m].
  - split; [discriminate|]. intros [H _]. congruence.
  - destruct (Ascii.eqb_spec d ".") as [->|Hd].
    + split; [discriminate|]. intros (_ & H & _). exfalso. apply H. exists m. reflexivity.
    + split; [|tauto]. intros H. split; [discriminate|]. split; [|exact H].
      intros [r E]. cbn in E. congruence.
Qed.

Lemma load_miss w s c :
  dget s c = None ->
  (exists t, denotes w s t /\ load w (Str s) c = (Got t, dset s t c)) \/
  ((forall t, ~ denotes w s t) /\ exists e, load w (Str s) c = (Err e, c)).
Proof.
  intros Hc. unfold load. rewrite Hc. destruct (rsplit s) as [[m n]|] eqn:E.
  - pose proof (proj1 (rsplit_some s m n) E) as Hn.
    assert (U : forall t, denotes w s t -> exists attrs,
        import_module w m = Module attrs /\ attrs n = IsType t).
    { intros t (m' & n' & attrs & H1 & H2 & H3 & H4 & H5).
      apply rsplit_some in H1. rewrite E in H1. injection H1 as <- <-.
      exists attrs. split; [apply import_ok; auto|exact H5]. }
    destruct (import_module w m) as [attrs|e] eqn:I.
    + destruct (attrs n) as [t| |e] eqn:A.
      * left. exists t. split; [|reflexivity]. apply import_ok in I. destruct I as (I1 & I2 & I3).
        exists m, n, attrs. auto.
      * right. split; [|eauto]. intros t H. destruct (U t H) as (a & [= <-] & H2). congruence.
      * right. split; [|eauto]. intros t H. destruct (U t H) as (a & [= <-] & H2). congruence.
    + right. split; [|eauto]. intros t H. destruct (U t H) as (a & H1 & _). discriminate.
  - right. split; [|eauto]. intros t (m & n & attrs & H & _).
    apply rsplit_some in H. congruence.
Qed.

Lemma denotes_fun w s t t' : denotes w s t -> denotes w s t' -> t = t'.
Proof.
  intros (m & n & a & H1 & _ & _ & H2 & H3) (m' & n' & a' & H1' & _ & _ & H2' & H3').
  apply rsplit_some in H1, H1'. congruence.
Qed.

(** Without an earlier success the name gives exactly the type it denotes. *)
Theorem C99_fresh : forall w s c t,
  dget s c = None -> (fst (load w (Str s) c) = Got t <-> denotes w s t).
Proof.
  intros w s c t Hc. destruct (load_miss w s c Hc) as [(t' & H & E)|(H & e & E)]; rewrite E; cbn.
  - split; [intros [= <-]; exact H|]. intros H'. f_equal. exact (denotes_fun _ _ _ _ H H').
  - split; [discriminate|]. intros H'. destruct (H _ H').
Qed.

Lemma load_hit w s c t : dget s c = Some t -> load w (Str s) c = (Got t, c).
Proof. intros H. unfold load. rewrite H. reflexivity. Qed.

(** A call changes nothing for other names. *)
Lemma load_other w i c s : i <> Str s -> dget s (snd (load w i c)) = dget s c.
Proof.
  intros H. destruct i as [s'| |]; try reflexivity.
  destruct (dget s' c) as [t|] eqn:E.
  - rewrite (load_hit _ _ _ _ E). reflexivity.
  - destruct (load_miss w s' c E) as [(t & _ & ->)|(_ & e & ->)]; cbn; [|reflexivity].
    apply dget_dset_other. congruence.
Qed.

Lemma input_str_dec (i : input) s : i = Str s \/ i <> Str s.
Proof.
  destruct i as [s'| |]; [|right; discriminate..].
  destruct (string_dec s' s); [left; congruence|right; congruence].
Qed.

Lemma first_found_skip w i h k s t :
  (i = Str s -> forall t', ~ denotes w s t') ->
  first_found ((w, i) :: h) (S k) s t <-> first_found h k s t.
Proof.
  intros Hno. split.
  - intros ([|j] & w' & H1 & H2 & H3 & H4).
    + cbn in H2. injection H2 as -> ->. destruct (Hno eq_refl _ H3).
    + exists j, w'. split; [lia|]. split; [exact H2|]. split; [exact H3|].
      intros i' w'' t' Hi. apply (H4 (S i')). lia.
  - intros (j & w' & H1 & H2 & H3 & H4). exists (S j), w'.
    split; [lia|]. split; [exact H2|]. split; [exact H3|].
    intros [|i'] w'' t' Hi H; cbn in H.
    + injection H as -> ->. apply Hno; reflexivity.
    + apply (H4 i' w''); [lia|exact H].
Qed.

Lemma first_found_now w h k s t t' :
  denotes w s t -> first_found ((w, Str s) :: h) k s t' <-> t = t'.
Proof.
  intros H. split.
  - intros ([|j] & w' & H1 & H2 & H3 & H4).
    + cbn in H2. injection H2 as <-. exact (denotes_fun _ _ _ _ H H3).
    + destruct (H4 0 w t ltac:(lia) eq_refl H).
  - intros <-. exists 0, w. split; [lia|]. split; [reflexivity|]. split; [exact H|].
    intros i w' t' Hi. lia.
Qed.

Lemma calls_gen h : forall c k w s t,
  nth_error h k = Some (w, Str s) ->
  (nth_error (fst (calls h c)) k = Some (Got t) <->
   dget s c = Some t \/ (dget s c = None /\ first_found h k s t)).
Proof.
  induction h as [|[w0 i0] h IH]; intros c k w s t Hk; [destruct k; discriminate|].
  cbn [calls]. destruct (load w0 i0 c) as [r c1] eqn:L.
  destruct (calls h c1) as [rs c2] eqn:Q. cbn [fst].
  destruct (input_str_dec i0 s) as [->|Hi].
  - destruct (dget s c) as [t0|] eqn:D.
    + rewrite (load_hit _ _ _ _ D) in L. injection L as <- <-.
      destruct k as [|k]; cbn [nth_error].
      * split; [intros [= <-]; left; reflexivity|intros [[= <-]|[? _]]; [reflexivity|discriminate]].
      * pose proof (IH c k w s t Hk) as G. rewrite Q, D in G. cbn [fst] in G. rewrite G.
        split; intros [H|[H _]]; try discriminate; left; exact H.
    + destruct (load_miss w0 s c D) as [(t0 & H & E)|(H & e & E)];
        rewrite E in L; injection L as <- <-.
      * rewrite (first_found_now _ _ k _ _ t H). destruct k as [|k]; cbn [nth_error].
        -- split; [intros [= <-]; right; auto|intros [?|[_ <-]]; [discriminate|reflexivity]].
        -- pose proof (IH (dset s t0 c) k w s t Hk) as G. rewrite Q, dget_dset_same in G. cbn [fst] in G. rewrite G.
           split; intros [H1|[H1 H2]]; try discriminate.
           ++ injection H1 as <-. right; auto.
           ++ subst. left. reflexivity.
      * destruct k as [|k]; cbn [nth_error].
        -- split; [discriminate|]. intros [?|[_ (j & w' & H1 & H2 & H3 & _)]]; [discriminate|].
           assert (j = 0) as -> by lia. cbn in H2. injection H2 as <-. destruct (H _ H3).
        -- pose proof (IH c k w s t Hk) as G. rewrite Q, D in G. cbn [fst] in G. rewrite G.
           rewrite (first_found_skip w0 (Str s) h k s t (fun _ => H)). reflexivity.
  - destruct k as [|k]; cbn in Hk.
    + injection Hk as -> ->. congruence.
    + pose proof (IH c1 k w s t Hk) as G. rewrite Q in G. cbn [fst nth_error] in *. rewrite G.
      assert (D : dget s c1 = dget s c).
      { rewrite <- (load_other w0 i0 c s Hi), L. reflexivity. }
      rewrite D, (first_found_skip w0 i0 h k s t); [reflexivity|]. intros ->; congruence.
Qed.

(** In a process, the call gives the type found by the first successful call of that name;
    failures leave no trace. *)
Theorem C99_history : forall h k w s t,
  nth_error h k = Some (w, Str s) ->
  (nth_error (fst (calls h [])) k = Some (Got t) <-> first_found h k s t).
Proof.
  intros h k w s t Hk. rewrite (calls_gen h [] k w s t Hk). cbn.
  split; [intros [?|[_ H]]; [discriminate|exact H]|auto].
Qed.

(** In a world that does not change, what was called before does not matter. *)
Theorem C99_constant : forall w is k s t,
  nth_error is k = Some (Str s) ->
  (nth_error (fst (calls (map (pair w) is) [])) k = Some (Got t) <-> denotes w s t).
Proof.
  intros w is k s t Hk.
  rewrite (C99_history _ k w s t) by (rewrite (map_nth_error _ _ _ Hk); reflexivity).
  split.
  - intros (j & w' & _ & H2 & H3 & _). destruct (nth_error is j) as [i|] eqn:E.
    + rewrite (map_nth_error _ _ _ E) in H2. injection H2 as <- _. exact H3.
    + assert (N : nth_error (map (pair w) is) j = None).
      { apply nth_error_None. rewrite map_length. apply nth_error_None. exact E. }
      congruence.
  - intros H. revert k Hk. induction is as [|i is IH]; intros k Hk; [destruct k; discriminate|].
    destruct (input_str_dec i s) as [->|Hi]; [cbn [map]; apply (first_found_now w (map (pair w) is) k s t t H); reflexivity|].
    destruct k as [|k]; cbn in Hk; [congruence|]. cbn [map].
    apply first_found_skip; [congruence|]. apply IH. exact Hk.
Qed.

Definition caught (e : err) : Prop := e = EValue \/ e = EImport \/ e = EAttribute.

(** Which exceptions can come out. *)
Theorem C99_errors : forall w i c e,
  fst (load w i c) = Err e -> e <> EValue ->
  (e = EType /\ i = Unhashable) \/
  exists s m n, i = Str s /\ named s m n /\
    ((e = EType /\ relative m) \/
     (~ caught e /\ w m = NoModule e) \/
     (~ caught e /\ exists attrs, w m = Module attrs /\ attrs n = NoAttr e)).
Proof.
  assert (W : forall e e', wrap e = e' -> e' <> EValue -> e = e' /\ ~ caught e').
  { intros e e' <- H. unfold caught. destruct e; cbn in *; try congruence;
      (split; [reflexivity|intros [?|[?|?]]; discriminate]). }
  intros w i c e H He. destruct i as [s| |]; cbn in H; try (injection H as <-; auto; congruence).
  right. destruct (dget s c); [discriminate|].
  destruct (rsplit s) as [[m n]|] eqn:E; [|cbn in H; congruence].
  exists s, m, n. split; [reflexivity|]. split; [apply rsplit_some; exact E|].
  destruct (import_module w m) as [attrs|e0] eqn:I.
  - apply import_ok in I. destruct I as (_ & _ & I).
    destruct (attrs n) as [t| |e0] eqn:A; cbn in H; [discriminate|congruence|injection H as H].
    destruct (W _ _ H He) as [-> Hc]. right; right. eauto.
  - cbn in H. injection H as H. destruct (W _ _ H He) as [-> Hc].
    unfold import_module in I. destruct m as [|d m]; [congruence|].
    destruct (Ascii.eqb_spec d ".") as [->|Hd]; [|auto].
    left. split; [congruence|]. exists m. reflexivity.
Qed.

(** What a module raises while it is imported, or its __getattr__ raises, comes out as it is unless
    it is ValueError, ImportError or AttributeError; those come out as ValueError. *)
Theorem C99_leak : forall w s m n c e,
  dget s c = None -> named s m n -> m <> "" -> ~ relative m ->
  w m = NoModule e \/ (exists attrs, w m = Module attrs /\ attrs n = NoAttr e) ->
  exists e', fst (load w (Str s) c) = Err e' /\ (caught e -> e' = EValue) /\ (~ caught e -> e' = e).
Proof.
  intros w s m n c e Hc Hn Hm Hr H. apply rsplit_some in Hn. exists (wrap e). split.
  - unfold load. rewrite Hc, Hn. unfold import_module. destruct m as [|d m]; [congruence|].
    destruct (Ascii.eqb_spec d ".") as [->|Hd]; [exfalso; apply Hr; exists m; reflexivity|].
    destruct H as [->|(attrs & -> & ->)]; reflexivity.
  - unfold caught. destruct e; cbn; split; auto; intros H'; try (exfalso; tauto);
      destruct H' as [?|[?|?]]; discriminate.
Qed.

(** The documented error is not the only one: a relative name and an unhashable argument raise
    TypeError, and a module may raise anything while it is imported. *)
Theorem C99_value_error_refuted :
  ~ (forall w i c e, fst (load w i c) = Err e -> e = EValue) /\
  (forall w m n c, dget ("." ++ m ++ "." ++ n) c = None -> without "." n ->
     fst (load w (Str ("." ++ m ++ "." ++ n)) c) = Err EType) /\
  (forall w c, fst (load w Unhashable c) = Err EType).
Proof.
  split; [|split].
  - intros H. specialize (H (fun _ => NoModule EValue) Unhashable [] EType eq_refl). discriminate.
  - intros w m n c Hc Hn. unfold load. rewrite Hc.
    assert (E : rsplit ("." ++ m ++ "." ++ n) = Some ("." ++ m, n)).
    { apply rsplit_some. split; [reflexivity|exact Hn]. }
    rewrite E. reflexivity.
  - reflexivity.
Qed.

(** A failed call changes nothing; a successful one only what its own name gives. *)
Theorem C99_failure_forgotten : forall w i c e,
  fst (load w i c) = Err e -> snd (load w i c) = c.
Proof.
  intros w i c e. destruct i as [s| |]; try reflexivity.
  destruct (dget s c) as [t|] eqn:D; [rewrite (load_hit _ _ _ _ D); discriminate|].
  destruct (load_miss w s c D) as [(t & _ & ->)|(_ & e' & ->)]; [discriminate|reflexivity].
Qed.

(** After a reload the old class is returned, not the one the name denotes. *)
Theorem C99_reload_refuted :
  ~ (forall h k w s t, nth_error h k = Some (w, Str s) -> denotes w s t ->
       nth_error (fst (calls h [])) k = Some (Got t)).
Proof.
  intros H.
  pose (w := fun (t : class) (m : string) =>
    if String.eqb m "app" then Module (fun n => if String.eqb n "Task" then IsType t else NoAttr EAttribute)
    else NoModule EImport).
  specialize (H [(w 1, Str "app.Task"); (w 2, Str "app.Task")] 1 (w 2) "app.Task" 2 eq_refl).
  assert (D : denotes (w 2) "app.Task" 2).
  { apply (C99_fresh _ _ []); reflexivity. }
  specialize (H D). cbn in H. discriminate.
Qed.

Lemma before_bracket_id s : without "[" s -> before_bracket s = s.
Proof.
  induction s as [|d s IH]; intros H; [reflexivity|]. apply without_cons in H. destruct H as [Hd H].
  cbn. destruct (Ascii.eqb_spec d "["); [contradiction|]. rewrite IH by exact H. reflexivity.
Qed.

Lemma before_bracket_cut a b : without "[" a -> before_bracket (a ++ String "[" b) = a.
Proof.
  induction a as [|d a IH]; intros H; [reflexivity|]. apply without_cons in H. destruct H as [Hd H].
  cbn. destruct (Ascii.eqb_spec d "["); [contradiction|]. rewrite IH by exact H. reflexivity.
Qed.

(** The full class name of a top-level class leads back to it ... *)
Theorem C99_class_name : forall w m q attrs t c,
  m <> "" -> ~ relative m -> without "." q -> without "[" q ->
  w m = Module attrs -> attrs q = IsType t -> dget (class_name m q) c = None ->
  fst (load w (Str (class_name m q)) c) = Got t.
Proof.
  intros w m q attrs t c H1 H2 H3 H4 H5 H6 Hc. apply C99_fresh; [exact Hc|].
  unfold class_name. rewrite before_bracket_id by exact H4.
  exists m, q, attrs. repeat split; auto.
Qed.

(** ... that of a parametrised class Q[ARGS] leads to Q ... *)
Theorem C99_generic : forall w m q args attrs t c,
  m <> "" -> ~ relative m -> without "." q -> without "[" q ->
  w m = Module attrs -> attrs q = IsType t -> dget (class_name m q) c = None ->
  fst (load w (Str (class_name m (q ++ "[" ++ args))) c) = Got t.
Proof.
  intros w m q args attrs t c H1 H2 H3 H4 H5 H6 Hc.
  assert (E : class_name m (q ++ "[" ++ args) = class_name m q).
  { unfold class_name. cbn [append]. rewrite before_bracket_cut, before_bracket_id by exact H4. reflexivity. }
  rewrite E. eapply C99_class_name; eauto.
Qed.

(** ... and that of a nested class OUTER.INNER is looked up in a module MODULE.OUTER, so it fails
    unless there is such a module. *)
Theorem C99_nested : forall w m outer inner c,
  m <> "" -> ~ relative m -> without "[" (outer ++ "." ++ inner) -> without "." inner ->
  w (m ++ "." ++ outer) = NoModule EImport ->
  dget (class_name m (outer ++ "." ++ inner)) c = None ->
  fst (load w (Str (class_name m (outer ++ "." ++ inner))) c) = Err EValue.
Proof.
  intros w m outer inner c H1 H2 H3 H4 H5 Hc. unfold load. rewrite Hc.
  assert (A : forall a b d, (a ++ b) ++ d = a ++ (b ++ d)).
  { induction a as [|x a IH]; intros; cbn; [|rewrite IH]; reflexivity. }
  assert (E : rsplit (class_name m (outer ++ "." ++ inner)) = Some (m ++ "." ++ outer, inner)).
  { apply rsplit_some. split; [|exact H4]. unfold class_name. rewrite before_bracket_id by exact H3.
    rewrite !A. reflexivity. }
  rewrite E. unfold import_module. destruct m as [|d m]; [congruence|].
  cbn [append] in *. destruct (Ascii.eqb_spec d ".") as [->|Hd].
  - exfalso. apply H2. exists m. reflexivity.
  - rewrite H5. reflexivity.
Qed.

(** extract_types: membership and no repetition. *)
Definition mentions (t : texpr) (c : class) : Prop :=
  match t with One c' => c = c' | Union cs => In c cs end.
Definition asked (a : targ) (c : class) : Prop :=
  match a with Expr t => mentions t c | TList ts | TSet ts => exists t, In t ts /\ mentions t c end.

Lemma sadd_spec c s : NoDup s -> NoDup (sadd c s) /\ forall x, In x (sadd c s) <-> In x s \/ x = c.
Proof.
  intros H. unfold sadd. destruct (memb c s) eqn:E.
  - apply memb_In in E. split; [exact H|]. intros x. split; [auto|]. intros [?| ->]; assumption.
  - apply memb_notIn in E. split.
    + apply (NoDup_Add (Add_app c s [])); rewrite app_nil_r; split; assumption.
    + intros x. rewrite in_app_iff. cbn. intuition congruence.
Qed.

Lemma supdate_spec cs : forall s, NoDup s ->
  NoDup (supdate cs s) /\ forall x, In x (supdate cs s) <-> In x s \/ In x cs.
Proof.
  unfold supdate. induction cs as [|c cs IH]; intros s H; cbn.
  - split; [exact H|]. tauto.
  - destruct (sadd_spec c s H) as [H1 H2]. destruct (IH _ H1) as [H3 H4]. split; [exact H3|].
    intros x. rewrite H4, H2. intuition congruence.
Qed.

Lemma extract_fold ts : forall s, NoDup s ->
  NoDup (fold_left extract_one ts s) /\
  forall x, In x (fold_left extract_one ts s) <-> In x s \/ exists t, In t ts /\ mentions t x.
Proof.
  induction ts as [|t ts IH]; intros s H; cbn [fold_left].
  - split; [exact H|]. intros x. split; [auto|]. intros [?|(t & [] & _)]. assumption.
  - assert (G : NoDup (extract_one s t) /\ forall x, In x (extract_one s t) <-> In x s \/ mentions t x).
    { destruct t as [c|cs]; [apply sadd_spec; exact H|apply supdate_spec; exact H]. }
    destruct G as [G1 G2]. destruct (IH _ G1) as [G3 G4]. split; [exact G3|].
    intros x. rewrite G4, G2. cbn [In]. split.
    + intros [[?|?]|(t' & ? & ?)]; eauto 6.
    + intros [?|(t' & [<-|?] & ?)]; eauto 6.
Qed.

Theorem C99_extract : forall a,
  NoDup (extract_types a) /\ forall c, In c (extract_types a) <-> asked a c.
Proof.
  intros [[c|cs]|ts|ts]; cbn [extract_types asked mentions].
  - split; [repeat constructor; intros []|]. intros x. cbn. intuition congruence.
  - destruct (supdate_spec cs [] (NoDup_nil _)) as [H1 H2]. split; [exact H1|].
    intros x. rewrite H2. cbn. tauto.
  - destruct (extract_fold ts [] (NoDup_nil _)) as [H1 H2]. split; [exact H1|].
    intros x. rewrite H2. cbn. tauto.
  - destruct (extract_fold ts [] (NoDup_nil _)) as [H1 H2]. split; [exact H1|].
    intros x. rewrite H2. cbn. tauto.
Qed.

Module Ex.
  Definition w0 : world := fun m =>
    if String.eqb m "app.models"
    then Module (fun n => if String.eqb n "Task" then IsType 7
                          else if String.eqb n "limit" then NotType else NoAttr EAttribute)
    else if String.eqb m "broken" then NoModule (EOther 3) else NoModule EImport.
  Definition gone : world := fun _ => NoModule EImport.
  Example history :
    fst (calls [(gone, Str "app.models.Task"); (w0, Str "app.models.Task"); (gone, Str "app.models.Task");
                (gone, Str "app.models.Other")] []) = [Err EValue; Got 7; Got 7; Err EValue].
  Proof. reflexivity. Qed.
  Example errors :
    map (fun s => fst (load w0 (Str s) [])) ["app.models.limit"; ".Task"; "..Task"; ".app.Task"; "broken.X"; "Task"; "app.models."] =
    [Err EValue; Err EValue; Err EType; Err EType; Err (EOther 3); Err EValue; Err EValue].
  Proof. reflexivity. Qed.
  Example names :
    (class_name "app.models" "Task[int]", fst (load w0 (Str (class_name "app.models" "Task[int]")) []),
     fst (load w0 (Str (class_name "app.models" "Task.Inner")) [])) =
    ("app.models.Task", Got 7, Err EValue).
  Proof. reflexivity. Qed.
  Example extract : extract_types (TList [One 1; Union [2; 1; 3]; One 3]) = [1; 2; 3].
  Proof. reflexivity. Qed.
End Ex.

Print Assumptions C99_fresh.
Print Assumptions C99_history.
Print Assumptions C99_constant.
Print Assumptions C99_errors.
Print Assumptions C99_leak.
Print Assumptions C99_value_error_refuted.
Print Assumptions C99_failure_forgotten.
Print Assumptions C99_reload_refuted.
Print Assumptions C99_class_name.
Print Assumptions C99_generic.
Print Assumptions C99_nested.
Print Assumptions C99_extract.
