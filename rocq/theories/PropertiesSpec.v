(** C65, C66, C67: field specifications, their collections, the cache of annotated types. *)
From Coq Require Import String.
From Coq Require Import List Bool Arith ZArith Lia.
From Verif Require Import PyBase PyFacts ModelParams ModelSpec SpecSpec ProofsSpec.
Import ListNotations.
Local Open Scope string_scope.
Local Open Scope nat_scope.
Local Open Scope list_scope.
#[local] Arguments eqb : simpl never.

Section Spec.
Variables (V T : Type) (tr : traits V) (valid_type : T -> bool) (teq : T -> T -> bool).
Notation pval := (pval V). Notation meta := (meta V). Notation spec := (spec V T).
Notation new_spec := (new_spec V T tr valid_type). Notation with_updates := (with_updates V T tr valid_type).
Notation with_default := (with_default V T tr valid_type).
Notation common_ok := (common_ok V tr). Notation good_name := (good_name V tr). Notation good_base := (good_base T valid_type).
Notation name := (name V T tr). Notation built := (built V T tr valid_type). Notation updated := (updated V T).
Notation create_default := (create_default V T tr). Notation acreate_default := (acreate_default V T tr).
Notation getitem := (getitem V T). Notation get := (get V T).
Notation new_operable := (new_operable V T tr). Notation oget := (oget V T tr). Notation get_specs := (get_specs V T tr teq).
Notation check_allowed := (check_allowed V T tr).
Notation annotation := (annotation V T tr). Notation fresh_annotated := (fresh_annotated V T tr). Notation spec_eq := (spec_eq V T tr teq).

(** * C65 *)
(** Construction keeps the metadata of all sources in order, under pairwise distinct keys; the errors. *)
Theorem C65_construct b (metadata args kw : list meta) :
  let l := metadata ++ args ++ kw in
  let at_key k := dget k l in
  let r := new_spec b metadata args kw in
  (forall s, r = Ret s <-> NoDup (map fst l) /\ common_ok at_key /\ good_name at_key /\ good_base b /\ s_base s = b /\ s_meta s = l) /\
  (r = Raise ExceptionGroupErr <-> NoDup (map fst l) /\ ~ common_ok at_key) /\
  (r = Raise ValueError <-> ~ NoDup (map fst l) \/ (common_ok at_key /\ ~ (good_name at_key /\ good_base b))) /\
  (forall e, r = Raise e -> e = ExceptionGroupErr \/ e = ValueError).
Proof.
  intros l at_key r.
  destruct (new_spec_cases V T tr valid_type b metadata args kw) as [(N & X)|[(N & C & X)|[(N & C & G & X)|(N & C & G & B & X)]]]; fold l in N; fold r in X; rewrite X; change (fun k : string => dget k (metadata ++ args ++ kw)) with at_key in *.
  - repeat split; try discriminate; try tauto; try (intros (N' & _); contradiction). intros e E. injection E as <-. auto.
  - repeat split; try discriminate; try tauto; try (intros (_ & C' & _); contradiction). intros e E. injection E as <-. auto.
  - repeat split; try discriminate; try tauto. intros e E. injection E as <-. auto.
  - split; [|repeat split; try discriminate; tauto]. intros s. split.
    + intros E. injection E as <-. cbn. auto 10.
    + intros (_ & _ & _ & _ & E1 & E2). destruct s as [b' l']. cbn in E1, E2. subst. reflexivity.
Qed.
(** Reading. *)
Theorem C65_get s k d : (forall v, getitem s k = Ret v -> get s k d = v /\ In (k, v) (s_meta s)) /\
  (getitem s k = Raise KeyError <-> ~ In k (map fst (s_meta s))) /\
  (~ In k (map fst (s_meta s)) -> get s k d = d) /\
  (built s -> forall v, In (k, v) (s_meta s) -> getitem s k = Ret v).
Proof.
  unfold ModelSpec.get, ModelSpec.getitem. pose proof (dget_None k (s_meta s)) as NONE. unfold dkeys in NONE. destruct (dget k (s_meta s)) as [v|] eqn:G.
  - apply dget_In in G. split; [intros w E; injection E as <-; auto|]. assert (In k (map fst (s_meta s))) as I by (apply (in_map fst) in G; exact G).
    split; [split; [discriminate|tauto]|]. split; [tauto|]. intros B w J. apply (built_ok V T tr valid_type) in B as (N & _). f_equal.
    apply (In_dget _ _ _ N) in G. apply (In_dget _ _ _ N) in J. congruence.
  - split; [discriminate|]. split; [split; [intros _; apply NONE; reflexivity|reflexivity]|]. split; [reflexivity|]. intros _ w J. exfalso.
    apply (proj1 NONE eq_refl). apply (in_map fst) in J. exact J.
Qed.
(** with_updates sets the given keys, removes those given a sentinel and keeps the others; it fails
    exactly if the outcome is not a valid specification. *)
Theorem C65_updates s kw :
  built s -> NoDup (map fst kw) ->
  let r := with_updates s kw in
  (forall s', r = Ret s' -> built s' /\ s_base s' = s_base s /\
     (forall k, getitem s' k = match updated s kw k with Some v => Ret v | None => Raise KeyError end) /\
     exists a b, s_meta s' = a ++ b /\ sublist a (s_meta s) /\ sublist b kw) /\
  ((exists s', r = Ret s') <-> common_ok (updated s kw) /\ good_name (updated s kw)) /\
  (r = Raise ExceptionGroupErr <-> ~ common_ok (updated s kw)) /\
  (r = Raise ValueError <-> common_ok (updated s kw) /\ ~ good_name (updated s kw)).
Proof.
  intros B M r. pose proof B as B'. apply (built_ok V T tr valid_type) in B' as (N & _ & _ & GB).
  assert (UP : forall s', r = Ret s' -> built s') by (intros s' E; exists (s_base s), (upd V T s kw), [], []; exact E).
  destruct (with_updates_cases V T tr valid_type s kw N M GB) as [(X & R)|[(X & Y & R)|(X & Y & R)]]; fold r in R; rewrite R in *.
  - split; [discriminate|]. split; [split; [intros (s' & E); discriminate|tauto]|]. split; [tauto|]. split; [discriminate|tauto].
  - split; [discriminate|]. split; [split; [intros (s' & E); discriminate|tauto]|]. split; [split; [discriminate|tauto]|tauto].
  - split; [|split; [split; [tauto|eauto]|split; split; try discriminate; tauto]]. intros s' E. split; [apply UP; exact E|]. injection E as <-. cbn [s_base s_meta]. split; [reflexivity|]. split.
    + intros k. unfold ModelSpec.getitem. cbn [s_meta]. rewrite (dget_upd V T s kw k M). reflexivity.
    + eexists _, _. split; [reflexivity|]. split; apply sublist_filter.
Qed.
(** Default values: with at most one of default and default_factory. *)
Theorem C65_default s :
  let d := dget "default" (s_meta s) in let f := dget "default_factory" (s_meta s) in
  (d = None -> f = None -> create_default s = Raise ValueError /\ acreate_default s = Raise ValueError) /\
  (forall x, d = Some (PV x) -> f = None -> create_default s = Ret (PV x) /\ acreate_default s = Ret (PV x)) /\
  (forall x, d = None -> f = Some (PV x) -> callable tr x = true -> async tr x = false ->
     create_default s = pcall V tr (PV x) /\ acreate_default s = pcall V tr (PV x)) /\
  (forall x, d = None -> f = Some (PV x) -> callable tr x = true -> async tr x = true ->
     create_default s = Raise ValueError /\ acreate_default s = pcall V tr (PV x)) /\
  (forall x, d = None -> f = Some (PV x) -> callable tr x = false -> create_default s = Ret (PV x)).
Proof.
  intros d f. unfold d, f. unfold ModelSpec.acreate_default, ModelSpec.create_default, default, has_async, has_factory, ModelSpec.get, ModelSpec.getitem. split; [|split; [|split; [|split]]].
  - intros -> ->. auto.
  - intros x -> ->. cbn. auto.
  - intros x -> -> C A. cbn. rewrite C, A. cbn. auto.
  - intros x -> -> C A. cbn. rewrite C, A. cbn. auto.
  - intros x -> -> C. cbn. rewrite C. reflexivity.
Qed.
(** With both (a built specification allows it if one of them is falsy), the default is called. *)
Theorem C65_both s d g :
  dget "default" (s_meta s) = Some d -> d <> Undefined -> (forall x, d = PV x -> callable tr x = false) ->
  dget "default_factory" (s_meta s) = Some (PV g) -> callable tr g = true ->
  acreate_default s = Raise TypeError /\ create_default s = Raise (if async tr g then ValueError else TypeError).
Proof.
  intros D U X F G. unfold ModelSpec.acreate_default, ModelSpec.create_default, default, has_async, has_factory, ModelSpec.get, ModelSpec.getitem.
  rewrite D, F. cbn. rewrite G. destruct d as [| |x]; [destruct (U eq_refl)| |specialize (X x eq_refl)]; cbn; rewrite ?X; destruct (async tr g); auto.
Qed.
(** with_default gives the default, if the specification has no default of the other kind. *)
Theorem C65_with_default s x :
  built s ->
  (callable tr x = false -> dget "default_factory" (s_meta s) = None ->
     exists s', with_default s (PV x) = Ret s' /\ create_default s' = Ret (PV x)) /\
  (callable tr x = true -> async tr x = false -> dget "default" (s_meta s) = None ->
     exists s', with_default s (PV x) = Ret s' /\ create_default s' = pcall V tr (PV x)).
Proof.
  intros B. unfold ModelSpec.with_default. pose proof (built_ok V T tr valid_type s B) as (N & [C1 C2 C3 C4] & G & GB).
  split; intros C; [intros F|intros A D]; cbn [pcallable]; rewrite C.
  - pose proof (C65_updates s [("default", PV x)] B ltac:(repeat constructor; intros [])) as (U & OK & _).
    assert (UV : forall k, k <> "default" -> updated s [("default", PV x)] k = dget k (s_meta s)).
    { intros k K. unfold SpecSpec.updated. cbn. destruct (eqb_spec k "default"); [congruence|reflexivity]. }
    assert (UD : updated s [("default", PV x)] "default" = Some (PV x)) by reflexivity.
    assert (exists s', with_updates s [("default", PV x)] = Ret s') as (s' & E).
    { apply OK. split; [split|]; intros *; rewrite ?UD, ?(UV "default_factory"), ?(UV "validator") by discriminate; eauto.
      1: rewrite F; discriminate.
      all: unfold SpecSpec.good_name; intros w; rewrite (UV "name") by discriminate; apply G. }
    exists s'. split; [exact E|]. destruct (U s' E) as (_ & _ & GI & _). destruct (C65_default s') as (_ & D1 & _). apply (D1 x).
    + specialize (GI "default"). rewrite UD in GI. unfold ModelSpec.getitem in GI. destruct (dget "default" (s_meta s')); [injection GI as ->; reflexivity|discriminate].
    + specialize (GI "default_factory"). rewrite UV, F in GI by discriminate. unfold ModelSpec.getitem in GI. destruct (dget "default_factory" (s_meta s')); [discriminate|reflexivity].
  - pose proof (C65_updates s [("default_factory", PV x)] B ltac:(repeat constructor; intros [])) as (U & OK & _).
    assert (UV : forall k, k <> "default_factory" -> updated s [("default_factory", PV x)] k = dget k (s_meta s)).
    { intros k K. unfold SpecSpec.updated. cbn. destruct (eqb_spec k "default_factory"); [congruence|reflexivity]. }
    assert (UD : updated s [("default_factory", PV x)] "default_factory" = Some (PV x)) by reflexivity.
    assert (exists s', with_updates s [("default_factory", PV x)] = Ret s') as (s' & E).
    { apply OK. split; [split|]; intros *; rewrite ?UD, ?(UV "default"), ?(UV "validator") by discriminate; eauto.
      1: rewrite D; discriminate.
      1: intros E _; injection E as <-; exists x; auto.
      all: unfold SpecSpec.good_name; intros w; rewrite (UV "name") by discriminate; apply G. }
    exists s'. split; [exact E|]. destruct (U s' E) as (_ & _ & GI & _). destruct (C65_default s') as (_ & _ & D1 & _). apply (D1 x); [| |exact C|exact A].
    + specialize (GI "default"). rewrite UV, D in GI by discriminate. unfold ModelSpec.getitem in GI. destruct (dget "default" (s_meta s')); [discriminate|reflexivity].
    + specialize (GI "default_factory"). rewrite UD in GI. unfold ModelSpec.getitem in GI. destruct (dget "default_factory" (s_meta s')); [injection GI as ->; reflexivity|discriminate].
Qed.
(** The metadata as a dict: exactly the entries whose key is not left out, in order. *)
Theorem C65_metadict s excl c k v :
  (In (k, v) (metadict V T s excl c) <-> In (k, v) (s_meta s) /\ ~ In k excl /\ (c = true -> ~ In k ["name"; "nullable"; "listable"; "validator"; "default"; "default_factory"])) /\
  sublist (metadict V T s excl c) (s_meta s).
Proof.
  split; [|apply sublist_filter]. unfold metadict. rewrite filter_In. cbn [fst]. rewrite negb_true_iff, existsb_str_f, in_app_iff. destruct c; fold common; [tauto|]. cbn [In]. split; [|tauto]. intros (A & B). split; [exact A|]. split; [tauto|discriminate].
Qed.

(** The annotation: Any without a type; else the type, a list of it if listable is True, or None if
    nullable is True. *)
Theorem C65_annotation s :
  let flag k := exists x, dget k (s_meta s) = Some (PV x) /\ is_true tr x = true in
  (s_base s = None -> annotation s = AnyT) /\
  (forall t, s_base s = Some t ->
     (~ flag "listable" -> ~ flag "nullable" -> annotation s = Ty t) /\ (flag "listable" -> ~ flag "nullable" -> annotation s = ListOf (Ty t)) /\
     (~ flag "listable" -> flag "nullable" -> annotation s = OrNone (Ty t)) /\ (flag "listable" -> flag "nullable" -> annotation s = OrNone (ListOf (Ty t)))).
Proof.
  intros flag.
  assert (L : is_listable V T tr s = true <-> flag "listable").
  { unfold is_listable, ModelSpec.get, ModelSpec.getitem, flag. destruct (dget "listable" (s_meta s)) as [[| |x]|];
    (split; [intros H; try discriminate; eauto|intros (y & E & H); try discriminate; injection E as <-; exact H]). }
  assert (N : is_nullable V T tr s = true <-> flag "nullable").
  { unfold is_nullable, ModelSpec.get, ModelSpec.getitem, flag. destruct (dget "nullable" (s_meta s)) as [[| |x]|];
    (split; [intros H; try discriminate; eauto|intros (y & E & H); try discriminate; injection E as <-; exact H]). }
  unfold ModelSpec.annotation. split; [intros ->; reflexivity|]. intros t ->.
  destruct (is_listable V T tr s), (is_nullable V T tr s); repeat split; intros A B; try reflexivity; exfalso;
    try (apply A; apply L; reflexivity); try (apply B; apply N; reflexivity); try (apply L in A; discriminate); try (apply N in B; discriminate).
Qed.

(** * C66 *)
Theorem C66_construct items :
  (forall o, new_operable items = Ret o <-> items = map Some o /\ NoDup (map name o)) /\
  (new_operable items = Raise TypeError <-> In None items) /\
  (new_operable items = Raise ValueError <-> exists o, items = map Some o /\ ~ NoDup (map name o)) /\
  (forall e, new_operable items = Raise e -> e = TypeError \/ e = ValueError).
Proof.
  unfold ModelSpec.new_operable. destruct (all_specs V T items) as [l|] eqn:E.
  - apply all_specs_iff in E. subst items.
    assert (INJ : forall o, map Some l = map Some o -> l = o).
    { clear. induction l as [|x l IH]; intros [|y o] H; try discriminate; [reflexivity|]. cbn in H. injection H as -> H. f_equal. auto. }
    assert (NN : ~ In None (map Some l)) by (intros I; apply in_map_iff in I as (x & X & _); discriminate).
    pose proof (distinct_iff (map name l)) as DI.
    destruct (distinct (map name l)) eqn:D.
    + pose proof (proj1 DI eq_refl) as ND. split; [|split; [split; [discriminate|tauto]|split; [split; [discriminate|]|discriminate]]].
      * intros o. split; [intros H; injection H as <-; auto|intros [H _]; apply INJ in H; congruence].
      * intros (o & H & Q). apply INJ in H. subst. contradiction.
    + split; [|split; [split; [discriminate|tauto]|split; [split; [|reflexivity]|]]].
      * intros o. split; [discriminate|]. intros [H Q]. apply INJ in H. subst o. apply DI in Q. discriminate.
      * intros _. exists l. split; [reflexivity|]. intros Q. apply DI in Q. discriminate.
      * intros e H. injection H as <-. auto.
  - pose proof E as E'. apply all_specs_none in E. split; [|split; [tauto|split; [split; [discriminate|]|]]].
    + intros o. split; [discriminate|]. intros [H _]. apply all_specs_iff in H. congruence.
    + intros (o & H & _). apply all_specs_iff in H. congruence.
    + intros e H. injection H as <-. auto.
Qed.
(** get returns the one specification of that name. *)
Theorem C66_get items o k : new_operable items = Ret o ->
  (forall s, oget o k = Some s <-> In s o /\ name s = k) /\ (oget o k = None <-> forall s, In s o -> name s <> k).
Proof.
  intros N. apply C66_construct in N as [_ N]. split; [intros s; apply oget_iff; exact N|]. rewrite oget_none. split.
  - intros H s I E. apply H. rewrite <- E. apply in_map. exact I.
  - intros H I. apply in_map_iff in I as (s & E & I). exact (H s I E).
Qed.
Theorem C66_check o ks b : (check_allowed o ks b = Ret true <-> forall k, In k ks -> exists s, In s o /\ name s = k) /\
  (check_allowed o ks b <> Ret true -> check_allowed o ks b = if b then Ret false else Raise ValueError).
Proof.
  unfold ModelSpec.check_allowed, allowed. destruct (forallb _ ks) eqn:F.
  - split; [|congruence]. split; [|reflexivity]. intros _ k I. rewrite forallb_forall in F. apply F, existsb_name, in_map_iff in I as (s & E & I). eauto.
  - split; [|reflexivity]. split; [destruct b; discriminate|]. intros H. rewrite <- not_true_iff_false in F. exfalso. apply F. rewrite forallb_forall. intros k I.
    apply existsb_name. destruct (H k I) as (s & J & <-). apply in_map. exact J.
Qed.
(** include: one specification for each name, in the order of the names; unknown names raise. *)
Theorem C66_include items o ks : new_operable items = Ret o -> ks <> [] ->
  (forall l, get_specs o (Some ks) None = Ret l <-> Forall2 (fun k s => In s o /\ name s = k) ks l) /\
  (get_specs o (Some ks) None = Raise ValueError <-> exists k, In k ks /\ forall s, In s o -> name s <> k) /\
  (forall e, get_specs o (Some ks) None = Raise e -> e = ValueError).
Proof.
  intros N NE. apply C66_construct in N as [_ N]. unfold ModelSpec.get_specs. destruct ks as [|k0 ks0]; [congruence|]. set (ks := k0 :: ks0) in *. unfold allowed.
  assert (UN : forall k s s', In s o -> name s = k -> In s' o -> name s' = k -> s = s').
  { intros k s s' I E I' E'. assert (oget o k = Some s) as A by (apply oget_iff; auto). assert (oget o k = Some s') as B by (apply oget_iff; auto). congruence. }
  destruct (forallb _ ks) eqn:F.
  - rewrite forallb_forall in F. split; [|split; [split; [discriminate|]|discriminate]].
    + intros l. assert (Forall2 (fun k s => In s o /\ name s = k) ks (somes (map (oget o) ks))) as FF.
      { clear NE. induction ks as [|k l' IH]; [constructor|]. cbn [map somes]. assert (In k (map name o)) as I by (apply existsb_name, F; left; reflexivity).
        destruct (oget o k) as [s|] eqn:G; [|apply oget_none in G; contradiction]. apply oget_iff in G; [|exact N]. constructor; [exact G|]. apply IH. intros; apply F; right; assumption. }
      split; [intros E; injection E as <-; exact FF|]. intros H. f_equal. revert FF H. generalize (somes (map (oget o) ks)) as l2. generalize ks as kk. clear -UN.
      intros kk l2 A. revert l. induction A as [|k s kk l2 [I E] A IH]; intros l H; inversion H as [|? s' ? l' [I' E'] H']; subst; [reflexivity|]. f_equal; [eapply UN; eauto|auto].
    + intros (k & I & H). apply F, existsb_name, in_map_iff in I as (s & E & I). exfalso. exact (H s I E).
  - assert (exists k, In k ks /\ forall s, In s o -> name s <> k) as W.
    { clear NE. induction ks as [|k l' IH]; [discriminate|]. cbn [forallb] in F. apply andb_false_iff in F as [F|F].
      - exists k. split; [left; reflexivity|]. intros s I E. rewrite <- not_true_iff_false, existsb_name in F. apply F. rewrite <- E. apply in_map. exact I.
      - destruct (IH F) as (k' & I & H). exists k'. split; [right; exact I|exact H]. }
    split; [|split; [tauto|intros e E; injection E as <-; reflexivity]]. intros l. split; [discriminate|]. intros H. exfalso. destruct W as (k & I & W).
    destruct (Forall2_In_l _ _ _ k H I) as (s & _ & X & Y). exact (W s X Y).
Qed.
(** Identity and equality of objects as far as needed: an object is itself, and equal strings have
    the same characters. *)
Record object_eq : Prop := {
  same_refl : forall x, same tr x x = true;
  same_str : forall x y, same tr x y = true -> as_str tr x = as_str tr y;
  equal_str : forall x y, veq tr x y = true -> as_str tr x = as_str tr y;
  type_refl : forall t, teq t t = true
}.
(** exclude: the others, in order; unknown names are ignored. *)
Theorem C66_exclude items o ks : object_eq -> new_operable items = Ret o ->
  exists l, get_specs o None (Some ks) = Ret l /\ sublist l o /\ forall s, In s l <-> In s o /\ ~ In (name s) ks.
Proof.
  intros [R1 R2 R3 R4] N. apply C66_construct in N as [_ N]. unfold ModelSpec.get_specs. destruct ks as [|k0 ks0].
  { exists o. split; [reflexivity|]. split; [|intros s; cbn; tauto]. clear. induction o; constructor; assumption. }
  set (ks := k0 :: ks0). eexists. split; [reflexivity|]. split; [apply sublist_filter|]. intros s. rewrite filter_In, negb_true_iff.
  assert (VR : forall v, value_eq V tr v v = true) by (intros [| |v]; cbn; [reflexivity|reflexivity|rewrite R1; reflexivity]).
  assert (SR : spec_eq s s = true).
  { unfold ModelSpec.spec_eq. apply andb_true_iff. split; [destruct (s_base s); cbn; auto|]. induction (s_meta s) as [|[k v] l IH]; [reflexivity|]. cbn.
    rewrite VR, IH. destruct (eqb_spec k k); [reflexivity|congruence]. }
  assert (SN : forall t, spec_eq s t = true -> name s = name t).
  { intros t E. unfold ModelSpec.spec_eq in E. apply andb_true_iff in E as [_ E]. apply (metas_eq_dget V tr _ _ "name") in E.
    unfold ModelSpec.name, ModelSpec.get, ModelSpec.getitem. destruct (dget "name" (s_meta s)) as [v|], (dget "name" (s_meta t)) as [w|]; try tauto.
    destruct v as [| |v], w as [| |w]; try discriminate; try reflexivity. cbn in E. apply orb_true_iff in E as [E|E]; [auto|]. apply andb_true_iff in E as [_ E]. auto. }
  split; intros [I H]; split; try exact I.
  - intros J. rewrite <- not_true_iff_false in H. apply H. apply existsb_exists. exists s. split; [|exact SR]. apply somes_In.
    apply in_map_iff. exists (name s). split; [|exact J]. apply oget_iff; auto.
  - apply not_true_is_false. intros E. apply H. apply existsb_exists in E as (t & J & E). apply somes_In, in_map_iff in J as (k & G & J). apply oget_iff in G as [_ G]; [|exact N].
    rewrite (SN t E), G. exact J.
Qed.
(** Equal specifications: the same base type, and the same metadata in order, where functions are
    equal only if they are one object. *)
Theorem C67_equality s t : spec_eq s t = true <->
  (match s_base s, s_base t with Some a, Some b => teq a b = true | None, None => True | _, _ => False end) /\
  Forall2 (fun m n => fst m = fst n /\
    match snd m, snd n with
    | PV v, PV w => same tr v w = true \/ (veq tr v w = true /\ (callable tr v = false \/ callable tr w = false))
    | v, w => v = w
    end) (s_meta s) (s_meta t).
Proof.
  unfold ModelSpec.spec_eq. rewrite andb_true_iff.
  assert (metas_eq V tr (s_meta s) (s_meta t) = true <-> Forall2 (fun m n => fst m = fst n /\
    match snd m, snd n with
    | PV v, PV w => same tr v w = true \/ (veq tr v w = true /\ (callable tr v = false \/ callable tr w = false))
    | v, w => v = w
    end) (s_meta s) (s_meta t)) as ->.
  { generalize (s_meta t). induction (s_meta s) as [|[k v] l IH]; intros [|[k' w] m]; cbn [ModelSpec.metas_eq];
      try (split; [discriminate|intros X; inversion X]); [split; auto|].
    rewrite !andb_true_iff, IH. destruct (eqb_spec k k') as [->|NE].
    - split.
      + intros ((_ & X) & Y). constructor; [|exact Y]. split; [reflexivity|]. cbn [fst snd].
        destruct v as [| |v], w as [| |w]; try discriminate X; try reflexivity. cbn in X.
        apply orb_true_iff in X as [X|X]; [auto|]. apply andb_true_iff in X as [X Z]. right. split; [exact Z|].
        apply negb_true_iff, andb_false_iff in X. exact X.
      + intros X. inversion X as [|? ? ? ? [_ X1] X2]; subst. split; [split; [reflexivity|]|exact X2]. cbn [snd] in X1.
        destruct v as [| |v], w as [| |w]; try discriminate X1; try reflexivity. cbn.
        destruct X1 as [->|[-> [->| ->]]]; rewrite ?andb_false_r, ?orb_true_r; reflexivity.
    - split; [intros ((X & _) & _); discriminate|]. intros X. inversion X as [|? ? ? ? [X1 _] X2]; subst. cbn in X1. contradiction. }
  destruct (s_base s), (s_base t); cbn; intuition (try discriminate).
Qed.
Theorem C66_both o a b : get_specs o (Some a) (Some b) = Raise ValueError /\ get_specs o None None = Ret o.
Proof. split; [destruct a, b; reflexivity|reflexivity]. Qed.
(** Not so: an empty include selects everything; and any two unnamed specifications clash. *)
Theorem C66_include_empty_refuted o : get_specs o (Some []) None = Ret o.
Proof. reflexivity. Qed.
Theorem C66_unnamed_refuted s t : unnamed V T s -> unnamed V T t -> new_operable [Some s; Some t] = Raise ValueError.
Proof.
  unfold unnamed. intros A B. unfold ModelSpec.new_operable. cbn [all_specs map distinct]. unfold ModelSpec.name, ModelSpec.get, ModelSpec.getitem. rewrite A, B. reflexivity.
Qed.

(** * C67 *)
Section Cached.
(** The cache finds a stored key that has the same hash and is equal. *)
Variable keq : spec -> spec -> bool.
Hypothesis keq_equiv : equivalence keq.
Notation recent := (recent spec keq).
Notation after n h := (run spec (ann V T) keq fresh_annotated (Z.of_nat n) h).
Notation lookup n c s := (lookup spec (ann V T) keq fresh_annotated (Z.of_nat n) c s).
(** After any history the cache holds the most recently used keys, as many as the limit allows, the
    last used one among them. *)
Theorem C67_least_recent n h :
  Forall2 (fun a b => keq a b = true) (map fst (after n h)) (lastn n (recent h)) /\ length (after n h) = Nat.min n (length (recent h)).
Proof.
  pose proof (run_holds spec (ann V T) keq fresh_annotated keq_equiv n h) as [F _]. split; [exact F|]. rewrite <- lastn_length, <- (map_length fst).
  induction F; cbn; auto.
Qed.
Theorem C67_most_recent n h s : n <> 0 -> exists k, hd_error (rev (map fst (after n (h ++ [s])))) = Some k /\ keq k s = true.
Proof.
  intros N. destruct (C67_least_recent n (h ++ [s])) as [F _]. rewrite (recent_snoc spec keq), (lastn_app_one n) in F by exact N.
  apply Forall2_app_inv_r in F as (a & b & _ & F & ->). inversion F as [|x y l m Q F' ]; subst. inversion F'; subst. exists x. rewrite rev_app_distr. cbn. auto.
Qed.
(** An answer is the annotation computed for the specification itself or for an equal one asked
    about before; the latter exactly if it is among the most recently used. *)
Theorem C67_transparent n h s :
  exists t, keq t s = true /\ fst (lookup n (after n h) s) = Ret (fresh_annotated t) /\
    ((In t h /\ exists x, In x (lastn n (recent h)) /\ keq x s = true) \/ (t = s /\ forall x, In x (lastn n (recent h)) -> keq x s = false)).
Proof.
  destruct (lookup_holds spec (ann V T) keq fresh_annotated keq_equiv n h _ s (run_holds spec (ann V T) keq fresh_annotated keq_equiv n h)) as [_ [(x & k & X & Q & I & Q' & E)|[N E]]].
  - exists k. split; [exact Q'|]. split; [exact E|]. left. eauto.
  - exists s. split; [apply (eqv_refl keq keq_equiv)|]. split; [exact E|]. right. auto.
Qed.
(** Equal specifications have annotations that differ at most in equal types and metadata values. *)
Inductive ann_eq : ann V T -> ann V T -> Prop :=
| ae_any : ann_eq AnyT AnyT
| ae_ty t u : teq t u = true -> ann_eq (Ty t) (Ty u)
| ae_list a b : ann_eq a b -> ann_eq (ListOf a) (ListOf b)
| ae_none a b : ann_eq a b -> ann_eq (OrNone a) (OrNone b)
| ae_anno a b l m : ann_eq a b -> metas_eq V tr l m = true -> ann_eq (Anno a l) (Anno b m).
Theorem C67_equal n h s :
  (forall a b, keq a b = true -> spec_eq a b = true) ->
  (forall x y, same tr x y = true \/ veq tr x y = true -> truthy tr x = truthy tr y) ->
  exists a, fst (lookup n (after n h) s) = Ret a /\ ann_eq a (fresh_annotated s).
Proof.
  intros KE TE. destruct (C67_transparent n h s) as (t & Q & E & _). exists (fresh_annotated t). split; [exact E|]. apply KE in Q.
  unfold ModelSpec.spec_eq in Q. apply andb_true_iff in Q as [Q1 Q2]. unfold ModelSpec.fresh_annotated.
  assert (BA : ann_eq (match s_base t with None => AnyT | Some t => Ty t end) (match s_base s with None => AnyT | Some t => Ty t end)).
  { destruct (s_base t), (s_base s); try discriminate; constructor. exact Q1. }
  assert (VT : forall v w, value_eq V tr v w = true -> ptruthy V tr v = ptruthy V tr w).
  { intros [| |v] [| |w] X; try discriminate; try reflexivity. cbn in *. apply TE. apply orb_true_iff in X as [X|X]; [auto|]. apply andb_true_iff in X as [_ X]. auto. }
  assert (existsb (fun m => eqb (fst m) "nullable" && ptruthy V tr (snd m)) (s_meta t) = existsb (fun m => eqb (fst m) "nullable" && ptruthy V tr (snd m)) (s_meta s)) as ->.
  { revert Q2. generalize (s_meta s) as m. induction (s_meta t) as [|[k v] l IH]; intros [|[k' v'] m] X; try discriminate; [reflexivity|]. cbn in X. rewrite !andb_true_iff in X.
    destruct X as [[X1 X2] X3]. destruct (eqb_spec k k') as [->|]; [|discriminate]. cbn. rewrite (VT _ _ X2), (IH m X3). reflexivity. }
  set (b := existsb _ _). assert (ann_eq (if b then OrNone (match s_base t with None => AnyT | Some t => Ty t end) else match s_base t with None => AnyT | Some t => Ty t end)
    (if b then OrNone (match s_base s with None => AnyT | Some t => Ty t end) else match s_base s with None => AnyT | Some t => Ty t end)) as BB.
  { destruct b; [constructor|]; exact BA. }
  destruct (s_meta t) as [|m l], (s_meta s) as [|m' l']; try discriminate.
  - exact BB.
  - cbn in Q2. destruct m; discriminate.
  - constructor; [exact BB|exact Q2].
Qed.
(** With a negative limit every call raises KeyError. *)
Theorem C67_negative limit h s : (limit < 0)%Z ->
  fst (ModelSpec.lookup spec (ann V T) keq fresh_annotated limit (run spec (ann V T) keq fresh_annotated limit h) s) = Raise KeyError.
Proof.
  intros N. rewrite (run_neg spec (ann V T) keq fresh_annotated limit h N). unfold ModelSpec.lookup. cbn [find]. rewrite (evict_neg spec (ann V T) _ limit N). reflexivity.
Qed.
End Cached.
(** annotated() is annotation with the metadata, for specifications with a type that are not listable
    and whose nullable flag is absent, falsy or True. *)
Theorem C67_agree s t :
  built s -> s_base s = Some t -> is_listable V T tr s = false ->
  (forall x, dget "nullable" (s_meta s) = Some (PV x) -> truthy tr x = is_true tr x) ->
  fresh_annotated s = match s_meta s with [] => annotation s | l => Anno (annotation s) l end.
Proof.
  intros B E L H. apply (built_ok V T tr valid_type) in B as (N & _). unfold ModelSpec.fresh_annotated, ModelSpec.annotation. rewrite E, L.
  assert (existsb (fun m => eqb (fst m) "nullable" && ptruthy V tr (snd m)) (s_meta s) = is_nullable V T tr s) as ->; [|reflexivity].
  unfold is_nullable, ModelSpec.get, ModelSpec.getitem. clear E L. induction (s_meta s) as [|[k v] l IH]; [reflexivity|]. cbn [existsb fst snd]. cbn [dget] in *.
  inversion N as [|? ? NI N']; subst. destruct (eqb_spec k "nullable") as [->|NK].
  - destruct (eqb_spec "nullable" "nullable") as [_|]; [|congruence]. cbn [andb]. destruct v as [| |v]; cbn [ptruthy orb].
    3: { rewrite (H v eq_refl). destruct (is_true tr v); [reflexivity|]. cbn [orb]. apply not_true_is_false. intros X. apply existsb_exists in X as ([k' w] & I & X). cbn in X.
         apply andb_true_iff in X as [X _]. destruct (eqb_spec k' "nullable") as [->|]; [|discriminate]. apply (in_map fst) in I. contradiction. }
    all: apply not_true_is_false; intros X; apply existsb_exists in X as ([k' w] & I & X); cbn in X;
         apply andb_true_iff in X as [X _]; destruct (eqb_spec k' "nullable") as [->|]; [|discriminate]; apply (in_map fst) in I; contradiction.
  - destruct (eqb_spec "nullable" k); [congruence|]. cbn [andb orb]. apply IH; assumption.
Qed.
End Spec.
Print Assumptions C65_construct. Print Assumptions C65_get. Print Assumptions C65_updates. Print Assumptions C65_default. Print Assumptions C65_both.
Print Assumptions C65_with_default. Print Assumptions C65_metadict. Print Assumptions C65_annotation. Print Assumptions C66_construct. Print Assumptions C66_get. Print Assumptions C66_check.
Print Assumptions C66_include. Print Assumptions C66_exclude. Print Assumptions C66_both. Print Assumptions C66_include_empty_refuted. Print Assumptions C66_unnamed_refuted.
Print Assumptions C67_least_recent. Print Assumptions C67_most_recent. Print Assumptions C67_transparent. Print Assumptions C67_equal.
Print Assumptions C67_negative. Print Assumptions C67_agree.

(** ** Examples *)
(** Some Python objects: None, booleans, integers, strings, lists, dicts, functions (by identity, with
    what they return) and classes. *)
Inductive obj := ONone | OBool (b : bool) | OInt (z : Z) | OStr (s : string) | OList (l : list obj) | ODict (d : dict string (pval obj))
  | OFun (id : nat) (asy : bool) (r : Z) | OClass (n : nat).
Definition as_int (o : obj) : option Z := match o with OInt z => Some z | OBool b => Some (if b then 1 else 0)%Z | _ => None end.
Definition obj_traits : traits obj := {|
  truthy o := match o with ONone => false | OBool b => b | OInt z => negb (Z.eqb z 0) | OStr s => negb (eqb s "") | OList [] | ODict [] => false | _ => true end;
  is_true o := match o with OBool b => b | _ => false end;
  is_none o := match o with ONone => true | _ => false end;
  callable o := match o with OFun _ _ _ | OClass _ => true | _ => false end;
  async o := match o with OFun _ a _ => a | _ => false end;
  is_type o := match o with OClass _ => true | _ => false end;
  as_str o := match o with OStr s => Some s | _ => None end;
  as_list o := match o with OList l => Some l | _ => None end;
  as_dict o := match o with ODict d => Some d | _ => None end;
  of_dict := ODict;
  call o := match o with OFun _ _ r => Ret (OInt r) | _ => Ret (OList []) end;
  veq a b := match as_int a, as_int b with
             | Some x, Some y => Z.eqb x y
             | _, _ => match a, b with OStr s, OStr t => eqb s t | ONone, ONone => true | OList [], OList [] => true | _, _ => false end end;
  same a b := match a, b with
              | ONone, ONone => true | OBool x, OBool y => Bool.eqb x y | OStr s, OStr t => eqb s t | OInt x, OInt y => Z.eqb x y
              | OFun i _ _, OFun j _ _ | OClass i, OClass j => Nat.eqb i j | _, _ => false end |}.
Notation ospec := (new_spec obj string obj_traits (fun t => negb (eqb t "?"))).
Notation S_ l := (MkSpec (Some "int") l : spec obj string).
Example spec_ok : ospec (Some "int") [] [("doc", PV (OStr "x"))] [("name", PV (OStr "age")); ("nullable", PV (OBool true))]
  = Ret (S_ [("doc", PV (OStr "x")); ("name", PV (OStr "age")); ("nullable", PV (OBool true))]).
Proof. reflexivity. Qed.
Example spec_errors :
  ospec (Some "int") [("name", PV (OStr "a"))] [] [("name", PV (OStr "b"))] = Raise ValueError /\
  ospec (Some "int") [] [] [("name", PV (OStr ""))] = Raise ValueError /\
  ospec (Some "?") [] [] [("name", PV (OStr "a"))] = Raise ValueError /\
  ospec (Some "int") [] [] [("default", PV (OInt 1)); ("default_factory", PV (OFun 1 false 5))] = Raise ExceptionGroupErr /\
  ospec (Some "int") [] [] [("validator", PV (OList [OFun 1 false 5; OInt 3]))] = Raise ExceptionGroupErr /\
  ospec (Some "int") [] [] [("default_factory", PV (OInt 3))] = Raise ExceptionGroupErr.
Proof. repeat split; reflexivity. Qed.
Notation upd_ := (with_updates obj string obj_traits (fun t => negb (eqb t "?"))).
Example spec_update : upd_ (S_ [("doc", PV (OStr "x")); ("name", PV (OStr "age")); ("nullable", PV (OBool true))]) [("doc", PV (OStr "y")); ("nullable", Undefined); ("min", PV ONone)]
  = Ret (S_ [("name", PV (OStr "age")); ("doc", PV (OStr "y")); ("min", PV ONone)]) /\
  upd_ (S_ [("name", PV (OStr "age"))]) [("name", Unset)] = Ret (S_ []) /\ upd_ (S_ [("name", PV (OStr "age"))]) [("name", PV ONone)] = Raise ValueError.
Proof. repeat split; reflexivity. Qed.
(** A falsy default and a factory are accepted together, but then no default can be made; a default of the
    other kind cannot be given to a specification that has one. *)
Theorem C65_both_refuted :
  let s := S_ [("default", PV (OInt 0)); ("default_factory", PV (OFun 1 false 5))] in
  ospec (Some "int") [] [] (s_meta s) = Ret s /\ create_default obj string obj_traits s = Raise TypeError /\
  with_default obj string obj_traits (fun t => negb (eqb t "?")) (S_ [("default", PV (OInt 1))]) (PV (OFun 1 false 5)) = Raise ExceptionGroupErr.
Proof. repeat split; reflexivity. Qed.
Example defaults :
  create_default obj string obj_traits (S_ [("default_factory", PV (OFun 1 false 5))]) = Ret (PV (OInt 5)) /\
  create_default obj string obj_traits (S_ [("default_factory", PV (OFun 1 true 5))]) = Raise ValueError /\
  acreate_default obj string obj_traits (S_ [("default_factory", PV (OFun 1 true 5))]) = Ret (PV (OInt 5)) /\
  create_default obj string obj_traits (S_ [("default", PV ONone)]) = Ret (PV ONone).
Proof. repeat split; reflexivity. Qed.
Definition named (n : string) : spec obj string := S_ [("name", PV (OStr n))].
Notation oop := (new_operable obj string obj_traits).
Example operable :
  let o := [named "a"; named "b"; named "c"] in
  oop (map Some o) = Ret o /\ oop [Some (named "a"); Some (named "a")] = Raise ValueError /\ oop [Some (named "a"); None] = Raise TypeError /\
  oget obj string obj_traits o (Some "b") = Some (named "b") /\ oget obj string obj_traits o (Some "z") = None /\
  get_specs obj string obj_traits eqb o (Some [Some "c"; Some "a"]) None = Ret [named "c"; named "a"] /\
  get_specs obj string obj_traits eqb o (Some [Some "c"; Some "z"]) None = Raise ValueError /\
  get_specs obj string obj_traits eqb o None (Some [Some "b"; Some "z"]) = Ret [named "a"; named "c"].
Proof. repeat split; reflexivity. Qed.
(** A cache for two entries: using a again keeps it, so b is dropped. *)
Notation look n c s := (lookup (spec obj string) (ann obj string) (spec_eq obj string obj_traits eqb) (fresh_annotated obj string obj_traits) n c s).
Notation cached n h := (run (spec obj string) (ann obj string) (spec_eq obj string obj_traits eqb) (fresh_annotated obj string obj_traits) n h).
Example lru : map fst (cached 2%Z [named "a"; named "b"; named "a"; named "c"]) = [named "a"; named "c"] /\
  recent _ (spec_eq obj string obj_traits eqb) [named "a"; named "b"; named "a"; named "c"] = [named "b"; named "a"; named "c"] /\
  cached 0%Z [named "a"; named "b"] = [] /\ fst (look (-1)%Z [] (named "a")) = Raise KeyError.
Proof. repeat split; reflexivity. Qed.
(** Two functions that do the same are different metadata; 1 and True are not. *)
Example equality :
  spec_eq obj string obj_traits eqb (S_ [("validator", PV (OFun 1 false 5))]) (S_ [("validator", PV (OFun 2 false 5))]) = false /\
  spec_eq obj string obj_traits eqb (S_ [("validator", PV (OFun 1 false 5))]) (S_ [("validator", PV (OFun 1 false 5))]) = true /\
  spec_eq obj string obj_traits eqb (S_ [("x", PV (OInt 1))]) (S_ [("x", PV (OBool true))]) = true.
Proof. repeat split; reflexivity. Qed.
(** An answer for an equal specification can show another value: 1 for True. *)
Theorem C67_exact_refuted :
  let s := S_ [("default", PV (OInt 1))] in let t := S_ [("default", PV (OBool true))] in
  fst (look 2%Z (cached 2%Z [s]) t) = Ret (Anno (Ty "int") [("default", PV (OInt 1))]) /\
  fresh_annotated obj string obj_traits t = Anno (Ty "int") [("default", PV (OBool true))].
Proof. split; reflexivity. Qed.
(** annotated() ignores listable, and any truthy nullable counts. *)
Theorem C67_agree_refuted :
  annotation obj string obj_traits (S_ [("listable", PV (OBool true))]) = ListOf (Ty "int") /\
  fresh_annotated obj string obj_traits (S_ [("listable", PV (OBool true))]) = Anno (Ty "int") [("listable", PV (OBool true))] /\
  annotation obj string obj_traits (S_ [("nullable", PV (OInt 1))]) = Ty "int" /\
  fresh_annotated obj string obj_traits (S_ [("nullable", PV (OInt 1))]) = Anno (OrNone (Ty "int")) [("nullable", PV (OInt 1))].
Proof. repeat split; reflexivity. Qed.
Print Assumptions C65_both_refuted. Print Assumptions C67_exact_refuted. Print Assumptions C67_equality. Print Assumptions C67_agree_refuted.
