(** C81: pydantic models from specifications. *)
From Coq Require Import String.
From Coq Require Import List Bool Arith ZArith Lia.
From Verif Require Import PyBase PyFacts ModelParams ModelSpec SpecSpec ProofsSpec ProofsField PropertiesSpec.
Import ListNotations.
Local Open Scope string_scope.
Local Open Scope nat_scope.
Local Open Scope list_scope.
#[local] Arguments eqb : simpl never.

Section Field.
Variables (V T : Type) (tr : traits V) (valid_type : T -> bool) (teq : T -> T -> bool) (field_param : string -> bool) (none : V).
Notation pval := (pval V). Notation meta := (meta V). Notation spec := (spec V T).
Notation built := (built V T tr valid_type). Notation name := (name V T tr).
Notation create_field := (create_field V T tr field_param none).
Notation create_model := (create_model V T tr teq field_param none).
Notation get_specs := (get_specs V T tr teq).
Hypothesis factory_param : field_param "default_factory" = true.

(** An entry of the metadata that is no parameter of Field, no common key other than the name, and whose
    value is no class. *)
Definition extra_entry (m : meta) : Prop :=
  ~ In (fst m) ["default"; "validator"; "nullable"; "listable"; "json_schema_extra"] /\ field_param (fst m) = false /\
  (forall x, snd m = PV x -> is_type tr x = false).
Lemma custom_iff m : custom V tr field_param m = true <-> extra_entry m.
Proof.
  destruct m as [k v]. unfold custom, extra_entry. cbn [fst snd In]. rewrite !andb_true_iff, !negb_true_iff, orb_false_iff.
  destruct (eqb_spec k "default"), (eqb_spec k "validator"), (eqb_spec k "json_schema_extra"), (eqb_spec k "nullable"), (eqb_spec k "listable");
    (split; [intros [[[[[A1 A2] A3] FP] [A4 A5]] HT]; try discriminate|intros (H1 & H2 & H3); try (exfalso; apply H1; intuition congruence)]).
  - split; [intuition congruence|]. split; [assumption|]. intros x ->. exact HT.
  - repeat split; auto. destruct v; auto.
Qed.
(** The field: the annotation of the specification; the parameters of Field passed through; the default. *)
Theorem C81_field s a f :
  built s -> (dget "default" (s_meta s) = None \/ dget "default_factory" (s_meta s) = None) ->
  create_field s = Ret (a, f) ->
  a = annotation V T tr s /\
  kw_default V f = field_default V T tr none s /\
  forall k, ~ In k ["default"; "default_factory"; "json_schema_extra"; "validator"] ->
    dget k (f_kw f) = if field_param k then dget k (s_meta s) else None.
Proof.
  intros B ONE. apply (built_ok V T tr valid_type) in B as (N & _). rewrite create_field_eq.
  destruct (fold_left _ (s_meta s) (Ret None)) as [x|e]; [|discriminate]. cbv zeta. set (d := nullable_kw V T tr none s (fold_left (kwstep V tr field_param) (s_meta s) [])).
  intros E. assert (a = annotation V T tr s /\ f = FieldKw d x) as [-> ->].
  { destruct (dget "default" d), (dget "default_factory" d) as [[| |g]|]; try discriminate; try (destruct (is_none tr g)); try discriminate; injection E as <- <-; auto. }
  split; [reflexivity|]. split.
  - unfold kw_default. cbn [f_kw]. unfold d. rewrite nullable_kw_default, nullable_kw_other by discriminate.
    rewrite (kw_default' V tr field_param (s_meta s) N), (kw_factory' V tr field_param factory_param (s_meta s) N ONE). unfold field_default.
    destruct (dget "default" (s_meta s)) as [v|] eqn:D.
    + destruct (pcallable V tr v); [reflexivity|]. reflexivity.
    + destruct (dget "default_factory" (s_meta s)); [reflexivity|]. destruct (is_nullable V T tr s); reflexivity.
  - intros k NI. cbn [f_kw In] in *. unfold d. rewrite nullable_kw_other by intuition congruence.
    rewrite (kw_other V tr field_param (s_meta s) k N) by intuition congruence. unfold passed.
    destruct (eqb_spec k "default"), (eqb_spec k "validator"), (eqb_spec k "json_schema_extra"); try (exfalso; intuition congruence). reflexivity.
Qed.
(** Other metadata becomes json_schema_extra, unless the specification gives that itself. *)
Theorem C81_extra s a f :
  built s -> ~ In "json_schema_extra" (map fst (s_meta s)) -> create_field s = Ret (a, f) ->
  match f_extra f with
  | None => forall m, In m (s_meta s) -> ~ extra_entry m
  | Some None => False
  | Some (Some d) => forall k v, dget k d = Some v <-> In (k, v) (s_meta s) /\ extra_entry (k, v)
  end.
Proof.
  intros B NJ. apply (built_ok V T tr valid_type) in B as (N & _). rewrite create_field_eq.
  assert (X : forall x, fold_left (exstep V tr field_param) (s_meta s) (Ret None) = Ret x ->
     match x with
     | None => forall m, In m (s_meta s) -> ~ extra_entry m
     | Some None => False
     | Some (Some d) => forall k v, dget k d = Some v <-> In (k, v) (s_meta s) /\ extra_entry (k, v)
     end).
  { intros x. destruct (has_custom V tr field_param (s_meta s)) eqn:H.
    - destruct (custom_none V tr field_param (s_meta s) NJ N H) as (d & -> & G). intros E. injection E as <-. intros k v. rewrite G. unfold get_custom. rewrite <- custom_iff. split.
      + intros Q. apply dget_In, filter_In in Q. exact Q.
      + intros Q. apply In_dget; [apply NoDup_map_filter; exact N|]. apply filter_In. exact Q.
    - rewrite (custom_pass V tr field_param _ None NJ H). intros E. injection E as <-. intros m I C. apply custom_iff in C.
      assert (has_custom V tr field_param (s_meta s) = true) by (apply existsb_exists; eauto). congruence. }
  destruct (fold_left _ (s_meta s) (Ret None)) as [x|e]; [|discriminate]. specialize (X x eq_refl). cbv zeta. set (d := nullable_kw _ _ _ _ _ _).
  intros E. assert (f = FieldKw d x) as ->.
  { destruct (dget "default" d), (dget "default_factory" d) as [[| |g]|]; try discriminate; try (destruct (is_none tr g)); try discriminate; injection E as <- <-; auto. }
  exact X.
Qed.
(** If it does, the entries after it are added to it and those before it are lost. *)
Theorem C81_own_extra s a f p j q :
  built s -> s_meta s = p ++ ("json_schema_extra", PV j) :: q -> create_field s = Ret (a, f) ->
  match as_dict tr j with
  | Some d0 => exists d, f_extra f = Some (Some d) /\ forall k, dget k d = match dget k q with Some v => if custom V tr field_param (k, v) then Some v else dget k d0 | None => dget k d0 end
  | None => f_extra f = Some None /\ forall m, In m q -> ~ extra_entry m
  end.
Proof.
  intros B EM. apply (built_ok V T tr valid_type) in B as (N & _). rewrite create_field_eq, EM in *. rewrite map_app in N.
  assert (NP : no_json V p) by (intros I; apply (NoDup_app_split _ _ N _ I); left; reflexivity).
  apply NoDup_app_r in N. inversion N as [|? ? NQ N']; subst. cbn [map fst] in *. rewrite fold_left_app. cbn [fold_left].
  assert (P : exists x, fold_left (exstep V tr field_param) p (Ret None) = Ret x).
  { destruct (has_custom V tr field_param p) eqn:H; [|rewrite (custom_pass V tr field_param p None NP H); eauto].
    assert (forall y, y <> Some None -> exists x, fold_left (exstep V tr field_param) p (Ret y) = Ret x) as G; [|apply G; discriminate].
    clear -NP. induction p as [|[k v] p IH]; intros y Y; [eexists; reflexivity|]. cbn [fold_left]. unfold exstep at 2. cbn [bind fst snd].
    assert (no_json V p) as NP' by (intros I; apply NP; right; exact I).
    destruct (eqb_spec k "json_schema_extra") as [->|]; [exfalso; apply NP; left; reflexivity|]. destruct (custom V tr field_param (k, v)); [|apply IH; assumption].
    destruct y as [[d|]|]; [apply IH; [exact NP'|discriminate]|congruence|apply IH; [exact NP'|discriminate]]. }
  destruct P as (x & ->). unfold exstep at 2. cbn [bind fst snd]. destruct (eqb_spec "json_schema_extra" "json_schema_extra") as [_|]; [|congruence].
  assert (FE : forall x d, (match dget "default" d, dget "default_factory" d with
     | Some _, Some (PV g) => if is_none tr g then Ret (annotation V T tr s, FieldKw d x) else Raise TypeError
     | Some _, Some _ => Raise TypeError
     | _, _ => Ret (annotation V T tr s, FieldKw d x) end) = Ret (a, f) -> f_extra f = x).
  { intros y d E. destruct (dget "default" d), (dget "default_factory" d) as [[| |g]|]; try discriminate; try (destruct (is_none tr g)); try discriminate; injection E as <- <-; auto. }
  destruct (as_dict tr j) as [d0|].
  - destruct (custom_dict V tr field_param q d0 NQ N') as (d & -> & G). cbv zeta. intros E. apply FE in E. exists d. split; [exact E|]. intros k. rewrite G.
    unfold get_custom. destruct (dget k (filter (custom V tr field_param) q)) as [v|] eqn:Q.
    + apply dget_In, filter_In in Q as [Q1 Q2]. apply (In_dget _ _ _ N') in Q1. rewrite Q1, Q2. reflexivity.
    + destruct (dget k q) as [v|] eqn:Q1; [|reflexivity]. destruct (custom V tr field_param (k, v)) eqn:Q2; [|reflexivity]. exfalso.
      apply dget_None in Q. apply Q. apply dget_In in Q1. apply in_map_iff. exists (k, v). split; [reflexivity|]. apply filter_In. auto.
  - destruct (has_custom V tr field_param q) eqn:H; [rewrite (custom_bad V tr field_param q NQ H); discriminate|].
    rewrite (custom_pass V tr field_param q _ NQ H). cbv zeta. intros E. apply FE in E. split; [exact E|]. intros m I C. apply custom_iff in C.
    assert (has_custom V tr field_param q = true) by (apply existsb_exists; eauto). congruence.
Qed.
(** When it fails: both a default and a factory, or entries after a json_schema_extra that is no dict. *)
Theorem C81_error s e :
  built s -> create_field s = Raise e ->
  e = TypeError /\
  ((dget "default" (s_meta s) <> None /\ dget "default_factory" (s_meta s) <> None) \/
   exists p j q m, s_meta s = p ++ ("json_schema_extra", j) :: q /\ In m q /\ extra_entry m /\ forall x, j = PV x -> as_dict tr x = None).
Proof.
  intros B. apply (built_ok V T tr valid_type) in B as (N & _). rewrite create_field_eq.
  destruct (fold_left _ (s_meta s) (Ret None)) as [x|e'] eqn:F.
  - cbv zeta. intros E.
    assert (e = TypeError /\ dget "default" (nullable_kw V T tr none s (fold_left (kwstep V tr field_param) (s_meta s) [])) <> None /\
            dget "default_factory" (nullable_kw V T tr none s (fold_left (kwstep V tr field_param) (s_meta s) [])) <> None) as (-> & H1 & H2).
    { revert E. set (d := nullable_kw _ _ _ _ _ _). destruct (dget "default" d), (dget "default_factory" d) as [[| |g]|]; try discriminate; try (destruct (is_none tr g)); try discriminate;
      intros E; injection E as <-; repeat split; congruence. }
    split; [reflexivity|]. left. rewrite nullable_kw_default in H1. rewrite nullable_kw_other in H2 by discriminate.
    destruct (dget "default" (s_meta s)) as [v|] eqn:D.
    + split; [discriminate|]. intros D2. rewrite (kw_default' V tr field_param _ N), (kw_factory' V tr field_param factory_param _ N (or_intror D2)), D in *.
      destruct (pcallable V tr v); congruence.
    + exfalso. rewrite (kw_default' V tr field_param _ N), (kw_factory' V tr field_param factory_param _ N (or_introl D)), D in *.
      destruct (dget "default_factory" (s_meta s)); congruence.
  - intros E. injection E as <-.
    assert (G : forall l x, NoDup (map fst l) -> x <> Some None -> fold_left (exstep V tr field_param) l (Ret x) = Raise e' ->
      e' = TypeError /\ exists p j q m, l = p ++ ("json_schema_extra", j) :: q /\ In m q /\ extra_entry m /\ forall x, j = PV x -> as_dict tr x = None).
    { clear. induction l as [|[k v] l IH]; intros x N NX; cbn [fold_left]; [discriminate|]. unfold exstep at 2. cbn [bind fst snd]. inversion N as [|? ? NI N']; subst.
      destruct (eqb_spec k "json_schema_extra") as [->|NK].
      - destruct (match v with PV v => as_dict tr v | _ => None end) as [d|] eqn:D.
        + intros F. destruct (custom_dict V tr field_param l d NI N') as (d' & X & _). congruence.
        + destruct (has_custom V tr field_param l) eqn:H.
          * rewrite (custom_bad V tr field_param l NI H). intros E. injection E as <-. split; [reflexivity|]. apply existsb_exists in H as (m & I & C). apply custom_iff in C.
            exists [], v, l, m. split; [reflexivity|]. split; [exact I|]. split; [exact C|]. intros y ->. exact D.
          * rewrite (custom_pass V tr field_param l _ NI H). discriminate.
      - intros F. assert (exists y, y <> Some None /\ fold_left (exstep V tr field_param) l (Ret y) = Raise e') as (y & NY & F').
        { destruct (custom V tr field_param (k, v)); [|eauto]. destruct x as [[d|]|]; [|congruence|]; eexists; (split; [|exact F]); discriminate. }
        destruct (IH y N' NY F') as (-> & p & j & q & m & -> & X). split; [reflexivity|]. exists ((k, v) :: p), j, q, m. split; [reflexivity|exact X]. }
    destruct (G (s_meta s) None N ltac:(discriminate) F) as (-> & X). split; [reflexivity|]. right. exact X.
Qed.
(** A default that is no callable next to a factory makes no field. *)
Theorem C81_both s d g :
  built s -> dget "default" (s_meta s) = Some d -> ~ can_call V tr d -> dget "default_factory" (s_meta s) = Some (PV g) -> is_none tr g = false ->
  create_field s = Raise TypeError.
Proof.
  intros B D C G NG. pose proof B as B'. apply (built_ok V T tr valid_type) in B' as (N & _). rewrite <- pcallable_iff, not_true_iff_false in C.
  destruct (create_field s) as [[a f]|e] eqn:E; [|apply (C81_error s e B) in E as [-> _]; reflexivity]. exfalso. rewrite create_field_eq in E.
  destruct (fold_left _ (s_meta s) (Ret None)) as [x|e]; [|discriminate]. cbv zeta in E. rewrite nullable_kw_default, nullable_kw_other in E by discriminate.
  rewrite (kw_default' V tr field_param _ N), D, C in E.
  assert (dget "default_factory" (fold_left (kwstep V tr field_param) (s_meta s) []) = Some (PV g)) as X.
  { clear E B. revert N D G C. generalize (s_meta s) as l. clear -factory_param. intros l N D G C.
    pose proof (passed_factory field_param factory_param) as PF.
    assert (H : forall l d0, NoDup (map fst l) -> (forall d, In ("default", d) l -> pcallable V tr d = false) -> forall v, In ("default_factory", v) l ->
       dget "default_factory" (fold_left (kwstep V tr field_param) l d0) = Some v).
    { clear -PF. induction l as [|[k w] l IH]; intros d0 N H v I; [destruct I|]. inversion N as [|? ? NI N']; subst. cbn [fold_left].
      destruct I as [I|I]; [|apply IH; [exact N'|intros; apply H; right; assumption|exact I]]. injection I as -> ->.
      assert (K : forall l d0, ~ In "default_factory" (map fst l) -> (forall d, In ("default", d) l -> pcallable V tr d = false) ->
        dget "default_factory" (fold_left (kwstep V tr field_param) l d0) = dget "default_factory" d0).
      { clear. induction l as [|[k w] l IH]; intros d0 NI H; [reflexivity|]. cbn [fold_left]. rewrite IH; [|intros I; apply NI; right; exact I|intros; apply H; right; assumption].
        unfold kwstep. destruct (eqb_spec k "default") as [->|]; [rewrite (H w (or_introl eq_refl)); apply dget_dset_other; discriminate|].
        destruct (passed field_param k); [|reflexivity]. apply dget_dset_other. intros Q. apply NI. left. cbn. congruence. }
      rewrite K; [|exact NI|intros; apply H; right; assumption]. unfold kwstep. destruct (eqb_spec "default_factory" "default"); [discriminate|]. rewrite PF. apply dget_dset_same. }
    apply H; [exact N| |apply dget_In; exact G]. intros d' I. apply (In_dget _ _ _ N) in I. congruence. }
  rewrite X, NG in E. discriminate.
Qed.
(** The model: the fields of the selected named specifications, and the fields of the base class
    under other names; one validator for each selected specification that has one. *)
Theorem C81_model items o incl excl base r :
  new_operable V T tr items = Ret o -> (forall s, In s o -> built s) -> object_eq V T tr teq ->
  create_model o incl excl base = Ret r ->
  exists l, get_specs o incl excl = Ret l /\
  (forall n f, dget n (fst r) = Some f <->
     (exists s, In s l /\ name s = Some n /\ create_field s = Ret f) \/ ((forall s, In s l -> name s <> Some n) /\ dget n base = Some f)) /\
  (forall k n v, dget k (snd r) = Some (n, v) <->
     exists s x, In s l /\ name s = Some n /\ dget "validator" (s_meta s) = Some (PV x) /\ v = PV x /\ k = String.append n "_validator").
Proof.
  intros NO BU OE. unfold ModelSpec.create_model. destruct (get_specs o incl excl) as [l|e] eqn:GS; [|discriminate]. cbn [bind].
  destruct (field_defs V T tr field_param none l) as [d|e] eqn:FD; [|discriminate]. cbn [bind]. intros E. injection E as <-. exists l. split; [reflexivity|].
  assert (SUB : forall s, In s l -> In s o).
  { intros s I. destruct incl as [ks|], excl as [xs|].
    - cbn in GS. destruct ks, xs; discriminate.
    - destruct ks as [|k ks]; [cbn in GS; injection GS as <-; exact I|]. apply (proj1 (C66_include V T tr teq items o (k :: ks) NO ltac:(discriminate))) in GS.
      destruct (Forall2_In_r _ _ _ s GS I) as (k' & _ & X & _). exact X.
    - destruct (C66_exclude V T tr teq items o xs OE NO) as (l' & X & _ & Y). rewrite X in GS. injection GS as ->. apply Y. exact I.
    - cbn in GS. injection GS as <-. exact I. }
  assert (UN : forall s t, In s l -> In t l -> name s = name t -> s = t).
  { intros s t I J Q. pose proof (C66_get V T tr items o (name s) NO) as [G _]. assert (oget V T tr o (name s) = Some s) as A by (apply G; auto).
    assert (oget V T tr o (name s) = Some t) as A' by (apply G; auto). congruence. }
  assert (NE : forall s n, In s l -> name s = Some n -> n <> "").
  { intros s n I Q. destruct (built_ok V T tr valid_type s (BU s (SUB s I))) as (_ & _ & GN & _). unfold ModelSpec.name, get, getitem in Q.
    destruct (dget "name" (s_meta s)) as [v|] eqn:D; [|discriminate]. destruct (GN v D) as (x & m & -> & A & B). congruence. }
  destruct (field_defs_ok V T tr field_param none l d FD) as [IN _]. cbn [fst snd]. split.
  - intros n f.
    assert (FN : forall n f g, In (n, f) d -> In (n, g) d -> f = g).
    { intros m f1 f2 A B. apply IN in A as (s & I & Q & _ & C). apply IN in B as (t & J & Q' & _ & C'). assert (s = t) as -> by (apply UN; congruence). congruence. }
    rewrite (dset_all d base n FN). destruct (dget n d) as [g|] eqn:D.
    + apply dget_In, IN in D as (s & I & Q & _ & C). split.
      * intros X. injection X as <-. left. eauto.
      * intros [(t & J & Q' & C')|[H _]]; [|exfalso; exact (H s I Q)]. assert (s = t) as -> by (apply UN; congruence). congruence.
    + apply dget_None in D. assert (H : forall s, In s l -> name s <> Some n).
      { intros s I Q. apply D. clear -FD I Q NE. revert d FD. induction l as [|t l IH]; intros d FD; [destruct I|]. cbn in FD.
        destruct I as [->|I].
        - rewrite Q in FD. pose proof (NE s n (or_introl eq_refl) Q) as NN. destruct n as [|c n]; [congruence|]. destruct (create_field s); [|discriminate]. cbn [bind] in FD.
          destruct (field_defs V T tr field_param none l); [|discriminate]. injection FD as <-. left. reflexivity.
        - assert (NE' : forall s n, In s l -> name s = Some n -> n <> "") by (intros; eapply NE; [right|]; eassumption).
          destruct (name t) as [[|c m]|]; [apply (IH NE' I d FD)| |apply (IH NE' I d FD)]. destruct (create_field t); [|discriminate]. cbn [bind] in FD.
          destruct (field_defs V T tr field_param none l) as [r|]; [|discriminate]. injection FD as <-. right. apply (IH NE' I r eq_refl). }
      split; [auto|]. intros [(s & I & Q & _)|[_ X]]; [exfalso; exact (H s I Q)|exact X].
  - intros k n v. rewrite (validators_spec V T tr l k (n, v) UN). cbn [fst snd]. unfold create_validator, get, getitem. split.
    + intros (s & m & I & Q & _ & W & <- & K). destruct (dget "validator" (s_meta s)) as [[| |x]|] eqn:D; try discriminate. injection W as <-. exists s, x. auto.
    + intros (s & x & I & Q & D & -> & K). exists s, n. rewrite D. repeat split; auto. apply (NE s n I Q).
Qed.
(** It fails if the selection fails or one of the fields cannot be made, and only then. *)
Theorem C81_model_error o incl excl base :
  (forall e, create_model o incl excl base = Raise e ->
     get_specs o incl excl = Raise e \/ exists l s n, get_specs o incl excl = Ret l /\ In s l /\ name s = Some n /\ create_field s = Raise e) /\
  (forall e, get_specs o incl excl = Raise e -> create_model o incl excl base = Raise e) /\
  (forall l s n e, get_specs o incl excl = Ret l -> In s l -> name s = Some n -> n <> "" -> create_field s = Raise e ->
     exists e', create_model o incl excl base = Raise e').
Proof.
  unfold ModelSpec.create_model. destruct (get_specs o incl excl) as [l|e']; cbn [bind].
  - split; [|split; [discriminate|]].
    + intros e. destruct (field_defs V T tr field_param none l) as [d|e'] eqn:F; cbn [bind]; [discriminate|]. intros E. injection E as <-. right.
      apply field_defs_raise in F as (s & n & I & N & _ & C). exists l, s, n. auto.
    + intros l' s n e E I N NE C. injection E as <-. destruct (field_defs V T tr field_param none l) as [d|e'] eqn:F; cbn [bind]; [|eauto]. exfalso.
      clear -F I N NE C. revert d F. induction l as [|t l IH]; intros d F; [destruct I|]. cbn in F. destruct I as [->|I].
      * rewrite N, C in F. destruct n; [congruence|discriminate].
      * destruct (name t) as [[|c m]|]; [exact (IH I d F)| |exact (IH I d F)]. destruct (create_field t); [|discriminate]. cbn [bind] in F.
        destruct (field_defs V T tr field_param none l) as [r|]; [|discriminate]. exact (IH I r eq_refl).
  - split; [intros e X; left; injection X as <-; reflexivity|]. split; [intros e X; injection X as <-; reflexivity|discriminate].
Qed.
(** Names of the fields, in order, of a model without base class. *)
Theorem C81_names o incl excl r l :
  get_specs o incl excl = Ret l -> NoDup (map name l) -> create_model o incl excl [] = Ret r -> (forall s n, In s l -> name s = Some n -> n <> "") ->
  map Some (dkeys (fst r)) = filter (fun n => match n with Some _ => true | None => false end) (map name l).
Proof.
  intros GS N. unfold ModelSpec.create_model. rewrite GS. cbn [bind]. destruct (field_defs V T tr field_param none l) as [d|e] eqn:F; [|discriminate].
  cbn [bind]. intros E NE. injection E as <-. cbn [fst]. destruct (field_defs_ok V T tr field_param none l d F) as [_ M].
  assert (D : map Some (map fst d) = filter (fun n => match n with Some _ => true | None => false end) (map name l)).
  { rewrite M. clear -NE. induction l as [|s l IH]; [reflexivity|]. cbn [map somes]. assert (NE' : forall s n, In s l -> name s = Some n -> n <> "") by (intros; eapply NE; [right|]; eassumption).
    specialize (IH NE'). destruct (name s) as [n|] eqn:Q; [|exact IH]. cbn [filter]. pose proof (NE s n (or_introl eq_refl) Q). destruct (eqb_spec n ""); [congruence|]. cbn [negb map]. f_equal. exact IH. }
  rewrite <- D. f_equal.
  assert (ND : NoDup (map fst d)).
  { apply (NoDup_map_inv Some). rewrite D. apply NoDup_filter. exact N. }
  assert (G : forall base, NoDup (dkeys base ++ map fst d) -> dkeys (fold_left (fun acc e => dset (fst e) (snd e) acc) d base) = dkeys base ++ map fst d).
  { clear. induction d as [|[k f] d IH]; intros base ND; cbn [fold_left map fst snd]; [rewrite app_nil_r; reflexivity|]. cbn [map fst] in ND.
    assert (NI : ~ In k (dkeys base)) by (intros I; apply (NoDup_app_split _ _ ND k I); left; reflexivity).
    assert (X : dkeys (dset k f base) ++ map fst d = dkeys base ++ k :: map fst d) by (rewrite dkeys_dset_notin by exact NI; rewrite dkeys_app, <- app_assoc; reflexivity).
    rewrite IH; rewrite X; [reflexivity|exact ND]. }
  apply (G []). exact ND.
Qed.
End Field.
Print Assumptions C81_field. Print Assumptions C81_extra. Print Assumptions C81_own_extra. Print Assumptions C81_error. Print Assumptions C81_both. Print Assumptions C81_model.
Print Assumptions C81_model_error. Print Assumptions C81_names.

(** ** Examples *)
Definition params (k : string) : bool := existsb (eqb k) ["default"; "default_factory"; "alias"; "title"; "description"; "ge"; "json_schema_extra"].
Notation field := (create_field obj string obj_traits params ONone).
Example a_field : field (MkSpec (Some "int") [("name", PV (OStr "age")); ("nullable", PV (OBool true)); ("ge", PV (OInt 0)); ("unit", PV (OStr "y")); ("cls", PV (OClass 3))])
  = Ret (OrNone (Ty "int"), FieldKw [("ge", PV (OInt 0)); ("default", PV ONone)] (Some (Some [("name", PV (OStr "age")); ("unit", PV (OStr "y"))]))).
Proof. reflexivity. Qed.
Example a_model :
  let a := MkSpec (Some "int") [("name", PV (OStr "a")); ("default", PV (OInt 1))] in
  let b := MkSpec (Some "str") [("name", PV (OStr "b")); ("validator", PV (OFun 7 false 0))] in
  let c := MkSpec (Some "str") [] in
  create_model obj string obj_traits eqb params ONone [a; b; c] None None [("z", (AnyT, FieldKw [] None))] =
  Ret ([("z", (AnyT, FieldKw [] None)); ("a", (Ty "int", FieldKw [("default", PV (OInt 1))] (Some (Some [("name", PV (OStr "a"))]))));
        ("b", (Ty "str", FieldKw [] (Some (Some [("name", PV (OStr "b"))]))))], [("b_validator", ("b", PV (OFun 7 false 0)))]) /\
  create_model obj string obj_traits eqb params ONone [a; b; c] None (Some [Some "a"]) [] =
  Ret ([("b", (Ty "str", FieldKw [] (Some (Some [("name", PV (OStr "b"))]))))], [("b_validator", ("b", PV (OFun 7 false 0)))]).
Proof. split; reflexivity. Qed.
(** Metadata before a json_schema_extra of one's own is lost; after one that is no dict it raises. *)
Theorem C81_extra_refuted :
  field (MkSpec (Some "int") [("unit", PV (OStr "y")); ("json_schema_extra", PV (ODict [("x", PV (OInt 1))]))])
    = Ret (Ty "int", FieldKw [] (Some (Some [("x", PV (OInt 1))]))) /\
  field (MkSpec (Some "int") [("json_schema_extra", PV (OFun 1 false 0)); ("unit", PV (OStr "y"))]) = Raise TypeError.
Proof. split; reflexivity. Qed.
(** A specification whose default is a callable gives the callable, its field calls it; with a falsy
    default and a factory the specification can be built, but no field. *)
Theorem C81_default_refuted :
  let s := MkSpec (Some "int") [("default", PV (OFun 1 false 5))] in
  let t := MkSpec (Some "int") [("default", PV (OInt 0)); ("default_factory", PV (OFun 1 false 5))] in
  create_default obj string obj_traits s = Ret (PV (OFun 1 false 5)) /\
  field s = Ret (Ty "int", FieldKw [("default_factory", PV (OFun 1 false 5))] None) /\
  ospec (Some "int") [] [] (s_meta t) = Ret t /\ field t = Raise TypeError.
Proof. repeat split; reflexivity. Qed.
Print Assumptions C81_extra_refuted. Print Assumptions C81_default_refuted.
