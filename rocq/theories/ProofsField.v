(** Proofs about the pydantic fields of ModelSpec. *)
From Coq Require Import String.
From Coq Require Import List Bool Arith ZArith Lia.
From Verif Require Import PyBase PyFacts ModelParams ModelSpec SpecSpec ProofsGuard ProofsSpec.
Import ListNotations.
Local Open Scope string_scope.
Local Open Scope nat_scope.
Local Open Scope list_scope.
#[local] Arguments eqb : simpl never.

Section Field.
Variables (V T : Type) (tr : traits V) (valid_type : T -> bool) (teq : T -> T -> bool) (field_param : string -> bool) (none : V).
Notation pval := (pval V). Notation meta := (meta V). Notation spec := (spec V T).
Notation field_step := (field_step V tr field_param).
Notation create_field := (create_field V T tr field_param none).
Notation name := (name V T tr).

(** k is handed to Field as it is. *)
Definition passed (k : string) : bool :=
  negb (eqb k "default") && negb (eqb k "validator") && negb (eqb k "json_schema_extra") && field_param k.
(** The entry goes to json_schema_extra. *)
Definition custom (m : meta) : bool :=
  let '(k, v) := m in
  negb (eqb k "default") && negb (eqb k "validator") && negb (eqb k "json_schema_extra") && negb (field_param k)
  && negb (eqb k "nullable" || eqb k "listable") && negb (match v with PV v => is_type tr v | _ => false end).
Definition kwstep (d : dict string pval) (m : meta) : dict string pval :=
  let '(k, v) := m in
  if eqb k "default" then dset (if pcallable V tr v then "default_factory" else "default") v d
  else if passed k then dset k v d else d.
Definition exstep (acc : outcome (option (option (dict string pval)))) (m : meta) : outcome (option (option (dict string pval))) :=
  bind acc (fun x =>
    if eqb (fst m) "json_schema_extra" then Ret (Some (match snd m with PV v => as_dict tr v | _ => None end))
    else if custom m then match x with
                          | None => Ret (Some (Some [m]))
                          | Some (Some d) => Ret (Some (Some (dset (fst m) (snd m) d)))
                          | Some None => Raise TypeError end
    else Ret x).
Lemma step_split f m :
  field_step (Ret f) m = match exstep (Ret (f_extra f)) m with Ret x => Ret (FieldKw (kwstep (f_kw f) m) x) | Raise e => Raise e end.
Proof.
  destruct m as [k v], f as [d x]. unfold ModelSpec.field_step, exstep, kwstep, custom, passed. cbn [bind f_kw f_extra fst snd].
  destruct (eqb_spec k "default") as [->|]; [reflexivity|]. destruct (eqb_spec k "validator") as [->|]; [reflexivity|].
  destruct (eqb_spec k "json_schema_extra") as [->|]; [reflexivity|]. cbn [negb andb]. destruct (field_param k); cbn [negb andb]; [reflexivity|].
  destruct (eqb k "nullable" || eqb k "listable"); cbn [negb andb]; [reflexivity|].
  destruct v as [| |v]; [| |destruct (is_type tr v); cbn [negb]; [reflexivity|]]; destruct x as [[|]|]; reflexivity.
Qed.
Lemma fold_raise l e : fold_left field_step l (Raise e) = Raise e.
Proof. induction l as [|m l IH]; [reflexivity|exact IH]. Qed.
Lemma exfold_raise l e : fold_left exstep l (Raise e) = Raise e.
Proof. induction l as [|m l IH]; [reflexivity|exact IH]. Qed.
Lemma fold_split l f :
  fold_left field_step l (Ret f) = match fold_left exstep l (Ret (f_extra f)) with Ret x => Ret (FieldKw (fold_left kwstep l (f_kw f)) x) | Raise e => Raise e end.
Proof.
  revert f. induction l as [|m l IH]; intros f; [destruct f; reflexivity|]. cbn [fold_left]. rewrite step_split.
  destruct (exstep (Ret (f_extra f)) m) as [x|e]; [apply IH|]. rewrite fold_raise, exfold_raise. reflexivity.
Qed.
(** The keyword arguments. *)
Lemma kw_other l k : NoDup (map fst l) -> k <> "default" -> k <> "default_factory" ->
  dget k (fold_left kwstep l []) = if passed k then dget k l else None.
Proof.
  intros N A B. induction l as [|[k' v] l IH] using rev_ind; [destruct (passed k); reflexivity|].
  rewrite map_app in N. assert (NI : ~ In k' (map fst l)) by (intros I; apply (NoDup_app_split _ _ N k' I); left; reflexivity).
  specialize (IH (NoDup_app_l _ _ N)). rewrite fold_left_app, dget_app. cbn [fold_left kwstep]. cbn [dget].
  destruct (eqb_spec k' "default") as [->|].
  - rewrite dget_dset_other by (destruct (pcallable V tr v); congruence). rewrite IH. destruct (passed k); [|reflexivity]. destruct (dget k l); [reflexivity|].
    destruct (eqb_spec k "default"); [congruence|reflexivity].
  - destruct (eqb_spec k k') as [->|NK].
    + destruct (passed k'); [rewrite dget_dset_same|exact IH]. destruct (dget k' l) eqn:G; [|reflexivity]. apply dget_In, (in_map fst) in G. contradiction.
    + destruct (passed k') eqn:P; [rewrite dget_dset_other by congruence|]; rewrite IH; destruct (passed k), (dget k l); reflexivity.
Qed.
Lemma passed_default : passed "default" = false. Proof. reflexivity. Qed.
Hypothesis factory_param : field_param "default_factory" = true.
Lemma passed_factory : passed "default_factory" = true. Proof. unfold passed. rewrite factory_param. reflexivity. Qed.
Lemma kw_default' l : NoDup (map fst l) ->
  dget "default" (fold_left kwstep l []) = match dget "default" l with Some v => if pcallable V tr v then None else Some v | None => None end.
Proof.
  intros N. induction l as [|[k' v] l IH] using rev_ind; [reflexivity|].
  rewrite map_app in N. assert (NI : ~ In k' (map fst l)) by (intros I; apply (NoDup_app_split _ _ N k' I); left; reflexivity).
  specialize (IH (NoDup_app_l _ _ N)). rewrite fold_left_app, dget_app. cbn [fold_left kwstep]. cbn [dget].
  destruct (eqb_spec k' "default") as [->|NK].
  - destruct (eqb_spec "default" "default") as [_|]; [|congruence]. destruct (dget "default" l) eqn:G; [apply dget_In, (in_map fst) in G; contradiction|].
    destruct (pcallable V tr v); [rewrite dget_dset_other by discriminate; exact IH|apply dget_dset_same].
  - destruct (eqb_spec "default" k'); [congruence|]. destruct (passed k'); [rewrite dget_dset_other by congruence|]; rewrite IH; destruct (dget "default" l); reflexivity.
Qed.
Lemma kw_factory' l : NoDup (map fst l) -> (dget "default" l = None \/ dget "default_factory" l = None) ->
  dget "default_factory" (fold_left kwstep l []) = match dget "default" l with Some v => if pcallable V tr v then Some v else None | None => dget "default_factory" l end.
Proof.
  intros N. induction l as [|[k' v] l IH] using rev_ind; [reflexivity|]. intros D.
  rewrite map_app in N. assert (NI : ~ In k' (map fst l)) by (intros I; apply (NoDup_app_split _ _ N k' I); left; reflexivity).
  rewrite fold_left_app. rewrite !dget_app in *. cbn [fold_left kwstep]. cbn [dget] in *.
  assert (IH' := IH (NoDup_app_l _ _ N)). clear IH. pose proof passed_factory as PF.
  destruct (eqb_spec k' "default") as [->|NK].
  - destruct (eqb_spec "default" "default") as [_|]; [|congruence]. destruct (eqb_spec "default_factory" "default"); [discriminate|].
    destruct (dget "default" l) eqn:G; [apply dget_In, (in_map fst) in G; contradiction|].
    destruct D as [D|D]; [discriminate|]. destruct (dget "default_factory" l); [discriminate|]. specialize (IH' (or_introl eq_refl)).
    destruct (pcallable V tr v); [apply dget_dset_same|rewrite dget_dset_other by discriminate; exact IH'].
  - destruct (eqb_spec "default" k'); [congruence|]. destruct (eqb_spec "default_factory" k') as [<-|NF].
    + rewrite PF, dget_dset_same. destruct (dget "default_factory" l) eqn:G; [apply dget_In, (in_map fst) in G; contradiction|].
      destruct (dget "default" l); [destruct D; discriminate|reflexivity].
    + assert (X : dget "default" l = None \/ dget "default_factory" l = None) by (destruct (dget "default" l), (dget "default_factory" l); auto).
      specialize (IH' X). destruct (passed k'); [rewrite dget_dset_other by congruence|]; rewrite IH'; destruct (dget "default" l), (dget "default_factory" l); reflexivity.
Qed.
(** The extras. *)
Definition no_json (l : list meta) : Prop := ~ In "json_schema_extra" (map fst l).
Definition has_custom (l : list meta) : bool := existsb custom l.
Definition get_custom (k : string) (l : list meta) : option pval := dget k (filter custom l).
Lemma custom_pass l x : no_json l -> has_custom l = false -> fold_left exstep l (Ret x) = Ret x.
Proof.
  revert x. induction l as [|m l IH]; intros x N H; [reflexivity|]. cbn in H. apply orb_false_iff in H as [H1 H2]. cbn [fold_left]. unfold exstep at 2. cbn [bind].
  destruct (eqb_spec (fst m) "json_schema_extra") as [E|]; [exfalso; apply N; left; exact E|]. rewrite H1. apply IH; [intros I; apply N; right; exact I|exact H2].
Qed.
Lemma custom_bad l : no_json l -> has_custom l = true -> fold_left exstep l (Ret (Some None)) = Raise TypeError.
Proof.
  induction l as [|m l IH]; intros N H; [discriminate|]. cbn in H. cbn [fold_left]. unfold exstep at 2. cbn [bind].
  destruct (eqb_spec (fst m) "json_schema_extra") as [E|]; [exfalso; apply N; left; exact E|]. destruct (custom m); [apply exfold_raise|].
  apply IH; [intros I; apply N; right; exact I|exact H].
Qed.
Lemma get_custom_cons k a v l : get_custom k ((a, v) :: l) = if custom (a, v) then if eqb k a then Some v else get_custom k l else get_custom k l.
Proof. unfold get_custom. cbn [filter]. destruct (custom (a, v)); reflexivity. Qed.
Lemma custom_dict l d : no_json l -> NoDup (map fst l) -> exists d', fold_left exstep l (Ret (Some (Some d))) = Ret (Some (Some d')) /\
  forall k, dget k d' = match get_custom k l with Some v => Some v | None => dget k d end.
Proof.
  revert d. induction l as [|[a v] l IH]; intros d N ND; [exists d; split; [reflexivity|reflexivity]|]. cbn [fold_left]. unfold exstep at 2. cbn [bind fst snd].
  inversion ND as [|? ? NI ND']; subst. assert (no_json l) as N' by (intros I; apply N; right; exact I).
  destruct (eqb_spec a "json_schema_extra") as [E|]; [exfalso; apply N; left; exact E|]. destruct (custom (a, v)) eqn:C.
  - destruct (IH (dset a v d) N' ND') as (d' & F & G). exists d'. split; [exact F|]. intros k. rewrite G, get_custom_cons, C.
    destruct (eqb_spec k a) as [->|]; [|rewrite dget_dset_other by congruence; reflexivity]. rewrite dget_dset_same.
    destruct (get_custom a l) eqn:Q; [|reflexivity]. apply dget_In, filter_In in Q as [Q _]. apply (in_map fst) in Q. contradiction.
  - destruct (IH d N' ND') as (d' & F & G). exists d'. split; [exact F|]. intros k. rewrite G, get_custom_cons, C. reflexivity.
Qed.
Lemma custom_none l : no_json l -> NoDup (map fst l) -> has_custom l = true -> exists d', fold_left exstep l (Ret None) = Ret (Some (Some d')) /\
  forall k, dget k d' = get_custom k l.
Proof.
  induction l as [|[a v] l IH]; intros N ND H; [discriminate|]. unfold has_custom in H. cbn [existsb] in H. cbn [fold_left]. unfold exstep at 2. cbn [bind fst snd].
  inversion ND as [|? ? NI ND']; subst. assert (no_json l) as N' by (intros I; apply N; right; exact I).
  destruct (eqb_spec a "json_schema_extra") as [E|]; [exfalso; apply N; left; exact E|]. destruct (custom (a, v)) eqn:C.
  - destruct (custom_dict l [(a, v)] N' ND') as (d' & F & G). exists d'. split; [exact F|]. intros k. rewrite G, get_custom_cons, C. cbn [dget].
    destruct (eqb_spec k a) as [->|]; [|destruct (get_custom k l); reflexivity].
    destruct (get_custom a l) eqn:Q; [|reflexivity]. apply dget_In, filter_In in Q as [Q _]. apply (in_map fst) in Q. contradiction.
  - destruct (IH N' ND' H) as (d' & F & G). exists d'. split; [exact F|]. intros k. rewrite G, get_custom_cons, C. reflexivity.
Qed.
(** create_field after the loop. *)
Definition nullable_kw (s : spec) (d : dict string pval) : dict string pval :=
  if is_nullable V T tr s && negb (dmem "default" d) && negb (dmem "default_factory" d) then dset "default" (PV none) d else d.
Lemma create_field_eq s : create_field s =
  match fold_left exstep (s_meta s) (Ret None) with
  | Raise e => Raise e
  | Ret x => let d := nullable_kw s (fold_left kwstep (s_meta s) []) in
             match dget "default" d, dget "default_factory" d with
             | Some _, Some (PV g) => if is_none tr g then Ret (annotation V T tr s, FieldKw d x) else Raise TypeError
             | Some _, Some _ => Raise TypeError
             | _, _ => Ret (annotation V T tr s, FieldKw d x)
             end
  end.
Proof.
  unfold ModelSpec.create_field. rewrite fold_split. cbn [f_extra f_kw]. destruct (fold_left exstep (s_meta s) (Ret None)) as [x|e]; [|reflexivity].
  cbn [bind f_kw]. unfold nullable_kw. cbv zeta. destruct (is_nullable V T tr s && _ && _); reflexivity.
Qed.
Lemma nullable_kw_other s d k : k <> "default" -> dget k (nullable_kw s d) = dget k d.
Proof. intros N. unfold nullable_kw. destruct (_ && _); [apply dget_dset_other; congruence|reflexivity]. Qed.
Lemma nullable_kw_default s d : dget "default" (nullable_kw s d) =
  match dget "default" d, dget "default_factory" d with None, None => if is_nullable V T tr s then Some (PV none) else None | x, _ => x end.
Proof.
  unfold nullable_kw, dmem. destruct (dget "default" d) as [v|] eqn:A; cbn [negb]; [rewrite andb_false_r; cbn [andb]; exact A|].
  destruct (dget "default_factory" d); cbn [negb]; [rewrite !andb_false_r; exact A|]. rewrite !andb_true_r. destruct (is_nullable V T tr s); [apply dget_dset_same|exact A].
Qed.
(** field_defs and create_model *)
Lemma field_defs_ok l d : field_defs V T tr field_param none l = Ret d ->
  (forall n f, In (n, f) d <-> exists s, In s l /\ name s = Some n /\ n <> "" /\ create_field s = Ret f) /\
  map fst d = filter (fun n => negb (eqb n "")) (somes (map name l)).
Proof.
  revert d. induction l as [|s l IH]; intros d H; cbn in H.
  - injection H as <-. split; [|reflexivity]. intros n f. split; [intros []|intros (s & [] & _)].
  - destruct (name s) as [n|] eqn:N.
    + destruct (eqb_spec n "") as [->|NE].
      * destruct (IH d H) as [A B]. split; [|cbn; rewrite N; exact B]. intros n f. rewrite A. split; intros (t & I & X); exists t; [cbn; auto|].
        destruct I as [<-|I]; [|auto]. destruct X as (X & Y & _). congruence.
      * assert (bind (create_field s) (fun f => bind (field_defs V T tr field_param none l) (fun r => Ret ((n, f) :: r))) = Ret d) as H'
          by (destruct n; [congruence|exact H]).
        destruct (create_field s) as [f0|e] eqn:C; [|discriminate]. cbn [bind] in H'. destruct (field_defs V T tr field_param none l) as [r|e]; [|discriminate].
        cbn [bind] in H'. injection H' as <-. destruct (IH r eq_refl) as [A B]. split.
        -- intros n' f. cbn [In]. rewrite A. split.
           ++ intros [E|(t & I & X)]; [injection E as <- <-; exists s; auto|exists t; auto].
           ++ intros (t & [<-|I] & X); [left; destruct X as (X & _ & Y); congruence|right; exists t; auto].
        -- cbn [map fst somes]. rewrite N. cbn [somes filter]. destruct (eqb_spec n ""); [congruence|]. cbn [negb]. f_equal. exact B.
    + destruct (IH d H) as [A B]. split; [|cbn; rewrite N; exact B]. intros n f. rewrite A. split; intros (t & I & X); exists t; [cbn; auto|].
      destruct I as [<-|I]; [|auto]. destruct X as (X & _). congruence.
Qed.
Lemma field_defs_raise l e : field_defs V T tr field_param none l = Raise e ->
  exists s n, In s l /\ name s = Some n /\ n <> "" /\ create_field s = Raise e.
Proof.
  induction l as [|s l IH]; cbn; [discriminate|]. destruct (name s) as [n|] eqn:N.
  - intros H. destruct (eqb_spec n "") as [->|NE].
    + destruct (IH H) as (t & n & I & X). exists t, n. auto.
    + assert (bind (create_field s) (fun f => bind (field_defs V T tr field_param none l) (fun r => Ret ((n, f) :: r))) = Raise e) as H'
        by (destruct n; [congruence|exact H]).
      destruct (create_field s) as [f0|e'] eqn:C; cbn [bind] in H'; [|injection H' as <-; exists s, n; auto].
      destruct (field_defs V T tr field_param none l) as [r|e']; [discriminate|]. cbn [bind] in H'. injection H' as <-.
      destruct (IH eq_refl) as (t & n' & I & X). exists t, n'. auto.
  - intros H. destruct (IH H) as (t & n & I & X). exists t, n. auto.
Qed.
Lemma dset_all {A} (d : list (string * A)) base n :
  (forall n f g, In (n, f) d -> In (n, g) d -> f = g) ->
  dget n (fold_left (fun acc e => dset (fst e) (snd e) acc) d base) = match dget n d with Some f => Some f | None => dget n base end.
Proof.
  revert base. induction d as [|[a f] d IH]; intros base F; cbn [fold_left fst snd]; [reflexivity|].
  rewrite IH by (intros; eapply F; right; eassumption). cbn [dget]. destruct (eqb_spec n a) as [->|NE].
  - rewrite dget_dset_same. destruct (dget a d) as [g|] eqn:G; [|reflexivity]. f_equal. apply dget_In in G. apply (F a g f); [right; exact G|left; reflexivity].
  - rewrite dget_dset_other by congruence. reflexivity.
Qed.
Lemma validators_spec (l : list spec) k x : (forall s t, In s l -> In t l -> name s = name t -> s = t) ->
  dget k (validators V T tr l) = Some x <-> exists s n, In s l /\ name s = Some n /\ n <> "" /\ create_validator V T s = Some (snd x) /\ fst x = n /\ k = String.append n "_validator".
Proof.
  unfold validators. induction l as [|s l IH] using rev_ind; intros F.
  - cbn. split; [discriminate|]. intros (s & n & [] & _).
  - rewrite fold_left_app. cbn [fold_left].
    assert (F' : forall s t, In s l -> In t l -> name s = name t -> s = t) by (intros; apply F; auto; apply in_or_app; auto). specialize (IH F').
    assert (OLD : dget k (fold_left (fun d s => match name s, create_validator V T s with
                        | Some n, Some v => if eqb n "" then d else dset (String.append n "_validator") (n, v) d
                        | _, _ => d end) l []) = Some x ->
        exists s0 n, In s0 (l ++ [s]) /\ name s0 = Some n /\ n <> "" /\ create_validator V T s0 = Some (snd x) /\ fst x = n /\ k = String.append n "_validator").
    { intros G. apply IH in G as (t & n & I & X). exists t, n. split; [apply in_or_app; auto|exact X]. }
    assert (DEC : forall n m, String.append n "_validator" = String.append m "_validator" -> n = m).
    { clear. induction n as [|a n IHn]; intros [|b m]; cbn; intros E.
      - reflexivity.
      - exfalso. apply (f_equal String.length) in E. cbn in E. assert (forall a b, String.length (String.append a b) = String.length a + String.length b) as LA by (induction a; cbn; intros; [reflexivity|f_equal; auto]). rewrite LA in E. cbn in E. lia.
      - exfalso. apply (f_equal String.length) in E. cbn in E. assert (forall a b, String.length (String.append a b) = String.length a + String.length b) as LA by (induction a0; cbn; intros; [reflexivity|f_equal; auto]). rewrite LA in E. cbn in E. lia.
      - injection E as -> E. f_equal. apply IHn. exact E. }
    destruct (name s) as [n|] eqn:N, (create_validator V T s) as [v|] eqn:W; try destruct (eqb_spec n "") as [E0|NE];
    try (split; [exact OLD|]; intros (t & m & I & X); apply IH; apply in_app_iff in I as [I|[I|[]]]; [exists t, m; auto|]; subst t; destruct X as (X1 & X2 & X3 & _); congruence).
    destruct (eqb_spec k (String.append n "_validator")) as [->|NK].
    + rewrite dget_dset_same. split.
      * intros E. injection E as <-. exists s, n. repeat split; auto. apply in_or_app. cbn. auto.
      * intros (t & m & I & X1 & X2 & X3 & X4 & X5). apply DEC in X5. subst m. assert (t = s) as ->. { apply F; [exact I|apply in_or_app; cbn; auto|congruence]. }
        rewrite X3 in W. injection W as <-. destruct x; cbn in *; subst; reflexivity.
    + rewrite dget_dset_other by congruence. split; [exact OLD|]. intros (t & m & I & X). apply IH. apply in_app_iff in I as [I|[I|[]]]; [exists t, m; auto|]. subst t.
      destruct X as (X1 & X2 & X3 & X4 & X5). congruence.
Qed.
End Field.
