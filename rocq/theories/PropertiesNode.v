(** C91: embeddings are lists of floats and round-trip if they are finite.
    C92: the content of a node and the classes it is loaded as. *)
From Coq Require Import String Ascii.
From Coq Require Import List Bool ZArith Lia.
From Verif Require Import PyBase PyFacts ModelNode.
Import ListNotations.
Local Open Scope list_scope.
Local Open Scope string_scope.

#[local] Arguments eqb : simpl never.

(** * C91 *)
Section C91.
  Variable num txt : Type.
  Variable of_int : Z -> option num.
  Variable loads : txt -> outcome (val num txt).
  Notation flt := (flt num).
  Notation val := (val num txt).
  Notation validate := (validate_embedding num txt of_int loads).

  (** The float of a number; a bool counts as 0 or 1. *)
  Inductive float_of : val -> flt -> Prop :=
  | fo_float f : float_of (VFloat _ _ f) f
  | fo_int z q : of_int z = Some q -> float_of (VInt _ _ z) (Fin _ q)
  | fo_true q : of_int 1 = Some q -> float_of (VBool _ _ true) (Fin _ q)
  | fo_false q : of_int 0 = Some q -> float_of (VBool _ _ false) (Fin _ q).
  Definition is_number (v : val) : Prop :=
    (exists b, v = VBool _ _ b) \/ (exists z, v = VInt _ _ z) \/ (exists f, v = VFloat _ _ f).

  (** The list that is meant: given as such or as a JSON text. *)
  Inductive means : val -> list val -> Prop :=
  | m_list l : means (VList _ _ l) l
  | m_text t l : loads t = Ret (VList _ _ l) -> means (VText _ _ t) l.

  Lemma to_float_spec v f : to_float num txt of_int v = Ret f <-> float_of v f.
  Proof.
    split.
    - destruct v as [|b|z|g|t|l|]; cbn; try discriminate.
      + destruct b.
        * destruct (of_int 1) eqn:E; [|discriminate]. intros [= <-]. constructor. exact E.
        * destruct (of_int 0) eqn:E; [|discriminate]. intros [= <-]. constructor. exact E.
      + destruct (of_int z) eqn:E; [|discriminate]. intros [= <-]. constructor. exact E.
      + intros [= <-]. constructor.
    - intros []; cbn; try rewrite H; reflexivity.
  Qed.
  Lemma to_floats_spec l fs : to_floats num txt of_int l = Ret fs <-> Forall2 float_of l fs.
  Proof.
    revert fs. induction l as [|v l IH]; intro fs; cbn [to_floats].
    - split; [intros [= <-]; constructor|intro F; inversion F; reflexivity].
    - split.
      + intro H. destruct (to_float num txt of_int v) as [f|] eqn:E; [|discriminate]. cbn [bind] in H.
        destruct (to_floats num txt of_int l) as [gs|] eqn:G; [|discriminate]. injection H as <-.
        constructor; [apply to_float_spec, E|apply IH; reflexivity].
      + intro F. inversion F as [|? f ? gs A B]; subst. apply to_float_spec in A. rewrite A. cbn [bind].
        rewrite (proj2 (IH gs) B). reflexivity.
  Qed.
  Lemma numeric_spec v : numeric num txt v = true <-> is_number v.
  Proof.
    unfold is_number. destruct v; cbn; split; try discriminate; eauto;
      intros [[? H]|[[? H]|[? H]]]; try discriminate; reflexivity.
  Qed.
  Lemma float_number v f : float_of v f -> is_number v.
  Proof. unfold is_number. intros []; eauto. Qed.
  Lemma Forall2_numbers l fs : Forall2 float_of l fs -> forallb (numeric num txt) l = true.
  Proof.
    induction 1 as [|v f l fs A F IH]; [reflexivity|]. cbn [forallb]. rewrite IH.
    rewrite (proj2 (numeric_spec v) (float_number _ _ A)). reflexivity.
  Qed.

  (** Accepted are None and non-empty lists of numbers, given as such or as JSON; the
      embedding holds their floats in order. *)
  Theorem C91_accepted v e : validate v = Ret e <->
    (v = VNone _ _ /\ e = None) \/
    (exists l fs, means v l /\ l <> [] /\ Forall2 float_of l fs /\ e = Some fs).
  Proof.
    assert (CL : forall v e, check_list num txt of_int v = Ret e <->
              exists l fs, v = VList _ _ l /\ l <> [] /\ Forall2 float_of l fs /\ e = Some fs).
    { intros w e'. split.
      - destruct w as [| | | | |[|x l]|]; cbn [check_list]; try discriminate.
        destruct (forallb _ _); [|discriminate].
        destruct (to_floats num txt of_int (x :: l)) as [fs|] eqn:F; [|discriminate]. intros [= <-].
        exists (x :: l), fs. repeat split; [discriminate|apply to_floats_spec, F].
      - intros (l & fs & -> & NE & F & ->). destruct l as [|x l]; [congruence|]. cbn [check_list].
        rewrite (Forall2_numbers _ _ F). apply to_floats_spec in F. rewrite F. reflexivity. }
    destruct v as [|b|z|f|t|l|]; cbn [validate_embedding].
    - split; [intros [= <-]; left; split; reflexivity|]. intros [[_ ->]|(l & fs & M & _)]; [reflexivity|inversion M].
    - rewrite CL. split; [intros (l & fs & [=] & _)|intros [[[=] _]|(l & fs & M & _)]; inversion M].
    - rewrite CL. split; [intros (l & fs & [=] & _)|intros [[[=] _]|(l & fs & M & _)]; inversion M].
    - rewrite CL. split; [intros (l & fs & [=] & _)|intros [[[=] _]|(l & fs & M & _)]; inversion M].
    - split.
      + destruct (loads t) as [w|] eqn:L; [|discriminate]. intro H. apply CL in H.
        destruct H as (l & fs & -> & H). right. exists l, fs. split; [constructor; exact L|exact H].
      + intros [[[=] _]|(l & fs & M & H)]. inversion M as [|? ? L]; subst. rewrite L. apply CL. exists l, fs. tauto.
    - rewrite CL. split.
      + intros (l' & fs & [= <-] & H). right. exists l, fs. split; [constructor|exact H].
      + intros [[[=] _]|(l' & fs & M & H)]. inversion M; subst. exists l', fs. tauto.
    - rewrite CL. split; [intros (l & fs & [=] & _)|intros [[[=] _]|(l & fs & M & _)]; inversion M].
  Qed.

  (** Everything else is a ValueError, except that a list of numbers with an integer
      that no float can hold is an OverflowError. *)
  Theorem C91_refused v ex : validate v = Raise ex ->
    ex = ValueError \/
    (ex = OtherErr /\ exists l, means v l /\ Forall is_number l /\ exists z, of_int z = None).
  Proof.
    assert (CL : forall v ex, check_list num txt of_int v = Raise ex -> ex = ValueError \/
              (ex = OtherErr /\ exists l, v = VList _ _ l /\ Forall is_number l /\ exists z, of_int z = None)).
    { intros w e. destruct w as [| | | | |[|x l]|]; cbn [check_list]; try (intros [= <-]; left; reflexivity).
      destruct (forallb (numeric num txt) (x :: l)) eqn:N; [|intros [= <-]; left; reflexivity].
      assert (FN : Forall is_number (x :: l)).
      { apply Forall_forall. intros y I. apply numeric_spec. rewrite forallb_forall in N. apply N, I. }
      intro H. right.
      assert (X : forall l, Forall is_number l -> forall e, to_floats num txt of_int l = Raise e -> e = OtherErr /\ exists z, of_int z = None).
      { clear. induction l as [|y l IH]; intros F e H; [discriminate|]. inversion F as [|? ? Y F']; subst. cbn [to_floats] in H.
        destruct (to_float num txt of_int y) as [f|e'] eqn:E; cbn [bind] in H.
        - destruct (to_floats num txt of_int l) as [gs|e'] eqn:G; [discriminate|]. cbn [bind] in H. injection H as <-.
          apply (IH F' e' eq_refl).
        - injection H as <-. destruct Y as [[b ->]|[[z ->]|[f ->]]]; cbn in E.
          + destruct (of_int (if b then 1%Z else 0%Z)) eqn:Z; [discriminate|]. injection E as <-. eauto.
          + destruct (of_int z) eqn:Z; [discriminate|]. injection E as <-. eauto.
          + discriminate. }
      destruct (to_floats num txt of_int (x :: l)) as [fs|e'] eqn:F; [discriminate|]. cbn [bind] in H. injection H as <-.
      destruct (X _ FN e' F) as [-> Z]. split; [reflexivity|]. exists (x :: l). auto. }
    destruct v as [|b|z|f|t|l|]; cbn [validate_embedding]; intro H; try discriminate;
      try (apply CL in H; destruct H as [->|[_ (l' & [=] & _)]]; left; reflexivity).
    - destruct (loads t) as [w|] eqn:L; [|injection H as <-; left; reflexivity].
      apply CL in H. destruct H as [->|[-> (l & -> & H)]]; [left; reflexivity|].
      right. split; [reflexivity|]. exists l. split; [constructor; exact L|exact H].
    - apply CL in H. destruct H as [->|[-> (l' & [= <-] & H)]]; [left; reflexivity|].
      right. split; [reflexivity|]. exists l. split; [constructor|exact H].
  Qed.

  Variable orjson_dumps json_dumps : list flt -> txt.
  Definition finite (f : flt) : Prop := exists q, f = Fin _ q.
  (** What is assumed of the JSON writers: finite floats are read back exactly; orjson
      writes the others as null, json writes names that orjson refuses. *)
  Hypothesis orjson_back : forall l, exists w, loads (orjson_dumps l) = Ret (VList _ _ w) /\
    Forall2 (fun f v => v = match f with Fin _ q => VFloat _ _ (Fin _ q) | _ => VNone _ _ end) l w.
  Hypothesis json_back : forall l, Forall finite l -> exists w, loads (json_dumps l) = Ret (VList _ _ w) /\
    Forall2 (fun f v => v = VFloat _ _ f) l w.
  Hypothesis json_fails : forall l, ~ Forall finite l -> exists e, loads (json_dumps l) = Raise e.
  Notation dump := (dump_embedding num txt orjson_dumps json_dumps).

  Lemma finite_dec l : Forall finite l \/ ~ Forall finite l.
  Proof.
    induction l as [|f l IH]; [left; constructor|]. destruct f as [q|b|].
    - destruct IH as [IH|IH]; [left; constructor; [exists q; reflexivity|exact IH]|].
      right. intro H. inversion H. tauto.
    - right. intro H. inversion H as [|? ? [q E] ?]. discriminate.
    - right. intro H. inversion H as [|? ? [q E] ?]. discriminate.
  Qed.

  Definition json_val (f : flt) : val := match f with Fin _ q => VFloat _ _ (Fin _ q) | _ => VNone _ _ end.
  Lemma json_vals_finite l : Forall finite l -> Forall2 float_of (map json_val l) l.
  Proof. induction 1 as [|f l [q ->] F IH]; constructor; [constructor|exact IH]. Qed.
  Lemma json_vals_back l fs : Forall2 float_of (map json_val l) fs -> Forall finite l.
  Proof.
    revert fs. induction l as [|f l IH]; intros fs F; [constructor|]. inversion F as [|? g ? gs A B]; subst.
    destruct f as [q|b|]; cbn in A; [|inversion A|inversion A]. constructor; [exists q; reflexivity|apply (IH _ B)].
  Qed.

  (** A finite embedding comes back as it was from every mode and format; one that is
      not finite comes back only from python mode without a format, and is otherwise
      refused with ValueError. *)
  Theorem C91_roundtrip m f ctx e : (forall l, e = Some l -> l <> []) ->
    (e = None \/ (exists l, e = Some l /\ Forall finite l) -> validate (dump m f ctx e) = Ret e) /\
    (forall l, e = Some l -> ~ Forall finite l ->
       (m = Python -> ctx = None \/ ctx = Some None -> validate (dump m f ctx e) = Ret e) /\
       (m <> Python -> validate (dump m f ctx e) = Raise ValueError)).
  Proof.
    intro NE.
    assert (EQ : forall l w, Forall2 (fun f v => v = json_val f) l w -> w = map json_val l).
    { induction 1; cbn; congruence. }
    assert (EQ2 : forall l w, Forall2 (fun f v => v = VFloat num txt f) l w -> w = map (VFloat num txt) l).
    { induction 1; cbn; congruence. }
    assert (ID : forall l, Forall2 float_of (map (VFloat num txt) l) l) by (induction l; constructor; [constructor|assumption]).
    assert (NM : forall (A : flt -> val) l, l <> [] -> map A l <> []) by (intros A [|x l]; cbn; congruence).
    assert (JV : forall l, map (json_float num txt) l = map json_val l) by reflexivity.
    assert (OK : forall v l fs, means v l -> l <> [] -> Forall2 float_of l fs -> validate v = Ret (Some fs)).
    { intros v l fs M N F. apply C91_accepted. right. exists l, fs. auto. }
    assert (BAD : forall v l, ~ Forall finite l -> means v (map json_val l) -> validate v = Raise ValueError).
    { intros v l NF M. destruct (validate v) as [r|ex] eqn:V.
      - exfalso. apply C91_accepted in V. destruct V as [[-> _]|(k & fs & M' & _ & F & _)]; [inversion M|].
        apply NF. apply (json_vals_back l fs). replace (map json_val l) with k; [exact F|].
        inversion M; inversion M'; subst; congruence.
      - destruct (C91_refused _ _ V) as [->|[_ (k & M' & N & _)]]; [reflexivity|].
        exfalso. apply NF. replace k with (map json_val l) in N by (inversion M; inversion M'; subst; congruence).
        clear - N. induction l as [|g l IH]; [constructor|]. inversion N as [|? ? A B]; subst.
        destruct g as [q|b|]; [constructor; [exists q; reflexivity|apply IH, B]| |];
          destruct A as [[? [=]]|[[? [=]]|[? [=]]]]. }
    split.
    - intros [->|(l & -> & F)]; [reflexivity|].
      assert (N : l <> []) by (apply NE; reflexivity).
      destruct (orjson_back l) as (w & W & FW). apply EQ in FW. subst w.
      destruct (json_back l F) as (w & W' & FW). apply EQ2 in FW. subst w.
      unfold dump_embedding. destruct (fst (with_format m f ctx)) as [[[]|]|]; cbn [serialize_embedding].
      + apply (OK _ (map json_val l)); [constructor; exact W|apply NM, N|apply json_vals_finite, F].
      + apply (OK _ (map (VFloat num txt) l)); [constructor; exact W'|apply NM, N|apply ID].
      + destruct m; eapply OK; try (constructor); try (apply NM, N); try (apply ID); try (rewrite JV; apply json_vals_finite, F).
      + destruct m; eapply OK; try (constructor); try (apply NM, N); try (apply ID); try (rewrite JV; apply json_vals_finite, F).
      + destruct m; eapply OK; try (constructor); try (apply NM, N); try (apply ID); try (rewrite JV; apply json_vals_finite, F).
    - intros l -> NF. assert (N : l <> []) by (apply NE; reflexivity). split.
      + intros -> C. unfold dump_embedding.
        assert (E : fst (with_format Python f ctx) = ctx) by (destruct f; reflexivity). rewrite E.
        destruct C as [->| ->]; cbn [serialize_embedding]; apply (OK _ (map (VFloat num txt) l)); try constructor; try (apply NM, N); apply ID.
      + intro M. destruct (orjson_back l) as (w & W & FW). apply EQ in FW. subst w. destruct (json_fails l NF) as [x X].
        unfold dump_embedding. destruct (fst (with_format m f ctx)) as [[[]|]|]; cbn [serialize_embedding].
        * apply (BAD _ l NF). constructor. exact W.
        * cbn [validate_embedding]. rewrite X. reflexivity.
        * destruct m; [congruence| |]; rewrite JV; apply (BAD _ l NF); constructor.
        * destruct m; [congruence| |]; rewrite JV; apply (BAD _ l NF); constructor.
        * destruct m; [congruence| |]; rewrite JV; apply (BAD _ l NF); constructor.
  Qed.

  (** The format asked for decides what a dump holds; python mode ignores it. *)
  Theorem C91_format ctx l :
    dump Json (Some Pgvector) ctx (Some l) = VText _ _ (orjson_dumps l) /\
    dump Db (Some Pgvector) ctx (Some l) = VText _ _ (orjson_dumps l) /\
    dump Json (Some Jsonb) ctx (Some l) = VText _ _ (json_dumps l) /\
    dump Db (Some Jsonb) ctx (Some l) = VText _ _ (json_dumps l) /\
    (forall m, dump m (Some AsList) None (Some l) = dump m None None (Some l)) /\
    (forall f, dump Python f None (Some l) = VList _ _ (map (VFloat num txt) l)).
  Proof. repeat split; try (intros []; reflexivity); try (intros [[]|]; reflexivity). Qed.

  (** Claim refuted: to_dict leaves its arguments alone.  A context given together with a
      format is changed, so that a later dump with it uses that format unasked. *)
  Theorem C91_context_refuted l :
    let after := snd (with_format Json (Some Pgvector) (Some None)) in
    dump Json None (Some None) (Some l) = VList _ _ (map json_val l) /\
    dump Json None after (Some l) = VText _ _ (orjson_dumps l).
  Proof. split; reflexivity. Qed.

  (** Claim refuted: the JSON text of None is None. *)
  Theorem C91_null_refuted t : loads t = Ret (VNone _ _) ->
    validate (VNone _ _) = Ret None /\ validate (VText _ _ t) = Raise ValueError.
  Proof. intro H. split; [reflexivity|]. cbn [validate_embedding]. rewrite H. reflexivity. Qed.
End C91.

(** JSON texts as the values written; json's names for infinities are Some false. *)
Definition toy_txt : Type := option (list (option Z)).
Definition toy_loads (t : toy_txt) : outcome (val Z toy_txt) :=
  match t with
  | None => Raise ValueError
  | Some l => Ret (VList _ _ (map (fun x => match x with Some z => VFloat _ _ (Fin _ z) | None => VNone _ _ end) l))
  end.
Definition toy_orjson (l : list (flt Z)) : toy_txt := Some (map (fun f => match f with Fin _ z => Some z | _ => None end) l).
Definition toy_json (l : list (flt Z)) : toy_txt :=
  if forallb (fun f => match f with Fin _ _ => true | _ => false end) l then toy_orjson l else None.
Definition toy_int (z : Z) : option Z := if (z <? 1000)%Z then Some z else None.

Example C91_ex :
  let v := validate_embedding Z toy_txt toy_int toy_loads in
  v (VList _ _ [VInt _ _ 3; VBool _ _ true; VFloat _ _ (NaN _)]) = Ret (Some [Fin _ 3; Fin _ 1; NaN _])%Z /\
  v (VText _ _ (Some [Some 2; Some 5]%Z)) = Ret (Some [Fin _ 2; Fin _ 5])%Z /\
  v (VList _ _ []) = Raise ValueError /\ v (VList _ _ [VInt _ _ 2000]) = Raise OtherErr /\
  v (VList _ _ [VText _ _ None]) = Raise ValueError /\
  v (dump_embedding Z toy_txt toy_orjson toy_json Db (Some Jsonb) None (Some [Fin _ 4; Fin _ 7]%Z)) = Ret (Some [Fin _ 4; Fin _ 7]%Z) /\
  v (dump_embedding Z toy_txt toy_orjson toy_json Json None None (Some [Inf _ true])) = Raise ValueError.
Proof. repeat split; vm_compute; reflexivity. Qed.

(** The assumptions on the JSON writers hold of the toy ones. *)
Example C91_assumptions :
  (forall l, exists w, toy_loads (toy_orjson l) = Ret (VList _ _ w) /\
     Forall2 (fun f v => v = match f with Fin _ q => VFloat _ _ (Fin _ q) | _ => VNone _ _ end) l w) /\
  (forall l, Forall (finite Z) l -> exists w, toy_loads (toy_json l) = Ret (VList _ _ w) /\ Forall2 (fun f v => v = VFloat _ _ f) l w) /\
  (forall l, ~ Forall (finite Z) l -> exists e, toy_loads (toy_json l) = Raise e).
Proof.
  assert (D : forall l, forallb (fun f : flt Z => match f with Fin _ _ => true | _ => false end) l = true <-> Forall (finite Z) l).
  { intro l. rewrite forallb_forall, Forall_forall. unfold finite. split; intros H f I; specialize (H f I).
    - destruct f as [q|b|]; try discriminate. exists q. reflexivity.
    - destruct H as [q ->]. reflexivity. }
  split; [|split].
  - intro l. eexists. split; [reflexivity|]. rewrite map_map. induction l as [|[q|b|] l IH]; constructor; auto.
  - intros l F. unfold toy_json. rewrite (proj2 (D l) F). eexists. split; [reflexivity|]. rewrite map_map.
    induction F as [|f l [q ->] F IH]; constructor; auto.
  - intros l NF. unfold toy_json. destruct (forallb _ l) eqn:E; [exfalso; apply NF, D, E|]. exists ValueError. reflexivity.
Qed.

(** * C92 *)
Section C92.
  Variable node other : Type.
  Variable registered : string -> bool.
  Variable last_part : string -> string.
  Variable node_from_dict element_from_dict : dict string (cval other) -> outcome node.
  Variable truthy hashable : cval other -> bool.
  Notation validate := (validate_content node other registered last_part node_from_dict element_from_dict truthy hashable).

  (** The class named in the metadata of a serialised element. *)
  Definition names_class (d : dict string (cval other)) (s : string) : Prop :=
    exists m, dget "metadata" d = Some (CDict _ m) /\ dget "lion_class" m = Some (CText _ s) /\ s <> "".
  (** A dict that does not say which class it is. *)
  Definition plain (d : dict string (cval other)) : Prop :=
    dget "metadata" d = None \/
    exists m, dget "metadata" d = Some (CDict _ m) /\
      (dget "lion_class" m = None \/ dget "lion_class" m = Some (CText _ "") \/
       exists c, dget "lion_class" m = Some c /\ (forall s, c <> CText _ s) /\ truthy c = false).

  (** What is kept as it is: None, models and serialisable objects, and plain dicts. *)
  Theorem C92_kept v c : validate v = Ret (Kept _ _ c) <->
    c = v /\ (v = CNone _ \/ (exists x, v = CModel _ x) \/ (exists d, v = CDict _ d /\ plain d)).
  Proof.
    split.
    - destruct v as [|x|x|s|d]; cbn [validate_content]; try discriminate.
      + intros [= <-]. auto.
      + intros [= <-]. eauto.
      + intro H. assert (G : c = CDict _ d /\ plain d); [|split; [apply G|right; right; exists d; split; [reflexivity|apply G]]].
        unfold plain. destruct (dget "metadata" d) as [[| | | |m]|] eqn:M; try discriminate; [|injection H as <-; auto].
        destruct (dget "lion_class" m) as [l|] eqn:L; [|injection H as <-; split; [reflexivity|right; exists m; auto]].
        assert (LD : forall f, load node other f d <> Ret (Kept _ _ c)).
        { intro f. unfold load. destruct (f d); cbn [bind]; discriminate. }
        destruct l as [|x|x|s|d']; cbn in H.
        1-3,5: destruct (truthy _) eqn:T; [destruct (hashable _); discriminate|]; injection H as <-;
          split; [reflexivity|]; right; exists m; split; [reflexivity|]; right; right; eexists; split; [exact L|split; [discriminate|exact T]].
        destruct (String.eqb s "") eqn:S.
        * apply String.eqb_eq in S. subst s. injection H as <-. split; [reflexivity|]. right. exists m. auto.
        * exfalso. destruct (_ || _); exact (LD _ H).
    - intros [-> [->|[[x ->]|(d & -> & P)]]]; try reflexivity. cbn [validate_content].
      destruct P as [->|(m & -> & [->|[->|(c & -> & NT & T)]])]; try reflexivity.
      destruct c as [| | |s|]; try (rewrite T; reflexivity). exfalso. apply (NT s eq_refl).
  Qed.

  (** What is loaded: a dict that names its class, as a node if that class is a known
      node class under the name or its last part, otherwise as an element. *)
  Theorem C92_loaded v n : validate v = Ret (Loaded _ _ n) <->
    exists d s, v = CDict _ d /\ names_class d s /\
      ((registered s = true \/ registered (last_part s) = true) /\ node_from_dict d = Ret n \/
       (registered s = false /\ registered (last_part s) = false) /\ element_from_dict d = Ret n).
  Proof.
    split.
    - destruct v as [|x|x|s|d]; cbn [validate_content]; try discriminate. intro H. exists d.
      destruct (dget "metadata" d) as [[| | | |m]|] eqn:M; try discriminate.
      destruct (dget "lion_class" m) as [[|x|x|s|d']|] eqn:L; try discriminate;
        try (destruct (truthy _); [destruct (hashable _)|]; discriminate).
      exists s. destruct (String.eqb s "") eqn:S; [discriminate|]. apply String.eqb_neq in S.
      split; [reflexivity|]. split; [exists m; auto|]. unfold load in H.
      destruct (registered s) eqn:A; [|destruct (registered (last_part s)) eqn:B]; cbn [orb] in H.
      + left. destruct (node_from_dict d); [injection H as <-|discriminate]. auto.
      + left. destruct (node_from_dict d); [injection H as <-|discriminate]. auto.
      + right. destruct (element_from_dict d); [injection H as <-|discriminate]. auto.
    - intros (d & s & -> & (m & M & L & S) & H). cbn [validate_content]. rewrite M, L.
      apply String.eqb_neq in S. rewrite S. unfold load.
      destruct H as [[[->| ->] ->]|[[-> ->] ->]]; cbn [orb]; rewrite ?orb_true_r; reflexivity.
  Qed.

  (** The errors: TypeError for every other value; what the loader raised for a dict that
      names a class; AttributeError or TypeError if the metadata is not a dict or the
      class is not a text. *)
  Theorem C92_errors v e : validate v = Raise e ->
    (e = TypeError /\ ((exists x, v = CBad _ x) \/ exists s, v = CText _ s)) \/
    (exists d, v = CDict _ d /\
      ((exists s, names_class d s /\ (node_from_dict d = Raise e \/ element_from_dict d = Raise e)) \/
       ((e = AttributeError \/ e = TypeError) /\ ~ plain d /\ forall s, ~ names_class d s))).
  Proof.
    destruct v as [|x|x|s|d]; cbn [validate_content]; try discriminate.
    - intros [= <-]. left. eauto.
    - intros [= <-]. left. eauto.
    - intro H. right. exists d. split; [reflexivity|].
      destruct (dget "metadata" d) as [mv|] eqn:M; [|discriminate].
      assert (NOD : (forall m, mv <> CDict _ m) -> e = AttributeError).
      { intro N. destruct mv; try (injection H as <-; reflexivity). exfalso. exact (N _ eq_refl). }
      assert (DEC : (forall m, mv <> CDict _ m) \/ exists m, mv = CDict _ m) by (destruct mv; eauto; left; discriminate).
      destruct DEC as [N|[m ->]].
      + right. split; [left; apply NOD, N|]. split.
        * intros [P|(m & P & _)]; rewrite M in P; [discriminate|]. injection P as ->. exact (N m eq_refl).
        * intros s (m & P & _). rewrite M in P. injection P as ->. exact (N m eq_refl).
      + clear NOD. destruct (dget "lion_class" m) as [l|] eqn:L; [|discriminate].
        assert (DEC : (exists s, l = CText _ s) \/ (forall s, l <> CText _ s)) by (destruct l; eauto; right; discriminate).
        destruct DEC as [[s ->]|N].
        * left. exists s. destruct (String.eqb s "") eqn:S; [discriminate|]. apply String.eqb_neq in S.
          split; [exists m; auto|]. unfold load in H.
          destruct (_ || _); [left; destruct (node_from_dict d)|right; destruct (element_from_dict d)]; try discriminate; injection H as <-; reflexivity.
        * right.
          assert (T : truthy l = true /\ (e = AttributeError \/ e = TypeError)).
          { destruct l; try (exfalso; exact (N _ eq_refl)); destruct (truthy _); try discriminate; (split; [reflexivity|]);
              destruct (hashable _); injection H as <-; auto. }
          split; [apply T|]. split.
          -- intros [P|(m' & P & Q)]; rewrite M in P; [discriminate|]. injection P as <-. rewrite L in Q.
             destruct Q as [[=]|[[= ->]|(c & [= <-] & _ & F)]]; [exact (N _ eq_refl)|]. destruct T as [T _]. congruence.
          -- intros s (m' & P & Q & _). rewrite M in P. injection P as <-. rewrite L in Q. injection Q as ->. exact (N _ eq_refl).
  Qed.
End C92.

(** The last of a list of classes with a property. *)
Definition last_with (P : klass -> Prop) (ks : list klass) (k : klass) : Prop :=
  exists pre post, ks = (pre ++ k :: post)%list /\ P k /\ forall k', In k' post -> ~ P k'.
Definition none_with (P : klass -> Prop) (ks : list klass) : Prop := forall k, In k ks -> ~ P k.
(** A name without dots, and the part of a name after the last dot. *)
Definition dotless (s : string) : Prop := forall a b, s <> a ++ "." ++ b.
Definition last_segment (s t : string) : Prop := dotless t /\ (s = t \/ exists a, s = a ++ "." ++ t).

Lemma str_app_assoc (a b c : string) : (a ++ b) ++ c = a ++ (b ++ c).
Proof. induction a as [|x a IH]; cbn; [reflexivity|]. rewrite IH. reflexivity. Qed.
Lemma dotless_nil : dotless "".
Proof. intros [|x a] b; discriminate. Qed.
Lemma dotless_snoc w c : dotless w -> c <> "."%char -> dotless (w ++ String c "").
Proof.
  revert w. intros w D N a. revert w D. induction a as [|x a IH]; intros w D b E.
  - destruct w as [|y w]; cbn in E.
    + injection E as -> _. congruence.
    + injection E as -> E. apply (D "" w). reflexivity.
  - destruct w as [|y w]; cbn in E.
    + injection E as _ E. destruct a; discriminate.
    + injection E as -> E. apply (IH w) with (b := b); [|exact E].
      intros p q ->. apply (D (String x p) q). reflexivity.
Qed.
Lemma last_dotted_spec s : forall w, dotless w -> last_segment (w ++ s) (last_dotted w s).
Proof.
  induction s as [|c s IH]; intros w D; cbn [last_dotted].
  - assert (E : w ++ "" = w) by (clear; induction w as [|x w IH]; cbn; congruence). rewrite E. split; auto.
  - destruct (Ascii.eqb c ".") eqn:C.
    + apply Ascii.eqb_eq in C. subst c. destruct (IH "" dotless_nil) as [A B]. split; [exact A|]. right. cbn in B.
      destruct B as [B|[a B]]; [exists w; rewrite <- B; reflexivity|].
      exists (w ++ String "." a). rewrite B at 1. rewrite str_app_assoc. reflexivity.
    + apply Ascii.eqb_neq in C. specialize (IH (w ++ String c "") (dotless_snoc _ _ D C)).
      rewrite str_app_assoc in IH. exact IH.
Qed.
Lemma last_segment_det s t t' : last_segment s t -> last_segment s t' -> t = t'.
Proof.
  intros [D [E|[a E]]] [D' [E'|[a' E']]].
  - congruence.
  - exfalso. apply (D a' t'). congruence.
  - exfalso. apply (D' a t). congruence.
  - rewrite E in E'. clear E s. revert a' E'. induction a as [|x a IH]; intros [|y a'] E; cbn in E.
    + injection E as E. exact E.
    + injection E as _ E. exfalso. apply (D a' t'). exact E.
    + injection E as _ E. exfalso. apply (D' a t). symmetry. exact E.
    + injection E as _ E. apply (IH _ E).
Qed.

Lemma last_with_snoc P ks k j : last_with P (ks ++ [k]) j <->
  (P k /\ j = k) \/ (~ P k /\ last_with P ks j).
Proof.
  split.
  - intros (pre & post & E & H & N). destruct (exists_last (l := j :: post)) as (l' & z & Z); [discriminate|].
    rewrite Z in E. rewrite app_assoc in E. apply app_inj_tail in E. destruct E as [-> <-].
    destruct l' as [|y l']; cbn in Z.
    + injection Z as -> ->. left. auto.
    + injection Z as <- ->. right. split; [apply N, in_or_app; right; left; reflexivity|].
      exists pre, l'. repeat split; [exact H|]. intros k' I. apply N, in_or_app. left. exact I.
  - intros [[H ->]|[N (pre & post & -> & H & Q)]].
    + exists ks, []. repeat split; [exact H|intros ? []].
    + exists pre, (post ++ [k])%list. rewrite <- app_assoc. repeat split; [exact H|].
      intros k' I. apply in_app_or in I. destruct I as [I|[<-|[]]]; [apply Q, I|exact N].
Qed.

(** The name under which a class is written out if it is not nested in another. *)
Definition full_name (k : klass) : string := dotted (k_module k) (k_name k).

Lemma registry_get base ks s k : k_qualname base = k_name base ->
  dget s (registry base ks) = Some k <-> last_with (fun k => s = full_name k \/ s = k_name k) (base :: ks) k.
Proof.
  intro QN. revert k. induction ks as [|j ks IH] using rev_ind; intro k.
  - unfold registry. cbn [fold_left]. rewrite QN.
    rewrite (last_with_snoc _ [] base k).
    destruct (string_dec s (dotted (k_module base) (k_name base))) as [->|N1];
      [rewrite dget_dset_same|rewrite dget_dset_other by congruence;
        destruct (string_dec s (k_name base)) as [->|N2]; [rewrite dget_dset_same|rewrite dget_dset_other by congruence]].
    + split; [intros [= <-]; left; split; [left; reflexivity|reflexivity]|].
      intros [[_ ->]|[_ (pre & post & E & _)]]; [reflexivity|destruct pre; discriminate].
    + split; [intros [= <-]; left; split; [right; reflexivity|reflexivity]|].
      intros [[_ ->]|[_ (pre & post & E & _)]]; [reflexivity|destruct pre; discriminate].
    + split; [discriminate|]. intros [[[H|H] _]|[_ (pre & post & E & _)]]; [exfalso; exact (N1 H)|contradiction|destruct pre; discriminate].
  - unfold registry in *. rewrite fold_left_app. cbn [fold_left]. unfold register at 1.
    change (base :: ks ++ [j])%list with ((base :: ks) ++ [j])%list. rewrite last_with_snoc.
    destruct (string_dec s (dotted (k_module j) (k_name j))) as [->|N1];
      [rewrite dget_dset_same|rewrite dget_dset_other by congruence;
        destruct (string_dec s (k_name j)) as [->|N2]; [rewrite dget_dset_same|rewrite dget_dset_other by congruence]].
    + split; [intros [= <-]; left; split; [left; reflexivity|reflexivity]|].
      intros [[_ ->]|[N _]]; [reflexivity|exfalso; apply N; left; reflexivity].
    + split; [intros [= <-]; left; split; [right; reflexivity|reflexivity]|].
      intros [[_ ->]|[N _]]; [reflexivity|exfalso; apply N; right; reflexivity].
    + rewrite IH. split; [intro H; right; split; [intros [E|E]; [exact (N1 E)|exact (N2 E)]|exact H]|].
      intros [[[H|H] _]|[_ H]]; [exfalso; exact (N1 H)|contradiction|exact H].
Qed.

Lemma last_with_ext P Q ks k : (forall j, In j ks -> (P j <-> Q j)) -> last_with P ks k -> last_with Q ks k.
Proof.
  intros E (pre & post & -> & H & N). exists pre, post. split; [reflexivity|]. split.
  - apply E; [apply in_or_app; right; left; reflexivity|exact H].
  - intros j I J. apply (N j I). apply E; [apply in_or_app; right; right; exact I|exact J].
Qed.
Lemma last_or_none (P : klass -> Prop) (D : forall k, {P k} + {~ P k}) ks : (exists k, last_with P ks k) \/ none_with P ks.
Proof.
  induction ks as [|j ks IH] using rev_ind; [right; intros ? []|].
  destruct (D j) as [H|H].
  - left. exists j. apply last_with_snoc. auto.
  - destruct IH as [[k K]|N]; [left; exists k; apply last_with_snoc; auto|].
    right. intros k I. apply in_app_or in I. destruct I as [I|[<-|[]]]; [apply N, I|exact H].
Qed.
Lemma last_with_in P ks k : last_with P ks k -> In k ks /\ P k.
Proof. intros (pre & post & -> & H & _). split; [apply in_or_app; right; left; reflexivity|exact H]. Qed.

(** The class a serialised node is loaded as: the last class defined with that module and
    name; if there is none, the last class, of any module, with the same last part. *)
Theorem C92_class base ks s t k : k_qualname base = k_name base ->
  (forall j, In j (base :: ks) -> dotless (k_name j)) -> last_segment s t ->
  (lookup (registry base ks) s = Some k <->
   last_with (fun j => full_name j = s) (base :: ks) k \/
   (none_with (fun j => full_name j = s) (base :: ks) /\ last_with (fun j => k_name j = t) (base :: ks) k)).
Proof.
  intros QN ND LS.
  assert (T : last_dotted "" s = t).
  { apply (last_segment_det s); [|exact LS]. apply (last_dotted_spec s ""), dotless_nil. }
  assert (FD : forall j, ~ dotless (full_name j)).
  { intros j D. apply (D (k_module j) (k_name j)). reflexivity. }
  unfold lookup. rewrite T.
  set (F := fun j => full_name j = s). set (N := fun j => k_name j = t).
  set (B := fun s k => s = full_name k \/ s = k_name k).
  (* the last part only matches names *)
  assert (BN : forall j, In j (base :: ks) -> (B t j <-> N j)).
  { intros j I. unfold B, N. split; [intros [E|E]; [exfalso; apply (FD j); rewrite <- E; apply LS|congruence]|intro E; right; congruence]. }
  destruct (string_dec s t) as [->|NE].
  - (* no dots *)
    assert (NF : none_with F (base :: ks)).
    { intros j I E. unfold F in E. apply (FD j). rewrite E. apply LS. }
    destruct (dget t (registry base ks)) as [r|] eqn:G.
    + split.
      * intros [= <-]. right. split; [exact NF|]. apply (registry_get base ks t r QN) in G.
        apply (last_with_ext (B t)); assumption.
      * intros [H|[_ H]]; [apply last_with_in in H; destruct H as [I E]; exfalso; exact (NF k I E)|].
        rewrite <- G. apply (registry_get base ks t k QN). apply (last_with_ext N); [|exact H]. intros j I. symmetry. apply BN, I.
    + split; [discriminate|]. intros [H|[_ H]]; [apply last_with_in in H; destruct H as [I E]; exfalso; exact (NF k I E)|].
      rewrite <- G. apply (registry_get base ks t k QN). apply (last_with_ext N); [|exact H]. intros j I. symmetry. apply BN, I.
  - assert (BF : forall j, In j (base :: ks) -> (B s j <-> F j)).
    { intros j I. unfold B, F. split; [intros [E|E]; [congruence|]|intro E; left; congruence].
      exfalso. destruct LS as [_ [E'|[a E']]]; [exact (NE E')|]. apply (ND j I a t). congruence. }
    destruct (last_or_none F (fun j => string_dec (full_name j) s) (base :: ks)) as [[r R]|NF].
    + assert (G : dget s (registry base ks) = Some r).
      { apply (registry_get base ks s r QN). apply (last_with_ext F); [|exact R]. intros j I. symmetry. apply BF, I. }
      rewrite G. split; [intros [= <-]; left; exact R|]. intros [H|[NF _]].
      * rewrite <- G. apply (registry_get base ks s k QN). apply (last_with_ext F); [|exact H]. intros j I. symmetry. apply BF, I.
      * apply last_with_in in R. destruct R as [I E]. exfalso. exact (NF r I E).
    + assert (G : dget s (registry base ks) = None).
      { destruct (dget s (registry base ks)) as [r|] eqn:G; [|reflexivity]. apply (registry_get base ks s r QN) in G.
        apply (last_with_ext _ F) in G; [|exact BF]. apply last_with_in in G. destruct G as [I E]. exfalso. exact (NF r I E). }
      rewrite G. split.
      * intro H. right. split; [exact NF|]. apply (registry_get base ks t k QN) in H. apply (last_with_ext (B t)); assumption.
      * intros [H|[_ H]]; [apply last_with_in in H; destruct H as [I E]; exfalso; exact (NF k I E)|].
        apply (registry_get base ks t k QN). apply (last_with_ext N); [|exact H]. intros j I. symmetry. apply BN, I.
Qed.

(** So a class that is not nested and not defined again is found under the name it writes. *)
Theorem C92_back base ks k : k_qualname base = k_name base ->
  (forall j, In j (base :: ks) -> dotless (k_name j)) ->
  In k (base :: ks) -> k_qualname k = k_name k ->
  (forall j, In j (base :: ks) -> full_name j = full_name k -> j = k) ->
  lookup (registry base ks) (lion_class k) = Some k.
Proof.
  intros QN ND I Q U.
  assert (E : lion_class k = full_name k) by (unfold lion_class, full_name; rewrite Q; reflexivity). rewrite E.
  apply (C92_class base ks (full_name k) (k_name k) k QN ND).
  - split; [apply ND, I|]. right. exists (k_module k). reflexivity.
  - left. destruct (last_or_none (fun j => full_name j = full_name k) (fun j => string_dec (full_name j) (full_name k)) (base :: ks)) as [[r R]|N].
    + destruct (last_with_in _ _ _ R) as [J F]. rewrite (U r J F) in R. exact R.
    + exfalso. exact (N k I eq_refl).
Qed.

Definition k_node := {| k_id := 0; k_module := "lionherd_core.base.node"; k_name := "Node"; k_qualname := "Node" |}.
Definition k_a := {| k_id := 1; k_module := "app.a"; k_name := "Doc"; k_qualname := "Outer.Doc" |}.
Definition k_b := {| k_id := 2; k_module := "app.b"; k_name := "Doc"; k_qualname := "Doc" |}.

(** Claim refuted: a dump names a class that loads it.  A class defined inside another
    class or a function writes its qualified name, which is not a key; it is found by its
    short name, and that may be another class. *)
Theorem C92_nested_refuted :
  lookup (registry k_node [k_a]) (lion_class k_a) = Some k_a /\
  lookup (registry k_node [k_a; k_b]) (lion_class k_a) = Some k_b.
Proof. split; vm_compute; reflexivity. Qed.
(** Claim refuted: a class name that was never defined is not found. *)
Theorem C92_unknown_refuted : lookup (registry k_node [k_b]) "elsewhere.Doc" = Some k_b.
Proof. vm_compute. reflexivity. Qed.

Example C92_ex :
  lookup (registry k_node [k_a; k_b]) "app.a.Doc" = Some k_a /\
  lookup (registry k_node [k_a; k_b]) "app.b.Doc" = Some k_b /\
  lookup (registry k_node [k_a; k_b]) "Doc" = Some k_b /\
  lookup (registry k_node [k_a; k_b]) "Dock" = None /\
  (let val := validate_content nat unit (fun s => String.eqb s "Doc") (last_dotted "") (fun _ => Ret 1) (fun _ => Ret 2)
                (fun c => match c with CNone _ | CDict _ [] => false | _ => true end)
                (fun c => match c with CDict _ _ => false | _ => true end) in
   let dict_of c := CDict unit [("metadata", CDict _ [("lion_class", c)])] in
   val (dict_of (CText _ "x.Doc")) = Ret (Loaded _ _ 1) /\ val (dict_of (CText _ "x.Else")) = Ret (Loaded _ _ 2) /\
   val (dict_of (CModel _ tt)) = Raise AttributeError /\ val (dict_of (dict_of (CNone _))) = Raise TypeError /\
   val (dict_of (CNone _)) = Ret (Kept _ _ (dict_of (CNone _))) /\
   val (CDict unit [("a", CNone _)]) = Ret (Kept _ _ (CDict unit [("a", CNone _)])) /\
   val (CText _ "x") = Raise TypeError).
Proof. repeat split; vm_compute; reflexivity. Qed.

Print Assumptions C91_accepted. Print Assumptions C91_refused. Print Assumptions C91_roundtrip.
Print Assumptions C91_format. Print Assumptions C91_context_refuted. Print Assumptions C91_null_refuted.
Print Assumptions C92_kept. Print Assumptions C92_loaded. Print Assumptions C92_errors.
Print Assumptions C92_class. Print Assumptions C92_back.
Print Assumptions C92_nested_refuted. Print Assumptions C92_unknown_refuted.
