(** C69, C70, continued: which errors dumping and loading raise. *)
From Coq Require Import String.
From Coq Require Import List ZArith Bool Arith Lia.
From Verif Require Import PyBase PyFacts ModelSerde SpecSerde ProofsSerde ProofsSerdePile PropertiesSerde.
Import ListNotations.
Local Open Scope string_scope.
Local Open Scope nat_scope.
Local Open Scope list_scope.

Section Errors.
  Variable E : env.

  (** A value that contains an object without a JSON form. *)
  Inductive has_object : val -> Prop :=
  | ho_obj o : has_object (VObj o)
  | ho_list l x : In x l -> has_object x -> has_object (VList l)
  | ho_dict d k x : In (k, x) d -> has_object x -> has_object (VDict d).

  Lemma jsonify_raises : forall v x, jsonify E v = Raise x <-> x = TypeError /\ has_object v.
  Proof.
    assert (Hl : forall l, (forall v, In v l -> forall x, jsonify E v = Raise x <-> x = TypeError /\ has_object v) ->
      forall x, collect (jsonify E) l = Raise x <-> x = TypeError /\ exists v, In v l /\ has_object v).
    { induction l as [|v l IH]; intros H x; cbn; [split; [discriminate|intros (_ & v & [] & _)]|].
      pose proof (H v (or_introl eq_refl)) as Hv.
      assert (Ht := IH (fun w Hw => H w (or_intror Hw))).
      destruct (jsonify E v) as [w|e]; cbn.
      - destruct (collect (jsonify E) l) as [ws|e]; cbn.
        + split; [discriminate|]. intros (-> & u & [<-|Hu] & Ho).
          * discriminate (proj2 (Hv TypeError) ltac:(eauto 6)).
          * discriminate (proj2 (Ht TypeError) ltac:(eauto 6)).
        + split.
          * intros [= <-]. destruct (proj1 (Ht e) eq_refl) as (-> & u & Hu & Ho). eauto.
          * intros (-> & u & [<-|Hu] & Ho); [discriminate (proj2 (Hv TypeError) ltac:(eauto 6))|]. apply Ht. eauto.
      - destruct (proj1 (Hv e) eq_refl) as [-> Ho]. split; [intros [= <-]; eauto|]. now intros [-> _]. }
    assert (Hd : forall d : data, (forall k v, In (k, v) d -> forall x, jsonify E v = Raise x <-> x = TypeError /\ has_object v) ->
      forall x, jsonify_dict E d = Raise x <-> x = TypeError /\ exists k v, In (k, v) d /\ has_object v).
    { induction d as [|[k v] l IH]; intros H x; cbn; [split; [discriminate|intros (_ & k & v & [] & _)]|].
      pose proof (H k v (or_introl eq_refl)) as Hv.
      assert (Ht := IH (fun j w Hw => H j w (or_intror Hw))).
      destruct (jsonify E v) as [w|e]; cbn.
      - destruct (jsonify_dict E l) as [ws|e]; cbn.
        + split; [discriminate|]. intros (-> & j & u & [[= <- <-]|Hu] & Ho).
          * discriminate (proj2 (Hv TypeError) ltac:(eauto 6)).
          * discriminate (proj2 (Ht TypeError) ltac:(eauto 6)).
        + split.
          * intros [= <-]. destruct (proj1 (Ht e) eq_refl) as (-> & j & u & Hu & Ho). eauto 6.
          * intros (-> & j & u & [[= <- <-]|Hu] & Ho); [discriminate (proj2 (Hv TypeError) ltac:(eauto 6))|]. apply Ht. eauto.
      - destruct (proj1 (Hv e) eq_refl) as [-> Ho]. split; [intros [= <-]; eauto 6|]. now intros [-> _]. }
    fix IH 1. intros v x. destruct v as [|b|z|s|n|t|l|d|o];
      try (split; [discriminate|intros [_ H]; inversion H]).
    - rewrite jsonify_VList.
      assert (H : forall v, In v l -> forall x, jsonify E v = Raise x <-> x = TypeError /\ has_object v).
      { clear -IH. induction l as [|w l IHl]; intros v; [intros []|]. intros [<-|Hv]; [exact (IH w)|exact (IHl v Hv)]. }
      specialize (Hl l H x). destruct (collect (jsonify E) l) as [w|e]; cbn.
      + split; [discriminate|]. intros [-> Ho]. inversion Ho; subst. discriminate (proj2 Hl ltac:(eauto 6)).
      + split.
        * intros [= <-]. destruct (proj1 Hl eq_refl) as (-> & v & Hv & Ho). split; [reflexivity|]. econstructor; eauto.
        * intros [-> Ho]. inversion Ho; subst. apply f_equal. assert (X : Raise e = @Raise (list val) TypeError) by (apply Hl; eauto). congruence.
    - rewrite jsonify_VDict.
      assert (H : forall k v, In (k, v) d -> forall x, jsonify E v = Raise x <-> x = TypeError /\ has_object v).
      { clear -IH. induction d as [|[j w] l IHl]; intros k v; [intros []|].
        intros [Hv|Hv]; [|exact (IHl k v Hv)]. injection Hv as _ <-. exact (IH w). }
      specialize (Hd d H x). destruct (jsonify_dict E d) as [w|e]; cbn.
      + split; [discriminate|]. intros [-> Ho]. inversion Ho; subst. discriminate (proj2 Hd ltac:(eauto 6)).
      + split.
        * intros [= <-]. destruct (proj1 Hd eq_refl) as (-> & k & v & Hv & Ho). split; [reflexivity|]. econstructor; eauto.
        * intros [-> Ho]. inversion Ho; subst. apply f_equal. assert (X : Raise e = @Raise data TypeError) by (apply Hd; eauto). congruence.
    - cbn. split; [intros [= <-]; split; [reflexivity|constructor]|]. now intros [-> _].
  Qed.


  Lemma jsonify_dict_raises d x :
    jsonify_dict E d = Raise x <-> x = TypeError /\ exists k v, In (k, v) d /\ has_object v.
  Proof.
    pose proof (jsonify_raises (VDict d) x) as H. rewrite jsonify_VDict in H.
    assert (A : has_object (VDict d) <-> exists k v, In (k, v) d /\ has_object v).
    { split; [intro Ho; inversion Ho; subst; eauto|intros (k & v & ? & ?); econstructor; eauto]. }
    rewrite A in H. rewrite <- H. destruct (jsonify_dict E d); cbn; [split; discriminate|].
    split; intros [= <-]; reflexivity.
  Qed.

  Lemma entry_dset d x : NoDup (dkeys d) ->
    (exists k v, In (k, v) (dset "lion_class" (VStr x) d) /\ has_object v) <->
    (exists k v, In (k, v) d /\ k <> "lion_class" /\ has_object v).
  Proof.
    intros N. split; intros (k & v & H).
    - destruct H as [I O]. destruct (eqb_spec k "lion_class") as [->|K].
      + apply In_dget in I; [|now apply dkeys_dset_NoDup]. rewrite dget_dset_same in I.
        injection I as <-. inversion O.
      + apply In_dset in I. destruct I as [[-> _]|I]; [contradiction|]. exists k, v. auto.
    - destruct H as (I & K & O). exists k, v. split; [|exact O].
      apply dget_In. rewrite dget_dset_other by exact K. now apply In_dget.
  Qed.

  (** Dumping in Python mode never fails.  In the other modes it raises TypeError
      exactly if an entry of the metadata, other than the class name, or a field
      holds an object without JSON form; and otherwise ValueError exactly for
      datetime objects in JSON. *)
  Theorem C69_dump_errors e m f mk : NoDup (dkeys (e_meta e)) ->
    let bad := (exists k v, In (k, v) (e_meta e) /\ k <> "lion_class" /\ has_object v) \/
               (exists k v, In (k, v) (dump_fields E e) /\ has_object v) in
    forall x, to_dict E e m f mk = Raise x <->
      (m <> Python /\ bad /\ x = TypeError) \/
      (m = Json /\ f = Some Datetime /\ ~ bad /\ x = ValueError).
  Proof.
    intros N bad.
    assert (D : forall x, jsonify_dict E (dump E e (dump_fields E e)) = Raise x <-> x = TypeError /\ bad).
    { intro x. rewrite jsonify_dict_raises. unfold bad, dump. rewrite <- (entry_dset (e_meta e) (cname E (e_cls e)) N).
      cbn [app]. split; intros [-> H]; (split; [reflexivity|]).
      - destruct H as (k & v & [H|[H|[H|H]]] & O).
        + injection H as <- <-. inversion O.
        + injection H as <- <-. inversion O.
        + injection H as <- <-. left. inversion O; subst. eauto.
        + right. eauto.
      - destruct H as [(k & v & H & O)|(k & v & H & O)].
        + exists "metadata". eexists. split; [right; right; left; reflexivity|]. econstructor; eauto.
        + exists k, v. cbn. auto. }
    assert (C : forall d, jsonify_dict E (dump E e (dump_fields E e)) = Ret d -> exists s, dget "created_at" d = Some (VStr s)).
    { intros d. unfold dump. cbn [app]. generalize (("metadata", VDict (dset "lion_class" (VStr (cname E (e_cls e))) (e_meta e))) :: dump_fields E e).
      intros r. cbn. destruct (jsonify_dict E r); cbn [bind]; [|discriminate].
      intros [= <-]. exists (iso E (e_created e)). reflexivity. }
    assert (P : exists d, format_created E Python (the_format Python f) (e_created e) (dump E e (dump_fields E e)) = Ret d).
    { unfold format_created, dump. cbn. destruct (the_format Python f); eauto. }
    intro x. unfold to_dict, to_dict_with. destruct m.
    - destruct P as [d P]. cbn [bind]. rewrite P. cbn. split; [discriminate|]. intros [[H _]|[H _]]; congruence.
    - destruct (jsonify_dict E (dump E e (dump_fields E e))) as [d|y] eqn:J; cbn [bind].
      + assert (NB : ~ bad). { intro B. discriminate (proj2 (D TypeError) ltac:(eauto 6)). }
        destruct (C d eq_refl) as [s S]. unfold format_created. rewrite S.
        destruct f as [[| |]|]; cbn; (split; [try discriminate|]).
        * intros [= <-]. right. auto.
        * intros [(_ & B & _)|(_ & _ & _ & ->)]; [contradiction|reflexivity].
        * intros [(_ & B & _)|(_ & Z & _)]; [contradiction|discriminate].
        * intros [(_ & B & _)|(_ & Z & _)]; [contradiction|discriminate].
        * intros [(_ & B & _)|(_ & Z & _)]; [contradiction|discriminate].
      + destruct (proj1 (D y) eq_refl) as [-> B]. split.
        * intros [= <-]. left. split; [discriminate|auto].
        * intros [(_ & _ & ->)|(_ & _ & NB & _)]; [reflexivity|contradiction].
    - destruct (jsonify_dict E (dump E e (dump_fields E e))) as [d|y] eqn:J; cbn [bind].
      + assert (NB : ~ bad). { intro B. discriminate (proj2 (D TypeError) ltac:(eauto 6)). }
        destruct (C d eq_refl) as [s S]. unfold format_created. rewrite S.
        destruct f as [[| |]|]; cbn; (split; [discriminate|]);
          (intros [(_ & B & _)|(Z & _)]; [contradiction|discriminate]).
      + destruct (proj1 (D y) eq_refl) as [-> B]. split.
        * intros [= <-]. left. split; [discriminate|auto].
        * intros [(_ & _ & ->)|(Z & _)]; [reflexivity|discriminate].
  Qed.

  Variable elsewhere : nat -> data -> outcome element.
  Variable base : nat.

  Lemma add_items_app from : forall l p q x i,
    add_items E from p l = Ret q -> from x = Ret i ->
    add_items E from p (l ++ [x]) =
      if match p_types q with None => true | Some ts => fits E ts (p_strict q) (e_cls i) end
      then if existsb (fun j => Nat.eqb (e_id j) (e_id i)) (p_items q) then Raise ExistsError
           else Ret (Pile (p_el q) (p_types q) (p_strict q) (p_items q ++ [i]) (p_name q))
      else Raise TypeError.
  Proof.
    induction l as [|y l IH]; intros p q x i H F; cbn [add_items app] in *.
    - injection H as <-. rewrite F. cbn [bind]. reflexivity.
    - destruct (from y) as [j|]; [|discriminate]. cbn [bind] in *.
      destruct (match p_types p with None => true | Some ts => _ end); [|discriminate].
      destruct (existsb _ (p_items p)); [discriminate|]. eapply IH; eauto.
  Qed.

  Lemma add_items_same from : forall l p q, add_items E from p l = Ret q -> p_types q = p_types p /\ p_strict q = p_strict p.
  Proof.
    induction l as [|y l IH]; intros p q H; cbn in H; [injection H as <-; auto|].
    destruct (from y) as [j|]; [|discriminate]. cbn [bind] in *.
    destruct (match p_types p with None => true | Some ts => _ end); [|discriminate].
    destruct (existsb _ (p_items p)); [discriminate|]. apply IH in H. exact H.
  Qed.

  Lemma collect_app A B (f : A -> outcome B) l x :
    collect f (l ++ [x]) = bind (collect f l) (fun ys => bind (f x) (fun y => Ret (ys ++ [y]))).
  Proof.
    induction l as [|a l IH]; cbn; [destruct (f x); reflexivity|].
    destruct (f a); cbn; [|reflexivity]. rewrite IH. destruct (collect f l); cbn; [|reflexivity].
    destruct (f x); reflexivity.
  Qed.

  (** One more item in data that load: TypeError if it is of no allowed class;
      without a constraint, ExistsError if its id is already there, and
      otherwise the pile with the item at its end. *)
  Theorem C70_one_more c d imk pre p x i :
    pile_from_dict E elsewhere base c d None imk = Ret p ->
    dget "items" d = Some (VList pre) ->
    item_from_dict E elsewhere base imk x = Ret i ->
    (dget "metadata" x = None \/ exists md, dget "metadata" x = Some (VDict md)) ->
    let again := pile_from_dict E elsewhere base c (dset "items" (VList (pre ++ [VDict x])) d) None imk in
    (~ allowed E (p_types p) (p_strict p) (e_cls i) -> again = Raise TypeError) /\
    (p_types p = None -> In (e_id i) (map e_id (p_items p)) -> again = Raise ExistsError) /\
    (p_types p = None -> ~ In (e_id i) (map e_id (p_items p)) ->
       again = Ret (Pile (p_el p) None (p_strict p) (p_items p ++ [i]) (p_name p))).
  Proof.
    intros H D I M again. unfold again, pile_from_dict in *. clear again.
    rewrite dget_dset_same, !dget_dset_other by discriminate.
    rewrite D in H. rewrite collect_app.
    destruct (collect as_dict pre) as [ds|]; [|discriminate]. cbn [bind as_dict] in *.
    destruct (load_types E (dget "item_type" d)) as [ts|]; [|discriminate]. cbn [bind] in *.
    set (st := match dget "strict_type" d with Some v => truthy v | None => false end) in *.
    assert (W : ddel "items" (dset "items" (VList (pre ++ [VDict x])) d) = ddel "items" d).
    { clear. induction d as [|[k v] d IH]; [reflexivity|]. cbn [dset].
      destruct (eqb "items" k) eqn:K; cbn [ddel]; rewrite K; [reflexivity|]. f_equal. exact IH. }
    rewrite W.
    set (el := model_validate E c _) in *.
    set (nm := match dget "metadata" d with None => _ | Some _ => _ end) in *.
    assert (P : forall y, bind (match ts with Some t => bind (collect (precheck E t st) ds) (fun _ => Ret tt) | None => Ret tt end) y = Ret p ->
                match ts with Some t => bind (collect (precheck E t st) ds) (fun _ => Ret tt) | None => Ret tt end = Ret tt /\ y tt = Ret p).
    { intros y Y. destruct ts as [t|]; [destruct (collect _ ds); [|discriminate]|]; auto. }
    apply P in H. destruct H as [P1 H].
    destruct el as [el|]; [|discriminate]. cbn [bind] in *.
    destruct nm as [nm|]; [|discriminate]. cbn [bind] in *.
    pose proof (add_items_same _ _ _ _ H) as [T S]. cbn in T, S.
    pose proof (add_items_app _ _ _ _ _ _ H I) as Q. rewrite Q. clear Q.
    rewrite T, S. repeat split.
    - intros NA. destruct ts as [t|]; [|destruct NA; exact Logic.I].
      assert (NF : fits E t st (e_cls i) = false).
      { apply not_true_is_false. intro F. apply NA. unfold fits in F. cbn.
        destruct st; apply existsb_exists in F; destruct F as (u & U1 & U2); exists u; split; auto.
        apply Nat.eqb_eq in U2. congruence. }
      rewrite NF. rewrite collect_app. destruct (collect (precheck E t st) ds); [|discriminate]. cbn [bind].
      assert (K : precheck E t st x = Ret tt \/ precheck E t st x = Raise TypeError).
      { unfold precheck. destruct M as [->|[md ->]]; [auto|]. destruct (dget "lion_class" md) as [v|]; [|auto].
        destruct (truthy v); [|auto]. destruct v; auto. destruct (load E s); [|auto]. destruct (fits E t st n); auto. }
      destruct K as [->| ->]; reflexivity.
    - intros -> J. cbn [bind]. apply in_map_iff in J. destruct J as (j & J1 & J2).
      replace (existsb _ (p_items p)) with true; [reflexivity|]. symmetry. apply existsb_exists.
      exists j. split; [exact J2|]. apply Nat.eqb_eq. exact J1.
    - intros -> J. cbn [bind].
      replace (existsb _ (p_items p)) with false; [reflexivity|]. symmetry. apply not_true_is_false.
      intro X. apply existsb_exists in X. destruct X as (j & J2 & J1). apply Nat.eqb_eq in J1.
      apply J. apply in_map_iff. eauto.
  Qed.
End Errors.
Print Assumptions C69_dump_errors.
Print Assumptions C70_one_more.

Example C69_ex_errors :
  has_object (VList [VNum 1; VDict [("f", VObj 3)]]) /\
  to_dict ex (Element 0 7 (Time 1000 (Some 0%Z)) [("a", VList [VObj 3])] []) Json (Some Datetime) None = Raise TypeError /\
  to_dict ex (Element 0 7 (Time 1000 (Some 0%Z)) [("lion_class", VObj 3)] []) Json (Some Datetime) None = Raise ValueError.
Proof.
  split; [|split; reflexivity]. eapply ho_list; [right; left; reflexivity|].
  eapply ho_dict; [left; reflexivity|constructor].
Qed.
(** The class of an item is only known once it is loaded, if its data do not name it. *)
Example C70_ex_errors :
  let d ts := [("item_type", VList [VStr (cname_ ts)]); ("items", VList [VDict []])] in
  pile_from_dict ex nodelegate 0 4 (d 1) None None = Raise TypeError /\
  (exists p, pile_from_dict ex nodelegate 0 4 (d 0) None None = Ret p /\ length (p_items p) = 1).
Proof. split; [reflexivity|]. eexists. split; reflexivity. Qed.
(** A class name that is not a text: lists and dicts fail the check before loading, others
    the loading itself. *)
Example C70_ex_class_names :
  let d v := [("item_type", VList [VStr (cname_ 0)]); ("items", VList [VDict [("metadata", VDict [("lion_class", v)])]])] in
  pile_from_dict ex nodelegate 0 4 (d (VNum 1)) None None = Raise ValueError /\
  pile_from_dict ex nodelegate 0 4 (d (VList [VNum 1])) None None = Raise TypeError /\
  pile_from_dict ex nodelegate 0 4 (d (VDict [("a", VNum 1)])) None None = Raise TypeError /\
  (exists p, pile_from_dict ex nodelegate 0 4 (d (VNum 0)) None None = Ret p /\ length (p_items p) = 1).
Proof. repeat split; try reflexivity. eexists. split; reflexivity. Qed.
Example C70_ex_node_class_names :
  let d v := [("metadata", VDict [("lion_class", v)])] in
  node_from_dict ex 0 (d (VNum 1)) None None = Raise AttributeError /\
  node_from_dict ex 0 (d (VList [VNum 1])) None None = Raise TypeError /\
  node_from_dict ex 0 (d (VDict [("a", VNum 1)])) None None = Raise TypeError /\
  (exists e, node_from_dict ex 0 (d (VNum 0)) None None = Ret e /\ e_cls e = 0).
Proof. repeat split; try reflexivity. eexists. split; reflexivity. Qed.
