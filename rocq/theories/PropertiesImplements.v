(** C102: declared protocols are defined in the class body. *)
From Coq Require Import String Ascii.
From Coq Require Import List Bool Sorted.
From Verif Require Import PyBase PyFacts ModelImplements.
Import ListNotations.
#[local] Arguments eqb : simpl never.

(** What a class has under a name: what the first class in resolution order with that name in its
    body has there. *)
Inductive has (n : string) (a : attr) : list body -> Prop :=
| has_here b m : dget n b = Some a -> has n a (b :: m)
| has_later b m : ~ In n (dkeys b) -> has n a m -> has n a (b :: m).

Definition is_member (a : attr) : Prop := a = AFun \/ a = AProp \/ a = AClassM \/ a = AStaticM \/ a = AData true.
Definition public (n : string) : Prop := forall s, n <> String "_" s.

(** The members of a protocol that a class has to define, and defining. *)
Definition requires (p : pyclass) (n : string) : Prop :=
  public n /\ exists a, has n a (mro p) /\ is_member a.
Definition defines (c : pyclass) (n : string) : Prop := In n (dkeys (c_body c)) \/ In n (c_notes c).

Lemma lookup_has n a m : lookup n m = Some a <-> has n a m.
Proof.
  induction m as [|b m IH]; cbn.
  - split; [discriminate|intros H; inversion H].
  - destruct (dget n b) as [a'|] eqn:E; split.
    + intros [= ->]. apply has_here. exact E.
    + intros H. inversion H as [? ? H1|? ? H1 H2]; subst; [congruence|].
      apply dget_Some_key in E. contradiction.
    + intros H. apply has_later; [apply dget_None; exact E|apply IH; exact H].
    + intros H. inversion H as [? ? H1|? ? H1 H2]; subst; [congruence|apply IH; exact H2].
Qed.

Lemma In_sinsert n m l : In n (sinsert m l) <-> n = m \/ In n l.
Proof.
  induction l as [|k l IH]; cbn; [intuition congruence|].
  destruct (String.compare m k) eqn:E; cbn.
  - apply String.compare_eq_iff in E. subst. intuition congruence.
  - intuition congruence.
  - rewrite IH. intuition congruence.
Qed.
Lemma In_dir n m : In n (dir m) <-> exists b, In b m /\ In n (dkeys b).
Proof.
  unfold dir. assert (H : forall l, In n (fold_right sinsert [] l) <-> In n l).
  { induction l as [|k l IH]; cbn; [tauto|]. rewrite In_sinsert, IH. intuition congruence. }
  rewrite H, in_concat. split.
  - intros (l & Hl & Hn). apply in_map_iff in Hl. destruct Hl as (b & <- & Hb). eauto.
  - intros (b & Hb & Hn). exists (dkeys b). split; [apply in_map; exact Hb|exact Hn].
Qed.
Lemma has_dir n a m : has n a m -> In n (dir m).
Proof.
  intros H. apply In_dir. induction H as [b m H|b m _ _ (b' & Hb & Hn)].
  - exists b. split; [left; reflexivity|]. eapply dget_Some_key; exact H.
  - exists b'. split; [right; exact Hb|exact Hn].
Qed.

Lemma private_spec n : private n = false <-> public n.
Proof.
  unfold public, private. destruct n as [|c s]; [split; congruence|].
  destruct (Ascii.eqb_spec c "_") as [->|Hc]; split.
  - discriminate.
  - intros H. exfalso. apply (H s). reflexivity.
  - intros _ s' [= -> _]. congruence.
  - reflexivity.
Qed.
Lemma method_like_spec a : method_like a = true <-> is_member a.
Proof. unfold is_member. destruct a as [| | | |[]|]; cbn; intuition congruence. Qed.

Lemma members_spec p n : In n (protocol_members p) <-> requires p n.
Proof.
  unfold protocol_members, requires. rewrite filter_In, andb_true_iff, negb_true_iff, private_spec. split.
  - intros (_ & Hp & H). split; [exact Hp|]. destruct (lookup n (mro p)) as [a|] eqn:E; [|discriminate].
    exists a. split; [apply lookup_has; exact E|apply method_like_spec; exact H].
  - intros (Hp & a & Ha & Hm). split; [eapply has_dir; exact Ha|]. split; [exact Hp|].
    apply lookup_has in Ha. rewrite Ha. apply method_like_spec. exact Hm.
Qed.

Lemma in_body_spec c n : in_class_body c n = true <-> defines c n.
Proof. unfold in_class_body, defines. rewrite orb_true_iff, dmem_true, memb_In. reflexivity. Qed.

(** Members are looked through in alphabetical order. *)
Definition slt (a b : string) : Prop := String.compare a b = Lt.
Lemma slt_trans a b c : slt a b -> slt b c -> slt a c.
Proof.
  unfold slt. revert b c. induction a as [|x a IH]; intros [|y b] [|z c]; cbn; try congruence.
  destruct (Ascii.compare x y) eqn:E1; try discriminate; destruct (Ascii.compare y z) eqn:E2; try discriminate.
  - apply Ascii.compare_eq_iff in E1, E2. subst. assert (Ascii.compare z z = Eq) as -> by (unfold Ascii.compare; apply BinNat.N.compare_refl).
    apply IH.
  - apply Ascii.compare_eq_iff in E1. subst. rewrite E2. reflexivity.
  - apply Ascii.compare_eq_iff in E2. subst. rewrite E1. reflexivity.
  - assert (Ascii.compare x z = Lt) as ->; [|reflexivity]. unfold Ascii.compare in *.
    apply BinNat.N.compare_lt_iff in E1, E2. apply BinNat.N.compare_lt_iff. eapply BinNat.N.lt_trans; eassumption.
Qed.
Lemma sinsert_sorted n l : StronglySorted slt l -> StronglySorted slt (sinsert n l).
Proof.
  induction 1 as [|m l Hs IH Hf]; cbn; [repeat constructor|].
  destruct (String.compare n m) eqn:E.
  - constructor; assumption.
  - constructor; [constructor; assumption|]. constructor; [exact E|].
    eapply Forall_impl; [|exact Hf]. intros k Hk. eapply slt_trans; eassumption.
  - constructor; [exact IH|]. apply Forall_forall. intros k Hk. apply In_sinsert in Hk.
    destruct Hk as [->|Hk]; [|rewrite Forall_forall in Hf; auto].
    unfold slt. rewrite String.compare_antisym, E. reflexivity.
Qed.
Lemma dir_sorted m : StronglySorted slt (dir m).
Proof. unfold dir. induction (concat _) as [|n l IH]; cbn; [constructor|apply sinsert_sorted, IH]. Qed.
Lemma filter_sorted f l : StronglySorted slt l -> StronglySorted slt (filter f l).
Proof.
  induction 1 as [|m l Hs IH Hf]; cbn; [constructor|]. destruct (f m); [|exact IH].
  constructor; [exact IH|]. apply Forall_forall. intros k Hk. apply filter_In in Hk.
  rewrite Forall_forall in Hf. apply Hf. apply Hk.
Qed.
Lemma find_first f l n : StronglySorted slt l -> find f l = Some n ->
  In n l /\ f n = true /\ forall m, In m l -> f m = true -> m = n \/ slt n m.
Proof.
  induction 1 as [|k l Hs IH Hf]; cbn; [discriminate|]. destruct (f k) eqn:E.
  - intros [= <-]. split; [auto|]. split; [exact E|]. intros m [->|Hm] _; [auto|].
    right. rewrite Forall_forall in Hf. auto.
  - intros H. destruct (IH H) as (H1 & H2 & H3). split; [auto|]. split; [exact H2|].
    intros m [->|Hm] Hm'; [congruence|auto].
Qed.

Lemma first_missing_none c ps : first_missing c ps = None <->
  forall p n, In p ps -> requires p n -> defines c n.
Proof.
  induction ps as [|p ps IH]; cbn [first_missing]; [split; [intros _ ? ? []|reflexivity]|].
  destruct (find (fun n => negb (in_class_body c n)) (protocol_members p)) as [n|] eqn:E.
  - split; [discriminate|]. intros H. exfalso. apply find_some in E. destruct E as [E1 E2].
    apply members_spec in E1. apply negb_true_iff in E2.
    assert (D : in_class_body c n = true) by (apply in_body_spec; apply (H p n (or_introl eq_refl) E1)). congruence.
  - rewrite IH. split.
    + intros H q n [->|Hq] Hr; [|eauto]. apply in_body_spec.
      apply members_spec in Hr. pose proof (find_none _ _ E n Hr) as F. apply negb_false_iff in F. exact F.
    + intros H q n Hq. apply H. right. exact Hq.
Qed.

(** ** C102 *)

(** A class is accepted exactly if its own body defines or annotates every public method,
    property, classmethod or staticmethod that the protocols have, themselves or by inheritance;
    what it inherits does not count. *)
Theorem C102_accepts ps c :
  (exists c', implements ps c = Decorated c') <-> forall p n, In p ps -> requires p n -> defines c n.
Proof.
  rewrite <- first_missing_none. unfold implements. destruct (first_missing c ps) as [[p n]|].
  - split; [intros (c' & H)|]; discriminate.
  - split; eauto.
Qed.
Print Assumptions C102_accepts.

(** An accepted class is the class as it was, but for __protocols__, which are those declared
    last: exactly, and whatever was there before. *)
Theorem C102_result ps c c' : implements ps c = Decorated c' ->
  protocols_of c' = Some (map c_name ps) /\
  c_name c' = c_name c /\ c_notes c' = c_notes c /\ c_bases c' = c_bases c /\
  (forall n, n <> "__protocols__"%string -> dget n (c_body c') = dget n (c_body c)).
Proof.
  unfold implements. destruct (first_missing c ps) as [[p n]|]; [discriminate|]. intros [= <-].
  unfold protocols_of. cbn. rewrite dget_dset_same. repeat split; auto.
  intros n Hn. apply dget_dset_other. exact Hn.
Qed.
Print Assumptions C102_result.

(** A refusal names the first of the protocols that is not met, and its alphabetically first
    member that is missing. *)
Theorem C102_refusal ps c pn n : implements ps c = Refused pn n ->
  exists ps1 p ps2, ps = ps1 ++ p :: ps2 /\ c_name p = pn /\
    (forall q m, In q ps1 -> requires q m -> defines c m) /\
    requires p n /\ ~ defines c n /\
    (forall m, requires p m -> ~ defines c m -> m = n \/ String.compare n m = Lt).
Proof.
  unfold implements. destruct (first_missing c ps) as [[p' n']|] eqn:E; [|discriminate]. intros [= -> ->].
  induction ps as [|p ps IH]; [discriminate|]. cbn [first_missing] in E.
  destruct (find (fun n => negb (in_class_body c n)) (protocol_members p)) as [k|] eqn:F.
  - injection E as E1 E2. subst k pn. exists [], p, ps. split; [reflexivity|]. split; [reflexivity|].
    split; [intros ? ? []|]. apply find_first in F; [|apply filter_sorted, dir_sorted].
    destruct F as (F1 & F2 & F3). apply negb_true_iff in F2. split; [apply members_spec; exact F1|]. split.
    + intros D. apply in_body_spec in D. congruence.
    + intros m Hm Hd. apply F3; [apply members_spec; exact Hm|]. apply negb_true_iff.
      destruct (in_class_body c m) eqn:B; [|reflexivity]. apply in_body_spec in B. contradiction.
  - destruct (IH E) as (ps1 & q & ps2 & -> & H1 & H2 & H3). exists (p :: ps1), q, ps2.
    split; [reflexivity|]. split; [exact H1|]. split; [|exact H3].
    intros r m [->|Hr] Hm; [|eauto]. apply in_body_spec. apply members_spec in Hm.
    pose proof (find_none _ _ F m Hm) as N. apply negb_false_iff in N. exact N.
Qed.
Print Assumptions C102_refusal.

(** Declaring more protocols, or adding to the class body, keeps acceptance monotone. *)
Theorem C102_split ps qs c :
  (exists c', implements (ps ++ qs) c = Decorated c') <->
  (exists c', implements ps c = Decorated c') /\ (exists c', implements qs c = Decorated c').
Proof.
  rewrite !C102_accepts. split.
  - intros H. split; intros p n Hp; apply H; apply in_or_app; auto.
  - intros [H1 H2] p n Hp. apply in_app_or in Hp. destruct Hp; eauto.
Qed.
Print Assumptions C102_split.

(** *** What is not checked *)

(** A protocol whose members all start with an underscore accepts every class: Hashable and
    Containable do. *)
Theorem C102_private p c : (forall n, In n (concat (map dkeys (mro p))) -> exists s, n = String "_" s) ->
  exists c', implements [p] c = Decorated c'.
Proof.
  intros H. apply C102_accepts. intros q n [<-|[]] (Hp & a & Ha & _). exfalso.
  apply has_dir, In_dir in Ha. destruct Ha as (b & Hb & Hn).
  destruct (H n) as (s & ->); [|apply (Hp s); reflexivity].
  apply in_concat. exists (dkeys b). split; [apply in_map; exact Hb|exact Hn].
Qed.
Print Assumptions C102_private.

(** object, typing.Protocol and the protocols used below. *)
Definition o_object : body := [("__hash__"%string, AFun); ("__eq__"%string, AFun); ("__doc__"%string, AData false)].
Definition o_protocol : body := [("_is_protocol"%string, AData false); ("__init__"%string, AFun)].
Definition Containable : pyclass :=
  Class "Containable" [("__contains__"%string, AFun); ("__doc__"%string, AData false)] [] [o_protocol; o_object].
Definition Serializable : pyclass :=
  Class "Serializable" [("to_dict"%string, AFun)] [] [o_protocol; o_object].
Definition Deserializable : pyclass :=
  Class "Deserializable" [("from_dict"%string, AClassM)] [] [o_protocol; o_object].
Definition Observable : pyclass :=
  Class "ObservableProto" [("id"%string, AProp)] [] [o_protocol; o_object].
Definition Adaptable : pyclass :=
  Class "Adaptable" [("adapt_to"%string, AFun); ("adapt_from"%string, AClassM)] [] [o_protocol; o_object].

(** So the rule of the docstring, that a class has to define what it declares, does not hold for
    Containable: neither the class nor a class it inherits from has __contains__. *)
Theorem C102_defined_refuted : exists c c', implements [Containable] c = Decorated c' /\
  ~ exists a, has "__contains__" a (mro c').
Proof.
  exists (Class "Empty" [] [] [o_object]). eexists. split; [reflexivity|].
  intros (a & H). apply lookup_has in H. cbv in H. discriminate.
Qed.
Print Assumptions C102_defined_refuted.

(** An annotation is enough, and any value: an accepted class may have no to_dict at all, or one
    that cannot be called. *)
Theorem C102_callable_refuted :
  (exists c c', implements [Serializable] c = Decorated c' /\ ~ exists a, has "to_dict" a (mro c')) /\
  (exists c c', implements [Serializable] c = Decorated c' /\ has "to_dict" (AData false) (mro c')).
Proof.
  split.
  - exists (Class "Noted" [] ["to_dict"%string] [o_object]). eexists. split; [reflexivity|].
    intros (a & H). apply lookup_has in H. cbv in H. discriminate.
  - exists (Class "Nulled" [("to_dict"%string, AData false)] [] [o_object]). eexists. split; [reflexivity|].
    apply lookup_has. reflexivity.
Qed.
Print Assumptions C102_callable_refuted.

(** A subclass that is not decorated answers the protocols of the class it inherits from, though
    its own body defines nothing (the decorator would refuse it); and a subclass decorated with
    others answers only those. *)
Theorem C102_inherited ps c c' n b notes : implements ps c = Decorated c' -> dget "__protocols__"%string b = None ->
  protocols_of (subclass n b notes c') = Some (map c_name ps).
Proof.
  intros H Hb. apply C102_result in H. destruct H as (H & _). unfold protocols_of, subclass in *.
  cbn [mro c_body c_bases lookup] in *. rewrite Hb. exact H.
Qed.
Print Assumptions C102_inherited.
Theorem C102_own_refuted : exists c c', implements [Serializable] c = Decorated c' /\
  let d := subclass "Child" [] [] c' in
  protocols_of d = Some ["Serializable"%string] /\ implements [Serializable] d = Refused "Serializable" "to_dict".
Proof.
  exists (Class "Parent" [("to_dict"%string, AFun)] [] [o_object]). eexists. split; [reflexivity|].
  split; reflexivity.
Qed.
Print Assumptions C102_own_refuted.

(** A Pydantic class whose id is a field (annotated only), with methods of its own. *)
Definition element : pyclass :=
  Class "Element" [("to_dict"%string, AFun); ("from_dict"%string, AClassM); ("__hash__"%string, AFun)]
        ["id"%string; "created_at"%string] [o_object].
Example C102_ex : implements [Observable; Serializable; Deserializable] element =
  Decorated (Class "Element" [("to_dict"%string, AFun); ("from_dict"%string, AClassM); ("__hash__"%string, AFun);
    ("__protocols__"%string, AProtocols ["ObservableProto"; "Serializable"; "Deserializable"]%string)]
    ["id"%string; "created_at"%string] [o_object]).
Proof. reflexivity. Qed.
(** Its subclass defines to_dict only. *)
Example C102_ex_refused :
  let node := subclass "Node" [("to_dict"%string, AFun)] ["content"%string] element in
  implements [Serializable; Adaptable; Deserializable] node = Refused "Adaptable" "adapt_from".
Proof. reflexivity. Qed.
(** A protocol that extends others requires what they do; a nested name made data there is not. *)
Example C102_ex_extended :
  let p := subclass "Both" [("extra"%string, AFun); ("to_dict"%string, AData false)] [] Serializable in
  protocol_members p = ["extra"%string] /\
  protocol_members (subclass "Both" [("extra"%string, AStaticM)] [] Serializable) = ["extra"; "to_dict"]%string.
Proof. split; reflexivity. Qed.
