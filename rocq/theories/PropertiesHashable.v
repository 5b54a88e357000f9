(** C98: hashes and dicts of HashableModel. *)
From Coq Require Import String.
From Coq Require Import List Bool ZArith Permutation.
From Verif Require Import ModelHash SpecHash ProofsHash PropertiesHash ModelHashable.
Import ListNotations.
Open Scope list_scope.

(** ** Python's == on values and models, and which values are safe *)
Section Eq.
  Variable other_eq : string -> string -> Prop.      (* == of other objects, by their texts *)
  Inductive pyeq : hv -> hv -> Prop :=
  | pe_prim p q : prim_eq p q -> pyeq (HPrim p) (HPrim q)
  | pe_dict kv kv' kv2 : Permutation kv kv2 -> Forall2 (fun e e' => pyeq (fst e) (fst e') /\ pyeq (snd e) (snd e')) kv2 kv' -> pyeq (HDict kv) (HDict kv')
  | pe_list l l' : Forall2 pyeq l l' -> pyeq (HList l) (HList l')
  | pe_tuple l l' : Forall2 pyeq l l' -> pyeq (HTuple l) (HTuple l')
  | pe_sets x y l l' l2 : x = HSet l \/ x = HFrozen l -> y = HSet l' \/ y = HFrozen l' -> Permutation l l2 -> Forall2 pyeq l2 l' -> pyeq x y
  | pe_model d d' : pyeq d d' -> pyeq (HModel d) (HModel d')
  | pe_other t t' : other_eq t t' -> pyeq (HOther t) (HOther t').
  Definition feq (a b : fval) : Prop :=
    match a, b with Sent s, Sent s' => s = s' | Val v, Val v' => pyeq v v' | _, _ => False end.
  Definition model_eq (m m' : model) : Prop :=
    cls m = cls m' /\ Forall2 (fun e e' => fst e = fst e' /\ feq (snd e) (snd e')) (fields m) (fields m').
End Eq.
(** Plain data without frozensets: keys are texts, sets hold no bools and no whole floats, no other objects. *)
Inductive clean : hv -> Prop :=
| cl_prim p : clean (HPrim p)
| cl_dict kv ks : map fst kv = map (fun s => HPrim (PStr s)) ks -> NoDup ks -> Forall clean (map snd kv) -> clean (HDict kv)
| cl_list l : Forall clean l -> clean (HList l)
| cl_tuple l : Forall clean l -> clean (HTuple l)
| cl_set l ps : prims l ps -> distinct ps -> Forall (fun p => ~ whole p) ps -> clean (HSet l)
| cl_model d : clean d -> clean (HModel d).
Definition clean_model (m : model) : Prop := NoDup (map fst (fields m)) /\ forall f v, In (f, Val v) (fields m) -> clean v.

Lemma clean_plain x : clean x -> plain x.
Proof.
  induction x as [x IH] using hv_ind'. intro C. inversion C as [p|kv ks E N F|l F|l F|l ps P D B|d CD]; subst.
  - constructor.
  - econstructor; eauto. apply Forall_forall. intros y Y. rewrite Forall_forall in F. apply IH; [exact Y|auto].
  - constructor. apply Forall_forall. intros y Y. rewrite Forall_forall in F. apply IH; [exact Y|auto].
  - constructor. apply Forall_forall. intros y Y. rewrite Forall_forall in F. apply IH; [exact Y|auto].
  - econstructor; eauto.
  - constructor. apply IH; [reflexivity|assumption].
Qed.

Section C98.
  Variable other_eq : string -> string -> Prop.
  Notation pyeq := (pyeq other_eq).
  Lemma clean_same x : forall y, clean x -> clean y -> pyeq x y -> same x y.
  Proof.
    induction x as [x IH] using hv_ind'. intros y CX CY E. destruct E as [p q E|kv kv' kv2 P F|l l' F|l l' F|x y l l' l2 X Y P F|d d' E|t t' E].
    - constructor. exact E.
    - inversion CX as [|kv0 ks E1 N1 F1| | | |]; subst. inversion CY as [|kv0' ks' E1' N1' F1'| | | |]; subst. apply (sm_dict kv kv' kv2 P).
      assert (S : forall e, In e kv2 -> sub (snd e) (HDict kv) /\ clean (snd e) /\ exists s, fst e = HPrim (PStr s)).
      { intros e I. apply (Permutation_in _ (Permutation_sym P)) in I. split; [apply in_map, I|]. split; [rewrite Forall_forall in F1; apply F1, in_map, I|].
        assert (J : In (fst e) (map fst kv)) by (apply in_map, I). rewrite E1 in J. apply in_map_iff in J. destruct J as (s & <- & _). eauto. }
      assert (S' : forall e, In e kv' -> clean (snd e) /\ exists s, fst e = HPrim (PStr s)).
      { intros e I. split; [rewrite Forall_forall in F1'; apply F1', in_map, I|].
        assert (J : In (fst e) (map fst kv')) by (apply in_map, I). rewrite E1' in J. apply in_map_iff in J. destruct J as (s & <- & _). eauto. }
      clear - IH F S S'. induction F as [|e e' k k' [E1 E2] F IHF]; constructor.
      + destruct (S e ltac:(left; reflexivity)) as (SB & C & s & K). destruct (S' e' ltac:(left; reflexivity)) as (C' & s' & K'). split; [|apply IH; assumption].
        rewrite K, K' in *. inversion E1 as [p q Q| | | |x y l l' l2 X _ _ _| |]; subst; [cbn in Q; congruence|destruct X; discriminate].
      + apply IHF; intros; [apply S|apply S']; right; assumption.
    - inversion CX as [| |l0 F1| | |]; subst. inversion CY as [| |l0 F2| | |]; subst. constructor. rewrite Forall_forall in F1, F2. cbn in IH. clear - IH F F1 F2.
      induction F as [|a b l l' E F IHF]; constructor; [apply IH; auto using in_eq|]. apply IHF; intros; [apply IH|apply F1|apply F2]; auto using in_cons.
    - inversion CX as [| | |l0 F1| |]; subst. inversion CY as [| | |l0 F2| |]; subst. constructor. rewrite Forall_forall in F1, F2. cbn in IH. clear - IH F F1 F2.
      induction F as [|a b l l' E F IHF]; constructor; [apply IH; auto using in_eq|]. apply IHF; intros; [apply IH|apply F1|apply F2]; auto using in_cons.
    - destruct X as [->| ->]; [|inversion CX]. destruct Y as [->| ->]; [|inversion CY]. constructor.
      inversion CX as [| | | |l0 ps PS D NB|]; subst. inversion CY as [| | | |l0' ps' PS' D' NB'|]; subst. unfold prims in *. subst.
      replace (map HPrim ps') with l2; [exact P|]. assert (S : forall e, In e l2 -> exists p, e = HPrim p /\ In p ps).
      { intros e I. apply (Permutation_in _ (Permutation_sym P)) in I. apply in_map_iff in I. destruct I as (p & <- & I). eauto. }
      clear - F S NB NB'. remember (map HPrim ps') as l'. revert ps' Heql' NB'. induction F as [|a b l l' E F IHF]; intros ps' L NB'; [reflexivity|].
      destruct ps' as [|q ps']; [discriminate|]. injection L as -> ->. f_equal; [|apply (IHF ltac:(intros; apply S; right; assumption) ps' eq_refl); inversion NB'; assumption].
      destruct (S a ltac:(left; reflexivity)) as (p & -> & I). inversion E as [p0 q0 Q| | | |x y l0 l1 l2 X _ _ _| |]; subst; [|destruct X; discriminate]. f_equal.
      apply plain_rep_inj; [rewrite Forall_forall in NB; apply NB, I|inversion NB'; assumption|apply prim_eq_rep, Q].
    - inversion CX; subst. inversion CY; subst. constructor. apply IH; auto. reflexivity.
    - inversion CX.
  Qed.
End C98.

Lemma dump_clean x : clean x -> clean (dump x).
Proof.
  induction x as [x IH] using hv_ind'. intro C. inversion C as [p|kv ks E N F|l F|l F|l ps P D B|d CD]; subst; cbn.
  - constructor.
  - apply (cl_dict _ ks); [rewrite map_map; exact E|exact N|]. rewrite map_map. cbn. apply Forall_forall. intros y Y. apply in_map_iff in Y. destruct Y as (e & <- & I).
    apply IH; [apply in_map, I|]. rewrite Forall_forall in F. apply F, in_map, I.
  - constructor. apply Forall_forall. intros y Y. apply in_map_iff in Y. destruct Y as (e & <- & I). rewrite Forall_forall in F. apply IH; [exact I|apply F, I].
  - constructor. apply Forall_forall. intros y Y. apply in_map_iff in Y. destruct Y as (e & <- & I). rewrite Forall_forall in F. apply IH; [exact I|apply F, I].
  - econstructor; eauto.
  - assumption.
Qed.
Lemma dump_same x : forall y, same x y -> same (dump x) (dump y).
Proof.
  induction x as [x IH] using hv_ind'. intros y S. destruct S as [p q E|kv kv' kv2 PE F|l l' F|l l' F|l l' PE|l l' PE|d d' SD|t]; cbn; try (constructor; assumption).
  - apply (sm_dict _ _ (map (fun e => (fst e, dump (snd e))) kv2)); [apply Permutation_map, PE|].
    assert (SB : forall e, In e kv2 -> sub (snd e) (HDict kv)) by (intros e I; apply in_map, (Permutation_in _ (Permutation_sym PE)), I).
    clear - IH F SB. induction F as [|e e' k k' [E1 E2] F IHF]; cbn; constructor; [cbn; split; [exact E1|apply IH; [apply SB; left; reflexivity|exact E2]]|].
    apply IHF. intros; apply SB; right; assumption.
  - constructor. cbn in IH. clear - IH F. induction F as [|a b l l' E F IHF]; cbn; constructor; [apply IH; [left; reflexivity|exact E]|]. apply IHF. intros; apply IH; [right; assumption|assumption].
  - constructor. cbn in IH. clear - IH F. induction F as [|a b l l' E F IHF]; cbn; constructor; [apply IH; [left; reflexivity|exact E]|]. apply IHF. intros; apply IH; [right; assumption|assumption].
  - exact SD.
Qed.

(** What model_dump makes of a value: nested models become dicts. *)
Inductive dumped : hv -> hv -> Prop :=
| dp_model d : dumped (HModel d) d
| dp_dict kv kv' : Forall2 (fun e e' => fst e' = fst e /\ dumped (snd e) (snd e')) kv kv' -> dumped (HDict kv) (HDict kv')
| dp_list l l' : Forall2 dumped l l' -> dumped (HList l) (HList l')
| dp_tuple l l' : Forall2 dumped l l' -> dumped (HTuple l) (HTuple l')
| dp_prim p : dumped (HPrim p) (HPrim p)
| dp_set l : dumped (HSet l) (HSet l)
| dp_frozen l : dumped (HFrozen l) (HFrozen l)
| dp_other t : dumped (HOther t) (HOther t).
Lemma dump_dumped x : dumped x (dump x).
Proof.
  induction x as [x IH] using hv_ind'. destruct x; cbn in *; constructor.
  - induction kv as [|e kv IHk]; cbn; constructor; [split; [reflexivity|apply IH; left; reflexivity]|]. apply IHk. intros; apply IH; right; assumption.
  - induction l as [|e l IHl]; cbn; constructor; [apply IH; left; reflexivity|]. apply IHl. intros; apply IH; right; assumption.
  - induction l as [|e l IHl]; cbn; constructor; [apply IH; left; reflexivity|]. apply IHl. intros; apply IH; right; assumption.
Qed.
Lemma dumped_dump x : forall y, dumped x y -> y = dump x.
Proof.
  assert (L : forall l l', (forall a, In a l -> forall y, dumped a y -> y = dump a) -> Forall2 dumped l l' -> l' = map dump l).
  { intros l l' IH F. induction F as [|a b l l' D F IHF]; [reflexivity|]. cbn. f_equal; [apply IH; [left; reflexivity|exact D]|]. apply IHF. intros; apply IH; [right; assumption|assumption]. }
  induction x as [x IH] using hv_ind'. intros y D. destruct D as [d|kv kv' F|l l' F|l l' F|p|l|l|t]; cbn in *; try reflexivity; f_equal; auto.
  induction F as [|[k v] [k' v'] l l' [E D] F IHF]; [reflexivity|]. cbn in *. f_equal; [f_equal; [exact E|apply IH; [left; reflexivity|exact D]]|]. apply IHF. intros; apply IH; [right; assumption|assumption].
Qed.

(** ** What a model holds *)
Definition value (m : model) (f : string) : option hv :=
  match find (fun e => String.eqb (fst e) f) (fields m) with Some (_, Val v) => Some v | _ => None end.
Definition all (_ : string) := true.
Definition kept_names (m : model) : list string := flat_map (fun e => match snd e with Val _ => [fst e] | Sent _ => [] end) (fields m).

Lemma kept_keys m : map fst (kept all m) = map (fun s => HPrim (PStr s)) (kept_names m).
Proof. unfold kept, kept_names, all. induction (fields m) as [|[f [s|v]] fs IH]; cbn; [reflexivity|exact IH|]. f_equal. exact IH. Qed.
Lemma kept_in keep m k v : In (k, v) (kept keep m) <-> exists f w, k = HPrim (PStr f) /\ v = dump w /\ keep f = true /\ In (f, Val w) (fields m).
Proof.
  unfold kept. rewrite in_flat_map. split.
  - intros ([f [s|w]] & I & J); cbn in J; [contradiction|]. destruct (keep f) eqn:K; [|contradiction]. destruct J as [J|[]]. injection J as <- <-. exists f, w. auto.
  - intros (f & w & -> & -> & K & I). exists (f, Val w). split; [exact I|]. cbn. rewrite K. left. reflexivity.
Qed.
Lemma names_in m f : In f (kept_names m) <-> exists w, In (f, Val w) (fields m).
Proof.
  unfold kept_names. rewrite in_flat_map. split.
  - intros ([g [s|w]] & I & J); cbn in J; [contradiction|]. destruct J as [<-|[]]. eauto.
  - intros (w & I). exists (f, Val w). split; [exact I|left; reflexivity].
Qed.
Lemma names_nodup m : NoDup (map fst (fields m)) -> NoDup (kept_names m).
Proof.
  unfold kept_names. induction (fields m) as [|[f v] fs IH]; cbn; intro N; [constructor|]. inversion N as [|? ? H N']; subst. destruct v as [s|w]; [auto|]. cbn.
  constructor; [|auto]. intro I. apply H. apply in_flat_map in I. destruct I as ([g [s|w']] & I & J); cbn in J; [contradiction|]. destruct J as [<-|[]]. apply (in_map fst) in I. exact I.
Qed.
Lemma value_in m f w : NoDup (map fst (fields m)) -> (value m f = Some w <-> In (f, Val w) (fields m)).
Proof.
  unfold value. intro N. induction (fields m) as [|[g v] fs IH]; cbn; [split; [discriminate|contradiction]|]. inversion N as [|? ? H N']; subst.
  destruct (String.eqb_spec g f) as [->|NE].
  - split; [destruct v; [discriminate|intro E; injection E as ->; left; reflexivity]|]. intros [E|I]; [injection E as ->; reflexivity|].
    exfalso. apply H. apply (in_map fst) in I. exact I.
  - rewrite (IH N'). split; [right; assumption|]. intros [E|I]; [congruence|exact I].
Qed.
Lemma kept_clean m : clean_model m -> clean (HDict (kept all m)).
Proof.
  intros [N C]. apply (cl_dict _ (kept_names m)); [apply kept_keys|apply names_nodup, N|]. apply Forall_forall. intros v I. apply in_map_iff in I.
  destruct I as ([k v'] & <- & I). apply kept_in in I. destruct I as (f & w & _ & -> & _ & I). apply dump_clean, (C f), I.
Qed.

Section C98'.
  Variable other_eq : string -> string -> Prop.
  Variable obj_str obj_type : hv -> string.
  Variable obj_lt : hv -> hv -> option bool.
  Hypothesis TX : texts obj_str.
  Variable hnone : Z.
  Variable hnan : nat -> Z.
  Variable hstr : string -> Z.
  Variable htuple : list Z -> Z.
  Notation hash := (hash obj_str obj_type obj_lt hnone hnan hstr htuple).

  (** Equal models have equal hashes. *)
  Theorem C98_eq_hash m m' : clean_model m -> clean_model m' -> model_eq other_eq m m' -> hash m = hash m'.
  Proof.
    intros C C' [_ E]. unfold hash. apply C47_order; [exact TX|apply plain_good, clean_plain, (kept_clean m C)|].
    apply (sm_dict _ _ (kept (fun _ => true) m)); [apply Permutation_refl|].
    destruct C as [_ C], C' as [_ C']. unfold kept. clear - C C' E. induction E as [|[f v] [f' v'] fs fs' [E1 E2] E IH]; cbn; [constructor|]. cbn in E1. subst f'.
    destruct v as [s|v], v' as [s'|v']; cbn in E2; try contradiction; cbn.
    - apply IH; intros; [eapply C|eapply C']; right; eassumption.
    - constructor; [|apply IH; intros; [eapply C|eapply C']; right; eassumption]. cbn. split; [reflexivity|]. apply dump_same.
      apply (clean_same other_eq); [eapply C; left; reflexivity|eapply C'; left; reflexivity|exact E2].
  Qed.
  (** So looking a model up in a set or a dict finds it if an equal one is there. *)
  Theorem C98_member m ms : clean_model m -> Forall clean_model ms ->
    (Exists (fun x => hash x = hash m /\ model_eq other_eq x m) ms <-> Exists (fun x => model_eq other_eq x m) ms).
  Proof.
    intros C F. rewrite !Exists_exists. rewrite Forall_forall in F. split; intros (x & I & H); exists x; (split; [exact I|]); [apply H|].
    split; [apply C98_eq_hash; auto|exact H].
  Qed.
  (** What is hashed is the fields that are no sentinels, by name, and nothing else. *)
  Theorem C98_content m m' : clean_model m -> clean_model m' ->
    (represent obj_str obj_type obj_lt (HDict (kept all m)) = represent obj_str obj_type obj_lt (HDict (kept all m')) <->
     forall f, match value m f, value m' f with
               | Some v, Some v' => exists d d', dumped v d /\ dumped v' d' /\ same d d'
               | None, None => True
               | _, _ => False
               end).
  Proof.
    intros C C'. assert (K := kept_clean m C). assert (K' := kept_clean m' C'). rewrite C47_exact by (first [exact TX|apply clean_plain; assumption]).
    destruct C as [N C], C' as [N' C']. transitivity (forall f, match value m f, value m' f with Some v, Some v' => same (dump v) (dump v') | None, None => True | _, _ => False end); cycle 1.
    { split; intros H f; specialize (H f); destruct (value m f), (value m' f); try exact H.
      - eexists _, _. split; [apply dump_dumped|]. split; [apply dump_dumped|exact H].
      - destruct H as (d & d' & D & D' & S). apply dumped_dump in D, D'. subst. exact S. }
    split.
    - intros S f. inversion S as [|kv kv' kv2 P F| | | | | |]; subst.
      destruct (value m f) as [v|] eqn:V.
      + apply value_in in V; [|exact N]. assert (I : In (HPrim (PStr f), dump v) kv2) by (apply (Permutation_in _ P), kept_in; exists f, v; auto).
        assert (J : exists e', In e' (kept all m') /\ fst e' = HPrim (PStr f) /\ same (dump v) (snd e')).
        { clear - F I. induction F as [|e e' k k' [E1 E2] F IH]; [contradiction|]. destruct I as [->|I]; [exists e'; cbn in *; auto using in_eq|].
          destruct (IH I) as (x & X & Y). exists x. auto using in_cons. }
        destruct J as ([k w] & J & E & S'). cbn in E, S'. subst k. apply kept_in in J. destruct J as (f' & w' & E & -> & _ & J). injection E as <-.
        apply value_in in J; [|exact N']. rewrite J. exact S'.
      + destruct (value m' f) as [v'|] eqn:V'; [|exact I]. exfalso. apply value_in in V'; [|exact N'].
        assert (J : In (HPrim (PStr f), dump v') (kept all m')) by (apply kept_in; exists f, v'; auto).
        assert (Q : exists e, In e kv2 /\ fst e = HPrim (PStr f)).
        { clear - F J. induction F as [|e e' k k' [E1 E2] F IH]; [contradiction|]. destruct J as [->|J]; [exists e; cbn in *; auto using in_eq|].
          destruct (IH J) as (x & X & Y). exists x. auto using in_cons. }
        destruct Q as ([k w] & Q & E). cbn in E. subst k. apply (Permutation_in _ (Permutation_sym P)) in Q. apply kept_in in Q. destruct Q as (f' & w' & E & -> & _ & Q). injection E as <-.
        apply value_in in Q; [|exact N]. congruence.
    - intro H. set (g := fun f => match value m f with Some v => dump v | None => HPrim PNone end).
      apply (sm_dict _ _ (map (fun f => (HPrim (PStr f), g f)) (kept_names m'))).
      + apply NoDup_Permutation.
        * apply (NoDup_map_inv fst). rewrite kept_keys. apply FinFun.Injective_map_NoDup; [intros a b E; injection E as ->; reflexivity|apply names_nodup, N].
        * apply (NoDup_map_inv fst). rewrite map_map. cbn. apply FinFun.Injective_map_NoDup; [intros a b E; injection E as ->; reflexivity|apply names_nodup, N'].
        * intros [k v]. rewrite kept_in, in_map_iff. split.
          -- intros (f & w & -> & -> & _ & I). exists f. specialize (H f). apply value_in in I; [|exact N]. unfold g. rewrite I in *. split; [reflexivity|].
             destruct (value m' f) as [w'|] eqn:V'; [|contradiction]. apply names_in. exists w'. apply value_in; assumption.
          -- intros (f & E & I). injection E as <- <-. apply names_in in I. destruct I as (w' & I). apply value_in in I; [|exact N']. specialize (H f). rewrite I in H.
             destruct (value m f) as [w|] eqn:V; [|contradiction]. exists f, w. unfold g. rewrite V. repeat split. apply value_in; assumption.
      + assert (Q : forall f w, In (f, Val w) (fields m') -> same (g f) (dump w)).
        { intros f w I. apply value_in in I; [|exact N']. specialize (H f). rewrite I in H. unfold g. destruct (value m f); [exact H|contradiction]. }
        clear - Q. unfold kept_names, kept, all. induction (fields m') as [|[f [s|w]] fs IH]; cbn; [constructor| |].
        * apply IH. intros; apply Q; right; assumption.
        * constructor; [|apply IH; intros; apply Q; right; assumption]. cbn. split; [reflexivity|]. apply Q. left. reflexivity.
  Qed.
  (** Hence the class does not count, nor which sentinel a field holds; those models are not equal. *)
  Theorem C98_class_refuted c c' fs : c <> c' -> hash (Model c fs) = hash (Model c' fs) /\ ~ model_eq other_eq (Model c fs) (Model c' fs).
  Proof. intro N. split; [reflexivity|]. intros [E _]. exact (N E). Qed.
  Theorem C98_sentinel_refuted c f : hash (Model c [(f, Sent Undefined)]) = hash (Model c [(f, Sent Unset)]) /\
    ~ model_eq other_eq (Model c [(f, Sent Undefined)]) (Model c [(f, Sent Unset)]).
  Proof. split; [reflexivity|]. intros [_ E]. inversion E as [|? ? ? ? [_ X]]; subst. discriminate. Qed.

  (** ** Dicts *)
  Variable json : hv -> hv.
  Theorem C98_python keep m : exists kv, to_dict json Python keep m = Ok (HDict kv) /\
    forall k v, In (k, v) kv <-> exists f w, k = HPrim (PStr f) /\ dumped w v /\ keep f = true /\ In (f, Val w) (fields m).
  Proof.
    eexists. split; [reflexivity|]. intros k v. rewrite kept_in. split; intros (f & w & E & D & R); exists f, w; (split; [exact E|split; [|exact R]]).
    - subst v. apply dump_dumped.
    - apply dumped_dump, D.
  Qed.
  (** mode json gives what becomes of the dict with all fields in JSON; another mode is refused. *)
  Theorem C98_json keep m : exists d, to_dict json Python all m = Ok d /\
    to_dict json Json keep m = Ok (json d) /\ to_dict json Wrong keep m = ValueError.
  Proof. eexists. repeat split. Qed.
  Theorem C98_json_exclude_refuted keep m : to_dict json Json keep m = to_dict json Json all m.
  Proof. reflexivity. Qed.

  (** The class of m: its fields in order; what the dump of a value is accepted as; defaults. *)
  Theorem C98_roundtrip m schema :
    NoDup (map fst (fields m)) -> Forall2 (fun f e => name f = fst e /\ match snd e with Val v => forall d, dumped v d -> accept f d = Some v | Sent s => default f = Some (Sent s) end) schema (fields m) ->
    exists d, to_dict json Python all m = Ok d /\ from_dict (cls m) schema d = Ok m.
  Proof.
    intros N F. eexists. split; [reflexivity|]. cbn.
    assert (KN : forallb (known schema) (map fst (kept all m)) = true).
    { apply forallb_forall. intros k I. apply in_map_iff in I. destruct I as ([k' v] & <- & I). apply kept_in in I. destruct I as (f & w & -> & _ & _ & I). cbn. apply existsb_exists.
      clear - F I. induction F as [|x e s fs [E _] F IH]; [contradiction|]. destruct I as [->|I]; [exists x; split; [left; reflexivity|apply String.eqb_eq, E]|].
      destruct (IH I) as (y & Y & E'). exists y. auto using in_cons. }
    rewrite KN.
    assert (LK : forall f, lookup f (kept all m) = match value m f with Some v => Some (dump v) | None => None end).
    { intro f. destruct m as [c fs]. unfold value, kept, lookup, all in *. cbn in *. clear KN F. induction fs as [|[g [s|v]] fs IH]; cbn; [reflexivity| |]; inversion N as [|? ? H N']; subst.
      - rewrite (IH N'). destruct (String.eqb_spec g f) as [->|NE]; [|reflexivity].
        destruct (find _ fs) as [[g' v']|] eqn:FD; [|reflexivity]. exfalso. apply find_some in FD. destruct FD as [I E]. cbn in E. apply String.eqb_eq in E. subst. apply H. apply (in_map fst) in I. exact I.
      - destruct (String.eqb_spec g f) as [->|NE]; [reflexivity|]. apply IH, N'. }
    assert (VF : validate_fields schema (kept all m) = Some (fields m)).
    { assert (VAL : forall e, In e (fields m) -> match snd e with Val v => value m (fst e) = Some v | Sent s => value m (fst e) = None end).
      { intros [f [s|v]] I; cbn; [|apply value_in; assumption]. destruct (value m f) as [w|] eqn:V; [|reflexivity]. apply value_in in V; [|exact N]. exfalso.
        clear - N I V. induction (fields m) as [|[g x] fs IH]; [contradiction|]. inversion N as [|? ? H N']; subst. destruct I as [E|I], V as [E'|V].
        - congruence.
        - injection E as -> ->. apply H. apply (in_map fst) in V. exact V.
        - injection E' as -> ->. apply H. apply (in_map fst) in I. exact I.
        - exact (IH N' I V). }
      clear - F LK VAL. induction F as [|x [f v] s fs [E A] F IH]; [reflexivity|]. cbn in *. rewrite IH by (intros; apply VAL; right; assumption). rewrite LK, E.
      specialize (VAL (f, v) ltac:(left; reflexivity)). cbn in VAL. destruct v as [st|v]; rewrite VAL; rewrite A by (try apply dump_dumped); reflexivity. }
    rewrite VF. destruct m; reflexivity.
  Qed.
  (** Other keys, and values that the field does not accept, are rejected. *)
  Theorem C98_rejects c schema kv k v : In (k, v) kv ->
    (forall f s, In f schema -> k = HPrim (PStr s) -> name f <> s) \/
    (NoDup (map fst kv) /\ exists f, In f schema /\ k = HPrim (PStr (name f)) /\ accept f v = None) ->
    from_dict c schema (HDict kv) = ValidationError.
  Proof.
    intros I H. cbn. destruct (forallb (known schema) (map fst kv)) eqn:K; [|reflexivity]. destruct H as [H|(N & f & F & -> & A)].
    - exfalso. rewrite forallb_forall in K. specialize (K k (in_map fst _ _ I)). unfold known in K. destruct k as [[| | | |s]| | | | | | |]; try discriminate.
      apply existsb_exists in K. destruct K as (f & F & E). apply String.eqb_eq in E. exact (H f s F eq_refl E).
    - assert (L : lookup (name f) kv = Some v).
      { unfold lookup. clear K F A. induction kv as [|[k w] kv IH]; [contradiction|]. inversion N as [|? ? X N']; subst. cbn. destruct I as [E|I].
        - injection E as -> ->. rewrite String.eqb_refl. reflexivity.
        - destruct k as [[| | | |s]| | | | | | |]; try (apply IH; assumption). destruct (String.eqb_spec s (name f)) as [->|NE]; [|apply IH; assumption].
          exfalso. apply X. apply (in_map fst) in I. exact I. }
      assert (V : validate_fields schema kv = None); [|rewrite V; reflexivity]. clear K. induction schema as [|g schema IH]; [contradiction|]. cbn. destruct F as [->|F].
      + rewrite L, A. reflexivity.
      + rewrite (IH F). destruct (match lookup _ _ with Some _ => _ | None => _ end); reflexivity.
  Qed.
  (** A sentinel that is not the default is lost. *)
  Theorem C98_sentinel_lost_refuted c f v : exists d,
    to_dict json Python all (Model c [(f, Sent Unset)]) = Ok d /\
    from_dict c [Field f (Some (Val v)) Some] d = Ok (Model c [(f, Val v)]) /\ from_dict c [Field f None Some] d = ValidationError.
  Proof. eexists. repeat split. Qed.
End C98'.
Print Assumptions C98_eq_hash.
Print Assumptions C98_member.
Print Assumptions C98_content.
Print Assumptions C98_class_refuted.
Print Assumptions C98_sentinel_refuted.
Print Assumptions C98_python.
Print Assumptions C98_json.
Print Assumptions C98_json_exclude_refuted.
Print Assumptions C98_roundtrip.
Print Assumptions C98_rejects.
Print Assumptions C98_sentinel_lost_refuted.

(** The conditions are needed: {1} == frozenset({1}), {1: v} == {True: v} and equal objects with
    different texts (Decimal 1.0 and 1.00) make models that are equal but not hashed alike. *)
Definition one (v : hv) : model := Model 0 [("x"%string, Val v)].
Definition rep_of obj_str obj_type obj_lt m := represent obj_str obj_type obj_lt (HDict (kept all m)).
Theorem C98_eq_hash_refuted (other_eq : string -> string -> Prop) s s' obj_str obj_type obj_lt : other_eq s s' -> s <> s' ->
  Forall (fun p => model_eq other_eq (one (fst p)) (one (snd p)) /\ rep_of obj_str obj_type obj_lt (one (fst p)) <> rep_of obj_str obj_type obj_lt (one (snd p)))
    [(HSet [int_ 1], HFrozen [int_ 1]); (HDict [(int_ 1, int_ 0)], HDict [(HPrim (PBool true), int_ 0)]); (HOther s, HOther s')].
Proof.
  intros O N. assert (T : forall v v', pyeq other_eq v v' -> model_eq other_eq (one v) (one v')) by (intros; split; [reflexivity|]; repeat constructor; assumption).
  assert (O1 : pyeq other_eq (int_ 1) (int_ 1)) by (constructor; eexists; split; reflexivity).
  repeat apply Forall_cons; [| | |constructor]; cbn [fst snd]; (split; [apply T|]).
  - eapply pe_sets; [left; reflexivity|right; reflexivity|apply Permutation_refl|]. repeat constructor. eexists. split; reflexivity.
  - vm_compute. discriminate.
  - eapply pe_dict; [apply Permutation_refl|]. constructor; [|constructor]. cbn. split; constructor; [eexists; split; reflexivity|eexists; split; reflexivity].
  - vm_compute. discriminate.
  - constructor. exact O.
  - unfold rep_of. cbn. intro E. injection E as E. exact (N E).
Qed.
Print Assumptions C98_eq_hash_refuted.
(** Frozen models hold lists that are not: appending to one changes what is hashed. *)
Theorem C98_frozen_refuted obj_str obj_type obj_lt x l :
  rep_of obj_str obj_type obj_lt (one (HList l)) <> rep_of obj_str obj_type obj_lt (one (HList (l ++ [x]))).
Proof.
  unfold rep_of. cbn. intro E. injection E as E. rewrite map_app in E. apply (f_equal (@List.length rep)) in E. rewrite !map_length, app_length, !map_length in E. cbn in E.
  rewrite PeanoNat.Nat.add_comm in E. exact (PeanoNat.Nat.neq_succ_diag_r _ E).
Qed.
Print Assumptions C98_frozen_refuted.

(** A config with a nested model, a set in two orders and a field that is not set. *)
Definition config (tags : list hv) : model :=
  Model 3 [("name"%string, Val (str_ "a")); ("tags"%string, Val (HSet tags)); ("sub"%string, Val (HModel (HDict [(str_ "n", int_ 1)]))); ("hook"%string, Sent Unset)].
Example hashable_1 obj_str obj_type obj_lt : rep_of obj_str obj_type obj_lt (config [int_ 1; int_ 2]) = rep_of obj_str obj_type obj_lt (config [int_ 2; int_ 1]) /\
  rep_of obj_str obj_type obj_lt (config [int_ 1]) =
    RT [RNum 0; RT [RT [RStr "name"; RStr "a"]; RT [RStr "sub"; RT [RNum 0; RT [RT [RStr "n"; RNum 1]]]]; RT [RStr "tags"; RT [RNum 3; RT [RNum 1]]]]].
Proof. split; vm_compute; reflexivity. Qed.
Example hashable_2 : clean_model (config [int_ 1; int_ 2]).
Proof.
  split; [repeat constructor; cbn; intuition discriminate|]. intros f v I. cbn in I. repeat (destruct I as [E|I]; [try discriminate; injection E as <- <-|]); try contradiction.
  - constructor.
  - apply (cl_set _ [PInt 1; PInt 2]); [reflexivity| |repeat constructor; intros [(b & [=])|[(z & [=])|[=]]]]. split; repeat constructor; try (intros (i & [=])). intros (z & A & B). cbn in *. congruence.
  - constructor. apply (cl_dict _ ["n"%string]); [reflexivity|repeat constructor; intros []|repeat constructor].
Qed.
Definition config_schema : list field :=
  [Field "name" None Some; Field "tags" None Some; Field "sub" None (fun v => Some (HModel v)); Field "hook" (Some (Sent Unset)) Some].
Example hashable_3 : exists d, to_dict (fun v => v) Python all (config [int_ 1]) = Ok d /\ from_dict 3 config_schema d = Ok (config [int_ 1]) /\
  from_dict 3 config_schema (HDict [(str_ "name", str_ "a"); (str_ "odd", int_ 1)]) = ValidationError.
Proof. eexists. repeat split. Qed.
