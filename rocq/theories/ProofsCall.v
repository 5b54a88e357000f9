(** Proofs about function-call arguments. *)
From Coq Require Import String.
From Coq Require Import List Bool Arith Lia DecimalString DecimalNat.
From Coq Require DecimalFacts.
From Verif Require Import PyBase PyFacts ModelCall SpecCall.
Import ListNotations.
Local Open Scope string_scope.
Local Open Scope nat_scope.
Local Open Scope list_scope.
#[local] Arguments eqb : simpl never.

Lemma append_inj p a b : append p a = append p b -> a = b.
Proof. induction p as [|c p IH]; simpl; auto. intros [= H]. auto. Qed.
Lemma pos_key_inj i j : pos_key i = pos_key j -> i = j.
Proof.
  unfold pos_key. intros H. apply append_inj in H.
  assert (E : forall k, NilZero.uint_of_string (NilZero.string_of_uint (Nat.to_uint k)) = Some (Nat.to_uint k)).
  { intros k. apply NilZero.usu. rewrite <- (Unsigned.of_to k), Unsigned.to_of. apply DecimalFacts.unorm_nonnil. }
  pose proof (E i) as Ei. rewrite H, E in Ei. injection Ei as Ei. now apply Unsigned.to_uint_inj.
Qed.
Lemma prefix_append p r : String.prefix p (append p r) = true.
Proof. induction p as [|c p IH]; simpl; [destruct r; reflexivity|]. now destruct (Ascii.ascii_dec c c). Qed.
Lemma prefix_inv p k : String.prefix p k = true -> exists r, k = append p r.
Proof.
  revert k. induction p as [|c p IH]; intros k H; [exists k; reflexivity|]. destruct k as [|c' k]; [discriminate H|]. simpl in H.
  destruct (Ascii.ascii_dec c c'); [|discriminate H]. subst. apply IH in H. destruct H as (r & ->). exists r. reflexivity.
Qed.
Lemma prefix_special k : String.prefix pos_prefix k = true <-> special k.
Proof. split; [apply prefix_inv|intros (r & ->); apply prefix_append]. Qed.

Section Call.
Context {V : Type}.
Implicit Types (d : dict string V) (l : list (string * V)).

Definition sets d l := fold_left (fun d p => dset (fst p) (snd p) d) l d.
Lemma sets_app d a b : sets d (a ++ b) = sets (sets d a) b.
Proof. unfold sets. apply fold_left_app. Qed.
Lemma sets_nodup l : forall d, NoDup (dkeys d) -> NoDup (dkeys (sets d l)).
Proof. induction l as [|(k, v) l IH]; simpl; intros d N; auto. apply IH. now apply dkeys_dset_NoDup. Qed.
Lemma dget_app (k : string) a b : @dget string _ V k (a ++ b) = match dget k a with Some v => Some v | None => dget k b end.
Proof. induction a as [|(k', v) a IH]; simpl; auto. destruct (eqb k k'); auto. Qed.
Lemma sets_get l : forall d k, dget k (sets d l) = match dget k (rev l) with Some v => Some v | None => dget k d end.
Proof.
  induction l as [|(k', v) l IH]; intros d k; auto. cbn [sets fold_left fst snd rev]. fold (sets (dset k' v d) l). rewrite IH, dget_app.
  destruct (dget k (rev l)); auto. cbn [dget]. rewrite dget_dset. destruct (eqb k k'); auto.
Qed.
Lemma binds_sets l : binds l (sets [] l).
Proof. split; [apply sets_nodup; constructor|]. intros k. rewrite sets_get. destruct (dget k (rev l)); auto. Qed.
Lemma sets_fresh l : forall d, NoDup (map fst (d ++ l)) -> sets d l = d ++ l.
Proof.
  induction l as [|(k, v) l IH]; intros d N; cbn [sets fold_left fst snd]; [now rewrite app_nil_r|]. fold (sets (dset k v d) l).
  assert (K : ~ In k (dkeys d)).
  { rewrite map_app in N. cbn [map fst] in N. apply NoDup_remove_2 in N. intros I. apply N, in_or_app. auto. }
  rewrite (dkeys_dset_notin _ _ _ K), IH; rewrite <- app_assoc; auto.
Qed.

Lemma positional_spec args : forall i d vs, args = map Ret vs ->
  positional i args d = Ret (sets d (combine (map pos_key (seq i (length vs))) vs)).
Proof.
  induction args as [|a args IH]; intros i d [|v vs] E; try discriminate; auto. injection E as -> E. cbn [positional bind]. now rewrite (IH _ _ vs).
Qed.
Lemma keyword_spec kvs : forall d, keyword (map (fun p => (Some (fst p), Ret (snd p))) kvs) d = Ret (sets d kvs).
Proof. induction kvs as [|(k, v) kvs IH]; intros d; auto. cbn. apply IH. Qed.

Lemma positional_error args : forall i d,
  match positional i args d with
  | Ret _ => exists vs, args = map Ret vs
  | Raise e => In (Raise e) args
  end.
Proof.
  induction args as [|[v|e] args IH]; intros i d; cbn [positional bind]; [exists []; auto| |simpl; auto].
  specialize (IH (S i) (dset (pos_key i) v d)). destruct (positional _ _ _); [|simpl; auto]. destruct IH as (vs & ->). now exists (v :: vs).
Qed.
Lemma keyword_error kws : forall d,
  match keyword kws d with
  | Ret _ => exists kvs, kws = map (fun p => (Some (fst p), Ret (snd p))) kvs
  | Raise e => (e = ValueError /\ In None (map fst kws)) \/ In (Raise e) (map snd kws)
  end.
Proof.
  induction kws as [|([k|], a) kws IH]; intros d; cbn [keyword bind]; [exists []; auto| |simpl; auto].
  destruct a as [v|e]; cbn [bind]; [|simpl; auto].
  specialize (IH (dset k v d)). destruct (keyword _ _); [|simpl; destruct IH as [(? & ?)|?]; auto]. destruct IH as (kvs & ->). now exists ((k, v) :: kvs).
Qed.

Lemma map_args_ok l params : forall mapped l', translates l params l' -> map_args l params mapped = Ret (sets mapped l').
Proof.
  intros mapped l' T. revert mapped. induction T; intros mapped; cbn [map_args]; auto.
  - apply prefix_special in H. rewrite H. apply IHT.
  - destruct (String.prefix pos_prefix k) eqn:E; [apply prefix_special in E; contradiction|]. apply IHT.
Qed.
Lemma map_args_total l : forall params mapped,
  (exists l', translates l params l') \/
  (map_args l params mapped = Raise ValueError /\ length params < length (filter (fun p => String.prefix pos_prefix (fst p)) l)).
Proof.
  induction l as [|(k, v) l IH]; intros params mapped; [left; exists []; constructor|]. cbn [map_args filter fst].
  destruct (String.prefix pos_prefix k) eqn:E.
  - destruct params as [|p params]; [right; split; auto; simpl; lia|]. destruct (IH params (dset p v mapped)) as [(l' & T)|(R & L)].
    + left. eexists. apply tr_pos; eauto. now apply prefix_special.
    + right. split; auto. simpl. lia.
  - destruct (IH params (dset k v mapped)) as [(l' & T)|(R & L)].
    + left. eexists. apply tr_kw; eauto. rewrite <- prefix_special. congruence.
    + auto.
Qed.
Lemma translates_length l params l' : translates l params l' -> length (filter (fun p => String.prefix pos_prefix (fst p)) l) <= length params.
Proof.
  induction 1; cbn [filter fst]; [simpl; lia| |].
  - apply prefix_special in H. rewrite H. simpl. lia.
  - destruct (String.prefix pos_prefix k) eqn:E; auto. apply prefix_special in E; contradiction.
Qed.

Lemma inb_In k (l : list string) : inb k l = true <-> In k l.
Proof. unfold inb. rewrite existsb_exists. split; [intros (x & I & E); apply String.eqb_eq in E; now subst|intros I; exists k; split; auto; apply String.eqb_refl]. Qed.
Lemma nested_holds a k : (exists l : list string, nested_fields a = Some l /\ In k l) <-> holds k a.
Proof.
  split.
  - intros (l & E & I). destruct a as [|fs|ms|ms]; try discriminate.
    + injection E as <-. now constructor.
    + cbn [nested_fields] in E. assert (E' : flat_map model_fields ms = l) by (destruct (flat_map model_fields ms); [discriminate|now injection E]).
      subst l. apply in_flat_map in I. destruct I as (x & I & J). destruct x; try contradiction. econstructor; eauto.
  - intros H. inversion H; subst.
    + exists l. auto.
    + assert (J : In k (flat_map model_fields ms)) by (apply in_flat_map; exists (AModel l); auto).
      exists (flat_map model_fields ms). split; auto. cbn [nested_fields]. destruct (flat_map model_fields ms); [contradiction|auto].
Qed.
Definition mapping (s : schema) := flat_map (fun p : string * annotation => match nested_fields (snd p) with Some l => [(fst p, l)] | None => [] end) s.
Lemma find_nested_spec s k : match find_nested k (mapping s) with
  | Some f => exists s1 a s2, s = s1 ++ (f, a) :: s2 /\ holds k a /\ forall f' a', In (f', a') s1 -> ~ holds k a'
  | None => forall f a, In (f, a) s -> ~ holds k a
  end.
Proof.
  induction s as [|(f, a) s IH]; [simpl; auto|]. unfold mapping. cbn [flat_map snd fst]. fold (mapping s).
  assert (C : holds k a \/ (~ holds k a /\ find_nested k (match nested_fields a with Some l => [(f, l)] | None => [] end ++ mapping s) = find_nested k (mapping s))).
  { destruct (nested_fields a) as [l|] eqn:N; cbn [app find_nested].
    - destruct (inb k l) eqn:B; [left|right].
      + apply nested_holds. apply inb_In in B. eauto.
      + split; auto. intros H. apply nested_holds in H. destruct H as (l' & E & I). rewrite N in E. injection E as <-. apply inb_In in I. congruence.
    - right. split; auto. intros H. apply nested_holds in H. destruct H as (l' & E & I). congruence. }
  destruct C as [C|(C & ->)].
  - assert (F : find_nested k (match nested_fields a with Some l => [(f, l)] | None => [] end ++ mapping s) = Some f).
    { apply nested_holds in C. destruct C as (l & -> & I). cbn. apply inb_In in I. now rewrite I. }
    rewrite F. exists [], a, s. simpl. auto.
  - destruct (find_nested k (mapping s)) as [g|].
    + destruct IH as (s1 & a' & s2 & -> & H & O). exists ((f, a) :: s1), a', s2. split; auto. split; auto.
      intros f' a'' [[= <- <-]|I]; eauto.
    + intros f' a' [[= <- <-]|I]; eauto.
Qed.
Lemma app_split_unique {A} (P : A -> Prop) s1 x s2 t1 y t2 : s1 ++ x :: s2 = t1 ++ y :: t2 ->
  P x -> P y -> (forall z, In z s1 -> ~ P z) -> (forall z, In z t1 -> ~ P z) -> x = y.
Proof.
  revert t1. induction s1 as [|a s1 IH]; intros [|b t1] E X Y S T; simpl in E.
  - congruence.
  - injection E as -> _. exfalso. apply (T b); simpl; auto.
  - injection E as -> _. exfalso. apply (S y); simpl; auto.
  - injection E as -> E. eapply IH; eauto; intros z I; [apply S|apply T]; simpl; auto.
Qed.
Definition ownerb (s : schema) (k : string) : option string :=
  if inb k (map fst s) then None else find_nested k (mapping s).
Lemma ownerb_spec s k f : ownerb s k = Some f <-> owner s k f.
Proof.
  unfold ownerb, owner. pose proof (find_nested_spec s k) as F. destruct (inb k (map fst s)) eqn:B.
  - apply inb_In in B. split; [discriminate|tauto].
  - assert (B' : ~ In k (map fst s)) by (rewrite <- inb_In; congruence). split.
    + intros E. rewrite E in F. auto.
    + intros (_ & s1 & a & s2 & E & H & O). destruct (find_nested k (mapping s)) as [g|].
      * destruct F as (t1 & a' & t2 & E' & H' & O').
        assert (X : (g, a') = (f, a)); [|now injection X as -> _].
        rewrite E' in E. eapply (app_split_unique (fun p => holds k (snd p))); [exact E|auto|auto| |]; intros [] I; simpl; eauto.
      * exfalso. apply (F f a); auto. rewrite E. apply in_or_app. simpl; auto.
Qed.

(** The group of arguments owned by f. *)
Definition owned s f l := filter (fun p => match ownerb s (fst p) with Some g => String.eqb g f | None => false end) l.
Definition topmost s l := filter (fun p => match ownerb s (fst p) with Some _ => false | None => true end) l.
Lemma owned_app s f a b : owned s f (a ++ b) = owned s f a ++ owned s f b.
Proof. apply filter_app. Qed.
Lemma owned_keys s f l k : In k (map fst (owned s f l)) -> In k (map fst l).
Proof. intros I. apply in_map_iff in I. destruct I as (p & <- & I). apply filter_In in I. apply in_map. tauto. Qed.

Lemma separate_spec s l : forall done result nested r n,
  NoDup (map fst (done ++ l)) ->
  result = map (fun p => (fst p, RVal (snd p))) (topmost s done) ->
  (forall f, dget f nested = match owned s f done with [] => None | g => Some g end) ->
  NoDup (dkeys nested) ->
  separate (map fst s) (mapping s) l result nested = (r, n) ->
  r = map (fun p => (fst p, RVal (snd p))) (topmost s (done ++ l)) /\
  (forall f, dget f n = match owned s f (done ++ l) with [] => None | g => Some g end) /\ NoDup (dkeys n).
Proof.
  induction l as [|(k, v) l IH]; intros done result nested r n ND R N NN E; cbn [separate] in E.
  - injection E as <- <-. rewrite app_nil_r. auto.
  - assert (K : ~ In k (map fst done)).
    { rewrite map_app in ND. cbn [map fst] in ND. apply NoDup_remove_2 in ND. intros I. apply ND, in_or_app. auto. }
    assert (KR : ~ In k (dkeys result)).
    { subst result. unfold dkeys. rewrite map_map. cbn [fst]. intros I. apply K. apply in_map_iff in I. destruct I as (p & <- & I). apply filter_In in I. apply in_map. tauto. }
    replace (done ++ (k, v) :: l) with ((done ++ [(k, v)]) ++ l) in ND |- * by (rewrite <- app_assoc; reflexivity).
    assert (TOP : ownerb s k = None -> separate (map fst s) (mapping s) l (dset k (RVal v) result) nested = (r, n) ->
       r = map (fun p => (fst p, RVal (snd p))) (topmost s ((done ++ [(k, v)]) ++ l)) /\
       (forall f, dget f n = match owned s f ((done ++ [(k, v)]) ++ l) with [] => None | g => Some g end) /\ NoDup (dkeys n)).
    { intros O E'. eapply IH; [exact ND| | |exact NN|exact E'].
      - rewrite (dkeys_dset_notin _ _ _ KR). subst result. unfold topmost. rewrite filter_app, map_app. cbn [filter fst]. now rewrite O.
      - intros f. rewrite N, owned_app. unfold owned at 3. cbn [filter fst]. rewrite O. now rewrite app_nil_r. }
    unfold ownerb in TOP. destruct (inb k (map fst s)) eqn:B; [auto|].
    destruct (find_nested k (mapping s)) as [f|] eqn:F; [|auto]. clear TOP.
    assert (O : ownerb s k = Some f) by (unfold ownerb; now rewrite B).
    eapply IH; [exact ND| | | |exact E].
    + subst result. unfold topmost. rewrite filter_app, map_app. cbn [filter fst]. rewrite O. now rewrite app_nil_r.
    + intros f'. rewrite dget_dset, owned_app. unfold owned at 2. cbn [filter fst]. rewrite O.
      change (String.eqb f f') with (eqb f f'). destruct (eqb_spec f' f) as [->|NE].
      * destruct (eqb_spec f f); [|congruence]. rewrite N.
        assert (KO : ~ In k (dkeys (owned s f done))) by (intros I; apply K; eapply owned_keys; eauto).
        destruct (owned s f done) as [|p0 o]; [reflexivity|]. rewrite (dkeys_dset_notin k v (p0 :: o) KO). reflexivity.
      * destruct (eqb_spec f f'); [congruence|]. now rewrite app_nil_r.
    + now apply dkeys_dset_NoDup.
Qed.

Lemma update_get (n : dict string (dict string V)) : forall (r : dict string (res V)) k, NoDup (dkeys n) ->
  dget k (fold_left (fun r p => dset (fst p) (RGroup (snd p)) r) n r) =
  match dget k n with Some g => Some (RGroup g) | None => dget k r end.
Proof.
  induction n as [|(f, g) n IH]; intros r k N; auto. cbn [fold_left fst snd dget]. unfold dkeys in N. cbn [map fst] in N. apply NoDup_cons_iff in N.
  destruct N as (N1 & N2). rewrite IH by auto. rewrite dget_dset. destruct (eqb_spec k f) as [->|NE]; auto.
  rewrite (proj2 (dget_None f n)); auto.
Qed.
Lemma update_nodup (n : dict string (dict string V)) : forall (r : dict string (res V)), NoDup (dkeys r) ->
  NoDup (dkeys (fold_left (fun r p => dset (fst p) (RGroup (snd p)) r) n r)).
Proof. induction n as [|(f, g) n IH]; intros r N; auto. cbn [fold_left]. apply IH. now apply dkeys_dset_NoDup. Qed.
Lemma topmost_get s l k : NoDup (map fst l) ->
  dget k (map (fun p => (fst p, RVal (snd p))) (topmost s l)) =
  match ownerb s k with Some _ => None | None => match dget k l with Some v => Some (RVal v) | None => None end end.
Proof.
  induction l as [|(k', v) l IH]; intros N; [simpl; destruct (ownerb s k); auto|]. cbn [map fst] in N. apply NoDup_cons_iff in N. destruct N as (N1 & N2).
  unfold topmost. cbn [filter fst]. fold (topmost s l). cbn [dget]. destruct (eqb_spec k k') as [<-|NE].
  - destruct (ownerb s k) eqn:O; cbn [map dget fst snd]; [rewrite IH by auto; now try rewrite O|]. now destruct (eqb_spec k k).
  - destruct (ownerb s k') eqn:O; cbn [map dget fst snd]; [now apply IH|]. destruct (eqb_spec k k'); [congruence|]. now apply IH.
Qed.
Lemma topmost_nodup s l : NoDup (map fst l) -> NoDup (dkeys (map (fun p => (fst p, RVal (V:=V) (snd p))) (topmost s l))).
Proof.
  intros N. unfold dkeys. rewrite map_map. cbn [fst]. unfold topmost. induction l as [|p l IH]; [constructor|]. cbn [map] in N. apply NoDup_cons_iff in N. destruct N as (N1 & N2).
  cbn [filter]. destruct (match ownerb s (fst p) with Some _ => false | None => true end); auto. cbn [map]. constructor; auto.
  intros I. apply N1. apply in_map_iff in I. destruct I as (q & <- & I). apply filter_In in I. apply in_map. tauto.
Qed.
Lemma mapping_owner s k : mapping s = [] -> ownerb s k = None.
Proof. intros E. unfold ownerb. rewrite E. destruct (inb k (map fst s)); auto. Qed.

(** The whole of nest_arguments_by_schema as a lookup table. *)
Lemma nest_get s l : NoDup (map fst l) ->
  NoDup (dkeys (nest_arguments_by_schema l (Some s))) /\
  forall k, dget k (nest_arguments_by_schema l (Some s)) =
    match owned s k l with
    | [] => match ownerb s k with Some _ => None | None => match dget k l with Some v => Some (RVal v) | None => None end end
    | g => Some (RGroup g)
    end.
Proof.
  intros N. cbn [nest_arguments_by_schema]. fold (mapping s).
  assert (AS : mapping s = [] -> topmost s l = l /\ forall k, owned s k l = []).
  { intros M. split.
    - unfold topmost. induction l as [|p l IH]; auto. cbn [filter map] in *. apply NoDup_cons_iff in N. rewrite mapping_owner by auto. f_equal. apply IH. tauto.
    - intros k. unfold owned. induction l as [|p l IH]; auto. cbn [filter map] in *. apply NoDup_cons_iff in N. rewrite mapping_owner by auto. apply IH. tauto. }
  destruct (mapping s) as [|m0 m] eqn:M.
  - destruct (AS eq_refl) as (T & O). pose proof (topmost_nodup s l N) as TN. rewrite T in TN. split; auto.
    intros k. rewrite O. pose proof (topmost_get s l k N) as TG. rewrite T in TG. rewrite TG. auto.
  - destruct (separate (map fst s) (m0 :: m) l [] []) as (r, n) eqn:E. rewrite <- M in E.
    destruct (separate_spec s l [] [] [] r n) as (R & G & NN); auto; [constructor|]. cbn [app] in R, G. split.
    + apply update_nodup. subst r. now apply topmost_nodup.
    + intros k. rewrite update_get by auto. rewrite G, R, topmost_get by auto. destruct (owned s k l); auto.
Qed.
End Call.
