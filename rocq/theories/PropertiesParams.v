(** C63, C64, C80: parameter classes. *)
From Coq Require Import String.
From Coq Require Import List Bool Arith Lia.
From Verif Require Import PyBase PyFacts ModelLexer ModelParser ModelParams SpecParams ProofsParams.
Import ListNotations.
Local Open Scope string_scope.
Local Open Scope nat_scope.
Local Open Scope list_scope.
#[local] Arguments eqb : simpl never.

Section Params.
Variable V : Type.
Notation pval := (pval V). Notation inst := (inst V).
Variables (is_none is_empty : V -> bool) (enum_value : V -> option V) (container : V -> bool) (shallow deep : V -> V)
          (as_dict : V -> option (dict string pval)) (order : list string -> list string) (decls : nat -> decl V).
Hypothesis ord : set_order order.
Notation allowed := (allowed V order decls). Notation declares := (declares V decls). Notation fieldless := (fieldless V decls).
Notation conf := (conf V decls). Notation absent := (absent V is_none is_empty). Notation read := (read V decls). Notation attr := (attr V decls).
Notation new_params := (new_params V is_none is_empty order decls). Notation new_data := (new_data V is_none is_empty order decls).
Notation to_dict := (to_dict V is_none is_empty enum_value order decls).
Notation with_updates := (with_updates V is_none is_empty enum_value container shallow deep order decls).
Notation default_kw := (default_kw V is_none is_empty enum_value as_dict order decls).
Notation call_kw := (call_kw V is_none is_empty enum_value as_dict order decls).
Notation bcall_args := (bcall_args V is_none is_empty enum_value as_dict order decls).
Notation copied := (copied V container shallow deep). Notation class_default := (class_default V decls).
(** The cache after the classes of h were used in this order. *)
Notation after h := (run V order decls h st0).
Notation run := (run V order decls).
Lemma own_after h : own V order decls (after h).
Proof. apply own_run. apply (own0 V order decls ord). Qed.
Lemma sentinel_iff k v : sentinel V is_none is_empty k v = true <-> absent k v.
Proof.
  unfold SpecParams.absent. destruct v as [| |v]; cbn; [tauto|tauto|]. rewrite orb_true_iff, !andb_true_iff. split.
  - intros H. right. right. exists v. auto.
  - intros [H|[H|(x & E & H)]]; [discriminate|discriminate|]. injection E as <-. exact H.
Qed.
Lemma sentinel_not k v : sentinel V is_none is_empty k v = false <-> ~ absent k v.
Proof. rewrite <- sentinel_iff. destruct (sentinel _ _ _ _ _); intuition discriminate. Qed.

(** * C63 *)
(** If no base class with fields was used before, a class accepts exactly its fields, now and later. *)
Theorem C63_first h c :
  (forall a, In a h -> ancestor a c -> fieldless a) ->
  forall k, (In k (fst (allowed (after h) c)) <-> declares c k) /\
            (forall h2, In k (fst (allowed (after (h ++ c :: h2)) c)) <-> declares c k).
Proof.
  intros H k. assert (fst (allowed (after h) c) = order (names V decls c)) as E.
  { apply (unused_ok V order decls); [apply own_after|]. apply (unused_run V order decls ord); [apply (own0 V order decls ord)| |].
    - intros p a l E N. unfold st0. cbn. destruct (eqb_spec a []) as [->|]; [|discriminate]. congruence.
    - intros a I A. apply (fieldless_iff V decls). auto. }
  rewrite E. split; [rewrite (order_in order ord), (declares_iff V decls); reflexivity|]. intros h2.
  unfold ProofsParams.run. rewrite fold_left_app. cbn [fold_left]. fold (after h).
  change (fold_left _ h2 ?s) with (run h2 s). rewrite (allowed_stable_run V order decls ord) by apply own_after.
  rewrite E, (order_in order ord), (declares_iff V decls). reflexivity.
Qed.
(** Without a configuration of its own or inherited: nothing but the two sentinels counts as absent,
    nothing is required, missing fields read Unset, enum members stay. *)
Theorem C63_defaults c : (forall d, In d c -> d_config (decls d) = None) ->
  conf c = {| none_as_sentinel := false; empty_as_sentinel := false; strict := false; prefill_unset := true; use_enum_values := false |} /\
  forall v, absent (conf c) v <-> v = Undefined \/ v = Unset.
Proof.
  intros H. assert (conf c = {| none_as_sentinel := false; empty_as_sentinel := false; strict := false; prefill_unset := true; use_enum_values := false |}) as E.
  { induction c as [|d c IH]; [reflexivity|]. cbn. rewrite (H d (or_introl eq_refl)). apply IH. intros a I. apply H. right. exact I. }
  split; [exact E|]. intros v. rewrite E. unfold SpecParams.absent. cbn. split; [|tauto]. intros [X|[X|(x & _ & [[X _]|[X _]])]]; try discriminate; tauto.
Qed.
(** If one was used before the class itself, the class accepts only the fields of a base class, for good. *)
Theorem C63_late h1 a h2 c :
  ancestor a c -> ~ fieldless a -> ~ In c h1 ->
  exists b, ancestor b c /\ forall k, In k (fst (allowed (after (h1 ++ a :: h2)) c)) <-> declares b k.
Proof.
  intros (p & N & E) F NI. rewrite (fieldless_iff V decls) in F.
  unfold ProofsParams.run. rewrite fold_left_app. cbn [fold_left]. fold (after h1). change (fold_left _ h2 ?s) with (run h2 s).
  destruct (used_entry V order decls ord (after h1) a (own_after h1) F) as (q & b & l & Eb & G & NL).
  assert (shadowed (snd (allowed (after h1) a)) c) as S.
  { split.
    - assert (dget c (after (h1 ++ [a])) = None) as X; [|unfold ProofsParams.run in X; rewrite fold_left_app in X; exact X].
      apply entry_used.
      + unfold st0. cbn. destruct (eqb_spec c []) as [->|]; [|reflexivity]. destruct p; [congruence|discriminate].
      + rewrite in_app_iff. intros [I|[I|[]]]; [contradiction|]. subst c. apply (f_equal (@length _)) in I. rewrite app_length in I. destruct p; [congruence|cbn in I; lia].
    - exists (p ++ q), b, l. split; [destruct p; [congruence|discriminate]|]. split; [rewrite E, Eb, app_assoc; reflexivity|]. auto. }
  assert (own V order decls (snd (allowed (after h1) a))) as O by (apply own_step, own_after).
  apply (shadowed_run V order decls ord h2) in S; [|exact O].
  apply (shadowed_cached V order decls ord) in S as (p' & b' & N' & E' & C & NB); [|apply own_run; exact O].
  exists b'. split; [exists p'; auto|]. intros k. rewrite allowed_fst, C.
  destruct (order (names V decls b')) eqn:Q; [apply (proj1 (order_nil order ord _)) in Q; contradiction|]. rewrite <- Q, (order_in order ord), (declares_iff V decls). reflexivity.
Qed.
(** The answer never changes after the first use. *)
Theorem C63_stable h1 c h2 : fst (allowed (after (h1 ++ c :: h2)) c) = fst (allowed (after h1) c).
Proof.
  unfold ProofsParams.run. rewrite fold_left_app. cbn [fold_left]. fold (after h1). change (fold_left _ h2 ?s) with (run h2 s).
  apply (allowed_stable_run V order decls ord), own_after.
Qed.
(** Construction: unknown parameters are refused; in strict mode every parameter must be given;
    missing ones become Unset. *)
Theorem C63_construct h c kw :
  NoDup (dkeys kw) ->
  let l := fst (allowed (after h) c) in
  let r := fst (new_params (after h) c kw) in
  let value k := match dget k kw with Some v => v | None => class_default c k end in
  (r = Raise ValueError <-> exists k, In k (dkeys kw) /\ ~ In k l) /\
  (r = Raise ExceptionGroupErr <-> (forall k, In k (dkeys kw) -> In k l) /\ strict (conf c) = true /\ exists k, In k l /\ absent (conf c) (value k)) /\
  (forall e, r = Raise e -> e = ValueError \/ e = ExceptionGroupErr) /\
  (forall o, r = Ret o -> i_cls o = c /\ forall k, In k l ->
     read o k Undefined = match value k with Undefined => if prefill_unset (conf c) then Unset else Undefined | v => v end) /\
  snd (new_params (after h) c kw) = after (h ++ [c]).
Proof.
  intros N l r value.
  assert (GV : forall k, given V decls c kw k = value k).
  { intros k. unfold given, ModelParams.read, ModelParams.attr, value, SpecParams.class_default. cbn. destruct (dget k kw); [reflexivity|].
    destruct (dget k (fields V decls c)) as [[n [v|] []]|]; reflexivity. }
  assert (after (h ++ [c]) = snd (allowed (after h) c)) as EA by (unfold ProofsParams.run; rewrite fold_left_app; reflexivity).
  rewrite EA. destruct (new_params_spec V is_none is_empty order decls ord (after h) c kw (own_after h) N) as [S H]. fold l r in H.
  destruct H as [[(k & I & NI) R]|[SUB [(H1 & (k & I & A) & R)|(H1 & o & R & C & H2 & H3)]]]; fold r in R; rewrite R.
  - split; [split; [eauto|reflexivity]|]. split; [split; [discriminate|]|].
    + intros (SUB & _). exfalso. apply NI, SUB, I.
    + split; [intros e E; injection E as <-; auto|]. split; [discriminate|exact S].
  - rewrite GV in A. apply sentinel_iff in A. split; [split; [discriminate|]|].
    + intros (k' & I' & NI). exfalso. apply NI, SUB, I'.
    + split; [split; [eauto 10|reflexivity]|]. split; [intros e E; injection E as <-; auto|]. split; [discriminate|exact S].
  - split; [split; [discriminate|]|].
    + intros (k' & I' & NI). exfalso. apply NI, SUB, I'.
    + split; [split; [discriminate|]|].
      * intros (_ & ST & k & I & A). apply sentinel_iff in A. rewrite <- GV, (H1 ST k I) in A. discriminate.
      * split; [discriminate|]. split; [|exact S]. intros o' E. injection E as <-. split; [exact C|]. intros k I. rewrite (H2 k I), GV. unfold filled. destruct (value k); reflexivity.
Qed.
(** Dataclasses: all fields are accepted, whatever the cache holds; only those in it are validated. *)
Theorem C63_data h c kw :
  NoDup (dkeys kw) ->
  let l := fst (allowed (after h) c) in
  let r := fst (new_data (after h) c kw) in
  let value k := match dget k kw with Some v => Some v | None => match dget k (fields V decls c) with Some f => f_default f | None => None end end in
  (r = Raise TypeError <-> (exists k, In k (dkeys kw) /\ ~ declares c k) \/ (exists k, declares c k /\ value k = None)) /\
  (r = Raise ExceptionGroupErr <-> r <> Raise TypeError /\ strict (conf c) = true /\ exists k v, In k l /\ value k = Some v /\ absent (conf c) v) /\
  (forall e, r = Raise e -> e = TypeError \/ e = ExceptionGroupErr) /\
  (forall o, r = Ret o -> i_cls o = c /\ forall k v, declares c k -> value k = Some v ->
     read o k Undefined = if existsb (eqb k) l then match v with Undefined => if prefill_unset (conf c) then Unset else Undefined | v => v end else v).
Proof.
  intros N l r value.
  set (bound := bind_fields V kw (fields V decls c)).
  assert (NF : NoDup (dkeys (fields V decls c))).
  { clear. induction c as [|d c IH]; cbn; [constructor|]. revert IH. generalize (fields V decls c) as m. induction (d_fields (decls d)) as [|f q IHq]; intros m IH; cbn; [exact IH|].
    apply IHq. apply dkeys_dset_NoDup. exact IH. }
  assert (B : forall m, NoDup (dkeys m) -> match bind_fields V kw m with
     | Some a => dkeys a = dkeys m /\ (forall k f, dget k m = Some f -> dget k a = match dget k kw with Some v => Some v | None => f_default f end /\ dget k a <> None)
     | None => exists k f, dget k m = Some f /\ match dget k kw with Some v => Some v | None => f_default f end = None end).
  { clear. induction m as [|[k f] m IH]; intros N; cbn [bind_fields]; [split; [reflexivity|discriminate]|].
    inversion N as [|? ? NI N']; subst. specialize (IH N').
    assert (K : dget k ((k, f) :: m) = Some f) by (cbn; destruct (eqb_spec k k) as [_|E]; [reflexivity|congruence]).
    assert (UP : forall k' f', dget k' m = Some f' -> dget k' ((k, f) :: m) = Some f').
    { intros k' f' G. cbn. destruct (eqb_spec k' k) as [->|]; [|exact G]. apply dget_In in G. apply (in_map fst) in G. contradiction. }
    destruct (bind_fields V kw m) as [a|].
    - destruct IH as [IH1 IH2].
      assert (OK : forall v, match dget k kw with Some v => Some v | None => f_default f end = Some v ->
         dkeys ((k, v) :: a) = dkeys ((k, f) :: m) /\ (forall k' f', dget k' ((k, f) :: m) = Some f' ->
           dget k' ((k, v) :: a) = match dget k' kw with Some v => Some v | None => f_default f' end /\ dget k' ((k, v) :: a) <> None)).
      { intros v E. split; [cbn; f_equal; exact IH1|]. intros k' f'. cbn. destruct (eqb_spec k' k) as [->|].
        - intros X. injection X as <-. rewrite E. split; [reflexivity|discriminate].
        - apply IH2. }
      destruct (dget k kw) as [v|] eqn:G; [apply OK; reflexivity|]. destruct (f_default f) as [v|] eqn:D; [apply OK; reflexivity|].
      exists k, f. split; [exact K|]. rewrite G. exact D.
    - destruct IH as (k' & f' & G & H). assert (exists k0 f0, dget k0 ((k, f) :: m) = Some f0 /\ match dget k0 kw with Some v => Some v | None => f_default f0 end = None) as X by eauto.
      destruct (dget k kw); [|destruct (f_default f)]; exact X. }
  specialize (B _ NF). fold bound in B.
  assert (DM : forall k, dmem k (fields V decls c) = true <-> declares c k) by (intros k; rewrite dmem_true, (declares_iff V decls); reflexivity).
  assert (TE : (exists k, In k (dkeys kw) /\ ~ declares c k) -> r = Raise TypeError).
  { intros (k & I & NI). unfold r, ModelParams.new_data. destruct (forallb _ (dkeys kw)) eqn:F; [|reflexivity].
    rewrite forallb_forall in F. apply F, DM in I. contradiction. }
  destruct (forallb (fun k => dmem k (fields V decls c)) (dkeys kw)) eqn:F.
  2:{ assert (exists k, In k (dkeys kw) /\ ~ declares c k) as X.
      { clear - F DM. induction (dkeys kw) as [|k q IH]; [discriminate|]. cbn in F. apply andb_false_iff in F as [F|F].
        - exists k. split; [left; reflexivity|]. intros D. apply DM in D. congruence.
        - destruct (IH F) as (k' & I & NI). exists k'. split; [right; exact I|exact NI]. }
      rewrite (TE X). split; [split; [intros _; left; exact X|reflexivity]|]. split; [split; [discriminate|intros [H _]; congruence]|].
      split; [intros e E; injection E as <-; auto|discriminate]. }
  assert (ALL : ~ exists k, In k (dkeys kw) /\ ~ declares c k).
  { intros (k & I & NI). rewrite forallb_forall in F. apply F, DM in I. contradiction. }
  assert (DG : forall k, declares c k <-> exists f, dget k (fields V decls c) = Some f).
  { intros k. rewrite (declares_iff V decls). split; [apply key_dget|]. intros (f & G). apply dget_In in G. apply (in_map fst) in G. exact G. }
  destruct bound as [a|] eqn:BE.
  2:{ destruct B as (k & f & G & H). assert (exists k, declares c k /\ value k = None) as X.
      { exists k. split; [apply DG; eauto|]. unfold value. rewrite G. exact H. }
      assert (r = Raise TypeError) as R by (unfold r, ModelParams.new_data; rewrite F; fold bound; rewrite BE; reflexivity).
      rewrite R. split; [split; [intros _; right; exact X|reflexivity]|]. split; [split; [discriminate|intros [H' _]; congruence]|].
      split; [intros e E; injection E as <-; auto|discriminate]. }
  destruct B as [B1 B2].
  assert (VB : forall k, declares c k -> dget k a = value k /\ value k <> None).
  { intros k D. apply DG in D as (f & G). unfold value. destruct (B2 k f G) as [E NE]. rewrite G. rewrite E in NE |- *. auto. }
  assert (R : r = fst (validated V is_none is_empty order decls (after h) (Inst c a))).
  { unfold r, ModelParams.new_data. rewrite F. fold bound. rewrite BE. reflexivity. }
  assert (RD : forall k v, value k = Some v -> declares c k -> read (Inst c a) k Undefined = v).
  { intros k v E D. unfold ModelParams.read, ModelParams.attr. cbn. rewrite (proj1 (VB k D)), E. reflexivity. }
  assert (LD : forall k, In k l -> declares c k).
  { intros k I. apply (declares_iff V decls). eapply (allowed_sub V order decls ord); [|exact I]. apply own_after. }
  assert (NT : ~ ((exists k, In k (dkeys kw) /\ ~ declares c k) \/ exists k, declares c k /\ value k = None)).
  { intros [X|(k & D & E)]; [contradiction|]. destruct (VB k D) as [_ NE]. contradiction. }
  destruct (validated_spec V is_none is_empty order decls ord (after h) (Inst c a) (own_after h)) as [_ H]. cbn [i_cls] in H. fold l in H. rewrite R.
  destruct H as [(ST & (k & I & A) & E)|(ST & o & E & C & H1 & H2)]; rewrite E.
  - split; [split; [discriminate|intros X; contradiction]|]. split; [split; [|reflexivity]|].
    + intros _. split; [discriminate|]. split; [exact ST|]. pose proof (VB k (LD k I)) as [G NE]. destruct (value k) as [v|] eqn:EV; [|congruence].
      exists k, v. split; [exact I|]. split; [exact EV|]. apply sentinel_iff. rewrite <- (RD k v EV (LD k I)). exact A.
    + split; [intros e X; injection X as <-; auto|discriminate].
  - split; [split; [discriminate|intros X; contradiction]|]. split; [split; [discriminate|]|].
    + intros (_ & S & k & v & I & EV & A). exfalso. apply sentinel_iff in A. specialize (ST S k I). rewrite (RD k v EV (LD k I)) in ST. congruence.
    + split; [discriminate|]. intros o' X. injection X as <-. split; [exact C|]. intros k v D EV. destruct (existsb (eqb k) l) eqn:L.
      * apply existsb_str in L. rewrite (H1 k L), (RD k v EV D). reflexivity.
      * assert (~ In k l) as NL by (intros I; apply existsb_str in I; congruence). unfold ModelParams.read. rewrite (H2 k NL).
        fold (read (Inst c a) k Undefined). apply RD; assumption.
Qed.

(** * C64 *)
(** to_dict: exactly the accepted fields that are present and not excluded. *)
Theorem C64_to_dict h o exclude :
  let l := fst (allowed (after h) (i_cls o)) in
  let d := fst (to_dict (after h) o exclude) in
  NoDup (dkeys d) /\
  (forall k v, dget k d = Some v <->
     In k l /\ ~ In k exclude /\ ~ absent (conf (i_cls o)) (read o k Undefined) /\
     v = match read o k Undefined with
         | PV x => PV (if use_enum_values (conf (i_cls o)) then match enum_value x with Some y => y | None => x end else x)
         | w => w
         end) /\
  snd (to_dict (after h) o exclude) = after (h ++ [i_cls o]).
Proof.
  intros l d. assert (after (h ++ [i_cls o]) = snd (allowed (after h) (i_cls o))) as EA by (unfold ProofsParams.run; rewrite fold_left_app; reflexivity).
  pose proof (allowed_nd V order decls ord (after h) (i_cls o) (own_after h)) as N. fold l in N.
  unfold d, ModelParams.to_dict in *. rewrite EA. unfold l in *. destruct (allowed (after h) (i_cls o)) as [keys st]. cbn [fst snd] in *.
  destruct (to_dict_keys_get V is_none is_empty enum_value decls keys o exclude N) as [G ND]. split; [exact ND|]. split; [|reflexivity].
  intros k v. rewrite G.
  assert (NZ : normalize V enum_value (conf (i_cls o)) (read o k Undefined) = match read o k Undefined with
         | PV x => PV (if use_enum_values (conf (i_cls o)) then match enum_value x with Some y => y | None => x end else x)
         | w => w end).
  { unfold normalize. destruct (read o k Undefined) as [| |x]; try reflexivity. destruct (use_enum_values _); [|reflexivity]. destruct (enum_value x); reflexivity. }
  rewrite <- NZ, <- existsb_str, <- (existsb_str k exclude), <- sentinel_not.
  destruct (existsb (eqb k) keys), (existsb (eqb k) exclude), (sentinel _ _ _ _ _); cbn; intuition congruence.
Qed.
(** with_updates builds the new object from the given updates and the present fields. *)
Lemma updates_spec new h o c kw :
  NoDup (dkeys kw) -> c <> Invalid ->
  let l := fst (allowed (after h) (i_cls o)) in
  exists kw', with_updates new (after h) o c kw = new (after (h ++ [i_cls o])) (i_cls o) kw' /\ NoDup (dkeys kw') /\
    forall k, (forall v, dget k kw = Some v -> dget k kw' = Some v) /\
      (dget k kw = None -> In k l -> ~ absent (conf (i_cls o)) (read o k Undefined) -> dget k kw' = Some (copied c (normalize V enum_value (conf (i_cls o)) (read o k Undefined)))) /\
      (dget k kw = None -> ~ In k l \/ absent (conf (i_cls o)) (read o k Undefined) -> dget k kw' = None).
Proof.
  intros N NI l. destruct (C64_to_dict h o []) as (ND & _ & S).
  unfold ModelParams.with_updates, ModelParams.to_dict in *. pose proof (allowed_nd V order decls ord (after h) (i_cls o) (own_after h)) as NA. fold l in NA. unfold l in *.
  destruct (allowed (after h) (i_cls o)) as [keys st]. cbn [fst snd] in *. rewrite <- S.
  destruct (to_dict_keys_get V is_none is_empty enum_value decls keys o [] NA) as [G _]. set (d := to_dict_keys _ _ _ _ _ _ _ _) in *.
  set (d2 := map (fun e => (fst e, if dmem (fst e) kw then snd e else copied c (snd e))) d).
  assert (G2 : forall k, dget k kw = None -> dget k d2 = match dget k d with Some v => Some (copied c v) | None => None end).
  { intros k E. unfold d2. clear - E. induction d as [|[k' v] d IH]; [reflexivity|]. cbn. destruct (eqb_spec k k') as [->|]; [|exact IH].
    assert (dmem k' kw = false) as -> by (apply dmem_false, dget_None; exact E). reflexivity. }
  assert (ND2 : NoDup (dkeys d2)) by (unfold d2, dkeys; rewrite map_map; exact ND).
  exists (update V d2 kw). split; [destruct c; try reflexivity; congruence|].
  assert (U : forall k, dget k (update V d2 kw) = match dget k kw with Some v => Some v | None => dget k d2 end) by (intros k; apply (assign_get V kw N d2 k)).
  split.
  { unfold update. apply (fold_left_inv (fun d => NoDup (dkeys d))); [intros; apply dkeys_dset_NoDup; assumption|exact ND2]. }
  intros k. rewrite U. split; [intros v ->; reflexivity|]. split.
  - intros E I A. rewrite E, (G2 k E), G. apply existsb_str in I. rewrite I. apply sentinel_not in A. rewrite A. reflexivity.
  - intros E H. rewrite E, (G2 k E), G. destruct H as [H|H].
    + destruct (existsb (eqb k) keys) eqn:X; [apply existsb_str in X; contradiction|]. reflexivity.
    + apply sentinel_iff in H. rewrite H, andb_false_r. reflexivity.
Qed.
(** with_updates of Params: the named fields change; present others are kept (copied as asked,
    enum members perhaps replaced by their values); absent ones get the class default. *)
Theorem C64_updates h o c kw :
  NoDup (dkeys kw) ->
  let l := fst (allowed (after h) (i_cls o)) in
  let r := fst (with_updates new_params (after h) o c kw) in
  let cf := conf (i_cls o) in
  (c = Invalid -> r = Raise ValueError) /\
  (c <> Invalid ->
    (r = Raise ValueError <-> exists k, In k (dkeys kw) /\ ~ In k l) /\
    (forall o', r = Ret o' -> i_cls o' = i_cls o /\ forall k, In k l ->
       (forall v, dget k kw = Some v -> v <> Undefined -> read o' k Undefined = v) /\
       (dget k kw = None -> ~ absent cf (read o k Undefined) ->
          exists x, read o k Undefined = PV x /\ read o' k Undefined = PV (carried V enum_value container shallow deep cf c x)) /\
       (dget k kw = None -> absent cf (read o k Undefined) ->
          read o' k Undefined = match class_default (i_cls o) k with Undefined => if prefill_unset cf then Unset else Undefined | v => v end))).
Proof.
  intros N l r cf. split.
  - intros ->. unfold r, ModelParams.with_updates. destruct (to_dict _ _ _). reflexivity.
  - intros NI. destruct (updates_spec new_params h o c kw N NI) as (kw' & E & ND & G).
    destruct (C63_construct (h ++ [i_cls o]) (i_cls o) kw' ND) as (C1 & _ & _ & C4 & _).
    assert (fst (allowed (after (h ++ [i_cls o])) (i_cls o)) = l) as EL by apply C63_stable.
    rewrite EL in *. unfold r. rewrite E. fold l in G. split.
    + rewrite C1. split.
      * intros (k & I & NL). exists k. split; [|exact NL]. destruct (dget k kw) as [v|] eqn:D; [apply dget_In in D; apply (in_map fst) in D; exact D|].
        destruct (G k) as (_ & _ & G3). specialize (G3 D (or_introl NL)). apply dget_None in G3. contradiction.
      * intros (k & I & NL). exists k. split; [|exact NL]. apply key_dget in I as (v & D). apply (G k) in D. apply dget_In in D. apply (in_map fst) in D. exact D.
    + intros o' R. destruct (C4 o' R) as [CC RD]. split; [exact CC|]. intros k I. destruct (G k) as (G1 & G2 & G3). rewrite (RD k I). split; [|split].
      * intros v D NU. rewrite (G1 v D). destruct v; [congruence| |]; reflexivity.
      * intros D A. rewrite (G2 D I A). unfold normalize. fold cf. destruct (read o k Undefined) as [| |x]; [exfalso; apply A; left; reflexivity|exfalso; apply A; right; left; reflexivity|].
        exists x. split; [reflexivity|]. unfold carried. destruct (use_enum_values cf); [|unfold ModelParams.copied; destruct (container x), c; try reflexivity; congruence].
        destruct (enum_value x) as [y|]; unfold ModelParams.copied; [destruct (container y)|destruct (container x)]; destruct c; try reflexivity; congruence.
      * intros D A. rewrite (G3 D (or_intror A)). reflexivity.
Qed.

(** * C80 *)
(** The stored parameters: all present fields, with the entries of kwargs and kw in place of these two. *)
Theorem C80_default_kw h o d :
  fst (default_kw (after h) o) = Ret d ->
  exists a b, (forall v, dget "kwargs" (fst (to_dict (after h) o [])) = Some v -> exists x, v = PV x /\ as_dict x = Some a) /\
    (dget "kwargs" (fst (to_dict (after h) o [])) = None -> a = []) /\
    (forall v, dget "kw" (fst (to_dict (after h) o [])) = Some v -> exists x, v = PV x /\ as_dict x = Some b) /\
    (dget "kw" (fst (to_dict (after h) o [])) = None -> b = []) /\
    (NoDup (dkeys a) -> NoDup (dkeys b) -> forall k, dget k d =
      match dget k b with
      | Some v => Some v
      | None => match dget k a with
                | Some v => Some v
                | None => if eqb k "kwargs" || eqb k "kw" then None else dget k (fst (to_dict (after h) o []))
                end
      end).
Proof.
  intros H. destruct (C64_to_dict h o []) as (ND & _ & _). unfold ModelParams.default_kw in H. destruct (to_dict (after h) o []) as [d0 st]. cbn [fst] in *.
  unfold pop in H. set (e1 := match dget "kwargs" d0 with None => _ | Some _ => _ end) in H. destruct e1 as [a|] eqn:E1; [|discriminate].
  rewrite dget_ddel_other in H by discriminate. set (e2 := match dget "kw" d0 with None => _ | Some _ => _ end) in H. destruct e2 as [b|] eqn:E2; [|discriminate].
  cbn [fst] in H. injection H as <-. unfold e1, e2 in E1, E2. exists a, b.
  split. { intros v G. rewrite G in E1. destruct v; try discriminate. eauto. }
  split. { intros G. rewrite G in E1. congruence. }
  split. { intros v G. rewrite G in E2. destruct v; try discriminate. eauto. }
  split. { intros G. rewrite G in E2. congruence. }
  intros NA NB k.
  assert (NU : NoDup (dkeys (update V (update V [] a) b))).
  { unfold update. apply (fold_left_inv (fun d => NoDup (dkeys d))); [intros; apply dkeys_dset_NoDup; assumption|].
    apply (fold_left_inv (fun d => NoDup (dkeys d))); [intros; apply dkeys_dset_NoDup; assumption|constructor]. }
  pose proof (assign_get V (update V (update V [] a) b) NU (ddel "kw" (ddel "kwargs" d0)) k) as A1. unfold assign in A1.
  pose proof (assign_get V b NB (update V [] a) k) as A2. pose proof (assign_get V a NA [] k) as A3. unfold update at 1. rewrite A1.
  unfold assign in A2, A3. unfold update at 1. rewrite A2. unfold update. rewrite A3. destruct (dget k b); [reflexivity|]. destruct (dget k a); [reflexivity|]. cbn [dget].
  pose proof (dkeys_ddel_NoDup "kwargs" d0 ND) as ND2.
  destruct (eqb_spec k "kw") as [->|N1]; [rewrite orb_true_r; apply dget_ddel_same; exact ND2|]. rewrite orb_false_r.
  rewrite dget_ddel_other by exact N1. destruct (eqb_spec k "kwargs") as [->|N2]; [apply dget_ddel_same; exact ND|]. apply dget_ddel_other. exact N2.
Qed.
(** Arguments of a call take precedence over the stored ones. *)
Theorem C80_call h o kw d e :
  NoDup (dkeys kw) -> fst (default_kw (after h) o) = Ret d -> NoDup (dkeys d) -> fst (call_kw (after h) o kw) = Ret e ->
  forall k, dget k e = match dget k kw with Some v => Some v | None => dget k d end.
Proof.
  intros N D ND C k. unfold ModelParams.call_kw in C. destruct (default_kw (after h) o) as [[d'|] st]; cbn in D, C; [|discriminate].
  injection D as ->. injection C as <-. unfold update at 1. pose proof (assign_get V kw N (update V [] d) k) as A. unfold assign in A. rewrite A.
  pose proof (assign_get V d ND [] k) as B. unfold assign in B. unfold update. rewrite B. cbn. destruct (dget k kw), (dget k d); reflexivity.
Qed.
(** BcallParams (a class with the field batch_size): the stored batch size never reaches bcall. *)
Theorem C80_bcall_refuted h c kw o st h2 kw2 v d :
  NoDup (dkeys kw) -> (forall f, dget "batch_size" (fields V decls c) = Some f -> f_visible f = false) ->
  new_params (after h) c kw = (Ret o, st) -> fst (bcall_args (run h2 st) o kw2) = Ret (v, d) -> absent (conf c) v.
Proof.
  intros N NV E B. destruct (C63_construct h c kw N) as (_ & _ & _ & C4 & S). rewrite E in C4, S. cbn [fst snd] in C4, S.
  destruct (C4 o eq_refl) as [CC RD].
  destruct (new_params_spec V is_none is_empty order decls ord (after h) c kw (own_after h) N) as [_ H]. rewrite E in H. cbn [fst] in H.
  destruct H as [[_ H]|[_ [(_ & _ & H)|(_ & o2 & H & _ & _ & AT)]]]; try discriminate. injection H as <-.
  assert (fst (allowed (run h2 st) c) = fst (allowed (after h) c)) as EL.
  { assert (after (h ++ c :: h2) = run h2 st) as <- by (rewrite S; unfold ProofsParams.run; rewrite !fold_left_app; reflexivity). apply C63_stable. }
  unfold ModelParams.bcall_args in B. destruct (call_kw (run h2 st) o kw2) as [[d'|e] st'] eqn:CK; [|discriminate].
  cbn [fst] in B. destruct (attr o "batch_size") as [w|] eqn:AB; [|discriminate].
  destruct (dmem "batch_size" d') eqn:DM; [discriminate|]. injection B as -> <-.
  assert (run h2 st = after (h ++ c :: h2)) as RS by (rewrite S; unfold ProofsParams.run; rewrite !fold_left_app; reflexivity).
  destruct (in_dec String.string_dec "batch_size" (fst (allowed (after h) c))) as [I|NI].
  2:{ rewrite (AT _ NI) in AB. unfold ModelParams.attr in AB. cbn in AB. destruct (dget "batch_size" (fields V decls c)) as [f|] eqn:G; [|discriminate].
      rewrite (NV f eq_refl) in AB. discriminate. }
  destruct (sentinel V is_none is_empty (conf c) v) eqn:SV; [apply sentinel_iff; exact SV|]. exfalso. apply sentinel_not in SV.
  (* then batch_size is in to_dict, and stays there *)
  rewrite RS in CK. destruct (C64_to_dict (h ++ c :: h2) o []) as (ND & TD & _).
  assert (read o "batch_size" Undefined = v) as RV by (unfold ModelParams.read; rewrite AB; reflexivity).
  rewrite CC in TD. rewrite <- RS, EL in TD. rewrite RS in TD.
  assert (exists x, dget "batch_size" (fst (to_dict (after (h ++ c :: h2)) o [])) = Some x) as (x & GX).
  { eexists. apply TD. split; [exact I|]. split; [intros []|]. rewrite RV. split; [exact SV|reflexivity]. }
  apply dmem_false in DM. apply DM. unfold ModelParams.call_kw, ModelParams.default_kw in CK. destruct (to_dict (after (h ++ c :: h2)) o []) as [d0 st2]. cbn [fst] in *.
  unfold pop in CK. destruct (match dget "kwargs" d0 with None => _ | Some _ => _ end) as [a|]; [|discriminate].
  destruct (match dget "kw" (ddel "kwargs" d0) with None => _ | Some _ => _ end) as [b|]; [|discriminate].
  injection CK as <- _.
  assert (UP : forall e d, In "batch_size" (dkeys d) -> In "batch_size" (dkeys (update V d e))).
  { clear. induction e as [|[k w] e IH]; intros d I; cbn; [exact I|]. apply IH. apply In_dkeys_dset. right. exact I. }
  apply UP.
  assert (US : forall e d, In "batch_size" (dkeys e) -> In "batch_size" (dkeys (update V d e))).
  { clear - UP. induction e as [|[k w] e IH]; intros d I; [contradiction|]. cbn. destruct I as [E|I].
    - cbn in E. subst k. apply UP. apply In_dkeys_dset. left. reflexivity.
    - apply IH. exact I. }
  apply US, UP. apply dget_In in GX. apply (in_map fst) in GX. cbn in GX. fold (dkeys d0) in GX.
  apply In_dkeys_ddel; [apply dkeys_ddel_NoDup; exact ND|]. split; [|discriminate]. apply In_dkeys_ddel; [exact ND|]. split; [exact GX|discriminate].
Qed.
End Params.

(** * Concrete classes *)
Inductive cv := CNone | CNat (n : nat) | CList (l : list nat) | CEnum (n : nat) | CDict (l : list (string * nat)).
Definition cnone (v : cv) : bool := match v with CNone => true | _ => false end.
Definition cempty (v : cv) : bool := match v with CList [] | CDict [] => true | _ => false end.
Definition cenum (v : cv) : option cv := match v with CEnum n => Some (CNat n) | _ => None end.
Definition ccont (v : cv) : bool := match v with CList _ | CDict _ => true | _ => false end.
Definition cdict (v : cv) : option (dict string (pval cv)) :=
  match v with CDict l => Some (map (fun e => (fst e, PV (CNat (snd e)))) l) | _ => None end.
Definition sord : list string -> list string := nodup String.string_dec.
Lemma sord_ok : set_order sord.
Proof. intros l. split; [apply NoDup_nodup|]. intros x. apply nodup_In. Qed.
Definition slot (n : string) : fld cv := Fld n None false.
(** 0: AlcallParams (abridged), 1: BcallParams, 2: an enum field, 3: a field with a default and without slots *)
Definition cdecls (n : nat) : decl cv :=
  match n with
  | 0 => Decl [slot "max_concurrent"; slot "retry_timeout"; slot "kw"] (Some (Config true false false true false))
  | 1 => Decl [slot "batch_size"] None
  | 2 => Decl [slot "mode"; slot "size"] (Some (Config false false false true true))
  | 3 => Decl [Fld "n" (Some (PV (CNat 5))) true; slot "m"] None
  | _ => Decl [slot "must"] (Some (Config false false true true false))
  end.
Notation alcall := [0]. Notation bcall := [1; 0].
Notation newp := (new_params cv cnone cempty sord cdecls).
Notation newd := (new_data cv cnone cempty sord cdecls).
Notation todict := (to_dict cv cnone cempty cenum sord cdecls).
Notation upd := (with_updates cv cnone cempty cenum ccont (fun v => v) (fun v => v) sord cdecls (new_params cv cnone cempty sord cdecls)).
Notation use h := (run cv sord cdecls h st0).
(** After AlcallParams was used, BcallParams refuses its own field. *)
Theorem C63_history_refuted :
  declares cv cdecls bcall "batch_size" /\
  (exists o, fst (newp (use []) bcall [("batch_size", PV (CNat 2))]) = Ret o) /\
  fst (newp (use [alcall]) bcall [("batch_size", PV (CNat 2))]) = Raise ValueError.
Proof.
  split; [apply (dc_own cv cdecls 1 [0] (slot "batch_size")); left; reflexivity|]. split; [eexists; reflexivity|reflexivity].
Qed.
(** A dataclass then accepts the field but loses it in to_dict. *)
Theorem C63_data_refuted :
  let kw := [("max_concurrent", PV (CNat 1)); ("retry_timeout", Unset); ("kw", Unset); ("batch_size", PV (CNat 2))] in
  exists o, fst (newd (use [alcall]) bcall kw) = Ret o /\ fst (newd (use []) bcall kw) = Ret o /\
    fst (todict (use [bcall]) o []) = [("max_concurrent", PV (CNat 1)); ("batch_size", PV (CNat 2))] /\
    fst (todict (use [alcall; bcall]) o []) = [("max_concurrent", PV (CNat 1))].
Proof. eexists. repeat split; reflexivity. Qed.
Example C63_example :
  (exists o, fst (newp (use []) alcall [("max_concurrent", PV (CNat 1))]) = Ret o /\ read cv cdecls o "retry_timeout" Undefined = Unset) /\
  fst (newp (use []) alcall [("nope", PV (CNat 1))]) = Raise ValueError /\
  fst (newp (use []) [4] []) = Raise ExceptionGroupErr.
Proof. split; [eexists; split; reflexivity|split; reflexivity]. Qed.
(** with_updates also changes fields that were not named: enum members, absent values, defaults. *)
Theorem C64_others_refuted :
  fst (upd (use [[2]]) (Inst [2] [("mode", PV (CEnum 1)); ("size", PV (CNat 1))]) NoCopy [("size", PV (CNat 2))]) =
    Ret (Inst [2] [("mode", PV (CNat 1)); ("size", PV (CNat 2))]) /\
  fst (upd (use [alcall]) (Inst alcall [("max_concurrent", PV CNone)]) NoCopy [("retry_timeout", PV (CNat 2))]) =
    Ret (Inst alcall [("retry_timeout", PV (CNat 2)); ("max_concurrent", Unset); ("kw", Unset)]) /\
  (exists o, fst (newp (use []) [3] [("n", Unset)]) = Ret o /\ read cv cdecls o "n" Undefined = Unset /\
     exists o', fst (upd (use [[3]]) o NoCopy [("m", PV (CNat 1))]) = Ret o' /\ read cv cdecls o' "n" Undefined = PV (CNat 5)).
Proof. split; [reflexivity|]. split; [reflexivity|]. eexists. split; [reflexivity|]. split; [reflexivity|]. eexists. split; reflexivity. Qed.
Example C64_example :
  fst (todict (use []) (Inst alcall [("max_concurrent", PV (CNat 1)); ("retry_timeout", PV CNone); ("kw", Unset)]) []) = [("max_concurrent", PV (CNat 1))] /\
  fst (todict (use []) (Inst alcall [("max_concurrent", PV (CNat 1)); ("retry_timeout", PV (CNat 3)); ("kw", Unset)]) ["max_concurrent"]) = [("retry_timeout", PV (CNat 3))] /\
  fst (upd (use []) (Inst alcall [("max_concurrent", PV (CNat 1)); ("retry_timeout", Unset); ("kw", Unset)]) Deep [("max_concurrent", PV (CNat 7))]) =
    Ret (Inst alcall [("max_concurrent", PV (CNat 7)); ("retry_timeout", Unset); ("kw", Unset)]).
Proof. repeat split; reflexivity. Qed.
Example C80_example :
  fst (call_kw cv cnone cempty cenum cdict sord cdecls (use []) (Inst alcall [("max_concurrent", PV (CNat 1)); ("kw", PV (CDict [("x", 2)]))]) [("max_concurrent", PV (CNat 3))]) =
    Ret [("max_concurrent", PV (CNat 3)); ("x", PV (CNat 2))] /\
  (exists o st, newp (use []) bcall [("batch_size", PV (CNat 2))] = (Ret o, st) /\
     fst (bcall_args cv cnone cempty cenum cdict sord cdecls st o []) = Raise TypeError).
Proof. split; [reflexivity|]. do 2 eexists. split; reflexivity. Qed.

Print Assumptions C63_first.
Print Assumptions C63_defaults.
Print Assumptions C63_late.
Print Assumptions C63_stable.
Print Assumptions C63_construct.
Print Assumptions C63_data.
Print Assumptions C63_history_refuted.
Print Assumptions C63_data_refuted.
Print Assumptions C64_to_dict.
Print Assumptions C64_updates.
Print Assumptions C64_others_refuted.
Print Assumptions C80_default_kw.
Print Assumptions C80_call.
Print Assumptions C80_bcall_refuted.
