(** Proofs for C63, C64, C80. *)
From Coq Require Import String.
From Coq Require Import List Bool Arith Lia.
From Verif Require Import PyBase PyFacts ModelLexer ModelParser ModelParams SpecParams.
Import ListNotations.
Local Open Scope string_scope.
Local Open Scope nat_scope.
Local Open Scope list_scope.
#[local] Arguments eqb : simpl never.

Lemma dset_same_twice {K A} `{EqB K} (k : K) (v : A) d : dset k v (dset k v d) = dset k v d.
Proof.
  induction d as [|[k' v'] d IH]; cbn.
  - destruct (eqb_spec k k) as [_|E]; [reflexivity|congruence].
  - destruct (eqb_spec k k') as [->|N]; cbn.
    + destruct (eqb_spec k' k') as [_|E]; [reflexivity|congruence].
    + destruct (eqb_spec k k') as [E|_]; [congruence|]. rewrite IH. reflexivity.
Qed.
Lemma existsb_str (k : string) (l : list string) : existsb (eqb k) l = true <-> In k l.
Proof.
  rewrite existsb_exists. split.
  - intros (x & I & E). destruct (eqb_spec k x) as [->|]; [exact I|discriminate].
  - intros I. exists k. split; [exact I|]. destruct (eqb_spec k k) as [_|E]; [reflexivity|congruence].
Qed.

Section Params.
Variable V : Type.
Notation pval := (pval V). Notation inst := (inst V).
Variables (is_none is_empty : V -> bool) (enum_value : V -> option V) (container : V -> bool) (shallow deep : V -> V)
          (as_dict : V -> option (dict string pval)) (order : list string -> list string) (decls : nat -> decl V).
Hypothesis ord : set_order order.
Notation names := (names V decls). Notation fields := (fields V decls). Notation conf := (conf V decls).
Notation allowed := (allowed V order decls).
Notation sentinel := (sentinel V is_none is_empty). Notation read := (read V decls). Notation attr := (attr V decls).

Lemma order_nil l : order l = [] <-> l = [].
Proof.
  split; intros E.
  - destruct l as [|x l]; [reflexivity|]. assert (In x (order (x :: l))) as I by (apply ord; left; reflexivity). rewrite E in I. contradiction.
  - subst l. destruct (order []) as [|x q] eqn:Q; [reflexivity|]. assert (In x []) as [] by (apply (proj2 (ord [])); rewrite Q; left; reflexivity).
Qed.
Lemma order_in l x : In x (order l) <-> In x l.
Proof. apply ord. Qed.
Lemma order_nd l : NoDup (order l).
Proof. apply ord. Qed.

Lemma fold_keys l : forall m k, In k (dkeys (fold_left (fun m f => dset (f_name f) f m) l m)) <-> In k (dkeys m) \/ In k (map (@f_name V) l).
Proof.
  induction l as [|f l IH]; intros m k; cbn [fold_left map In]; [tauto|]. rewrite IH, In_dkeys_dset. intuition.
Qed.
Lemma names_mono p a k : In k (names a) -> In k (names (p ++ a)).
Proof. intros I. induction p as [|d p IH]; cbn; [exact I|]. unfold ModelParams.names. cbn. apply fold_keys. left. exact IH. Qed.
Lemma fields_name c : forall k f, dget k (fields c) = Some f -> f_name f = k.
Proof.
  induction c as [|d c IH]; intros k f; cbn; [discriminate|]. revert IH. generalize (fields c) as m. generalize (d_fields (decls d)) as l.
  induction l as [|g l IHl]; intros m IH; cbn; [apply IH|]. apply IHl. intros k' f'. rewrite dget_dset. destruct (eqb_spec k' (f_name g)) as [->|]; [congruence|apply IH].
Qed.

(** ** The cache *)
Definition st0 : cache := [([], [])].
Definition run (h : list cls) (st : cache) : cache := fold_left (fun st c => snd (allowed st c)) h st.
Definition own (st : cache) : Prop := forall c l, dget c st = Some l -> l = order (names c).
Lemma own0 : own st0.
Proof. intros c l. unfold st0. cbn. destruct (eqb_spec c []) as [->|]; [|discriminate]. intros E. injection E as <-. symmetry. apply order_nil. reflexivity. Qed.
Lemma own_step st c : own st -> own (snd (allowed st c)).
Proof.
  intros O. unfold ModelParams.allowed. destruct (cached st c); [|exact O]. cbn. intros c' l. rewrite dget_dset. destruct (eqb_spec c' c) as [->|]; [congruence|apply O].
Qed.
Lemma own_run h st : own st -> own (run h st).
Proof. revert st. induction h as [|c h IH]; intros st O; cbn; [exact O|]. apply IH, own_step, O. Qed.

(** The nearest entry. *)
Lemma cached_cases st c :
  (exists p a, c = p ++ a /\ dget a st = Some (cached st c) /\ forall q b, p = q ++ b -> b <> [] -> dget (b ++ a) st = None) \/
  (cached st c = [] /\ forall p a, c = p ++ a -> dget a st = None).
Proof.
  induction c as [|d c IH]; cbn.
  - destruct (dget [] st) as [l|] eqn:G.
    + left. exists [], []. split; [reflexivity|]. split; [exact G|]. intros q b E N. destruct q, b; try discriminate. congruence.
    + right. split; [reflexivity|]. intros p a E. destruct p, a; try discriminate. exact G.
  - destruct (dget (d :: c : cls) st) as [l|] eqn:G.
    + left. exists [], (d :: c). split; [reflexivity|]. split; [exact G|]. intros q b E N. destruct q, b; try discriminate. congruence.
    + destruct IH as [(p & a & E & G' & N)|[E N]].
      * left. exists (d :: p), a. split; [cbn; congruence|]. split; [exact G'|]. intros [|x q] b E2 N2; cbn in E2.
        -- subst b. cbn. rewrite <- E. exact G.
        -- injection E2 as <- E2. eapply N; eauto.
      * right. split; [exact E|]. intros [|x p] a E2; cbn in E2; [subst a; exact G|]. injection E2 as <- E2. eapply N; eauto.
Qed.
Lemma cached_stable st x c : cached st c <> [] -> cached (snd (allowed st x)) c = cached st c.
Proof.
  intros NE. unfold ModelParams.allowed. destruct (cached st x) as [|y l] eqn:X; [|reflexivity]. cbn.
  destruct (cached_cases st c) as [(p & a & E & G & N)|[E _]]; [|contradiction].
  assert (NX : forall p', p = p' ++ [] -> True) by trivial. clear NX.
  assert (forall q b, p = q ++ b -> cached (dset x (order (names x)) st) (b ++ a) = cached st c) as H.
  { intros q b. revert q. induction b as [|d b IH]; intros q Eq.
    - cbn [app]. assert (x <> a) as NXA.
      { intros ->. destruct a; cbn in X; rewrite G in X; contradiction. }
      destruct a as [|d a]; cbn [cached]; rewrite dget_dset_other by congruence; rewrite G; reflexivity.
    - cbn [app cached]. assert (x <> (d :: b) ++ a) as NX.
      { intros ->. apply NE. assert (dget ((d :: b) ++ a) st = None) as NB by (eapply N; [exact Eq|discriminate]).
        clear IH. revert X. assert (forall b' q', p = q' ++ b' -> cached st (b' ++ a) = cached st c) as R.
        { intros b'. induction b' as [|e b' IH']; intros q' E'.
          - cbn [app]. destruct a; cbn [cached]; rewrite G; reflexivity.
          - cbn [app cached]. change (e :: b' ++ a) with ((e :: b') ++ a). rewrite (N q' (e :: b')) by (assumption || discriminate).
            apply (IH' (q' ++ [e])). rewrite <- app_assoc. exact E'. }
        rewrite (R _ _ Eq). auto. }
      change (d :: b ++ a) with ((d :: b) ++ a). rewrite dget_dset_other by congruence.
      rewrite (N q (d :: b)) by (assumption || discriminate). apply (IH (q ++ [d])). rewrite <- app_assoc. exact Eq. }
  rewrite E at 1. apply (H []). reflexivity.
Qed.
Lemma cached_stable_run h : forall st c, cached st c <> [] -> cached (run h st) c = cached st c.
Proof. induction h as [|x h IH]; intros st c NE; cbn; [reflexivity|]. rewrite IH; [apply cached_stable; exact NE|]. rewrite cached_stable by exact NE. exact NE. Qed.

Lemma allowed_fst st c : fst (allowed st c) = match cached st c with [] => order (names c) | l => l end.
Proof. unfold ModelParams.allowed. destruct (cached st c); reflexivity. Qed.
Lemma cached_own st c : own st -> cached st c = [] \/ exists p a, c = p ++ a /\ cached st c = order (names a) /\ names a <> [].
Proof.
  intros O. destruct (cached_cases st c) as [(p & a & E & G & N)|[E _]]; [|left; exact E].
  destruct (cached st c) as [|x l] eqn:C; [left; reflexivity|]. right. exists p, a. split; [exact E|]. apply O in G. split; [exact G|].
  intros NA. rewrite NA in G. rewrite (proj2 (order_nil [])) in G by reflexivity. discriminate.
Qed.
Lemma allowed_after st c : fst (allowed (snd (allowed st c)) c) = fst (allowed st c) /\ snd (allowed (snd (allowed st c)) c) = snd (allowed st c).
Proof.
  destruct (cached st c) as [|x l] eqn:C.
  - assert (allowed st c = (order (names c), dset c (order (names c)) st)) as E by (unfold ModelParams.allowed; rewrite C; reflexivity).
    rewrite E. cbn [fst snd]. assert (cached (dset c (order (names c)) st) c = order (names c)) as C2.
    { destruct c; cbn [cached]; rewrite dget_dset_same; reflexivity. }
    unfold ModelParams.allowed. rewrite C2. destruct (order (names c)) eqn:Q; cbn [fst snd]; rewrite ?Q; [|split; reflexivity].
    split; [reflexivity|]. apply dset_same_twice.
  - assert (allowed st c = (x :: l, st)) as E by (unfold ModelParams.allowed; rewrite C; reflexivity). rewrite E. cbn [fst snd]. rewrite E. split; reflexivity.
Qed.
Lemma allowed_stable st c x : own st -> fst (allowed (snd (allowed (snd (allowed st c)) x)) c) = fst (allowed st c).
Proof.
  intros O. destruct (allowed_after st c) as [A1 A2]. set (st1 := snd (allowed st c)) in *. rewrite <- A1.
  destruct (cached st1 c) as [|y l] eqn:C.
  - assert (names c = []) as NC.
    { clear A1. unfold st1, ModelParams.allowed in C. destruct (cached st c) eqn:C0; cbn [snd] in C.
      - destruct c; cbn [cached] in C; rewrite dget_dset_same in C; apply (proj1 (order_nil _)) in C; exact C.
      - rewrite C0 in C. discriminate. }
    assert (own (snd (allowed st1 x))) as O2 by (apply own_step; unfold st1; apply own_step; exact O).
    rewrite !allowed_fst, C, NC. destruct (cached_own _ c O2) as [->|(p & a & E & _ & NA)]; [reflexivity|].
    exfalso. destruct (names a) as [|k r] eqn:NN; [congruence|]. assert (In k (names c)) as I by (rewrite E; apply names_mono; rewrite NN; left; reflexivity).
    rewrite NC in I. contradiction.
  - rewrite !allowed_fst, cached_stable by congruence. reflexivity.
Qed.
Lemma allowed_stable_run h : forall st c, own st -> fst (allowed (run h (snd (allowed st c))) c) = fst (allowed st c).
Proof.
  enough (forall st c, own st -> fst (allowed st c) = fst (allowed (snd (allowed st c)) c) -> forall l, fst (allowed st c) = l -> (cached st c <> [] \/ names c = []) -> fst (allowed (run h st) c) = l) as G.
  { intros st c O. destruct (allowed_after st c) as [A1 A2]. apply (G (snd (allowed st c)) c).
    - apply own_step. exact O.
    - rewrite A2. reflexivity.
    - exact A1.
    - rewrite allowed_fst in A1. unfold ModelParams.allowed in *. destruct (cached st c) eqn:C; cbn [snd fst] in *.
      + destruct (list_eq_dec String.string_dec (names c) []) as [E|N]; [right; exact E|left].
        destruct c; cbn [cached]; rewrite dget_dset_same; intros Q; apply (proj1 (order_nil _)) in Q; contradiction.
      + left. rewrite C. discriminate. }
  intros st c O _ l <- [NE|NC].
  - rewrite !allowed_fst, cached_stable_run by exact NE. reflexivity.
  - assert (forall s, own s -> fst (allowed s c) = []) as Z.
    { intros s Os. rewrite allowed_fst. destruct (cached_own s c Os) as [->|(p & a & E & _ & NA)]; [apply order_nil; exact NC|].
      exfalso. destruct (names a) as [|k r] eqn:NN; [congruence|]. assert (In k (names c)) as I by (rewrite E; apply names_mono; rewrite NN; left; reflexivity).
      rewrite NC in I. contradiction. }
    rewrite !Z; [reflexivity|exact O|apply own_run; exact O].
Qed.
Lemma allowed_nd st c : own st -> NoDup (fst (allowed st c)).
Proof.
  intros O. rewrite allowed_fst. destruct (cached_own st c O) as [->|(p & a & _ & -> & NA)]; [apply order_nd|].
  destruct (order (names a)) eqn:Q; [apply order_nd|]. rewrite <- Q. apply order_nd.
Qed.
Lemma allowed_sub st c k : own st -> In k (fst (allowed st c)) -> In k (names c).
Proof.
  intros O. rewrite allowed_fst. destruct (cached_own st c O) as [->|(p & a & E & -> & NA)]; [apply order_in|].
  destruct (order (names a)) eqn:Q; [apply order_in|]. rewrite <- Q. rewrite order_in, E. apply names_mono.
Qed.

(** Right: no proper ancestor with fields was used before. *)
Definition unused (st : cache) (c : cls) : Prop := forall p a l, c = p ++ a -> p <> [] -> dget a st = Some l -> l = [].
Lemma unused_ok st c : own st -> unused st c -> fst (allowed st c) = order (names c).
Proof.
  intros O U. rewrite allowed_fst. destruct (cached_cases st c) as [(p & a & E & G & N)|[E _]]; [|rewrite E; reflexivity].
  destruct p as [|d p].
  - cbn in E. subst a. apply O in G. rewrite G. destruct (order (names c)); reflexivity.
  - apply (U _ _ _ E) in G; [|discriminate]. rewrite G. reflexivity.
Qed.
Lemma unused_run h : forall st c, own st -> unused st c -> (forall a, In a h -> ancestor a c -> names a = []) -> unused (run h st) c.
Proof.
  induction h as [|x h IH]; intros st c O U A; cbn; [exact U|]. apply IH; [apply own_step; exact O| |intros; apply A; [right|]; assumption].
  intros p a l E N G. unfold ModelParams.allowed in G. destruct (cached st x) eqn:X; [|exact (U _ _ _ E N G)]. cbn in G.
  rewrite dget_dset in G. destruct (eqb_spec a x) as [->|]; [|exact (U _ _ _ E N G)]. injection G as <-. apply order_nil. apply A; [left; reflexivity|].
  exists p. auto.
Qed.
(** Wrong: an ancestor with fields has an entry, the class has none. *)
Definition shadowed (st : cache) (c : cls) : Prop := dget c st = None /\ exists p a l, p <> [] /\ c = p ++ a /\ dget a st = Some l /\ l <> [].
Lemma shadowed_cached st c : own st -> shadowed st c -> exists p a, p <> [] /\ c = p ++ a /\ cached st c = order (names a) /\ names a <> [].
Proof.
  intros O [D (p & a & l & N & E & G & NL)]. destruct (cached_cases st c) as [(p' & a' & E' & G' & N')|[_ Nb]]; [|rewrite (Nb p a E) in G; discriminate].
  exists p', a'. split; [intros ->; cbn in E'; subst a'; congruence|]. split; [exact E'|]. split; [apply O; exact G'|].
  assert (names a <> []) as NA by (intros NN; apply NL; rewrite (O _ _ G); apply order_nil; exact NN).
  assert (exists r, a' = r ++ a \/ a = r ++ a') as (r & R).
  { rewrite E in E'. clear - E'. revert p' E'. induction p as [|x p IH]; intros q Eq; cbn in Eq.
    - exists q. right. exact Eq.
    - destruct q as [|y q]; cbn in Eq; [exists (x :: p); left; cbn; congruence|]. injection Eq as _ Eq. exact (IH q Eq). }
  destruct R as [-> | ->].
  - intros Z. destruct (names a) as [|k w] eqn:NN; [congruence|].
    assert (In k (names (r ++ a))) as I by (apply names_mono; rewrite NN; left; reflexivity). rewrite Z in I. contradiction.
  - destruct r as [|x r]; [exact NA|]. exfalso. assert (p' = p ++ x :: r) as ->.
    { rewrite E in E'. rewrite app_assoc in E'. apply app_inv_tail in E'. symmetry. exact E'. }
    rewrite (N' p (x :: r) eq_refl) in G; discriminate.
Qed.
Lemma shadowed_step st c x : own st -> shadowed st c -> shadowed (snd (allowed st x)) c.
Proof.
  intros O S. pose proof (shadowed_cached st c O S) as (q & b & _ & _ & CB & NB). destruct S as [D (p & a & l & N & E & G & NL)].
  unfold ModelParams.allowed. destruct (cached st x) as [|y r] eqn:X; [|split; [exact D|eauto 10]]. cbn.
  assert (x <> c) as NX. { intros ->. rewrite CB in X. apply (proj1 (order_nil _)) in X. contradiction. }
  split; [rewrite dget_dset_other by congruence; exact D|]. exists p, a.
  destruct (eqb_spec a x) as [->|NE].
  - exists (order (names x)). rewrite dget_dset_same. split; [exact N|]. split; [exact E|]. split; [reflexivity|]. rewrite <- (O _ _ G). exact NL.
  - exists l. rewrite dget_dset_other by congruence. auto.
Qed.
Lemma shadowed_run h : forall st c, own st -> shadowed st c -> shadowed (run h st) c.
Proof. induction h as [|x h IH]; intros st c O S; cbn; [exact S|]. apply IH; [apply own_step; exact O|apply shadowed_step; assumption]. Qed.
(** A class gets an entry only by being used. *)
Lemma entry_used h : forall st c, dget c st = None -> ~ In c h -> dget c (run h st) = None.
Proof.
  induction h as [|x h IH]; intros st c D N; cbn; [exact D|]. apply IH; [|intros I; apply N; right; exact I].
  unfold ModelParams.allowed. destruct (cached st x); [|exact D]. cbn. rewrite dget_dset_other; [exact D|]. intros ->. apply N. left. reflexivity.
Qed.
(** A used class with fields has itself or a base class with an entry. *)
Lemma used_entry st a : own st -> names a <> [] -> exists p b l, a = p ++ b /\ dget b (snd (allowed st a)) = Some l /\ l <> [].
Proof.
  intros O N. unfold ModelParams.allowed. destruct (cached st a) as [|x l] eqn:C; cbn.
  - exists [], a, (order (names a)). split; [reflexivity|]. split; [apply dget_dset_same|]. intros Q. apply (proj1 (order_nil _)) in Q. contradiction.
  - destruct (cached_cases st a) as [(p & b & E & G & _)|[E _]]; [|congruence]. exists p, b, (cached st a). rewrite C in *. split; [exact E|]. split; [exact G|discriminate].
Qed.
Lemma declares_iff c k : declares V decls c k <-> In k (names c).
Proof.
  revert k. induction c as [|d c IH]; intros k.
  - split; [intros H; inversion H|intros []].
  - unfold ModelParams.names. cbn [ModelParams.fields]. rewrite fold_keys. fold (names c). rewrite <- IH, in_map_iff. split.
    + intros H. inversion H; subst; [right; eauto|left; assumption].
    + intros [H|(f & <- & I)]; [apply dc_base; exact H|apply dc_own; exact I].
Qed.
Lemma fieldless_iff c : fieldless V decls c <-> names c = [].
Proof.
  split.
  - intros F. destruct (names c) as [|k r] eqn:N; [reflexivity|]. exfalso. apply (F k). apply declares_iff. rewrite N. left. reflexivity.
  - intros N k H. apply declares_iff in H. rewrite N in H. contradiction.
Qed.

(** ** Objects *)
Notation validate := (validate V is_none is_empty decls). Notation validated := (validated V is_none is_empty order decls).
Notation set_all := (set_all V order decls). Notation new_params := (new_params V is_none is_empty order decls).
Notation bind_fields := (bind_fields V). Notation new_data := (new_data V is_none is_empty order decls).
Notation to_dict := (to_dict V is_none is_empty enum_value order decls). Notation normalize := (normalize V enum_value).
Notation to_dict_keys := (to_dict_keys V is_none is_empty enum_value decls).

Lemma read_set o k v k' d : read (Inst (i_cls o) (dset k v (i_attrs o))) k' d = if eqb k' k then v else read o k' d.
Proof. unfold ModelParams.read, ModelParams.attr. cbn. rewrite dget_dset. destruct (eqb k' k); reflexivity. Qed.
Definition filled (c : cls) (v : pval) : pval := match v with Undefined => if prefill_unset (conf c) then Unset else Undefined | _ => v end.
Lemma read_unset o k : sentinel (conf (i_cls o)) (read o k Unset) = sentinel (conf (i_cls o)) (read o k Undefined).
Proof. unfold ModelParams.read. destruct (attr o k); reflexivity. Qed.
Lemma validate_ok keys : forall o n, NoDup keys ->
  i_cls (fst (validate keys o n)) = i_cls o /\
  (forall k, In k keys -> read (fst (validate keys o n)) k Undefined = filled (i_cls o) (read o k Undefined)) /\
  (forall k, ~ In k keys -> attr (fst (validate keys o n)) k = attr o k) /\
  (snd (validate keys o n) = n + if strict (conf (i_cls o)) then length (filter (fun k => sentinel (conf (i_cls o)) (read o k Undefined)) keys) else 0).
Proof.
  induction keys as [|k keys IH]; intros o n N; cbn [ModelParams.validate].
  - cbn. split; [reflexivity|]. split; [intros k []|]. split; [reflexivity|]. destruct (strict _); lia.
  - inversion N as [|? ? NI N']; subst.
    set (o' := if prefill_unset (conf (i_cls o)) && _ then _ else o).
    set (n' := if _ && _ then S n else n).
    assert (i_cls o' = i_cls o) as C by (unfold o'; destruct (_ && _); reflexivity).
    assert (forall k', k' <> k -> attr o' k' = attr o k') as AT.
    { intros k' NE. unfold o'. destruct (_ && _); [|reflexivity]. unfold ModelParams.attr. cbn. rewrite dget_dset_other by exact NE. reflexivity. }
    assert (read o' k Undefined = filled (i_cls o) (read o k Undefined)) as RK.
    { unfold o', filled. destruct (prefill_unset (conf (i_cls o))); cbn [andb].
      - destruct (read o k Undefined) as [| |v] eqn:R; try exact R. rewrite read_set. destruct (eqb_spec k k) as [_|E]; [reflexivity|congruence].
      - destruct (read o k Undefined); reflexivity. }
    destruct (IH o' n' N') as (I1 & I2 & I3 & I4). rewrite C in I1, I2, I4. split; [exact I1|]. split; [|split].
    + intros k' [<-|I]; [|].
      * unfold ModelParams.read at 1. rewrite I3 by exact NI. exact RK.
      * rewrite I2 by exact I. unfold ModelParams.read. rewrite AT; [reflexivity|]. intros ->. contradiction.
    + intros k' NK. rewrite I3 by (intros X; apply NK; right; exact X). apply AT. intros ->. apply NK. left. reflexivity.
    + rewrite I4. unfold n'. rewrite read_unset.
      rewrite (filter_ext_in (fun k0 => sentinel (conf (i_cls o)) (read o' k0 Undefined)) (fun k0 => sentinel (conf (i_cls o)) (read o k0 Undefined))).
      2:{ intros k' I. unfold ModelParams.read. rewrite AT; [reflexivity|]. intros ->. contradiction. }
      cbn [filter]. destruct (strict _); cbn [andb]; [|lia]. destruct (ModelParams.sentinel _ _ _ _ (read o k Undefined)); cbn; lia.
Qed.
(** What the attributes are before validation: given, or the visible default. *)
Definition given (c : cls) (kw : dict string pval) (k : string) : pval := read (Inst c kw) k Undefined.

Lemma validated_spec st o : own st ->
  let l := fst (allowed st (i_cls o)) in
  snd (validated st o) = snd (allowed st (i_cls o)) /\
  ((strict (conf (i_cls o)) = true /\ (exists k, In k l /\ sentinel (conf (i_cls o)) (read o k Undefined) = true) /\
      fst (validated st o) = Raise ExceptionGroupErr) \/
   ((strict (conf (i_cls o)) = true -> forall k, In k l -> sentinel (conf (i_cls o)) (read o k Undefined) = false) /\
      exists o', fst (validated st o) = Ret o' /\ i_cls o' = i_cls o /\
        (forall k, In k l -> read o' k Undefined = filled (i_cls o) (read o k Undefined)) /\ (forall k, ~ In k l -> attr o' k = attr o k))).
Proof.
  intros O l. unfold ModelParams.validated. pose proof (allowed_nd st (i_cls o) O) as N. fold l in N. unfold l in *.
  destruct (allowed st (i_cls o)) as [keys st'] eqn:A. cbn [fst snd] in *.
  destruct (validate_ok keys o 0 N) as (I1 & I2 & I3 & I4). destruct (validate keys o 0) as [o' [|n]]; cbn [fst snd] in *.
  - split; [reflexivity|]. right. split.
    + intros S k I. rewrite S in I4. destruct (ModelParams.sentinel _ _ _ _ (read o k Undefined)) eqn:X; [|reflexivity].
      assert (In k (filter (fun k => sentinel (conf (i_cls o)) (read o k Undefined)) keys)) as IF by (apply filter_In; auto).
      destruct (filter _ keys); [contradiction|discriminate].
    + exists o'. auto.
  - split; [reflexivity|]. left. destruct (strict (conf (i_cls o))); [|discriminate]. split; [reflexivity|]. split; [|reflexivity].
    destruct (filter (fun k => sentinel (conf (i_cls o)) (read o k Undefined)) keys) as [|k r] eqn:F; [discriminate|].
    exists k. apply (filter_In (fun k => sentinel (conf (i_cls o)) (read o k Undefined))). rewrite F. left. reflexivity.
Qed.
Definition assign (a : dict string pval) (kw : list (string * pval)) : dict string pval := fold_left (fun d e => dset (fst e) (snd e) d) kw a.
Lemma set_all_spec kw : forall st c a, own st ->
  ((exists k, In k (map fst kw) /\ ~ In k (fst (allowed st c))) -> set_all kw st (Inst c a) = (Raise ValueError, snd (allowed st c))) /\
  ((forall k, In k (map fst kw) -> In k (fst (allowed st c))) ->
     set_all kw st (Inst c a) = (Ret (Inst c (assign a kw)), match kw with [] => st | _ => snd (allowed st c) end)).
Proof.
  induction kw as [|[k v] kw IH]; intros st c a O; cbn [ModelParams.set_all map fst].
  - split; [intros (k & [] & _)|reflexivity].
  - cbn [i_cls]. destruct (allowed_after st c) as [A1 A2]. pose proof (own_step st c O) as O'.
    destruct (allowed st c) as [keys st'] eqn:A. cbn [fst snd] in *.
    specialize (IH st' c (dset k v a) O'). rewrite A1, A2 in IH. cbn [i_attrs]. destruct (existsb (eqb k) keys) eqn:X.
    + apply existsb_str in X. split.
      * intros (k' & [<-|I] & NI); [contradiction|]. apply IH. eauto.
      * intros H. rewrite (proj2 IH) by (intros; apply H; right; assumption). f_equal. destruct kw; reflexivity.
    + assert (~ In k keys) as NK by (intros I; apply existsb_str in I; congruence). split; [reflexivity|]. intros H. exfalso. apply NK. apply H. left. reflexivity.
Qed.
Lemma assign_get kw : NoDup (map fst kw) -> forall a k, dget k (assign a kw) = match dget k (kw : dict string pval) with Some v => Some v | None => dget k a end.
Proof.
  induction kw as [|[k' v'] kw IH]; intros N a k; cbn; [reflexivity|]. inversion N as [|? ? NI N']; subst. fold (assign (dset k' v' a) kw).
  rewrite IH by exact N'. rewrite dget_dset. destruct (eqb_spec k k') as [->|NE]; [|reflexivity].
  assert (dget k' (kw : dict string pval) = None) as -> by (apply dget_None; exact NI). reflexivity.
Qed.
Lemma read_assign c kw k d : NoDup (map fst kw) -> read (Inst c (assign [] kw)) k d = read (Inst c kw) k d.
Proof. intros N. unfold ModelParams.read, ModelParams.attr. cbn. rewrite assign_get by exact N. cbn. destruct (dget k (kw : dict string pval)); reflexivity. Qed.
Lemma attr_assign c kw k : NoDup (map fst kw) -> attr (Inst c (assign [] kw)) k = attr (Inst c kw) k.
Proof. intros N. unfold ModelParams.attr. cbn. rewrite assign_get by exact N. cbn. destruct (dget k (kw : dict string pval)); reflexivity. Qed.

Lemma new_params_spec st c kw : own st -> NoDup (dkeys kw) ->
  let l := fst (allowed st c) in
  snd (new_params st c kw) = snd (allowed st c) /\
  (((exists k, In k (dkeys kw) /\ ~ In k l) /\ fst (new_params st c kw) = Raise ValueError) \/
   ((forall k, In k (dkeys kw) -> In k l) /\
    ((strict (conf c) = true /\ (exists k, In k l /\ sentinel (conf c) (given c kw k) = true) /\ fst (new_params st c kw) = Raise ExceptionGroupErr) \/
     ((strict (conf c) = true -> forall k, In k l -> sentinel (conf c) (given c kw k) = false) /\
      exists o, fst (new_params st c kw) = Ret o /\ i_cls o = c /\ (forall k, In k l -> read o k Undefined = filled c (given c kw k)) /\
        (forall k, ~ In k l -> attr o k = attr (Inst c []) k))))).
Proof.
  intros O N l. destruct (set_all_spec kw st c [] O) as [BAD OK]. fold l in BAD, OK. unfold ModelParams.new_params.
  destruct (forallb (fun k => existsb (eqb k) l) (dkeys kw)) eqn:F.
  - assert (forall k, In k (dkeys kw) -> In k l) as SUB by (rewrite forallb_forall in F; intros k I; apply existsb_str, F, I).
    rewrite OK by exact SUB. set (st' := match kw with [] => st | _ => _ end).
    assert (fst (allowed st' c) = l /\ snd (allowed st' c) = snd (allowed st c)) as [A1 A2].
    { unfold st'. destruct kw; [split; reflexivity|]. apply allowed_after. }
    assert (own st') as O' by (unfold st'; destruct kw; [exact O|apply own_step; exact O]).
    destruct (validated_spec st' (Inst c (assign [] kw)) O') as [S H]. cbn [i_cls] in S, H. rewrite A1 in H. rewrite A2 in S.
    split; [exact S|]. right. split; [exact SUB|]. destruct H as [(H1 & (k & I & H2) & H3)|(H1 & o' & H2 & H3 & H4 & H5)].
    + left. rewrite read_assign in H2 by exact N. split; [exact H1|]. split; [exists k; auto|exact H3].
    + right. split.
      * intros S1 k I. specialize (H1 S1 k I). rewrite read_assign in H1 by exact N. exact H1.
      * exists o'. split; [exact H2|]. split; [exact H3|]. split.
        -- intros k I. rewrite H4 by exact I. rewrite read_assign by exact N. reflexivity.
        -- intros k NI. rewrite H5 by exact NI. rewrite attr_assign by exact N. unfold ModelParams.attr. cbn.
           assert (dget k kw = None) as -> by (apply dget_None; intros I; apply NI, SUB, I). reflexivity.
  - assert (exists k, In k (dkeys kw) /\ ~ In k l) as E.
    { clear - F. induction (dkeys kw) as [|k r IH]; [discriminate|]. cbn in F. apply andb_false_iff in F as [F|F].
      - exists k. split; [left; reflexivity|]. intros I. apply existsb_str in I. congruence.
      - destruct (IH F) as (k' & I & NI). exists k'. split; [right; exact I|exact NI]. }
    rewrite BAD by exact E. split; [reflexivity|]. left. split; [exact E|reflexivity].
Qed.

Lemma to_dict_keys_get keys o excl : NoDup keys ->
  (forall k, dget k (to_dict_keys keys o excl) =
     if existsb (eqb k) keys && negb (existsb (eqb k) excl) && negb (sentinel (conf (i_cls o)) (read o k Undefined))
     then Some (normalize (conf (i_cls o)) (read o k Undefined)) else None) /\
  NoDup (dkeys (to_dict_keys keys o excl)).
Proof.
  intros N. unfold ModelParams.to_dict_keys.
  assert (forall keys data, NoDup keys -> NoDup (dkeys data) -> (forall k, In k keys -> dget k data = None) ->
    let r := fold_left (fun data k => if existsb (eqb k) excl then data else
         let v := read o k Undefined in if sentinel (conf (i_cls o)) v then data else dset k (normalize (conf (i_cls o)) v) data) keys data in
    (forall k, dget k r = if existsb (eqb k) keys && negb (existsb (eqb k) excl) && negb (sentinel (conf (i_cls o)) (read o k Undefined))
       then Some (normalize (conf (i_cls o)) (read o k Undefined)) else dget k data) /\ NoDup (dkeys r)) as G.
  { clear N keys. induction keys as [|x keys IH]; intros data N ND FR; cbn [fold_left]; [split; [reflexivity|exact ND]|].
    inversion N as [|? ? NI N']; subst. cbn zeta.
    set (data' := if existsb (eqb x) excl then data else _).
    assert (forall k, dget k data' = if eqb k x && negb (existsb (eqb x) excl) && negb (sentinel (conf (i_cls o)) (read o x Undefined)) then Some (normalize (conf (i_cls o)) (read o x Undefined)) else dget k data) as D'.
    { intros k. unfold data'. destruct (existsb (eqb x) excl); [rewrite andb_false_r; reflexivity|].
      destruct (ModelParams.sentinel _ _ _ _ _); cbn [negb]; rewrite ?andb_false_r, ?andb_true_r; [reflexivity|]. rewrite dget_dset. destruct (eqb k x); reflexivity. }
    assert (NoDup (dkeys data')) as ND'.
    { unfold data'. destruct (existsb (eqb x) excl); [exact ND|]. destruct (ModelParams.sentinel _ _ _ _ _); [exact ND|]. apply dkeys_dset_NoDup. exact ND. }
    destruct (IH data' N' ND') as [I1 I2].
    { intros k I. rewrite D'. destruct (eqb_spec k x) as [->|_]; [contradiction|]. cbn. apply FR. right. exact I. }
    split; [|exact I2]. intros k. cbn [existsb]. rewrite I1, D'. destruct (eqb_spec k x) as [->|NE]; cbn [orb andb].
    - assert (existsb (eqb x) keys = false) as ->.
      { destruct (existsb (eqb x) keys) eqn:X; [|reflexivity]. apply existsb_str in X. contradiction. }
      reflexivity.
    - reflexivity. }
  destruct (G keys [] N) as [G1 G2]; [constructor|reflexivity|]. split; [exact G1|exact G2].
Qed.
End Params.
