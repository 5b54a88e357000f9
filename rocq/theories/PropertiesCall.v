(** Property C52 (arguments of a function call). *)
From Coq Require Import String.
From Coq Require Import List Bool Arith Lia.
From Verif Require Import PyBase PyFacts ModelCall SpecCall ProofsCall.
Import ListNotations.
Local Open Scope string_scope.
Local Open Scope nat_scope.
Local Open Scope list_scope.
#[local] Arguments eqb : simpl never.

(** A call whose arguments are literals: its positional arguments under numbered keys,
    then its keywords, the last one winning. *)
Theorem C52_parse : forall V f name (vs : list V) kvs,
  f = FName name \/ f = FAttr name ->
  exists d, parse_function_call (ECall f (map Ret vs) (map (fun p => (Some (fst p), Ret (snd p))) kvs)) = Ret (name, d) /\
    binds (positions vs ++ kvs) d /\
    (NoDup (map fst (positions vs ++ kvs)) -> d = positions vs ++ kvs).
Proof.
  intros V f name vs kvs F. exists (sets [] (positions vs ++ kvs)).
  assert (E : (match f with FName n => Ret n | FAttr n => Ret n | FOther => Raise ValueError end) = Ret name) by (destruct F; subst; auto).
  split; [|split; [apply binds_sets|intros N; apply (sets_fresh _ []); exact N]].
  cbn [parse_function_call]. rewrite E. cbn [bind]. rewrite (positional_spec _ 0 [] vs eq_refl). cbn [bind]. rewrite keyword_spec. cbn [bind].
  now rewrite sets_app.
Qed.
Print Assumptions C52_parse.

(** What it refuses: anything else.  Errors of literal evaluation other than ValueError
    come through as they are. *)
Theorem C52_parse_errors : forall V (e : expr V),
  match parse_function_call e with
  | Ret (name, d) => exists f vs kvs, e = ECall f (map Ret vs) (map (fun p => (Some (fst p), Ret (snd p))) kvs) /\ (f = FName name \/ f = FAttr name)
  | Raise x =>
      (x = ValueError /\ (e = ESyntaxError \/ e = ENotCall \/ exists f args kws, e = ECall f args kws /\ (f = FOther \/ In None (map fst kws)))) \/
      (exists f args kws, e = ECall f args kws /\ In (Raise x) (args ++ map snd kws))
  end.
Proof.
  intros V [| |f args kws]; cbn [parse_function_call]; auto.
  assert (C : f = FOther \/ exists name, (f = FName name \/ f = FAttr name) /\ (match f with FName n => Ret n | FAttr n => Ret n | FOther => Raise ValueError end) = Ret name)
    by (destruct f; eauto).
  destruct C as [->|(name & F & ->)]; cbn [bind].
  { left. split; auto. right. right. exists FOther, args, kws. auto. }
  pose proof (positional_error args 0 []) as P. destruct (positional 0 args []) as [d|x]; cbn [bind].
  - pose proof (keyword_error kws d) as K. destruct (keyword kws d) as [d'|x]; cbn [bind].
    + destruct P as (vs & ->). destruct K as (kvs & ->). exists f, vs, kvs. auto.
    + destruct K as [(-> & I)|I].
      * left. split; auto. right. right. exists f, args, kws. auto.
      * right. exists f, args, kws. split; auto. apply in_or_app. auto.
  - right. exists f, args, kws. split; auto. apply in_or_app. auto.
Qed.
Print Assumptions C52_parse_errors.

(** Mapping: special keys go to the parameters in order; the last binding of a name wins. *)
Theorem C52_map : forall V (arguments : list (string * V)) params,
  (exists l d, translates arguments params l /\ map_positional_args arguments params = Ret d /\ binds l d) \/
  (map_positional_args arguments params = Raise ValueError /\
   forall l, ~ translates arguments params l).
Proof.
  intros V l params. destruct (map_args_total l params []) as [(l' & T)|(R & L)].
  - left. exists l', (sets [] l'). split; auto. split; [now apply map_args_ok|apply binds_sets].
  - right. split; auto. intros l' T. apply translates_length in T. lia.
Qed.
Print Assumptions C52_map.

(** Too many positional arguments, and only that, is refused. *)
Theorem C52_map_raises : forall V (arguments : list (string * V)) params,
  (exists e, map_positional_args arguments params = Raise e) <->
  exists ks, length params < length ks /\ NoDup ks /\ forall i, In i ks -> exists k v, nth_error arguments i = Some (k, v) /\ special k.
Proof.
  intros V l params. destruct (map_args_total l params []) as [(l' & T)|(R & L)].
  - unfold map_positional_args. rewrite (map_args_ok _ _ _ _ T). split; [intros (e & E); discriminate|]. intros (ks & LT & N & S). exfalso.
    apply translates_length in T.
    assert (LE : length ks <= length (filter (fun p => String.prefix pos_prefix (fst p)) l)); [|lia].
    clear - N S. revert ks N S. induction l as [|(k, v) l IH]; intros ks N S.
    + destruct ks as [|i ks]; [simpl; lia|]. destruct (S i (or_introl eq_refl)) as (k & v & E & _). destruct i; discriminate.
    + set (ks' := map pred (filter (fun i => negb (Nat.eqb i 0)) ks)).
      assert (B : length ks' <= length (filter (fun p => String.prefix pos_prefix (fst p)) l)).
      { apply IH.
        - unfold ks'. assert (Q : forall ks, NoDup ks -> NoDup (map pred (filter (fun i => negb (Nat.eqb i 0)) ks))).
          { clear. induction ks as [|[|i] ks IH]; intros N; cbn [filter map Nat.eqb negb]; [constructor| |]; apply NoDup_cons_iff in N; destruct N as (N1 & N2); auto.
            constructor; auto. intros I. apply in_map_iff in I. destruct I as ([|j] & E & I); apply filter_In in I; destruct I as (I & J); [discriminate|].
            simpl in E. subst. auto. }
          apply Q, N.
        - intros i I. unfold ks' in I. apply in_map_iff in I. destruct I as ([|j] & E & I); apply filter_In in I; destruct I as (I & J); [discriminate|].
          simpl in E. subst. apply S in I. destruct I as (k' & v' & E & SP). exists k', v'. auto. }
      assert (C : length ks <= (if existsb (Nat.eqb 0) ks then 1 else 0) + length ks').
      { unfold ks'. rewrite map_length. clear - N. induction ks as [|[|i] ks IH]; [simpl; lia| |]; apply NoDup_cons_iff in N; destruct N as (N1 & N2); specialize (IH N2);
          [change (existsb (Nat.eqb 0) (0 :: ks)) with true; change (filter (fun i => negb (Nat.eqb i 0)) (0 :: ks)) with (filter (fun i => negb (Nat.eqb i 0)) ks)
          |change (existsb (Nat.eqb 0) (Datatypes.S i :: ks)) with (existsb (Nat.eqb 0) ks); change (filter (fun i => negb (Nat.eqb i 0)) (Datatypes.S i :: ks)) with (Datatypes.S i :: filter (fun i => negb (Nat.eqb i 0)) ks)]; cbn [length].
        - destruct (existsb (Nat.eqb 0) ks) eqn:Z; [|lia]. exfalso. apply N1. apply existsb_exists in Z. destruct Z as (z & Iz & Ez). apply Nat.eqb_eq in Ez. now subst.
        - lia. }
      cbn [filter fst]. destruct (existsb (Nat.eqb 0) ks) eqn:Z.
      * apply existsb_exists in Z. destruct Z as (z & Iz & Ez). apply Nat.eqb_eq in Ez. subst z. apply S in Iz. destruct Iz as (k' & v' & E & SP). injection E as <- <-.
        apply prefix_special in SP. rewrite SP. simpl. lia.
      * destruct (String.prefix pos_prefix k); simpl; lia.
  - split; [intros _|eauto].
    assert (G : exists ks, length ks = length (filter (fun p => String.prefix pos_prefix (fst p)) l) /\ NoDup ks /\ forall i, In i ks -> exists k v, nth_error l i = Some (k, v) /\ special k).
    { clear. induction l as [|(k, v) l (ks & E & N & S)]; [exists []; simpl; split; auto; split; [constructor|tauto]|]. cbn [filter fst].
      assert (N' : NoDup (map Datatypes.S ks)) by (apply FinFun.Injective_map_NoDup; auto; intros a b [= H]; auto).
      assert (S' : forall i, In i (map Datatypes.S ks) -> exists k0 v0, nth_error ((k, v) :: l) i = Some (k0, v0) /\ special k0).
      { intros i I. apply in_map_iff in I. destruct I as (j & <- & I). apply S; auto. }
      destruct (String.prefix pos_prefix k) eqn:P.
      - exists (0 :: map Datatypes.S ks). split; [simpl; rewrite map_length; lia|]. split.
        + constructor; auto. intros I. apply in_map_iff in I. destruct I as (j & E' & _). discriminate.
        + intros i [<-|I]; auto. exists k, v. split; auto. now apply prefix_special.
      - exists (map Datatypes.S ks). rewrite map_length. auto. }
    destruct G as (ks & E & N & S). exists ks. rewrite E. auto.
Qed.
Print Assumptions C52_map_raises.

(** Parsing and mapping together: as Python itself binds the arguments of a call. *)
Theorem C52_call : forall V f name (vs : list V) kvs params,
  f = FName name \/ f = FAttr name ->
  NoDup params -> NoDup (map fst kvs) -> (forall k, In k (map fst kvs) -> ~ special k) ->
  (forall k, In k (map fst kvs) -> ~ In k (firstn (length vs) params)) ->
  length vs <= length params ->
  exists d, parse_function_call (ECall f (map Ret vs) (map (fun p => (Some (fst p), Ret (snd p))) kvs)) = Ret (name, d) /\
    map_positional_args d params = Ret (combine params vs ++ kvs).
Proof.
  intros V f name vs kvs params F NP NK SP DJ LE.
  assert (PK : map fst (positions vs) = map pos_key (seq 0 (length vs))).
  { unfold positions. assert (L : length (map pos_key (seq 0 (length vs))) = length vs) by (rewrite map_length; apply seq_length).
    revert L. generalize (map pos_key (seq 0 (length vs))). clear. induction vs as [|v vs IH]; intros [|p ps] L; simpl in *; try discriminate; auto. f_equal. auto. }
  assert (N : NoDup (map fst (positions vs ++ kvs))).
  { rewrite map_app, PK. assert (NS : NoDup (map pos_key (seq 0 (length vs)))) by (apply FinFun.Injective_map_NoDup; [exact pos_key_inj|apply seq_NoDup]).
    assert (DS : forall x, In x (map pos_key (seq 0 (length vs))) -> ~ In x (map fst kvs)).
    { intros x I J. apply (SP x J). apply in_map_iff in I. destruct I as (i & <- & _). eexists. reflexivity. }
    clear - NS DS NK. induction (map pos_key (seq 0 (length vs))) as [|x l IH]; auto. simpl. apply NoDup_cons_iff in NS. destruct NS as (A & B). constructor.
    - intros I. apply in_app_or in I. destruct I as [I|I]; auto. apply (DS x); simpl; auto.
    - apply IH; auto. intros y I. apply DS. simpl; auto. }
  destruct (C52_parse V f name vs kvs F) as (d & E & _ & D). exists d. split; auto. rewrite (D N).
  assert (T : translates (positions vs ++ kvs) params (combine params vs ++ kvs)).
  { unfold positions. generalize 0. clear - LE SP. revert params LE. induction vs as [|v vs IH]; intros params LE n.
    - destruct params; simpl; induction kvs as [|(k, v) kvs IHk]; constructor; try (apply SP; simpl; auto); apply IHk; intros; apply SP; simpl; auto.
    - destruct params as [|p params]; [simpl in LE; lia|]. simpl. constructor; [eexists; reflexivity|]. apply IH. simpl in LE. lia. }
  unfold map_positional_args. rewrite (map_args_ok _ _ _ _ T). f_equal. apply (sets_fresh _ []). cbn [app].
  rewrite map_app. assert (CK : map fst (combine params vs) = firstn (length vs) params).
  { clear - LE. revert params LE. induction vs as [|v vs IH]; intros [|p ps] L; simpl in *; try lia; auto. f_equal. apply IH. lia. }
  rewrite CK. assert (NF : NoDup (firstn (length vs) params)).
  { clear - NP. revert params NP. induction (length vs) as [|n IH]; intros [|p ps] N; simpl; try constructor; apply NoDup_cons_iff in N; destruct N as (A & B); auto.
    intros I. apply A. clear - I. revert ps I. induction n as [|n IH]; intros [|q ps] I; simpl in *; try contradiction. destruct I; auto. }
  clear - NF DJ NK. assert (DJ' : forall x, In x (firstn (length vs) params) -> ~ In x (map fst kvs)) by (intros x I J; apply (DJ x); auto). clear DJ.
  induction (firstn (length vs) params) as [|x l IH]; auto. simpl. apply NoDup_cons_iff in NF. destruct NF as (A & B). constructor.
  - intros I. apply in_app_or in I. destruct I as [I|I]; auto. apply (DJ' x); simpl; auto.
  - apply IH; auto. intros y I. apply DJ'. simpl; auto.
Qed.
Print Assumptions C52_call.

(** Nesting, as a lookup table: under a field that owns arguments, the dict of exactly
    these, in order; under any other name that no field owns, the argument itself. *)
Theorem C52_nest : forall V (arguments : list (string * V)) s,
  NoDup (map fst arguments) ->
  let r := nest_arguments_by_schema arguments (Some s) in
  NoDup (dkeys r) /\
  (forall f g, dget f r = Some (RGroup g) <->
     (exists k v, In (k, v) arguments /\ owner s k f) /\ (exists p, g = filter p arguments /\ forall k v, p (k, v) = true <-> owner s k f)) /\
  (forall k v, dget k r = Some (RVal v) <->
     In (k, v) arguments /\ (forall f, ~ owner s k f) /\ (forall k' v', In (k', v') arguments -> ~ owner s k' k)).
Proof.
  intros V l s N r. destruct (nest_get s l N) as (NR & G). fold r in NR, G.
  set (P := fun f (p : string * V) => match ownerb s (fst p) with Some g => String.eqb g f | None => false end).
  assert (PO : forall f k v, P f (k, v) = true <-> owner s k f).
  { intros f k v. rewrite <- ownerb_spec. unfold P. cbn [fst]. destruct (ownerb s k) as [g|]; [|split; discriminate].
    rewrite String.eqb_eq. split; congruence. }
  assert (OW : forall f, owned s f l = filter (P f) l) by reflexivity.
  split; auto. split.
  - intros f g. rewrite G. split.
    + intros E. assert (E' : owned s f l = g /\ g <> []).
      { destruct (owned s f l); [destruct (ownerb s f); [discriminate|]; destruct (dget f l); discriminate|]. injection E as <-. split; auto. discriminate. }
      destruct E' as (<- & NE). split.
      * destruct (owned s f l) as [|(k, v) o] eqn:Q; [congruence|]. exists k, v. assert (I : In (k, v) (filter (P f) l)) by (rewrite <- OW, Q; simpl; auto).
        apply filter_In in I. destruct I as (I & J). split; auto. eapply PO; eauto.
      * exists (P f). split; auto.
    + intros ((k & v & I & O) & p & -> & PP).
      assert (FE : filter p l = owned s f l).
      { rewrite OW. apply filter_ext. intros (k', v'). apply eq_true_iff_eq. rewrite PP, PO. tauto. }
      rewrite FE. assert (J : In (k, v) (owned s f l)) by (rewrite OW; apply filter_In; split; auto; apply PO; auto).
      destruct (owned s f l); [contradiction|auto].
  - intros k v. rewrite G. split.
    + intros E. destruct (owned s k l) eqn:Q; [|discriminate]. destruct (ownerb s k) eqn:O; [discriminate|].
      destruct (dget k l) as [w|] eqn:D; [|discriminate]. injection E as ->. apply dget_In in D. split; auto. split.
      * intros f H. apply ownerb_spec in H. congruence.
      * intros k' v' I H. assert (J : In (k', v') (owned s k l)) by (rewrite OW; apply filter_In; split; auto; apply PO; auto). rewrite Q in J. contradiction.
    + intros (I & NO & NK). destruct (owned s k l) as [|(k', v') o] eqn:Q.
      * destruct (ownerb s k) eqn:O; [apply ownerb_spec in O; exfalso; eapply NO; eauto|]. now rewrite (In_dget k v l).
      * exfalso. assert (J : In (k', v') (filter (P k) l)) by (rewrite <- OW, Q; simpl; auto). apply filter_In in J. destruct J as (J1 & J2). apply PO in J2. eapply NK; eauto.
Qed.
Print Assumptions C52_nest.

(** Nothing is lost unless an argument names a field that also owns other arguments. *)
Theorem C52_conserved : forall V (arguments : list (string * V)) s k v,
  NoDup (map fst arguments) -> In (k, v) arguments ->
  (forall k' v', In (k', v') arguments -> ~ owner s k' k) ->
  In (k, RVal v) (nest_arguments_by_schema arguments (Some s)) \/
  exists f g, In (f, RGroup g) (nest_arguments_by_schema arguments (Some s)) /\ In (k, v) g.
Proof.
  intros V l s k v N I NK. destruct (C52_nest V l s N) as (NR & G & R).
  destruct (ownerb s k) as [f|] eqn:O.
  - right. apply ownerb_spec in O as O'. exists f, (owned s f l). split.
    + apply dget_In, G. split; [eauto|]. eexists. split; [reflexivity|]. intros k' v'. rewrite <- ownerb_spec. cbn [fst].
      destruct (ownerb s k'); [|split; discriminate]. rewrite String.eqb_eq. split; congruence.
    + apply filter_In. cbn [fst]. rewrite O. split; auto. apply String.eqb_refl.
  - left. apply dget_In, R. split; auto. split; auto. intros f H. apply ownerb_spec in H. congruence.
Qed.
Print Assumptions C52_conserved.
Theorem C52_no_schema : forall V (arguments : list (string * V)),
  nest_arguments_by_schema arguments None = map (fun p => (fst p, RVal (snd p))) arguments.
Proof. reflexivity. Qed.
Print Assumptions C52_no_schema.

(** f(1, a=2) with parameters (a, b): the keyword replaces the positional argument. *)
Theorem C52_duplicate_refused_refuted : exists d,
  parse_function_call (ECall (FName "f") [Ret 1] [(Some "a", Ret 2)]) = Ret ("f", d) /\
  map_positional_args d ["a"; "b"] = Ret [("a", 2)].
Proof. eexists. split; reflexivity. Qed.
Print Assumptions C52_duplicate_refused_refuted.
(** f(x=1, x=2), refused by Python itself, is taken as f(x=2). *)
Theorem C52_repeated_keyword_refused_refuted :
  parse_function_call (ECall (FName "f") [] [(Some "x", Ret 1); (Some "x", Ret 2)]) = Ret ("f", [("x", 2)]).
Proof. reflexivity. Qed.
Print Assumptions C52_repeated_keyword_refused_refuted.
(** f(_pos_x=1) with parameters (a): the keyword is taken for a positional argument. *)
Theorem C52_keyword_kept_refuted : exists d,
  parse_function_call (ECall (FName "f") [] [(Some "_pos_x", Ret 1)]) = Ret ("f", d) /\ map_positional_args d ["a"] = Ret [("a", 1)].
Proof. eexists. split; reflexivity. Qed.
Print Assumptions C52_keyword_kept_refuted.
(** An explicit value for a nested field is lost when another argument belongs to that field. *)
Theorem C52_explicit_kept_refuted :
  nest_arguments_by_schema [("opts", 1); ("x", 2)] (Some [("opts", AModel ["x"])]) = [("opts", RGroup [("x", 2)])].
Proof. reflexivity. Qed.
Print Assumptions C52_explicit_kept_refuted.
(** M | None and Optional[M], equal in Python, are treated differently. *)
Theorem C52_optional_like_union_refuted :
  nest_arguments_by_schema [("x", 2)] (Some [("opts", APipeUnion [AModel ["x"]; AOther])]) = [("opts", RGroup [("x", 2)])] /\
  nest_arguments_by_schema [("x", 2)] (Some [("opts", ATypingUnion [AModel ["x"]; AOther])]) = [("x", RVal 2)].
Proof. split; reflexivity. Qed.
Print Assumptions C52_optional_like_union_refuted.

(** client.search(7, 8, limit=5) with parameters (query, page, limit); then nesting. *)
Example C52_example :
  let e := ECall (FAttr "search") [Ret 7; Ret 8] [(Some "limit", Ret 5)] in
  parse_function_call e = Ret ("search", [("_pos_0", 7); ("_pos_1", 8); ("limit", 5)]) /\
  map_positional_args [("_pos_0", 7); ("_pos_1", 8); ("limit", 5)] ["query"; "page"; "limit"] = Ret [("query", 7); ("page", 8); ("limit", 5)] /\
  map_positional_args [("_pos_0", 7); ("_pos_1", 8)] ["query"] = Raise ValueError /\
  nest_arguments_by_schema [("query", 7); ("page", 8); ("limit", 5); ("odd", 9)]
     (Some [("query", AOther); ("range", AModel ["page"; "limit"; "query"]); ("other", APipeUnion [AModel ["limit"]; AOther])])
   = [("query", RVal 7); ("odd", RVal 9); ("range", RGroup [("page", 8); ("limit", 5)])] /\
  parse_function_call (ECall (FName "f") [Raise TypeError] []) = Raise TypeError (A := string * dict string nat).
Proof. repeat split. Qed.
