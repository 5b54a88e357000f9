(** Proofs about reference resolution. *)
From Coq Require Import String.
From Coq Require Import List Bool Arith Lia ZArith.
From Verif Require Import PyBase PyFacts ModelLexer ModelParser SpecParser ProofsParser ModelResolver SpecResolver.
Import ListNotations.
Local Open Scope string_scope.
Local Open Scope nat_scope.
Local Open Scope list_scope.
#[local] Arguments eqb : simpl never.

Section Resolver.
Variables (V W : Type) (vbool : bool -> V) (vnone : V) (vstr vfloat : text -> V) (vint : Z -> V).
Variables (literal : text -> outcome V) (conv : scalar -> V -> outcome V) (call : text -> outcome (text * V)) (uspace : nat -> bool).
Variables (validate : text -> dict text V -> outcome W) (construct : text -> dict text (arg V) -> W).
Notation parse_value := (parse_value V vbool vnone vstr literal uspace).
Notation means := (means V vbool vnone vstr literal uspace).
Notation make := (make V call).
Notation convert := (convert V W conv).
Notation plain_value := (plain_value V vbool vnone vstr vfloat vint literal uspace).

Lemma means_iff s v : means s v <-> parse_value s = Ret v.
Proof.
  unfold ModelResolver.parse_value.
  assert (forall c, trimmed (isspace uspace) s c -> c = strip uspace s) as TS by (intros c T; symmetry; apply trimmed_strip; assumption).
  pose proof (strip_trimmed uspace s) as ST. revert TS ST. generalize (strip uspace s). intros c0 TS ST. split.
  - intros M. destruct M as [c T E|c T E|c T E|c v T N1 N2 N3 L|c T N1 N2 N3 L]; apply TS in T; subst c0.
    + apply case_iff in E; [|cbn; auto]. rewrite E. reflexivity.
    + apply case_iff in E; [|cbn; auto]. rewrite E. reflexivity.
    + apply case_iff in E; [|cbn; auto]. rewrite E. reflexivity.
    + destruct (case_spec "true" c ltac:(cbn; auto)); [exfalso; auto|].
      destruct (case_spec "false" c ltac:(cbn; auto)); [exfalso; auto|].
      destruct (case_spec "null" c ltac:(cbn; auto)); [exfalso; auto|]. rewrite L. reflexivity.
    + destruct (case_spec "true" c ltac:(cbn; auto)); [exfalso; auto|].
      destruct (case_spec "false" c ltac:(cbn; auto)); [exfalso; auto|].
      destruct (case_spec "null" c ltac:(cbn; auto)); [exfalso; auto|]. rewrite L. reflexivity.
  - destruct (case_spec "true" c0 ltac:(cbn; auto)) as [E1|E1].
    { intros H. injection H as <-. eapply mn_true; eauto. }
    destruct (case_spec "false" c0 ltac:(cbn; auto)) as [E2|E2].
    { intros H. injection H as <-. eapply mn_false; eauto. }
    destruct (case_spec "null" c0 ltac:(cbn; auto)) as [E3|E3].
    { intros H. injection H as <-. eapply mn_null; eauto. }
    destruct (literal c0) as [x|e] eqn:L.
    + intros H. injection H as <-. eapply mn_literal; eauto.
    + destruct e; try discriminate. intros H. injection H as <-. eapply mn_text; eauto.
Qed.

Section Declared.
Variables (lv : dict text lmeta) (la : dict text ameta).
Notation collect := (collect V vbool vnone vstr literal call uspace lv la).
Notation field := (field V W vbool vnone vstr vfloat vint literal conv call uspace validate construct lv la).
Notation action_of := (action_of V call la).
Notation arg_of := (arg_of V vbool vnone vstr literal call uspace lv la).
Notation builds := (builds V W validate construct).
Notation resolves := (resolves V W vbool vnone vstr vfloat vint literal conv call uspace validate construct lv la).
Notation denotes := (denotes V vbool vnone vstr vfloat vint literal uspace).

Lemma make_iff a m c : dget a la = Some m -> (make a m = Ret c <-> action_of a c).
Proof.
  intros D. unfold ModelResolver.make, SpecResolver.action_of. split.
  - destruct (call (am_call m)) as [[f x]|] eqn:E; [|discriminate]. intros H. injection H as <-. eauto 8.
  - intros (m' & fn & x & D' & E & ->). assert (m' = m) as -> by congruence. rewrite E. reflexivity.
Qed.
Lemma action_of_fun a c c' : action_of a c -> action_of a c' -> c = c'.
Proof. intros (m & fn & x & D & E & ->) (m' & fn' & x' & D' & E' & ->). congruence. Qed.

(** The table of actions after collecting those named in l. *)
Fixpoint table (l : list text) (acts : dict text (action V)) : dict text (action V) :=
  match l with
  | [] => acts
  | a :: l =>
      match dget a la with
      | Some m => match make a m with Ret c => table l (dset a c acts) | Raise _ => table l acts end
      | None => table l acts
      end
  end.
Lemma table_app l l' acts : table (l ++ l') acts = table l' (table l acts).
Proof.
  revert acts. induction l as [|a l IH]; intros acts; [reflexivity|]. cbn [app table].
  destruct (dget a la); [destruct (make a a0)|]; apply IH.
Qed.

Lemma collect_ok n refs kw acts r acts' :
  collect n refs kw acts = (r, acts') ->
  (forall kw', r = Ret kw' -> exists args, Forall2 (arg_of n) refs args /\
     kw' = fold_left (fun d e => dset (fst e) (snd e) d) args kw /\ acts' = table refs acts) /\
  (forall e, r = Raise e -> forall args, ~ Forall2 (arg_of n) refs args).
Proof.
  revert kw acts. induction refs as [|a refs IH]; intros kw acts; cbn [ModelResolver.collect].
  - intros H. injection H as <- <-. split; [|discriminate]. intros kw' H. injection H as <-. exists []. repeat split. constructor.
  - assert (forall e, (forall x, ~ arg_of n a x) -> (Raise e, acts) = (r, acts') ->
      (forall kw', r = Ret kw' -> exists args, Forall2 (arg_of n) (a :: refs) args /\
         kw' = fold_left (fun d e => dset (fst e) (snd e) d) args kw /\ acts' = table (a :: refs) acts) /\
      (forall e, r = Raise e -> forall args, ~ Forall2 (arg_of n) (a :: refs) args)) as BAD.
    { intros e N H. injection H as <- <-. split; [discriminate|]. intros e' _ args F. inversion F; subst. eapply N; eauto. }
    destruct (dget a la) as [m|] eqn:DA.
    + destruct (am_target m) as [[mo f]|] eqn:T.
      * destruct (eqb_spec mo n) as [->|NE].
        -- destruct (make a m) as [c|e] eqn:MK.
           ++ intros H. apply IH in H as [H1 H2]. apply (make_iff a m c DA) in MK. split.
              ** intros kw' E. destruct (H1 _ E) as (args & F & -> & ->). exists ((f, AAct c) :: args). split; [|split; [reflexivity|]].
                 --- constructor; [|assumption]. eapply ao_act; eauto.
                 --- cbn [table]. rewrite DA. rewrite (proj2 (make_iff a m c DA) MK). reflexivity.
              ** intros e E args F. inversion F; subst. eapply H2; eauto.
           ++ apply BAD. intros x X. inversion X as [|m' f' c D' T' A]; subst; [congruence|]. apply (make_iff a m c DA) in A. congruence.
        -- apply BAD. intros x X. inversion X; subst; congruence.
      * apply BAD. intros x X. inversion X; subst; congruence.
    + destruct (dget a lv) as [[mo f v|v]|] eqn:DV.
      * destruct (eqb_spec mo n) as [->|NE].
        -- destruct (parse_value v) as [x|e] eqn:PV.
           ++ intros H. apply IH in H as [H1 H2]. split.
              ** intros kw' E. destruct (H1 _ E) as (args & F & -> & ->). exists ((f, AVal x) :: args). split; [|split; [reflexivity|]].
                 --- constructor; [|assumption]. eapply ao_var; eauto. apply means_iff. assumption.
                 --- cbn [table]. rewrite DA. reflexivity.
              ** intros e E args F. inversion F; subst. eapply H2; eauto.
           ++ apply BAD. intros x X. inversion X as [f' v' x' D' L' M|]; subst; [|congruence].
              assert (v' = v) as -> by congruence. apply means_iff in M. congruence.
        -- apply BAD. intros x X. inversion X; subst; congruence.
      * apply BAD. intros x X. inversion X; subst; congruence.
      * apply BAD. intros x X. inversion X; subst; congruence.
Qed.
Lemma arg_of_fun n a x y : arg_of n a x -> arg_of n a y -> x = y.
Proof.
  intros X Y. inversion X as [f v u D L M|m f c D T A]; subst; inversion Y as [f' v' u' D' L' M'|m' f' c' D' T' A']; subst; try congruence.
  - apply means_iff in M, M'. congruence.
  - assert (m' = m) as -> by congruence. assert (f' = f) as -> by congruence. pose proof (action_of_fun _ _ _ A A'). congruence.
Qed.
Lemma args_fun n refs xs ys : Forall2 (arg_of n) refs xs -> Forall2 (arg_of n) refs ys -> xs = ys.
Proof.
  intros F. revert ys. induction F as [|a x refs xs A F IH]; intros ys G; inversion G; subst; [reflexivity|].
  f_equal; [eapply arg_of_fun; eauto|apply IH; assumption].
Qed.

Lemma vals_map kw : existsb (is_action V) (dvals kw) = false -> kw = map (fun e => (fst e, AVal (snd e))) (vals V kw).
Proof.
  induction kw as [|[f [v|c]] kw IH]; cbn; [reflexivity| |discriminate]. intros H. f_equal. apply IH. assumption.
Qed.
Lemma map_vals d : vals V (map (fun e => (fst e, AVal (snd e))) d) = d /\ existsb (is_action V) (dvals (map (fun e => (fst e, AVal (snd e))) d)) = false.
Proof. induction d as [|[f v] d [IH1 IH2]]; cbn; [auto|]. rewrite IH1. auto. Qed.
Lemma instance_iff n kw w : instance V W validate construct n kw = Ret w <-> builds n kw w.
Proof.
  unfold instance. split.
  - destruct (existsb (is_action V) (dvals kw)) eqn:E.
    + intros H. injection H as <-. apply existsb_exists in E as (x & I & X). destruct x as [v|c]; [discriminate|].
      unfold dvals in I. apply in_map_iff in I as ([f x] & EX & I). cbn in EX. subst x. eapply bu_partial; eauto.
    + intros H. eapply bu_full; [apply vals_map; assumption|assumption].
  - intros B. destruct B as [d w -> H|f c I].
    + destruct (map_vals d) as [-> ->]. assumption.
    + assert (existsb (is_action V) (dvals kw) = true) as ->; [|reflexivity].
      apply existsb_exists. exists (AAct c). split; [|reflexivity]. apply (in_map snd) in I. exact I.
Qed.
Lemma chain_iff l w w' : apply_validators W l w = Ret w' <-> chain W l w w'.
Proof.
  revert w. induction l as [|f l IH]; intros w; cbn [apply_validators].
  - split; [intros H; injection H as <-; constructor|intros H; inversion H; reflexivity].
  - split.
    + destruct (f w) eqn:E; [|discriminate]. intros H. econstructor; [exact E|]. apply IH. assumption.
    + intros H. inversion H; subst. rewrite H2. apply IH. assumption.
Qed.
Lemma convert_iff s r y : convert s r = Ret y <-> exists x z, r = Ret x /\ conv s x = Ret z /\ y = FVal z.
Proof.
  unfold ModelResolver.convert. split.
  - destruct r as [x|]; [|discriminate]. destruct (conv s x) as [z|e] eqn:E; [|destruct e; discriminate].
    intros H. injection H as <-. eauto.
  - intros (x & z & -> & -> & ->). reflexivity.
Qed.
Lemma denotes_iff v x : match v with ORefs _ => True | _ => denotes v x <-> plain_value v = Ret x end.
Proof.
  destruct v; cbn; [exact I| | | |]; try (split; [intros H; inversion H; reflexivity|intros H; injection H as <-; constructor]).
  split; [intros H; inversion H; subst; apply means_iff; assumption|]. intros H. constructor. apply means_iff. assumption.
Qed.

Definition refs_of (v : oval) : list text := match v with ORefs l => l | _ => [] end.
Lemma field_ok sp v acts r acts' :
  field sp v acts = (r, acts') ->
  (forall x, r = Ret x <-> resolves sp v x) /\ (forall x, r = Ret x -> acts' = table (refs_of v) acts).
Proof.
  assert (forall x refs, sp_type sp <> TOther -> forall n, sp_type sp = TModel n -> ~ direct la refs ->
            (resolves sp (ORefs refs) x <-> exists args w w', Forall2 (arg_of n) refs args /\ builds n (dict_from args) w /\
               chain W (sp_validators sp) w w' /\ x = FInst w')) as RM.
  { intros x refs _ n T ND. split.
    - intros R. inversion R as [s a c T' A|s a m u y T' D D' M C|s v' u y T' DN C|n' a c T' D A|n' rf args w w' T' ND' F B C]; subst; try congruence; try contradiction.
      assert (n' = n) as -> by congruence. eauto 8.
    - intros (args & w & w' & F & B & C & ->). eapply rs_model; eauto. }
  assert (forall (refs : list text) n, sp_type sp = TModel n -> ~ direct la refs ->
      (match collect n refs [] acts with
       | (Ret kw, acts) => (match instance V W validate construct n kw with
           | Ret w => match apply_validators W (sp_validators sp) w with Ret w => Ret (FInst w) | Raise e => Raise e end
           | Raise e => Raise e end, acts)
       | (Raise e, acts) => (Raise e, acts) end) = (r, acts') ->
      (forall x, r = Ret x <-> resolves sp (ORefs refs) x) /\ (forall x, r = Ret x -> acts' = table refs acts)) as GEN.
  { intros refs n T ND H. destruct (collect n refs [] acts) as [[kw|e] acts2] eqn:CO; pose proof (collect_ok _ _ _ _ _ _ CO) as [K1 K2].
    - destruct (K1 _ eq_refl) as (args & F & -> & ->). fold (dict_from args) in H. injection H as <- <-. split; [|reflexivity].
      intros x. rewrite (RM x refs) with (n := n) by congruence. split.
      + destruct (instance V W validate construct n (dict_from args)) as [w|] eqn:IN; [|discriminate].
        destruct (apply_validators W (sp_validators sp) w) as [w'|] eqn:AV; [|discriminate]. intros H. injection H as <-.
        exists args, w, w'. split; [assumption|]. split; [apply instance_iff; assumption|]. split; [apply chain_iff; assumption|reflexivity].
      + intros (args' & w & w' & F' & B & C & ->). rewrite (args_fun _ _ _ _ F F') in *. apply instance_iff in B. rewrite B.
        apply chain_iff in C. rewrite C. reflexivity.
    - injection H as <- <-. split; [|discriminate]. intros x. split; [discriminate|]. intros R. exfalso.
      apply (RM x refs) with (n := n) in R; [|congruence|assumption|assumption]. destruct R as (args & w & w' & F & _).
      eapply K2; eauto. }
  unfold ModelResolver.field. destruct (sp_type sp) as [s|n|] eqn:T.
  - assert (forall x, match v with ORefs _ => True | _ => convert s (plain_value v) = Ret x <-> resolves sp v x end) as LIT.
    { intros x. pose proof (fun u => denotes_iff v u) as DI. destruct v as [l|u|u|u|u]; [exact I| | | |];
      (rewrite convert_iff; split;
        [intros (y & z & E & C & ->); eapply rs_literal; eauto; apply DI; assumption
        |intros R; inversion R; subst; try congruence; assert (s0 = s) as -> by congruence;
         do 2 eexists; split; [apply DI; eassumption|split; [eassumption|reflexivity]]]). }
    destruct v as [l|u|u|u|u]; try (intros H; injection H as <- <-; split; [apply LIT|reflexivity]).
    destruct l as [|a [|b l]].
    + intros H. injection H as <- <-. split; [|discriminate]. intros x. split; [discriminate|].
      intros R. inversion R as [s1 a1 c1 T1 A1|s1 a1 m1 x1 y1 T1 D1 L1 M1 C1|s1 v1 x1 y1 T1 DN1 C1|n1 a1 c1 T1 D1 A1|n1 r1 l1 w1 w2 T1 D1 F1 B1 C1]; subst; try congruence; try contradiction. inversion DN1.
    + destruct (dget a la) as [m|] eqn:DA.
      * cbn [refs_of table]. rewrite DA. destruct (make a m) as [c|e] eqn:MK; intros H; injection H as <- <-; (split; [|try reflexivity; try discriminate]).
        -- apply (make_iff a m c DA) in MK. intros x. split.
           ++ intros H. injection H as <-. eapply rs_action; eauto.
           ++ intros R. inversion R as [s1 a1 c1 T1 A1|s1 a1 m1 x1 y1 T1 D1 L1 M1 C1|s1 v1 x1 y1 T1 DN1 C1|n1 a1 c1 T1 D1 A1|n1 r1 l1 w1 w2 T1 D1 F1 B1 C1]; subst; try congruence; try contradiction; [pose proof (action_of_fun _ _ _ MK A1); congruence|inversion DN1].
        -- intros x. split; [discriminate|]. intros R. inversion R as [s1 a1 c1 T1 A1|s1 a1 m1 x1 y1 T1 D1 L1 M1 C1|s1 v1 x1 y1 T1 DN1 C1|n1 a1 c1 T1 D1 A1|n1 r1 l1 w1 w2 T1 D1 F1 B1 C1]; subst; try congruence; try contradiction; [|inversion DN1]. apply (make_iff a m c1 DA) in A1. congruence.
      * cbn [refs_of table]. rewrite DA.
        assert (forall x, resolves sp (ORefs [a]) x <-> exists m y z, dget a lv = Some m /\ means (meta_text m) y /\ conv s y = Ret z /\ x = FVal z) as RV.
        { intros x. split.
          - intros R. inversion R as [s' a' c T' (m & fn & xx & D & _)|s' a' m u y T' D D' M C|s' v' u y T' DN C| |]; subst; try congruence.
            + assert (s' = s) as -> by congruence. eauto 8.
            + inversion DN.
          - intros (m & y & z & D & M & C & ->). eapply rs_var; eauto. }
        assert (forall v0, convert s (parse_value v0) = r -> forall x, r = Ret x <-> exists y z, means v0 y /\ conv s y = Ret z /\ x = FVal z) as CV.
        { intros v0 <- x. rewrite convert_iff. split; intros (y & z & E & C & ->); exists y, z; (split; [apply means_iff; assumption|auto]). }
        destruct (dget a lv) as [m|] eqn:DV.
        -- assert ((convert s (parse_value (meta_text m)), acts) = (r, acts') -> (forall x, r = Ret x <-> resolves sp (ORefs [a]) x) /\
              (forall x, r = Ret x -> acts' = acts)) as G.
           { intros H. injection H as E <-. split; [|reflexivity]. intros x. rewrite RV, (CV _ E). split.
             - intros (y & z & M & C & ->). exists m, y, z. auto.
             - intros (m' & y & z & D & M & C & ->). injection D as <-. eauto. }
           destruct m; exact G.
        -- intros H. injection H as <- <-. split; [|discriminate]. intros x. split; [discriminate|].
           intros R. apply RV in R as (m & y & z & D & _). discriminate.
    + intros H. injection H as <- <-. split; [|discriminate]. intros x. split; [discriminate|].
      intros R. inversion R as [s1 a1 c1 T1 A1|s1 a1 m1 x1 y1 T1 D1 L1 M1 C1|s1 v1 x1 y1 T1 DN1 C1|n1 a1 c1 T1 D1 A1|n1 r1 l1 w1 w2 T1 D1 F1 B1 C1]; subst; try congruence; try contradiction. inversion DN1.
  - destruct v as [refs|u|u|u|u]; try (intros H; injection H as <- <-; split; [|discriminate]; intros x; (split; [discriminate|]); intros R; inversion R; subst; congruence).
    cbn [refs_of]. destruct refs as [|a [|b l]].
    + apply GEN; [reflexivity|]. intros (a & m & E & _). discriminate.
    + destruct (dget a la) as [m|] eqn:DA.
      * destruct (am_target m) as [tg|] eqn:TG.
        -- apply GEN; [reflexivity|]. intros (a' & m' & E & D & N). injection E as <-. congruence.
        -- cbn [table]. rewrite DA.
           assert (direct la [a]) as DI by (exists a, m; auto).
           destruct (make a m) as [c|e] eqn:MK; intros H; injection H as <- <-; (split; [|try reflexivity; try discriminate]).
           ++ apply (make_iff a m c DA) in MK. intros x. split.
              ** intros H. injection H as <-. eapply rs_direct; eauto.
              ** intros R. inversion R as [s1 a1 c1 T1 A1|s1 a1 m1 x1 y1 T1 D1 L1 M1 C1|s1 v1 x1 y1 T1 DN1 C1|n1 a1 c1 T1 D1 A1|n1 r1 l1 w1 w2 T1 D1 F1 B1 C1]; subst; try congruence; try contradiction. pose proof (action_of_fun _ _ _ MK A1); congruence.
           ++ intros x. split; [discriminate|]. intros R. inversion R as [| | |n' a' c T' D' A|]; subst; try congruence; try contradiction.
              apply (make_iff a m c DA) in A. congruence.
      * apply GEN; [reflexivity|]. intros (a' & m' & E & D & N). injection E as <-. congruence.
    + apply GEN; [reflexivity|]. intros (a' & m' & E & _). discriminate.
  - destruct v; intros H; injection H as <- <-; (split; [|discriminate]); intros x; (split; [discriminate|]); intros R; inversion R; subst; congruence.
Qed.

(** * All fields *)
Notation fields := (fields V W vbool vnone vstr vfloat vint literal conv call uspace validate construct lv la).
Notation resolve := (resolve V W vbool vnone vstr vfloat vint literal conv call uspace validate construct).
Definition failed (r : outcome (fval V W)) : list exn := match r with Raise e => [e] | Ret _ => [] end.
Definition good (l : list (text * outcome (fval V W))) : list (text * fval V W) :=
  flat_map (fun e => match snd e with Ret x => [(fst e, x)] | Raise _ => [] end) l.
Definition answers (specs : list (spec W)) (e : text * oval) (r : outcome (fval V W)) : Prop :=
  forall x, r = Ret x <-> exists sp, get_spec W specs (fst e) = Some sp /\ resolves sp (snd e) x.
Lemma fields_ok specs out fs acts errs fs' acts' errs' :
  fields specs out fs acts errs = (fs', acts', errs') ->
  exists rs, Forall2 (answers specs) out rs /\ errs' = errs ++ flat_map failed rs /\
    fs' = fold_left (fun d e => dset (fst e) (snd e) d) (good (combine (map fst out) rs)) fs /\
    (flat_map failed rs = [] -> acts' = table (flat_map (fun e => refs_of (snd e)) out) acts).
Proof.
  revert fs acts errs. induction out as [|[n v] out IH]; intros fs acts errs; cbn [ModelResolver.fields].
  - intros H. injection H as <- <- <-. exists []. rewrite app_nil_r. repeat split. constructor.
  - destruct (get_spec W specs n) as [sp|] eqn:G.
    + destruct (field sp v acts) as [r acts1] eqn:F. pose proof (field_ok _ _ _ _ _ F) as [R1 R2].
      assert (answers specs (n, v) r) as A.
      { intros x. rewrite R1. cbn [fst snd]. split; [eauto|]. intros (sp' & G' & R). congruence. }
      destruct r as [x|e]; intros H; apply IH in H as (rs & H1 & -> & -> & H4).
      * exists (Ret x :: rs). split; [constructor; assumption|]. split; [reflexivity|]. split; [reflexivity|].
        cbn [flat_map failed app]. intros E. rewrite (H4 E). cbn [flat_map snd]. rewrite table_app. rewrite (R2 _ eq_refl). reflexivity.
      * exists (Raise e :: rs). split; [constructor; assumption|]. split; [rewrite <- app_assoc; reflexivity|]. split; [reflexivity|]. discriminate.
    + intros H. apply IH in H as (rs & H1 & -> & -> & H4).
      exists (Raise ValueError :: rs). split; [constructor; [|assumption]|].
      * intros x. split; [discriminate|]. intros (sp & G' & _). cbn in G'. congruence.
      * split; [rewrite <- app_assoc; reflexivity|]. split; [reflexivity|]. discriminate.
Qed.
Lemma get_spec_iff specs n sp :
  NoDup (map sp_name specs) -> (get_spec W specs n = Some sp <-> In sp specs /\ sp_name sp = Some n).
Proof.
  intros N. induction specs as [|s specs IH]; cbn [get_spec In]; [split; [discriminate|tauto]|].
  inversion N as [|? ? N1 N2]; subst. specialize (IH N2).
  destruct (sp_name s) as [m|] eqn:E; [destruct (eqb_spec m n) as [->|NE]|].
  - split; [intros H; injection H as <-; auto|]. intros [[->|I] H]; [reflexivity|]. exfalso. apply N1. rewrite <- H. apply in_map. assumption.
  - rewrite IH. split; [tauto|]. intros [[->|I] H]; [congruence|auto].
  - rewrite IH. split; [tauto|]. intros [[->|I] H]; [congruence|auto].
Qed.
Lemma allowed_iff specs n : allowed W specs n = true <-> exists sp, In sp specs /\ sp_name sp = Some n.
Proof.
  unfold allowed. rewrite existsb_exists. split; intros (s & I & H); exists s; (split; [assumption|]).
  - destruct (sp_name s) as [m|]; [|discriminate]. destruct (eqb_spec m n); [congruence|discriminate].
  - rewrite H. destruct (eqb_spec n n); congruence.
Qed.
Lemma table_get l acts a c :
  (forall b d, dget b acts = Some d -> action_of b d) ->
  (dget a (table l acts) = Some c <-> (dget a acts = Some c \/ (In a l /\ action_of a c))).
Proof.
  revert acts. induction l as [|b l IH]; intros acts OK; cbn [table In]; [tauto|].
  destruct (dget b la) as [m|] eqn:D.
  - destruct (make b m) as [d|] eqn:M.
    + apply (make_iff b m d D) in M. rewrite IH.
      * rewrite dget_dset. destruct (eqb_spec a b) as [->|N].
        -- split.
           ++ intros [H|[I A]]; [injection H as <-; right; auto|right; auto].
           ++ intros [H|[I A]]; left; f_equal; eapply action_of_fun; eauto.
        -- split; [intros [H|[I A]]; auto|]. intros [H|[[->|I] A]]; auto. congruence.
      * intros b' d'. rewrite dget_dset. destruct (eqb_spec b' b) as [->|N]; [intros H; injection H as <-; assumption|apply OK].
    + rewrite IH by assumption. split; [intros [H|[I A]]; auto|]. intros [H|[[->|I] A]]; auto.
      exfalso. apply (make_iff a m c D) in A. congruence.
  - rewrite IH by assumption. split; [intros [H|[I A]]; auto|]. intros [H|[[->|I] A]]; auto.
    exfalso. destruct A as (m & _ & _ & E & _). congruence.
Qed.
Lemma table_NoDup l acts : NoDup (dkeys acts) -> NoDup (dkeys (table l acts)).
Proof.
  revert acts. induction l as [|b l IH]; intros acts N; cbn [table]; [assumption|].
  destruct (dget b la) as [m|]; [destruct (make b m)|]; apply IH; try assumption. apply dkeys_dset_NoDup. assumption.
Qed.
Lemma good_ok specs out rs :
  NoDup (map sp_name specs) -> Forall2 (answers specs) out rs -> flat_map failed rs = [] ->
  Forall2 (fun e f => fst e = fst f /\ exists sp, In sp specs /\ sp_name sp = Some (fst e) /\ resolves sp (snd e) (snd f))
          out (good (combine (map fst out) rs)) /\ map fst (good (combine (map fst out) rs)) = map fst out.
Proof.
  intros N F. induction F as [|e r out rs A F IH]; cbn [flat_map]; [split; [constructor|reflexivity]|].
  intros E. apply app_eq_nil in E as [E1 E2]. destruct (IH E2) as [IH1 IH2]. destruct r as [x|]; [|discriminate].
  cbn. fold (good (combine (map fst out) rs)). split.
  - constructor; [|assumption]. split; [reflexivity|]. destruct (proj1 (A x) eq_refl) as (sp & G & R).
    apply get_spec_iff in G as [G1 G2]; [|assumption]. eauto.
  - f_equal. assumption.
Qed.
Lemma sets_fresh {B} (l : list (text * B)) d :
  NoDup (dkeys d ++ map fst l) -> fold_left (fun d e => dset (fst e) (snd e) d) l d = d ++ l.
Proof.
  revert d. induction l as [|[k v] l IH]; intros d N; [rewrite app_nil_r; reflexivity|]. cbn [fold_left fst snd].
  assert (~ In k (dkeys d)) as NI.
  { intros I. cbn in N. apply NoDup_remove_2 in N. apply N. apply in_app_iff. auto. }
  rewrite dkeys_dset_notin by assumption. rewrite IH.
  - rewrite <- app_assoc. reflexivity.
  - rewrite dkeys_app. cbn. rewrite <- app_assoc. exact N.
Qed.
End Declared.

Notation resolve := (resolve V W vbool vnone vstr vfloat vint literal conv call uspace validate construct).
Notation resolves := (resolves V W vbool vnone vstr vfloat vint literal conv call uspace validate construct).
Definition checked (out : dict text oval) (lv : dict text lmeta) (la : dict text ameta) (specs : list (spec W)) : Prop :=
  (forall a, In a (dkeys lv) -> ~ In a (dkeys la)) /\
  (forall n, In n (dkeys out) -> exists sp, In sp specs /\ sp_name sp = Some n) /\
  (forall sp, In sp specs -> sp_required sp = true -> exists n, sp_name sp = Some n /\ In n (dkeys out)).
Lemma dmem_iff {B} a (d : dict text B) : dmem a d = true <-> In a (dkeys d).
Proof.
  split.
  - intros H. apply dmem_true in H. assumption.
  - intros H. destruct (dmem a d) eqn:E; [reflexivity|]. apply dmem_false in E. contradiction.
Qed.
Lemma checks out lv la specs :
  (checked out lv la specs /\
   resolve out lv la specs =
     match fields V W vbool vnone vstr vfloat vint literal conv call uspace validate construct lv la specs out [] [] [] with
     | (fs, acts, []) => Resolved (Output fs acts)
     | (_, _, errs) => Group errs
     end) \/
  (exists a, In a (dkeys lv) /\ In a (dkeys la) /\ resolve out lv la specs = Refused ValueError) \/
  (exists n, In n (dkeys out) /\ (forall sp, In sp specs -> sp_name sp <> Some n) /\ resolve out lv la specs = Refused ValueError) \/
  (exists sp, In sp specs /\ sp_required sp = true /\ (forall n, sp_name sp = Some n -> ~ In n (dkeys out)) /\
     resolve out lv la specs = Refused LNDLMissingField).
Proof.
  unfold ModelResolver.resolve.
  destruct (existsb (fun a => dmem a la) (dkeys lv)) eqn:E1.
  { right. left. apply existsb_exists in E1 as (a & I & M). apply dmem_iff in M. eauto. }
  destruct (forallb (allowed W specs) (dkeys out)) eqn:E2; cbn [negb].
  2: { right. right. left. assert (exists n, In n (dkeys out) /\ allowed W specs n = false) as (n & I & A).
       { clear E1. induction (dkeys out) as [|n l IH]; [discriminate|]. cbn in E2. destruct (allowed W specs n) eqn:A; [|exists n; cbn; auto].
         destruct (IH E2) as (n' & I & A'). exists n'. cbn. auto. }
       exists n. split; [assumption|]. split; [|reflexivity]. intros sp IS E. assert (allowed W specs n = true) by (apply allowed_iff; eauto). congruence. }
  match goal with |- context [existsb ?f specs] => destruct (existsb f specs) eqn:E3 end.
  { right. right. right. apply existsb_exists in E3 as (sp & I & H). apply andb_true_iff in H as [R H].
    exists sp. repeat split; try assumption. intros n E. rewrite E in H. apply negb_true_iff in H. intros I'. apply dmem_iff in I'. congruence. }
  left. split; [|reflexivity]. split; [|split].
  - intros a I I'. assert (existsb (fun a => dmem a la) (dkeys lv) = true); [|congruence]. apply existsb_exists. exists a. split; [assumption|].
    apply dmem_iff. assumption.
  - intros n I. apply allowed_iff. rewrite forallb_forall in E2. auto.
  - intros sp I R. destruct (sp_name sp) as [n|] eqn:N.
    + exists n. split; [reflexivity|]. apply dmem_iff. destruct (dmem n out) eqn:M; [reflexivity|]. exfalso.
      match type of E3 with existsb ?f _ = _ => assert (existsb f specs = true); [|congruence] end.
      apply existsb_exists. exists sp. split; [assumption|]. rewrite R, N, M. reflexivity.
    + exfalso. match type of E3 with existsb ?f _ = _ => assert (existsb f specs = true); [|congruence] end.
      apply existsb_exists. exists sp. split; [assumption|]. rewrite R, N. reflexivity.
Qed.
End Resolver.
