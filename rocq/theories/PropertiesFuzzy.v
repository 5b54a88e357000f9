(** C60, C61: correction of misspelled names. *)
From Coq Require Import String.
From Coq Require Import List Bool Arith ZArith QArith Lia Lqa.
From Verif Require Import PyBase PyFacts ModelLexer ModelParser SpecParser ProofsDoc ModelResolver ModelFuzzy SpecResolver SpecFuzzy SpecSim
  ProofsResolver ProofsFuzzyName ProofsFuzzyProg PropertiesResolver.
From Verif Require ModelSim.
Import ListNotations.
Local Close Scope Q_scope.
Local Open Scope string_scope.
Local Open Scope nat_scope.
Local Open Scope list_scope.
#[local] Arguments eqb : simpl never.

Lemma pbind_done {A B} (m : P A) (f : A -> P B) ts b ts' :
  pbind m f ts = Done b ts' -> exists a ts1, m ts = Done a ts1 /\ f a ts1 = Done b ts'.
Proof. unfold pbind. destruct (m ts) as [a ts1| |]; try discriminate. eauto. Qed.
(** The fields of a parsed OUT block are distinct. *)
Lemma parse_fields_keys udec fuel d ts d' ts' : NoDup (dkeys d) -> parse_fields udec fuel d ts = Done d' ts' -> NoDup (dkeys d').
Proof.
  revert d ts. induction fuel as [|fuel IH]; intros d ts N H; [discriminate|]. cbn [parse_fields] in H.
  apply pbind_done in H as ([|] & ts1 & _ & H); [injection H as <- _; exact N|].
  apply pbind_done in H as (_ & ts2 & _ & H). apply pbind_done in H as ([|] & ts3 & _ & H); [injection H as <- _; exact N|].
  apply pbind_done in H as ([|] & ts4 & _ & H).
  - do 4 (apply pbind_done in H as (? & ? & _ & H)). apply pbind_done in H as (v & ? & _ & H).
    do 3 (apply pbind_done in H as (? & ? & _ & H)). apply IH in H; [exact H|]. destruct v; [apply dkeys_dset_NoDup|]; exact N.
  - apply pbind_done in H as (? & ? & _ & H). apply IH in H; assumption.
Qed.
Lemma parse_keys uspace udec toks s p ts o : parse uspace udec toks s = Done p ts -> out p = Some o -> NoDup (dkeys o).
Proof.
  unfold parse, parse_kinds. destruct (map _ toks) as [|k ks]; [discriminate|]. destruct s as [s|]; [|discriminate].
  generalize (S (length toks)) as fuel, (@nil lvar) as vs, (@nil lact) as acs, (@nil text) as al, (k :: ks) as ts0.
  induction fuel as [|fuel IH]; intros vs acs al ts0 H O; [discriminate|]. cbn [parse_loop] in H.
  apply pbind_done in H as ([|] & ts1 & _ & H); [injection H as <- _; discriminate|].
  apply pbind_done in H as (_ & ts2 & _ & H). apply pbind_done in H as ([|] & ts3 & _ & H); [injection H as <- _; discriminate|].
  apply pbind_done in H as ([|] & ts4 & _ & H).
  { apply pbind_done in H as (x & ts5 & _ & H). destruct (memb (lvar_alias x) al); [discriminate|]. eapply IH; eauto. }
  apply pbind_done in H as ([|] & ts5 & _ & H).
  { apply pbind_done in H as (x & ts6 & _ & H). destruct (memb (ac_alias x) al); [discriminate|]. eapply IH; eauto. }
  apply pbind_done in H as ([|] & ts6 & _ & H).
  - apply pbind_done in H as (d & ts7 & B & H). injection H as <- _. cbn in O. injection O as <-.
    unfold parse_out_block in B. do 2 (apply pbind_done in B as (? & ? & _ & B)). apply pbind_done in B as (d' & ? & F & B).
    do 2 (apply pbind_done in B as (? & ? & _ & B)). injection B as <- _. eapply parse_fields_keys; [|exact F]. constructor.
  - apply pbind_done in H as (? & ? & _ & H). eapply IH; eauto.
Qed.

(** * C60 *)
Section Name.
Variables (lowers : text -> text) (score : text -> text -> Q).
Notation correct_name := (correct_name lowers score).
(** A right name is kept; otherwise the candidate that beats all others in reach by 0.05. *)
Theorem C60_correct a cands thr :
  (forall b, correct_name a cands thr = Ret b <-> corrects lowers score thr cands a b) /\
  (correct_name a cands thr = Raise LNDLMissingField <-> unknown lowers score thr cands a) /\
  (correct_name a cands thr = Raise LNDLAmbiguous <-> ambiguous lowers score thr cands a) /\
  (correct_name a cands thr = Raise ValueError <-> unusable thr cands a) /\
  (forall e, correct_name a cands thr = Raise e -> e = LNDLMissingField \/ e = LNDLAmbiguous \/ e = ValueError).
Proof.
  split; [intros b; apply corrects_iff|]. split; [apply unknown_iff|]. split; [apply ambiguous_iff|].
  split; [apply unusable_iff|]. apply correct_name_errors.
Qed.
Theorem C60_safe a cands thr b :
  correct_name a cands thr = Ret b -> In b cands /\ (In a cands -> b = a) /\ ((1 <= thr)%Q -> b = a).
Proof.
  intros H. apply corrects_iff in H. destruct H as [I|b N T0 T1 [I L] _]; [auto|]. split; [exact I|].
  split; [contradiction|]. intros T. lra.
Qed.
(** The order and multiplicity of the candidates (a set, in places) do not matter. *)
Theorem C60_order a cands cands' thr : (forall c, In c cands <-> In c cands') -> correct_name a cands thr = correct_name a cands' thr.
Proof. apply correct_name_order. Qed.
End Name.

Definition low (s : text) : text := map lower s.
Definition jw (a b : text) : Q := match ModelSim.jaro_winkler a b (1 # 10) with Ret q => q | Raise _ => 0%Q end.
Notation fix_ a l := (correct_name low jw (codes a) (map codes l) (85 # 100)).
(** A candidate that differs only in case loses to one that does not; two candidates can be called
    ambiguous though one differs only in case. *)
Theorem C60_case_refuted :
  fix_ "TITLE" ["title"; "TITLES"] = Ret (codes "TITLES") /\ fix_ "TITLE" ["title"; "titel"] = Raise LNDLAmbiguous.
Proof. split; vm_compute; reflexivity. Qed.
(** Without candidates the error is not MissingFieldError. *)
Theorem C60_empty_refuted : fix_ "a" ([] : list string) = Raise ValueError.
Proof. reflexivity. Qed.
Example C60_example :
  fix_ "titel" ["title"; "content"] = Ret (codes "title") /\ fix_ "Title" ["title"; "content"] = Ret (codes "title") /\
  fix_ "zzz" ["title"; "content"] = Raise LNDLMissingField /\ fix_ "field" ["field1"; "field2"] = Raise LNDLAmbiguous.
Proof. repeat split; vm_compute; reflexivity. Qed.

(** * C61 *)
Section Program.
Variables (V W : Type) (vbool : bool -> V) (vnone : V) (vstr vfloat : text -> V) (vint : Z -> V).
Variables (literal : text -> outcome V) (conv : scalar -> V -> outcome V) (call : text -> outcome (text * V)) (uspace : nat -> bool).
Variables (validate : text -> dict text V -> outcome W) (construct : text -> dict text (arg V) -> W).
Variables (lowers : text -> text) (score : text -> text -> Q) (order : list text -> list text) (mfields : text -> list text).
Hypothesis (ord : set_order order).
Notation resolve := (resolve V W vbool vnone vstr vfloat vint literal conv call uspace validate construct).
Notation fuzzy_program := (fuzzy_program V W vbool vnone vstr vfloat vint literal conv call uspace validate construct lowers score order mfields).
Notation parse_lndl_fuzzy := (parse_lndl_fuzzy V W vbool vnone vstr vfloat vint literal conv call uspace validate construct lowers score order mfields).

(** Names before a dot: the models of the specs, and for other specs the operable's own name and
    that name with Response. *)
Definition is_model (specs : list (spec W)) (m : text) : Prop := exists sp, In sp specs /\ sp_type sp = TModel m.
Definition is_virtual (opname : option text) (specs : list (spec W)) (m : text) : Prop :=
  exists n pre sp post, opname = Some n /\ n <> [] /\ (m = n \/ m = n ++ codes "Response") /\
    specs = pre ++ sp :: post /\ (forall k, sp_type sp <> TModel k) /\ ~ is_model pre n.
Theorem C61_models opname specs m :
  (dget m (spec_map W opname specs) = Some true <-> is_model specs m) /\
  (dget m (spec_map W opname specs) = Some false <-> ~ is_model specs m /\ is_virtual opname specs m).
Proof.
  assert (is_model_app : forall a b x, is_model (a ++ b) x <-> is_model a x \/ is_model b x).
  { intros a b x. unfold is_model. split.
    - intros (sp & I & E). apply in_app_iff in I as [I|I]; [left|right]; eauto.
    - intros [(sp & I & E)|(sp & I & E)]; exists sp; rewrite in_app_iff; auto. }
  assert (is_model_one : forall sp x, is_model [sp] x <-> sp_type sp = TModel x).
  { intros sp x. split; [intros (s & [<-|[]] & E); exact E|]. intros E. exists sp. split; [left; reflexivity|exact E]. }
  assert (virt_app : forall pre sp x, is_virtual opname (pre ++ [sp]) x <-> is_virtual opname pre x \/
     (exists n, opname = Some n /\ n <> [] /\ (x = n \/ x = n ++ codes "Response") /\ (forall k, sp_type sp <> TModel k) /\ ~ is_model pre n)).
  { intros pre sp x. split.
    - intros (n & p & s & q & E1 & E2 & E3 & E4 & E5 & E6). destruct (exists_last (l := s :: q)) as (q' & z & EQ); [discriminate|].
      rewrite EQ, app_assoc in E4. apply app_inj_tail in E4 as [E4 <-]. destruct q' as [|s' q'].
      + right. cbn in EQ. injection EQ as -> ->. rewrite app_nil_r in E4. subst p. exists n. auto.
      + left. cbn in EQ. injection EQ as <- ->. exists n, p, s, q'. auto 10.
    - intros [(n & p & s & q & E1 & E2 & E3 & -> & E5 & E6)|(n & E1 & E2 & E3 & E5 & E6)].
      + exists n, p, s, (q ++ [sp]). rewrite <- app_assoc. auto 10.
      + exists n, pre, sp, []. auto 10. }
  revert m.
  induction specs as [|sp specs IH] using rev_ind; intros m.
  - cbn. split; (split; [discriminate|]).
    + intros (sp & [] & _).
    + intros (_ & n & [|] & sp & post & _ & _ & _ & E & _); discriminate.
  - unfold spec_map. rewrite fold_left_app. cbn [fold_left]. fold (spec_map W opname specs). set (acc := spec_map W opname specs) in *.
    assert (MEM : forall x, dmem x acc = false -> ~ is_model specs x /\ ~ is_virtual opname specs x).
    { intros x D. apply dmem_false in D. apply dget_None in D. destruct (IH x) as [I1 I2]. rewrite D in I1, I2. split; intros H.
      - apply I1 in H. discriminate.
      - assert (~ is_model specs x) as N by (intros H'; apply I1 in H'; discriminate). destruct I2 as [_ I2]. specialize (I2 (conj N H)). discriminate. }
    assert (MEMT : forall x, dmem x acc = true -> is_model specs x \/ is_virtual opname specs x).
    { intros x D. apply dmem_true in D. apply key_dget in D as [[|] D]; apply IH in D; tauto. }
    rewrite is_model_app, is_model_one, virt_app.
    assert (OTHER : (forall k, sp_type sp <> TModel k) ->
      let acc' := match opname with
        | Some (c :: r) => let n : text := c :: r in
            if dmem n acc then acc
            else let m := dset n false acc in
                 let resp : text := n ++ codes "Response" in
                 if dmem resp m then m else dset resp false m
        | _ => acc end in
      (dget m acc' = Some true <-> is_model specs m \/ sp_type sp = TModel m) /\
      (dget m acc' = Some false <-> ~ (is_model specs m \/ sp_type sp = TModel m) /\
         (is_virtual opname specs m \/ exists n, opname = Some n /\ n <> [] /\ (m = n \/ m = n ++ codes "Response") /\
            (forall k, sp_type sp <> TModel k) /\ ~ is_model specs n))).
    { intros NM acc'. assert (sp_type sp <> TModel m) as NMm by apply NM.
      assert (SAME : (forall n, opname = Some n -> n <> [] -> m = n \/ m = n ++ codes "Response" -> ~ is_model specs n -> ~ is_model specs m -> is_virtual opname specs m) -> acc' = acc ->
        (dget m acc' = Some true <-> is_model specs m \/ sp_type sp = TModel m) /\
        (dget m acc' = Some false <-> ~ (is_model specs m \/ sp_type sp = TModel m) /\
         (is_virtual opname specs m \/ exists n, opname = Some n /\ n <> [] /\ (m = n \/ m = n ++ codes "Response") /\
            (forall k, sp_type sp <> TModel k) /\ ~ is_model specs n))).
      { intros H ->. destruct (IH m) as [I1 I2]. rewrite I1, I2. split; [tauto|]. split; [tauto|].
        intros [A [B|(n & E1 & E2 & E3 & _ & E4)]]; [tauto|]. split; [tauto|]. eapply H; eauto. }
      destruct opname as [[|c r]|] eqn:EO; [apply SAME; [congruence|reflexivity]| |apply SAME; [congruence|reflexivity]].
      remember (c :: r : text) as n eqn:EN. assert (n <> []) as NN by (rewrite EN; discriminate).
      assert (exists resp : text, resp = n ++ codes "Response") as (resp & ER) by eauto.
      assert (acc' = if dmem n acc then acc else if dmem resp (dset n false acc) then dset n false acc else dset resp false (dset n false acc)) as EA by (rewrite ER; reflexivity).
      rewrite EA in *. clear EA acc'. destruct (dmem n acc) eqn:D.
      - apply SAME; [|reflexivity]. intros n' E _ M N1 N2. injection E as <-. apply MEMT in D as [D|D]; [contradiction|].
        destruct D as (n2 & p & s & q & E1 & E2 & E3 & E4 & E5 & E6). injection E1 as <-. exists n, p, s, q. auto 10.
      - apply MEM in D as [D1 D2].
        assert (n <> resp) as NR by (rewrite ER; intros E; apply (f_equal (@length nat)) in E; rewrite app_length in E; cbn in E; lia).
        assert (D3 : ~ is_virtual (Some n) specs resp).
        { intros (n2 & p & s & q & E1 & E2 & E3 & E4 & E5 & E6). injection E1 as <-. apply D2. exists n, p, s, q. auto 10. }
        assert (GV : forall x, x = n \/ x = resp -> exists n0, Some n = Some n0 /\ n0 <> [] /\ (x = n0 \/ x = n0 ++ codes "Response") /\ (forall k, sp_type sp <> TModel k) /\ ~ is_model specs n0) by (intros x Hx; exists n; rewrite <- ER; auto).
        assert (GN : ~ (m = n \/ m = resp) -> (dget m acc = Some true <-> is_model specs m \/ sp_type sp = TModel m) /\
           (dget m acc = Some false <-> ~ (is_model specs m \/ sp_type sp = TModel m) /\ (is_virtual (Some n) specs m \/ exists n0, Some n = Some n0 /\ n0 <> [] /\ (m = n0 \/ m = n0 ++ codes "Response") /\ (forall k, sp_type sp <> TModel k) /\ ~ is_model specs n0))).
        { intros X. destruct (IH m) as [I1 I2]. rewrite I1, I2. split; [tauto|]. split; [tauto|]. intros [A [B|(n0 & E0 & _ & E3 & _)]]; [tauto|]. injection E0 as <-. rewrite <- ER in E3. contradiction. }
        destruct (eqb_spec m n) as [->|N1].
        + assert (forall d, dget n d = Some false -> (dget n d = Some true <-> is_model specs n \/ sp_type sp = TModel n) /\
            (dget n d = Some false <-> ~ (is_model specs n \/ sp_type sp = TModel n) /\ (is_virtual (Some n) specs n \/ exists n0, Some n = Some n0 /\ n0 <> [] /\ (n = n0 \/ n = n0 ++ codes "Response") /\ (forall k, sp_type sp <> TModel k) /\ ~ is_model specs n0))) as G.
          { intros d ->. split; [split; [discriminate|tauto]|]. split; [|reflexivity]. intros _. split; [tauto|]. right. apply GV. auto. }
          apply G. match goal with |- context [if ?b then _ else _] => destruct b end.
          * apply dget_dset_same.
          * rewrite dget_dset_other by exact NR. apply dget_dset_same.
        + destruct (eqb_spec m resp) as [->|N2].
          * destruct (dmem resp (dset n false acc)) eqn:D'.
            -- apply dmem_true in D'. apply In_dkeys_dset in D' as [D'|D']; [congruence|].
               rewrite dget_dset_other by congruence. apply key_dget in D' as [[|] D'].
               ++ rewrite D'. pose proof (proj1 (proj1 (IH _)) D') as M. split; [tauto|]. split; [discriminate|tauto].
               ++ exfalso. apply IH in D' as [_ D']. contradiction.
            -- rewrite dget_dset_same. assert (~ is_model specs resp) as NM2.
               { apply dmem_false in D'. apply dget_None in D'. rewrite dget_dset_other in D' by congruence. intros M. apply (proj1 (IH _)) in M. congruence. }
               split; [split; [discriminate|tauto]|]. split; [|reflexivity]. intros _. split; [tauto|]. right. apply GV. auto.
          * replace (dget m (if dmem resp (dset n false acc) then dset n false acc else dset resp false (dset n false acc))) with (dget m acc); [apply GN; tauto|].
            match goal with |- context [if ?b then _ else _] => destruct b end; rewrite ?dget_dset_other by congruence; reflexivity. }
    destruct (sp_type sp) as [s|k|] eqn:T; try (apply OTHER; intros k; congruence).
    clear OTHER. destruct (IH m) as [I1 I2]. destruct (eqb_spec m k) as [->|NE].
    + rewrite dget_dset_same. split; [tauto|]. split; [discriminate|tauto].
    + rewrite dget_dset_other by exact NE. rewrite I1, I2. split; [intuition congruence|]. split.
      * intros [A B]. split; [intuition congruence|]. left. exact B.
      * intros [A [B|(n & _ & _ & _ & E & _)]]; [tauto|]. exfalso. exact (E k eq_refl).
Qed.

(** The field names expected after a model name. *)
Theorem C61_fields opname specs names m :
  (is_model specs m -> flds mfields names (spec_map W opname specs) m = mfields m) /\
  (~ is_model specs m -> is_virtual opname specs m -> flds mfields names (spec_map W opname specs) m = names) /\
  (In m (dkeys (spec_map W opname specs)) <-> is_model specs m \/ is_virtual opname specs m).
Proof.
  destruct (C61_models opname specs m) as [A B]. unfold flds. split; [intros H; apply A in H; rewrite H; reflexivity|].
  split; [intros H1 H2; rewrite (proj2 B (conj H1 H2)); reflexivity|]. split.
  - intros I. apply key_dget in I as [[|] D]; [left; apply A; exact D|right; apply B; exact D].
  - intros H. destruct (dget m (spec_map W opname specs)) as [b|] eqn:D; [apply dget_In in D; apply (in_map fst) in D; exact D|].
    exfalso. destruct H as [H|H]; [apply A in H; discriminate|].
    assert (~ is_model specs m) as N by (intros M; apply A in M; discriminate). pose proof (proj2 B (conj N H)). discriminate.
Qed.

(** A threshold not given is the general one, for model names at least 0.9. *)
Theorem C61_thresholds t :
  th_field t = match t_field t with Some q => q | None => t_all t end /\
  th_lvar t = match t_lvar t with Some q => q | None => t_all t end /\
  th_spec t = match t_spec t with Some q => q | None => t_all t end /\
  (forall q, t_model t = Some q -> th_model t = q) /\
  (t_model t = None -> (t_all t <= th_model t)%Q /\ (9 # 10 <= th_model t)%Q /\ ((t_all t <= 9 # 10)%Q -> th_model t = (9 # 10)%Q) /\
     ((9 # 10 < t_all t)%Q -> th_model t = t_all t)).
Proof.
  do 3 (split; [reflexivity|]). unfold th_model. split; [intros q ->; reflexivity|]. intros ->. cbn.
  destruct (Qle_bool (t_all t) (9 # 10)) eqn:E.
  - apply Qle_bool_iff in E. split; [exact E|]. split; [apply Qle_refl|]. split; [reflexivity|]. intros. lra.
  - apply Qle_false in E. split; [apply Qle_refl|]. split; [apply Qlt_le_weak; exact E|]. split; [intros; lra|reflexivity].
Qed.

Section Given.
Variables (t : thresholds) (opname : option text) (specs : list (spec W)) (names : list text) (p : program) (o : dict text oval).
Hypothesis (hasout : out p = Some o).
Let lv := dict_from (map lvar_meta (lvars p)).
Let la := dict_from (map lact_meta (lacts p)).
Let smap := spec_map W opname specs.
Let models := dkeys smap.
Let flds := flds mfields names smap.
Notation all_fixed := (all_fixed lowers score (th_model t) (th_field t) (th_spec t) (th_lvar t) models flds names lv la o).

(** Strict mode: all names must be right. *)
Theorem C61_strict :
  (1 <= t_all t)%Q ->
  (exact models flds names lv la o -> fuzzy_program t opname specs names p = resolve o lv la specs) /\
  (~ exact models flds names lv la o -> fuzzy_program t opname specs names p = Refused LNDLMissingField).
Proof.
  intros T. apply Qle_bool_iff in T. unfold ModelFuzzy.fuzzy_program. rewrite hasout, T.
  change (to_dict (map lvar_meta (lvars p))) with lv. change (to_dict (map lact_meta (lacts p))) with la. fold smap.
  split; intros E.
  - apply (strict_iff lowers score) in E. rewrite E. reflexivity.
  - destruct (strict_ok mfields names smap lv la o) eqn:S; [|reflexivity]. apply (strict_iff lowers score) in S. contradiction.
Qed.
(** Otherwise the corrected program is resolved, or the correction fails. *)
Theorem C61_fuzzy :
  (t_all t < 1)%Q ->
  (forall lv' la' o', all_fixed lv' la' o' -> fuzzy_program t opname specs names p = resolve o' lv' la' specs) /\
  ((forall lv' la' o', ~ all_fixed lv' la' o') ->
     exists e, (e = LNDLMissingField \/ e = LNDLAmbiguous \/ e = ValueError) /\ fuzzy_program t opname specs names p = Refused e).
Proof.
  intros T. apply Qle_false in T. unfold ModelFuzzy.fuzzy_program. rewrite hasout, T.
  change (to_dict (map lvar_meta (lvars p))) with lv. change (to_dict (map lact_meta (lacts p))) with la. fold smap.
  destruct (correct lowers score order mfields t names smap lv la o) as [[[o1 lv1] la1]|e] eqn:E.
  - pose proof (correct_ok lowers score order mfields ord _ _ _ _ _ _ _ _ _ E) as F. split.
    + intros lv' la' o' F'. destruct (all_fixed_fun _ _ _ _ _ _ _ _ _ _ _ _ _ _ _ F F') as (-> & -> & ->). reflexivity.
    + intros N. exfalso. exact (N _ _ _ F).
  - apply (correct_bad lowers score order mfields ord) in E as [B N]. split.
    + intros lv' la' o' F. exfalso. exact (N _ _ _ F).
    + intros _. exists e. split; [exact B|reflexivity].
Qed.
(** A response without misspellings is resolved as it is, with any thresholds. *)
Theorem C61_exact :
  NoDup (dkeys o) -> exact models flds names lv la o ->
  (forall n l, In (n, ORefs l) o -> forall a, In a l -> In a (dkeys lv) \/ In a (dkeys la)) ->
  fuzzy_program t opname specs names p = resolve o lv la specs.
Proof.
  intros N E R. destruct (Qlt_le_dec (t_all t) 1) as [T|T].
  - apply (C61_fuzzy T). apply exact_fixed; assumption.
  - apply (C61_strict T). exact E.
Qed.
(** If no two OUT fields are corrected to one name, none is lost. *)
Theorem C61_kept lv' la' o' :
  all_fixed lv' la' o' -> NoDup (dkeys o) ->
  (forall n1 n2 n, In n1 (dkeys o) -> In n2 (dkeys o) -> corrects lowers score (th_spec t) names n1 n ->
     corrects lowers score (th_spec t) names n2 n -> n1 = n2) ->
  Forall2 (fun e e' => corrects lowers score (th_spec t) names (fst e) (fst e') /\
    match snd e, snd e' with
    | ORefs l, ORefs l' => Forall2 (corrects lowers score (th_lvar t) (dkeys lv ++ dkeys la)) l l'
    | v, v' => v = v'
    end) o o'.
Proof.
  intros (_ & _ & o1 & F & R) N INJ. clear hasout.
  assert (NoDup (dkeys o1)) as N1.
  { clear R. unfold dkeys in N, INJ. induction F as [|e e' l l' [C _] F IH]; [constructor|]. cbn in N |- *. inversion N as [|? ? NI ND]; subst.
    constructor.
    - intros I. apply NI. assert (exists n2, In n2 (map fst l) /\ corrects lowers score (th_spec t) names n2 (fst e')) as (n2 & I2 & C2).
      { clear - F I. induction F as [|x x' l l' [C _] F IH]; [contradiction|]. destruct I as [I|I].
        - exists (fst x). split; [left; reflexivity|]. rewrite <- I. exact C.
        - destruct (IH I) as (n2 & I2 & C2). exists n2. split; [right; exact I2|exact C2]. }
      rewrite (INJ (fst e) n2 (fst e')); [exact I2|left; reflexivity|right; exact I2|exact C|exact C2].
    - apply IH; [exact ND|]. intros n1 n2 n I1 I2. apply INJ; right; assumption. }
  rewrite dict_from_fresh in R by exact N1. clear N N1 INJ. revert o' R. induction F as [|e e' l l' [C E] F IH]; intros o' R.
  - inversion R. constructor.
  - inversion R as [|? z ? zs R1 R2]; subst. constructor; [|auto]. destruct e as [n v], e' as [n' v']; cbn in E; subst v'. inversion R1 as [n1 r r' FR|n1 v1 NR]; subst; cbn in *.
    + split; assumption.
    + split; [assumption|]. destruct v as [r| | | |]; try reflexivity. exfalso. exact (NR r eq_refl).
Qed.
End Given.

(** With capabilities given, only these fields are returned. *)
Theorem C61_capabilities ualpha unum udigit udec t opname l s specs r :
  NoDup (map sp_name specs) ->
  parse_lndl_fuzzy ualpha unum udigit udec t opname (Some l) s specs = Some (Resolved r) ->
  (forall n, In n (dkeys (o_fields r)) -> In n l) /\ (forall n, In n l -> exists sp, In sp specs /\ sp_name sp = Some n).
Proof.
  intros ND. unfold ModelFuzzy.parse_lndl_fuzzy, active. destruct (forallb (allowed W specs) l) eqn:A; [|discriminate].
  rewrite forallb_forall in A. set (act := match l with [] => specs | _ => _ end).
  destruct (tokenize ualpha unum udigit s) as [toks|] eqn:TK; [|discriminate].
  destruct (parse uspace udec toks (Some s)) as [p ts|e|] eqn:PA; try discriminate.
  intros H. split; [|intros n I; apply allowed_iff; auto].
  injection H as H. unfold ModelFuzzy.fuzzy_program in H. destruct (out p) as [o|] eqn:O; [|discriminate].
  pose proof (parse_keys _ _ _ _ _ _ _ PA O) as NO.
  assert (NoDup (map sp_name act)) as NA.
  { unfold act. destruct l as [|x l]; [exact ND|]. pose proof (proj1 (ord (x :: l))) as NL. revert NL. generalize (order (x :: l)) as q.
    assert (forall y sp, get_spec W specs y = Some sp -> sp_name sp = Some y) as GS.
    { intros y sp G. apply (get_spec_iff V W vstr vfloat literal call validate construct) in G; tauto. }
    induction q as [|y q IH]; intros NL; cbn; [constructor|]. inversion NL as [|? ? NI NQ]; subst. rewrite map_app.
    destruct (get_spec W specs y) as [sp|] eqn:G; [|apply IH; exact NQ]. cbn. constructor; [|apply IH; exact NQ].
    intros I. apply in_map_iff in I as (sp' & E & I). apply in_flat_map in I as (z & I1 & I2).
    destruct (get_spec W specs z) as [sz|] eqn:GZ; [|contradiction]. destruct I2 as [->|[]]. rewrite (GS _ _ GZ), (GS _ _ G) in E. injection E as ->. contradiction. }
  assert (forall lv la o', NoDup (dkeys o') -> (forall n, In n (dkeys o') -> In n (order l)) -> resolve o' lv la act = Resolved r ->
     forall n, In n (dkeys (o_fields r)) -> In n l) as G.
  { intros lv la o' N1 N2 R n I. apply C59_sound in R as (_ & F & _); [|exact NA|exact N1].
    apply (ord l). apply N2. clear - F I. unfold dkeys in *. induction F as [|e f x y [E _] F IH]; [contradiction|].
    destruct I as [<-|I]; [left; exact E|right; auto]. }
  destruct (Qle_bool 1 (t_all t)).
  - destruct (strict_ok _ _ _ _ _ _) eqn:S; [|discriminate]. eapply G; [exact NO| |exact H].
    apply (strict_iff lowers score) in S as (_ & _ & S). exact S.
  - destruct (correct _ _ _ _ _ _ _ _ _ _) as [[[o' lv'] la']|e] eqn:C; [|discriminate].
    apply (correct_ok lowers score order mfields ord) in C. apply fixed_names in C as [C1 C2]. eapply G; [exact C1|exact C2|exact H].
Qed.
Theorem C61_document ualpha unum udigit udec t opname prog s specs :
  (forall c, uspace c = true -> ualpha c = false /\ udigit c = false /\ unum c = false) ->
  document ualpha unum udigit uspace prog s ->
  parse_lndl_fuzzy ualpha unum udigit udec t opname None s specs = Some (fuzzy_program t opname specs (order (spec_names W specs)) prog).
Proof.
  intros D H. destruct (document_ok ualpha unum udigit uspace udec D prog s H) as (toks & E & ts & P).
  unfold ModelFuzzy.parse_lndl_fuzzy, active. rewrite E, P. reflexivity.
Qed.
End Program.

Definition nodup_text : list text -> list text := nodup (list_eq_dec Nat.eq_dec).
Lemma nodup_text_order : set_order nodup_text.
Proof. intros l. split; [apply NoDup_nodup|]. intros x. apply nodup_In. Qed.
Definition runf (thr : Q) (caps : option (list text)) (s : string) (specs : list (spec pm)) : option (result pv pm) :=
  parse_lndl_fuzzy pv pm PBool PNone PStr PFloat PInt lit cv cl (fun _ => false) va Part low jw nodup_text
    (fun _ => [codes "title"; codes "body"]) (fun _ => false) (fun _ => false) (fun _ => false) (fun _ => None)
    (Thr thr None None None None) None caps (codes s) specs.
Notation d85 := (85 # 100)%Q.
Definition rep : spec pm := Spec (Some (codes "report")) true (TModel (codes "Report")) [].

(** Two misspelled fields are corrected to one: the first is lost without error. *)
Theorem C61_overwrite_refuted :
  runf d85 None "<lvar Report.title a>one</lvar><lvar Report.title b>two</lvar>OUT{repotr: [a], reprot: [b]}" [rep] =
  Some (Resolved (Output [(codes "report", FInst (Full (codes "Report") [(codes "title", PStr (codes "two"))]))] [])).
Proof. vm_compute. reflexivity. Qed.
(** So are two misspelled model fields. *)
Theorem C61_field_overwrite_refuted :
  runf d85 None "<lvar Report.titel a>one</lvar><lvar Report.tilte b>two</lvar>OUT{report: [a, b]}" [rep] =
  Some (Resolved (Output [(codes "report", FInst (Full (codes "Report") [(codes "title", PStr (codes "two"))]))] [])).
Proof. vm_compute. reflexivity. Qed.
(** The model name of an action is corrected only if a variable has the same misspelling. *)
Theorem C61_action_refuted :
  runf d85 None "<lact Reprot.title a>f(1)</lact>OUT{report: [a]}" [rep] = Some (Group [LNDLTypeMismatch]) /\
  runf d85 None "<lvar Reprot.body b>x</lvar><lact Reprot.title a>f(1)</lact>OUT{report: [a]}" [rep] =
  Some (Resolved (Output [(codes "report", FInst (Part (codes "Report") [(codes "title", AAct (act "a" "(1)"))]))] [(codes "a", act "a" "(1)")])).
Proof. split; vm_compute; reflexivity. Qed.
Example C61_example :
  runf d85 None "<lvar Reprot.titel t>Plan</lvar><lvar bb>1</lvar> OUT{reprot: [t]}" [rep] =
  Some (Resolved (Output [(codes "report", FInst (Full (codes "Report") [(codes "title", PStr (codes "Plan"))]))] [])) /\
  runf 1%Q None "<lvar Reprot.titel t>Plan</lvar> OUT{report: [t]}" [rep] = Some (Refused LNDLMissingField) /\
  runf d85 (Some [codes "answer"]) "OUT{report: [t]}" [rep; answer] = Some (Refused LNDLMissingField) /\
  runf d85 (Some [codes "answer"]) "OUT{anwser: 'y'}" [rep; answer] = Some (Resolved (Output [(codes "answer", FVal (PStr (codes "y")))] [])) /\
  runf d85 (Some [codes "other"]) "OUT{anwser: 'y'}" [rep; answer] = Some (Refused ValueError).
Proof. repeat split; vm_compute; reflexivity. Qed.

Print Assumptions C60_correct.
Print Assumptions C60_safe.
Print Assumptions C60_order.
Print Assumptions C60_case_refuted.
Print Assumptions C60_empty_refuted.
Print Assumptions C61_models.
Print Assumptions C61_fields.
Print Assumptions C61_thresholds.
Print Assumptions C61_strict.
Print Assumptions C61_fuzzy.
Print Assumptions C61_exact.
Print Assumptions C61_kept.
Print Assumptions C61_capabilities.
Print Assumptions C61_document.
Print Assumptions C61_overwrite_refuted.
Print Assumptions C61_field_overwrite_refuted.
Print Assumptions C61_action_refuted.
