(** C85: fuzzy_validate_pydantic and fuzzy_validate_mapping; C86: validate_response
    and update_model. *)
From Coq Require Import List Bool Arith ZArith QArith Lia.
From Verif Require Import PyBase ModelHeap ModelSim SpecSim ProofsFuzzy PropertiesSim.
From Verif Require Import ModelExtract PropertiesExtract ModelValidate.
Import ListNotations.
Local Close Scope Q_scope.
Local Open Scope nat_scope.
Local Open Scope list_scope.

(** * Vocabulary *)

(** out holds the fields that are in d, the entries of d under their paired fields,
    and, if [extra], the other entries of d. *)
Definition carried (extra : bool) (d : jdict) (fields : list pystr) (pairs : list (pystr * pystr))
    (out : jdict) : Prop :=
  NoDup (map fst out) /\
  forall k v, sget k out = Some v <->
    (In k fields /\ sget k d = Some v) \/
    (exists k0, In (k0, k) pairs /\ sget k0 d = Some v) \/
    (extra = true /\ spare_input d fields pairs k /\ sget k d = Some v).

(** Keys are compared by the score of their lower-case forms. *)
Definition pairing (lower : pystr -> pystr) (score : pystr -> pystr -> Q) (d : jdict) (fields : list pystr)
    (thr : Q) (pairs : list (pystr * pystr)) : Prop :=
  fuzzy_pairing (fun a b => score (lower a) (lower b)) d fields thr pairs.

(** The verdict of the model on some data. *)
Definition verdict {M} (model_validate : jv -> outcome M) (j : jv) : vres M :=
  match model_validate j with Ret m => VOk m | Raise _ => VErr EValidation end.

(** j is in the text s: s itself parses to it, or its only fenced block does. *)
Inductive holds (space : nat -> bool) (parse : text -> outcome jv) (s : text) (j : jv) : Prop :=
| holds_whole : parse s = Ret j -> holds space parse s j
| holds_block e b : parse s = Raise e -> blocks space s [b] -> parse b = Ret j -> holds space parse s j.
(** No JSON in the text s: neither s nor any of its fenced blocks parses. *)
Definition nothing (space : nat -> bool) (parse : text -> outcome jv) (s : text) : Prop :=
  (exists e, parse s = Raise e) /\
  forall bs, blocks space s bs -> forall b, In b bs -> exists e, parse b = Raise e.

(** * Proofs *)
Lemma str_eqb_spec a b : reflect (a = b) (str_eqb a b).
Proof. destruct (str_eqb a b) eqn:E; constructor; [apply str_eqb_eq|apply str_eqb_neq]; exact E. Qed.
Section Proofs.
  Variables (lower : pystr -> pystr) (score : pystr -> pystr -> Q) (order : list pystr -> list pystr).
  Hypothesis order_ok : set_order order.

  Lemma match_result (d : jdict) fields mode fv fm strict out thr fuzzy :
    NoDup (map fst d) -> fields <> [] -> (0 <= thr)%Q -> (thr <= 1)%Q ->
    mode = UIgnore \/ mode = URemove \/ mode = URaise ->
    fuzzy_match_keys lower score order d fields thr fuzzy mode fv fm strict = Ret out ->
    exists pairs, pairing lower score d fields thr pairs /\
      carried (match mode with UIgnore => true | _ => false end) d fields pairs out /\
      (mode = URaise -> forall k, ~ spare_input d fields pairs k).
  Proof.
    intros ND NE T0 T1 Hm E.
    destruct (C45_result jv lower score order d fields thr fuzzy mode fv fm strict order_ok ND NE T0 T1)
      as (pairs & HP & _ & _ & H). rewrite E in H. destruct H as (OD & NR & _ & H).
    exists pairs. split; [exact HP|]. split.
    2:{ intros -> k Hk. apply NR. split; [reflexivity|]. exists k. exact Hk. }
    split; [exact OD|]. intros k v. destruct (H k) as (H1 & H2 & H3 & H4 & H5 & H6).
    destruct HP as (PA & PB & PC).
    assert (INd : forall k v, sget k d = Some v -> In k (map fst d)).
    { intros k' v' Hs. apply sget_key. congruence. }
    split.
    - intro S. destruct (in_dec str_dec k fields) as [I|I].
      + destruct (in_dec str_dec k (map fst d)) as [J|J]; [left; rewrite <- H1; auto|].
        destruct (in_dec str_dec k (map snd pairs)) as [L|L].
        * right. left. apply in_map_iff in L. destruct L as ((k0, k1) & El & L). cbn in El. subst k1.
          exists k0. rewrite <- (H2 k0 L). auto.
        * assert (Hmiss : missing d fields pairs k) by (repeat split; assumption).
          rewrite (H3 Hmiss) in S. destruct Hm as [-> | [-> | ->]]; discriminate.
      + destruct (in_dec str_dec k (map fst d)) as [J|J]; [|rewrite (H6 I J) in S; discriminate].
        destruct (in_dec str_dec k (map fst pairs)) as [L|L]; [rewrite (H5 L) in S; discriminate|].
        assert (Hsp : spare_input d fields pairs k) by (repeat split; assumption).
        rewrite (H4 Hsp) in S. destruct Hm as [-> | [-> | ->]]; try discriminate. auto.
    - intros [[I S]|[(k0 & P & S)|(X & Hsp & S)]].
      + rewrite H1; eauto.
      + rewrite (H2 k0 P). exact S.
      + rewrite (H4 Hsp). destruct mode; try discriminate. exact S.
  Qed.

  Lemma match_errors (d : jdict) fields mode fv fm thr fuzzy e :
    NoDup (map fst d) -> (0 <= thr)%Q -> (thr <= 1)%Q ->
    fuzzy_match_keys lower score order d fields thr fuzzy mode fv fm false = Raise e ->
    e = ValueError /\ mode = URaise.
  Proof.
    intros ND T0 T1 E. destruct fields as [|f fields].
    { rewrite C45_no_keys in E by assumption. discriminate. }
    destruct (C45_result jv lower score order d (f :: fields) thr fuzzy mode fv fm false order_ok ND
                ltac:(discriminate) T0 T1) as (pairs & HP & _ & _ & H).
    rewrite E in H. destruct H as [-> [[-> _]|[? _]]]; [auto|discriminate].
  Qed.
End Proofs.

Lemma default_thr_0 : (0 <= 17 # 20)%Q. Proof. apply Qle_bool_iff. reflexivity. Qed.
Lemma default_thr_1 : (17 # 20 <= 1)%Q. Proof. apply Qle_bool_iff. reflexivity. Qed.

Section Holds.
  Variable space : nat -> bool.
  Hypothesis tick : space 96 = false.
  Variable parse : text -> outcome jv.

  Lemma find_all_blocks s bs : blocks space s bs <-> find_all space s = bs.
  Proof.
    assert (B : blocks space s (find_all space s)) by (apply find_from_blocks; [exact tick|lia]).
    split; [|intros <-; exact B]. intro H. exact (blocks_fun space s bs H _ B).
  Qed.
  Lemma holds_extract s j : holds space parse s j -> extract_text space parse JList true s = j.
  Proof.
    intros [H|e b H1 H2 H3]; unfold extract_text.
    - rewrite H. reflexivity.
    - rewrite H1. apply find_all_blocks in H2. rewrite H2, H3. reflexivity.
  Qed.
  Lemma nothing_extract s : nothing space parse s -> extract_text space parse JList true s = JList [].
  Proof.
    intros [(e & H1) H2]. unfold extract_text. rewrite H1.
    specialize (H2 _ (proj2 (find_all_blocks s _) eq_refl)). destruct (find_all space s) as [|b bs]; [reflexivity|].
    assert (F : flat_map (parsed parse) (b :: bs) = []).
    { revert H2. generalize (b :: bs). induction l as [|c l IH]; intro H; [reflexivity|].
      cbn [flat_map]. unfold parsed at 1. destruct (H c (or_introl eq_refl)) as (e' & ->). cbn.
      apply IH. intros x Hx. apply H. right. exact Hx. }
    destruct bs as [|b2 bs].
    - destruct (H2 b (or_introl eq_refl)) as (e' & ->). reflexivity.
    - rewrite F. reflexivity.
  Qed.
End Holds.

(** * C85 *)

(** An instance of the model is returned as it is; without key matching, data are
    refused only with ValidationError, and accepted exactly if the model does. *)
Theorem C85_plain : forall M O lower score order space parse parse_other fields (model_validate : jv -> outcome M) fp p,
  space 96 = false ->
  let run := fuzzy_validate_pydantic (O := O) lower score order space parse parse_other fields model_validate fp in
  (forall fm m, run fm p (IInstance m) = VOk m) /\
  (forall d, run false p (IDict d) = verdict model_validate (JDict d)) /\
  (forall s j, holds space (parse fp) s j -> run false p (ISource (SText s)) = verdict model_validate j) /\
  (forall s, nothing space (parse fp) s -> run false p (ISource (SText s)) = verdict model_validate (JList [])) /\
  (forall i e, run false p i = VErr e -> e = EValidation).
Proof.
  intros M O lower score order space parse po fields mv fp p Ht run. subst run. split; [reflexivity|].
  split; [reflexivity|]. split; [|split].
  - intros s j H. unfold fuzzy_validate_pydantic, extract. cbn [extract_json].
    rewrite (holds_extract space Ht (parse fp) s j H). reflexivity.
  - intros s H. unfold fuzzy_validate_pydantic, extract. cbn [extract_json].
    rewrite (nothing_extract space Ht (parse fp) s H). reflexivity.
  - intros [m|d|s] e; cbn; [discriminate| |].
    + destruct (mv (JDict d)); congruence.
    + destruct (extract _ _ _ _ s) as [j|]; [|congruence]. destruct (mv j); congruence.
Qed.
Print Assumptions C85_plain.

(** With key matching, the model sees only its own fields; every value it sees is the
    value of that key, or of a key that is no field and similar enough, each used once. *)
Theorem C85_matched : forall M O lower score order space parse parse_other fields (model_validate : jv -> outcome M) fp d,
  space 96 = false -> set_order order -> NoDup (map fst d) -> fields <> [] ->
  let run := fuzzy_validate_pydantic (O := O) lower score order space parse parse_other fields model_validate fp true PNone in
  exists pairs out, pairing lower score d fields (17 # 20) pairs /\ carried false d fields pairs out /\
    (forall k, In k (map fst out) -> In k fields) /\
    run (IDict d) = verdict model_validate (JDict out) /\
    (forall s, holds space (parse fp) s (JDict d) -> run (ISource (SText s)) = verdict model_validate (JDict out)).
Proof.
  intros M O lower score order space parse po fields mv fp d Ht Ho ND NE run. subst run.
  destruct (fuzzy_match_keys lower score order d fields (17 # 20) true URemove JUnset [] false) as [out|e] eqn:E.
  2:{ destruct (match_errors lower score order Ho d fields URemove JUnset [] (17 # 20) true e ND
        default_thr_0 default_thr_1 E) as [_ X]. discriminate. }
  destruct (match_result lower score order Ho d fields URemove JUnset [] false out (17 # 20) true ND NE
    default_thr_0 default_thr_1 (or_intror (or_introl eq_refl)) E) as (pairs & HP & HC & _).
  exists pairs, out. split; [exact HP|]. split; [exact HC|]. split.
  { intros k Hk. apply sget_key in Hk. destruct (sget k out) as [v|] eqn:Es; [|congruence].
    apply (proj2 HC) in Es. destruct Es as [[I _]|[(k0 & P & _)|(X & _)]]; [exact I| |discriminate].
    exact (proj1 (proj2 (proj2 (proj2 (proj2 HP) k0 k P)))). }
  split; [|intros s Hs]; unfold fuzzy_validate_pydantic, extract; cbn [extract_json];
    [|rewrite (holds_extract space Ht (parse fp) s _ Hs)];
    unfold match_keys; cbn [default_opts mo_thr mo_fuzzy mo_mode mo_fill mo_map mo_strict];
    rewrite E; cbn [bind]; unfold verdict; destruct (mv (JDict out)); reflexivity.
Qed.
Print Assumptions C85_matched.

(** What else can go wrong then: TypeError for data that are no dict and for bad
    parameters, ValueError only with own parameters. *)
Theorem C85_errors : forall M O lower score order space parse parse_other fields (model_validate : jv -> outcome M) fp fm p i e,
  space 96 = false -> set_order order -> (forall d, i = IDict d -> NoDup (map fst d)) ->
  (forall s d, i = ISource s -> extract space parse parse_other fp s = Ret (JDict d) -> NoDup (map fst d)) ->
  fuzzy_validate_pydantic (O := O) lower score order space parse parse_other fields model_validate fp fm p i = VErr (EPy e) ->
  fm = true /\
  ((e = TypeError /\ (p = PBad \/ exists s j, i = ISource s /\ extract space parse parse_other fp s = Ret j /\
                                  forall d, j <> JDict d)) \/
   (e = ValueError /\ exists o, p = POpts o)).
Proof.
  intros M O lower score order space parse po fields mv fp fm p i e Ht Ho ND NS H.
  assert (K : forall j o, match_keys lower score order j fields o = Raise e ->
            (forall d, j = JDict d -> NoDup (map fst d)) ->
            (e = TypeError /\ forall d, j <> JDict d) \/
            (e = ValueError /\ exists d, j = JDict d /\ o <> default_opts URemove)).
  { intros j o E Hd. destruct j as [d| | |]; cbn in E; try (injection E as <-; left; split; [reflexivity|discriminate]).
    right. destruct (Qlt_le_dec (mo_thr o) 0) as [L|L].
    { rewrite C45_errors in E by (intros [X _]; apply (Qlt_not_le _ _ L X)). injection E as <-.
      split; [reflexivity|]. exists d. split; [reflexivity|]. intros ->. cbn in L.
      apply (Qlt_not_le _ _ L). exact default_thr_0. }
    destruct (Qlt_le_dec 1 (mo_thr o)) as [L1|L1].
    { rewrite C45_errors in E by (intros [_ X]; apply (Qlt_not_le _ _ L1 X)). injection E as <-.
      split; [reflexivity|]. exists d. split; [reflexivity|]. intros ->. cbn in L1.
      apply (Qlt_not_le _ _ L1). exact default_thr_1. }
    assert (e = ValueError).
    { destruct fields as [|f fs]; [rewrite C45_no_keys in E by assumption; discriminate|].
      destruct (C45_result jv lower score order d (f :: fs) (mo_thr o) (mo_fuzzy o) (mo_mode o) (mo_fill o)
        (mo_map o) (mo_strict o) Ho (Hd d eq_refl) ltac:(discriminate) L L1) as (pairs & _ & _ & _ & X).
      rewrite E in X. exact (proj1 X). }
    split; [assumption|]. exists d. split; [reflexivity|]. intros ->.
    destruct (match_errors lower score order Ho d fields URemove JUnset [] (17 # 20) true e (Hd d eq_refl)
      default_thr_0 default_thr_1 E) as [_ X]. discriminate. }
  unfold fuzzy_validate_pydantic in H.
  destruct i as [m|d|s]; [discriminate| |].
  - destruct fm; [|destruct (mv (JDict d)); discriminate]. split; [reflexivity|].
    destruct p as [|o|].
    + destruct (match_keys lower score order (JDict d) fields (default_opts URemove)) as [x|e'] eqn:E; cbn [bind] in H.
      { destruct (mv (JDict x)); discriminate. }
      injection H as ->. destruct (K _ _ E) as [[_ X]|(_ & d' & _ & X)]; [|destruct (X d eq_refl)|destruct X; reflexivity].
      intros d' [= <-]. apply ND. reflexivity.
    + destruct (match_keys lower score order (JDict d) fields o) as [x|e'] eqn:E; cbn [bind] in H.
      { destruct (mv (JDict x)); discriminate. }
      injection H as ->. destruct (K _ _ E) as [[_ X]|(-> & _)]; [|destruct (X d eq_refl)|].
      { intros d' [= <-]. apply ND. reflexivity. }
      right. split; [reflexivity|]. exists o. reflexivity.
    + injection H as <-. auto.
  - destruct (extract space parse po fp s) as [j|] eqn:Ex; [|discriminate].
    destruct fm; [|destruct (mv j); discriminate]. split; [reflexivity|].
    assert (Hd : forall d, j = JDict d -> NoDup (map fst d)).
    { intros d ->. apply (NS s d eq_refl Ex). }
    destruct p as [|o|].
    + destruct (match_keys lower score order j fields (default_opts URemove)) as [x|e'] eqn:E; cbn [bind] in H.
      { destruct (mv (JDict x)); discriminate. }
      injection H as ->. destruct (K _ _ E Hd) as [[-> X]|(_ & d' & _ & X)]; [|destruct X; reflexivity].
      left. split; [reflexivity|]. right. exists s, j. auto.
    + destruct (match_keys lower score order j fields o) as [x|e'] eqn:E; cbn [bind] in H.
      { destruct (mv (JDict x)); discriminate. }
      injection H as ->. destruct (K _ _ E Hd) as [[-> X]|(-> & _)].
      { left. split; [reflexivity|]. right. exists s, j. auto. }
      right. split; [reflexivity|]. exists o. reflexivity.
    + injection H as <-. auto.
Qed.
Print Assumptions C85_errors.

(** fuzzy_validate_mapping matches the keys of the dict in the text, or of the first
    dict if a list of them is in the text; {} stands for a text without JSON. *)
Theorem C85_mapping : forall P lower score order space parse (to_dict : P -> jv) keys o suppress,
  space 96 = false ->
  let run i := fuzzy_validate_mapping lower score order space parse to_dict i keys o suppress in
  let matched d := fuzzy_match_keys lower score order d keys (mo_thr o) (mo_fuzzy o) (mo_mode o) (mo_fill o)
                     (mo_map o) (mo_strict o) in
  run MNone = Raise TypeError /\
  (forall s d, holds space (parse true) s (JDict d) -> run (MText s) = matched d) /\
  (forall s d l, holds space (parse true) s (JList (JDict d :: l)) -> run (MText s) = matched d) /\
  (forall s bs b d, (exists e, parse true s = Raise e) -> blocks space s bs -> 2 <= length bs ->
     find (fun b => match parse true b with Ret _ => true | Raise _ => false end) bs = Some b ->
     parse true b = Ret (JDict d) -> run (MText s) = matched d) /\
  (forall s, nothing space (parse true) s -> run (MText s) = matched []) /\
  (forall v d, to_dict v = JDict d -> run (MValue v) = matched d) /\
  (forall v, (forall d, to_dict v <> JDict d) ->
     run (MValue v) = if suppress then matched [] else Raise ValueError) /\
  (forall s a, holds space (parse true) s (JAtom a) \/ holds space (parse true) s (JList []) /\ parse true s = Ret (JList []) ->
     run (MText s) = if suppress then matched [] else Raise ValueError).
Proof.
  intros P lower score order space parse to_dict keys o suppress Ht run matched. subst run matched.
  split; [reflexivity|]. split; [|split; [|split; [|split; [|split; [|split]]]]].
  - intros s d H. unfold fuzzy_validate_mapping. rewrite (holds_extract space Ht _ s _ H). reflexivity.
  - intros s d l H. unfold fuzzy_validate_mapping. rewrite (holds_extract space Ht _ s _ H). reflexivity.
  - intros s bs b d (e & He) Hb Hl Hf Hp. unfold fuzzy_validate_mapping, extract_text. rewrite He.
    apply (find_all_blocks space Ht) in Hb. rewrite Hb. destruct bs as [|b1 [|b2 bs]]; cbn [length] in Hl; [lia|lia|].
    assert (E : exists l, flat_map (parsed (parse true)) (b1 :: b2 :: bs) = JDict d :: l).
    { revert Hf. generalize (b1 :: b2 :: bs). induction l as [|c l IH]; [discriminate|]. cbn [find flat_map].
      unfold parsed at 1. destruct (parse true c) as [j|] eqn:Ec.
      - intros [= ->]. rewrite Hp in Ec. injection Ec as <-. exists (flat_map (parsed (parse true)) l). reflexivity.
      - cbn. exact IH. }
    destruct E as (l & ->). reflexivity.
  - intros s H. unfold fuzzy_validate_mapping. rewrite (nothing_extract space Ht _ s H). unfold text_to_dict.
    destruct H as [(e & ->) _]. reflexivity.
  - intros v d H. unfold fuzzy_validate_mapping. rewrite H. reflexivity.
  - intros v H. unfold fuzzy_validate_mapping. destruct (to_dict v) as [d| | |]; try reflexivity.
    destruct (H d eq_refl).
  - intros s a [H|[H Hp]]; unfold fuzzy_validate_mapping; rewrite (holds_extract space Ht _ s _ H); [reflexivity|].
    unfold text_to_dict. rewrite Hp. reflexivity.
Qed.
Print Assumptions C85_mapping.

(** * C86 *)

(** The data of a response: a dict in the text, or the only item of a list in it. *)
Inductive response (space : nat -> bool) (parse : text -> outcome jv) (s : text) (d : jdict) : Prop :=
| r_dict : holds space parse s (JDict d) -> response space parse s d
| r_list : holds space parse s (JList [JDict d]) -> response space parse s d.

Lemma response_parse space parse fz s d : space 96 = false -> response space (parse fz) s d ->
  parse_json space parse fz s = JDict d.
Proof.
  intros Ht [H|H]; unfold parse_json; rewrite (holds_extract space Ht _ s _ H); reflexivity.
Qed.

(** The model is asked about the fields, renamed keys, and (unless strict) the other
    keys of the response; its answer is the result. *)
Theorem C86_response : forall M lower score order space parse fields (model_validate : jv -> outcome M) s d strict fz,
  space 96 = false -> set_order order -> NoDup (map fst d) -> (forall k, sget k d <> Some JUnset) -> fields <> [] ->
  response space (parse fz) s d ->
  let run := validate_response lower score order space parse fields model_validate s strict fz in
  exists pairs out, pairing lower score d fields (17 # 20) pairs /\
  ((strict = true /\ (exists k, spare_input d fields pairs k) /\ run = Raise ValueError) \/
   (carried (negb strict) d fields pairs out /\
    match model_validate (JDict out) with
    | Ret m => run = Ret (Some m)
    | Raise e => if strict then run = Raise e
                 else (In e [ValueError; TypeError; KeyError; AttributeError] /\ run = Ret None) \/
                      (~ In e [ValueError; TypeError; KeyError; AttributeError] /\ run = Raise e)
    end)).
Proof.
  intros M lower score order space parse fields mv s d strict fz Ht Ho ND NU NE HR run. subst run.
  set (mode := if strict then URaise else UIgnore).
  unfold validate_response, fuzzy_match_fields. rewrite (response_parse space parse fz s d Ht HR).
  unfold match_keys. cbn [default_opts mo_thr mo_fuzzy mo_mode mo_fill mo_map mo_strict]. fold mode.
  destruct (fuzzy_match_keys lower score order d fields (17 # 20) true mode JUnset [] false) as [out|e] eqn:E; cbn [bind].
  - destruct (match_result lower score order Ho d fields mode JUnset [] false out (17 # 20) true ND NE
      default_thr_0 default_thr_1) as (pairs & HP & HC & _); [subst mode; destruct strict; auto|exact E|].
    exists pairs, out. split; [exact HP|]. right.
    assert (Hout : filter (fun e => negb (is_unset (snd e))) out = out).
    { assert (Hv : forall e, In e out -> snd e <> JUnset).
      { intros [k v] Hin Hu. cbn in Hu. subst v.
        assert (Hs : sget k out = Some JUnset).
        { destruct HC as [OD _]. clear - Hin OD. induction out as [|[k' v'] out IH]; [destruct Hin|].
          cbn in OD. inversion OD as [|? ? Hni OD']; subst. cbn [sget]. destruct Hin as [[= -> ->]|Hin].
          - destruct (str_eqb_spec k k) as [_|X]; [reflexivity|congruence].
          - destruct (str_eqb_spec k k') as [->|]; [|apply IH; assumption].
            exfalso. apply Hni. apply in_map_iff. exists (k', JUnset). auto. }
        apply (proj2 HC) in Hs. destruct Hs as [[_ X]|[(k0 & _ & X)|(_ & _ & X)]]; eapply NU; exact X. }
      clear - Hv. induction out as [|e out IH]; [reflexivity|]. cbn.
      destruct (snd e) eqn:Es; cbn; try (rewrite IH; [reflexivity|intros x Hx; apply Hv; right; exact Hx]).
      destruct (Hv e (or_introl eq_refl) Es). }
    split; [subst mode; destruct strict; exact HC|]. rewrite Hout.
    destruct (mv (JDict out)) as [m|e]; [reflexivity|]. destruct strict; [rewrite andb_false_r; reflexivity|].
    rewrite andb_true_r. destruct e; cbn [caught]; (left; split; [cbn; tauto|reflexivity]) ||
      (right; split; [cbn; intuition discriminate|reflexivity]).
  - destruct fields as [|f fs]; [congruence|].
    destruct (C45_result jv lower score order d (f :: fs) (17 # 20) true mode JUnset [] false Ho ND NE
      default_thr_0 default_thr_1) as (pairs & HP & _ & _ & X). rewrite E in X. destruct X as [-> [[Hm Hs]|[? _]]]; [|discriminate].
    exists pairs, []. split; [exact HP|]. left. subst mode. destruct strict; [|discriminate].
    split; [reflexivity|]. split; [exact Hs|]. reflexivity.
Qed.
Print Assumptions C86_response.

(** A response without JSON, or with several values, gives None, or TypeError if strict. *)
Theorem C86_unusable : forall M lower score order space parse fields (model_validate : jv -> outcome M) s strict fz,
  space 96 = false ->
  (nothing space (parse fz) s \/ (exists a, holds space (parse fz) s (JAtom a)) \/
   (exists l, holds space (parse fz) s (JList l) /\ length l <> 1) \/
   (exists e bs, parse fz s = Raise e /\ blocks space s bs /\
      2 <= length (filter (fun b => match parse fz b with Ret _ => true | Raise _ => false end) bs))) ->
  validate_response lower score order space parse fields model_validate s strict fz =
  if strict then Raise TypeError else Ret None.
Proof.
  intros M lower score order space parse fields mv s strict fz Ht H.
  assert (K : forall d, parse_json space parse fz s <> JDict d).
  { intro d. unfold parse_json. destruct H as [H|[(a & H)|[(l & H & Hl)|(e & bs & He & Hb & Hl)]]].
    - rewrite (nothing_extract space Ht _ s H). discriminate.
    - rewrite (holds_extract space Ht _ s _ H). discriminate.
    - rewrite (holds_extract space Ht _ s _ H). destruct l as [|x [|y l]]; cbn in Hl; congruence.
    - unfold extract_text. rewrite He. apply (find_all_blocks space Ht) in Hb. rewrite Hb.
      assert (Lf : length (flat_map (parsed (parse fz)) bs) =
                   length (filter (fun b => match parse fz b with Ret _ => true | Raise _ => false end) bs)).
      { clear. induction bs as [|b bs IH]; [reflexivity|]. cbn [flat_map filter]. unfold parsed at 1.
        destruct (parse fz b); cbn; rewrite IH; reflexivity. }
      destruct bs as [|b1 [|b2 bs]]; [cbn in Hl; lia|cbn in Hl; destruct (parse fz b1); cbn in Hl; lia|].
      rewrite <- Lf in Hl. destruct (flat_map _ _) as [|x [|y l]]; [cbn in Hl; lia|cbn in Hl; lia|discriminate]. }
  unfold validate_response, fuzzy_match_fields.
  destruct (parse_json space parse fz s) as [d| | |]; [destruct (K d eq_refl)| | |]; cbn; destruct strict; reflexivity.
Qed.
Print Assumptions C86_unusable.

(** update_model asks the model about the dumped data with the updates put in. *)
Theorem C86_update : forall M (model_validate : jv -> outcome M) dump m updates,
  NoDup (map fst updates) ->
  exists d, update_model model_validate dump m updates = model_validate (JDict d) /\
    forall k, sget k d = match sget k updates with Some v => Some v | None => sget k (dump m) end.
Proof.
  intros M mv dump m updates ND. exists (update (dump m) updates). split; [reflexivity|].
  generalize (dump m). unfold update. induction updates as [|[k0 v0] u IH]; intros d k; [reflexivity|].
  cbn in ND. inversion ND as [|? ? Hni ND']; subst. cbn [fold_left fst snd]. rewrite (IH ND').
  cbn [sget]. destruct (str_eqb_spec k k0) as [->|Hne].
  - destruct (sget k0 u) as [v|] eqn:Es.
    + exfalso. apply Hni. apply sget_key. congruence.
    + apply sget_sset_same.
  - destruct (sget k u); [reflexivity|]. apply sget_sset_other. exact Hne.
Qed.
Print Assumptions C86_update.

(** * Examples *)
(** The model has the fields "name" and "age"; it wants both. *)
Definition k_name : pystr := [110; 97; 109; 101].
Definition k_nam : pystr := [110; 97; 109].
Definition k_age : pystr := [97; 103; 101].
Definition k_zz : pystr := [122; 122].
Definition want (j : jv) : outcome jdict :=
  match j with
  | JDict d => match sget k_name d, sget k_age d with
               | Some (JAtom (-1)), _ => Raise RuntimeError      (* a validator that fails otherwise *)
               | Some _, Some _ => Ret d
               | _, _ => Raise ValueError
               end
  | _ => Raise ValueError
  end.
(** Texts are single letters: a: a dict, l: a list of it, e: the empty list, n: a dict
    with a wrong name, x: no JSON. *)
Definition d_full : jdict := [(k_nam, JAtom 1); (k_age, JAtom 2); (k_zz, JAtom 3)].
Definition letters (fuzzy : bool) (s : text) : outcome jv :=
  match s with
  | [97] => Ret (JDict d_full)
  | [108] => Ret (JList [JDict d_full])
  | [101] => Ret (JList [])
  | [110] => Ret (JDict [(k_name, JAtom (-1)); (k_age, JAtom 2)])
  | _ => Raise ValueError
  end.
Definition close (a b : pystr) : Q := levenshtein_similarity (a ++ a ++ [0]) (b ++ a ++ [0]).
Definition fvp fm p := fuzzy_validate_pydantic (O := unit) (fun w => w) close ord1 sp letters
  (fun _ _ => Raise TypeError) [k_name; k_age] want true fm p.
Definition vr s strict := validate_response (fun w => w) close ord1 sp letters [k_name; k_age] want s strict true.
Definition fvm s o suppress := fuzzy_validate_mapping (P := jv) (fun w => w) close ord1 sp letters (fun v => v) s
  [k_name; k_age] o suppress.

(** Without JSON in the text, key matching fails with TypeError, not ValidationError. *)
Theorem C85_extraction_failure_refuted :
  fvp false PNone (ISource (SText [120])) = VErr EValidation /\
  fvp true PNone (ISource (SText [120])) = VErr (EPy TypeError).
Proof. split; reflexivity. Qed.
Print Assumptions C85_extraction_failure_refuted.
(** A text without JSON is an empty dict, though errors are not to be suppressed. *)
Theorem C85_conversion_error_refuted :
  fvm (MText [120]) (default_opts UIgnore) false = Ret [] /\
  fvm (MText [101]) (default_opts UIgnore) false = Raise ValueError.
Proof. split; reflexivity. Qed.
Print Assumptions C85_conversion_error_refuted.
(** For a model without fields, keys are not removed. *)
Theorem C85_no_fields_refuted :
  fuzzy_validate_pydantic (O := unit) (fun w => w) close ord1 sp letters (fun _ _ => Raise TypeError) []
    (fun j => Ret j) true true PNone (IDict d_full) = VOk (JDict d_full).
Proof. reflexivity. Qed.
Print Assumptions C85_no_fields_refuted.
Example C85_example :
  fvp true PNone (IDict d_full) = VOk [(k_age, JAtom 2); (k_name, JAtom 1)] /\
  fvp true PNone (ISource (SText (block [97]))) = VOk [(k_age, JAtom 2); (k_name, JAtom 1)] /\
  fvp false PNone (IDict d_full) = VErr EValidation /\
  fvp true (POpts (default_opts URaise)) (IDict d_full) = VErr (EPy ValueError) /\
  fvp true PBad (IDict d_full) = VErr (EPy TypeError) /\
  fvm (MText [108]) (default_opts URemove) false = Ret [(k_age, JAtom 2); (k_name, JAtom 1)] /\
  fvm (MText (block [120] ++ block [97])) (default_opts UIgnore) false =
    Ret [(k_age, JAtom 2); (k_name, JAtom 1); (k_zz, JAtom 3)] /\
  fvm (MValue (JAtom 3)) (default_opts UIgnore) true = Ret [] /\
  set_order ord1 /\ (17 # 20 <= close k_nam k_name)%Q.
Proof.
  repeat (split; [vm_compute; reflexivity|]). split; [apply ord1_ok|]. apply Qle_bool_iff. vm_compute. reflexivity.
Qed.

(** An error of a validator that is none of the four kinds comes through. *)
Theorem C86_none_on_failure_refuted : vr [110] false = Raise RuntimeError.
Proof. reflexivity. Qed.
Print Assumptions C86_none_on_failure_refuted.
Example C86_example :
  vr [97] false = Ret (Some [(k_age, JAtom 2); (k_name, JAtom 1); (k_zz, JAtom 3)]) /\
  vr [108] false = Ret (Some [(k_age, JAtom 2); (k_name, JAtom 1); (k_zz, JAtom 3)]) /\
  vr [97] true = Raise ValueError /\ vr [120] false = Ret None /\ vr [120] true = Raise TypeError /\
  vr (block [97] ++ block [97]) false = Ret None /\
  update_model want (fun m => m) [(k_name, JAtom 1); (k_age, JAtom 2)] [(k_age, JAtom 9)] =
    Ret [(k_name, JAtom 1); (k_age, JAtom 9)].
Proof. repeat split; reflexivity. Qed.
