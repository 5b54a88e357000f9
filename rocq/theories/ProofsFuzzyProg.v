From Coq Require Import String.
From Coq Require Import List Bool Arith ZArith QArith Qabs Lia Lqa.
From Verif Require Import PyBase PyFacts ModelLexer ModelParser ModelResolver ModelFuzzy SpecResolver SpecFuzzy SpecSim ProofsResolver ProofsFuzzyName.
Import ListNotations.
Local Close Scope Q_scope.
Local Open Scope string_scope.
Local Open Scope nat_scope.
Local Open Scope list_scope.
#[local] Arguments eqb : simpl never.

Section Fuzzy.
Variables (lowers : text -> text) (score : text -> text -> Q) (order : list text -> list text) (mfields : text -> list text).
Hypothesis (ord : set_order order).
Notation correct_name := (correct_name lowers score).
Notation corrects := (corrects lowers score).

Definition bad (e : exn) : Prop := e = LNDLMissingField \/ e = LNDLAmbiguous \/ e = ValueError.
Lemma raises_not a cands thr e : correct_name a cands thr = Raise e -> bad e /\ forall b, ~ corrects thr cands a b.
Proof. intros E. split; [exact (correct_name_errors _ _ _ _ _ _ E)|]. intros b C. apply corrects_iff in C. congruence. Qed.
Lemma order_In l x : In x (order l) <-> In x l.
Proof. apply ord. Qed.

Lemma correct_all_ok cands thr l d d' :
  correct_all lowers score cands thr l d = Ret d' ->
  (forall a, In a l -> exists b, corrects thr cands a b /\ dget a d' = Some b) /\ (forall a, ~ In a l -> dget a d' = dget a d).
Proof.
  revert d. induction l as [|a l IH]; intros d H; cbn [correct_all] in H.
  - injection H as <-. split; [contradiction|reflexivity].
  - destruct (correct_name a cands thr) as [b|] eqn:E; [|discriminate]. apply corrects_iff in E.
    destruct (IH _ H) as [I1 I2]. split.
    + intros x [<-|I]; [|auto]. destruct (in_dec (list_eq_dec Nat.eq_dec) a l) as [I|N]; [auto|].
      exists b. split; [exact E|]. rewrite I2 by exact N. apply dget_dset_same.
    + intros x N. rewrite I2 by (intros I; apply N; right; exact I). apply dget_dset_other. intros ->. apply N. left. reflexivity.
Qed.
Lemma correct_all_bad cands thr l d e :
  correct_all lowers score cands thr l d = Raise e -> bad e /\ exists a, In a l /\ forall b, ~ corrects thr cands a b.
Proof.
  revert d. induction l as [|a l IH]; intros d H; cbn [correct_all] in H; [discriminate|].
  destruct (correct_name a cands thr) as [b|e'] eqn:E.
  - apply IH in H as (B & x & I & N). split; [exact B|]. exists x. split; [right; exact I|exact N].
  - injection H as ->. apply raises_not in E as [B N]. split; [exact B|]. exists a. split; [left; reflexivity|exact N].
Qed.

Lemma models_of_In lv m : In m (models_of lv) <-> exists a f v, In (a, LMeta m f v) lv.
Proof.
  unfold models_of. rewrite in_flat_map. split.
  - intros ([a [m' f v|v]] & I & I'); cbn in I'; [destruct I' as [<-|[]]; eauto|contradiction].
  - intros (a & f & v & I). exists (a, LMeta m f v). split; [exact I|left; reflexivity].
Qed.
Lemma fields_by_model_ok lv :
  NoDup (dkeys (fields_by_model lv)) /\ (forall m, In m (dkeys (fields_by_model lv)) <-> In m (models_of lv)) /\
  forall m fs, dget m (fields_by_model lv) = Some fs -> forall f, In f fs <-> exists a v, In (a, LMeta m f v) lv.
Proof.
  unfold fields_by_model.
  assert (forall l pre d, lv = pre ++ l -> NoDup (dkeys d) -> (forall m, In m (dkeys d) <-> In m (models_of pre)) ->
    (forall m fs, dget m d = Some fs -> forall f, In f fs <-> exists a v, In (a, LMeta m f v) pre) ->
    let d' := fold_left (fun d e => match snd e with LMeta m f _ => dset m (match dget m d with Some l => l | None => [] end ++ [f]) d | RMeta _ => d end) l d in
    NoDup (dkeys d') /\ (forall m, In m (dkeys d') <-> In m (models_of lv)) /\
    forall m fs, dget m d' = Some fs -> forall f, In f fs <-> exists a v, In (a, LMeta m f v) lv) as G.
  { induction l as [|[a x] l IH]; intros pre d E N K F; cbn [fold_left].
    - rewrite app_nil_r in E. subst pre. auto.
    - apply (IH (pre ++ [(a, x)])).
      + rewrite E, <- app_assoc. reflexivity.
      + destruct x; [apply dkeys_dset_NoDup|]; exact N.
      + intros m. unfold models_of. rewrite flat_map_app, in_app_iff. cbn [flat_map app]. rewrite app_nil_r. fold (models_of pre).
        destruct x as [m' f' v'|v']; cbn [snd]; [rewrite In_dkeys_dset, K; cbn; intuition congruence|rewrite K; cbn; tauto].
      + intros m fs D f. destruct x as [m' f' v'|v']; cbn [snd] in D.
        * rewrite dget_dset in D. destruct (eqb_spec m m') as [->|NE].
          -- injection D as <-. rewrite in_app_iff. split.
             ++ intros [I|[<-|[]]].
                ** destruct (dget m' d) as [fs0|] eqn:D0; [|contradiction]. apply (F _ _ D0) in I as (b & w & I). exists b, w. apply in_app_iff. auto.
                ** exists a, v'. apply in_app_iff. right. left. reflexivity.
             ++ intros (b & w & I). apply in_app_iff in I as [I|[I|[]]].
                ** left. destruct (dget m' d) as [fs0|] eqn:D0; [apply (F _ _ D0); eauto|].
                   exfalso. apply dget_None in D0. apply D0, K, models_of_In. eauto.
                ** right. left. congruence.
          -- rewrite (F _ _ D). split; intros (b & w & I); exists b, w; [apply in_app_iff; auto|].
             apply in_app_iff in I as [I|[I|[]]]; [exact I|congruence].
        * rewrite (F _ _ D). split; intros (b & w & I); exists b, w; [apply in_app_iff; auto|].
          apply in_app_iff in I as [I|[I|[]]]; [exact I|congruence]. }
  apply (G lv [] []); [reflexivity|constructor|reflexivity|discriminate].
Qed.

Section Given.
Variables (t : thresholds) (names : list text) (smap : dict text bool).
Definition flds (m : text) : list text :=
  match dget m smap with Some b => expected_fields mfields names m b | None => [] end.
Notation tm := (th_model t).
Notation tf := (th_field t).
Notation ts := (th_spec t).
Notation tv := (th_lvar t).
Notation models := (dkeys smap).

Lemma correct_fields_ok mc l d d' :
  (forall m m', dget m mc = Some m' -> corrects tm models m m') -> NoDup (dkeys l) ->
  correct_fields lowers score order mfields names smap tf mc l d = Ret d' ->
  (forall m fs, In (m, fs) l -> exists m' c, dget m mc = Some m' /\ dget m d' = Some c /\
     (forall f, In f fs -> exists f', corrects tf (flds m') f f' /\ dget f c = Some f') /\ (forall f, ~ In f fs -> dget f c = None)) /\
  (forall m, ~ In m (dkeys l) -> dget m d' = dget m d).
Proof.
  intros MC. revert d. induction l as [|[m fs] l IH]; intros d N H; cbn [correct_fields] in H.
  - injection H as <-. split; [contradiction|reflexivity].
  - cbn in N. inversion N as [|? ? N1 N2]; subst.
    destruct (dget m mc) as [m'|] eqn:D; [|discriminate]. destruct (dget m' smap) as [b|] eqn:D'; [|discriminate].
    destruct (correct_all _ _ _ _ _ _) as [c|] eqn:C in H; [|discriminate].
    destruct (IH _ N2 H) as [I1 I2]. apply correct_all_ok in C as [C1 C2]. split.
    + intros m0 fs0 [E|I]; [|auto]. injection E as <- <-. exists m', c. split; [exact D|]. split.
      { rewrite I2 by exact N1. apply dget_dset_same. }
      unfold flds. rewrite D'. split.
      * intros f I. apply C1. rewrite order_In. exact I.
      * intros f I. rewrite C2 by (rewrite order_In; exact I). reflexivity.
    + intros x I. rewrite I2 by (intros I'; apply I; right; exact I'). apply dget_dset_other. intros ->. apply I. left. reflexivity.
Qed.
Lemma correct_fields_bad mc l d e :
  (forall m, In m (dkeys l) -> exists m', dget m mc = Some m') -> (forall m m', dget m mc = Some m' -> In m' models) ->
  correct_fields lowers score order mfields names smap tf mc l d = Raise e ->
  bad e /\ exists m fs f m', In (m, fs) l /\ In f fs /\ dget m mc = Some m' /\ forall f', ~ corrects tf (flds m') f f'.
Proof.
  intros T R. revert d. induction l as [|[m fs] l IH]; intros d H; cbn [correct_fields] in H; [discriminate|].
  destruct (T m) as (m' & D); [left; reflexivity|]. rewrite D in H. pose proof (R _ _ D) as I.
  destruct (dget m' smap) as [b|] eqn:D'; [|apply dget_None in D'; contradiction].
  destruct (correct_all _ _ _ _ _ _) as [c|e'] eqn:C in H.
  - apply IH in H as (B & m0 & fs0 & f & m0' & I0 & X); [|intros m0 I0; apply T; right; exact I0].
    split; [exact B|]. exists m0, fs0, f, m0'. split; [right; exact I0|exact X].
  - injection H as ->. apply correct_all_bad in C as (B & f & I' & N). split; [exact B|]. exists m, fs, f, m'.
    rewrite order_In in I'. split; [left; reflexivity|]. split; [exact I'|]. split; [exact D|]. unfold flds. rewrite D'. exact N.
Qed.

Lemma fix_out_ok o d d' :
  fix_out lowers score names ts o d = Ret d' ->
  exists o1, Forall2 (name_fixed lowers score ts names) o o1 /\ d' = fold_left (fun d e => dset (fst e) (snd e) d) o1 d.
Proof.
  revert d. induction o as [|[n v] o IH]; intros d H; cbn [fix_out] in H.
  - injection H as <-. exists []. split; [constructor|reflexivity].
  - destruct (correct_name n names ts) as [n'|] eqn:E; [|discriminate]. apply corrects_iff in E.
    destruct (IH _ H) as (o1 & F & ->). exists ((n', v) :: o1). split; [|reflexivity]. constructor; [|exact F]. split; [exact E|reflexivity].
Qed.
Lemma fix_out_bad o d e :
  fix_out lowers score names ts o d = Raise e -> bad e /\ forall o1, ~ Forall2 (name_fixed lowers score ts names) o o1.
Proof.
  revert d. induction o as [|[n v] o IH]; intros d H; cbn [fix_out] in H; [discriminate|].
  destruct (correct_name n names ts) as [n'|e'] eqn:E.
  - apply IH in H as (B & N). split; [exact B|]. intros o1 F. inversion F as [|? y ? ys ? F']; subst. exact (N _ F').
  - injection H as ->. apply raises_not in E as [B N]. split; [exact B|]. intros o1 F. inversion F as [|? y ? ys F1 ?]; subst.
    destruct F1 as [F1 _]. exact (N _ F1).
Qed.
Lemma fix_list_ok cands thr l l' : fix_list lowers score cands thr l = Ret l' <-> Forall2 (corrects thr cands) l l'.
Proof.
  revert l'. induction l as [|a l IH]; intros l'; cbn [fix_list].
  - split; [intros H; injection H as <-; constructor|]. intros F. inversion F. reflexivity.
  - split.
    + destruct (correct_name a cands thr) as [b|] eqn:E; [|discriminate]. destruct (fix_list _ _ _ _ l) as [r|] eqn:F; [|discriminate].
      intros H. injection H as <-. constructor; [apply corrects_iff; exact E|apply IH; reflexivity].
    + intros F. inversion F as [|? b ? r F1 F2]; subst. apply corrects_iff in F1. rewrite F1. apply IH in F2. rewrite F2. reflexivity.
Qed.
Lemma fix_list_bad cands thr l e : fix_list lowers score cands thr l = Raise e -> bad e /\ forall l', ~ Forall2 (corrects thr cands) l l'.
Proof.
  intros H. split.
  - induction l as [|a l IH]; cbn [fix_list] in H; [discriminate|]. destruct (correct_name a cands thr) as [b|e'] eqn:E.
    + destruct (fix_list _ _ _ _ l) as [r|]; [discriminate|]. injection H as ->. auto.
    + injection H as ->. exact (proj1 (raises_not _ _ _ _ E)).
  - intros l' F. apply fix_list_ok in F. congruence.
Qed.
Lemma refs_fixed_fst cands e e' : refs_fixed lowers score tv cands e e' -> fst e = fst e'.
Proof. intros []; reflexivity. Qed.
Lemma fix_refs_ok cands o d d' :
  fix_refs lowers score cands tv o d = Ret d' ->
  exists o2, Forall2 (refs_fixed lowers score tv cands) o o2 /\ d' = fold_left (fun d e => dset (fst e) (snd e) d) o2 d.
Proof.
  revert d. induction o as [|[n v] o IH]; intros d H; cbn [fix_refs] in H.
  - injection H as <-. exists []. split; [constructor|reflexivity].
  - assert (forall w, (forall l, w <> ORefs l) -> v = w -> fix_refs lowers score cands tv o (dset n w d) = Ret d' ->
       exists o2, Forall2 (refs_fixed lowers score tv cands) ((n, v) :: o) o2 /\ d' = fold_left (fun d e => dset (fst e) (snd e) d) o2 d) as G.
    { intros w NR -> H'. apply IH in H' as (o2 & F & ->). exists ((n, w) :: o2). split; [|reflexivity]. constructor; [|exact F]. constructor. exact NR. }
    destruct v as [l|s|z|s|b]; try (eapply G; [|reflexivity|exact H]; discriminate).
    destruct (fix_list _ _ _ _ l) as [l'|] eqn:E; [|discriminate]. apply fix_list_ok in E.
    apply IH in H as (o2 & F & ->). exists ((n, ORefs l') :: o2). split; [|reflexivity]. constructor; [|exact F]. constructor. exact E.
Qed.
Lemma fix_refs_bad cands o d e :
  fix_refs lowers score cands tv o d = Raise e -> bad e /\ forall o2, ~ Forall2 (refs_fixed lowers score tv cands) o o2.
Proof.
  revert d. induction o as [|[n v] o IH]; intros d H; cbn [fix_refs] in H; [discriminate|].
  assert (forall d', fix_refs lowers score cands tv o d' = Raise e -> bad e /\ forall o2, ~ Forall2 (refs_fixed lowers score tv cands) ((n, v) :: o) o2) as G.
  { intros d' H'. apply IH in H' as [B N]. split; [exact B|]. intros o2 F. inversion F as [|? y ? ys ? F']; subst. exact (N _ F'). }
  destruct v as [l|s|z|s|b]; try (eapply G; exact H).
  destruct (fix_list _ _ _ _ l) as [l'|e'] eqn:E; [eapply G; exact H|]. injection H as ->. apply fix_list_bad in E as [B N].
  split; [exact B|]. intros o2 F. inversion F as [|? y ? ys F1 ?]; subst. inversion F1 as [? ? l2 F2|? ? NR]; subst; [exact (N _ F2)|]. exact (NR l eq_refl).
Qed.

Notation var_fixed := (var_fixed lowers score tm tf models flds).
Notation act_fixed := (act_fixed lowers score tm tf models flds).
Notation all_fixed := (all_fixed lowers score tm tf ts tv models flds names).
Notation correct := (correct lowers score order mfields).

Lemma entries_keys {B} (P : B -> B -> Prop) d d' : entries P d d' -> dkeys d = dkeys d'.
Proof. intros F. unfold dkeys. induction F as [|e e' l l' [H _] F IH]; cbn; [reflexivity|]. f_equal; assumption. Qed.
Lemma entries_map {B} (P : B -> B -> Prop) (g : B -> B) d :
  (forall k x, In (k, x) d -> P x (g x)) -> entries P d (map (fun e => (fst e, g (snd e))) d).
Proof.
  intros H. unfold entries. induction d as [|[k x] d IH]; cbn; constructor.
  - split; [reflexivity|]. apply (H k). left. reflexivity.
  - apply IH. intros k' x' I. apply (H k'). right. exact I.
Qed.

Lemma dict_from_NoDup {B} (l : list (text * B)) : NoDup (dkeys (dict_from l)).
Proof.
  unfold dict_from. assert (forall d : dict text B, NoDup (dkeys d) -> NoDup (dkeys (fold_left (fun d e => dset (fst e) (snd e) d) l d))) as G; [|apply G; constructor].
  induction l as [|[k x] l IH]; intros d N; cbn [fold_left]; [exact N|]. apply IH. apply dkeys_dset_NoDup. exact N.
Qed.
Lemma dict_from_fresh {B} (l : list (text * B)) : NoDup (dkeys l) -> dict_from l = l.
Proof. intros N. unfold dict_from. rewrite sets_fresh; [reflexivity|exact N]. Qed.

Lemma correct_ok lv la o o' lv' la' : correct t names smap lv la o = Ret (o', lv', la') -> all_fixed lv la o lv' la' o'.
Proof.
  unfold ModelFuzzy.correct. destruct (correct_all _ _ _ _ _ _) as [mc|] eqn:M; [|discriminate]. cbn [bind].
  destruct (correct_fields _ _ _ _ _ _ _ _ _ _) as [fc|] eqn:F; [|discriminate]. cbn [bind].
  set (lv1 := map _ lv). set (la1 := map _ la).
  destruct (fix_out _ _ _ _ _ _) as [o1|] eqn:O1; [|discriminate]. cbn [bind].
  destruct (fix_refs _ _ _ _ _ _) as [o2|] eqn:O2; [|discriminate]. cbn [bind]. intros H. injection H as <- <- <-.
  apply correct_all_ok in M as [M1 M2].
  assert (forall m m', dget m mc = Some m' -> In m (models_of lv) /\ corrects tm models m m') as MC.
  { intros m m' D. destruct (in_dec (list_eq_dec Nat.eq_dec) m (order (models_of lv))) as [I|N].
    - split; [rewrite <- order_In; exact I|]. destruct (M1 _ I) as (b & C & D'). rewrite D in D'. injection D' as <-.
      eapply corrects_order; [|exact C]. apply order_In.
    - rewrite (M2 _ N) in D. discriminate. }
  destruct (fields_by_model_ok lv) as (FN & FK & FF).
  apply correct_fields_ok in F as [F1 F2]; [|intros m m' D; apply MC; exact D|exact FN].
  assert (forall a m f v, In (a, LMeta m f v) lv ->
     exists m' f', lookup mc m = m' /\ lookup2 fc m f = f' /\ corrects tm models m m' /\ corrects tf (flds m') f f') as FX.
  { intros a m f v I. assert (In m (models_of lv)) as IM by (apply models_of_In; eauto).
    apply FK in IM. unfold dkeys in IM. apply in_map_iff in IM as ([m0 fs] & E & IF). cbn in E. subst m0.
    pose proof (In_dget _ _ _ FN IF) as DF. destruct (F1 _ _ IF) as (m' & c & D & DC & CI & _).
    assert (In f fs) as If by (apply (FF _ _ DF); eauto). destruct (CI _ If) as (f' & CF & DF').
    exists m', f'. unfold lookup2, lookup. rewrite D, DC, DF'. repeat split; auto. apply MC. exact D. }
  split; [|split].
  - apply entries_map. intros a [m f v|v] I; cbn [fix_var]; [|constructor].
    destruct (FX _ _ _ _ I) as (m' & f' & <- & <- & C1 & C2). constructor; assumption.
  - apply entries_map. intros a [[[m f]|] c] I; unfold fix_act; cbn [am_target am_call]; [|constructor].
    destruct (list_eq_dec Nat.eq_dec m []) as [->|NE]; [constructor|].
    assert (forall X Y : ameta, match m with [] => X | _ => Y end = Y) as -> by (intros; destruct m; congruence).
    destruct (in_dec (list_eq_dec Nat.eq_dec) m (models_of lv)) as [IM|NM].
    + apply FK in IM. unfold dkeys in IM. apply in_map_iff in IM as ([m1 fs] & E & IF). cbn in E. subst m1.
      pose proof (In_dget _ _ _ FN IF) as DF. destruct (F1 _ _ IF) as (m' & c' & D & DC & CI & CN).
      unfold lookup2, lookup. rewrite D, DC. destruct (MC _ _ D) as [IM CM].
      destruct (in_dec (list_eq_dec Nat.eq_dec) f fs) as [If|Nf].
      * destruct (CI _ If) as (f' & CF & ->). apply (FF _ _ DF) in If as (b & w & If). eapply af_field; eauto.
      * rewrite (CN _ Nf). apply models_of_In in IM as (b & g & w & IM). eapply af_model; eauto.
        intros b' w' I'. apply Nf. apply (FF _ _ DF). eauto.
    + assert (dget m mc = None) as D by (destruct (dget m mc) as [m'|] eqn:D; [apply MC in D as [D _]; contradiction|reflexivity]).
      assert (dget m fc = None) as D2. { rewrite F2; [reflexivity|]. rewrite FK. exact NM. }
      unfold lookup2, lookup. rewrite D, D2. constructor. intros b g w I'. apply NM, models_of_In. eauto.
  - apply fix_out_ok in O1 as (oo & FO & ->). exists oo. split; [exact FO|]. apply fix_refs_ok in O2 as (o3 & FR & ->).
    replace (dkeys lv1 ++ dkeys la1) with (dkeys lv ++ dkeys la) in FR by (unfold dkeys, lv1, la1; rewrite !map_map; reflexivity).
    fold (dict_from oo) in FR |- *. fold (dict_from o3). rewrite (dict_from_fresh o3); [exact FR|].
    assert (dkeys (dict_from oo) = dkeys o3) as <-; [|apply dict_from_NoDup].
    clear - FR. unfold dkeys. induction FR as [|e e' l l' H F IH]; cbn; [reflexivity|]. f_equal; [apply refs_fixed_fst in H; exact H|exact IH].
Qed.

Lemma var_fixed_fun x y z : var_fixed x y -> var_fixed x z -> y = z.
Proof.
  intros [v|m f v m' f' C1 C2] H; inversion H as [|? ? ? m2 f2 C3 C4]; subst; [reflexivity|].
  rewrite (corrects_fun _ _ _ _ _ _ _ C1 C3) in *. rewrite (corrects_fun _ _ _ _ _ _ _ C2 C4). reflexivity.
Qed.
Lemma Forall2_fun {A B} (R : A -> B -> Prop) l y z :
  (forall a b c, R a b -> R a c -> b = c) -> Forall2 R l y -> Forall2 R l z -> y = z.
Proof.
  intros H F. revert z. induction F as [|a b l y R1 F IH]; intros z G; inversion G as [|? c ? z' R2 G']; subst; [reflexivity|].
  f_equal; [eapply H; eauto|auto].
Qed.
Lemma act_fixed_fun lv x y z : act_fixed lv x y -> act_fixed lv x z -> y = z.
Proof.
  assert (forall m a b, corrects tm models m a -> corrects tm models m b -> a = b) as CM by (intros; eapply corrects_fun; eauto).
  assert (forall m f a b, corrects tf (flds m) f a -> corrects tf (flds m) f b -> a = b) as CF by (intros; eapply corrects_fun; eauto).
  intros A B. destruct A as [c|f c|m f a v c m' f' NE I C1 C2|m f a g v c m' NE I NI C1|m f c NI];
    inversion B as [c2|f2 c2|m2 f2 a2 v2 c2 m2' f2' NE2 I2 C3 C4|m2 f2 a2 g2 v2 c2 m2' NE2 I2 NI2 C3|m2 f2 c2 NI2]; subst;
    try reflexivity; try congruence; try (exfalso; first [solve [eapply NI2; eauto]|solve [eapply NI; eauto]]).
  - rewrite (CM _ _ _ C1 C3) in *. rewrite (CF _ _ _ _ C2 C4). reflexivity.
  - rewrite (CM _ _ _ C1 C3). reflexivity.
Qed.
Lemma all_fixed_fun lv la o lv1 la1 o1 lv2 la2 o2 :
  all_fixed lv la o lv1 la1 o1 -> all_fixed lv la o lv2 la2 o2 -> lv1 = lv2 /\ la1 = la2 /\ o1 = o2.
Proof.
  intros (V1 & A1 & u1 & N1 & R1) (V2 & A2 & u2 & N2 & R2).
  assert (u1 = u2) as <-.
  { eapply Forall2_fun; [|exact N1|exact N2]. intros a [b vb] [c vc] [C1 E1] [C2 E2]. cbn in *.
    rewrite (corrects_fun _ _ _ _ _ _ _ C1 C2). congruence. }
  split; [|split].
  - eapply Forall2_fun; [|exact V1|exact V2]. intros a [b vb] [c vc] [E1 C1] [E2 C2]. cbn in *. rewrite (var_fixed_fun _ _ _ C1 C2). congruence.
  - eapply Forall2_fun; [|exact A1|exact A2]. intros a [b vb] [c vc] [E1 C1] [E2 C2]. cbn in *. rewrite (act_fixed_fun _ _ _ _ C1 C2). congruence.
  - eapply Forall2_fun; [|exact R1|exact R2]. intros a b c X Y.
    destruct X as [n l l' F|n v NR]; inversion Y as [n2 l2 l2' F2|n2 v2 NR2]; subst; try reflexivity; try (exfalso; eapply NR; reflexivity); try (exfalso; eapply NR2; reflexivity).
    f_equal. f_equal. eapply Forall2_fun; [|exact F|exact F2]. intros x y z. apply corrects_fun.
Qed.
Lemma entries_In {B} (P : B -> B -> Prop) d d' k x : entries P d d' -> In (k, x) d -> exists y, P x y.
Proof. intros F I. induction F as [|e e' l l' [_ H] F IH]; [contradiction|]. destruct I as [->|I]; [cbn in H; eauto|auto]. Qed.

Lemma correct_bad lv la o e : correct t names smap lv la o = Raise e -> bad e /\ forall lv' la' o', ~ all_fixed lv la o lv' la' o'.
Proof.
  unfold ModelFuzzy.correct. destruct (correct_all _ _ _ _ _ _) as [mc|e1] eqn:M; cbn [bind].
  2:{ intros H. injection H as ->. apply correct_all_bad in M as (B & m & I & N). split; [exact B|].
      intros lv' la' o' (V & _). rewrite order_In in I; apply models_of_In in I as (a & f & v & I).
      destruct (entries_In _ _ _ _ _ V I) as (y & Y). inversion Y as [|? ? ? m' f' C1 C2]; subst. apply (N m').
      eapply corrects_order; [|exact C1]. intros c. symmetry. apply order_In. }
  apply correct_all_ok in M as [M1 M2].
  assert (forall m m', dget m mc = Some m' -> corrects tm models m m') as MC.
  { intros m m' D. destruct (in_dec (list_eq_dec Nat.eq_dec) m (order (models_of lv))) as [I|N].
    - destruct (M1 _ I) as (b & C & D'). rewrite D in D'. injection D' as <-.
      eapply corrects_order; [|exact C]. apply order_In.
    - rewrite (M2 _ N) in D. discriminate. }
  destruct (fields_by_model_ok lv) as (FN & FK & FF).
  destruct (correct_fields _ _ _ _ _ _ _ _ _ _) as [fc|e1] eqn:F; cbn [bind].
  2:{ intros H. injection H as ->. apply correct_fields_bad in F as (B & m & fs & f & m' & I & If & D & N).
      - split; [exact B|]. intros lv' la' o' (V & _). apply In_dget in I; [|exact FN]. apply (FF _ _ I) in If as (a & v & If).
        destruct (entries_In _ _ _ _ _ V If) as (y & Y). inversion Y as [|? ? ? m2 f' C1 C2]; subst.
        rewrite <- (corrects_fun _ _ _ _ _ _ _ (MC _ _ D) C1) in C2. exact (N _ C2).
      - intros m I. apply FK in I. destruct (M1 m) as (b & _ & D); [rewrite order_In; exact I|eauto].
      - intros m m' D. apply MC in D. destruct D as [I|b _ _ _ [I _] _]; exact I. }
  set (lv1 := map _ lv). set (la1 := map _ la).
  destruct (fix_out _ _ _ _ _ _) as [o1|e1] eqn:O1; cbn [bind].
  2:{ intros H. injection H as ->. apply fix_out_bad in O1 as [B N]. split; [exact B|]. intros lv' la' o' (_ & _ & oo & FO & _). exact (N _ FO). }
  apply fix_out_ok in O1 as (oo & FO & ->).
  destruct (fix_refs _ _ _ _ _ _) as [o2|e1] eqn:O2; cbn [bind]; [discriminate|].
  intros H. injection H as ->. apply fix_refs_bad in O2 as [B N]. split; [exact B|].
  intros lv' la' o' (_ & _ & o3 & FO' & FR).
  replace (dkeys lv1 ++ dkeys la1) with (dkeys lv ++ dkeys la) in N by (unfold dkeys, lv1, la1; rewrite !map_map; reflexivity).
  assert (oo = o3) as <-.
  { eapply Forall2_fun; [|exact FO|exact FO']. intros a [b vb] [c vc] [C1 E1] [C2 E2]. cbn in *.
    rewrite (corrects_fun _ _ _ _ _ _ _ C1 C2). congruence. }
  exact (N _ FR).
Qed.

Lemma known_iff m f : known mfields names smap m f = true <-> In m models /\ In f (flds m).
Proof.
  unfold known, flds. destruct (dget m smap) as [b|] eqn:D.
  - rewrite existsb_eqb. split; [intros I; split; [|exact I]; apply dget_In in D; apply (in_map fst) in D; exact D|tauto].
  - split; [discriminate|]. intros [_ []].
Qed.
Lemma strict_iff lv la o : strict_ok mfields names smap lv la o = true <-> exact models flds names lv la o.
Proof.
  unfold strict_ok, exact. rewrite !andb_true_iff, !forallb_forall, and_assoc. split.
  - intros (A & B & C). split; [|split].
    + intros a m f v I. apply known_iff. exact (A _ I).
    + intros a m f c I. apply known_iff. exact (B _ I).
    + intros n I. apply existsb_eqb. exact (C _ I).
  - intros (A & B & C). split; [|split].
    + intros [a [m f v|v]] I; cbn; [|reflexivity]. apply known_iff. eauto.
    + intros [a [[[m f]|] c]] I; cbn; [|reflexivity]. apply known_iff. eauto.
    + intros n I. apply existsb_eqb. auto.
Qed.
(** Right spelling is kept. *)
Lemma exact_fixed lv la o :
  exact models flds names lv la o -> NoDup (dkeys o) ->
  (forall n l, In (n, ORefs l) o -> forall a, In a l -> In a (dkeys lv) \/ In a (dkeys la)) ->
  all_fixed lv la o lv la o.
Proof.
  intros (A & B & C) N R.
  assert (forall {X} (P : X -> X -> Prop) (d : dict text X), (forall k x, In (k, x) d -> P x x) -> entries P d d) as G.
  { intros X P d H. unfold entries. induction d as [|[k x] d IH]; constructor; [split; [reflexivity|apply (H k); left; reflexivity]|].
    apply IH. intros k' x' I. apply (H k'). right. exact I. }
  split; [|split].
  - apply G. intros a [m f v|v] I; [|constructor]. destruct (A _ _ _ _ I). constructor; constructor; assumption.
  - apply G. intros a [[[m f]|] c] I; [|constructor]. destruct (list_eq_dec Nat.eq_dec m []) as [->|NE]; [constructor|].
    destruct (B _ _ _ _ I) as [B1 B2].
    destruct (fields_by_model_ok lv) as (FN & FK & FF).
    destruct (in_dec (list_eq_dec Nat.eq_dec) m (models_of lv)) as [IM|NM].
    + pose proof IM as IM'. apply FK in IM'. apply key_dget in IM' as [fs D].
      destruct (in_dec (list_eq_dec Nat.eq_dec) f fs) as [If|Nf].
      * apply (FF _ _ D) in If as (b & w & If). eapply af_field; eauto; constructor; assumption.
      * apply models_of_In in IM as (b & g & w & IM). eapply af_model; eauto; [|constructor; assumption]. intros b' w' I'. apply Nf, (FF _ _ D). eauto.
    + constructor. intros b g w I'. apply NM, models_of_In. eauto.
  - exists o. rewrite dict_from_fresh by exact N. split.
    + assert (forall l, (forall e, In e l -> In e o) -> Forall2 (name_fixed lowers score ts names) l l) as H; [|apply H; auto].
      induction l as [|e l IH]; intros S; constructor; [|apply IH; intros; apply S; right; assumption].
      split; [|reflexivity]. constructor. apply C. apply in_map. apply S. left. reflexivity.
    + assert (forall l, (forall e, In e l -> In e o) -> Forall2 (refs_fixed lowers score tv (dkeys lv ++ dkeys la)) l l) as H; [|apply H; auto].
      induction l as [|[n v] l IH]; intros S; constructor; [|apply IH; intros; apply S; right; assumption].
      destruct v as [r|s|z|s|b]; constructor; try discriminate.
      assert (forall a, In a r -> In a (dkeys lv ++ dkeys la)) as HR.
      { intros a I. apply in_app_iff. apply (R n r); [apply S; left; reflexivity|exact I]. }
      clear - HR. induction r as [|a r IH]; constructor; [constructor; apply HR; left; reflexivity|apply IH; intros; apply HR; right; assumption].
Qed.
Lemma fixed_names lv la o lv' la' o' : all_fixed lv la o lv' la' o' -> NoDup (dkeys o') /\ forall n, In n (dkeys o') -> In n names.
Proof.
  intros (_ & _ & o1 & F & R).
  assert (dkeys (dict_from o1) = dkeys o') as E.
  { unfold dkeys. induction R as [|e e' l l' H R' IH]; cbn; [reflexivity|]. f_equal; [apply refs_fixed_fst in H; exact H|exact IH]. }
  rewrite <- E. split; [apply dict_from_NoDup|]. intros n I.
  assert (In n (dkeys o1)) as I1.
  { clear - I. unfold dict_from in I.
    assert (forall d : dict text oval, In n (dkeys (fold_left (fun d e => dset (fst e) (snd e) d) o1 d)) -> In n (dkeys d) \/ In n (dkeys o1)) as G.
    { clear I. induction o1 as [|[k x] o1 IH]; intros d I; cbn [fold_left] in I; [auto|]. apply IH in I as [I|I]; [|right; right; exact I].
      apply In_dkeys_dset in I as [I|I]; [right; left; symmetry; exact I|left; exact I]. }
    apply G in I as [[]|I]. exact I. }
  clear - F I1. unfold dkeys in I1. induction F as [|e e' l l' [H _] F IH]; [contradiction|]. destruct I1 as [<-|I]; [|auto].
  destruct H as [I|b _ _ _ [I _] _]; exact I.
Qed.
End Given.
End Fuzzy.
