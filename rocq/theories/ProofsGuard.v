(** Proofs for C62. *)
From Coq Require Import String.
From Coq Require Import List Bool Arith Lia.
From Verif Require Import PyBase PyFacts ModelGuard SpecGuard.
Import ListNotations.
Local Open Scope string_scope.
Local Open Scope nat_scope.
Local Open Scope list_scope.
#[local] Arguments eqb : simpl never.

Lemma val_ind' (P : val -> Prop) :
  (forall n f r args, Forall (fun e => P (snd e)) args -> P (VAct n f r args)) ->
  (forall cls fs ex, Forall (fun e => P (snd e)) fs -> Forall (fun e => P (snd e)) ex -> P (VModel cls fs ex)) ->
  (forall k l, Forall P l -> P (VSeq k l)) ->
  (forall l, Forall (fun e => P (snd e)) l -> P (VDict l)) ->
  (forall s, P (VLeaf s)) -> forall v, P v.
Proof.
  intros HA HM HS HD HL. fix IH 1. intros v. destruct v as [n f r args|cls fs ex|k l|l|s].
  - apply HA. induction args as [|e l IHl]; constructor; [apply IH|exact IHl].
  - apply HM; [induction fs as [|e l IHl]|induction ex as [|e l IHl]]; constructor; [apply IH|exact IHl|apply IH|exact IHl].
  - apply HS. induction l as [|e l IHl]; constructor; [apply IH|exact IHl].
  - apply HD. induction l as [|e l IHl]; constructor; [apply IH|exact IHl].
  - apply HL.
Qed.

(** All positions of action calls, in order. *)
Section Each.
Variable spots : val -> list (list step).
Fixpoint espots (st : string -> step) (l : list (string * val)) : list (list step) :=
  match l with [] => [] | (f, v) :: l => map (cons (st f)) (spots v) ++ espots st l end.
Fixpoint nspots (i : nat) (l : list val) : list (list step) :=
  match l with [] => [] | v :: l => map (cons (SIdx i)) (spots v) ++ nspots (S i) l end.
End Each.
Fixpoint spots (v : val) : list (list step) :=
  match v with
  | VAct _ _ _ _ => [[]]
  | VModel _ fs _ => espots spots SField fs
  | VSeq k l => if iterated k then nspots spots 0 l else []
  | VDict l => espots spots SKey l
  | VLeaf _ => []
  end.
Lemma iterated_iff k : iterated k = true <-> k = KList \/ k = KTuple \/ k = KSet.
Proof. destruct k; cbn; intuition discriminate. Qed.

Lemma espots_in sp st l p : In p (espots sp st l) <-> exists f v q, In (f, v) l /\ p = st f :: q /\ In q (sp v).
Proof.
  induction l as [|[f v] l IH]; cbn; [split; [contradiction|intros (f & v & q & [] & _)]|].
  rewrite in_app_iff, IH, in_map_iff. split.
  - intros [(q & <- & I)|(f' & v' & q & I & E & J)]; [exists f, v, q; auto|exists f', v', q; auto].
  - intros (f' & v' & q & [E|I] & -> & J); [injection E as <- <-; left; eauto|right; eauto 6].
Qed.
Lemma nspots_in sp i l p : In p (nspots sp i l) <-> exists j v q, nth_error l j = Some v /\ p = SIdx (i + j) :: q /\ In q (sp v).
Proof.
  revert i. induction l as [|v l IH]; intros i; cbn; [split; [contradiction|intros ([|j] & v & q & E & _); discriminate]|].
  rewrite in_app_iff, IH, in_map_iff. split.
  - intros [(q & <- & I)|(j & v' & q & I & -> & J)]; [exists 0, v, q|exists (S j), v', q]; rewrite ?Nat.add_0_r, ?Nat.add_succ_r; auto.
  - intros ([|j] & v' & q & E & -> & J); cbn in E.
    + injection E as <-. left. exists q. rewrite Nat.add_0_r. auto.
    + right. exists j, v', q. rewrite Nat.add_succ_r. auto.
Qed.
Lemma spots_iff v p : In p (spots v) <-> waits v p.
Proof.
  revert p. induction v as [n f r args IH|cls fs ex IH1 _|k l IH|l IH|s] using val_ind'; intros p; cbn [spots].
  - split.
    + intros [<-|[]]. eexists. split; [constructor|]. do 4 eexists. reflexivity.
    + intros (w & A & _). inversion A; subst. left. reflexivity.
  - rewrite espots_in. rewrite Forall_forall in IH1. split.
    + intros (f & v & q & I & -> & J). apply (IH1 _ I) in J as (w & A & B). exists w. split; [econstructor; eauto|exact B].
    + intros (w & A & B). inversion A; subst; [destruct B as (? & ? & ? & ? & B); discriminate|].
      exists f, v, p0. split; [assumption|]. split; [reflexivity|]. match goal with H : In _ fs |- _ => apply (IH1 _ H) end. exists w. auto.
  - destruct (iterated k) eqn:K.
    + rewrite nspots_in. rewrite Forall_forall in IH. split.
      * intros (j & v & q & I & -> & J). apply (IH _ (nth_error_In _ _ I)) in J as (w & A & B). exists w. split; [|exact B].
        cbn. econstructor; eauto. apply iterated_iff. exact K.
      * intros (w & A & B). inversion A; subst; [destruct B as (? & ? & ? & ? & B); discriminate|].
        exists i, v, p0. split; [assumption|]. split; [reflexivity|]. match goal with H : nth_error l _ = _ |- _ => apply (IH _ (nth_error_In _ _ H)) end. exists w. auto.
    + split; [contradiction|]. intros (w & A & B). inversion A; subst; [destruct B as (? & ? & ? & ? & B); discriminate|].
      match goal with H : _ \/ _ |- _ => apply iterated_iff in H end. congruence.
  - rewrite espots_in. rewrite Forall_forall in IH. split.
    + intros (f & v & q & I & -> & J). apply (IH _ I) in J as (w & A & B). exists w. split; [econstructor; eauto|exact B].
    + intros (w & A & B). inversion A; subst; [destruct B as (? & ? & ? & ? & B); discriminate|].
      exists k, v, p0. split; [assumption|]. split; [reflexivity|]. match goal with H : In _ l |- _ => apply (IH _ H) end. exists w. auto.
  - split; [contradiction|]. intros (w & A & B). inversion A; subst. destruct B as (? & ? & ? & ? & B); discriminate.
Qed.

Lemma NoDup_app_intro {A} (l1 l2 : list A) : NoDup l1 -> NoDup l2 -> (forall x, In x l1 -> In x l2 -> False) -> NoDup (l1 ++ l2).
Proof.
  intros N1 N2 D. induction N1 as [|x l NI N1 IH]; cbn; [exact N2|]. constructor.
  - rewrite in_app_iff. intros [I|I]; [contradiction|]. apply (D x); [left; reflexivity|exact I].
  - apply IH. intros y I J. apply (D y); [right; exact I|exact J].
Qed.
Lemma NoDup_cons_map {A} (x : A) l : NoDup l -> NoDup (map (cons x) l).
Proof. intros N. apply FinFun.Injective_map_NoDup; [intros a b E; injection E; auto|exact N]. Qed.
Lemma espots_NoDup sp st l :
  (forall a b, st a = st b -> a = b) -> NoDup (map fst l) -> Forall (fun e => NoDup (sp (snd e))) l -> NoDup (espots sp st l).
Proof.
  intros INJ N F. induction l as [|[f v] l IH]; cbn; [constructor|]. inversion N as [|? ? NI N']; subst. inversion F as [|? ? F1 F2]; subst.
  apply NoDup_app_intro; [apply NoDup_cons_map; exact F1|auto|]. intros p I J. apply in_map_iff in I as (q & <- & _).
  apply espots_in in J as (f' & v' & q' & I & E & _). injection E as E _. apply INJ in E as ->. apply NI. apply (in_map fst) in I. exact I.
Qed.
Lemma nspots_NoDup sp i l : Forall (fun v => NoDup (sp v)) l -> NoDup (nspots sp i l).
Proof.
  intros F. revert i. induction l as [|v l IH]; intros i; cbn; [constructor|]. inversion F as [|? ? F1 F2]; subst.
  apply NoDup_app_intro; [apply NoDup_cons_map; exact F1|auto|]. intros p I J. apply in_map_iff in I as (q & <- & _).
  apply nspots_in in J as (j & v' & q' & _ & E & _). injection E as E _. lia.
Qed.
Lemma spots_NoDup v : wf v -> NoDup (spots v).
Proof.
  induction v as [n f r args IH|cls fs ex IH1 _|k l IH|l IH|s] using val_ind'; intros W; cbn [spots]; inversion W; subst.
  - constructor; [intros []|constructor].
  - apply espots_NoDup; [congruence|assumption|]. rewrite Forall_forall in *. auto.
  - destruct (iterated k); [|constructor]. apply nspots_NoDup. rewrite Forall_forall in *. auto.
  - apply espots_NoDup; [congruence|assumption|]. rewrite Forall_forall in *. auto.
  - constructor.
Qed.

Lemma check_iff v : check_value v = true <-> exists p, waits v p.
Proof.
  induction v as [n f r args IH|cls fs ex IH1 _|k l IH|l IH|s] using val_ind'; cbn [check_value].
  - split; [|reflexivity]. intros _. exists []. eexists. split; [constructor|]. do 4 eexists. reflexivity.
  - rewrite existsb_exists. rewrite Forall_forall in IH1. split.
    + intros ([f v] & I & C). apply (IH1 _ I) in C as (p & w & A & B). exists (SField f :: p), w. split; [econstructor; eauto|exact B].
    + intros (p & w & A & B). inversion A; subst; [destruct B as (? & ? & ? & ? & B); discriminate|].
      exists (f, v). split; [assumption|]. match goal with H : In _ fs |- _ => apply (IH1 _ H) end. exists p0, w. auto.
  - destruct (iterated k) eqn:K.
    + rewrite existsb_exists. rewrite Forall_forall in IH. split.
      * intros (v & I & C). apply (IH _ I) in C as (p & w & A & B). apply In_nth_error in I as (i & I). exists (SIdx i :: p), w.
        split; [|exact B]. econstructor; eauto. apply iterated_iff. exact K.
      * intros (p & w & A & B). inversion A; subst; [destruct B as (? & ? & ? & ? & B); discriminate|].
        exists v. split; [eapply nth_error_In; eassumption|]. match goal with H : nth_error l _ = _ |- _ => apply (IH _ (nth_error_In _ _ H)) end. exists p0, w. auto.
    + split; [discriminate|]. intros (p & w & A & B). inversion A; subst; [destruct B as (? & ? & ? & ? & B); discriminate|].
      match goal with H : _ \/ _ |- _ => apply iterated_iff in H end. congruence.
  - rewrite existsb_exists. rewrite Forall_forall in IH. split.
    + intros ([f v] & I & C). apply (IH _ I) in C as (p & w & A & B). exists (SKey f :: p), w. split; [econstructor; eauto|exact B].
    + intros (p & w & A & B). inversion A; subst; [destruct B as (? & ? & ? & ? & B); discriminate|].
      exists (k, v). split; [assumption|]. match goal with H : In _ l |- _ => apply (IH _ H) end. exists p0, w. auto.
  - split; [discriminate|]. intros (p & w & A & B). inversion A; subst. destruct B as (? & ? & ? & ? & B); discriminate.
Qed.

Section Show.
Variable num : nat -> string.
Notation pieces := (pieces num).
Lemma sapp_assoc (a b c : string) : (a ++ (b ++ c) = (a ++ b) ++ c)%string.
Proof. induction a as [|x a IH]; [reflexivity|]. cbn. rewrite IH. reflexivity. Qed.
Lemma sapp_nil (a : string) : (a ++ "" = a)%string.
Proof. induction a as [|x a IH]; [reflexivity|]. cbn. rewrite IH. reflexivity. Qed.
Lemma sapp_ne (a b : string) : a <> ""%string -> (a ++ b)%string <> ""%string.
Proof. destruct a; [congruence|discriminate]. Qed.
Lemma each_show st path l s : (forall f, path f = (s ++ piece num (st f))%string) ->
  Forall (fun e => forall t, t <> "" -> find_fields num (snd e) t = map (fun p => (t ++ pieces p)%string) (spots (snd e))) l ->
  (forall f, In f (map fst l) -> path f <> "") ->
  each (find_fields num) path l = map (fun p => (s ++ pieces p)%string) (espots spots st l).
Proof.
  intros HP F N. induction l as [|[f v] l IH]; cbn; [reflexivity|]. inversion F as [|? ? F1 F2]; subst.
  rewrite map_app, map_map, IH; [|assumption|intros; apply N; right; assumption]. f_equal.
  cbn in F1. rewrite F1 by (apply N; left; reflexivity). apply map_ext. intros p. cbn. rewrite HP. symmetry. apply sapp_assoc.
Qed.
Lemma enum_show s i l : s <> "" ->
  Forall (fun v => forall t, t <> "" -> find_fields num v t = map (fun p => (t ++ pieces p)%string) (spots v)) l ->
  enum num (find_fields num) s i l = map (fun p => (s ++ pieces p)%string) (nspots spots i l).
Proof.
  intros N F. revert i. induction l as [|v l IH]; intros i; cbn [enum nspots map]; [reflexivity|]. inversion F as [|? ? F1 F2]; subst.
  rewrite map_app, map_map, IH by assumption. f_equal. rewrite F1 by (apply sapp_ne; exact N). apply map_ext. intros p.
  symmetry. apply sapp_assoc.
Qed.
Lemma find_show v : forall s, s <> "" -> find_fields num v s = map (fun p => (s ++ pieces p)%string) (spots v).
Proof.
  induction v as [n f r args IH|cls fs ex IH1 _|k l IH|l IH|x] using val_ind'; intros s N; cbn [find_fields spots].
  - destruct (eqb_spec s "") as [E|_]; [contradiction|]. cbn. rewrite sapp_nil. reflexivity.
  - destruct (eqb_spec s "") as [E|_]; [contradiction|]. apply each_show; [reflexivity|exact IH1|]. intros f _. apply sapp_ne. exact N.
  - destruct (iterated k); [|reflexivity]. apply enum_show; assumption.
  - apply each_show; [reflexivity|exact IH|]. intros f _. apply sapp_ne. exact N.
  - reflexivity.
Qed.
Lemma find_root cls fs ex : ~ In "" (map fst fs) ->
  find_fields num (VModel cls fs ex) "" = map (show num) (spots (VModel cls fs ex)).
Proof.
  intros N. cbn [find_fields spots]. destruct (eqb_spec "" "") as [_|E]; [|congruence].
  induction fs as [|[f v] fs IH]; cbn; [reflexivity|]. rewrite map_app, map_map, IH by (intros I; apply N; right; exact I). f_equal.
  rewrite find_show by (intros ->; apply N; left; reflexivity). reflexivity.
Qed.
End Show.

Lemma dump_clean v p : ~ waits (dump v) p.
Proof.
  rewrite <- spots_iff. enough (spots (dump v) = []) as -> by (intros []). clear p.
  assert (E : forall st l, Forall (fun e => spots (dump (snd e)) = []) l -> espots spots st (map (fun e => (fst e, dump (snd e))) l) = []).
  { intros st l F. induction F as [|[f v'] l H F IH]; cbn; [reflexivity|]. cbn in H. rewrite H. exact IH. }
  induction v as [n f r args IH|cls fs ex IH1 IH2|k l IH|l IH|s] using val_ind'; cbn [dump].
  - cbn. rewrite (E SKey args IH). reflexivity.
  - cbn [spots]. rewrite <- map_app. apply E. apply Forall_app. split; assumption.
  - assert (forall i, nspots spots i (map dump l) = []) as G.
    { intros i. revert i. induction IH as [|v l H F IHl]; intros i; cbn; [reflexivity|]. rewrite H. apply IHl. }
    destruct k; cbn [spots iterated]; try reflexivity; apply G.
  - cbn [spots]. apply E. exact IH.
  - reflexivity.
Qed.

(** The arguments of re-validation. *)
Definition final (results : dict string val) (e : string * val) : string * val :=
  (fst e, match snd e with VAct n _ _ _ => match dget n results with Some r => r | None => dump (snd e) end | v => dump v end).
Lemma replace_ok results fs : forall done rest,
  NoDup (map fst done ++ map fst fs) ->
  (forall f n a b c, In (f, VAct n a b c) fs -> In n (dkeys results)) ->
  replace results fs (done ++ map (fun e => (fst e, dump (snd e))) fs ++ rest) = Ret (done ++ map (final results) fs ++ rest).
Proof.
  induction fs as [|[f v] fs IH]; intros d rest N H; cbn [replace map app]; [reflexivity|].
  cbn [map fst] in N. assert (N2 : NoDup (map fst (d ++ [final results (f, v)]) ++ map fst fs)).
  { rewrite map_app. cbn. rewrite <- app_assoc. exact N. }
  assert (H2 : forall f n a b c, In (f, VAct n a b c) fs -> In n (dkeys results)) by (intros; eapply H; right; eassumption).
  assert (R : forall w, w = snd (final results (f, v)) ->
    replace results fs (d ++ (f, w) :: map (fun e => (fst e, dump (snd e))) fs ++ rest) = Ret (d ++ final results (f, v) :: map (final results) fs ++ rest)).
  { intros w ->. specialize (IH (d ++ [final results (f, v)]) rest N2 H2). rewrite <- !app_assoc in IH. exact IH. }
  destruct v as [n a b c|cls fs' ex|k l|l|s]; try (apply R; reflexivity).
  cbn [fst snd]. pose proof (H f n a b c (or_introl eq_refl)) as I. apply key_dget in I as (r & G). rewrite G.
  assert (dset f r (d ++ (f, dump (VAct n a b c)) :: map (fun e => (fst e, dump (snd e))) fs ++ rest) =
          d ++ (f, r) :: map (fun e => (fst e, dump (snd e))) fs ++ rest) as ->.
  { apply NoDup_remove_2 in N. assert (~ In f (map fst d)) as ND by (intros X; apply N; apply in_app_iff; auto). clear - ND.
    induction d as [|[k x] d IHd]; cbn.
    - destruct (eqb_spec f f) as [_|E]; [reflexivity|congruence].
    - destruct (eqb_spec f k) as [E|NE]; [exfalso; apply ND; left; symmetry; exact E|]. f_equal. apply IHd. intros X. apply ND. right. exact X. }
  apply R. cbn. rewrite G. reflexivity.
Qed.
Lemma replace_bad results fs kw f n a b c :
  In (f, VAct n a b c) fs -> ~ In n (dkeys results) -> replace results fs kw = Raise ValueError.
Proof.
  revert kw. induction fs as [|[f' v] fs IH]; intros kw I N; [contradiction|]. cbn [replace]. destruct I as [E|I].
  - injection E as -> ->. apply dget_None in N. rewrite N. reflexivity.
  - destruct v as [n' a' b' c'|cls fs' ex|k l|l|s]; try (apply IH; assumption). destruct (dget n' results); [apply IH; assumption|reflexivity].
Qed.
