(** C128: import_module and is_import_installed. *)
From Coq Require Import String.
From Coq Require Import List Bool Arith Lia.
From Verif Require Import ModelImport.
Import ListNotations.
Local Open Scope list_scope.

(** Specification: [p] is a non-empty beginning of [q]. *)
Definition begins (p q : path) : Prop := p <> [] /\ exists r, q = p ++ r.
(** No finder can have it: it is nowhere, or what should contain it is no package. *)
Definition nowhere (W : world) (p : path) : Prop :=
  there W p = false \/ exists q n, p = q ++ [n] /\ q <> [] /\ pkg W q = false.
(** A module that can be imported once its parent is. *)
Definition sound (W : world) (p : path) : Prop := ~ nowhere W p /\ fails W p = None.
(** The attribute [n] of module [p]. *)
Definition value (W : world) (st : list path) (p : path) (n : string) (o : obj) : Prop :=
  (In (p ++ [n]) st /\ o = Mod (p ++ [n])) \/ (~ In (p ++ [n]) st /\ attr W p n = Some o).

Lemma mem_spec p l : mem p l = true <-> In p l.
Proof. unfold mem; destruct (in_dec _ _ _); split; intros; auto; discriminate. Qed.
Lemma mem_false p l : mem p l = false <-> ~ In p l.
Proof. unfold mem; destruct (in_dec _ _ _); split; intros; auto; try discriminate; contradiction. Qed.
Lemma snoc_ne (q : path) n : q ++ [n] <> [].
Proof. destruct q; discriminate. Qed.

Lemma load_spec W st q n st' o : load W st q n = (st', o) ->
  (o = Ret tt /\ st' = st /\ In (q ++ [n]) st)
  \/ (o = Ret tt /\ st' = (q ++ [n]) :: st /\ sound W (q ++ [n]))
  \/ (o = Raise ImportErr /\ st' = st /\ ~ In (q ++ [n]) st /\ nowhere W (q ++ [n]))
  \/ (exists e, o = Raise e /\ st' = st /\ ~ In (q ++ [n]) st /\ there W (q ++ [n]) = true /\ fails W (q ++ [n]) = Some e).
Proof.
  unfold load. destruct (mem (q ++ [n]) st) eqn:M.
  - intros E; injection E as <- <-. left. apply mem_spec in M. auto.
  - apply mem_false in M.
    destruct (match q with [] => true | _ => pkg W q end) eqn:P; destruct (there W (q ++ [n])) eqn:T; cbn [andb negb].
    + destruct (fails W (q ++ [n])) as [e|] eqn:F; intros E; injection E as <- <-.
      * right; right; right. exists e. auto.
      * right; left. repeat split; auto. intros [X|(q' & n' & Q & N & X)]; [congruence|].
        apply app_inj_tail in Q. destruct Q as [<- <-]. destruct q; [contradiction|congruence].
    + intros E; injection E as <- <-. right; right; left. unfold nowhere. auto.
    + intros E; injection E as <- <-. right; right; left. repeat split; auto. right. exists q, n. destruct q; [discriminate|].
      repeat split; auto; discriminate.
    + intros E; injection E as <- <-. right; right; left. unfold nowhere. auto.
Qed.

Definition reason (W : world) (st : list path) (p : path) (e : iexn) : Prop :=
  ~ In p st /\ ((e = ImportErr /\ nowhere W p) \/ (there W p = true /\ fails W p = Some e)).

Lemma imp_spec W rest : forall st q st' o, imp W st q rest = (st', o) ->
  incl st st'
  /\ (forall p, In p st' -> In p st \/ (exists a b, a <> [] /\ rest = a ++ b /\ p = q ++ a /\ sound W p))
  /\ (o = Ret tt -> forall a b, a <> [] -> rest = a ++ b -> In (q ++ a) st')
  /\ (forall e, o = Raise e -> exists a b, a <> [] /\ rest = a ++ b /\ reason W st' (q ++ a) e
       /\ forall c d, c <> [] -> d <> [] -> a = c ++ d -> In (q ++ c) st').
Proof.
  induction rest as [|n t IH]; intros st q st' o E.
  - cbn in E. injection E as <- <-. split; [apply incl_refl|]. split; [auto|]. split.
    + intros _ a b N Q. destruct a; [contradiction|discriminate].
    + discriminate.
  - cbn [imp] in E. destruct (load W st q n) as [s1 o1] eqn:L. apply load_spec in L.
    assert (K : forall s1, (In (q ++ [n]) s1 /\ incl st s1 /\ (forall p, In p s1 -> In p st \/ (p = q ++ [n] /\ sound W p))) ->
      imp W s1 (q ++ [n]) t = (st', o) ->
      incl st st'
      /\ (forall p, In p st' -> In p st \/ (exists a b, a <> [] /\ n :: t = a ++ b /\ p = q ++ a /\ sound W p))
      /\ (o = Ret tt -> forall a b, a <> [] -> n :: t = a ++ b -> In (q ++ a) st')
      /\ (forall e, o = Raise e -> exists a b, a <> [] /\ n :: t = a ++ b /\ reason W st' (q ++ a) e
           /\ forall c d, c <> [] -> d <> [] -> a = c ++ d -> In (q ++ c) st')).
    { clear - IH. intros s1 (I1 & I2 & I3) E. destruct (IH _ _ _ _ E) as (A & B & C & D). split; [eapply incl_tran; eauto|]. split; [|split].
      - intros p I. destruct (B p I) as [J|(a & b & N & Q & -> & S)].
        + destruct (I3 p J) as [J'|[-> S]]; [auto|]. right. exists [n], t. repeat split; try apply S; discriminate.
        + right. exists (n :: a), b. rewrite <- app_assoc in *. cbn in *. subst t. repeat split; try apply S; discriminate.
      - intros R a b N Q. destruct a as [|x a]; [contradiction|]. cbn in Q. injection Q as <- Q.
        destruct a as [|y a]; [apply A; exact I1|].
        specialize (C R (y :: a) b ltac:(discriminate) Q). rewrite <- app_assoc in C. exact C.
      - intros e R. destruct (D e R) as (a & b & N & Q & X & Y). exists (n :: a), b. rewrite <- app_assoc in X. cbn in X. subst t.
        split; [discriminate|]. split; [reflexivity|]. split; [exact X|]. intros c d NC ND Z. destruct c as [|x c]; [contradiction|].
        cbn in Z. injection Z as <- Z. destruct c as [|y c]; [apply A; exact I1|].
        specialize (Y (y :: c) d ltac:(discriminate) ND Z). rewrite <- app_assoc in Y. exact Y. }
    destruct L as [(-> & -> & I)|[(-> & -> & S)|[(-> & -> & M & X)|(e & -> & -> & M & T & F)]]].
    + apply (K st); auto. split; [exact I|]. split; [apply incl_refl|auto].
    + apply (K ((q ++ [n]) :: st)); auto. split; [left; reflexivity|]. split; [apply incl_tl, incl_refl|].
      intros p [<-|I]; auto.
    + injection E as <- <-. split; [apply incl_refl|]. split; [auto|]. split; [discriminate|].
      intros e Q. injection Q as <-. exists [n], t. unfold reason. repeat split; auto; try discriminate.
      intros c d NC ND Z. destruct c as [|x [|y c]]; [contradiction| |discriminate Z]. destruct d; [contradiction|discriminate Z].
    + injection E as <- <-. split; [apply incl_refl|]. split; [auto|]. split; [discriminate|].
      intros e' Q. injection Q as <-. exists [n], t. unfold reason. repeat split; auto; try discriminate.
      intros c d NC ND Z. destruct c as [|x [|y c]]; [contradiction| |discriminate Z]. destruct d; [contradiction|discriminate Z].
Qed.

Lemma from_spec W p ns : forall st st' o, fromlist W st p ns = (st', o) ->
  incl st st'
  /\ (forall x, In x st' -> In x st \/ (exists n, In n ns /\ x = p ++ [n] /\ sound W x))
  /\ (forall e, o = Raise e -> exists n, In n ns /\ reason W st' (p ++ [n]) e).
Proof.
  induction ns as [|n t IH]; intros st st' o E; cbn [fromlist] in E.
  - injection E as <- <-. split; [apply incl_refl|]. split; [auto|discriminate].
  - assert (K : forall s1, incl st s1 -> (forall x, In x s1 -> In x st \/ (x = p ++ [n] /\ sound W x)) ->
      fromlist W s1 p t = (st', o) ->
      incl st st' /\ (forall x, In x st' -> In x st \/ (exists m, In m (n :: t) /\ x = p ++ [m] /\ sound W x))
      /\ (forall e, o = Raise e -> exists m, In m (n :: t) /\ reason W st' (p ++ [m]) e)).
    { intros s1 I J F. destruct (IH _ _ _ F) as (A & B & C). split; [eapply incl_tran; eauto|]. split.
      - intros x X. destruct (B x X) as [Y|(m & M & Q & S)].
        + destruct (J x Y) as [Z|[Q S]]; [auto|]. right. exists n. split; [left; reflexivity|auto].
        + right. exists m. split; [right; exact M|auto].
      - intros e R. destruct (C e R) as (m & M & Q). exists m. split; [right; exact M|exact Q]. }
    destruct (getattr W st p n) as [v|].
    + apply (K st); auto. apply incl_refl.
    + destruct (pkg W p && there W (p ++ [n])).
      * destruct (load W st p n) as [s1 o1] eqn:L. apply load_spec in L.
        destruct L as [(-> & -> & I)|[(-> & -> & S)|[(-> & -> & M & X)|(e & -> & -> & M & T & F)]]].
        -- apply (K st); auto. apply incl_refl.
        -- apply (K ((p ++ [n]) :: st)); auto. { apply incl_tl, incl_refl. } intros x [<-|X]; auto.
        -- injection E as <- <-. split; [apply incl_refl|]. split; [auto|]. intros e Q. injection Q as <-.
           exists n. unfold reason. split; [left; reflexivity|auto].
        -- injection E as <- <-. split; [apply incl_refl|]. split; [auto|]. intros e' Q. injection Q as <-.
           exists n. unfold reason. split; [left; reflexivity|auto].
      * apply (K st); auto. apply incl_refl.
Qed.

Lemma F2_length {A B} (R : A -> B -> Prop) l l' : Forall2 R l l' -> length l = length l'.
Proof. induction 1; cbn; congruence. Qed.
Lemma getattr_value W st p n o : getattr W st p n = Some o <-> value W st p n o.
Proof.
  unfold getattr, value. destruct (mem (p ++ [n]) st) eqn:M.
  - apply mem_spec in M. split; [intros Q; injection Q as <-; auto|]. intros [[_ ->]|[N _]]; [reflexivity|contradiction].
  - apply mem_false in M. split; [auto|]. intros [[I _]|[_ Q]]; [contradiction|exact Q].
Qed.
Lemma getattrs_spec W st p ns :
  match getattrs W st p ns with
  | Ret l => Forall2 (value W st p) ns l
  | Raise e => e = AttributeErr /\ exists n, In n ns /\ ~ In (p ++ [n]) st /\ attr W p n = None
  end.
Proof.
  induction ns as [|n t IH]; cbn [getattrs]; [constructor|].
  destruct (getattr W st p n) as [o|] eqn:G.
  - apply getattr_value in G. destruct (getattrs W st p t) as [l|e]; [constructor; auto|].
    destruct IH as (-> & m & M & Q). split; [reflexivity|]. exists m. split; [right; exact M|exact Q].
  - split; [reflexivity|]. exists n. split; [left; reflexivity|]. unfold getattr in G.
    destruct (mem (p ++ [n]) st) eqn:M; [discriminate|]. apply mem_false in M. auto.
Qed.

Lemma from_tried W p ns : forall st st', fromlist W st p ns = (st', Ret tt) ->
  forall n, In n ns -> In (p ++ [n]) st' \/ attr W p n <> None \/ pkg W p = false \/ there W (p ++ [n]) = false.
Proof.
  induction ns as [|m t IH]; intros st st' E n I; [destruct I|]. cbn [fromlist] in E.
  destruct (getattr W st p m) as [v|] eqn:G.
  - destruct I as [<-|I]; [|exact (IH _ _ E n I)]. unfold getattr in G. destruct (mem (p ++ [m]) st) eqn:M.
    + left. apply from_spec in E. apply E. now apply mem_spec.
    + right; left. congruence.
  - destruct (pkg W p) eqn:P; [destruct (there W (p ++ [m])) eqn:T|]; cbn [andb] in E.
    + destruct (load W st p m) as [s1 o1] eqn:L. apply load_spec in L.
      destruct L as [(-> & -> & J)|[(-> & -> & S)|[(-> & _)|(e & -> & _)]]]; try discriminate E.
      * destruct I as [<-|I]; [|exact (IH _ _ E n I)]. left. apply from_spec in E. apply E. exact J.
      * destruct I as [<-|I]; [|exact (IH _ _ E n I)]. left. apply from_spec in E. apply E. left. reflexivity.
    + destruct I as [<-|I]; [auto|exact (IH _ _ E n I)].
    + auto.
Qed.

(** Whatever the outcome, what was imported stays so, and only what was asked for and the packages around it can be new. *)
Theorem C128_kept W st pk m ns st' r : import_module W st pk m ns = (st', r) ->
  incl st st' /\ forall p, In p st' -> In p st \/ (sound W p /\ (begins p (pk ++ m) \/ exists n, In n ns /\ p = (pk ++ m) ++ [n])).
Proof.
  unfold import_module, full. destruct (imp W st [] (pk ++ m)) as [s1 o1] eqn:I. apply imp_spec in I. destruct I as (A & B & _).
  assert (H : forall p, In p s1 -> In p st \/ (sound W p /\ (begins p (pk ++ m) \/ exists n, In n ns /\ p = (pk ++ m) ++ [n]))).
  { intros p I. destruct (B p I) as [J|(a & b & N & Q & -> & S)]; [auto|]. right. split; [exact S|]. left. split; [exact N|]. exists b. exact Q. }
  destruct o1; [|intros E; injection E as <- <-; auto].
  destruct ns as [|n t]; [intros E; injection E as <- <-; auto|].
  destruct (fromlist W s1 (pk ++ m) (n :: t)) as [s2 o2] eqn:F. apply from_spec in F. destruct F as (C & D & _).
  assert (G : incl st s2 /\ forall p, In p s2 -> In p st \/ (sound W p /\ (begins p (pk ++ m) \/ exists x, In x (n :: t) /\ p = (pk ++ m) ++ [x]))).
  { split; [eapply incl_tran; eauto|]. intros p P. destruct (D p P) as [J|(x & X & -> & S)]; [auto|]. right. split; [exact S|]. right. eauto. }
  destruct o2; intros E; injection E as <- <-; exact G.
Qed.
Print Assumptions C128_kept.

(** Without names: everything on the way is imported, and the answer is the package that the path begins with. *)
Theorem C128_plain W st pk m st' r : pk <> [] -> import_module W st pk m [] = (st', Ret r) ->
  (forall p, begins p (pk ++ m) -> In p st') /\ exists top rest, pk = top :: rest /\ r = RObj (Mod [top]).
Proof.
  unfold import_module, full. intros N. destruct (imp W st [] (pk ++ m)) as [s1 o1] eqn:I. apply imp_spec in I. destruct I as (_ & _ & C & _).
  destruct o1 as [[]|]; [|discriminate]. intros E; injection E as <- <-. split.
  - intros p (P & b & Q). exact (C eq_refl p b P Q).
  - destruct pk as [|top rest]; [contradiction|]. exists top, rest. auto.
Qed.
Print Assumptions C128_plain.

(** With names: their values in the order of the names; one name gives the value itself and no list. *)
Theorem C128_names W st pk m ns st' r : ns <> [] -> import_module W st pk m ns = (st', Ret r) ->
  (forall p, begins p (pk ++ m) -> In p st')
  /\ exists l, Forall2 (value W st' (pk ++ m)) ns l
     /\ ((length ns = 1 /\ exists o, l = [o] /\ r = RObj o) \/ (1 < length ns /\ r = RList l)).
Proof.
  unfold import_module, full. intros N. destruct (imp W st [] (pk ++ m)) as [s1 o1] eqn:I. apply imp_spec in I. destruct I as (_ & _ & C & _).
  destruct o1 as [[]|]; [|discriminate]. destruct ns as [|n t]; [contradiction|].
  destruct (fromlist W s1 (pk ++ m) (n :: t)) as [s2 o2] eqn:F. apply from_spec in F. destruct F as (A & _ & _).
  destruct o2; [|discriminate]. intros E. pose proof (f_equal fst E) as E1; apply (f_equal snd) in E; cbn [fst snd] in E, E1; subst st'. split.
  - intros p (P & b & Q). apply A. exact (C eq_refl p b P Q).
  - pose proof (getattrs_spec W s2 (pk ++ m) (n :: t)) as G. destruct (getattrs W s2 (pk ++ m) (n :: t)) as [l|e]; [|discriminate].
    exists l. split; [exact G|]. apply F2_length in G. destruct l as [|o [|o' l]]; [discriminate G| |]; injection E as <-.
    + left. split; [exact G|]. eauto.
    + right. split; [rewrite G; cbn; lia|reflexivity].
Qed.
Print Assumptions C128_names.

(** Every error has one of three reasons, and says which; what comes before it on the way is imported. *)
Theorem C128_raises W st pk m ns st' e : pk <> [] -> import_module W st pk m ns = (st', Raise e) ->
  (exists p, ~ In p st' /\ (begins p (pk ++ m) \/ exists n, In n ns /\ p = (pk ++ m) ++ [n])
             /\ ((e = ImportErr /\ nowhere W p) \/ (there W p = true /\ fails W p = Some e))
             /\ forall x, begins x p -> x <> p -> In x st')
  \/ (e = AttributeErr /\ (forall x, begins x (pk ++ m) -> In x st')
      /\ exists n, In n ns /\ ~ In ((pk ++ m) ++ [n]) st' /\ attr W (pk ++ m) n = None /\ nowhere W ((pk ++ m) ++ [n])).
Proof.
  intros NE. unfold import_module, full. destruct (imp W st [] (pk ++ m)) as [s1 o1] eqn:I. apply imp_spec in I. destruct I as (_ & _ & P1 & D).
  destruct o1 as [o1|e1].
  2:{ intros E; injection E as <- <-. destruct (D e1 eq_refl) as (a & b & N & Q & (R1 & R2) & Y). left. exists a. split; [exact R1|].
      split; [left; split; [exact N|]; exists b; exact Q|]. split; [exact R2|]. intros x (X & d & Z) NX. apply (Y x d X); [|exact Z].
      intros ->. rewrite app_nil_r in Z. congruence. }
  destruct ns as [|n t]; [discriminate|].
  destruct (fromlist W s1 (pk ++ m) (n :: t)) as [s2 o2] eqn:F. pose proof (from_spec _ _ _ _ _ _ F) as (P2 & _ & C).
  assert (P3 : o1 = tt) by now destruct o1. subst o1.
  assert (P4 : forall x, begins x (pk ++ m) -> In x s2) by (intros x (X & b & Q); apply P2; exact (P1 eq_refl x b X Q)).
  destruct o2 as [[]|e2].
  - intros E. pose proof (f_equal fst E) as E1; apply (f_equal snd) in E; cbn [fst snd] in E, E1; subst st'. pose proof (getattrs_spec W s2 (pk ++ m) (n :: t)) as G.
    destruct (getattrs W s2 (pk ++ m) (n :: t)) as [[|? [|? ?]]|e']; try discriminate E. injection E as <-. right.
    destruct G as (-> & x & X & N & V). split; [reflexivity|]. split; [exact P4|]. exists x. repeat split; auto.
    destruct (from_tried _ _ _ _ _ F x X) as [T|[T|[T|T]]]; [contradiction|contradiction| |left; exact T].
    right. exists (pk ++ m), x. repeat split; auto. destruct pk; [contradiction|discriminate].
  - intros E; injection E as <- <-. destruct (C e2 eq_refl) as (x & X & R1 & R2). left. exists ((pk ++ m) ++ [x]). split; [exact R1|]. split; [eauto|]. split; [exact R2|].
    intros y (Y & d & Z) NY. apply P4. split; [exact Y|]. destruct (exists_last (l:=d)) as (d' & k & ->).
    + intros ->. rewrite app_nil_r in Z. congruence.
    + rewrite app_assoc in Z. apply app_inj_tail in Z. exists d'. apply Z.
Qed.
Print Assumptions C128_raises.

Lemma imp_done W rest : forall st q, (forall a b, a <> [] -> rest = a ++ b -> In (q ++ a) st) -> imp W st q rest = (st, Ret tt).
Proof.
  induction rest as [|n t IH]; intros st q H; cbn [imp]; [reflexivity|]. unfold load.
  rewrite (proj2 (mem_spec (q ++ [n]) st) (H [n] t ltac:(discriminate) eq_refl)). apply IH.
  intros a b N Q. rewrite <- app_assoc. apply (H (n :: a) b); [discriminate|]. cbn. now rewrite Q.
Qed.
Lemma from_done W p st ns l : Forall2 (value W st p) ns l -> fromlist W st p ns = (st, Ret tt) /\ getattrs W st p ns = Ret l.
Proof.
  induction 1 as [|n o t l V F [IH1 IH2]]; cbn [fromlist getattrs]; [auto|]. apply getattr_value in V. rewrite V, IH1, IH2. auto.
Qed.

(** What succeeded once gives the same again, and runs the code of no module. *)
Theorem C128_again W st pk m ns st' r : pk <> [] -> import_module W st pk m ns = (st', Ret r) -> import_module W st' pk m ns = (st', Ret r).
Proof.
  intros N E. destruct ns as [|n t].
  - destruct (C128_plain _ _ _ _ _ _ N E) as (A & top & rest & -> & ->). unfold import_module, full.
    rewrite imp_done; [reflexivity|]. intros a b X Q. apply A. split; [exact X|]. exists b. exact Q.
  - assert (NN : n :: t <> []) by discriminate. destruct (C128_names _ _ _ _ _ _ _ NN E) as (A & l & V & R). unfold import_module, full.
    rewrite imp_done; [|intros a b X Q; apply A; split; [exact X|]; exists b; exact Q].
    destruct (from_done _ _ _ _ _ V) as [-> ->]. destruct R as [(_ & o & -> & ->)|(L & ->)]; [reflexivity|].
    apply F2_length in V. rewrite V in L. destruct l as [|? [|? ?]]; cbn in L; try lia. reflexivity.
Qed.
Print Assumptions C128_again.

(** is_import_installed imports the packages around the module and never the module; with them imported its answer is right. *)
Theorem C128_installed W st q n st' r : is_import_installed W st q n = (st', r) ->
  incl st st' /\ (forall p, In p st' -> In p st \/ (sound W p /\ begins p q))
  /\ match r with
     | Ret true => In (q ++ [n]) st \/ ((forall p, begins p q -> In p st') /\ there W (q ++ [n]) = true)
     | Ret false => ~ In (q ++ [n]) st' /\ there W (q ++ [n]) = false
     | Raise e => exists p, ~ In p st' /\ begins p (q ++ [n]) /\ ((e = ImportErr /\ nowhere W p) \/ (begins p q /\ fails W p = Some e))
     end.
Proof.
  unfold is_import_installed. destruct (mem (q ++ [n]) st) eqn:M.
  - apply mem_spec in M. intros E; injection E as <- <-. split; [apply incl_refl|]. auto.
  - apply mem_false in M. destruct (imp W st [] q) as [s1 o1] eqn:I. apply imp_spec in I. destruct I as (A & B & C & D).
    assert (H : forall p, In p s1 -> In p st \/ (sound W p /\ begins p q)).
    { intros p P. destruct (B p P) as [J|(a & b & N & Q & -> & S)]; [auto|]. right. split; [exact S|]. split; [exact N|]. exists b. exact Q. }
    assert (G : ~ In (q ++ [n]) s1).
    { intros P. destruct (H _ P) as [J|(_ & _ & x & Q)]; [contradiction|]. apply (f_equal (@length _)) in Q. rewrite !app_length in Q. cbn in Q. lia. }
    destruct o1 as [[]|e].
    + destruct (match q with [] => true | _ => pkg W q end) eqn:P; intros E; injection E as <- <-; (split; [exact A|]; split; [exact H|]).
      * destruct (there W (q ++ [n])) eqn:T; [|auto]. right. split; [|reflexivity]. intros p (N & b & Q). exact (C eq_refl p b N Q).
      * exists (q ++ [n]). split; [exact G|]. split; [split; [apply snoc_ne|]; exists []; now rewrite app_nil_r|]. left. split; [reflexivity|].
        right. exists q, n. destruct q; [discriminate|]. repeat split; auto; discriminate.
    + intros E; injection E as <- <-. split; [exact A|]. split; [exact H|]. destruct (D e eq_refl) as (a & b & N & Q & (R1 & R2) & _).
      exists a. split; [exact R1|]. split; [split; [exact N|]; exists (b ++ [n]); rewrite Q at 1; now rewrite app_assoc|].
      destruct R2 as [R2|[_ R2]]; [auto|]. right. split; [|exact R2]. split; [exact N|]. exists b. exact Q.
Qed.
Print Assumptions C128_installed.

(** ** Examples: package a with modules a.b (defines x) and a.c (raises), a module z *)
Local Open Scope string_scope.
Definition exw : world := World
  (fun p => mem p [["a"]; ["a"; "b"]; ["a"; "c"]; ["z"]; ["z"; "w"]])
  (fun p => if mem p [["a"; "c"]] then Some (Own 7) else None)
  (fun p => mem p [["a"]])
  (fun p n => if mem (p ++ [n])%list [["a"; "b"; "x"]] then Some (Val 1) else None).

(** The documented use of a path gives the module: it does not, for a dotted one. *)
Theorem C128_plain_refuted : exists W pk m st', import_module W [] pk m [] = (st', Ret (RObj (Mod ["a"]))) /\ (pk ++ m)%list = ["a"; "b"].
Proof. exists exw, ["a"], ["b"], [["a"; "b"]; ["a"]]. split; reflexivity. Qed.
Print Assumptions C128_plain_refuted.
(** is_import_installed need not answer at all. *)
Theorem C128_installed_refuted : exists W q n, is_import_installed W [] q n = ([], Raise ImportErr).
Proof. exists exw, ["q"], "r". reflexivity. Qed.
Print Assumptions C128_installed_refuted.

Example C128_ex_one : import_module exw [] ["a"] ["b"] ["x"] = ([["a"; "b"]; ["a"]], Ret (RObj (Val 1))).
Proof. reflexivity. Qed.
Example C128_ex_submodule : import_module exw [] ["a"] [] ["b"] = ([["a"; "b"]; ["a"]], Ret (RObj (Mod ["a"; "b"]))).
Proof. reflexivity. Qed.
Example C128_ex_two : import_module exw [] ["a"] ["b"] ["x"; "x"] = ([["a"; "b"]; ["a"]], Ret (RList [Val 1; Val 1])).
Proof. reflexivity. Qed.
Example C128_ex_no_name : import_module exw [] ["a"] ["b"] ["y"] = ([["a"; "b"]; ["a"]], Raise AttributeErr).
Proof. reflexivity. Qed.
Example C128_ex_fails : import_module exw [] ["a"] [] ["b"; "c"] = ([["a"; "b"]; ["a"]], Raise (Own 7)).
Proof. reflexivity. Qed.
Example C128_ex_no_package : import_module exw [] ["z"] ["y"] [] = ([["z"]], Raise ImportErr).
Proof. reflexivity. Qed.
Example C128_ex_installed : is_import_installed exw [] ["a"] "c" = ([["a"]], Ret true) /\ is_import_installed exw [] ["a"] "d" = ([["a"]], Ret false)
  /\ is_import_installed exw [] ["z"] "y" = ([["z"]], Raise ImportErr).
Proof. repeat split. Qed.
Example C128_ex_inside_module : import_module exw [] ["z"] ["w"] [] = ([["z"]], Raise ImportErr).
Proof. reflexivity. Qed.
