(** C101: a Flow shared by threads. *)
From Coq Require Import String.
From Coq Require Import List Bool Arith Lia.
From Verif Require Import PyBase PyFacts ModelProgression ModelFlow ModelFlowThreads.
Import ListNotations.
#[local] Arguments eqb : simpl never.

(** Vocabulary *)
Definition held (s : store) (p : prog) : Prop := In p (dvals (progs s)).
Definition carries (p : prog) (n : string) : Prop := pg_name p = Some n /\ n <> ""%string.
Definition integrity (s : store) : Prop := forall p x, held s p -> In x (pg_order p) -> In x (items s).
(** What a flow without calls under way looks like: distinct items and progressions, found under
    their ids, with distinct names, which are indexed, and no references to other items. *)
Definition good (s : store) : Prop :=
  NoDup (items s) /\ NoDup (dkeys (progs s)) /\ NoDup (dkeys (names s)) /\
  (forall u p, In (u, p) (progs s) -> pg_id p = u) /\
  (forall n u, In (n, u) (names s) <-> exists p, In (u, p) (progs s) /\ carries p n) /\
  integrity s.

Lemma carries_truthy p n : carries p n <-> truthy_name (pg_name p) = Some n.
Proof.
  unfold carries, truthy_name. destruct (pg_name p) as [m|].
  - destruct (String.eqb_spec m "") as [->|Hm]; split.
    + intros [[= <-] H]. congruence.
    + discriminate.
    + intros [[= <-] _]. reflexivity.
    + intros [= <-]. auto.
  - split; [intros [? _]|]; discriminate.
Qed.

(** ** The invariant *)
Definition nm (s : store) (u : uuid) : option (option string) :=
  option_map (fun p => truthy_name (pg_name p)) (dget u (progs s)).

Definition locked (x : pc) : bool :=
  match x with
  | AP1 _ | AP2 _ | AP3 _ | AP4 _ | RP1 _ | RP2 _ _ | RP3 _ | RP4 _ | RQ1 _ | RQ2 _ _
  | GP1 _ | GP2 _ | AIG _ _ _ | AIH _ _ _ => true
  | _ => false
  end.
Definition holder (c : cfg) : option pc := match lock c with Some t => Some (pcs c t) | None => None end.

Definition exempt (h : option pc) (u : uuid) : Prop :=
  match h with
  | Some (AP4 p) => pg_id p = u
  | Some (RP3 v) | Some (RP4 v) => v = u
  | _ => False
  end.
Definition phase (h : option pc) (s : store) : Prop :=
  match h with
  | Some (AP2 p) | Some (AP3 p) => forall n, truthy_name (pg_name p) = Some n -> dget n (names s) = None
  | Some (AP4 p) => nm s (pg_id p) = Some (truthy_name (pg_name p)) /\
      forall n, truthy_name (pg_name p) = Some n -> dget n (names s) = None
  | Some (RP2 n u) => dget n (names s) = Some u
  | Some (RP3 u) | Some (RP4 u) => forall n, nm s u = Some (Some n) -> dget n (names s) = None
  | Some (RQ2 u n) => nm s u = Some n
  | _ => True
  end.

Record keyed (s : store) : Prop := {
  k_items : NoDup (items s);
  k_progs : NoDup (dkeys (progs s));
  k_names : NoDup (dkeys (names s));
  k_id : forall u p, dget u (progs s) = Some p -> pg_id p = u
}.
Record index (h : option pc) (s : store) : Prop := {
  x_sound : forall n u, dget n (names s) = Some u -> nm s u = Some (Some n);
  x_full : forall n u, nm s u = Some (Some n) -> dget n (names s) = Some u \/ exempt h u;
  x_phase : phase h s
}.
Record inv (c : cfg) : Prop := {
  i_lock : forall t, locked (pcs c t) = true <-> lock c = Some t;
  i_keyed : keyed (st c);
  i_index : index (holder c) (st c)
}.

Lemma upd_same f t x : upd f t x t = x.
Proof. unfold upd. rewrite Nat.eqb_refl. reflexivity. Qed.
Lemma upd_other f t x t' : t' <> t -> upd f t x t' = f t'.
Proof. intros H. unfold upd. destruct (Nat.eqb_spec t' t); congruence. Qed.

(** Same names index and same names of progressions: the index stays right. *)
Lemma index_same h s s' : names s' = names s -> (forall u, nm s' u = nm s u) -> index h s -> index h s'.
Proof.
  intros E N [A B C]. constructor.
  - intros n u. rewrite E, N. apply A.
  - intros n u. rewrite E, N. apply B.
  - destruct h as [x|]; [|exact I]. destruct x; cbn in *; rewrite ?E; try setoid_rewrite N; auto.
Qed.

Lemma free_index s h : index h s ->
  (forall u, exempt h u -> forall n, nm s u = Some (Some n) -> dget n (names s) = Some u) -> index None s.
Proof.
  intros [A B C] H. constructor; [exact A| |exact I].
  intros n u Hu. left. destruct (B n u Hu) as [?|He]; [assumption|]. apply H; assumption.
Qed.

Lemma lock_step c t (x : pc) s l :
  (forall t', locked (pcs c t') = true <-> lock c = Some t') ->
  locked x = locked (pcs c t) ->
  forall t', locked (pcs (Cfg s (lock c) (upd (pcs c) t x) l) t') = true <-> lock c = Some t'.
Proof.
  intros H E t'. cbn. destruct (Nat.eq_dec t' t) as [->|Hn].
  - rewrite upd_same, E. apply H.
  - rewrite upd_other by exact Hn. apply H.
Qed.

Lemma lock_free c t (x : pc) s l :
  (forall t', locked (pcs c t') = true <-> lock c = Some t') ->
  locked (pcs c t) = true -> locked x = false ->
  forall t', locked (pcs (Cfg s None (upd (pcs c) t x) l) t') = true <-> @None tid = Some t'.
Proof.
  intros H Ht E t'. cbn. split; [|discriminate]. destruct (Nat.eq_dec t' t) as [->|Hn].
  - rewrite upd_same, E. discriminate.
  - rewrite upd_other by exact Hn. intros H'. apply H in H'. apply H in Ht. congruence.
Qed.

(** An unlocked step. *)
Lemma inv_unlocked c t x s l : inv c -> locked (pcs c t) = false -> locked x = false ->
  keyed s -> names s = names (st c) -> (forall u, nm s u = nm (st c) u) ->
  inv (Cfg s (lock c) (upd (pcs c) t x) l).
Proof.
  intros [L K X] Ht Hx Ks E N. constructor; cbn [st].
  - assert (El : locked x = locked (pcs c t)) by congruence. exact (lock_step c t x s l L El).
  - exact Ks.
  - assert (Lt : lock c <> Some t) by (intros H; apply L in H; congruence).
    unfold holder in *. cbn [lock pcs]. destruct (lock c) as [t'|].
    + assert (Hn : t' <> t) by congruence.
      rewrite upd_other by exact Hn. eapply index_same; eauto.
    + eapply index_same; eauto.
Qed.

(** A step inside the lock, and one that ends with letting it go. *)
Lemma inv_inside c t x s l : inv c -> locked (pcs c t) = true -> locked x = true ->
  keyed s -> index (Some x) s -> inv (Cfg s (lock c) (upd (pcs c) t x) l).
Proof.
  intros [L K X] Ht Hx Ks Xs. constructor; cbn [st].
  - assert (El : locked x = locked (pcs c t)) by congruence. exact (lock_step c t x s l L El).
  - exact Ks.
  - unfold holder. cbn [lock pcs]. apply L in Ht. rewrite Ht, upd_same. exact Xs.
Qed.
Lemma inv_free c t x s l : inv c -> locked (pcs c t) = true -> locked x = false ->
  keyed s -> index None s -> inv (Cfg s None (upd (pcs c) t x) l).
Proof.
  intros [L K X] Ht Hx Ks Xs. constructor; cbn [st].
  - apply (lock_free c t x s l L Ht Hx).
  - exact Ks.
  - exact Xs.
Qed.
Lemma inv_take c t x : inv c -> locked (pcs c t) = false -> locked x = true ->
  (forall s, phase (Some x) s) -> (forall u, ~ exempt (Some x) u) -> inv (take c t x).
Proof.
  intros HI Ht Hx Hp He. unfold take. destruct (lock c) as [t'|] eqn:El; [exact HI|].
  destruct HI as [L K X]. constructor; cbn [st lock pcs].
  - intros t'. destruct (Nat.eq_dec t' t) as [->|Hn].
    + rewrite upd_same. tauto.
    + rewrite upd_other by exact Hn. rewrite L, El. split; congruence.
  - exact K.
  - unfold holder in *. rewrite El in X. cbn [lock pcs]. rewrite upd_same. destruct X as [A B C].
    constructor; [exact A| |apply Hp]. intros n u Hu. destruct (B n u Hu) as [?|[]]. auto.
Qed.

Lemma nm_dset s u p v : nm (set_progs (dset u p (progs s)) s) v =
  if Nat.eqb v u then Some (truthy_name (pg_name p)) else nm s v.
Proof.
  unfold nm. cbn. destruct (Nat.eqb_spec v u) as [->|Hn].
  - rewrite dget_dset_same. reflexivity.
  - rewrite dget_dset_other by congruence. reflexivity.
Qed.
Lemma nm_ddel s u v : NoDup (dkeys (progs s)) -> nm (set_progs (ddel u (progs s)) s) v =
  if Nat.eqb v u then None else nm s v.
Proof.
  intros H. unfold nm. cbn. destruct (Nat.eqb_spec v u) as [->|Hn].
  - rewrite dget_ddel_same by exact H. reflexivity.
  - rewrite dget_ddel_other by congruence. reflexivity.
Qed.

(** Changing the order of a held progression changes no names. *)
Lemma nm_order s u p q : dget u (progs s) = Some p -> pg_name q = pg_name p ->
  forall v, nm (set_progs (dset u q (progs s)) s) v = nm s v.
Proof.
  intros H E v. rewrite nm_dset. destruct (Nat.eqb_spec v u) as [->|Hn]; [|reflexivity].
  unfold nm. rewrite H, E. reflexivity.
Qed.
Lemma keyed_order s u p q : keyed s -> dget u (progs s) = Some p -> pg_id q = pg_id p ->
  keyed (set_progs (dset u q (progs s)) s).
Proof.
  intros [A B C D] H E. constructor; cbn; auto.
  - apply dkeys_dset_NoDup; exact B.
  - intros v r Hr. destruct (Nat.eq_dec v u) as [->|Hn].
    + rewrite dget_dset_same in Hr. injection Hr as <-. rewrite E. apply D. exact H.
    + rewrite dget_dset_other in Hr by congruence. apply D. exact Hr.
Qed.
Lemma keyed_names s x : keyed s -> NoDup (dkeys x) -> keyed (set_names x s).
Proof. intros [A B C D] H. constructor; cbn; auto. Qed.
Lemma keyed_items s x : keyed s -> NoDup x -> keyed (set_items x s).
Proof. intros [A B C D] H. constructor; cbn; auto. Qed.

Lemma dget_ddel_cases (n m : string) (d : dict string uuid) (u : uuid) : NoDup (dkeys d) ->
  dget n (ddel m d) = Some u -> n <> m /\ dget n d = Some u.
Proof.
  intros H E. destruct (string_dec n m) as [->|Hn].
  - rewrite dget_ddel_same in E by exact H. discriminate.
  - rewrite dget_ddel_other in E by congruence. auto.
Qed.

Lemma NoDup_snoc' (x : uuid) l : NoDup l -> ~ In x l -> NoDup (l ++ [x]).
Proof. intros H1 H2. apply (NoDup_Add (Add_app x l [])). rewrite app_nil_r. auto. Qed.

Lemma inv_step c t a : inv c -> inv (tstep c t a).
Proof.
  intros HI. pose proof (i_keyed _ HI) as K. pose proof (i_index _ HI) as X.
  pose proof (i_lock _ HI) as L.
  assert (HX : locked (pcs c t) = true -> index (Some (pcs c t)) (st c)).
  { intros Ht. apply L in Ht. unfold holder in X. rewrite Ht in X. exact X. }
  assert (U : forall x l, locked (pcs c t) = false -> locked x = false ->
            inv (Cfg (st c) (lock c) (upd (pcs c) t x) l)).
  { intros x l H1 H2. apply inv_unlocked; auto. }
  assert (IN : forall x l, locked (pcs c t) = true -> locked x = true -> index (Some x) (st c) ->
            inv (Cfg (st c) (lock c) (upd (pcs c) t x) l)).
  { intros x l H1 H2 H3. apply inv_inside; auto. }
  assert (FR : forall x l, locked (pcs c t) = true -> locked x = false -> index None (st c) ->
            inv (Cfg (st c) None (upd (pcs c) t x) l)).
  { intros x l H1 H2 H3. apply inv_free; auto. }
  unfold tstep, to, stop, free. cbn [st lock pcs log].
  destruct (pcs c t) eqn:E; cbn [locked] in *; try specialize (HX eq_refl).
  - (* Idle *) destruct a as [| |[]| |]; try exact HI; apply U; auto.
  - (* Want *) destruct c0; try exact HI; apply inv_take; auto; try (rewrite E; reflexivity); cbn; auto.
  - (* AP1 *) destruct HX as [A B C]. destruct (truthy_name (pg_name p)) as [n|] eqn:En.
    + destruct (dmem n (names (st c))) eqn:D.
      * apply FR; auto. constructor; auto; exact I.
      * apply IN; auto. constructor; auto. cbn. intros n' Hn. rewrite En in Hn. injection Hn as <-.
        apply dget_None. apply dmem_false. exact D.
    + apply IN; auto. constructor; auto. cbn. intros n' Hn. congruence.
  - (* AP2 *) destruct HX as [A B C]. destruct (missing (st c) p).
    + apply FR; auto. constructor; auto; exact I.
    + apply IN; auto. constructor; auto.
  - (* AP3 *) destruct HX as [A B C]. destruct (dmem (pg_id p) (progs (st c))) eqn:D.
    + apply FR; auto. constructor; auto; exact I.
    + assert (N0 : nm (st c) (pg_id p) = None).
      { unfold nm. apply dmem_false, dget_None in D. rewrite D. reflexivity. }
      apply inv_inside; auto.
      * rewrite E. reflexivity.
      * destruct K as [K1 K2 K3 K4]. constructor; cbn; auto; [apply dkeys_dset_NoDup; exact K2|].
        intros u q Hq. destruct (Nat.eq_dec u (pg_id p)) as [->|Hn].
        -- rewrite dget_dset_same in Hq. congruence.
        -- rewrite dget_dset_other in Hq by congruence. auto.
      * constructor.
        -- intros n u Hn. rewrite nm_dset. cbn in Hn. specialize (A n u Hn).
           destruct (Nat.eqb_spec u (pg_id p)) as [->|_]; [congruence|exact A].
        -- intros n u. rewrite nm_dset. cbn [names set_progs]. destruct (Nat.eqb_spec u (pg_id p)) as [->|_].
           ++ intros _. right. reflexivity.
           ++ intros H. destruct (B n u H) as [?|[]]. auto.
        -- cbn. rewrite nm_dset, Nat.eqb_refl. split; [reflexivity|exact C].
  - (* AP4 *) destruct HX as [A B [C1 C2]]. destruct (truthy_name (pg_name p)) as [n|] eqn:En.
    + apply inv_free; auto.
      * rewrite E. reflexivity.
      * apply keyed_names; [exact K|]. apply dkeys_dset_NoDup. apply K.
      * specialize (C2 n eq_refl). constructor; cbn [names set_names]; [| |exact I].
        -- intros n' u. change (nm (set_names (dset n (pg_id p) (names (st c))) (st c)) u) with (nm (st c) u).
           destruct (string_dec n' n) as [->|Hn].
           ++ rewrite dget_dset_same. intros [= <-]. exact C1.
           ++ rewrite dget_dset_other by congruence. apply A.
        -- intros n' u. change (nm (set_names (dset n (pg_id p) (names (st c))) (st c)) u) with (nm (st c) u).
           intros H. left. destruct (B n' u H) as [H'|H'].
           ++ rewrite dget_dset_other; [exact H'|]. intros ->. congruence.
           ++ cbn in H'. subst u. rewrite C1 in H. injection H as ->. apply dget_dset_same.
    + apply FR; auto. eapply free_index; [constructor; [exact A|exact B|]|].
      * cbn. rewrite En. auto.
      * cbn. intros u <- n Hn. congruence.
  - (* RP1 *) destruct HX as [A B C].
    assert (G : forall u, inv (Cfg (st c) (lock c) (upd (pcs c) t (RQ1 u)) (log c))).
    { intros u. apply IN; auto. constructor; auto; exact I. }
    destruct r as [n q|u|u]; auto. destruct (dget n (names (st c))) as [u|] eqn:D.
    + apply IN; auto. constructor; auto.
    + destruct q as [u|]; auto. apply FR; auto. constructor; auto; exact I.
  - (* RP2 *) destruct HX as [A B C]. cbn in C. apply inv_inside; auto.
    + rewrite E. reflexivity.
    + apply keyed_names; [exact K|]. apply dkeys_ddel_NoDup. apply K.
    + assert (Kn : NoDup (dkeys (names (st c)))) by apply K.
      constructor; cbn [names set_names].
      * intros n u' Hn. apply dget_ddel_cases in Hn; [|exact Kn]. apply (A n u'). apply Hn.
      * intros n u' Hn. change (nm (st c) u' = Some (Some n)) in Hn.
        destruct (B n u' Hn) as [H|[]]. destruct (string_dec n s) as [->|Hne].
        -- right. cbn. congruence.
        -- left. rewrite dget_ddel_other by congruence. exact H.
      * cbn [phase names set_names]. intros n Hn. change (nm (st c) u = Some (Some n)) in Hn.
        pose proof (A _ _ C) as A'. rewrite A' in Hn. injection Hn as <-. apply dget_ddel_same. exact Kn.
  - (* RP3 *) destruct HX as [A B C]. destruct (dmem u (progs (st c))) eqn:D.
    + apply IN; auto. constructor; auto.
    + apply FR; auto. eapply free_index; [constructor; [exact A|exact B|exact C]|].
      cbn. intros u' <- n Hn. exfalso. unfold nm in Hn. apply dmem_false, dget_None in D. rewrite D in Hn. discriminate.
  - (* RP4 *) destruct HX as [A B C]. destruct (dget u (progs (st c))) as [p|] eqn:D.
    + assert (Kp : NoDup (dkeys (progs (st c)))) by apply K.
      apply inv_free; auto.
      * rewrite E. reflexivity.
      * destruct K as [K1 K2 K3 K4]. constructor; cbn; auto; [apply dkeys_ddel_NoDup; exact K2|].
        intros v q Hq. destruct (Nat.eq_dec v u) as [->|Hn].
        -- rewrite dget_ddel_same in Hq by exact K2. discriminate.
        -- rewrite dget_ddel_other in Hq by congruence. auto.
      * constructor; [| |exact I]; intros n v; rewrite nm_ddel by exact Kp; cbn [names set_progs].
        -- intros Hn. pose proof (A n v Hn) as A'. destruct (Nat.eqb_spec v u) as [->|_]; [|exact A'].
           cbn in C. rewrite (C n A') in Hn. discriminate.
        -- destruct (Nat.eqb_spec v u) as [->|Hv]; [discriminate|].
           intros Hn. destruct (B n v Hn) as [?|H]; [auto|]. cbn in H. congruence.
    + apply FR; auto. eapply free_index; [constructor; [exact A|exact B|exact C]|].
      cbn. intros u' <- n Hn. exfalso. unfold nm in Hn. rewrite D in Hn. discriminate.
  - (* RQ1 *) destruct HX as [A B C]. destruct (dget u (progs (st c))) as [p|] eqn:D.
    + apply IN; auto. constructor; auto. cbn. unfold nm. rewrite D. reflexivity.
    + apply FR; auto. constructor; auto; exact I.
  - (* RQ2 *) destruct HX as [A B C]. cbn in C.
    assert (Kn : NoDup (dkeys (names (st c)))) by apply K.
    destruct n as [n|].
    + assert (D : dget n (names (st c)) = Some u) by (destruct (B n u C) as [?|[]]; assumption).
      assert (M : dmem n (names (st c)) = true) by (apply dmem_true; eapply dget_Some_key; exact D).
      rewrite M. apply inv_inside; auto.
      * rewrite E. reflexivity.
      * apply keyed_names; [exact K|]. apply dkeys_ddel_NoDup. apply K.
      * constructor; cbn [names set_names].
        -- intros n' u' Hn. apply dget_ddel_cases in Hn; [|exact Kn]. apply (A n' u'). apply Hn.
        -- intros n' u' Hn. change (nm (st c) u' = Some (Some n')) in Hn.
           destruct (B n' u' Hn) as [H|[]]. destruct (string_dec n' n) as [->|Hne].
           ++ right. cbn. congruence.
           ++ left. rewrite dget_ddel_other by congruence. exact H.
        -- cbn [phase names set_names]. intros n' Hn. change (nm (st c) u = Some (Some n')) in Hn.
           rewrite C in Hn. injection Hn as <-. apply dget_ddel_same. exact Kn.
    + apply IN; auto. constructor; auto.
      * intros n' u' Hn. destruct (B n' u' Hn) as [?|[]]. auto.
      * cbn. intros n' Hn. congruence.
  - (* GP1 *) destruct HX as [A B C].
    assert (G : forall u, inv (Cfg (st c) (lock c) (upd (pcs c) t (GP2 u)) (log c))).
    { intros u. apply IN; auto. constructor; auto; exact I. }
    destruct r as [n q|u|u]; auto. destruct (dget n (names (st c))) as [u|]; auto.
    destruct q as [u|]; auto. apply FR; auto. constructor; auto; exact I.
  - (* GP2 *) destruct HX as [A B C].
    destruct (dget u (progs (st c))) as [p|]; apply FR; auto; constructor; auto; exact I.
  - (* AI0 *) destruct (memb x (items (st c))) eqn:M; [apply U; auto|].
    apply inv_unlocked; auto; try (rewrite E; reflexivity). apply keyed_items; [exact K|].
    apply NoDup_snoc'; [apply K|]. apply memb_notIn. exact M.
  - (* AI1 *) destruct rs as [|[]]; apply U; auto.
  - (* AIW *) apply inv_take; auto; try (rewrite E; reflexivity); cbn; auto.
  - (* AIG *) destruct HX as [A B C].
    assert (G : forall u, inv (Cfg (st c) (lock c) (upd (pcs c) t (AIH x u rs)) (log c))).
    { intros u. apply IN; auto. constructor; auto; exact I. }
    destruct r as [n q|u|u]; auto. destruct (dget n (names (st c))) as [u|]; auto.
    destruct q as [u|]; auto. apply FR; auto. constructor; auto; exact I.
  - (* AIH *) destruct HX as [A B C].
    destruct (dmem u (progs (st c))); apply FR; auto; constructor; auto; exact I.
  - (* AIA *) destruct (dget u (progs (st c))) as [p|] eqn:D; [|apply U; auto].
    apply inv_unlocked; auto; try (rewrite E; reflexivity).
    + eapply keyed_order; eauto.
    + eapply nm_order; eauto.
  - (* RI1 *) destruct (nth_error _ _); apply U; auto.
  - (* RI2 *) destruct (dmem u (progs (st c))); apply U; auto.
  - (* RI3 *) destruct (dget u (progs (st c))) as [p|]; [destruct (memb x (pg_order p))|]; apply U; auto.
  - (* RI4 *) destruct (dget u (progs (st c))) as [p|] eqn:D; [|apply U; auto].
    destruct (remove_first x (pg_order p)) as [o|]; [|apply U; auto].
    apply inv_unlocked; auto; try (rewrite E; reflexivity).
    + eapply keyed_order; eauto.
    + eapply nm_order; eauto.
  - (* RI5 *) destruct (remove_first x (items (st c))) as [l|] eqn:R; [|apply U; auto].
    apply inv_unlocked; auto; try (rewrite E; reflexivity). apply keyed_items; [exact K|].
    eapply remove_first_NoDup; [|exact R]. apply K.
Qed.

Lemma good_inv s : good s -> inv (init s).
Proof.
  intros (G1 & G2 & G3 & G4 & G5 & G6). constructor; cbn [st init].
  - intros t. cbn. split; discriminate.
  - constructor; auto. intros u p H. apply G4. apply dget_In. exact H.
  - constructor; [| |exact I].
    + intros n u H. apply dget_In, G5 in H. destruct H as (p & Hp & Hc). unfold nm.
      rewrite (In_dget _ _ _ G2 Hp). cbn. f_equal. apply carries_truthy. exact Hc.
    + intros n u H. left. apply In_dget; [exact G3|]. apply G5. unfold nm in H.
      destruct (dget u (progs s)) as [p|] eqn:D; [|discriminate]. exists p. split; [apply dget_In; exact D|].
      apply carries_truthy. cbn in H. congruence.
Qed.

Lemma inv_run sched : forall c, inv c -> inv (trun c sched).
Proof. induction sched as [|[t a] sched IH]; intros c H; cbn; [exact H|]. apply IH, inv_step, H. Qed.

Lemma held_dget c p : inv c -> held (st c) p -> dget (pg_id p) (progs (st c)) = Some p.
Proof.
  intros HI H. unfold held, dvals in H. apply in_map_iff in H. destruct H as ([u q] & E & H).
  cbn in E. subst q. assert (K := i_keyed _ HI). apply In_dget in H; [|apply K].
  rewrite (k_id _ K _ _ H). exact H.
Qed.
Lemma held_nm c p n : inv c -> held (st c) p -> carries p n -> nm (st c) (pg_id p) = Some (Some n).
Proof.
  intros HI H Hc. unfold nm. rewrite (held_dget c p HI H). cbn. f_equal. apply carries_truthy. exact Hc.
Qed.

(** ** C101 *)

(** No two items with one id, no two progressions with one id, no two progressions with one
    name: in every state of every execution. *)
Theorem C101_unique s sched : good s ->
  let f := st (trun (init s) sched) in
  NoDup (items f) /\
  (forall p q, held f p -> held f q -> pg_id p = pg_id q -> p = q) /\
  (forall p q n, held f p -> held f q -> carries p n -> carries q n -> p = q).
Proof.
  intros G. assert (HI := inv_run sched _ (good_inv s G)). set (c := trun (init s) sched) in *. cbn zeta.
  assert (Q : forall p q, held (st c) p -> held (st c) q -> pg_id p = pg_id q -> p = q).
  { intros p q Hp Hq E. apply (held_dget c _ HI) in Hp, Hq. congruence. }
  split; [apply (i_keyed _ HI)|]. split; [exact Q|].
  intros p q n Hp Hq Cp Cq. apply Q; [exact Hp|exact Hq|].
  apply (held_nm c _ n HI) in Hp; [|exact Cp]. apply (held_nm c _ n HI) in Hq; [|exact Cq].
  destruct (i_index _ HI) as [A B C]. destruct (B _ _ Hp) as [Ip|Ep], (B _ _ Hq) as [Iq|Eq]; try congruence.
  - exfalso. destruct (holder c) as [x|]; [|destruct Eq].
    destruct x; try contradiction; cbn in C, Eq.
    + destruct C as [C1 C2]. rewrite Eq, Hq in C1. injection C1 as C1. rewrite (C2 n (eq_sym C1)) in Ip. discriminate.
    + subst u. rewrite (C n Hq) in Ip. discriminate.
    + subst u. rewrite (C n Hq) in Ip. discriminate.
  - exfalso. destruct (holder c) as [x|]; [|destruct Ep].
    destruct x; try contradiction; cbn in C, Ep.
    + destruct C as [C1 C2]. rewrite Ep, Hp in C1. injection C1 as C1. rewrite (C2 n (eq_sym C1)) in Iq. discriminate.
    + subst u. rewrite (C n Hp) in Iq. discriminate.
    + subst u. rewrite (C n Hp) in Iq. discriminate.
  - destruct (holder c) as [x|]; [|destruct Ep]. destruct x; try contradiction; cbn in Ep, Eq; congruence.
Qed.
Print Assumptions C101_unique.


(** Between the calls of add_progression, remove_progression and get_progression (add_item and
    remove_item may be under way), get_progression finds what is held, by name and by id, and
    only that. *)
Theorem C101_lookup s sched t : good s -> let c := trun (init s) sched in
  lock c = None -> pcs c t = Idle ->
  (forall p n q, held (st c) p -> carries p n ->
     log (trun c (repeat (t, GetProg (ByText n q)) 4)) = log c ++ [(t, Ret (Prog_ p))]) /\
  (forall p, held (st c) p ->
     log (trun c (repeat (t, GetProg (ById (pg_id p))) 4)) = log c ++ [(t, Ret (Prog_ p))]) /\
  (forall n, (forall p, held (st c) p -> ~ carries p n) ->
     log (trun c (repeat (t, GetProg (ByText n None)) 3)) = log c ++ [(t, Raise KeyError)]) /\
  (forall u, (forall p, held (st c) p -> pg_id p <> u) ->
     log (trun c (repeat (t, GetProg (ById u)) 4)) = log c ++ [(t, Raise NotFoundError)]).
Proof.
  intros G c Hl Ht. assert (HI : inv c) by (apply inv_run, good_inv, G). clearbody c.
  assert (X := i_index _ HI). unfold holder in X. rewrite Hl in X. destruct X as [A B _].
  assert (S1 : forall r, (forall u, r <> ByObj u) ->
            tstep c t (GetProg r) = Cfg (st c) None (upd (pcs c) t (Want (GetProg r))) (log c)).
  { intros r Hr. unfold tstep. rewrite Ht. unfold to. rewrite Hl. destruct r; try reflexivity. congruence. }
  assert (S2 : forall f r a, tstep (Cfg (st c) None (upd f t (Want (GetProg r))) (log c)) t a =
            Cfg (st c) (Some t) (upd (upd f t (Want (GetProg r))) t (GP1 r)) (log c)).
  { intros f r a. unfold tstep. cbn [pcs]. rewrite upd_same. reflexivity. }
  assert (NH : forall u, (forall p, held (st c) p -> pg_id p <> u) -> dget u (progs (st c)) = None).
  { intros u H. destruct (dget u (progs (st c))) as [p|] eqn:D; [|reflexivity]. exfalso. apply (H p).
    - apply dget_In in D. apply (in_map snd) in D. exact D.
    - apply (k_id _ (i_keyed _ HI)). exact D. }
  split; [|split; [|split]].
  - intros p n q Hp Hc. cbn [repeat trun]. rewrite S1, S2 by discriminate.
    pose proof (held_nm c p n HI Hp Hc) as Hn. destruct (B _ _ Hn) as [D|[]].
    unfold tstep at 2. cbn [pcs st]. rewrite upd_same, D. unfold to. cbn [st lock pcs log].
    unfold tstep. cbn [pcs st]. rewrite upd_same, (held_dget c p HI Hp). reflexivity.
  - intros p Hp. cbn [repeat trun]. rewrite S1, S2 by discriminate.
    unfold tstep at 2. cbn [pcs st]. rewrite upd_same. unfold to. cbn [st lock pcs log].
    unfold tstep. cbn [pcs st]. rewrite upd_same, (held_dget c p HI Hp). reflexivity.
  - intros n Hn. cbn [repeat trun]. rewrite S1, S2 by discriminate.
    assert (D : dget n (names (st c)) = None).
    { destruct (dget n (names (st c))) as [u|] eqn:D; [|reflexivity]. exfalso. apply A in D. unfold nm in D.
      destruct (dget u (progs (st c))) as [p|] eqn:Dp; [|discriminate]. apply (Hn p).
      - apply dget_In in Dp. apply (in_map snd) in Dp. exact Dp.
      - apply carries_truthy. cbn in D. congruence. }
    unfold tstep. cbn [pcs st]. rewrite upd_same, D. reflexivity.
  - intros u Hu. cbn [repeat trun]. rewrite S1, S2 by discriminate.
    unfold tstep at 2. cbn [pcs st]. rewrite upd_same. unfold to. cbn [st lock pcs log].
    unfold tstep. cbn [pcs st]. rewrite upd_same, (NH u Hu). reflexivity.
Qed.
Print Assumptions C101_lookup.

(** No deadlock: whoever is inside a locked method leaves it within four steps of its own. *)
Theorem C101_leaves s sched t a : good s -> let c := trun (init s) sched in
  lock c = Some t -> exists k, k <= 4 /\ lock (trun c (repeat (t, a) k)) = None.
Proof.
  intros G c Hl. assert (HI : inv c) by (apply inv_run, good_inv, G). clearbody c.
  assert (H : locked (pcs c t) = true) by (apply HI; exact Hl).
  assert (ONE : forall c, lock (tstep c t a) = None -> exists k, k <= 1 /\ lock (trun c (repeat (t, a) k)) = None).
  { intros c' H'. exists 1. split; [lia|exact H']. }
  assert (MORE : forall c m n, n = S m -> (exists k, k <= m /\ lock (trun (tstep c t a) (repeat (t, a) k)) = None) ->
            exists k, k <= n /\ lock (trun c (repeat (t, a) k)) = None).
  { intros c' m n -> (k & Hk & H'). exists (S k). split; [lia|exact H']. }
  assert (WK : forall c m n, m <= n -> (exists k, k <= m /\ lock (trun c (repeat (t, a) k)) = None) ->
            exists k, k <= n /\ lock (trun c (repeat (t, a) k)) = None).
  { intros c' m n Hmn (k & Hk & H'). exists k. split; [lia|exact H']. }
  assert (L4 : forall c p, pcs c t = AP4 p -> exists k, k <= 1 /\ lock (trun c (repeat (t, a) k)) = None).
  { intros c' p E. apply ONE. unfold tstep. rewrite E. reflexivity. }
  assert (L3 : forall c p, pcs c t = AP3 p -> exists k, k <= 2 /\ lock (trun c (repeat (t, a) k)) = None).
  { intros c' p E. destruct (dmem (pg_id p) (progs (st c'))) eqn:D.
    - eapply (WK _ 1); [lia|]. apply ONE. unfold tstep. rewrite E, D. reflexivity.
    - eapply MORE; [reflexivity|]. apply (L4 _ p). unfold tstep. rewrite E, D. apply upd_same. }
  assert (L2 : forall c p, pcs c t = AP2 p -> exists k, k <= 3 /\ lock (trun c (repeat (t, a) k)) = None).
  { intros c' p E. destruct (missing (st c') p) eqn:D.
    - eapply (WK _ 1); [lia|]. apply ONE. unfold tstep. rewrite E, D. reflexivity.
    - eapply MORE; [reflexivity|]. apply (L3 _ p). unfold tstep. rewrite E, D. apply upd_same. }
  assert (R4 : forall c u, pcs c t = RP4 u -> exists k, k <= 1 /\ lock (trun c (repeat (t, a) k)) = None).
  { intros c' u E. apply ONE. unfold tstep. rewrite E. destruct (dget u _); reflexivity. }
  assert (R3 : forall c u, pcs c t = RP3 u -> exists k, k <= 2 /\ lock (trun c (repeat (t, a) k)) = None).
  { intros c' u E. destruct (dmem u (progs (st c'))) eqn:D.
    - eapply MORE; [reflexivity|]. apply (R4 _ u). unfold tstep. rewrite E, D. apply upd_same.
    - eapply (WK _ 1); [lia|]. apply ONE. unfold tstep. rewrite E, D. reflexivity. }
  assert (R2 : forall c n u, pcs c t = RP2 n u -> exists k, k <= 3 /\ lock (trun c (repeat (t, a) k)) = None).
  { intros c' n u E. eapply MORE; [reflexivity|]. apply (R3 _ u). unfold tstep. rewrite E. apply upd_same. }
  assert (Q2 : forall c u n, pcs c t = RQ2 u n -> exists k, k <= 2 /\ lock (trun c (repeat (t, a) k)) = None).
  { intros c' u n E. eapply MORE; [reflexivity|]. apply (R4 _ u). unfold tstep. rewrite E. apply upd_same. }
  assert (Q1 : forall c u, pcs c t = RQ1 u -> exists k, k <= 3 /\ lock (trun c (repeat (t, a) k)) = None).
  { intros c' u E. destruct (dget u (progs (st c'))) as [p|] eqn:D.
    - eapply MORE; [reflexivity|]. apply (Q2 _ u (truthy_name (pg_name p))). unfold tstep. rewrite E, D. apply upd_same.
    - eapply (WK _ 1); [lia|]. apply ONE. unfold tstep. rewrite E, D. reflexivity. }
  assert (G2 : forall c u, pcs c t = GP2 u -> exists k, k <= 1 /\ lock (trun c (repeat (t, a) k)) = None).
  { intros c' u E. apply ONE. unfold tstep. rewrite E. destruct (dget u _); reflexivity. }
  assert (H2 : forall c x u rs, pcs c t = AIH x u rs -> exists k, k <= 1 /\ lock (trun c (repeat (t, a) k)) = None).
  { intros c' x u rs E. apply ONE. unfold tstep. rewrite E. destruct (dmem u _); reflexivity. }
  destruct (pcs c t) eqn:E; try discriminate H.
  - destruct (truthy_name (pg_name p)) as [n|] eqn:En; [destruct (dmem n (names (st c))) eqn:D|].
    + eapply (WK _ 1); [lia|]. apply ONE. unfold tstep. rewrite E, En, D. reflexivity.
    + eapply MORE; [reflexivity|]. apply (L2 _ p). unfold tstep. rewrite E, En, D. apply upd_same.
    + eapply MORE; [reflexivity|]. apply (L2 _ p). unfold tstep. rewrite E, En. apply upd_same.
  - eapply (WK _ 3); [lia|]. eapply L2; eassumption.
  - eapply (WK _ 2); [lia|]. eapply L3; eassumption.
  - eapply (WK _ 1); [lia|]. eapply L4; eassumption.
  - destruct r as [n q|u|u].
    + destruct (dget n (names (st c))) as [u|] eqn:D; [|destruct q as [u|]].
      * eapply MORE; [reflexivity|]. apply (R2 _ n u). unfold tstep. rewrite E, D. apply upd_same.
      * eapply MORE; [reflexivity|]. apply (Q1 _ u). unfold tstep. rewrite E, D. apply upd_same.
      * eapply (WK _ 1); [lia|]. apply ONE. unfold tstep. rewrite E, D. reflexivity.
    + eapply MORE; [reflexivity|]. apply (Q1 _ u). unfold tstep. rewrite E. apply upd_same.
    + eapply MORE; [reflexivity|]. apply (Q1 _ u). unfold tstep. rewrite E. apply upd_same.
  - eapply (WK _ 3); [lia|]. eapply R2; eassumption.
  - eapply (WK _ 2); [lia|]. eapply R3; eassumption.
  - eapply (WK _ 1); [lia|]. eapply R4; eassumption.
  - eapply (WK _ 3); [lia|]. eapply Q1; eassumption.
  - eapply (WK _ 2); [lia|]. eapply Q2; eassumption.
  - eapply (WK _ 2); [lia|]. destruct r as [n q|u|u].
    + destruct (dget n (names (st c))) as [u|] eqn:D; [|destruct q as [u|]].
      * eapply MORE; [reflexivity|]. apply (G2 _ u). unfold tstep. rewrite E, D. apply upd_same.
      * eapply MORE; [reflexivity|]. apply (G2 _ u). unfold tstep. rewrite E, D. apply upd_same.
      * eapply (WK _ 1); [lia|]. apply ONE. unfold tstep. rewrite E, D. reflexivity.
    + eapply MORE; [reflexivity|]. apply (G2 _ u). unfold tstep. rewrite E. apply upd_same.
    + eapply MORE; [reflexivity|]. apply (G2 _ u). unfold tstep. rewrite E. apply upd_same.
  - eapply (WK _ 1); [lia|]. eapply G2; eassumption.
  - eapply (WK _ 2); [lia|]. destruct r as [n q|u|u].
    + destruct (dget n (names (st c))) as [u|] eqn:D; [|destruct q as [u|]].
      * eapply MORE; [reflexivity|]. apply (H2 _ x u rs). unfold tstep. rewrite E, D. apply upd_same.
      * eapply MORE; [reflexivity|]. apply (H2 _ x u rs). unfold tstep. rewrite E, D. apply upd_same.
      * eapply (WK _ 1); [lia|]. apply ONE. unfold tstep. rewrite E, D. reflexivity.
    + eapply MORE; [reflexivity|]. apply (H2 _ x u rs). unfold tstep. rewrite E. apply upd_same.
    + eapply MORE; [reflexivity|]. apply (H2 _ x u rs). unfold tstep. rewrite E. apply upd_same.
  - eapply (WK _ 1); [lia|]. eapply H2; eassumption.
Qed.
Print Assumptions C101_leaves.

(** ** References *)
Definition no_remove (a : call) : Prop := match a with RemItem _ => False | _ => True end.
Definition knows (s : store) (x : pc) : Prop :=
  match x with
  | AP3 p => forall y, In y (pg_order p) -> In y (items s)
  | AI1 y _ | AIW y _ _ | AIG y _ _ | AIH y _ _ | AIA y _ _ => In y (items s)
  | RI1 _ _ | RI2 _ _ _ | RI3 _ _ _ | RI4 _ _ _ | RI5 _ => False
  | Want a => no_remove a
  | _ => True
  end.
Record refs (c : cfg) : Prop := {
  r_all : forall u p x, In (u, p) (progs (st c)) -> In x (pg_order p) -> In x (items (st c));
  r_pc : forall t, knows (st c) (pcs c t)
}.

Lemma In_dset (u : uuid) (p : prog) d v q : In (v, q) (dset u p d) -> (v, q) = (u, p) \/ In (v, q) d.
Proof.
  induction d as [|[w r] d IH]; cbn; [intuition congruence|].
  destruct (eqb u w) eqn:E; cbn.
  - intros [H|H]; auto. left. apply eqb_eq in E. congruence.
  - intros [H|H]; auto. destruct (IH H); auto.
Qed.

Lemma knows_more s s' x : (forall y, In y (items s) -> In y (items s')) -> knows s x -> knows s' x.
Proof. destruct x; cbn; auto. Qed.

Lemma refs_step c t a : no_remove a -> refs c -> refs (tstep c t a).
Proof.
  intros Na [R P]. pose proof (P t) as Pt.
  assert (KEEP : forall lk x l, knows (st c) x -> refs (Cfg (st c) lk (upd (pcs c) t x) l)).
  { intros lk x l Hx. constructor; cbn [st pcs]; [exact R|]. intros t'. destruct (Nat.eq_dec t' t) as [->|Hn].
    - rewrite upd_same. exact Hx.
    - rewrite upd_other by exact Hn. apply P. }
  assert (TAKE : forall x, knows (st c) x -> refs (take c t x)).
  { intros x Hx. unfold take. destruct (lock c); [constructor; assumption|]. apply KEEP, Hx. }
  assert (NEW : forall s x lk l, items s = items (st c) ->
     (forall u p y, In (u, p) (progs s) -> In y (pg_order p) -> In y (items (st c))) -> knows (st c) x ->
     refs (Cfg s lk (upd (pcs c) t x) l)).
  { intros s x lk l Es Hs Hx. constructor; cbn [st pcs]; rewrite ?Es; [exact Hs|].
    intros t'. destruct (Nat.eq_dec t' t) as [->|Hn].
    - rewrite upd_same. eapply knows_more; [|exact Hx]. rewrite Es. auto.
    - rewrite upd_other by exact Hn. eapply knows_more; [|apply P]. rewrite Es. auto. }
  unfold tstep, to, stop, free. cbn [st lock pcs log].
  destruct (pcs c t) eqn:E; cbn in Pt; try contradiction.
  - destruct a as [| |[]| |]; try (apply KEEP; exact I); try (constructor; assumption); destruct Na.
  - destruct c0; try (apply TAKE; exact I); constructor; assumption.
  - destruct (truthy_name _); [destruct (dmem _ _)|]; apply KEEP; exact I.
  - destruct (missing (st c) p) eqn:M; apply KEEP; [exact I|]. cbn. intros y Hy.
    apply memb_In. destruct (memb y (items (st c))) eqn:Em; [reflexivity|]. exfalso.
    unfold missing in M. assert (existsb (fun u => negb (memb u (items (st c)))) (pg_order p) = true).
    { apply existsb_exists. exists y. rewrite Em. auto. } congruence.
  - destruct (dmem _ _); [apply KEEP; exact I|]. apply NEW; [reflexivity| |exact I].
    cbn. intros u q y Hq Hy. apply In_dset in Hq. destruct Hq as [[= -> ->]|Hq]; eauto.
  - apply NEW; [destruct (truthy_name _); reflexivity| |exact I].
    destruct (truthy_name _); cbn; exact R.
  - destruct r as [n q|u|u]; try (apply KEEP; exact I).
    destruct (dget n _); [|destruct q]; apply KEEP; exact I.
  - apply NEW; [reflexivity|exact R|exact I].
  - destruct (dmem _ _); apply KEEP; exact I.
  - destruct (dget _ _); [|apply KEEP; exact I]. apply NEW; [reflexivity| |exact I].
    cbn. intros v q y Hq. apply In_ddel in Hq. eauto.
  - destruct (dget _ _); apply KEEP; exact I.
  - apply NEW; [destruct n; [destruct (dmem _ _)|]; reflexivity| |exact I].
    destruct n; [destruct (dmem _ _)|]; cbn; exact R.
  - destruct r as [n q|u|u]; try (apply KEEP; exact I).
    destruct (dget n _); [|destruct q]; apply KEEP; exact I.
  - destruct (dget _ _); apply KEEP; exact I.
  - destruct (memb x (items (st c))); [apply KEEP; exact I|].
    assert (S : forall y, In y (items (st c)) -> In y (items (st c) ++ [x])) by (intros; apply in_or_app; auto).
    constructor; cbn [st pcs items progs set_items].
    + intros u p y Hp Hy. eauto.
    + intros t'. destruct (Nat.eq_dec t' t) as [->|Hn].
      * rewrite upd_same. cbn. apply in_or_app. right. left. reflexivity.
      * rewrite upd_other by exact Hn. eapply knows_more; [|apply P]. exact S.
  - destruct rs as [|[]]; apply KEEP; cbn; auto.
  - apply TAKE. exact Pt.
  - destruct r as [n q|u|u]; try (apply KEEP; exact Pt).
    destruct (dget n _); [|destruct q]; apply KEEP; cbn; auto.
  - destruct (dmem _ _); apply KEEP; cbn; auto.
  - destruct (dget u _) as [p|] eqn:D; [|apply KEEP; exact Pt]. apply NEW; [reflexivity| |exact Pt].
    cbn. intros v q y Hq Hy. apply In_dset in Hq. destruct Hq as [[= -> ->]|Hq]; [|eauto].
    cbn in Hy. apply in_app_or in Hy. destruct Hy as [Hy|[<-|[]]]; [|exact Pt].
    apply dget_In in D. eauto.
Qed.

(** As long as nobody calls remove_item, progressions list only stored items. *)
Theorem C101_integrity s sched : good s -> Forall (fun e => no_remove (snd e)) sched ->
  integrity (st (trun (init s) sched)).
Proof.
  intros (_ & _ & _ & _ & _ & G) HF.
  assert (R0 : refs (init s)).
  { constructor; cbn; [|auto]. intros u p x Hp. apply G. apply (in_map snd) in Hp. exact Hp. }
  assert (R : refs (trun (init s) sched)).
  { clear G. revert R0. generalize (init s). induction HF as [|[t a] sched Ha HF IH]; intros c R; cbn; [exact R|].
    apply IH, refs_step; assumption. }
  intros p x Hp. unfold held, dvals in Hp. apply in_map_iff in Hp. destruct Hp as ([u q] & <- & Hq).
  eapply (r_all _ R). exact Hq.
Qed.
Print Assumptions C101_integrity.

(** ** What remove_item breaks *)
Definition dangling (s : store) (x : uuid) : Prop := (exists p, held s p /\ In x (pg_order p)) /\ ~ In x (items s).

(** add_progression checked that the item is stored; remove_item, which found no progression
    listing it, takes it out; the progression is added.  Both calls succeed. *)
Definition s1 : store := Store [7] [] [].
Definition p1 : prog := Prog 20 (Some "a"%string) [7].
Theorem C101_added_refuted : good s1 /\ exists sched, let c := trun (init s1) sched in
  lock c = None /\ pcs c 1 = Idle /\ pcs c 2 = Idle /\
  log c = [(2, Ret (Item 7)); (1, Ret OK)] /\ dangling (st c) 7.
Proof.
  split.
  - unfold good, integrity, held. cbn. repeat split; try constructor; try contradiction; auto; try constructor.
    intros (p & [] & _).
  - exists ([(1, AddProg p1); (1, AddProg p1); (1, AddProg p1); (1, AddProg p1);
             (2, RemItem 7); (2, RemItem 7); (2, RemItem 7); (1, AddProg p1); (1, AddProg p1)]).
    cbn. repeat split; auto. exists p1. split; left; reflexivity.
Qed.
Print Assumptions C101_added_refuted.

(** add_item has stored the item and not yet listed it; remove_item takes it out; add_item
    lists it. *)
Definition s2 : store := Store [] [(20, Prog 20 (Some "a"%string) [])] [("a"%string, 20)].
Lemma good_s2 : good s2.
Proof.
  unfold good, integrity, held, carries. cbn.
  split; [constructor|]. split; [repeat constructor; intros []|]. split; [repeat constructor; intros []|].
  split; [intros u p [[= <- <-]|[]]; reflexivity|]. split.
  - intros n u. split.
    + intros [[= <- <-]|[]]. eexists. split; [left; reflexivity|]. split; [reflexivity|discriminate].
    + intros (p & [[= <- <-]|[]] & [= <-] & _). left. reflexivity.
  - intros p x [<-|[]] [].
Qed.
Theorem C101_item_refuted : good s2 /\ exists sched, let c := trun (init s2) sched in
  lock c = None /\ pcs c 1 = Idle /\ pcs c 2 = Idle /\
  log c = [(2, Ret (Item 7)); (1, Ret OK)] /\ dangling (st c) 7.
Proof.
  split; [exact good_s2|].
  exists (repeat (1, AddItem 7 [ByText "a" None]) 2 ++ repeat (2, RemItem 7) 6 ++
          repeat (1, AddItem 7 [ByText "a" None]) 6).
  lazy. repeat split; auto. eexists. split; [left; reflexivity|]. left. reflexivity.
Qed.
Print Assumptions C101_item_refuted.

(** remove_item walks over the progressions by position: one of them removed behind it, and it
    passes over the next. *)
Definition s3 : store := Store [7] [(20, Prog 20 None []); (21, Prog 21 None [7])] [].
Lemma good_s3 : good s3.
Proof.
  unfold good, integrity, held, carries. cbn.
  split; [repeat constructor; intros []|]. split; [repeat constructor; cbn; intuition discriminate|].
  split; [constructor|]. split; [intros u p [[= <- <-]|[[= <- <-]|[]]]; reflexivity|]. split.
  - intros n u. split; [intros []|]. intros (p & [[= <- <-]|[[= <- <-]|[]]] & Hp & _); discriminate.
  - intros p x [<-|[<-|[]]]; cbn; auto.
Qed.
Theorem C101_passed_over_refuted : good s3 /\ exists sched, let c := trun (init s3) sched in
  lock c = None /\ pcs c 1 = Idle /\ pcs c 2 = Idle /\
  log c = [(2, Ret (Prog_ (Prog 20 None []))); (1, Ret (Item 7))] /\ dangling (st c) 7.
Proof.
  split; [exact good_s3|].
  exists (repeat (1, RemItem 7) 4 ++ repeat (2, RemProg (ById 20)) 6 ++ repeat (1, RemItem 7) 2).
  lazy. repeat split; auto. eexists. split; [left; reflexivity|]. left. reflexivity.
Qed.
Print Assumptions C101_passed_over_refuted.

(** remove_item can fail with KeyError for a stored item, because a progression is removed; and
    of two calls of remove_item for one item one can fail with ValueError, having lost the
    race for the listing. *)
Theorem C101_remove_fails_refuted : good s3 /\
  (exists sched, let c := trun (init s3) sched in
     log c = [(2, Ret (Prog_ (Prog 20 None []))); (1, Raise KeyError)] /\ In 7 (items (st c))) /\
  (exists sched, let c := trun (init s3) sched in log c = [(1, Raise ValueError); (2, Ret (Item 7))]).
Proof.
  split; [exact good_s3|]. split.
  - exists (repeat (1, RemItem 7) 2 ++ repeat (2, RemProg (ById 20)) 6 ++ repeat (1, RemItem 7) 1).
    lazy. auto.
  - exists (repeat (1, RemItem 7) 7 ++ repeat (2, RemItem 7) 8 ++ repeat (1, RemItem 7) 1 ++ repeat (2, RemItem 7) 2).
    reflexivity.
Qed.
Print Assumptions C101_remove_fails_refuted.

(** Two threads add progressions of one name, step by step in turn: the first one wins. *)
Example C101_ex :
  let q := Prog 21 (Some "b"%string) [] in let r := Prog 22 (Some "b"%string) [] in
  let c := trun (init s2) (concat (repeat [(1, AddProg q); (2, AddProg r)] 7)) in
  (log c, progs (st c), names (st c)) =
  ([(1, Ret OK); (2, Raise ExistsError)],
   [(20, Prog 20 (Some "a"%string) []); (21, q)], [("a"%string, 20); ("b"%string, 21)]).
Proof. vm_compute. reflexivity. Qed.
(** Two threads store one item: the second one is told so. *)
Example C101_ex_twice :
  let c := trun (init s1) (concat (repeat [(1, AddItem 8 []); (2, AddItem 8 [])] 3)) in
  (log c, items (st c)) = ([(2, Raise ExistsError); (1, Ret OK)], [7; 8]).
Proof. vm_compute. reflexivity. Qed.
(** The progression under inspection is removed just before it is read: the next is passed over too. *)
Example C101_ex_passed_over :
  let c := trun (init s3) (repeat (1, RemItem 7) 3 ++ repeat (2, RemProg (ById 20)) 6 ++ repeat (1, RemItem 7) 3) in
  (log c, items (st c), progs (st c)) =
  ([(2, Ret (Prog_ (Prog 20 None []))); (1, Ret (Item 7))], [], [(21, Prog 21 None [7])]).
Proof. vm_compute. reflexivity. Qed.
Example C101_ex_serial :
  let q := Prog 21 (Some "b"%string) [] in
  let c := trun (init s2) (repeat (1, AddProg q) 6 ++ repeat (1, AddItem 9 [ByText "b" None; ById 20]) 13
                           ++ repeat (2, RemProg (ByText "b" None)) 6) in
  (log c, items (st c), progs (st c), names (st c)) =
  ([(1, Ret OK); (1, Ret OK); (2, Ret (Prog_ (Prog 21 (Some "b"%string) [9])))],
   [9], [(20, Prog 20 (Some "a"%string) [9])], [("a"%string, 20)]).
Proof. vm_compute. reflexivity. Qed.
