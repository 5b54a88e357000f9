(** Property C124: lists that change while they are mapped. *)
From Coq Require Import List Bool Arith Lia.
From Verif Require Import PyBase ModelLiveInput.
Import ListNotations.

(** ** lcall *)
(** The items at even positions, and the others. *)
Fixpoint every_other {A} (l : list A) : list A :=
  match l with x :: _ :: t => x :: every_other t | _ => l end.
Fixpoint the_others {A} (l : list A) : list A :=
  match l with _ :: y :: t => y :: the_others t | _ => [] end.

Section Lcall.
  Context {W A B : Type}.
  Variable view : W -> list A.
  Variable call : A -> W -> W * outcome B.

  Lemma nth_skipn (l : list A) i x : nth_error l i = Some x -> skipn i l = x :: skipn (S i) l.
  Proof. revert i. induction l as [|y l IH]; intros [|i]; cbn; try discriminate; [congruence|apply IH]. Qed.
  Lemma nth_skipn_None (l : list A) i : nth_error l i = None -> skipn i l = [].
  Proof. intros H. apply skipn_all2, nth_error_None, H. Qed.

  (** When calls leave the list alone (in particular when it was copied): each item once, in order. *)
  Theorem C124_lcall_same w xs bs w2 : (forall x v, view (fst (call x v)) = view v) -> lloop view call 0 w xs bs w2 (Ret tt) ->
    xs = view w /\ length bs = length xs.
  Proof.
    intros S H. change (view w) with (skipn 0 (view w)). remember (Ret tt) as r eqn:R. revert R.
    induction H as [i w N|i w x w' b xs bs w2 r N C H IH|i w x w' e N C]; intros R; [|destruct (IH R) as [-> L]|discriminate].
    - rewrite nth_skipn_None by exact N. auto.
    - pose proof (S x w) as E. rewrite C in E. cbn in E. rewrite (nth_skipn _ _ _ N), <- E. split; [reflexivity|cbn [length]; rewrite L; reflexivity].
  Qed.
  (** When calls only append: every item that is there at the end, once, in order. *)
  Theorem C124_lcall_appending w xs bs w2 : (forall x v, exists l, view (fst (call x v)) = view v ++ l) ->
    lloop view call 0 w xs bs w2 (Ret tt) -> xs = view w2 /\ length bs = length xs.
  Proof.
    intros S H. change (view w2) with (skipn 0 (view w2)). remember (Ret tt) as r eqn:R. revert R.
    enough (G : r = Ret tt -> (exists l, view w2 = view w ++ l) /\ xs = skipn 0 (view w2) /\ length bs = length xs) by (intros R; apply G, R).
    induction H as [i w N|i w x w' b xs bs w2 r N C H IH|i w x w' e N C]; intros R; [|destruct (IH R) as ((l & X) & -> & L)|discriminate].
    - split; [exists []; symmetry; apply app_nil_r|]. rewrite nth_skipn_None by exact N. auto.
    - destruct (S x w) as [l' E]. rewrite C in E. cbn in E. rewrite E, <- app_assoc in X. split; [eauto|].
      assert (nth_error (view w2) i = Some x) as N2.
      { rewrite X, nth_error_app1; [exact N|]. apply nth_error_Some. congruence. }
      rewrite (nth_skipn _ _ _ N2). split; [reflexivity|cbn [length]; rewrite L; reflexivity].
  Qed.
  (** When every call appends something it never ends (unless a call fails). *)
  Theorem C124_lcall_endless w xs bs w2 : (forall x v, length (view v) < length (view (fst (call x v)))) -> view w <> [] ->
    ~ lloop view call 0 w xs bs w2 (Ret tt).
  Proof.
    intros S Ne H. assert (0 < length (view w)) as L by (destruct (view w); [contradiction|cbn; lia]). clear Ne.
    remember (Ret tt) as r eqn:R. revert R L.
    induction H as [i w N|i w x w' b xs bs w2 r N C H IH|i w x w' e N C]; intros R L; [|apply (IH R)|discriminate].
    - apply nth_error_None in N. lia.
    - pose proof (S x w) as E. rewrite C in E. cbn in E. lia.
  Qed.
  (** When every call removes its item from the list, every other item is skipped, and these are left. *)
  Variable eqd : forall x y : A, {x = y} + {x <> y}.
  Lemma remove_out x (l : list A) : ~ In x l -> remove eqd x l = l.
  Proof. apply notin_remove. Qed.
  Theorem C124_lcall_removing w xs bs w2 : (forall x v, view (fst (call x v)) = remove eqd x (view v)) -> NoDup (view w) ->
    lloop view call 0 w xs bs w2 (Ret tt) -> xs = every_other (view w) /\ view w2 = the_others (view w).
  Proof.
    intros S ND H.
    enough (G : forall pre rest, view w = pre ++ rest -> length pre = 0 -> xs = every_other rest /\ view w2 = pre ++ the_others rest)
      by (exact (G [] (view w) eq_refl eq_refl)).
    remember (Ret tt) as r eqn:R. revert R ND.
    induction H as [i w N|i w x w' b xs bs w2 r N C H IH|i w x w' e N C]; intros R ND pre rest Q L; [| |discriminate].
    - apply nth_error_None in N. rewrite Q, app_length in N. destruct rest; [|cbn in N; lia]. auto.
    - rewrite Q, nth_error_app2, L, Nat.sub_diag in N by lia. destruct rest as [|z rest]; [discriminate|]. injection N as ->.
      pose proof (S x w) as E. rewrite C in E. cbn in E. rewrite Q in ND.
      pose proof (NoDup_remove_2 _ _ _ ND) as Nx. pose proof (NoDup_remove_1 _ _ _ ND) as ND'.
      rewrite Q, remove_app in E. cbn in E. destruct (eqd x x) as [_|F]; [|contradiction].
      rewrite <- remove_app, (notin_remove _ _ _ Nx) in E.
      destruct rest as [|y rest].
      + rewrite app_nil_r in E. assert (nth_error (view w') (Datatypes.S i) = None) as Z by (apply nth_error_None; rewrite E; lia).
        inversion H; subst; try congruence. cbn [the_others]. rewrite app_nil_r. auto.
      + rewrite <- E in ND'. destruct (IH R ND' (pre ++ [y]) rest) as [-> ->]; [rewrite E, <- app_assoc; reflexivity|rewrite app_length, L; cbn; lia|].
        rewrite <- app_assoc. auto.
  Qed.
End Lcall.

(** ** alcall *)
Lemma set_nth_length {T} (l : list T) i v : length (set_nth l i v) = length l.
Proof. revert i. induction l; intros [|i]; cbn; auto. Qed.
Lemma set_nth_same {T} (l : list T) i v : i < length l -> nth_error (set_nth l i v) i = Some v.
Proof. revert i. induction l; intros [|i] H; cbn in *; try lia; auto. apply IHl. lia. Qed.
Lemma set_nth_other {T} (l : list T) i j v : i <> j -> nth_error (set_nth l i v) j = nth_error l j.
Proof. revert i j. induction l; intros [|i] [|j] H; cbn; auto; try contradiction. Qed.

Section Alcall.
  Context {A B : Type}.
  Variable rexc throttle : bool.
  Variable l0 : list A.
  Notation n := (length l0).
  Notation cfg := (@acfg A B).

  (** What is known of position [k]. *)
  Definition entry (c : cfg) (k : nat) : Prop :=
    (exists x, nth_error (a_took c) k = Some x /\ In (k, x) (a_run c) /\ nth_error (a_out c) k = Some SNone) \/
    (nth_error (a_took c) k = None /\ nth_error (a_out c) k = Some SNone) \/
    (exists x b, nth_error (a_took c) k = Some x /\ In (k, x, AOk b) (a_log c) /\ nth_error (a_out c) k = Some (SRes b)) \/
    (exists x e, nth_error (a_took c) k = Some x /\ In (k, x, AErr e) (a_log c) /\ nth_error (a_out c) k = Some (SExc e) /\ (rexc = false -> a_errs c <> [])) \/
    (exists x, nth_error (a_took c) k = Some x /\ a_errs c <> [] /\
      (In (k, x, ACancelled) (a_log c) /\ nth_error (a_out c) k = Some SCancelled \/ In (k, x, ANotStarted) (a_log c) /\ nth_error (a_out c) k = Some SNone)).
  Record ainv (c : cfg) : Prop := {
    w_len : length (a_out c) = n;
    w_idx : a_idx c = length (a_took c);
    w_keys : NoDup (map fst (a_run c));
    w_run : forall k x, In (k, x) (a_run c) -> nth_error (a_took c) k = Some x;
    w_fresh : forall k x, In (k, x) (a_run c) -> k < n -> nth_error (a_out c) k = Some SNone;
    w_all : forall k, k < n -> entry c k;
    w_errs : forall e, In e (a_errs c) -> e = IndexError /\ n < length (a_took c) \/ rexc = false /\ exists k x, In (k, x, AErr e) (a_log c);
    w_over : forall k x, n <= k -> nth_error (a_took c) k = Some x -> In (k, x) (a_run c) \/ a_errs c <> [];
    w_done : match a_pc c with
             | ADone (inl r) => r = a_out c /\ a_run c = [] /\ (a_errs c = [] \/ rexc = true)
             | ADone (inr es) => es = a_errs c /\ a_run c = [] /\ es <> [] /\ rexc = false
             | _ => True
             end
  }.
  Lemma ainv_init : ainv (ainit l0).
  Proof.
    constructor; cbn; auto; try (intros; contradiction).
    - apply repeat_length.
    - constructor.
    - intros k H. right. left. split; [destruct k; reflexivity|].
      assert (forall m j, j < m -> nth_error (repeat (@SNone B) m) j = Some SNone) as G.
      { induction m; intros [|j] Hj; cbn; try lia; auto. apply IHm. lia. } apply G, H.
    - intros k x _ H. destruct k; discriminate H.
  Qed.
  Lemma settle_errs k (a : answer B) out errs : errs <> [] -> snd (settle rexc n k a out errs) <> [].
  Proof.
    intros H. unfold settle. destruct a; try exact H; destruct (k <? n); cbn; try exact H; try (destruct errs; discriminate).
    destruct rexc; [exact H|destruct errs; discriminate].
  Qed.
  Lemma settle_len k (a : answer B) out errs : length (fst (settle rexc n k a out errs)) = length out.
  Proof. unfold settle. destruct a; try reflexivity; destruct (k <? n); cbn; auto using set_nth_length. Qed.
  Lemma settle_other k (a : answer B) out errs j : j <> k -> nth_error (fst (settle rexc n k a out errs)) j = nth_error out j.
  Proof. intros H. unfold settle. destruct a; try reflexivity; destruct (k <? n); cbn; auto using set_nth_other. Qed.
  Lemma took_snoc (l : list A) x k y : nth_error l k = Some y -> nth_error (l ++ [x]) k = Some y.
  Proof. intros H. rewrite nth_error_app1; [exact H|]. apply nth_error_Some. congruence. Qed.
  Lemma ainv_step c d : ainv c -> astep rexc throttle n c d -> ainv d.
  Proof.
    intros [HL HI HK HR HF HA HE HO HD] S. destruct S; cbn [a_list a_idx a_run a_out a_errs a_took a_log a_pc] in *.
    - constructor; cbn [a_list a_idx a_run a_out a_errs a_took a_log a_pc]; auto.
      + rewrite app_length. cbn. lia.
      + rewrite map_app. cbn. apply NoDup_rev in HK. rewrite <- (rev_involutive (map fst run ++ [i])). apply NoDup_rev.
        rewrite rev_app_distr. cbn. constructor; [|exact HK]. rewrite <- in_rev. intros I. apply in_map_iff in I as ([k y] & <- & I).
        apply HR in I. cbn in HI. assert (nth_error took k <> None) as Z by congruence. apply nth_error_Some in Z. cbn in HI. lia.
      + intros k y I. apply in_app_or in I as [I|[[= <- <-]|[]]]; [apply took_snoc, HR, I|].
        subst i. rewrite nth_error_app2, Nat.sub_diag by lia. reflexivity.
      + intros k y I Hk. apply in_app_or in I as [I|[[= <- <-]|[]]]; [eapply HF; eauto|].
        assert (nth_error took i = None) as Z by (apply nth_error_None; lia).
        destruct (HA i Hk) as [(y & E1 & _)|[(_ & E2)|[(y & b & E1 & _)|[(y & e & E1 & _)|(y & E1 & _)]]]]; cbn in *; congruence.
      + intros k Hk. destruct (HA k Hk) as [(y & E1 & E2 & E3)|[(E1 & E2)|[(y & b & E1 & E2)|[(y & e & E1 & E2)|(y & E1 & E2)]]]]; cbn in *.
        * left. exists y. split; [apply took_snoc, E1|]. split; [apply in_or_app; auto|exact E3].
        * apply nth_error_None in E1. destruct (Nat.eq_dec k i) as [->|Ne].
          -- left. exists x. cbn. split; [rewrite HI, nth_error_app2, Nat.sub_diag by lia; reflexivity|]. split; [apply in_or_app; right; left; reflexivity|exact E2].
          -- right. left. cbn. split; [apply nth_error_None; rewrite app_length; cbn; lia|exact E2].
        * right. right. left. exists y, b. split; [apply took_snoc, E1|exact E2].
        * right. right. right. left. exists y, e. split; [apply took_snoc, E1|exact E2].
        * right. right. right. right. exists y. split; [apply took_snoc, E1|exact E2].
      + intros e I. destruct (HE e I) as [[E1 E2]|E1]; [left; split; [exact E1|rewrite app_length; cbn; lia]|right; exact E1].
      + intros k y Hk N. destruct (Nat.eq_dec k i) as [->|Ne].
        * subst i. rewrite nth_error_app2, Nat.sub_diag in N by lia. injection N as ->. left. apply in_or_app. right. left. reflexivity.
        * assert (nth_error took k = Some y) as N'.
          { destruct (Nat.lt_ge_cases k (length took)) as [Lt|Ge]; [rewrite nth_error_app1 in N by exact Lt; exact N|].
            rewrite nth_error_app2 in N by exact Ge. destruct (k - length took) as [|m] eqn:Q; [lia|]. destruct m; discriminate N. }
          destruct (HO k y Hk N') as [I|I]; [left; apply in_or_app; auto|auto].
      + destruct (throttle && (i <? n - 1)); exact Logic.I.
    - constructor; auto.
    - constructor; auto.
    - constructor; auto.
    - constructor; auto.
    - assert (In (k, x) (r1 ++ (k, x) :: r2)) as Ik by (apply in_or_app; right; left; reflexivity).
      pose proof (HR _ _ Ik) as Tk. rewrite map_app in HK. cbn in HK.
      assert (Sub : forall q, In q (r1 ++ r2) -> In q (r1 ++ (k, x) :: r2)).
      { intros q I. apply in_app_or in I as [I|I]; apply in_or_app; [left; exact I|right; right; exact I]. }
      constructor; cbn [a_list a_idx a_run a_out a_errs a_took a_log a_pc]; auto.
      + rewrite settle_len. exact HL.
      + rewrite map_app. eapply NoDup_remove_1. exact HK.
      + intros j y I Hj. rewrite settle_other; [eapply HF; eauto|]. intros ->. apply NoDup_remove_2 in HK. apply HK.
        rewrite <- map_app. apply in_map_iff. exists (k, y). auto.
      + intros j Hj. destruct (Nat.eq_dec j k) as [->|Ne].
        * assert (k <? n = true) as Lt by (apply Nat.ltb_lt; exact Hj).
          assert (Es : forall s, nth_error (set_nth out k s) k = Some s) by (intros s; apply set_nth_same; rewrite HL; exact Hj).
          unfold entry. cbn [a_list a_idx a_run a_out a_errs a_took a_log a_pc]. unfold settle. rewrite Lt.
          destruct a; cbn [fst snd].
          -- right. right. left. exists x, b. split; [exact Tk|]. split; [apply in_or_app; right; left; reflexivity|apply Es].
          -- right. right. right. left. exists x, e. split; [exact Tk|]. split; [apply in_or_app; right; left; reflexivity|].
             split; [apply Es|]. intros ->. destruct errs; discriminate.
          -- right. right. right. right. exists x. split; [exact Tk|]. split; [exact H0|]. left.
             split; [apply in_or_app; right; left; reflexivity|apply Es].
          -- right. right. right. right. exists x. split; [exact Tk|]. split; [exact H0|]. right.
             split; [apply in_or_app; right; left; reflexivity|].
             eapply HF; eauto.
        * destruct (HA j Hj) as [(y & E1 & E2 & E3)|[(E1 & E2)|[(y & b & E1 & E2 & E3)|[(y & e & E1 & E2 & E3 & E4)|(y & E1 & E2 & E3)]]]];
            unfold entry; cbn [a_list a_idx a_run a_out a_errs a_took a_log a_pc] in *; rewrite settle_other by exact Ne.
          -- left. exists y. split; [exact E1|]. split; [|exact E3].
             apply in_app_or in E2 as [I|[[= <- <-]|I]]; [apply in_or_app; auto|contradiction|apply in_or_app; auto].
          -- right. left. auto.
          -- right. right. left. exists y, b. split; [exact E1|]. split; [apply in_or_app; auto|exact E3].
          -- right. right. right. left. exists y, e. split; [exact E1|]. split; [apply in_or_app; auto|]. split; [exact E3|].
             intros R. apply settle_errs, E4, R.
          -- right. right. right. right. exists y. split; [exact E1|]. split; [apply settle_errs, E2|].
             destruct E3 as [[I N]|[I N]]; [left|right]; (split; [apply in_or_app; auto|exact N]).
      + intros e I. assert (HE' : forall e', In e' errs -> e' = IndexError /\ n < length took \/ rexc = false /\ exists k0 x0, In (k0, x0, AErr e') (log ++ [(k, x, a)])).
        { intros e' J. destruct (HE e' J) as [J'|(R & k0 & x0 & J')]; [auto|]. right. split; [exact R|]. exists k0, x0. apply in_or_app. auto. }
        assert (Ov : n <= k -> n < length took) by (intros Le; assert (nth_error took k <> None) as Z by congruence; apply nth_error_Some in Z; lia).
        unfold settle in I. destruct a; cbn [fst snd] in I; try (apply HE'; exact I); destruct (k <? n) eqn:Lt; cbn [fst snd] in I; try (apply HE'; exact I);
          try (apply Nat.ltb_ge in Lt; apply in_app_or in I as [I|[<-|[]]]; [apply HE'; exact I|left; auto]).
        destruct rexc eqn:R; [apply HE'; exact I|]. apply in_app_or in I as [I|[<-|[]]]; [apply HE'; exact I|].
        right. split; [reflexivity|]. exists k, x. apply in_or_app. right. left. reflexivity.
      + intros j y Hj N. destruct (HO j y Hj N) as [I|I]; [|right; apply settle_errs, I].
        destruct (Nat.eq_dec j k) as [->|Ne]; [|left; apply in_app_or in I as [I|[[= <- <-]|I]]; [apply in_or_app; auto|contradiction|apply in_or_app; auto]].
        right. unfold settle. assert (k <? n = false) as Lt by (apply Nat.ltb_ge; exact Hj). rewrite Lt.
        destruct a; cbn [snd]; try (destruct errs; discriminate). exact H0.
      + destruct H as [-> | ->]; exact Logic.I.
    - constructor; cbn; auto.
    - constructor; cbn; auto.
  Qed.
  Lemma ainv_runs P c d : aruns rexc throttle n P c d -> ainv c -> ainv d.
  Proof. induction 1; intros H2; [exact H2|]. apply IHaruns. eapply ainv_step; eauto. Qed.
  Lemma grown_errs c : ainv c -> a_errs c <> [] -> rexc = true -> n < length (a_took c).
  Proof.
    intros I N R. pose proof (w_errs c I) as W. destruct (a_errs c) as [|e es]; [contradiction|].
    destruct (W e (or_introl eq_refl)) as [[_ H]|[H _]]; [exact H|congruence].
  Qed.

  (** One entry for each item there was at the start: what the call for the item taken at this position gave; None
      if none was taken.  Only if more items were taken, and with return_exceptions, entries may be lost. *)
  Theorem C124_alcall_sound P (c : cfg) r : aruns rexc throttle n P (ainit l0) c -> a_pc c = ADone (inl r) ->
    length r = n /\ forall k, k < n ->
    match nth_error r k with
    | Some (SRes b) => exists x, nth_error (a_took c) k = Some x /\ In (k, x, AOk b) (a_log c)
    | Some (SExc e) => exists x, nth_error (a_took c) k = Some x /\ In (k, x, AErr e) (a_log c) /\ rexc = true
    | Some SNone => nth_error (a_took c) k = None \/ n < length (a_took c) /\ rexc = true
    | Some SCancelled => n < length (a_took c) /\ rexc = true
    | None => False
    end.
  Proof.
    intros H Q. pose proof (ainv_runs P _ _ H ainv_init) as I. pose proof (w_done c I) as D. rewrite Q in D. destruct D as (-> & R & X).
    split; [apply (w_len c I)|]. intros k Hk. pose proof (w_all c I k Hk) as E. unfold entry in E. rewrite R in E.
    assert (G : a_errs c <> [] -> n < length (a_took c) /\ rexc = true).
    { intros N. destruct X as [X|X]; [contradiction|]. split; [exact (grown_errs c I N X)|exact X]. }
    destruct E as [(x & _ & [] & _)|[(E1 & ->)|[(x & b & E1 & E2 & ->)|[(x & e & E1 & E2 & -> & E3)|(x & E1 & E2 & [[_ ->]|[_ ->]])]]]]; eauto.
    exists x. split; [exact E1|]. split; [exact E2|]. destruct rexc eqn:RX; [reflexivity|]. destruct (G (E3 eq_refl)) as [_ Y]. discriminate Y.
  Qed.
  (** What is raised comes from calls, except IndexError when more items were taken than there were at the start. *)
  Theorem C124_alcall_raised P (c : cfg) es : aruns rexc throttle n P (ainit l0) c -> a_pc c = ADone (inr es) ->
    rexc = false /\ es <> [] /\ forall e, In e es -> e = IndexError /\ n < length (a_took c) \/ exists k x, In (k, x, AErr e) (a_log c).
  Proof.
    intros H Q. pose proof (ainv_runs P _ _ H ainv_init) as I. pose proof (w_done c I) as D. rewrite Q in D. destruct D as (-> & R & N & X).
    split; [exact X|]. split; [exact N|]. intros e J. destruct (w_errs c I e J) as [K|[_ K]]; auto.
  Qed.
  (** Without return_exceptions it never returns once more items were taken. *)
  Theorem C124_alcall_grown P (c : cfg) r : aruns rexc throttle n P (ainit l0) c -> a_pc c = ADone r -> rexc = false -> n < length (a_took c) ->
    exists es, r = inr es.
  Proof.
    intros H Q X G. pose proof (ainv_runs P _ _ H ainv_init) as I. pose proof (w_done c I) as D. rewrite Q in D. destruct r as [r|es]; [|eauto].
    destruct D as (_ & R & Y). destruct (nth_error (a_took c) n) as [x|] eqn:N; [|apply nth_error_None in N; lia].
    destruct (w_over c I n x (le_n _) N) as [J|J]; [rewrite R in J; destruct J|]. destruct Y as [Y|Y]; [contradiction|congruence].
  Qed.
  (** A list that never gets longer than it was: no more items are taken, and successful calls give a result. *)
  Theorem C124_alcall_shrinking (c : cfg) r : aruns rexc throttle n (fun c => length (a_list c) <= n) (ainit l0) c -> a_pc c = ADone r ->
    length (a_took c) <= n /\ ((forall k x a, In (k, x, a) (a_log c) -> exists b, a = AOk b) -> exists out, r = inl out /\
      forall k, k < n -> match nth_error (a_took c) k with
                         | Some x => exists b, In (k, x, AOk b) (a_log c) /\ nth_error out k = Some (SRes b)
                         | None => nth_error out k = Some SNone
                         end).
  Proof.
    intros H Q. assert (T : length (a_took c) <= n).
    { assert (G : ainv (ainit l0) -> length (a_took (ainit l0 : cfg)) <= n -> length (a_took c) <= n); [|apply G; [apply ainv_init|cbn; lia]].
      clear Q. induction H as [c|c d e Pc S H IH]; intros I L; [exact L|]. apply IH; [eapply ainv_step; eauto|].
      pose proof (w_idx c I) as Ix. destruct S; cbn in *; auto. rewrite app_length. cbn.
      assert (nth_error l i <> None) as Z by congruence. apply nth_error_Some in Z. lia. }
    split; [exact T|]. intros Ok. destruct r as [out|es].
    - exists out. split; [reflexivity|]. intros k Hk. destruct (C124_alcall_sound _ _ _ H Q) as [L E]. specialize (E k Hk).
      destruct (nth_error out k) as [[|b|e|]|]; [|destruct E as (x & -> & E); eauto|destruct E as (x & _ & E & _); destruct (Ok _ _ _ E) as [? K]; discriminate K|lia|destruct E].
      destruct E as [->|E]; [reflexivity|lia].
    - destruct (C124_alcall_raised _ _ _ H Q) as (_ & N & E). destruct es as [|e es]; [contradiction|].
      destruct (E e (or_introl eq_refl)) as [[_ G]|(k & x & G)]; [lia|]. destruct (Ok _ _ _ G) as [? K]. discriminate K.
  Qed.
  (** Without throttle_period the items are those of the list at the start, whatever happens to it later. *)
  Theorem C124_alcall_at_once P (c : cfg) r : throttle = false -> aruns rexc throttle n P (ainit l0) c -> a_pc c = ADone r -> a_took c = l0.
  Proof.
    intros Th H Q.
    assert (G : forall c d : cfg, aruns rexc throttle n P c d ->
      match a_pc c with ASpawn => a_list c = l0 /\ a_idx c <= n /\ a_took c = firstn (a_idx c) l0 | APause => False | _ => a_took c = l0 end ->
      match a_pc d with ASpawn => a_list d = l0 /\ a_idx d <= n /\ a_took d = firstn (a_idx d) l0 | APause => False | _ => a_took d = l0 end).
    { clear c H Q. induction 1 as [c|c d e _ S _ IH]; intros I; [exact I|]. apply IH. clear IH. destruct S; cbn in *; try contradiction; auto.
      - rewrite Th. cbn. destruct I as (-> & L & ->). split; [reflexivity|]. assert (nth_error l0 i <> None) as Z by congruence. apply nth_error_Some in Z.
        split; [lia|]. clear - H. revert i H. induction l0 as [|y l IH]; intros [|i] H; cbn in *; try discriminate; [congruence|]. rewrite (IH i H). reflexivity.
      - destruct I as (-> & L & ->). apply nth_error_None in H. apply firstn_all2. exact H.
      - destruct H as [-> | ->]; [contradiction|exact I]. }
    specialize (G _ _ H). rewrite Q in G. apply G. cbn. split; [reflexivity|]. split; [lia|reflexivity].
  Qed.
End Alcall.
Print Assumptions C124_lcall_same.
Print Assumptions C124_lcall_appending.
Print Assumptions C124_lcall_endless.
Print Assumptions C124_lcall_removing.
Print Assumptions C124_alcall_sound.
Print Assumptions C124_alcall_raised.
Print Assumptions C124_alcall_grown.
Print Assumptions C124_alcall_shrinking.
Print Assumptions C124_alcall_at_once.

(** ** What fails, and examples *)
(** A function that removes its item: half of the items are never called. *)
Definition removing (x : nat) (l : list nat) : list nat * outcome nat := (remove Nat.eq_dec x l, Ret (10 * x)).
Theorem C124_lcall_once_refuted : lloop (fun l => l) removing 0 [1; 2; 3; 4; 5] [1; 3; 5] [10; 30; 50] [2; 4] (Ret tt).
Proof. repeat (eapply ll_call; [reflexivity|reflexivity|]). apply ll_end. reflexivity. Qed.
Print Assumptions C124_lcall_once_refuted.
(** One that appends the half of an even item, and fails on 0. *)
Definition halving (x : nat) (l : list nat) : list nat * outcome nat :=
  if x =? 0 then (l, Raise ValueError) else (if Nat.even x then l ++ [x / 2] else l, Ret x).
Example C124_ex_halving : lloop (fun l => l) halving 0 [4; 3] [4; 3; 2; 1] [4; 3; 2; 1] [4; 3; 2; 1] (Ret tt) /\
  lloop (fun l => l) halving 0 [2; 0; 5] [2; 0] [2] [2; 0; 5; 1] (Raise ValueError).
Proof.
  split.
  - repeat (eapply ll_call; [reflexivity|reflexivity|]). apply ll_end. reflexivity.
  - eapply ll_call; [reflexivity|reflexivity|]. eapply ll_fail; reflexivity.
Qed.

Definition anything {A B} (c : @acfg A B) : Prop := True.
Definition no_call_failed {A B} (c : @acfg A B) : Prop := forall k x e, ~ In (k, x, AErr e) (a_log c).
Ltac go r := eapply ar_step; [exact Logic.I|eapply r|cbn].
Ltac task p q := eapply ar_step; [exact Logic.I|eapply as_task with (r1 := p) (a := q); [auto|cbn; try discriminate; auto]|cbn].
(** Throttled, the list grows, no call fails: without return_exceptions it raises IndexError, with it the results of
    all items are lost. *)
Theorem C124_alcall_grown_refuted :
  (exists c : @acfg nat nat, aruns false true 2 anything (ainit [1; 2]) c /\ a_pc c = ADone (inr [IndexError]) /\ no_call_failed c) /\
  (exists c : @acfg nat nat, aruns true true 2 anything (ainit [1; 2]) c /\ a_pc c = ADone (inl [SCancelled; SCancelled]) /\ no_call_failed c).
Proof.
  split.
  - eexists. split.
    + unfold ainit. cbn. eapply ar_step; [exact Logic.I|eapply as_spawn; reflexivity|cbn].
      eapply ar_step; [exact Logic.I|eapply as_other with (l' := [1; 2; 3]); auto|]. go @as_resume.
      eapply ar_step; [exact Logic.I|eapply as_spawn; reflexivity|cbn]. eapply ar_step; [exact Logic.I|eapply as_spawn; reflexivity|cbn].
      eapply ar_step; [exact Logic.I|eapply as_end; reflexivity|cbn].
      task (@nil (nat * nat)) (@AOk nat 10). task (@nil (nat * nat)) (@AOk nat 20). task (@nil (nat * nat)) (@AOk nat 30).
      eapply ar_step; [exact Logic.I|eapply as_raise; [discriminate|reflexivity]|]. apply ar_refl. exact Logic.I.
    + split; [reflexivity|]. intros k x e. cbn. intuition discriminate.
  - eexists. split.
    + unfold ainit. cbn. eapply ar_step; [exact Logic.I|eapply as_spawn; reflexivity|cbn].
      eapply ar_step; [exact Logic.I|eapply as_other with (l' := [1; 2; 3]); auto|]. go @as_resume.
      eapply ar_step; [exact Logic.I|eapply as_spawn; reflexivity|cbn]. eapply ar_step; [exact Logic.I|eapply as_spawn; reflexivity|cbn].
      eapply ar_step; [exact Logic.I|eapply as_end; reflexivity|cbn].
      task [(0, 1); (1, 2)] (@AOk nat 30). task (@nil (nat * nat)) (@ACancelled nat). task (@nil (nat * nat)) (@ACancelled nat).
      eapply ar_step; [exact Logic.I|eapply as_return; auto|]. apply ar_refl. exact Logic.I.
    + split; [reflexivity|]. intros k x e. cbn. intuition discriminate.
Qed.
Print Assumptions C124_alcall_grown_refuted.
(** Throttled, the first call removes its item: the second item is skipped and the last entry is None. *)
Example C124_ex_alcall_removing : exists c : @acfg nat nat, aruns false true 3 (fun c => length (a_list c) <= 3) (ainit [1; 2; 3]) c /\
  a_took c = [1; 3] /\ a_pc c = ADone (inl [SRes 10; SRes 30; SNone]).
Proof.
  eexists. split.
  - unfold ainit. cbn.
    eapply ar_step; [cbn; lia|eapply as_spawn; reflexivity|cbn].
    eapply ar_step; [cbn; lia|eapply as_other with (l' := [2; 3]); auto|].
    eapply ar_step; [cbn; lia|eapply as_task with (r1 := []) (a := AOk 10); cbn; auto|cbn].
    eapply ar_step; [cbn; lia|eapply as_resume|cbn].
    eapply ar_step; [cbn; lia|eapply as_spawn; reflexivity|cbn].
    eapply ar_step; [cbn; lia|eapply as_resume|cbn].
    eapply ar_step; [cbn; lia|eapply as_end; reflexivity|cbn].
    eapply ar_step; [cbn; lia|eapply as_task with (r1 := []) (a := AOk 30); cbn; auto|cbn].
    eapply ar_step; [cbn; lia|eapply as_return; auto|]. apply ar_refl. cbn. lia.
  - split; reflexivity.
Qed.
