(** Properties C34 and C35: Broadcaster and EventBus. *)
From Coq Require Import List Bool Arith Lia.
From Verif Require Import PyBase PyFacts ModelHeap ModelPubSub SpecPubSub ProofsPubSub.
Import ListNotations.

(** ** C34.  [owner] maps a class to the class whose subscriber list it uses,
    [same] is Python's [==] on objects. *)

(** For every history [ops1] and everything that happens afterwards, the calls of
    a broadcast are an initial part of the subscriptions at its start, each once,
    in subscription order; [asked] ignores callbacks that raise an Exception. *)
Theorem C34_delivery : forall owner same ops1 c ev ops2,
  (forall o o', same o o' = true -> o = o') -> separate ops1 -> possible owner same binit ops1 ->
  let t := length (bs_tasks (brun owner same binit ops1)) in
  let s := brun owner same binit (ops1 ++ BBroadcast c ev true :: ops2) in
  calls t (bs_log s) =
    map (fun r => (r, ev)) (firstn (asked t ops2) (on_channel (owner c) (board_of owner ops1))).
Proof.
  intros owner same ops1 c ev ops2 Hid Hs Hp t s. unfold s. rewrite brun_app.
  destruct (refine_run owner same ops1 Hid Hs Hp) as (R & _ & _).
  rewrite <- (R (owner c)). apply broadcast_calls.
  apply log_ok_run. intros ? ? ? [].
Qed.
Print Assumptions C34_delivery.

(** A broadcast that has returned has called every one of them. *)
Theorem C34_complete : forall owner same ops1 c ev ops2 k,
  (forall o o', same o o' = true -> o = o') -> separate ops1 -> possible owner same binit ops1 ->
  let t := length (bs_tasks (brun owner same binit ops1)) in
  let s := brun owner same binit (ops1 ++ BBroadcast c ev true :: ops2) in
  nth_error (bs_tasks s) t = Some k -> b_status k = BReturned ->
  calls t (bs_log s) = map (fun r => (r, ev)) (on_channel (owner c) (board_of owner ops1)).
Proof.
  intros owner same ops1 c ev ops2 k Hid Hs Hp t s N E. unfold s in *. rewrite brun_app in *.
  destruct (refine_run owner same ops1 Hid Hs Hp) as (R & _ & _).
  rewrite <- (R (owner c)).
  destruct (broadcast_calls owner same (brun owner same binit ops1) c ev ops2) as (A & td & st & B & C).
  { apply log_ok_run. intros ? ? ? []. }
  fold t in A, B, C. rewrite B in N. injection N as <-. simpl in E. specialize (C E).
  rewrite A, firstn_all2; auto. lia.
Qed.
Print Assumptions C34_complete.

(** It returns: asked once more than there are callbacks, none of them raising
    anything but an Exception, it has returned. *)
Theorem C34_returns : forall owner same s c ev n,
  let t := length (bs_tasks s) in
  let s' := brun owner same s (BBroadcast c ev true :: repeat (BNext t (CExc 0)) n) in
  length (live s (owner c)) < n ->
  exists k, nth_error (bs_tasks s') t = Some k /\ b_status k = BReturned.
Proof.
  intros owner same s c ev n t s' L. unfold s'. cbn [brun].
  assert (G : forall n l x, nth_error (bs_tasks x) t = Some (Build_btask ev (live s (owner c)) l BRunning) ->
     length l < n -> exists k, nth_error (bs_tasks (brun owner same x (repeat (BNext t (CExc 0)) n))) t = Some k
       /\ b_status k = BReturned).
  { clear. induction n as [|n IH]; intros l x N L; [lia|]. cbn [repeat brun bstep]. rewrite N.
    destruct l as [|r l].
    - eexists. split; [apply run_dead with (st := BReturned); auto; apply (nth_upd_same _ _ _ _ N) | auto].
    - apply (IH l); [apply (nth_upd_same _ _ _ _ N) | simpl in L; lia]. }
  apply (G n (live s (owner c))); auto. simpl. rewrite nth_error_app2, Nat.sub_diag; auto.
Qed.
Print Assumptions C34_returns.

(** get_subscriber_count agrees with the history. *)
Theorem C34_count : forall owner same ops c,
  (forall o o', same o o' = true -> o = o') -> separate ops -> possible owner same binit ops ->
  snd (bstep owner same (brun owner same binit ops) (BCount c)) =
    BNum (length (on_channel (owner c) (board_of owner ops))).
Proof.
  intros owner same ops c Hid Hs Hp. destruct (refine_run owner same ops Hid Hs Hp) as (R & _ & _).
  rewrite <- (R (owner c)). reflexivity.
Qed.
Print Assumptions C34_count.

(** The history of a plain callback: subscribing twice is subscribing once, and
    after unsubscribing it is not called. *)
Theorem C34_plain : forall owner ops c o,
  let after := board_of owner (ops ++ [BSubscribe c (Plain o)]) in
  count_occ Bool.bool_dec (map (wref_eqb (RObj o)) (on_channel (owner c) after)) true >= 1 /\
  board_of owner (ops ++ [BSubscribe c (Plain o); BSubscribe c (Plain o)]) = after /\
  ~ In (RObj o) (on_channel (owner c) (board_of owner (ops ++ [BUnsubscribe c (Plain o)]))) /\
  (forall r, r <> RObj o ->
     (In r (on_channel (owner c) (board_of owner (ops ++ [BUnsubscribe c (Plain o)]))) <->
      In r (on_channel (owner c) (board_of owner ops)))).
Proof.
  intros owner ops c o after.
  assert (X : existsb (wref_eqb (RObj o)) (on_channel (owner c) after) = true).
  { unfold after. rewrite board_of_snoc. cbn [board_step].
    destruct (existsb (wref_eqb (RObj o)) (on_channel (owner c) (board_of owner ops))) eqn:E; auto. rewrite on_channel_app. unfold on_channel at 2. simpl.
    rewrite Nat.eqb_refl. rewrite existsb_app. simpl. rewrite Nat.eqb_refl. apply orb_true_r. }
  split; [|split; [|split]].
  - apply existsb_exists in X. destruct X as (x & I & E).
    apply (count_occ_In Bool.bool_dec). apply in_map_iff. eauto.
  - change [BSubscribe c (Plain o); BSubscribe c (Plain o)]
      with ([BSubscribe c (Plain o)] ++ [BSubscribe c (Plain o)]).
    rewrite app_assoc, board_of_snoc. fold after. cbn [board_step]. now rewrite X.
  - rewrite board_of_snoc. cbn [board_step]. rewrite on_channel_drop, Nat.eqb_refl.
    intros I. apply filter_In in I. destruct I as [_ I]. simpl in I. now rewrite Nat.eqb_refl in I.
  - intros r N. rewrite board_of_snoc. cbn [board_step]. rewrite on_channel_drop, Nat.eqb_refl, filter_In.
    destruct (wref_eqb r (RObj o)) eqn:E; [apply wref_eqb_eq in E; contradiction|]. simpl. tauto.
Qed.
Print Assumptions C34_plain.

(** An event of the wrong type: ValueError, nothing happens. *)
Theorem C34_wrong_type : forall owner same s c ev,
  bstep owner same s (BBroadcast c ev false) = (s, BRaise ValueError).
Proof. reflexivity. Qed.
Print Assumptions C34_wrong_type.

(** A running broadcast keeps its callbacks alive, whatever happens to the subscriptions; a
    callback of no running broadcast can be collected. *)
Theorem C34_kept : forall owner same ops,
  let s := brun owner same binit ops in
  (forall t r, In t (bs_tasks s) -> b_status t = BRunning -> In r (b_all t) -> ~ In (referent r) (bs_dead s)) /\
  (forall o, (forall t r, In t (bs_tasks s) -> b_status t = BRunning -> In r (b_all t) -> referent r <> o) ->
     bstep owner same s (BCollect o) = (Build_bstate (o :: bs_dead s) (bs_subs s) (bs_tasks s) (bs_log s), BNone)).
Proof.
  intros owner same ops s. split.
  - subst s.
    assert (I : forall s, (forall t r, In t (bs_tasks s) -> b_status t = BRunning -> In r (b_all t) -> ~ In (referent r) (bs_dead s)) ->
      forall t r, In t (bs_tasks (brun owner same s ops)) -> b_status t = BRunning -> In r (b_all t) ->
      ~ In (referent r) (bs_dead (brun owner same s ops))); [|apply I; intros ? ? []].
    induction ops as [|a ops IH]; intros s I; [exact I|]. cbn [brun]. apply IH. clear IH.
    destruct a as [c cb|c cb|o|c ev [|]|t res|c]; cbn [bstep].
    + destruct (callee_dead s cb); [exact I|]. unfold subscribe. destruct (existsb _ _); [exact I|]. destruct cb; exact I.
    + destruct (callee_dead s cb); [exact I|]. unfold unsubscribe. destruct (find _ _); exact I.
    + destruct (held (bs_tasks s) o) eqn:E; [exact I|]. cbn [fst bs_tasks bs_dead]. intros t r T R A [D|D]; [|exact (I t r T R A D)]. rewrite D in E.
      assert (held (bs_tasks s) (referent r) = true); [|congruence]. apply existsb_exists. exists t. rewrite R.
      split; [exact T|]. apply existsb_exists. exists r. split; [exact A|apply Nat.eqb_refl].
    + unfold cleanup. cbn [fst bs_tasks bs_dead set_subs]. intros t r T R A. apply in_app_or in T. destruct T as [T|[<-|[]]]; [exact (I t r T R A)|].
      cbn [b_all] in A. apply filter_In in A. destruct A as [_ A]. unfold alive in A. intros D.
      assert (existsb (Nat.eqb (referent r)) (bs_dead s) = true) as X by (apply existsb_exists; exists (referent r); split; [exact D|apply Nat.eqb_refl]).
      rewrite X in A. discriminate.
    + exact I.
    + destruct (nth_error (bs_tasks s) t) as [[ev all todo [| |]]|] eqn:N; try exact I.
      destruct todo as [|cb rest]; cbn [fst bs_tasks bs_dead]; intros t' r T R A; apply In_nth_error in T; destruct T as (j & T);
        (destruct (Nat.eq_dec t j) as [->|NE];
         [rewrite (nth_upd_same _ _ _ _ N) in T; injection T as <-; exact (I _ r (nth_error_In _ _ N) eq_refl A)
         |rewrite nth_upd_other in T by exact NE; exact (I t' r (nth_error_In _ _ T) R A)]).
    + exact I.
  - intros o H. cbn [bstep]. replace (held (bs_tasks s) o) with false; [reflexivity|]. symmetry.
    apply Bool.not_true_is_false. intros E. apply existsb_exists in E. destruct E as (t & T & E).
    destruct (b_status t) eqn:R; try discriminate. apply existsb_exists in E. destruct E as (r & A & E).
    apply Nat.eqb_eq in E. exact (H t r T R A E).
Qed.
Print Assumptions C34_kept.

Example C34_ex_kept :
  let id := fun c : nat => c in
  let s := brun id Nat.eqb binit [BSubscribe 0 (Plain 1); BSubscribe 0 (Plain 2); BBroadcast 0 7 true; BUnsubscribe 0 (Plain 2)] in
  snd (bstep id Nat.eqb s (BCollect 2)) = BImpossible /\ snd (bstep id Nat.eqb s (BCollect 3)) = BNone /\
  snd (bstep id Nat.eqb (brun id Nat.eqb s [BNext 0 COk; BNext 0 COk; BNext 0 COk]) (BCollect 2)) = BNone.
Proof. repeat split; reflexivity. Qed.

(** Callbacks 1 and 2 (plain) and the method 0 of object 9; 2 unsubscribes 9's
    class-mates while it runs, 1 raises, 3 subscribes too late. *)
Example C34_ex :
  let own := fun c => c in let same := Nat.eqb in
  let pre := [BSubscribe 5 (Plain 1); BSubscribe 5 (Plain 2); BSubscribe 5 (Plain 1);
              BSubscribe 5 (Bound 9 0); BSubscribe 6 (Plain 4); BSubscribe 5 (Plain 7); BCollect 7] in
  let post := [BNext 0 (CExc 3); BUnsubscribe 5 (Plain 2); BSubscribe 5 (Plain 3); BNext 0 COk;
               BNext 0 COk; BNext 0 COk] in
  let s := brun own same binit (pre ++ BBroadcast 5 8 true :: post) in
  calls 0 (bs_log s) = [(RObj 1, 8); (RObj 2, 8); (RMeth 9 0, 8)] /\
  map b_status (bs_tasks s) = [BReturned] /\
  possible own same binit pre /\
  on_channel 5 (board_of own (pre ++ BBroadcast 5 8 true :: post)) = [RObj 1; RMeth 9 0; RObj 3] /\
  snd (bstep own same s (BCount 5)) = BNum 3.
Proof. repeat split; try discriminate; reflexivity. Qed.

(** A BaseException that is not an Exception ends the broadcast. *)
Theorem C34_base_exception_refuted : exists ops ev,
  let s := brun (fun c => c) Nat.eqb binit (ops ++ [BBroadcast 0 ev true; BNext 0 (CBase 1); BNext 0 COk]) in
  on_channel 0 (board_of (fun c => c) ops) = [RObj 1; RObj 2] /\ calls 0 (bs_log s) = [(RObj 1, ev)].
Proof. exists [BSubscribe 0 (Plain 1); BSubscribe 0 (Plain 2)], 7. split; reflexivity. Qed.
Print Assumptions C34_base_exception_refuted.

(** Bound methods: every subscribe adds a subscription and unsubscribe never
    removes one, in every state. *)
Theorem C34_bound_methods_refuted : forall owner same s c o m,
  callee_dead s (Bound o m) = false ->
  subs_of owner (fst (bstep owner same s (BSubscribe c (Bound o m)))) c = subs_of owner s c ++ [RMeth o m] /\
  fst (bstep owner same s (BUnsubscribe c (Bound o m))) = s.
Proof.
  intros owner same s c o m D. cbn [bstep]. rewrite D. unfold subscribe, unsubscribe.
  assert (E : existsb (is_target (bs_dead s) (Bound o m)) (subs_of owner s c) = false)
    by (induction (subs_of owner s c) as [|[|] l IH]; simpl; auto).
  assert (F : find (is_target (bs_dead s) (Bound o m)) (subs_of owner s c) = None)
    by (induction (subs_of owner s c) as [|[|] l IH]; simpl in *; auto).
  rewrite E, F. split; auto. unfold subs_of at 1; simpl. now rewrite dget_dset_same.
Qed.
Print Assumptions C34_bound_methods_refuted.
Example C34_bound_ex :
  let s := brun (fun c => c) Nat.eqb binit
     [BSubscribe 0 (Bound 1 0); BSubscribe 0 (Bound 1 0); BUnsubscribe 0 (Bound 1 0);
      BBroadcast 0 5 true; BNext 0 COk; BNext 0 COk; BNext 0 COk] in
  calls 0 (bs_log s) = [(RMeth 1 0, 5); (RMeth 1 0, 5)].
Proof. reflexivity. Qed.

(** Callable instances that compare equal: unsubscribing one removes the other,
    and the first one is still called. *)
Theorem C34_equal_callables_refuted : exists same ops,
  (forall o, same o o = true) /\
  let s := brun (fun c => c) same binit ops in
  ops = [BSubscribe 0 (Plain 1); BSubscribe 0 (Plain 2); BUnsubscribe 0 (Plain 2)] /\
  live s 0 = [RObj 2].
Proof. exists (fun _ _ => true), [BSubscribe 0 (Plain 1); BSubscribe 0 (Plain 2); BUnsubscribe 0 (Plain 2)]. repeat split. Qed.
Print Assumptions C34_equal_callables_refuted.

(** An object subscribed through a bound method and itself: unsubscribing the
    object removes the method. *)
Theorem C34_mixed_refuted : exists ops,
  let s := brun (fun c => c) Nat.eqb binit ops in
  ops = [BSubscribe 0 (Bound 1 0); BSubscribe 0 (Plain 1); BUnsubscribe 0 (Plain 1)] /\
  live s 0 = [RObj 1].
Proof. eexists. split; reflexivity. Qed.
Print Assumptions C34_mixed_refuted.

(** Two classes that do not define their own subscriber list share one. *)
Theorem C34_subclasses_refuted : exists owner (c c' : nat), c <> c' /\
  let s := brun owner Nat.eqb binit [BSubscribe c (Plain 1); BBroadcast c' 5 true; BNext 0 COk] in
  calls 0 (bs_log s) = [(RObj 1, 5)].
Proof. exists (fun _ => 0), 1, 2. split; [discriminate | reflexivity]. Qed.
Print Assumptions C34_subclasses_refuted.

(** ** C35 *)

(** For every history, an emission whose handlers can all be called starts the
    awaitable of each live subscription of its topic once, in order, and nothing
    that happens later adds to it; no other emission's starts change. *)
Theorem C35_emit : forall same ops1 t raises ops2,
  (forall o o', same o o' = true -> o = o') -> e_possible same einit_bus ops1 ->
  let s1 := erun_bus same einit_bus ops1 in
  let k := length (eb_emits s1) in
  let hs := on_topic t (ebook_of ops1) in
  let s := erun_bus same s1 (EEmit t raises :: ops2) in
  hs <> [] -> (forall o, In o hs -> raises o = None) ->
  snd (estep same s1 (EEmit t raises)) = EEmission k /\
  started k (eb_log s) = hs /\
  (forall j, j < k -> started j (eb_log s) = started j (eb_log s1)) /\
  nth_error (eb_emits (fst (estep same s1 (EEmit t raises)))) k =
    Some (Build_emission t hs (map (fun _ => None) hs) ERunning).
Proof.
  intros same ops1 t raises ops2 Hid Hp s1 k hs s NE NR. unfold s. cbn [erun_bus].
  destruct (e_refine_run same ops1 Hid Hp) as (R & K & _). fold s1 in R, K.
  assert (LK : e_log_ok s1) by (apply e_log_ok_run; intros ? ? []).
  assert (X : estep same s1 (EEmit t raises) =
     (Build_ebus (eb_dead s1) (dset t hs (eb_subs s1))
        (eb_emits s1 ++ [Build_emission t hs (map (fun _ => None) hs) ERunning])
        (eb_log s1 ++ map (pair k) hs), EEmission k)).
  { specialize (R t). fold hs in R. cbn [estep]. unfold e_live in R.
    destruct (dget t (eb_subs s1)) as [l|] eqn:G; [|simpl in R; congruence].
    unfold e_cleanup. rewrite R. destruct hs as [|h r] eqn:H; [congruence|].
    rewrite (proj2 (first_raise_None same raises (h :: r)) NR). reflexivity. }
  rewrite X. cbn [fst snd]. split; [reflexivity|]. split; [|split].
  - rewrite e_run_keeps; simpl.
    + rewrite started_app, started_pair, Nat.eqb_refl, (started_fresh s1 k); auto.
    + rewrite app_length; simpl. fold k. lia.
  - intros j Hj. rewrite e_run_keeps; simpl.
    + rewrite started_app, started_pair. destruct (Nat.eqb_spec k j); [lia | apply app_nil_r].
    + rewrite app_length; simpl. fold k. lia.
  - simpl. unfold k. now rewrite nth_error_app2, Nat.sub_diag by auto.
Qed.
Print Assumptions C35_emit.

(** Handlers fail independently: however the others ended, an awaitable that has
    not ended can end, and emit returns exactly when all have. *)
Theorem C35_independent : forall same ops k m,
  let s := erun_bus same einit_bus ops in
  nth_error (eb_emits s) k = Some m ->
  (m_status m = EReturned <-> all_done (m_done m) = true) /\
  (forall i r, m_status m = ERunning -> nth_error (m_done m) i = Some None ->
     snd (estep same s (EFinish k i r)) = ENoOut /\
     exists m', nth_error (eb_emits (fst (estep same s (EFinish k i r)))) k = Some m' /\
       m_done m' = upd i (Some r) (m_done m) /\ m_all m' = m_all m).
Proof.
  intros same ops k m s N.
  assert (F : Forall m_ok (eb_emits s)) by (apply m_ok_run; constructor).
  rewrite Forall_forall in F. destruct (F m (nth_error_In _ _ N)) as [_ F2]. split; auto.
  intros i r St Ni. destruct m as [t hs done st]; simpl in *. subst st. rewrite N.
  rewrite (upd_opt_some _ _ r Ni). simpl. split; auto.
  eexists. split; [apply (nth_upd_same _ _ _ _ N)|]. simpl. auto.
Qed.
Print Assumptions C35_independent.

(** A handler whose call raises at once: emit raises and no awaitable is started. *)
Theorem C35_call_raises : forall same ops t raises o e,
  (forall o o', same o o' = true -> o = o') -> e_possible same einit_bus ops ->
  let s := erun_bus same einit_bus ops in
  In o (on_topic t (ebook_of ops)) -> raises o = Some e ->
  (exists o' e', In o' (on_topic t (ebook_of ops)) /\ raises o' = Some e' /\
     snd (estep same s (EEmit t raises)) = ERaised e') /\
  eb_log (fst (estep same s (EEmit t raises))) = eb_log s /\
  eb_emits (fst (estep same s (EEmit t raises))) = eb_emits s.
Proof.
  intros same ops t raises o e Hid Hp s I E.
  destruct (e_refine_run same ops Hid Hp) as (R & _ & _). fold s in R. specialize (R t).
  unfold e_live in R. cbn [estep].
  destruct (dget t (eb_subs s)) as [l|]; [|simpl in R; rewrite <- R in I; contradiction].
  unfold e_cleanup. rewrite R.
  assert (F : exists o' e', In o' (on_topic t (ebook_of ops)) /\ raises o' = Some e' /\
              first_raise raises (on_topic t (ebook_of ops)) = Some e').
  { clear R. induction (on_topic t (ebook_of ops)) as [|x l' IH]; [contradiction|]. simpl.
    destruct (raises x) as [e'|] eqn:X; [exists x, e'; auto|].
    destruct I as [<-|I]; [congruence|]. destruct (IH I) as (a & b & A & B & C). exists a, b. auto. }
  destruct F as (o' & e' & F1 & F2 & F3). rewrite F3.
  destruct (on_topic t (ebook_of ops)); [contradiction|]. simpl. repeat split. eauto.
Qed.
Print Assumptions C35_call_raises.

(** ... which prevents the other handlers. *)
Theorem C35_call_raises_refuted : exists ops raises,
  let s := erun_bus Nat.eqb einit_bus ops in
  on_topic 0 (ebook_of ops) = [1; 2] /\ raises 1 = None /\
  snd (estep Nat.eqb s (EEmit 0 raises)) = ERaised 4 /\
  eb_log (fst (estep Nat.eqb s (EEmit 0 raises))) = [].
Proof.
  exists [ESubscribe 0 1; ESubscribe 0 2], (fun o => if o =? 2 then Some 4 else None).
  repeat split.
Qed.
Print Assumptions C35_call_raises_refuted.

(** unsubscribe returns whether the handler was subscribed and alive, and the
    subscriptions afterwards are those of [ebook_of]: exactly one less. *)
Theorem C35_unsubscribe : forall same ops t o,
  (forall o o', same o o' = true -> o = o') -> e_possible same einit_bus (ops ++ [EUnsubscribe t o]) ->
  let s := erun_bus same einit_bus ops in
  let b := ebook_of ops in
  let b' := ebook_of (ops ++ [EUnsubscribe t o]) in
  snd (estep same s (EUnsubscribe t o)) = EBool (existsb (Nat.eqb o) (on_topic t b)) /\
  (forall u p, count_occ Nat.eq_dec (on_topic u b) p =
     count_occ Nat.eq_dec (on_topic u b') p +
       (if (u =? t) && (p =? o) && existsb (Nat.eqb o) (on_topic t b) then 1 else 0)).
Proof.
  intros same ops t o Hid Hp s b b'. apply e_possible_app in Hp. destruct Hp as [Hp [Ha _]].
  destruct (e_refine_run same ops Hid Hp) as (R & _ & _). fold s in R, Ha. fold b in R. split.
  - cbn [estep] in *. destruct (o_alive (eb_dead s) o) eqn:A; [|simpl in Ha; congruence].
    rewrite <- R. destruct (dget t (eb_subs s)) as [l|] eqn:G.
    + rewrite <- (existsb_live same _ _ _ _ G A). destruct (existsb (Nat.eqb o) l); reflexivity.
    + unfold e_live. now rewrite G.
  - intros u p. unfold b', ebook_of. rewrite fold_left_app. cbn [fold_left ebook_step]. fold (ebook_of ops). fold b.
    rewrite on_topic_drop. destruct (Nat.eqb_spec u t) as [->|]; simpl; [|lia].
    clear. induction (on_topic t b) as [|x l IH]; [destruct (p =? o); auto|].
    cbn [remove_when existsb count_occ]. rewrite (Nat.eqb_sym o x). destruct (Nat.eqb_spec x o) as [->|].
    + simpl. destruct (Nat.eq_dec o p), (Nat.eqb_spec p o); subst; simpl; try congruence; lia.
    + simpl. destruct (Nat.eq_dec x p) as [->|]; lia.
Qed.
Print Assumptions C35_unsubscribe.

Theorem C35_count : forall same ops t,
  (forall o o', same o o' = true -> o = o') -> e_possible same einit_bus ops ->
  snd (estep same (erun_bus same einit_bus ops) (ECount t)) = ENum (length (on_topic t (ebook_of ops))).
Proof.
  intros same ops t Hid Hp. destruct (e_refine_run same ops Hid Hp) as (R & _ & _).
  rewrite <- R. cbn [estep]. unfold e_live. destruct (dget t _); reflexivity.
Qed.
Print Assumptions C35_count.

(** topics(): the topics subscribed to since they were last cleared, without
    repetition, in order; every topic with a live handler is among them. *)
Theorem C35_topics : forall same ops,
  (forall o o', same o o' = true -> o = o') -> e_possible same einit_bus ops ->
  snd (estep same (erun_bus same einit_bus ops) ETopics) = EList (topics_of ops) /\
  NoDup (topics_of ops) /\
  (forall t, on_topic t (ebook_of ops) <> [] -> In t (topics_of ops)).
Proof.
  intros same ops Hid Hp. destruct (e_refine_run same ops Hid Hp) as (R & K & N).
  split; [|split; auto].
  - cbn [estep]. simpl. now rewrite K.
  - intros t H. rewrite <- R in H. rewrite <- K. unfold e_live in H.
    destruct (dget t _) as [l|] eqn:G; [|simpl in H; congruence]. eapply dget_Some_key; eauto.
Qed.
Print Assumptions C35_topics.

(** topics() also lists topics without any live handler. *)
Theorem C35_topics_refuted : exists ops,
  snd (estep Nat.eqb (erun_bus Nat.eqb einit_bus ops) ETopics) = EList [3; 4] /\
  snd (estep Nat.eqb (erun_bus Nat.eqb einit_bus ops) (ECount 3)) = ENum 0 /\
  snd (estep Nat.eqb (erun_bus Nat.eqb einit_bus ops) (ECount 4)) = ENum 0.
Proof. exists [ESubscribe 3 1; EUnsubscribe 3 1; ESubscribe 4 2; ECollect 2]. repeat split. Qed.
Print Assumptions C35_topics_refuted.

(** Without an assumption on [==], unsubscribe still removes exactly one entry. *)
Theorem C35_unsubscribe_any_eq : forall same s t o,
  snd (estep same s (EUnsubscribe t o)) = EBool true ->
  length (e_live (fst (estep same s (EUnsubscribe t o))) t) + 1 = length (e_live s t).
Proof.
  intros same s t o. cbn [estep]. destruct (o_alive (eb_dead s) o) eqn:A; [|discriminate].
  destruct (dget t (eb_subs s)) as [l|] eqn:G; [|discriminate].
  destruct (existsb (Nat.eqb o) l) eqn:E; [|discriminate]. intros _. cbn [fst].
  rewrite e_live_dset, Nat.eqb_refl, filter_remove_when.
  - rewrite (existsb_live same _ _ _ _ G A) in E. rewrite (e_live_get _ _ _ G).
    assert (L : forall (p : nat -> bool) l, (exists x, In x l /\ p x = true) -> length (remove_when p l) + 1 = length l).
    { clear. intros p. induction l as [|y l IH]; intros (x & I & P); [contradiction|]. simpl.
      destruct (p y) eqn:Q; [lia|]. destruct I as [->|I]; [congruence|]. simpl. rewrite <- IH; eauto. }
    apply L. apply existsb_nat in E. exists o. now rewrite Nat.eqb_refl.
  - intros x _ H. apply orb_true_iff in H. destruct H as [H|H].
    + apply Nat.eqb_eq in H. now subst.
    + apply andb_true_iff in H. tauto.
Qed.
Print Assumptions C35_unsubscribe_any_eq.

(** Topic 0 has handler 1 twice and 2; 5 is collected; 2 fails, 1 does not. *)
(** A running emission keeps its handlers alive, whatever happens to the subscriptions; a
    handler of no running emission can be collected. *)
Theorem C35_kept : forall same ops,
  let s := erun_bus same einit_bus ops in
  (forall m o, In m (eb_emits s) -> m_status m = ERunning -> In o (m_all m) -> o_alive (eb_dead s) o = true) /\
  (forall o, (forall m, In m (eb_emits s) -> m_status m = ERunning -> ~ In o (m_all m)) ->
     estep same s (ECollect o) = (Build_ebus (o :: eb_dead s) (eb_subs s) (eb_emits s) (eb_log s), ENoOut)).
Proof.
  intros same ops s. split.
  - subst s.
    assert (I : forall s, (forall m o, In m (eb_emits s) -> m_status m = ERunning -> In o (m_all m) -> o_alive (eb_dead s) o = true) ->
      forall m o, In m (eb_emits (erun_bus same s ops)) -> m_status m = ERunning -> In o (m_all m) ->
      o_alive (eb_dead (erun_bus same s ops)) o = true); [|apply I; intros ? ? []].
    induction ops as [|a ops IH]; intros s I; [exact I|]. cbn [erun_bus]. apply IH. clear IH.
    destruct a as [t o|t o|o|t raises|k i r|[t|]| |t]; cbn [estep]; try exact I.
    + destruct (o_alive (eb_dead s) o); exact I.
    + destruct (o_alive (eb_dead s) o); [|exact I]. destruct (dget t (eb_subs s)); [|exact I].
      destruct (existsb (Nat.eqb o) l); exact I.
    + destruct (e_held (eb_emits s) o) eqn:E; [exact I|]. cbn [fst eb_emits eb_dead]. intros m o' M R O.
      specialize (I m o' M R O). unfold o_alive in *. cbn [existsb]. destruct (Nat.eqb_spec o' o) as [->|]; [|exact I].
      exfalso. unfold e_held in E. assert (X : existsb (Nat.eqb o) (m_all m) = true)
        by (apply existsb_exists; exists o; split; [exact O|apply Nat.eqb_refl]).
      assert (Y : existsb (fun m => match m_status m with ERunning => existsb (Nat.eqb o) (m_all m) | EReturned => false end) (eb_emits s) = true)
        by (apply existsb_exists; exists m; rewrite R; auto). congruence.
    + destruct (dget t (eb_subs s)) as [l|]; [|exact I]. unfold e_cleanup.
      destruct (filter (o_alive (eb_dead s)) l) as [|h hs] eqn:F; [exact I|].
      destruct (first_raise raises (h :: hs)); [exact I|]. cbn [fst eb_emits eb_dead with_subs]. intros m o M R O.
      apply in_app_or in M. destruct M as [M|[<-|[]]]; [exact (I m o M R O)|].
      cbn [m_all] in O. rewrite <- F in O. apply filter_In in O. apply O.
    + destruct (nth_error (eb_emits s) k) as [[t hs done [|]]|] eqn:N; [|exact I ..].
      destruct (upd_opt done i r) as [done'|]; [|exact I]. cbn [fst eb_emits eb_dead]. intros m o M R O.
      apply In_nth_error in M. destruct M as (j & M). destruct (Nat.eq_dec k j) as [->|NE].
      * rewrite (nth_upd_same _ _ _ _ N) in M. injection M as <-. exact (I _ o (nth_error_In _ _ N) eq_refl O).
      * rewrite nth_upd_other in M by exact NE. exact (I m o (nth_error_In _ _ M) R O).
    + destruct (dget t (eb_subs s)) as [l|]; exact I.
  - intros o H. cbn [estep]. replace (e_held (eb_emits s) o) with false; [reflexivity|]. symmetry.
    unfold e_held. apply Bool.not_true_is_false. intros E. apply existsb_exists in E. destruct E as (m & M & E).
    destruct (m_status m) eqn:S; [|discriminate]. apply existsb_exists in E. destruct E as (x & X & Y).
    apply Nat.eqb_eq in Y. subst x. exact (H m M S X).
Qed.
Print Assumptions C35_kept.

(** Handler 2 is collectable again once the emission has returned. *)
Example C35_ex_kept :
  let s := erun_bus Nat.eqb einit_bus [ESubscribe 0 1; ESubscribe 0 2; EEmit 0 (fun _ => None); EClear None] in
  snd (estep Nat.eqb s (ECollect 2)) = EImpossible /\ snd (estep Nat.eqb s (ECollect 3)) = ENoOut /\
  snd (estep Nat.eqb (erun_bus Nat.eqb s [EFinish 0 0 HOk; EFinish 0 1 HOk]) (ECollect 2)) = ENoOut.
Proof. repeat split; reflexivity. Qed.

Example C35_ex :
  let ops := [ESubscribe 0 1; ESubscribe 0 2; ESubscribe 0 1; ESubscribe 1 2; ESubscribe 0 5; ECollect 5] in
  let s := erun_bus Nat.eqb einit_bus (ops ++ [EEmit 0 (fun _ => None); EUnsubscribe 0 1;
             EFinish 0 1 (HExc 3); EFinish 0 0 HOk; EFinish 0 2 HOk]) in
  e_possible Nat.eqb einit_bus ops /\ started 0 (eb_log s) = [1; 2; 1] /\
  map m_status (eb_emits s) = [EReturned] /\ snd (estep Nat.eqb s (ECount 0)) = ENum 2 /\
  on_topic 0 (ebook_of (ops ++ [EUnsubscribe 0 1])) = [2; 1].
Proof. repeat split; try discriminate; reflexivity. Qed.
