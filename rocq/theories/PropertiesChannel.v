(** C96: the asynchronous queue. *)
From Coq Require Import List Bool Arith Lia.
From Verif Require Import ModelChannel.
Import ListNotations.

Section C96.
  Context {A : Type}.
  Variable maxsize : option nat.
  Notation queue := (@queue A).
  Notation event := (@event A).

  (** ** What a trace tells *)
  Definition accepted (tr : list event) : list (nat * A) := flat_map (fun e => match e with Accepted i x => [(i, x)] | _ => [] end) tr.
  Definition put_done (tr : list event) : list nat := flat_map (fun e => match e with PutDone i => [i] | _ => [] end) tr.
  Definition put_failed (tr : list event) : list nat := flat_map (fun e => match e with PutFails i _ => [i] | _ => [] end) tr.
  Definition asked (tr : list event) : list nat := flat_map (fun e => match e with Asked j => [j] | _ => [] end) tr.
  Definition got (tr : list event) : list (nat * A) := flat_map (fun e => match e with Got _ i x => [(i, x)] | _ => [] end) tr.
  Definition getters (tr : list event) : list nat := flat_map (fun e => match e with Got j _ _ => [j] | _ => [] end) tr.
  Definition get_failed (tr : list event) : list nat := flat_map (fun e => match e with GetFails j _ => [j] | _ => [] end) tr.
  (** The puts (gets) that did not fail later, in the order of their calls. *)
  Definition live (l : list (nat * A)) (f : list nat) : list (nat * A) := filter (fun p => negb (existsb (Nat.eqb (fst p)) f)) l.
  Definition live_puts (tr : list event) : list (nat * A) := live (accepted tr) (put_failed tr).
  Definition live_gets (tr : list event) : list nat := filter (fun j => negb (existsb (Nat.eqb j) (get_failed tr))) (asked tr).

  Lemma existsb_in i l : existsb (Nat.eqb i) l = true <-> In i l.
  Proof. rewrite existsb_exists. split; [intros (x & H & E); apply Nat.eqb_eq in E; subst; exact H|intro H; exists i; rewrite Nat.eqb_refl; auto]. Qed.
  Lemma filter_same {B} (f : B -> bool) l : (forall x, In x l -> f x = true) -> filter f l = l.
  Proof. intro H. induction l as [|x l IH]; [reflexivity|]. cbn. rewrite H by (left; reflexivity). rewrite IH by (intros; apply H; right; assumption). reflexivity. Qed.
  Lemma filter_filter {B} (f g : B -> bool) l : filter f (filter g l) = filter (fun x => g x && f x) l.
  Proof. induction l as [|x l IH]; [reflexivity|]. cbn. destruct (g x); cbn; [destruct (f x); congruence|exact IH]. Qed.
  Lemma live_app l l' f : live (l ++ l') f = live l f ++ live l' f.
  Proof. unfold live. induction l as [|x l IH]; [reflexivity|]. cbn. destruct (negb _); cbn; congruence. Qed.
  Lemma live_more l f g : live l (f ++ g) = live (live l f) g.
  Proof.
    unfold live. rewrite filter_filter. apply filter_ext. intros p. rewrite existsb_app. apply negb_orb.
  Qed.
  Lemma live_same l f : (forall i, In i (map fst l) -> ~ In i f) -> live l f = l.
  Proof.
    intro H. unfold live. apply filter_same. intros p I. apply negb_true_iff. apply not_true_iff_false. rewrite existsb_in. apply H, in_map, I.
  Qed.
  Lemma gets_more l f g : filter (fun j => negb (existsb (Nat.eqb j) (f ++ g))) l = filter (fun j => negb (existsb (Nat.eqb j) g)) (filter (fun j => negb (existsb (Nat.eqb j) f)) l).
  Proof. rewrite filter_filter. apply filter_ext. intro j. rewrite existsb_app. apply negb_orb. Qed.
  Lemma gets_same l f : (forall i, In i l -> ~ In i f) -> filter (fun j => negb (existsb (Nat.eqb j) f)) l = l.
  Proof. intro H. apply filter_same. intros p I. apply negb_true_iff. apply not_true_iff_false. rewrite existsb_in. apply H, I. Qed.

  Definition bounded (q : queue) (tr : list event) : Prop :=
    forall i, In i (map fst (accepted tr) ++ put_failed tr ++ asked tr ++ get_failed tr) -> i < next q.
  Record Inv (q : queue) (tr : list event) : Prop := {
    i_puts : live_puts tr = got tr ++ buffer q ++ senders q;
    i_gets : live_gets tr = getters tr ++ receivers q;
    i_done : put_done tr = map fst (got tr ++ buffer q);
    i_bound : bounded q tr;
    i_nodup : NoDup (map fst (live_puts tr));
    i_nodup' : NoDup (live_gets tr);
    i_recv : receivers q <> [] -> buffer q = [] /\ senders q = [] /\ send_closed q = false;
    i_send : senders q <> [] -> room maxsize q = false /\ recv_closed q = false;
    i_size : match maxsize with Some n => length (buffer q) <= n | None => True end;
    i_closed : recv_closed q = true -> send_closed q = true }.

  Lemma inv_new : Inv new [].
  Proof. constructor; cbn; try reflexivity; try constructor; try congruence; try (intros i []). destruct maxsize; [lia|exact I]. Qed.

  Lemma parts tr ev : accepted (tr ++ ev) = accepted tr ++ accepted ev /\ put_done (tr ++ ev) = put_done tr ++ put_done ev /\
    put_failed (tr ++ ev) = put_failed tr ++ put_failed ev /\ asked (tr ++ ev) = asked tr ++ asked ev /\
    got (tr ++ ev) = got tr ++ got ev /\ getters (tr ++ ev) = getters tr ++ getters ev /\ get_failed (tr ++ ev) = get_failed tr ++ get_failed ev.
  Proof. unfold accepted, put_done, put_failed, asked, got, getters, get_failed. rewrite !flat_map_app. tauto. Qed.

  (** Adding events: new calls have new numbers, and calls that fail later were waiting. *)
  Lemma live_puts_app tr ev : (forall i, In i (map fst (accepted ev)) -> ~ In i (put_failed tr ++ put_failed ev)) ->
    live_puts (tr ++ ev) = live (live_puts tr) (put_failed ev) ++ accepted ev.
  Proof.
    intro H. unfold live_puts. destruct (parts tr ev) as (-> & _ & -> & _). rewrite live_app. f_equal; [apply live_more|]. apply live_same, H.
  Qed.
  Lemma live_gets_app tr ev : (forall i, In i (asked ev) -> ~ In i (get_failed tr ++ get_failed ev)) ->
    live_gets (tr ++ ev) = filter (fun j => negb (existsb (Nat.eqb j) (get_failed ev))) (live_gets tr) ++ asked ev.
  Proof.
    intro H. unfold live_gets. destruct (parts tr ev) as (_ & _ & _ & -> & _ & _ & ->). rewrite filter_app. f_equal; [apply gets_more|]. apply gets_same, H.
  Qed.
  Lemma fresh_put q tr : Inv q tr -> ~ In (next q) (put_failed tr) /\ ~ In (next q) (map fst (live_puts tr)).
  Proof.
    intros [_ _ _ B _ _ _ _ _ _]. split; intro I.
    - specialize (B (next q)). rewrite !in_app_iff in B. lia || (assert (next q < next q) by tauto; lia).
    - assert (J : In (next q) (map fst (accepted tr))).
      { apply in_map_iff in I. destruct I as (p & E & I). rewrite <- E. apply in_map. unfold live_puts, live in I. apply filter_In in I. apply I. }
      specialize (B (next q)). rewrite !in_app_iff in B. assert (next q < next q) by tauto. lia.
  Qed.
  Lemma fresh_get q tr : Inv q tr -> ~ In (next q) (get_failed tr) /\ ~ In (next q) (live_gets tr).
  Proof.
    intros [_ _ _ B _ _ _ _ _ _]. split; intro I.
    - specialize (B (next q)). rewrite !in_app_iff in B. assert (next q < next q) by tauto. lia.
    - assert (J : In (next q) (asked tr)) by (unfold live_gets in I; apply filter_In in I; apply I).
      specialize (B (next q)). rewrite !in_app_iff in B. assert (next q < next q) by tauto. lia.
  Qed.

  Lemma live_nil l : live l [] = l.
  Proof. apply live_same. intros i _ []. Qed.
  Lemma gets_nil l : filter (fun j => negb (existsb (Nat.eqb j) [])) l = l.
  Proof. apply gets_same. intros i _ []. Qed.
  Lemma bounded_app q q' tr ev : bounded q tr -> next q <= next q' ->
    (forall i, In i (map fst (accepted ev) ++ put_failed ev ++ asked ev ++ get_failed ev) -> i < next q') -> bounded q' (tr ++ ev).
  Proof.
    intros B L H i. destruct (parts tr ev) as (-> & _ & -> & -> & _ & _ & ->). rewrite map_app. specialize (B i). specialize (H i). rewrite !in_app_iff in *.
    intro I. assert (X : i < next q \/ i < next q') by tauto. destruct X; lia.
  Qed.
  Lemma nodup_snoc {B} (l : list B) x : NoDup l -> ~ In x l -> NoDup (l ++ [x]).
  Proof.
    intros N I. induction N as [|y l Y N IH]; cbn; [constructor; [tauto|constructor]|]. constructor.
    - rewrite in_app_iff. cbn. intros [H|[H|[]]]; [tauto|subst; apply I; left; reflexivity].
    - apply IH. intro; apply I; right; assumption.
  Qed.
  Lemma nodup_filter {B} (f : B -> bool) (l : list B) : NoDup l -> NoDup (filter f l).
  Proof. apply NoDup_filter. Qed.
  Lemma map_live l f : map fst (live l f) = filter (fun i => negb (existsb (Nat.eqb i) f)) (map fst l).
  Proof. unfold live. induction l as [|x l IH]; [reflexivity|]. cbn. destruct (negb _); cbn; congruence. Qed.

  Lemma inv_put wait x q tr q' ev : Inv q tr -> put maxsize wait x q = (q', ev) -> Inv q' (tr ++ ev).
  Proof.
    intros V E. destruct (fresh_put q tr V) as [F1 F2]. assert (W := V). destruct W as [P G D B N N' R S Z C].
    unfold put in E. destruct (send_closed q) eqn:SC; [|destruct (recv_closed q) eqn:RC; [specialize (C eq_refl); discriminate|]].
    - injection E as <- <-. destruct (parts tr [PutFails (next q) Closed]) as (_ & E2 & _ & _ & E5 & E6 & _).
      assert (LP : live_puts (tr ++ [PutFails (next q) Closed]) = live_puts tr).
      { rewrite live_puts_app by (intros i []). cbn. rewrite app_nil_r. apply live_same. intros i I [<-|[]]. apply F2, I. }
      assert (LG : live_gets (tr ++ [PutFails (next q) Closed]) = live_gets tr).
      { rewrite live_gets_app by (intros i []). cbn. rewrite app_nil_r. apply gets_nil. }
      constructor; rewrite ?LP, ?LG, ?E2, ?E5, ?E6; cbn; rewrite ?app_nil_r; try assumption.
      eapply bounded_app; [exact B|cbn; lia|]. cbn. intros i [<-|[]]. lia.
    - destruct (receivers q) as [|j rs] eqn:RE.
      + rewrite app_nil_r in G. destruct (room maxsize q) eqn:RO; [|destruct wait].
        * injection E as <- <-. assert (SE : senders q = []) by (destruct (senders q); [reflexivity|]; destruct S as [S _]; [discriminate|congruence]).
          set (ev := [Accepted (next q) x; PutDone (next q)]). destruct (parts tr ev) as (_ & E2 & _ & _ & E5 & E6 & _).
          assert (LP : live_puts (tr ++ ev) = live_puts tr ++ [(next q, x)]).
          { rewrite live_puts_app; cbn; [rewrite live_nil; reflexivity|]. intros i [<-|[]]. rewrite app_nil_r. exact F1. }
          assert (LG : live_gets (tr ++ ev) = live_gets tr).
          { rewrite live_gets_app by (intros i []). cbn. rewrite app_nil_r. apply gets_nil. }
          constructor; rewrite ?LP, ?LG, ?E2, ?E5, ?E6; cbn; rewrite ?app_nil_r; try assumption.
          -- rewrite P, SE, !app_nil_r, !app_assoc. reflexivity.
          -- rewrite D, !map_app. cbn. rewrite !app_assoc. reflexivity.
          -- eapply bounded_app; [exact B|cbn; lia|]. cbn. intros i [<-|[]]. lia.
          -- rewrite map_app. cbn. apply nodup_snoc; assumption.
          -- congruence.
          -- rewrite SE. congruence.
          -- unfold room in RO. destruct maxsize; [|exact I]. apply Nat.ltb_lt in RO. rewrite app_length. cbn. lia.
        * injection E as <- <-. set (ev := [Accepted (next q) x]). destruct (parts tr ev) as (_ & E2 & _ & _ & E5 & E6 & _).
          assert (LP : live_puts (tr ++ ev) = live_puts tr ++ [(next q, x)]).
          { rewrite live_puts_app; cbn; [rewrite live_nil; reflexivity|]. intros i [<-|[]]. rewrite app_nil_r. exact F1. }
          assert (LG : live_gets (tr ++ ev) = live_gets tr).
          { rewrite live_gets_app by (intros i []). cbn. rewrite app_nil_r. apply gets_nil. }
          constructor; rewrite ?LP, ?LG, ?E2, ?E5, ?E6; cbn; rewrite ?app_nil_r; try assumption.
          -- rewrite P, !app_assoc. reflexivity.
          -- eapply bounded_app; [exact B|cbn; lia|]. cbn. intros i [<-|[]]. lia.
          -- rewrite map_app. cbn. apply nodup_snoc; assumption.
          -- congruence.
          -- auto.
        * injection E as <- <-. destruct (parts tr [PutFails (next q) WouldBlock]) as (_ & E2 & _ & _ & E5 & E6 & _).
          assert (LP : live_puts (tr ++ [PutFails (next q) WouldBlock]) = live_puts tr).
          { rewrite live_puts_app by (intros i []). cbn. rewrite app_nil_r. apply live_same. intros i I [<-|[]]. apply F2, I. }
          assert (LG : live_gets (tr ++ [PutFails (next q) WouldBlock]) = live_gets tr).
          { rewrite live_gets_app by (intros i []). cbn. rewrite app_nil_r. apply gets_nil. }
          constructor; rewrite ?LP, ?LG, ?E2, ?E5, ?E6; cbn; rewrite ?app_nil_r; try assumption.
          -- eapply bounded_app; [exact B|cbn; lia|]. cbn. intros i [<-|[]]. lia.
          -- intros _. split; [exact RO|reflexivity].
      + injection E as <- <-. destruct R as (RB & RS & _); [discriminate|]. set (ev := [Accepted (next q) x; PutDone (next q); Got j (next q) x]).
        destruct (parts tr ev) as (_ & E2 & _ & _ & E5 & E6 & _).
        assert (LP : live_puts (tr ++ ev) = live_puts tr ++ [(next q, x)]).
        { rewrite live_puts_app; cbn; [rewrite live_nil; reflexivity|]. intros i [<-|[]]. rewrite app_nil_r. exact F1. }
        assert (LG : live_gets (tr ++ ev) = live_gets tr).
        { rewrite live_gets_app by (intros i []). cbn. rewrite app_nil_r. apply gets_nil. }
        constructor; rewrite ?LP, ?LG, ?E2, ?E5, ?E6; cbn; rewrite ?app_nil_r; try assumption.
        * rewrite P, RB, RS. cbn. rewrite !app_nil_r. reflexivity.
        * rewrite G, <- app_assoc. reflexivity.
        * rewrite D, RB, !app_nil_r, map_app. reflexivity.
        * eapply bounded_app; [exact B|cbn; lia|]. cbn. intros i [<-|[]]. lia.
        * rewrite map_app. cbn. apply nodup_snoc; assumption.
        * auto.
  Qed.

  Lemma inv_get wait q tr q' ev : Inv q tr -> get wait q = (q', ev) -> Inv q' (tr ++ ev).
  Proof.
    intros V E. destruct (fresh_get q tr V) as [F1 F2]. assert (W := V). destruct W as [P G D B N N' R S Z C].
    assert (FAIL : forall e q', buffer q' = buffer q -> senders q' = senders q -> receivers q' = receivers q -> send_closed q' = send_closed q -> recv_closed q' = recv_closed q ->
              next q' = Datatypes.S (next q) -> Inv q' (tr ++ [GetFails (next q) e])).
    { intros e q0 H1 H2 H3 H4 H5 H6. destruct (parts tr [GetFails (next q) e]) as (_ & E2 & _ & _ & E5 & E6 & _).
      assert (LP : live_puts (tr ++ [GetFails (next q) e]) = live_puts tr).
      { rewrite live_puts_app by (intros i []). cbn. rewrite app_nil_r. apply live_nil. }
      assert (LG : live_gets (tr ++ [GetFails (next q) e]) = live_gets tr).
      { rewrite live_gets_app by (intros i []). cbn. rewrite app_nil_r. apply (gets_same (live_gets tr) [next q]). intros i I [<-|[]]. apply F2, I. }
      constructor; rewrite ?LP, ?LG, ?E2, ?E5, ?E6; cbn; rewrite ?app_nil_r, ?H1, ?H2, ?H3, ?H4, ?H5; try assumption.
      - eapply bounded_app; [exact B|lia|]. cbn. intros i [<-|[]]. lia.
      - unfold room in *. rewrite H1. exact S. }
    unfold get in E. destruct (recv_closed q) eqn:RC; [injection E as <- <-; apply FAIL; auto|].
    assert (GOT : forall i x b ss ev0, buffer q ++ senders q = (i, x) :: b ++ ss -> put_done ev0 = map fst (firstn (length b + 1 - length (buffer q)) (senders q)) ->
              accepted ev0 = [] -> put_failed ev0 = [] -> asked ev0 = [] -> got ev0 = [] -> getters ev0 = [] -> get_failed ev0 = [] ->
              length (buffer q) <= length b + 1 -> (length b <= length (buffer q)) -> (ss <> [] -> senders q <> [] /\ length b = length (buffer q)) ->
              Inv (Queue b ss (receivers q) (send_closed q) false (Datatypes.S (next q))) (tr ++ ev0 ++ [Asked (next q); Got (next q) i x])).
    { intros i x b ss ev0 EQ PD A1 A2 A3 A4 A5 A6 L1 L2 L3. set (ev1 := ev0 ++ [Asked (next q); Got (next q) i x]). destruct (parts tr ev1) as (_ & E2 & _ & _ & E5 & E6 & _).
      destruct (parts ev0 [Asked (next q); Got (next q) i x]) as (B1 & B2 & B3 & B4 & B5 & B6 & B7). fold ev1 in B1, B2, B3, B4, B5, B6, B7.
      rewrite A1 in B1. rewrite A2 in B3. rewrite A3 in B4. rewrite A4 in B5. rewrite A5 in B6. rewrite A6 in B7. rewrite PD in B2. cbn in B1, B2, B3, B4, B5, B6, B7.
      assert (RE : receivers q = []).
      { destruct (receivers q); [reflexivity|]. destruct R as (R1 & R2 & _); [discriminate|]. rewrite R1, R2 in EQ. discriminate. }
      assert (LP : live_puts (tr ++ ev1) = live_puts tr).
      { rewrite live_puts_app; rewrite ?B1, ?B3; [rewrite app_nil_r; apply live_nil|intros ? []]. }
      assert (LG : live_gets (tr ++ ev1) = live_gets tr ++ [next q]).
      { rewrite live_gets_app; rewrite ?B4, ?B7; [rewrite gets_nil; reflexivity|]. intros ? [<-|[]]. rewrite app_nil_r. exact F1. }
      assert (BS : map fst (firstn (length b + 1 - length (buffer q)) (senders q)) = map fst (skipn (length (buffer q)) (firstn (length b + 1) (buffer q ++ senders q)))).
      { rewrite firstn_app. rewrite (firstn_all2 (n := length b + 1) (buffer q)) by lia. rewrite skipn_app, skipn_all, Nat.sub_diag. reflexivity. }
      constructor; rewrite ?LP, ?LG, ?E2, ?E5, ?E6, ?B2, ?B5, ?B6; cbn [buffer senders receivers send_closed recv_closed next].
      - rewrite P, EQ, <- !app_assoc. reflexivity.
      - rewrite G, RE, !app_nil_r. reflexivity.
      - assert (X : firstn (length b + 1) (buffer q ++ senders q) = (i, x) :: b).
        { rewrite EQ. replace (length b + 1) with (Datatypes.S (length b)) by lia. cbn. f_equal. rewrite firstn_app, firstn_all, Nat.sub_diag. cbn. apply app_nil_r. }
        assert (Y : buffer q = firstn (length (buffer q)) ((i, x) :: b)).
        { rewrite <- X, firstn_firstn. replace (Nat.min (length (buffer q)) (length b + 1)) with (length (buffer q)) by lia.
          rewrite firstn_app, firstn_all, Nat.sub_diag. cbn. rewrite app_nil_r. reflexivity. }
        rewrite app_nil_r, D, BS, X, <- map_app. f_equal. rewrite <- !app_assoc. f_equal. rewrite Y at 1. apply firstn_skipn.
      - eapply bounded_app; [exact B|cbn; lia|]. rewrite B1, B3, B4, B7. cbn. intros ? [<-|[]]. lia.
      - exact N.
      - apply nodup_snoc; assumption.
      - rewrite RE. congruence.
      - intro H. destruct (L3 H) as [H1 H2]. destruct (S H1) as [S1 _]. split; [|reflexivity]. unfold room in *. cbn. destruct maxsize; [|exact S1]. rewrite H2. exact S1.
      - destruct maxsize; [|exact I]. lia.
      - congruence. }
    destruct (senders q) as [|[i y] ss] eqn:SE.
    - destruct (buffer q) as [|[i x] b] eqn:BE.
      + destruct (send_closed q) eqn:SC; [injection E as <- <-; apply FAIL; auto|]. destruct wait; injection E as <- <-; [|apply FAIL; auto].
        set (ev := [Asked (next q)]). destruct (parts tr ev) as (_ & E2 & _ & _ & E5 & E6 & _).
        assert (LP : live_puts (tr ++ ev) = live_puts tr) by (rewrite live_puts_app by (intros i []); cbn; rewrite app_nil_r; apply live_nil).
        assert (LG : live_gets (tr ++ ev) = live_gets tr ++ [next q]).
        { rewrite live_gets_app; cbn; [rewrite gets_nil; reflexivity|]. intros i [<-|[]]. rewrite app_nil_r. exact F1. }
        constructor; rewrite ?LP, ?LG, ?E2, ?E5, ?E6; cbn; rewrite ?app_nil_r; try assumption.
        * rewrite P. cbn. rewrite app_nil_r. reflexivity.
        * rewrite G, <- app_assoc. reflexivity.
        * rewrite D, app_nil_r. reflexivity.
        * eapply bounded_app; [exact B|cbn; lia|]. cbn. intros i [<-|[]]. lia.
        * apply nodup_snoc; assumption.
        * auto.
        * congruence.
      + injection E as <- <-. apply (GOT i x b [] []); cbn; try reflexivity; try lia; try congruence; try (rewrite app_nil_r; reflexivity). destruct (length b + 1 - Datatypes.S (length b)); reflexivity.
    - destruct (buffer q) as [|[i0 x0] b] eqn:BE.
      + cbn in E. injection E as <- <-. apply (GOT i y [] ss [PutDone i]); cbn; try reflexivity; try lia. split; [discriminate|reflexivity].
      + cbn in E. injection E as <- <-. apply (GOT i0 x0 (b ++ [(i, y)]) ss [PutDone i]); cbn; rewrite ?app_length; cbn; try reflexivity; try lia.
        * rewrite <- app_assoc. reflexivity.
        * replace (length b + 1 + 1 - Datatypes.S (length b)) with 1 by lia. reflexivity.
        * split; [discriminate|lia].
  Qed.

  Lemma nodup_app_notin {B} (l l' : list B) x : NoDup (l ++ l') -> In x l -> ~ In x l'.
  Proof.
    induction l as [|y l IH]; cbn; [intros _ []|]. intros N [<-|I]; inversion N as [|y' l0 H H']; subst; [|apply IH; assumption].
    intro J. apply H, in_app_iff. right. exact J.
  Qed.
  Lemma nodup_prefix {B} (l l' : list B) : NoDup (l ++ l') -> NoDup l.
  Proof. induction l as [|y l IH]; cbn; intro N; [constructor|]. inversion N; subst. constructor; [rewrite in_app_iff in *; tauto|auto]. Qed.
  Lemma drop_puts q tr q' ev fs : Inv q tr -> (forall i, In i fs -> In i (map fst (senders q))) ->
    put_failed ev = fs -> accepted ev = [] -> put_done ev = [] -> asked ev = [] -> got ev = [] -> getters ev = [] -> get_failed ev = [] ->
    buffer q' = buffer q -> senders q' = live (senders q) fs -> receivers q' = receivers q -> next q' = next q ->
    (recv_closed q' = recv_closed q /\ send_closed q' = send_closed q \/ send_closed q = true /\ send_closed q' = true /\ senders q' = []) -> Inv q' (tr ++ ev).
  Proof.
    intros V I F A1 A2 A3 A4 A5 A6 H1 H2 H3 H4 H5. destruct V as [P G D B N N' R S Z C]. destruct (parts tr ev) as (_ & E2 & _ & _ & E5 & E6 & _).
    assert (LP : live_puts (tr ++ ev) = live (live_puts tr) fs).
    { rewrite live_puts_app; rewrite A1; [rewrite F, app_nil_r; reflexivity|intros ? []]. }
    assert (LG : live_gets (tr ++ ev) = live_gets tr).
    { rewrite live_gets_app; rewrite A3; [rewrite A6, app_nil_r; apply gets_nil|intros ? []]. }
    assert (NE : senders q' <> [] -> senders q <> []) by (rewrite H2; intros X Y; apply X; rewrite Y; reflexivity).
    constructor; rewrite ?LP, ?LG, ?E2, ?E5, ?E6, ?A2, ?A4, ?A5, ?app_nil_r, ?H1, ?H3; try assumption.
    - rewrite P, !live_app, H2. rewrite P, app_assoc, map_app in N. f_equal; [|f_equal]; apply live_same; intros i J K; apply I in K;
        (eapply nodup_app_notin; [exact N| |exact K]); rewrite map_app, in_app_iff; tauto.
    - eapply bounded_app; [exact B|lia|]. rewrite A1, A3, A6, F. cbn. rewrite app_nil_r. intros i J. apply I in J.
      assert (In i (map fst (accepted tr))).
      { assert (K : In i (map fst (live_puts tr))) by (rewrite P, !map_app, !in_app_iff; tauto). apply in_map_iff in K. destruct K as (p & <- & K). apply in_map.
        unfold live_puts, live in K. apply filter_In in K. apply K. }
      specialize (B i). rewrite in_app_iff in B. rewrite H4. tauto.
    - rewrite map_live. apply nodup_filter, N.
    - intro X. destruct (R X) as (R1 & R2 & R3). split; [exact R1|]. split; [rewrite H2, R2; reflexivity|]. destruct H5 as [[_ ->]|[H5 _]]; [exact R3|congruence].
    - intro X. unfold room in *. rewrite H1. destruct (S (NE X)) as [S1 S2]. split; [exact S1|]. destruct H5 as [[-> _]|(_ & _ & H5)]; [exact S2|congruence].
    - intro X. destruct H5 as [[Y ->]|(_ & H5 & _)]; [rewrite Y in X; auto|exact H5].
  Qed.
  Lemma drop_gets q tr q' ev fs : Inv q tr -> (forall j, In j fs -> In j (receivers q)) ->
    get_failed ev = fs -> accepted ev = [] -> put_done ev = [] -> asked ev = [] -> got ev = [] -> getters ev = [] -> put_failed ev = [] ->
    buffer q' = buffer q -> senders q' = senders q -> receivers q' = filter (fun j => negb (existsb (Nat.eqb j) fs)) (receivers q) -> next q' = next q -> recv_closed q' = recv_closed q ->
    (send_closed q' = send_closed q \/ send_closed q' = true /\ receivers q' = []) -> Inv q' (tr ++ ev).
  Proof.
    intros V I F A1 A2 A3 A4 A5 A6 H1 H2 H3 H4 H4' H5. destruct V as [P G D B N N' R S Z C]. destruct (parts tr ev) as (_ & E2 & _ & _ & E5 & E6 & _).
    assert (LP : live_puts (tr ++ ev) = live_puts tr).
    { rewrite live_puts_app; rewrite A1; [rewrite A6, app_nil_r; apply live_nil|intros ? []]. }
    assert (LG : live_gets (tr ++ ev) = filter (fun j => negb (existsb (Nat.eqb j) fs)) (live_gets tr)).
    { rewrite live_gets_app; rewrite A3; [rewrite F, app_nil_r; reflexivity|intros ? []]. }
    assert (NE : receivers q' <> [] -> receivers q <> []) by (rewrite H3; intros X Y; apply X; rewrite Y; reflexivity).
    constructor; rewrite ?LP, ?LG, ?E2, ?E5, ?E6, ?A2, ?A4, ?A5, ?app_nil_r, ?H1, ?H2; try assumption.
    - rewrite G, filter_app, H3. rewrite G in N'. f_equal. apply gets_same. intros i J K. apply I in K. eapply nodup_app_notin; [exact N'|exact J|exact K].
    - eapply bounded_app; [exact B|lia|]. rewrite A1, A3, A6, F. cbn. intros i J. apply I in J.
      assert (In i (asked tr)).
      { assert (K : In i (live_gets tr)) by (rewrite G, in_app_iff; tauto). unfold live_gets in K. apply filter_In in K. apply K. }
      specialize (B i). rewrite !in_app_iff in B. rewrite H4. tauto.
    - apply nodup_filter, N'.
    - intro X. destruct (R (NE X)) as (R1 & R2 & R3). split; [exact R1|]. split; [exact R2|]. destruct H5 as [->|[_ H5]]; [exact R3|congruence].
    - intro X. unfold room in *. rewrite H1, H4'. exact (S X).
    - intro X. destruct H5 as [->|[H5 _]]; [|exact H5]. rewrite H4' in X. auto.
  Qed.

  Lemma filter_nothing {B} (f : B -> bool) l : (forall b, In b l -> f b = false) -> filter f l = [].
  Proof. intro H. induction l as [|b l IH]; [reflexivity|]. cbn. rewrite H by (left; reflexivity). apply IH. intros; apply H; right; assumption. Qed.
  Lemma flat_none {B} (f : B -> event) (g : event -> list nat) l : (forall b, g (f b) = []) -> flat_map g (map f l) = [].
  Proof. intro H. induction l as [|b l IH]; [reflexivity|]. cbn. rewrite H. exact IH. Qed.
  Lemma flat_none' {B} (f : B -> event) (g : event -> list (nat * A)) l : (forall b, g (f b) = []) -> flat_map g (map f l) = [].
  Proof. intro H. induction l as [|b l IH]; [reflexivity|]. cbn. rewrite H. exact IH. Qed.
  Lemma flat_some {B} (f : B -> event) (g : event -> list nat) (h : B -> nat) l : (forall b, g (f b) = [h b]) -> flat_map g (map f l) = map h l.
  Proof. intro H. induction l as [|b l IH]; [reflexivity|]. cbn. rewrite H, IH. reflexivity. Qed.

  Lemma inv_step o q tr q' ev : Inv q tr -> step maxsize o q = (q', ev) -> Inv q' (tr ++ ev).
  Proof.
    intros V E. destruct o as [x|x| | |i|j| |]; cbn in E; try (eapply inv_put; eassumption); try (eapply inv_get; eassumption).
    - destruct (existsb _ _) eqn:X; injection E as <- <-; [|rewrite app_nil_r; exact V].
      apply (drop_puts q tr _ _ [i]); cbn; auto.
      + intros i' [<-|[]]. apply existsb_exists in X. destruct X as (p & H & E). apply Nat.eqb_eq in E. subst. apply in_map, H.
      + unfold live. apply filter_ext. intro p. cbn. rewrite orb_false_r. reflexivity.
    - destruct (existsb _ _) eqn:X; injection E as <- <-; [|rewrite app_nil_r; exact V].
      apply (drop_gets q tr _ _ [j]); cbn; auto.
      + intros i' [<-|[]]. apply existsb_in, X.
      + apply filter_ext. intro p. cbn. rewrite orb_false_r. reflexivity.
    - injection E as <- <-. apply (drop_gets q tr _ _ (receivers q)); cbn; auto; try (apply flat_none; reflexivity); try (apply flat_none'; reflexivity).
      + unfold get_failed. erewrite (flat_some _ _ (fun j => j)) by reflexivity. apply map_id.
      + symmetry. apply filter_nothing. intros j H. apply negb_false_iff, existsb_in, H.
    - destruct (send_closed q) eqn:SC; injection E as <- <-; [|rewrite app_nil_r; exact V].
      apply (drop_puts q tr _ _ (map fst (senders q))); cbn; auto; try (apply flat_none; reflexivity); try (apply flat_none'; reflexivity).
      + unfold put_failed. apply flat_some. reflexivity.
      + symmetry. apply filter_nothing. intros p H. apply negb_false_iff, existsb_in, in_map, H.
  Qed.
  Lemma inv_run os : forall q tr q' ev, Inv q tr -> run maxsize os q = (q', ev) -> Inv q' (tr ++ ev).
  Proof.
    induction os as [|o os IH]; cbn; intros q tr q' ev V E; [injection E as <- <-; rewrite app_nil_r; exact V|].
    destruct (step maxsize o q) as [q1 e1] eqn:E1. destruct (run maxsize os q1) as [q2 e2] eqn:E2. injection E as <- <-.
    rewrite app_assoc. eapply IH; [|exact E2]. eapply inv_step; eassumption.
  Qed.
  Lemma inv_reach os q tr : run maxsize os new = (q, tr) -> Inv q tr.
  Proof. intro E. apply (inv_run os new [] q tr inv_new E). Qed.
  (** ** The theorems *)

  Theorem C96_fifo os q tr : run maxsize os new = (q, tr) ->
    (exists rest, live_puts tr = got tr ++ rest) /\
    (exists rest, live_gets tr = getters tr ++ rest) /\
    (exists rest, map fst (live_puts tr) = put_done tr ++ rest) /\
    (exists rest, put_done tr = map fst (got tr) ++ rest) /\
    NoDup (put_done tr) /\ NoDup (getters tr).
  Proof.
    intro E. destruct (inv_reach _ _ _ E) as [P G D B N N' R S Z C]. rewrite P, app_assoc, map_app, <- D in N. rewrite G in N'.
    split; [eexists; exact P|]. split; [eexists; exact G|]. split; [|split]; [| |split].
    - rewrite P, app_assoc, map_app, <- D. eexists; reflexivity.
    - rewrite D, map_app. eexists; reflexivity.
    - apply nodup_prefix in N. exact N.
    - apply nodup_prefix in N'. exact N'.
  Qed.
  (** A put that fails leaves nothing behind, a get that fails takes nothing. *)
  Theorem C96_fails os q tr i e : run maxsize os new = (q, tr) ->
    (In (PutFails i e) tr -> ~ In i (put_done tr) /\ ~ In i (map fst (got tr))) /\
    (In (GetFails i e) tr -> ~ In i (getters tr)).
  Proof.
    intro E. destruct (inv_reach _ _ _ E) as [P G D B N N' R S Z C]. split; intro I.
    - assert (F : In i (put_failed tr)) by (unfold put_failed; apply in_flat_map; eexists; split; [exact I|left; reflexivity]).
      assert (L : ~ In i (map fst (live_puts tr))).
      { intro J. apply in_map_iff in J. destruct J as (p & <- & J). unfold live_puts, live in J. apply filter_In in J. destruct J as [_ J].
        apply negb_true_iff, not_true_iff_false in J. apply J, existsb_in, F. }
      rewrite P, app_assoc, map_app in L. rewrite D. rewrite in_app_iff in L. split; [tauto|]. rewrite map_app, in_app_iff in L. tauto.
    - assert (F : In i (get_failed tr)) by (unfold get_failed; apply in_flat_map; eexists; split; [exact I|left; reflexivity]).
      intro J. assert (K : In i (live_gets tr)) by (rewrite G, in_app_iff; tauto). unfold live_gets in K. apply filter_In in K. destruct K as [_ K].
      apply negb_true_iff, not_true_iff_false in K. apply K, existsb_in, F.
  Qed.
  Theorem C96_bounded os q tr n : maxsize = Some n -> run maxsize os new = (q, tr) -> length (put_done tr) <= length (got tr) + n.
  Proof.
    intros M E. destruct (inv_reach _ _ _ E) as [P G D B N N' R S Z C]. rewrite D, map_length, app_length. rewrite M in Z. lia.
  Qed.

  (** What is in the queue, and who waits. *)
  Definition pending (tr : list event) : list (nat * A) := skipn (length (got tr)) (live_puts tr).
  Definition waiting_puts (tr : list event) : list (nat * A) := skipn (length (put_done tr)) (live_puts tr).
  Definition waiting_gets (tr : list event) : list nat := skipn (length (getters tr)) (live_gets tr).
  Lemma skip_app {B} (l l' : list B) : skipn (length l) (l ++ l') = l'.
  Proof. rewrite skipn_app, skipn_all, Nat.sub_diag. reflexivity. Qed.
  Lemma views q tr : Inv q tr -> pending tr = buffer q ++ senders q /\ waiting_puts tr = senders q /\ waiting_gets tr = receivers q /\
    length (put_done tr) = length (got tr) + length (buffer q).
  Proof.
    intros [P G D B N N' R S Z C]. unfold pending, waiting_puts, waiting_gets. rewrite P, G, !skip_app. rewrite D, map_length, app_length. repeat split.
    rewrite app_assoc, <- app_length. apply skip_app.
  Qed.

  Lemma step_send (o : @op A) (q q' : queue) ev : step maxsize o q = (q', ev) -> (send_closed q' = true <-> send_closed q = true \/ o = CloseSend).
  Proof.
    intro E. destruct o as [x|x| | |i|j| |]; cbn in E; unfold put, get in E;
      repeat match type of E with
        | context [let '(_, _) := ?x in _] => destruct x as [[? ?] ?] eqn:?
        | context [if ?b then _ else _] => destruct b eqn:?
        | context [match ?l with [] => _ | _ => _ end] => destruct l as [|[? ?] ?] eqn:? || destruct l eqn:?
        | context [match ?x with (_, _) => _ end] => destruct x eqn:?
        end; injection E as <- <-; cbn; intuition congruence.
  Qed.
  Lemma step_recv (o : @op A) (q q' : queue) ev : step maxsize o q = (q', ev) -> (recv_closed q' = true <-> recv_closed q = true \/ o = CloseRecv /\ send_closed q = true).
  Proof.
    intro E. destruct o as [x|x| | |i|j| |]; cbn in E; unfold put, get in E;
      repeat match type of E with
        | context [if ?b then _ else _] => destruct b eqn:?
        | context [match ?l with [] => _ | _ => _ end] => destruct l as [|[? ?] ?] eqn:? || destruct l eqn:?
        | context [match ?x with (_, _) => _ end] => destruct x eqn:?
        end; injection E as <- <-; cbn; intuition congruence.
  Qed.
  Lemma run_app (os os' : list (@op A)) : forall q, run maxsize (os ++ os') q = let '(q1, e1) := run maxsize os q in let '(q2, e2) := run maxsize os' q1 in (q2, e1 ++ e2).
  Proof.
    induction os as [|o os IH]; intro q; cbn; [destruct (run maxsize os' q); reflexivity|].
    destruct (step maxsize o q) as [q1 e1]. rewrite IH. destruct (run maxsize os q1) as [q2 e2]. destruct (run maxsize os' q2) as [q3 e3]. rewrite app_assoc. reflexivity.
  Qed.
  Lemma run_send (os : list (@op A)) : forall (q q' : queue) ev, run maxsize os q = (q', ev) -> (send_closed q' = true <-> send_closed q = true \/ In CloseSend os).
  Proof.
    induction os as [|o os IH]; cbn; intros q q' ev E; [injection E as <- <-; tauto|].
    destruct (step maxsize o q) as [q1 e1] eqn:E1. destruct (run maxsize os q1) as [q2 e2] eqn:E2. injection E as <- <-.
    rewrite (IH _ _ _ E2), (step_send _ _ _ _ E1). intuition congruence.
  Qed.
  Lemma run_recv (os : list (@op A)) : forall (q q' : queue) ev, run maxsize os q = (q', ev) -> recv_closed q = false -> ~ In CloseRecv os -> recv_closed q' = false.
  Proof.
    induction os as [|o os IH]; cbn; intros q q' ev E F N; [injection E as <- <-; exact F|].
    destruct (step maxsize o q) as [q1 e1] eqn:E1. destruct (run maxsize os q1) as [q2 e2] eqn:E2. injection E as <- <-.
    apply (IH _ _ _ E2); [|tauto]. apply not_true_iff_false. rewrite (step_recv _ _ _ _ E1). rewrite F. intuition congruence.
  Qed.

  (** Calls wait only for a reason: puts if the queue is full, gets if it is empty and open. *)
  Theorem C96_waits os q tr : run maxsize os new = (q, tr) ->
    (waiting_puts tr <> [] -> exists n, maxsize = Some n /\ length (put_done tr) = length (got tr) + n) /\
    (waiting_gets tr <> [] -> live_puts tr = got tr /\ ~ In CloseSend os).
  Proof.
    intro E. assert (V := inv_reach _ _ _ E). destruct (views _ _ V) as (_ & -> & -> & ->). destruct V as [P G D B N N' R S Z C]. split; intro W.
    - destruct (S W) as [S1 _]. unfold room in S1. destruct maxsize as [n|]; [|discriminate]. exists n. split; [reflexivity|]. apply Nat.ltb_ge in S1. lia.
    - destruct (R W) as (R1 & R2 & R3). rewrite P, R1, R2, !app_nil_r. split; [reflexivity|]. intro I.
      assert (X : send_closed q = true) by (apply (run_send os _ _ _ E); right; exact I). congruence.
  Qed.

  (** While the queue is open, what the calls do is told by the trace so far. *)
  Definition put_now (wait : bool) (x : A) := if wait then Put x else PutNowait x.
  Definition get_now (wait : bool) := if wait then @Get A else GetNowait.
  Theorem C96_put os q tr x wait : run maxsize os new = (q, tr) -> ~ In CloseSend os ->
    exists i, ~ In i (map fst (accepted tr)) /\
    snd (step maxsize (put_now wait x) q) =
      match waiting_gets tr with
      | j :: _ => [Accepted i x; PutDone i; Got j i x]
      | [] => if match maxsize with Some n => length (put_done tr) <? length (got tr) + n | None => true end then [Accepted i x; PutDone i]
              else if wait then [Accepted i x] else [PutFails i WouldBlock]
      end.
  Proof.
    intros E H. assert (V := inv_reach _ _ _ E). destruct (views _ _ V) as (_ & _ & -> & ->). destruct V as [P G D B N N' R S Z C].
    assert (SC : send_closed q = false).
    { apply not_true_iff_false. rewrite (run_send os _ _ _ E). cbn. intuition congruence. }
    assert (RC : recv_closed q = false) by (destruct (recv_closed q); [rewrite C in SC by reflexivity; discriminate|reflexivity]).
    exists (next q). split.
    - intro I. specialize (B (next q)). rewrite in_app_iff in B. assert (next q < next q) by tauto. lia.
    - assert (RO : room maxsize q = match maxsize with Some n => length (got tr) + length (buffer q) <? length (got tr) + n | None => true end).
      { unfold room. destruct maxsize; [|reflexivity]. destruct (Nat.ltb_spec (length (buffer q)) n); symmetry; [apply Nat.ltb_lt|apply Nat.ltb_ge]; lia. }
      rewrite <- RO. destruct wait; cbn; unfold put; rewrite SC, RC; (destruct (receivers q); [destruct (room maxsize q)|]); reflexivity.
  Qed.
  Theorem C96_put_closed os q tr x wait : run maxsize os new = (q, tr) -> In CloseSend os ->
    exists i, snd (step maxsize (put_now wait x) q) = [PutFails i Closed].
  Proof.
    intros E H. assert (SC : send_closed q = true) by (apply (run_send os _ _ _ E); right; exact H).
    exists (next q). destruct wait; cbn; unfold put; rewrite SC; reflexivity.
  Qed.
  Theorem C96_get os q tr wait : run maxsize os new = (q, tr) -> ~ In CloseRecv os ->
    exists j, ~ In j (asked tr) /\
    forall q' ev, step maxsize (get_now wait) q = (q', ev) ->
      match pending tr with
      | (i, x) :: _ => got ev = [(i, x)] /\ getters ev = [j] /\ asked ev = [j] /\ accepted ev = [] /\ put_failed ev = [] /\ get_failed ev = [] /\
                       put_done ev = match waiting_puts tr with (k, _) :: _ => [k] | [] => [] end
      | [] => if existsb (fun o => match o with CloseSend => true | _ => false end) os then ev = [GetFails j EndOfStream]
              else if wait then ev = [Asked j] else ev = [GetFails j WouldBlock]
      end.
  Proof.
    intros E H. assert (V := inv_reach _ _ _ E). destruct (views _ _ V) as (-> & -> & _ & _). destruct V as [P G D B N N' R S Z C].
    assert (RC : recv_closed q = false) by (apply (run_recv os _ _ _ E); [reflexivity|exact H]).
    assert (SC : send_closed q = existsb (fun o => match o with CloseSend => true | _ => false end) os).
    { apply eq_iff_eq_true. rewrite (run_send os _ _ _ E), existsb_exists. cbn. split; [intros [X|X]; [discriminate|]; exists CloseSend; auto|].
      intros (o & I & X). right. destruct o; try discriminate. exact I. }
    exists (next q). split.
    - intro I. specialize (B (next q)). rewrite !in_app_iff in B. assert (next q < next q) by tauto. lia.
    - intros q' ev X. rewrite <- SC. assert (X' : get wait q = (q', ev)) by (destruct wait; exact X). clear X. unfold get in X'. rewrite RC in X'.
      destruct (senders q) as [|[k y] ss]; destruct (buffer q) as [|[i x] b]; cbn in X' |- *.
      + destruct (send_closed q); [|destruct wait]; injection X' as <- <-; reflexivity.
      + injection X' as <- <-. repeat split.
      + injection X' as <- <-. repeat split.
      + injection X' as <- <-. repeat split.
  Qed.

  Lemma recv_stays (os : list (@op A)) : forall (q q' : queue) ev, run maxsize os q = (q', ev) -> recv_closed q = true -> recv_closed q' = true.
  Proof.
    induction os as [|o os IH]; cbn; intros q q' ev E F; [injection E as <- <-; exact F|].
    destruct (step maxsize o q) as [q1 e1] eqn:E1. destruct (run maxsize os q1) as [q2 e2] eqn:E2. injection E as <- <-.
    apply (IH _ _ _ E2). rewrite (step_recv _ _ _ _ E1). left. exact F.
  Qed.
  (** From then on nothing is given away, and every call fails at once. *)
  Theorem C96_closed os os1 os2 os3 q tr : os = os1 ++ CloseSend :: os2 ++ CloseRecv :: os3 -> run maxsize os new = (q, tr) ->
    waiting_puts tr = [] /\ waiting_gets tr = [] /\
    forall o q' ev, step maxsize o q = (q', ev) ->
      match o with
      | Put _ | PutNowait _ => exists i, ev = [PutFails i Closed]
      | Get | GetNowait => exists j, ev = [GetFails j Closed]
      | _ => ev = []
      end.
  Proof.
    intros -> E. assert (V := inv_reach _ _ _ E). destruct (views _ _ V) as (_ & -> & -> & _). destruct V as [P G D B N N' R S Z C].
    assert (RC : recv_closed q = true).
    { change (os1 ++ CloseSend :: os2 ++ CloseRecv :: os3) with (os1 ++ ([CloseSend] ++ os2) ++ CloseRecv :: os3) in E.
      rewrite app_assoc, run_app in E. destruct (run maxsize (os1 ++ [CloseSend] ++ os2) new) as [q1 e1] eqn:E1.
      assert (SC : send_closed q1 = true) by (apply (run_send _ _ _ _ E1); right; rewrite in_app_iff; cbn; auto).
      cbn in E. rewrite SC in E. destruct (run maxsize os3 _) as [q3 e3] eqn:E3 in E. injection E as <- <-.
      eapply recv_stays; [exact E3|reflexivity]. }
    assert (SC := C RC).
    assert (SE : senders q = []) by (destruct (senders q); [reflexivity|]; destruct S; [discriminate|congruence]).
    assert (RE : receivers q = []) by (destruct (receivers q); [reflexivity|]; destruct R as (_ & _ & R); [discriminate|congruence]).
    split; [exact SE|]. split; [exact RE|]. intros o q' ev X. destruct o; cbn in X; unfold put, get in X; rewrite ?SC, ?RC, ?SE, ?RE in X; cbn in X; injection X as <- <-; eauto.
  Qed.

  (** Until the second step of close, gets receive what is there, in order, and once put is closed they never wait. *)
  Theorem C96_drain n wait : forall os q tr q' ev, run maxsize os new = (q, tr) -> ~ In CloseRecv os ->
    run maxsize (repeat (get_now wait) n) q = (q', ev) ->
    got ev = firstn n (pending tr) /\
    (In CloseSend os -> length (get_failed ev) = n - length (pending tr) /\ (forall j e, In (GetFails j e) ev -> e = EndOfStream) /\ waiting_gets (tr ++ ev) = []).
  Proof.
    induction n as [|n IH]; intros os q tr q' ev E H X.
    - cbn in X. injection X as <- <-. rewrite app_nil_r. split; [reflexivity|]. intro I. split; [reflexivity|]. split; [intros j e []|].
      destruct (C96_waits os q tr E) as [_ W]. destruct (waiting_gets tr); [reflexivity|]. destruct W; [discriminate|tauto].
    - cbn in X. destruct (step maxsize (get_now wait) q) as [q1 e1] eqn:X1. destruct (run maxsize (repeat (get_now wait) n) q1) as [q2 e2] eqn:X2. injection X as <- <-.
      assert (E1 : run maxsize (os ++ [get_now wait]) new = (q1, tr ++ e1)).
      { rewrite run_app, E. cbn. rewrite X1. rewrite app_nil_r. reflexivity. }
      assert (H1 : ~ In CloseRecv (os ++ [get_now wait])) by (rewrite in_app_iff; cbn; destruct wait; cbn; intuition congruence).
      destruct (C96_get os q tr wait E H) as (j & _ & Y). specialize (Y _ _ X1).
      destruct (IH _ _ _ _ _ E1 H1 X2) as [IH1 IH2]. destruct (parts tr e1) as (_ & _ & _ & _ & G1 & _). destruct (parts e1 e2) as (_ & _ & _ & _ & G2 & _ & F2). rewrite G2.
      assert (PE : forall p l, pending tr = p :: l -> got e1 = [p] -> accepted e1 = [] -> put_failed e1 = [] -> pending (tr ++ e1) = l).
      { intros p l P0 P1 P2 P3. unfold pending in *. rewrite live_puts_app; rewrite P2; [|intros ? []]. rewrite P3, live_nil, app_nil_r, G1, P1, app_length. cbn.
        rewrite Nat.add_comm. change (1 + length (got tr)) with (Datatypes.S (length (got tr))).
        clear - P0. revert P0. generalize (live_puts tr). induction (length (got tr)) as [|k IHk]; intros l0 P0.
        - cbn in P0. subst. reflexivity.
        - destruct l0; [discriminate|]. cbn in P0. apply IHk in P0. exact P0. }
      destruct (pending tr) as [|[i x] l] eqn:PD.
      + assert (P1 : pending (tr ++ e1) = []).
        { assert (Q : accepted e1 = [] /\ put_failed e1 = [] /\ got e1 = []) by (destruct (existsb _ os); [|destruct wait]; subst e1; repeat split).
          destruct Q as (Q1 & Q2 & Q3). unfold pending in *. rewrite live_puts_app; rewrite Q1; [|intros ? []]. rewrite Q2, live_nil, app_nil_r, G1, Q3, app_nil_r. exact PD. }
        rewrite P1 in IH1. split.
        * rewrite IH1. assert (Q : got e1 = []) by (destruct (existsb _ os); [|destruct wait]; subst e1; reflexivity). rewrite Q, firstn_nil. reflexivity.
        * intro I. destruct (IH2 ltac:(apply in_app_iff; left; exact I)) as (A1 & A2 & A3). rewrite app_assoc. split; [|split; [|exact A3]].
          -- rewrite P1 in A1. rewrite F2, app_length, A1. replace (existsb _ os) with true in Y; [subst e1; cbn; lia|].
             symmetry. apply existsb_exists. eexists; split; [exact I|reflexivity].
          -- intros j' e' I'. apply in_app_iff in I'. destruct I' as [I'|I']; [|exact (A2 _ _ I')].
             replace (existsb _ os) with true in Y; [subst e1; destruct I' as [I'|[]]; congruence|].
             symmetry. apply existsb_exists. eexists; split; [exact I|reflexivity].
      + destruct Y as (Y1 & Y2 & Y3 & Y4 & Y5 & Y6 & _). rewrite (PE _ _ eq_refl Y1 Y4 Y5) in *. rewrite Y1, IH1. split; [reflexivity|]. intro I.
        destruct (IH2 ltac:(apply in_app_iff; left; exact I)) as (A1 & A2 & A3). rewrite app_assoc. split; [|split; [|exact A3]].
        * rewrite F2, Y6. exact A1.
        * intros j' e' I'. apply in_app_iff in I'. destruct I' as [I'|I']; [|exact (A2 _ _ I')].
          exfalso. assert (Q : In j' (get_failed e1)) by (unfold get_failed; apply in_flat_map; eexists; split; [exact I'|left; reflexivity]). rewrite Y6 in Q. exact Q.
  Qed.
  (** Closing the send half wakes the gets but not the puts. *)
  Theorem C96_half os q tr : run maxsize os new = (q, tr) ->
    exists q' ev, step maxsize CloseSend q = (q', ev) /\ ev = map (fun j => GetFails j EndOfStream) (waiting_gets tr) /\
    waiting_gets (tr ++ ev) = [] /\ waiting_puts (tr ++ ev) = waiting_puts tr /\ pending (tr ++ ev) = pending tr.
  Proof.
    intro E. assert (V := inv_reach _ _ _ E). destruct (views _ _ V) as (V1 & V2 & V3 & _). eexists _, _. split; [reflexivity|].
    assert (W := inv_step CloseSend q tr _ _ V eq_refl). destruct (views _ _ W) as (W1 & W2 & W3 & _). split; [rewrite V3; reflexivity|].
    split; [exact W3|]. split; [rewrite V2; exact W2|rewrite V1; exact W1].
  Qed.
  (** Closing throws away what is still in the queue, for good, though its puts have returned. *)
  Theorem C96_kept_refuted x : maxsize <> Some 0 -> exists os, forall os' q tr, run maxsize (os ++ os') new = (q, tr) ->
    put_done tr = [0] /\ accepted tr = [(0, x)] /\ got tr = [].
  Proof.
    intro M. exists [Put x; CloseSend; CloseRecv]. intros os' q tr E. 
    assert (R1 : room maxsize (@new A) = true) by (unfold room; destruct maxsize as [[|n]|]; [congruence|reflexivity|reflexivity]).
    rewrite run_app in E. cbn in E. unfold put in E. cbn [send_closed recv_closed receivers new] in E. rewrite R1 in E. cbn in E.
    destruct (run maxsize os' _) as [q2 e2] eqn:E2. injection E as <- <-.
    change (Accepted 0 x :: PutDone 0 :: e2) with ([Accepted 0 x; PutDone 0] ++ e2). destruct (parts [Accepted 0 x; PutDone 0] e2) as (-> & -> & _ & _ & -> & _).
    assert (X : put_done e2 = [] /\ accepted e2 = [] /\ got e2 = []); [|destruct X as (-> & -> & ->); repeat split].
    assert (L : forall (os : list (@op A)) q q' ev, run maxsize os q = (q', ev) -> senders q = [] -> receivers q = [] -> send_closed q = true -> recv_closed q = true ->
              put_done ev = [] /\ accepted ev = [] /\ got ev = []).
    { clear. induction os as [|o os IH]; cbn; intros q q' ev E S R SC RC; [injection E as <- <-; repeat split|].
      destruct (step maxsize o q) as [q1 e1] eqn:E1. destruct (run maxsize os q1) as [q2 e2] eqn:E2. injection E as <- <-.
      destruct (parts e1 e2) as (-> & -> & _ & _ & -> & _).
      assert (Q : put_done e1 = [] /\ accepted e1 = [] /\ got e1 = [] /\ senders q1 = [] /\ receivers q1 = [] /\ send_closed q1 = true /\ recv_closed q1 = true).
      { destruct o; cbn in E1; unfold put, get in E1; rewrite ?SC, ?RC, ?S, ?R in E1; cbn in E1; injection E1 as <- <-; cbn; repeat split; auto. }
      destruct Q as (-> & -> & -> & Q). destruct (IH _ _ _ E2) as (-> & -> & ->); try tauto; repeat split. }
    eapply L; [exact E2|reflexivity..].
  Qed.
  (** A close that is cancelled between its two steps leaves puts waiting: that it frees all waiting calls is false. *)
  Theorem C96_interrupted_refuted x : maxsize = Some 0 -> exists os q tr, In CloseSend os /\ run maxsize os new = (q, tr) /\ waiting_puts tr = [(0, x)].
  Proof. intros ->. eexists [Put x; CloseSend], _, _. split; [right; left; reflexivity|]. split; reflexivity. Qed.
End C96.

Print Assumptions C96_fifo.
Print Assumptions C96_fails.
Print Assumptions C96_bounded.
Print Assumptions C96_waits.
Print Assumptions C96_put.
Print Assumptions C96_put_closed.
Print Assumptions C96_get.
Print Assumptions C96_closed.
Print Assumptions C96_drain.
Print Assumptions C96_half.
Print Assumptions C96_kept_refuted.
Print Assumptions C96_interrupted_refuted.

(** Room for one: the second put waits, the third is cancelled while it waits, the first get
    lets the second put return, and a get that comes too early gets the fourth item. *)
Example channel_1 :
  run (Some 1) [Put 10; Put 20; Put 30; PutNowait 40; CancelPut 2; Get; Get; Get; Put 50; CloseSend; Get; CloseRecv; Put 60] new =
  (Queue [] [] [] true true 10,
   [Accepted 0 10; PutDone 0; Accepted 1 20; Accepted 2 30; PutFails 3 WouldBlock; PutFails 2 CancelledErr;
    PutDone 1; Asked 4; Got 4 0 10; Asked 5; Got 5 1 20; Asked 6; Accepted 7 50; PutDone 7; Got 6 7 50;
    GetFails 8 EndOfStream; PutFails 9 Closed]).
Proof. reflexivity. Qed.
(** No room at all: a put returns when its item is taken. *)
Example channel_2 : snd (run (Some 0) [Put 10; Get; Get; Put 20] new) =
  [Accepted 0 10; PutDone 0; Asked 1; Got 1 0 10; Asked 2; Accepted 3 20; PutDone 3; Got 2 3 20].
Proof. reflexivity. Qed.
(** The numbers the theorems speak about. *)
Example channel_3 : let tr := snd (run (Some 1) [Put 10; Put 20; Put 30; CancelPut 1] new) in
  (live_puts tr, pending tr, waiting_puts tr, put_done tr) = ([(0, 10); (2, 30)], [(0, 10); (2, 30)], [(2, 30)], [0]).
Proof. reflexivity. Qed.
