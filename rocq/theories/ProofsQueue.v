(** C113: the invariant of the queue. *)
From Coq Require Import List Bool Arith Lia Sorted.
From Verif Require Import PyBase ModelQueue SpecQueue.
Import ListNotations.

Section Inv.
Variable size : option nat.
Notation room := (room size).
Notation qstep := (qstep size).
Notation send_nowait := (send_nowait size).

Record inv (s : queue) : Prop := {
  i_rc : forall t, In t (receivers s) <-> phases s t = GetWait None;
  i_rc_nodup : NoDup (receivers s);
  i_sd : forall t e, In (t, e) (senders s) -> phases s t = PutWait e (no_recv s);
  i_sd2 : forall t e, phases s t = PutWait e false -> In (t, e) (senders s);
  i_sd_nodup : NoDup (map fst (senders s));
  i_ends : no_recv s = true -> no_send s = true;
  i_closing : forall t, phases s t = Closing -> no_send s = true;
  i_closed : forall t, phases s t = Closed2 -> no_send s = true /\ no_recv s = true;
  i_wait : receivers s <> [] -> buf s = [] /\ senders s = [] /\ no_send s = false;
  i_full : senders s <> [] -> room (buf s) = false;
  i_fits : match size with Some n => length (buf s) <= n | None => True end;
  i_line : taken (trace s) ++ waiting_items s = kept (trace s);
  i_nums : map fst (offered (trace s)) = seq 0 (number s);
  i_withdrawn : forall e, In e (withdrawn (trace s)) -> fst e < number s;
  i_ok : forall t e, In (PutOk t e) (trace s) -> In e (taken (trace s) ++ buf s);
  i_pending : forall t e, phases s t = PutWait e true -> In t (map fst (senders s)) \/ In e (taken (trace s) ++ buf s);
  i_hand : forall t e, in_hand s t e -> In e (taken (trace s)) /\ ~ In e (got (trace s))
             /\ (forall u, in_hand s u e -> u = t) /\ (forall x, In x (got_by t (trace s)) -> fst x < fst e);
  i_got : forall e, In e (got (trace s)) -> In e (taken (trace s));
  i_once : NoDup (got (trace s));
  i_all : forall e, In e (taken (trace s)) -> In e (got (trace s)) \/ exists t, in_hand s t e;
  i_sorted : forall t, StronglySorted lt (map fst (got_by t (trace s)))
}.

Lemma set_eq p t x u : set p t x u = if u =? t then x else p u.
Proof. reflexivity. Qed.

Lemma app_lists l l' :
  offered (l ++ l') = offered l ++ offered l' /\ taken (l ++ l') = taken l ++ taken l'
  /\ withdrawn (l ++ l') = withdrawn l ++ withdrawn l' /\ got (l ++ l') = got l ++ got l'
  /\ forall t, got_by t (l ++ l') = got_by t l ++ got_by t l'.
Proof. unfold offered, taken, withdrawn, got, got_by. repeat split; intros; apply flat_map_app. Qed.

Lemma got_by_got t l e : In e (got_by t l) -> In e (got l).
Proof.
  unfold got_by, got. rewrite !in_flat_map. intros (x & I & H). exists x. split; [exact I|].
  destruct x; try contradiction. destruct (_ =? t); [exact H|contradiction].
Qed.

Lemma kept_new l (e : entry) : (forall x, In x (withdrawn l) -> fst x < fst e) ->
  filter (fun e : entry => negb (existsb (Nat.eqb (fst e)) (map fst (withdrawn l)))) [e] = [e].
Proof.
  intros H. cbn. replace (existsb _ _) with false; [reflexivity|]. symmetry. apply not_true_is_false. intros X.
  apply existsb_exists in X. destruct X as (n & I & E). apply Nat.eqb_eq in E. subst n.
  apply in_map_iff in I. destruct I as (x & E & I). specialize (H x I). lia.
Qed.

Lemma line_sorted s : inv s -> StronglySorted lt (map fst (taken (trace s) ++ waiting_items s)) /\
  Forall (fun e => fst e < number s) (taken (trace s) ++ waiting_items s).
Proof.
  intros I. rewrite (i_line s I). unfold kept.
  assert (forall l n m, map fst l = seq n m -> forall f, StronglySorted lt (map fst (filter f l)) /\
    Forall (fun e : entry => n <= fst e < n + m) (filter f l)) as G.
  { clear. induction l as [|e l IH]; intros n m E f; [split; constructor|].
    destruct m as [|m]; [discriminate|]. cbn in E. injection E as E1 E2. destruct (IH _ _ E2 f) as [So F]. cbn [filter].
    assert (Forall (fun e : entry => n <= fst e < n + S m) (filter f l)) as F'
      by (eapply Forall_impl; [|exact F]; cbn; intros; lia).
    destruct (f e); [|split; assumption]. split.
    - cbn [map]. constructor; [exact So|]. apply Forall_map. eapply Forall_impl; [|exact F]. cbn. intros. lia.
    - constructor; [lia|exact F']. }
  destruct (G _ _ _ (i_nums s I) (fun e : entry => negb (existsb (Nat.eqb (fst e)) (map fst (withdrawn (trace s)))))) as [S F].
  split; [exact S|]. eapply Forall_impl; [|exact F]. cbn. intros. lia.
Qed.

Lemma sorted_app l l' : StronglySorted lt (l ++ l') -> StronglySorted lt l /\ StronglySorted lt l' /\
  forall a b, In a l -> In b l' -> a < b.
Proof.
  induction l as [|x l IH]; cbn; intros S.
  - repeat split; [constructor|exact S|contradiction].
  - inversion S as [|? ? S1 S2]; subst. destruct (IH S1) as (A & B & C). rewrite Forall_app in S2. destruct S2 as [S2 S3].
    repeat split; [constructor; assumption|exact B|]. intros a b [<-|Ha] Hb; [|auto].
    rewrite Forall_forall in S3. auto.
Qed.
Lemma sorted_snoc l x : StronglySorted lt l -> (forall a, In a l -> a < x) -> StronglySorted lt (l ++ [x]).
Proof.
  induction l as [|y l IH]; cbn; intros S H; [constructor; [exact S|constructor]|].
  inversion S as [|? ? S1 S2]; subst. constructor; [apply IH; auto|]. apply Forall_app. split; [exact S2|].
  constructor; [apply H; auto|constructor].
Qed.
Lemma sorted_nodup l : StronglySorted lt l -> NoDup l.
Proof.
  induction 1 as [|x l S IH F]; constructor; [|exact IH]. intros I. rewrite Forall_forall in F. specialize (F _ I). lia.
Qed.
Lemma nodup_snoc {A} (l : list A) x : NoDup l -> ~ In x l -> NoDup (l ++ [x]).
Proof.
  induction l as [|y l IH]; cbn; intros N H; [constructor; [exact H|constructor]|].
  inversion N as [|? ? N1 N2]; subst. constructor; [|apply IH; auto].
  rewrite in_app_iff. intros [X|[X|[]]]; [auto|subst; auto].
Qed.
Lemma nodup_fst (l : list entry) : NoDup (map fst l) -> forall e f, In e l -> In f l -> fst e = fst f -> e = f.
Proof.
  induction l as [|x l IH]; cbn; intros N e f He Hf E; [contradiction|]. inversion N as [|? ? N1 N2]; subst.
  destruct He as [<-|He], Hf as [<-|Hf]; auto.
  - exfalso. apply N1. rewrite E. now apply in_map.
  - exfalso. apply N1. rewrite <- E. now apply in_map.
Qed.

Definition free (s : queue) (t : nat) : Prop :=
  phases s t <> GetWait None /\ ~ In t (map fst (senders s)) /\ forall e, ~ in_hand s t e.
Definition silent (s : queue) (l : list qevent) : Prop :=
  forall x, In x l -> match x with
                      | Offered _ | Taken _ | Withdrawn _ | Got _ _ => False
                      | PutOk _ e => In e (taken (trace s) ++ buf s)
                      | _ => True
                      end.
Definition quiet (s : queue) (x : phase) : Prop :=
  match x with
  | PutWait _ _ | GetWait None | GetWait (Some (Some _)) => False
  | Closing => no_send s = true
  | Closed2 => no_send s = true /\ no_recv s = true
  | _ => True
  end.

Lemma silent_lists s l : silent s l ->
  offered l = [] /\ taken l = [] /\ withdrawn l = [] /\ got l = [] /\ forall t, got_by t l = [].
Proof.
  induction l as [|x l IH]; intros H; [repeat split|].
  destruct IH as (A & B & C & D & E); [intros y I; apply H; now right|].
  specialize (H x (or_introl eq_refl)).
  destruct x; try contradiction; cbn; repeat split; auto.
Qed.

Lemma sender_in s t e : In (t, e) (senders s) -> In t (map fst (senders s)).
Proof. intros I. change t with (fst (t, e)). now apply in_map. Qed.

Ltac pick := let E := fresh "E" in
  match goal with
  | |- context [ ?u =? ?t ] => destruct (Nat.eqb_spec u t) as [E|E]; [try subst u|]
  | H : context [ ?u =? ?t ] |- _ => destruct (Nat.eqb_spec u t) as [E|E]; [try subst u|]
  end.

Lemma inv_to s t x l : inv s -> free s t -> quiet s x -> silent s l -> inv (to s t x l).
Proof.
  intros I (F1 & F2 & F3) Q Si. destruct (silent_lists s l Si) as (A & B & C & D & E).
  destruct (app_lists (trace s) l) as (A' & B' & C' & D' & E').
  rewrite A, app_nil_r in A'. rewrite B, app_nil_r in B'. rewrite C, app_nil_r in C'. rewrite D, app_nil_r in D'.
  assert (forall u, got_by u (trace s ++ l) = got_by u (trace s)) as G by (intros u; rewrite E', E; apply app_nil_r).
  assert (kept (trace s ++ l) = kept (trace s)) as K by (unfold kept; rewrite A', C'; reflexivity).
  destruct I. constructor; unfold to, in_hand, waiting_items in *;
    cbn [buf senders receivers no_send no_recv number phases trace] in *;
    rewrite ?A', ?B', ?C', ?D', ?K; auto.
  - intros u. rewrite set_eq. pick; [|auto]. split; [intros H; exfalso; apply F1, i_rc0, H|].
    intros ->. contradiction.
  - intros u e H. rewrite set_eq. pick; [|auto]. exfalso. apply F2. eapply sender_in, H.
  - intros u e. rewrite set_eq. pick; [|auto]. intros ->. contradiction.
  - intros u. rewrite set_eq. pick; [|eauto]. intros ->. exact Q.
  - intros u. rewrite set_eq. pick; [|eauto]. intros ->. exact Q.
  - intros u e H. apply in_app_iff in H. destruct H as [H|H]; [eauto|]. exact (Si _ H).
  - intros u e. rewrite set_eq. pick; [|eauto]. intros ->. contradiction.
  - intros u e. rewrite set_eq. pick; [intros ->; contradiction|]. intros H. rewrite G.
    destruct (i_hand0 u e H) as (H1 & H2 & H3 & H4). repeat split; auto.
    intros w. rewrite set_eq. pick; [intros ->; contradiction|]. auto.
  - intros e H. destruct (i_all0 e H) as [H1|(u & H1)]; [now left|]. right. exists u. rewrite set_eq. pick; [|exact H1].
    exfalso. exact (F3 e H1).
  - intros u. rewrite G. auto.
Qed.

Lemma inv_more s l : inv s -> silent s l ->
  inv (Queue (buf s) (senders s) (receivers s) (no_send s) (no_recv s) (number s) (phases s) (trace s ++ l)).
Proof.
  intros I Si. destruct (silent_lists s l Si) as (A & B & C & D & E).
  destruct (app_lists (trace s) l) as (A' & B' & C' & D' & E').
  rewrite A, app_nil_r in A'. rewrite B, app_nil_r in B'. rewrite C, app_nil_r in C'. rewrite D, app_nil_r in D'.
  assert (forall u, got_by u (trace s ++ l) = got_by u (trace s)) as G by (intros u; rewrite E', E; apply app_nil_r).
  assert (kept (trace s ++ l) = kept (trace s)) as K by (unfold kept; rewrite A', C'; reflexivity).
  destruct I. constructor; unfold in_hand, waiting_items in *;
    cbn [buf senders receivers no_send no_recv number phases trace] in *;
    rewrite ?A', ?B', ?C', ?D', ?K; auto.
  - intros u e H. apply in_app_iff in H. destruct H as [H|H]; [eauto|]. exact (Si _ H).
  - intros u e H. rewrite G. auto.
  - intros u. rewrite G. auto.
Qed.

Lemma inv_got s t e : inv s -> in_hand s t e -> inv (to s t Idle [Got t e]).
Proof.
  intros I H. destruct (app_lists (trace s) [Got t e]) as (A' & B' & C' & D' & E').
  cbn in A', B', C', D'. rewrite app_nil_r in A', B', C'.
  assert (kept (trace s ++ [Got t e]) = kept (trace s)) as K by (unfold kept; rewrite A', C'; reflexivity).
  assert (forall u, got_by u (trace s ++ [Got t e]) = got_by u (trace s) ++ (if t =? u then [e] else [])) as G
    by (intros u; rewrite E'; cbn; destruct (t =? u); reflexivity).
  pose proof (i_hand s I t e H) as (H1 & H2 & H3 & H4).
  destruct I. constructor; unfold to, in_hand, waiting_items in *;
    cbn [buf senders receivers no_send no_recv number phases trace] in *;
    rewrite ?A', ?B', ?C', ?D', ?K; auto.
  - intros u. rewrite set_eq. pick; [|auto]. rewrite i_rc0, H. split; discriminate.
  - intros u f J. rewrite set_eq. pick; [|auto]. specialize (i_sd0 _ _ J). congruence.
  - intros u f. rewrite set_eq. pick; [discriminate|auto].
  - intros u. rewrite set_eq. pick; [discriminate|eauto].
  - intros u. rewrite set_eq. pick; [discriminate|eauto].
  - intros u f J. apply in_app_iff in J. destruct J as [J|[J|[]]]; [eauto|discriminate].
  - intros u f. rewrite set_eq. pick; [discriminate|eauto].
  - intros u f. rewrite set_eq. pick; [discriminate|]. intros J. rewrite G.
    destruct (i_hand0 u f J) as (J1 & J2 & J3 & J4). repeat split; auto.
    + rewrite in_app_iff. intros [X|[X|[]]]; [now apply J2|]. subst f. apply E. now apply H3.
    + intros w. rewrite set_eq. pick; [discriminate|]. auto.
    + pick; [contradiction|]. rewrite app_nil_r. auto.
  - intros f J. apply in_app_iff in J. destruct J as [J|[J|[]]]; [auto|]. now subst f.
  - apply nodup_snoc; auto.
  - intros f J. destruct (i_all0 f J) as [J1|(u & J1)]; [left; apply in_app_iff; now left|].
    destruct (Nat.eq_dec u t) as [->|N]; [left; apply in_app_iff; right; left; congruence|].
    right. exists u. rewrite set_eq. pick; [contradiction|exact J1].
  - intros u. rewrite G. pick; [|rewrite app_nil_r; auto]. rewrite map_app. apply sorted_snoc; [auto|].
    intros a Ha. apply in_map_iff in Ha. destruct Ha as (x & <- & Ha). auto.
Qed.

Lemma got_old s x : inv s -> In x (got (trace s)) -> fst x < number s.
Proof.
  intros I H. destruct (line_sorted s I) as [_ F]. rewrite Forall_forall in F. apply F, in_app_iff. left. now apply i_got.
Qed.

Lemma kept_offered s l e : inv s -> offered l = [e] -> withdrawn l = [] -> fst e = number s ->
  kept (trace s ++ l) = kept (trace s) ++ [e].
Proof.
  intros I O W E. destruct (app_lists (trace s) l) as (A' & _ & C' & _). unfold kept. rewrite A', C', O, W, app_nil_r, filter_app.
  f_equal. apply kept_new. intros x H. rewrite E. now apply i_withdrawn.
Qed.

Lemma inv_send s t v s' : inv s -> free s t -> send_nowait s t v = Some s' -> inv s'.
Proof.
  intros I F. unfold ModelQueue.send_nowait. set (e := (number s, v)).
  destruct (no_send s) eqn:NS; [intros [= <-]; apply inv_to; auto; [constructor|intros x [<-|[]]; constructor]|].
  destruct (no_recv s) eqn:NR; [intros [= <-]; apply inv_to; auto; [constructor|intros x [<-|[]]; constructor]|].
  destruct F as (F1 & F2 & F3). destruct (receivers s) as [|r rs] eqn:R.
  - destruct (room (buf s)) eqn:Rm; [|discriminate]. intros [= <-].
    destruct (app_lists (trace s) [Offered e; PutOk t e]) as (A' & B' & C' & D' & E').
    cbn in A', B', C', D'. rewrite app_nil_r in B', C', D'.
    assert (forall u, got_by u (trace s ++ [Offered e; PutOk t e]) = got_by u (trace s)) as G
      by (intros u; rewrite E'; apply app_nil_r).
    assert (senders s = []) as NoS by (destruct (senders s) eqn:Z; [reflexivity|];
      pose proof (i_full s I) as X; rewrite Z, Rm in X; discriminate X; discriminate).
    pose proof (kept_offered s [Offered e; PutOk t e] e I eq_refl eq_refl eq_refl) as K.
    destruct I. constructor; unfold in_hand, waiting_items in *;
      cbn [buf senders receivers no_send no_recv number phases trace] in *;
      rewrite ?A', ?B', ?C', ?D', ?K; auto.
    + intros u. rewrite <- R, set_eq. pick; [|auto]. split; [intros H; exfalso; apply F1, i_rc0, H|discriminate].
    + constructor.
    + rewrite NoS. contradiction.
    + intros u f. rewrite set_eq. pick; [discriminate|auto].
    + intros u. rewrite set_eq. pick; [discriminate|]. intros X. rewrite <- NS. eauto.
    + intros u. rewrite set_eq. pick; [discriminate|]. intros X. destruct (i_closed0 _ X). congruence.
    + contradiction.
    + rewrite NoS. contradiction.
    + unfold ModelQueue.room in Rm. destruct size; [|exact Logic.I]. rewrite app_length. apply Nat.ltb_lt in Rm. cbn. lia.
    + rewrite <- i_line0, NoS. cbn. now rewrite !app_nil_r, app_assoc.
    + rewrite seq_S, <- i_nums0. apply map_app.
    + intros f H. apply i_withdrawn0 in H. lia.
    + intros u f H. rewrite app_assoc. apply in_app_iff in H. destruct H as [H|[H|[H|[]]]]; [|discriminate|].
      * apply in_app_iff. left. eauto.
      * injection H as <- <-. apply in_app_iff. right. now left.
    + intros u f. rewrite set_eq. pick; [discriminate|]. intros H. destruct (i_pending0 _ _ H); [now left|right].
      rewrite app_assoc. apply in_app_iff. now left.
    + intros u f. rewrite set_eq. pick; [discriminate|]. intros H. rewrite G.
      destruct (i_hand0 u f H) as (H1 & H2 & H3 & H4). repeat split; auto.
      intros w. rewrite set_eq. pick; [discriminate|]. auto.
    + intros f H. destruct (i_all0 f H) as [H1|(u & H1)]; [now left|]. right. exists u. rewrite set_eq. pick; [|exact H1].
      exfalso. exact (F3 f H1).
    + intros u. rewrite G. auto.
  - intros [= <-].
    destruct (app_lists (trace s) [Offered e; Taken e; PutOk t e]) as (A' & B' & C' & D' & E').
    cbn in A', B', C', D'. rewrite app_nil_r in C', D'.
    assert (forall u, got_by u (trace s ++ [Offered e; Taken e; PutOk t e]) = got_by u (trace s)) as G
      by (intros u; rewrite E'; apply app_nil_r).
    destruct (i_wait s I) as (W1 & W2 & _); [rewrite R; discriminate|].
    pose proof (kept_offered s [Offered e; Taken e; PutOk t e] e I eq_refl eq_refl eq_refl) as K.
    assert (phases s r = GetWait None) as Pr by (apply i_rc; [exact I|rewrite R; now left]).
    assert (r <> t) as Nr by (intros ->; contradiction).
    assert (forall x, In x (got (trace s)) -> fst x < fst e) as Old by (intros x; apply got_old; exact I).
    destruct (line_sorted s I) as [_ Bound]. rewrite Forall_forall in Bound.
    pose proof (i_rc_nodup s I) as ND. rewrite R in ND. inversion ND as [|? ? ND1 ND2]; subst.
    destruct I. constructor; unfold in_hand, waiting_items in *;
      cbn [buf senders receivers no_send no_recv number phases trace] in *;
      rewrite ?A', ?B', ?C', ?D', ?K; auto.
    + intros u. specialize (i_rc0 u). rewrite R in i_rc0. rewrite !set_eq. pick; [|pick].
      * split; [|discriminate]. intros H. exfalso. apply F1, i_rc0. now right.
      * split; [|discriminate]. contradiction.
      * rewrite <- i_rc0. cbn. split; [auto|]. intros [<-|H]; [contradiction|exact H].
    + rewrite W2. contradiction.
    + intros u f. rewrite !set_eq. pick; [discriminate|]. pick; [discriminate|auto].
    + intros u. rewrite !set_eq. pick; [discriminate|]. pick; [discriminate|]. intros X. rewrite <- NS. eauto.
    + intros u. rewrite !set_eq. pick; [discriminate|]. pick; [discriminate|]. intros X. destruct (i_closed0 _ X). congruence.
    + rewrite <- i_line0, W1, W2. cbn. now rewrite !app_nil_r.
    + rewrite seq_S, <- i_nums0. apply map_app.
    + intros f H. apply i_withdrawn0 in H. lia.
    + intros u f H. apply in_app_iff in H. destruct H as [H|[H|[H|[H|[]]]]]; [|discriminate|discriminate|].
      * apply i_ok0 in H. rewrite !in_app_iff in *. tauto.
      * injection H as <- <-. rewrite !in_app_iff. left. right. now left.
    + intros u f. rewrite !set_eq. pick; [discriminate|]. pick; [discriminate|].
      intros H. destruct (i_pending0 _ _ H); [now left|right]. rewrite !in_app_iff in *. tauto.
    + intros u f. rewrite !set_eq. pick; [discriminate|]. pick.
      * intros [= <-]. rewrite G. repeat split.
        -- apply in_app_iff. right. now left.
        -- intros X. apply Old in X. lia.
        -- intros w. rewrite !set_eq. pick; [discriminate|]. pick; [reflexivity|]. intros X.
           destruct (i_hand0 w e X) as (X1 & _). assert (fst e < number s) by (apply Bound, in_app_iff; now left). cbn in *. lia.
        -- intros x X. apply Old. eapply got_by_got, X.
      * intros H. rewrite G. destruct (i_hand0 u f H) as (H1 & H2 & H3 & H4). repeat split; auto.
        -- apply in_app_iff. now left.
        -- intros w. rewrite !set_eq. pick; [discriminate|]. pick; [|auto]. intros [= <-].
           assert (fst e < number s) by (apply Bound, in_app_iff; now left). cbn in *. lia.
    + intros f H. apply in_app_iff. auto.
    + intros f H. apply in_app_iff in H. destruct H as [H|[<-|[]]].
      * destruct (i_all0 f H) as [H1|(u & H1)]; [now left|]. right. exists u. rewrite !set_eq.
        pick; [exfalso; exact (F3 f H1)|]. pick; [congruence|exact H1].
      * right. exists r. rewrite !set_eq, Nat.eqb_refl. pick; [contradiction|reflexivity].
    + intros u. rewrite G. auto.
Qed.

Lemma inv_receive s t s' : inv s -> free s t -> receive_nowait s t = Some s' -> inv s'.
Proof.
  intros I F. unfold receive_nowait.
  destruct (no_recv s) eqn:NR; [intros [= <-]; apply inv_to; auto; [constructor|intros x [<-|[]]; constructor]|].
  assert (exists b ss p, match senders s with
                       | (u, e) :: ss => (buf s ++ [e], ss, set (phases s) u (PutWait e true))
                       | [] => (buf s, [], phases s)
                       end = (b, ss, p)
    /\ b ++ map snd ss = waiting_items s
    /\ incl ss (senders s) /\ incl (buf s) b /\ NoDup (map fst ss)
    /\ (ss <> [] -> forall e b', b = e :: b' -> room b' = false)
    /\ (match size with Some n => forall e b', b = e :: b' -> length b' <= n | None => True end)
    /\ forall u, p u = phases s u /\ (In u (map fst (senders s)) -> In u (map fst ss)) \/
         exists e, In (u, e) (senders s) /\ p u = PutWait e true /\ In e b /\ ~ In u (map fst ss)) as M.
  { pose proof (i_full s I) as Fu. pose proof (i_fits s I) as Fi. pose proof (i_sd_nodup s I) as ND.
    unfold waiting_items. destruct (senders s) as [|[u e] ss].
    - exists (buf s), [], (phases s). repeat split; cbn; auto using incl_refl; [contradiction|].
      destruct size; [|exact Logic.I]. intros e b' X. rewrite X in Fi. cbn in Fi. lia.
    - exists (buf s ++ [e]), ss, (set (phases s) u (PutWait e true)). cbn in ND. inversion ND as [|? ? N1 N2]; subst.
      repeat split; auto.
      + cbn. now rewrite <- app_assoc.
      + apply incl_tl, incl_refl.
      + apply incl_appl, incl_refl.
      + intros _ x b' E. assert (length b' = length (buf s)) as L by (apply (f_equal (@length _)) in E; rewrite app_length in E; cbn in E; lia).
        unfold ModelQueue.room in *. destruct size; [rewrite L|]; apply Fu; discriminate.
      + destruct size; [|exact Logic.I]. intros x b' E. apply (f_equal (@length _)) in E. rewrite app_length in E. cbn in E. lia.
      + intros w. rewrite set_eq. cbn. destruct (Nat.eqb_spec w u) as [->|N].
        * right. exists e. repeat split; auto. apply in_app_iff. right. now left.
        * left. split; [reflexivity|]. intros [<-|H]; [contradiction|exact H]. }
  destruct M as (b & ss & p & -> & M1 & M2 & M3 & M4 & M5 & M6 & M7).
  destruct b as [|e b].
  { destruct (no_send s); [|discriminate]. intros [= <-]. apply inv_to; auto; [constructor|intros x [<-|[]]; constructor]. }
  intros [= <-]. destruct F as (F1 & F2 & F3).
  destruct (app_lists (trace s) [Taken e; Got t e]) as (A' & B' & C' & D' & E').
  cbn in A', B', C', D'. rewrite app_nil_r in A', C'.
  assert (forall u, got_by u (trace s ++ [Taken e; Got t e]) = got_by u (trace s) ++ (if t =? u then [e] else [])) as G
    by (intros u; rewrite E'; cbn; destruct (t =? u); reflexivity).
  assert (kept (trace s ++ [Taken e; Got t e]) = kept (trace s)) as K by (unfold kept; rewrite A', C'; reflexivity).
  destruct (line_sorted s I) as [So _]. rewrite map_app, <- M1 in So. apply sorted_app in So.
  destruct So as (_ & _ & So).
  assert (forall x, In x (taken (trace s)) -> fst x < fst e) as Old
    by (intros x H; apply So; [now apply in_map|now left]).
  assert (receivers s = []) as NoR.
  { destruct (receivers s) eqn:R; [reflexivity|]. destruct (i_wait s I) as (W1 & W2 & _); [rewrite R; discriminate|].
    unfold waiting_items in M1. rewrite W1, W2 in M1. discriminate. }
  assert (forall f, In f (taken (trace s) ++ buf s) -> In f ((taken (trace s) ++ [e]) ++ b)) as Keep.
  { intros f. rewrite <- app_assoc. rewrite !in_app_iff. intros [H|H]; [now left|right]. destruct (M3 _ H); [left; now left|now right]. }
  destruct I. constructor; unfold in_hand, waiting_items in *;
    cbn [buf senders receivers no_send no_recv number phases trace] in *;
    rewrite ?A', ?B', ?C', ?D', ?K; auto.
  - intros u. rewrite set_eq. pick.
    + split; [|discriminate]. intros H. exfalso. apply F1, i_rc0, H.
    + destruct (M7 u) as [[-> _]|(x & X1 & -> & _)]; [auto|]. apply i_sd0 in X1. rewrite i_rc0, X1. split; discriminate.
  - intros u f H. rewrite set_eq. pick; [exfalso; apply F2; eapply sender_in, M2, H|].
    destruct (M7 u) as [[-> _]|(x & X1 & _ & _ & X2)]; [rewrite <- NR; apply i_sd0, M2, H|].
    exfalso. apply X2. change u with (fst (u, f)). now apply in_map.
  - intros u f. rewrite set_eq. pick; [discriminate|]. destruct (M7 u) as [[-> X]|(x & X1 & -> & _)]; [|discriminate].
    intros H. apply i_sd3 in H. pose proof (X (sender_in _ _ _ H)) as Y. apply in_map_iff in Y.
    destruct Y as ([u' f'] & Z & Y). cbn in Z. subst u'. pose proof (i_sd0 _ _ H) as Q1. pose proof (i_sd0 _ _ (M2 _ Y)) as Q2.
    congruence.
  - discriminate.
  - intros u. rewrite set_eq. pick; [discriminate|]. destruct (M7 u) as [[-> _]|(x & _ & -> & _)]; [eauto|discriminate].
  - intros u. rewrite set_eq. pick; [discriminate|]. destruct (M7 u) as [[-> _]|(x & _ & -> & _)]; [|discriminate].
    intros X. destruct (i_closed0 _ X). congruence.
  - rewrite NoR. contradiction.
  - intros H. exact (M5 H _ _ eq_refl).
  - destruct size; [|exact Logic.I]. exact (M6 _ _ eq_refl).
  - rewrite <- i_line0, <- M1, <- app_assoc. reflexivity.
  - intros u f H. apply in_app_iff in H. destruct H as [H|[H|[H|[]]]]; [|discriminate|discriminate]. eauto.
  - intros u f. rewrite set_eq. pick; [discriminate|].
    destruct (M7 u) as [[-> X]|(x & X1 & -> & X2 & _)].
    + intros H. destruct (i_pending0 _ _ H); [left|right]; auto.
    + intros [= <-]. right. rewrite <- app_assoc. apply in_app_iff. now right.
  - intros u f. rewrite set_eq. pick; [discriminate|].
    destruct (M7 u) as [[-> X]|(x & X1 & -> & X2 & _)]; [|discriminate]. intros H.
    destruct (i_hand0 u f H) as (H1 & H2 & H3 & H4). repeat split.
    + apply in_app_iff. now left.
    + rewrite in_app_iff. intros [Y|[Y|[]]]; [contradiction|]. subst f. apply Old in H1. lia.
    + intros w. rewrite set_eq. pick; [discriminate|].
      destruct (M7 w) as [[-> _]|(y & _ & -> & _)]; [|discriminate]. auto.
    + rewrite G. pick; [contradiction|]. rewrite app_nil_r. auto.
  - intros f. rewrite !in_app_iff. intros [H|H]; [left; auto|now right].
  - apply nodup_snoc; [auto|]. intros H. apply i_got0, Old in H. lia.
  - intros f. rewrite !in_app_iff. intros [H|H]; [|left; now right].
    destruct (i_all0 f H) as [H1|(u & H1)]; [left; now left|]. right. exists u. rewrite set_eq. pick; [exfalso; exact (F3 f H1)|].
    destruct (M7 u) as [[-> _]|(y & Y & _ & _)]; [exact H1|]. apply i_sd0 in Y. congruence.
  - intros u. rewrite G. pick; [|rewrite app_nil_r; auto]. rewrite map_app. apply sorted_snoc; [auto|].
    intros a Ha. apply in_map_iff in Ha. destruct Ha as (x & <- & Ha). eapply Old, i_got0, got_by_got, Ha.
Qed.

Lemma inv_put_wait s t v : inv s -> free s t -> send_nowait s t v = None ->
  inv (Queue (buf s) (senders s ++ [(t, (number s, v))]) (receivers s) (no_send s) (no_recv s) (S (number s))
         (set (phases s) t (PutWait (number s, v) false)) (trace s ++ [Offered (number s, v)])).
Proof.
  intros I (F1 & F2 & F3). unfold ModelQueue.send_nowait. set (e := (number s, v)).
  destruct (no_send s) eqn:NS; [discriminate|]. destruct (no_recv s) eqn:NR; [discriminate|].
  destruct (receivers s) eqn:R; [|discriminate]. destruct (room (buf s)) eqn:Rm; [discriminate|]. intros _.
  destruct (app_lists (trace s) [Offered e]) as (A' & B' & C' & D' & E').
  cbn in A', B', C', D'. rewrite app_nil_r in B', C', D'.
  assert (forall u, got_by u (trace s ++ [Offered e]) = got_by u (trace s)) as G
    by (intros u; rewrite E'; apply app_nil_r).
  pose proof (kept_offered s [Offered e] e I eq_refl eq_refl eq_refl) as K.
  destruct I. constructor; unfold in_hand, waiting_items in *;
    cbn [buf senders receivers no_send no_recv number phases trace] in *;
    rewrite ?A', ?B', ?C', ?D', ?K; auto.
  - intros u. rewrite <- R, set_eq. pick; [|auto]. split; [intros H; exfalso; apply F1, i_rc0, H|discriminate].
  - constructor.
  - intros u f H. rewrite in_app_iff in H. rewrite set_eq. pick.
    + destruct H as [H|[H|[]]]; [exfalso; apply F2; eapply sender_in, H|]. now injection H as <-.
    + destruct H as [H|[H|[]]]; [|congruence]. rewrite <- NR. auto.
  - intros u f. rewrite set_eq, in_app_iff. pick; [|auto]. intros [= <-]. right. now left.
  - rewrite map_app. apply nodup_snoc; auto.
  - intros u. rewrite set_eq. pick; [discriminate|]. intros X. rewrite <- NS. eauto.
  - intros u. rewrite set_eq. pick; [discriminate|]. intros X. destruct (i_closed0 _ X). congruence.
  - contradiction.
  - rewrite <- i_line0, map_app. cbn. now rewrite <- !app_assoc.
  - rewrite seq_S, <- i_nums0. apply map_app.
  - intros f H. apply i_withdrawn0 in H. lia.
  - intros u f H. apply in_app_iff in H. destruct H as [H|[H|[]]]; [eauto|discriminate].
  - intros u f. rewrite set_eq. pick; [discriminate|]. intros H. rewrite map_app, in_app_iff.
    destruct (i_pending0 _ _ H); [left; now left|now right].
  - intros u f. rewrite set_eq. pick; [discriminate|]. intros H. rewrite G.
    destruct (i_hand0 u f H) as (H1 & H2 & H3 & H4). repeat split; auto.
    intros w. rewrite set_eq. pick; [discriminate|]. auto.
  - intros f H. destruct (i_all0 f H) as [H1|(u & H1)]; [now left|]. right. exists u. rewrite set_eq. pick; [|exact H1].
    exfalso. exact (F3 f H1).
  - intros u. rewrite G. auto.
Qed.

Lemma in_drop t l u : In u (map fst (drop t l)) <-> In u (map fst l) /\ u <> t.
Proof.
  unfold drop. rewrite !in_map_iff. split.
  - intros (x & <- & H). apply filter_In in H. destruct H as [H1 H2]. split; [now exists x|].
    intros X. rewrite X, Nat.eqb_refl in H2. discriminate.
  - intros [(x & <- & H) N]. exists x. split; [reflexivity|]. apply filter_In. split; [exact H|].
    apply negb_true_iff, Nat.eqb_neq, N.
Qed.

Lemma filter_same {A} (f : A -> bool) l : (forall x, In x l -> f x = true) -> filter f l = l.
Proof. induction l as [|x l IH]; cbn; intros H; [reflexivity|]. rewrite H, IH; auto. Qed.

Lemma filter_two (l : list entry) (ws : list nat) (n : nat) :
  filter (fun f : entry => negb (existsb (Nat.eqb (fst f)) (ws ++ [n]))) l
  = filter (fun f : entry => negb (fst f =? n)) (filter (fun f : entry => negb (existsb (Nat.eqb (fst f)) ws)) l).
Proof.
  induction l as [|f l IH]; [reflexivity|]. cbn [filter]. rewrite existsb_app, IH. cbn.
  rewrite orb_false_r. destruct (existsb (Nat.eqb (fst f)) ws); cbn; [reflexivity|]. destruct (fst f =? n); reflexivity.
Qed.

Lemma inv_withdraw s t e w x : inv s -> phases s t = PutWait e w -> In t (map fst (senders s)) ->
  inv (Queue (buf s) (drop t (senders s)) (receivers s) (no_send s) (no_recv s) (number s)
         (set (phases s) t Idle) (trace s ++ [Withdrawn e; Failed t x])).
Proof.
  intros I P Ht. apply in_map_iff in Ht. destruct Ht as ([t' e'] & Et & Ht). cbn in Et. subst t'.
  pose proof (i_sd s I _ _ Ht) as P'. rewrite P in P'. injection P' as <- ->.
  destruct (app_lists (trace s) [Withdrawn e; Failed t x]) as (A' & B' & C' & D' & E').
  cbn in A', B', C', D'. rewrite app_nil_r in A', B', D'.
  assert (forall u, got_by u (trace s ++ [Withdrawn e; Failed t x]) = got_by u (trace s)) as G
    by (intros u; rewrite E'; apply app_nil_r).
  destruct (line_sorted s I) as [So Bound].
  assert (kept (trace s ++ [Withdrawn e; Failed t x]) = filter (fun f : entry => negb (fst f =? fst e)) (kept (trace s))) as K.
  { unfold kept. rewrite A', C', map_app. exact (filter_two (offered (trace s)) (map fst (withdrawn (trace s))) (fst e)). }
  assert (taken (trace s) ++ buf s ++ map snd (drop t (senders s))
          = filter (fun f : entry => negb (fst f =? fst e)) (taken (trace s) ++ waiting_items s)) as L.
  { unfold waiting_items in *. rewrite !filter_app. rewrite app_assoc, map_app in So. apply sorted_app in So.
    destruct So as (_ & S2 & So).
    assert (forall f, In f (taken (trace s) ++ buf s) -> negb (fst f =? fst e) = true) as Z.
    { intros f Hf. apply negb_true_iff, Nat.eqb_neq. apply Nat.lt_neq, So; [now apply in_map|].
      apply in_map. change e with (snd (t, e)). now apply in_map. }
    rewrite (filter_same _ (taken (trace s))) by (intros; apply Z, in_app_iff; now left).
    rewrite (filter_same _ (buf s)) by (intros; apply Z, in_app_iff; now right).
    f_equal. f_equal. pose proof (i_sd_nodup s I) as ND. apply sorted_nodup in S2. revert ND S2 Ht. clear.
    unfold drop. generalize (senders s) as l. intros l ND S2 Ht.
    assert (forall y, In y l -> (fst y =? t) = (fst (snd y) =? fst e)) as Z.
    { rewrite map_map in S2. induction l as [|y l IH]; [contradiction|]. cbn in ND, S2.
      inversion ND as [|? ? N1 N2]; inversion S2 as [|? ? S3 S4]; subst.
      intros z [<-|Hz].
      - destruct Ht as [->|Ht]; cbn; [now rewrite !Nat.eqb_refl|].
        transitivity false; [apply Nat.eqb_neq|symmetry; apply Nat.eqb_neq]; intros X.
        + apply N1. rewrite X. change t with (fst (t, e)). now apply in_map.
        + apply S3. rewrite X. apply in_map_iff. now exists (t, e).
      - destruct Ht as [->|Ht]; cbn in *; [|auto].
        transitivity false; [apply Nat.eqb_neq|symmetry; apply Nat.eqb_neq]; intros X.
        + apply N1. rewrite <- X. now apply in_map.
        + apply S3. rewrite <- X. apply in_map_iff. now exists z. }
    clear ND S2 Ht. induction l as [|y l IH]; [reflexivity|]. cbn [filter map]. rewrite <- (Z y (or_introl eq_refl)).
    rewrite <- IH by (intros; apply Z; now right). destruct (fst y =? t); reflexivity. }
  assert (incl (drop t (senders s)) (senders s)) as Inc by (intros y Y; now apply filter_In in Y).
  rewrite Forall_forall in Bound.
  assert (fst e < number s) as Be by (apply Bound; unfold waiting_items; rewrite !in_app_iff; right; right;
    change e with (snd (t, e)); now apply in_map).
  destruct I. constructor; unfold in_hand in *;
    cbn [buf senders receivers no_send no_recv number phases trace] in *;
    rewrite ?A', ?B', ?C', ?D', ?K; auto.
  - intros u. rewrite set_eq. pick; [|auto]. rewrite i_rc0, P. split; discriminate.
  - intros u f H. rewrite set_eq. pick; [|auto].
    exfalso. assert (In t (map fst (drop t (senders s)))) as X by (change t with (fst (t, f)) at 1; now apply in_map).
    apply in_drop in X. tauto.
  - intros u f. rewrite set_eq. pick; [discriminate|]. intros H. apply filter_In. split; [auto|].
    now apply negb_true_iff, Nat.eqb_neq.
  - assert (forall l : list (nat * entry), NoDup (map fst l) -> NoDup (map fst (drop t l))) as Z; [|auto].
    clear. induction l as [|y l IH]; cbn; intros N; [constructor|]. inversion N as [|? ? N1 N2]; subst.
    destruct (fst y =? t); cbn; [auto|]. constructor; [|auto]. intros H. apply N1. apply in_drop in H. tauto.
  - intros u. rewrite set_eq. pick; [discriminate|eauto].
  - intros u. rewrite set_eq. pick; [discriminate|eauto].
  - intros H. destruct (i_wait0 H) as (W1 & W2 & W3). rewrite W2 in Ht. contradiction.
  - intros H. apply i_full0. intros X. rewrite X in H. now apply H.
  - unfold waiting_items at 1. cbn [buf senders]. rewrite L, <- i_line0. reflexivity.
  - intros f H. apply in_app_iff in H. destruct H as [H|[<-|[]]]; auto.
  - intros u f H. apply in_app_iff in H. destruct H as [H|[H|[H|[]]]]; [eauto|discriminate|discriminate].
  - intros u f. rewrite set_eq. pick; [discriminate|]. intros H. rewrite in_drop.
    destruct (i_pending0 _ _ H); [left; now split|now right].
  - intros u f. rewrite set_eq. pick; [discriminate|]. intros H. rewrite G.
    destruct (i_hand0 u f H) as (H1 & H2 & H3 & H4). repeat split; auto.
    intros v. rewrite set_eq. pick; [discriminate|]. auto.
  - intros f H. destruct (i_all0 f H) as [H1|(u & H1)]; [now left|]. right. exists u. rewrite set_eq. pick; [congruence|exact H1].
  - intros u. rewrite G. auto.
Qed.

(** Changes that leave the trace *)
Lemma inv_phases s b ss rs ns nr p : inv s ->
  b = buf s -> ss = senders s ->
  (forall t, In t rs <-> p t = GetWait None) -> NoDup rs ->
  (forall t e, In (t, e) ss -> p t = PutWait e nr) ->
  (forall t e, p t = PutWait e false -> In (t, e) ss) ->
  (nr = true -> ns = true) -> (forall t, p t = Closing -> ns = true) -> (forall t, p t = Closed2 -> ns = true /\ nr = true) ->
  (rs <> [] -> b = [] /\ ss = [] /\ ns = false) ->
  (forall t e, p t = PutWait e true -> In t (map fst ss) \/ phases s t = PutWait e true) ->
  (forall t e, p t = GetWait (Some (Some e)) <-> in_hand s t e) ->
  inv (Queue b ss rs ns nr (number s) p (trace s)).
Proof.
  intros I -> -> H1 H2 H3 H4 H5 H6 H7 H8 H9 H10. destruct I.
  constructor; unfold in_hand in *; cbn [buf senders receivers no_send no_recv number phases trace] in *; auto.
  - intros t e H. destruct (H9 _ _ H); [now left|eauto].
  - intros t e H. apply H10 in H. destruct (i_hand0 t e H) as (A & B & C & D). repeat split; auto.
    intros u Hu. apply H10 in Hu. auto.
  - intros e H. destruct (i_all0 e H) as [A|(t & A)]; [now left|]. right. exists t. now apply H10.
Qed.

Lemma inv_get_wait s t : inv s -> free s t -> receive_nowait s t = None ->
  inv (Queue (buf s) (senders s) (receivers s ++ [t]) (no_send s) (no_recv s) (number s)
         (set (phases s) t (GetWait None)) (trace s)).
Proof.
  intros I (F1 & F2 & F3). unfold receive_nowait. destruct (no_recv s) eqn:NR; [discriminate|].
  destruct (senders s) as [|[u e] ss] eqn:Se; [|destruct (buf s); discriminate].
  destruct (buf s) eqn:B; [|discriminate]. destruct (no_send s) eqn:NS; [discriminate|]. intros _.
  apply inv_phases; auto; try contradiction; try discriminate.
  - intros u. rewrite in_app_iff, set_eq. pick.
    + split; [reflexivity|]. intros _. right. now left.
    + rewrite (i_rc s I). split; [|auto]. intros [X|[X|[]]]; [exact X|congruence].
  - apply nodup_snoc; [apply I|]. intros X. apply (i_rc s I) in X. contradiction.
  - intros u e. rewrite set_eq. pick; [discriminate|]. intros H. rewrite <- Se. now apply (i_sd2 s I).
  - intros u. rewrite set_eq. pick; [discriminate|]. intros H. rewrite <- NS. eapply i_closing; eauto.
  - intros u. rewrite set_eq. pick; [discriminate|]. intros H. destruct (i_closed s I _ H). congruence.
  - intros u e. rewrite set_eq. pick; [discriminate|]. auto.
  - intros u e. rewrite set_eq. unfold in_hand. pick; [|reflexivity]. split; [discriminate|]. intros X. exfalso. exact (F3 e X).
Qed.

Lemma inv_get_cancel s t : inv s -> phases s t = GetWait None ->
  inv (Queue (buf s) (senders s) (filter (fun r => negb (r =? t)) (receivers s)) (no_send s) (no_recv s) (number s)
         (set (phases s) t Idle) (trace s)).
Proof.
  intros I P. apply inv_phases; auto.
  - intros u. rewrite filter_In, (i_rc s I), set_eq. pick; cbn; [|tauto]. split; [intros [_ X]; discriminate|discriminate].
  - apply NoDup_filter, I.
  - intros u e H. rewrite set_eq. pick; [|now apply (i_sd s I)]. apply (i_sd s I) in H. congruence.
  - intros u e. rewrite set_eq. pick; [discriminate|]. apply (i_sd2 s I).
  - apply I.
  - intros u. rewrite set_eq. pick; [discriminate|]. apply (i_closing s I).
  - intros u. rewrite set_eq. pick; [discriminate|]. apply (i_closed s I).
  - intros _. apply (i_wait s I). intros X. apply (i_rc s I) in P. rewrite X in P. contradiction.
  - intros u e. rewrite set_eq. pick; [discriminate|]. auto.
  - intros u e. rewrite set_eq. unfold in_hand. pick; [|reflexivity]. rewrite P. split; discriminate.
Qed.

Lemma wake_r s u : wake_receivers s u = if existsb (Nat.eqb u) (receivers s) then GetWait (Some None) else phases s u.
Proof.
  unfold wake_receivers. induction (receivers s) as [|r l IH]; [reflexivity|]. cbn. rewrite set_eq.
  destruct (u =? r); [reflexivity|exact IH].
Qed.
Lemma wake_s s u : NoDup (map fst (senders s)) ->
  (exists e, In (u, e) (senders s) /\ wake_senders s u = PutWait e true) \/
  ~ In u (map fst (senders s)) /\ wake_senders s u = phases s u.
Proof.
  unfold wake_senders. induction (senders s) as [|[t e] l IH]; cbn; intros N; [right; auto|].
  inversion N as [|? ? N1 N2]; subst. rewrite set_eq. destruct (Nat.eqb_spec u t) as [->|D].
  - left. exists e. auto.
  - destruct (IH N2) as [(f & H1 & H2)|[H1 H2]]; [left; exists f; auto|right]. split; [|exact H2]. intros [X|X]; [congruence|auto].
Qed.

Lemma inv_close_send s : inv s -> inv (close_send s).
Proof.
  intros I. unfold close_send. destruct (no_send s) eqn:NS; [exact I|].
  assert (forall u, wake_receivers s u = GetWait (Some None) /\ phases s u = GetWait None \/
                    wake_receivers s u = phases s u /\ phases s u <> GetWait None) as W.
  { intros u. rewrite wake_r. destruct (existsb (Nat.eqb u) (receivers s)) eqn:E.
    - left. split; [reflexivity|]. apply (i_rc s I). apply existsb_exists in E. destruct E as (x & X1 & X2).
      apply Nat.eqb_eq in X2. now subst x.
    - right. split; [reflexivity|]. intros X. apply (i_rc s I) in X.
      assert (existsb (Nat.eqb u) (receivers s) = true) by (apply existsb_exists; exists u; split; [exact X|apply Nat.eqb_refl]). congruence. }
  apply inv_phases; auto; try contradiction.
  - intros u. destruct (W u) as [[-> _]|[-> X]]; (split; [contradiction|]); [discriminate|contradiction].
  - constructor.
  - intros u e H. apply (i_sd s I) in H. destruct (W u) as [[_ X]|[-> _]]; congruence.
  - intros u e. destruct (W u) as [[-> _]|[-> _]]; [discriminate|apply (i_sd2 s I)].
  - intros u. destruct (W u) as [[-> _]|[-> _]]; [discriminate|]. intros X. apply (i_closed s I) in X. destruct X. auto.
  - intros u e. destruct (W u) as [[-> _]|[-> _]]; [discriminate|auto].
  - intros u e. unfold in_hand. destruct (W u) as [[-> X]|[-> _]]; [rewrite X; split; discriminate|reflexivity].
Qed.

Lemma inv_close_recv s : inv s -> no_send s = true -> inv (close_recv s).
Proof.
  intros I NS. unfold close_recv. destruct (no_recv s) eqn:NR; [exact I|].
  pose proof (fun u => wake_s s u (i_sd_nodup s I)) as W. rewrite NS.
  apply inv_phases; auto.
  - intros u. rewrite (i_rc s I). destruct (W u) as [(e & X & ->)|[_ ->]]; [|reflexivity].
    apply (i_sd s I) in X. rewrite X. split; discriminate.
  - apply I.
  - intros u e H. destruct (W u) as [(f & X & ->)|[X ->]]; [|exfalso; eapply X, sender_in, H].
    apply (i_sd s I) in H. apply (i_sd s I) in X. congruence.
  - intros u e. destruct (W u) as [(f & X & ->)|[X ->]]; [discriminate|]. apply (i_sd2 s I).
  - intros H. apply (i_wait s I) in H. destruct H as (_ & _ & H). congruence.
  - intros u e. destruct (W u) as [(f & X & ->)|[X ->]]; [|auto]. intros _. left. eapply sender_in, X.
  - intros u e. unfold in_hand. destruct (W u) as [(f & X & ->)|[X ->]]; [|reflexivity].
    apply (i_sd s I) in X. rewrite X. split; discriminate.
Qed.

Lemma inv_start : inv start.
Proof.
  constructor; unfold in_hand; cbn; try discriminate; try contradiction; try constructor; try discriminate; try contradiction.
  - destruct size; [lia|exact Logic.I].
Qed.

Lemma inv_step s a : inv s -> inv (qstep s a).
Proof.
  intros I.
  assert (forall t x, silent s [Failed t x]) as Si by (intros t x y [<-|[]]; exact Logic.I).
  assert (forall t, match phases s t with PutWait _ false | GetWait None | GetWait (Some (Some _)) => False
                    | PutWait _ true => ~ In t (map fst (senders s)) | _ => True end -> free s t) as Fr.
  { intros t H. repeat split.
    - intros X. now rewrite X in H.
    - intros X. apply in_map_iff in X. destruct X as ([t' e] & X1 & X2). cbn in X1. subst t'.
      pose proof (i_sd s I _ _ X2) as X. rewrite X in H. destruct (no_recv s); [|exact H]. apply H. eapply sender_in, X2.
    - intros e X. unfold in_hand in X. now rewrite X in H. }
  destruct a as [t o|t|t]; cbn [ModelQueue.qstep]; specialize (Fr t).
  - destruct (phases s t) eqn:P; try exact I. specialize (Fr Logic.I).
    destruct o.
    + apply inv_to; auto; [exact Logic.I|intros x []].
    + destruct (send_nowait s t v) eqn:E; [eapply inv_send; eauto|apply inv_to; auto; exact Logic.I].
    + apply inv_to; auto; [exact Logic.I|intros x []].
    + destruct (receive_nowait s t) eqn:E; [eapply inv_receive; eauto|apply inv_to; auto; exact Logic.I].
    + apply inv_to; [apply inv_close_send, I| | |intros x []].
      * assert (forall u, phases s u = Idle -> phases (close_send s) u = Idle) as Z.
        { intros u H. unfold close_send. destruct (no_send s); [exact H|]. cbn. rewrite wake_r.
          destruct (existsb (Nat.eqb u) (receivers s)) eqn:X; [|exact H]. apply existsb_exists in X.
          destruct X as (y & X1 & X2). apply Nat.eqb_eq in X2. subst y. apply (i_rc s I) in X1. congruence. }
        apply Z in P. repeat split; [congruence| |unfold in_hand; congruence].
        destruct Fr as (_ & F & _). unfold close_send. destruct (no_send s); exact F.
      * unfold quiet, close_send. destruct (no_send s) eqn:NS; [exact NS|reflexivity].
  - destruct (phases s t) as [|v|e [|]| |[[e|]|]| |] eqn:P; try exact I.
    + specialize (Fr Logic.I). destruct (send_nowait s t v) eqn:E; [eapply inv_send; eauto|now apply inv_put_wait].
    + destruct (existsb (fun x => fst x =? t) (senders s)) eqn:E.
      * eapply inv_withdraw; eauto. apply existsb_exists in E. destruct E as (x & X1 & X2). apply Nat.eqb_eq in X2. subst t.
        now apply in_map.
      * assert (~ In t (map fst (senders s))) as N.
        { intros X. apply in_map_iff in X. destruct X as (x & X1 & X2).
          assert (existsb (fun x => fst x =? t) (senders s) = true) by (apply existsb_exists; exists x; split; [exact X2|now apply Nat.eqb_eq]).
          congruence. }
        apply inv_to; auto; [exact Logic.I|]. intros x [<-|[]].
        destruct (i_pending s I _ _ P); [contradiction|assumption].
    + specialize (Fr Logic.I). destruct (receive_nowait s t) eqn:E; [eapply inv_receive; eauto|now apply inv_get_wait].
    + now apply inv_got.
    + apply inv_to; auto. exact Logic.I.
    + pose proof (i_closing s I _ P) as NS. apply inv_to; [now apply inv_close_recv| | |intros x []].
      * specialize (Fr Logic.I). destruct Fr as (F1 & F2 & F3).
        unfold close_recv. destruct (no_recv s); [repeat split; assumption|]. unfold free, in_hand; cbn.
        destruct (wake_s s t (i_sd_nodup s I)) as [(f & X & _)|[_ ->]]; [exfalso; eapply F2, sender_in, X|].
        repeat split; assumption.
      * unfold quiet, close_recv. destruct (no_recv s) eqn:NR; [split; assumption|split; [exact NS|reflexivity]].
    + apply inv_to; auto; [exact Logic.I|]. intros x [<-|[]]. exact Logic.I.
  - destruct (phases s t) as [|v|e [|]| |[[e|]|]| |] eqn:P; try exact I;
      try (apply inv_to; auto; exact Logic.I).
    + eapply inv_withdraw; eauto. eapply sender_in, (i_sd2 s I), P.
    + pose proof (inv_get_cancel s t I P) as J.
      apply (inv_more _ [Failed t Cancelled]) in J; [exact J|]. intros x [<-|[]]. exact Logic.I.
Qed.

Lemma inv_run l : inv (qrun size l).
Proof.
  unfold qrun. rewrite <- fold_left_rev_right. induction (rev l) as [|a r IH]; [apply inv_start|]. cbn. now apply inv_step.
Qed.
End Inv.
