(** C101, continued: calls of the progression methods act one after the other. *)
From Coq Require Import String.
From Coq Require Import List Bool Arith Lia.
From Verif Require Import PyBase PyFacts ModelProgression ModelPile ModelFlow ModelFlowThreads
  PropertiesFlowThreads PropertiesFlowAlone.
Import ListNotations.
#[local] Arguments eqb : simpl never.

(** add_progression, remove_progression and get_progression *)
Definition progression_call (a : call) : Prop :=
  match a with AddProg _ | RemProg _ | GetProg _ => True | _ => False end.

(** The answers [l], in this order, are those of calls from [sched], made by these threads, to
    the methods without threads, one after the other, leading from the first flow to the second. *)
Inductive serial (sub : cls -> cls -> bool) (sched : list (tid * call)) (f0 : flow) :
  list (tid * outcome answer) -> flow -> Prop :=
| ser_nil : serial sub sched f0 [] f0
| ser_more l f t a o r : serial sub sched f0 l f -> In (t, a) sched -> call_is a o ->
    answer_is r (snd (flow_step sub f o)) ->
    serial sub sched f0 (l ++ [(t, r)]) (fst (flow_step sub f o)).

(** ** A step depends on the store, the lock and the thread's own position *)
Definition same (t : tid) (c d : cfg) : Prop :=
  st c = st d /\ lock c = lock d /\ pcs c t = pcs d t /\ log c = log d.
Lemma same_to t c d s x : same t c d -> same t (to c t s x) (to d t s x).
Proof. intros (A & B & C & D). unfold same, to. cbn. rewrite !upd_same. auto. Qed.
Lemma same_stop t c d s x : same t c d -> same t (stop c t s x) (stop d t s x).
Proof. intros (A & B & C & D). unfold same, stop. cbn. rewrite !upd_same, D. auto. Qed.
Lemma same_free t c d : same t c d -> same t (free c) (free d).
Proof. intros (A & B & C & D). unfold same, free. cbn. auto. Qed.
Lemma same_take t c d x : same t c d -> same t (take c t x) (take d t x).
Proof.
  intros S. pose proof S as (A & B & C & D). unfold take. rewrite B.
  destruct (lock d); [exact S|]. unfold same. cbn. rewrite !upd_same. auto.
Qed.

Lemma same_step t a c d : same t c d -> same t (tstep c t a) (tstep d t a).
Proof.
  intros S. pose proof S as (A & _ & C & _). unfold tstep. cbv zeta. rewrite A, C.
  repeat match goal with
  | |- same _ (match ?x with _ => _ end) _ => destruct x
  | |- same _ (if ?x then _ else _) _ => destruct x
  end; auto using same_to, same_stop, same_free, same_take.
Qed.
Lemma same_run t a k : forall c d, same t c d -> same t (trun c (repeat (t, a) k)) (trun d (repeat (t, a) k)).
Proof. induction k as [|k IH]; intros c d S; cbn; [exact S|]. apply IH, same_step, S. Qed.
Lemma tstep_call c t a b : pcs c t <> Idle -> tstep c t a = tstep c t b.
Proof. intros H. unfold tstep. destruct (pcs c t); congruence. Qed.

(** ** Where threads can be that call only these methods *)
Definition kind (x : pc) : Prop :=
  match x with
  | Idle => True
  | Want (GetProg (ByObj _)) => False
  | Want a => progression_call a
  | AP1 _ | AP2 _ | AP3 _ | AP4 _ | RP1 _ | RP2 _ _ | RP3 _ | RP4 _ | RQ1 _ | RQ2 _ _ | GP1 _ | GP2 _ => True
  | _ => False
  end.
(** What a step inside the lock does. *)
Lemma locked_step c t a : locked (pcs c t) = true -> kind (pcs c t) ->
  let d := tstep c t a in
  (forall t', t' <> t -> pcs d t' = pcs c t') /\
  ((lock d = lock c /\ log d = log c /\ kind (pcs d t) /\ forall b, pcs d t <> Want b) \/
   (lock d = None /\ pcs d t = Idle)).
Proof.
  intros L K. unfold tstep. cbv zeta.
  destruct (pcs c t) eqn:E; try discriminate; try contradiction; clear L K;
  repeat match goal with
  | |- context [match ?x with _ => _ end] =>
      lazymatch x with context [match _ with _ => _ end] => fail | _ => destruct x end
  end;
  (split; [intros t' Hn; cbn; rewrite upd_other by exact Hn; reflexivity|]); cbn; rewrite upd_same;
  first [ right; split; reflexivity
        | left; repeat split; discriminate ].
Qed.

Section Serial.
  Variable sub : cls -> cls -> bool.
  Variable sched : list (tid * call).
  Variable f0 : flow.

  (** The holder, left alone, ends its call as the method without threads would. *)
  Definition pend (c : cfg) (t : tid) (a : call) (f : flow) (o : flow_op) : Prop :=
    exists k r, let d := trun c (repeat (t, a) k) in
      log d = log c ++ [(t, r)] /\ matches (st d) (fst (flow_step sub f o)) /\
      answer_is r (snd (flow_step sub f o)) /\
      forall j, j < k -> log (trun c (repeat (t, a) j)) = log c.

  Record inturn (c : cfg) : Prop := {
    s_kind : forall t, kind (pcs c t);
    s_want : forall t a, pcs c t = Want a -> In (t, a) sched;
    s_now : exists f, serial sub sched f0 (log c) f /\
      match lock c with
      | None => matches (st c) f
      | Some t => exists a o, call_is a o /\ In (t, a) sched /\ pend c t a f o
      end
  }.

  Lemma pend_same c d t a f o : same t c d -> pend c t a f o -> pend d t a f o.
  Proof.
    intros S (k & r & A & B & C & D). pose proof S as (_ & _ & _ & El).
    pose proof (same_run t a k _ _ S) as (E1 & _ & _ & E2).
    exists k, r. cbv zeta. rewrite <- E1, <- E2, <- El. repeat split; auto; try apply B.
    intros j Hj. pose proof (same_run t a j _ _ S) as (_ & _ & _ & E3). rewrite <- E3. auto.
  Qed.

  Lemma a_call a : progression_call a -> (forall u, a <> GetProg (ByObj u)) -> exists o, call_is a o.
  Proof.
    destruct a as [p|r|r| |]; try contradiction; intros _ H.
    - eexists. constructor.
    - destruct r as [n q|u|u]; eexists; constructor; try constructor.
      exact (ref_obj (Prog u None [])).
    - destruct r as [n q|u|u]; [eexists; constructor|eexists; constructor|].
      exfalso. eapply H. reflexivity.
  Qed.

  (** A thread that enters a method. *)
  Lemma enter c t a f : lock c = None -> pcs c t = Want a -> kind (Want a) -> matches (st c) f ->
    exists o, call_is a o /\ lock (tstep c t a) = Some t /\ log (tstep c t a) = log c /\
      kind (pcs (tstep c t a) t) /\ (forall b, pcs (tstep c t a) t <> Want b) /\
      (forall t', t' <> t -> pcs (tstep c t a) t' = pcs c t') /\ pend (tstep c t a) t a f o.
  Proof.
    intros Hl Ht K M. cbn [kind] in K.
    destruct (a_call a) as [o Ho].
    { destruct a as [| |[]| |]; try contradiction; exact I. }
    { intros u ->. exact K. }
    exists o. split; [exact Ho|].
    assert (D : does sub t (pcs c) (log c) a (st c) f o).
    { inversion Ho; subst; try contradiction.
      - apply does_add; exact M.
      - apply does_rem; assumption.
      - apply does_get_text; exact M.
      - apply does_get_id; exact M. }
    destruct D as (s' & r & H1 & H2 & H3).
    set (i := Cfg (st c) None (upd (pcs c) t Idle) (log c)).
    destruct (H1 i) as (k & [B1 B2 B3 B4 B5] & L).
    { constructor; cbn; auto; [apply upd_same|]. intros t' Hn. apply upd_other. exact Hn. }
    assert (Q : same t (tstep (tstep i t a) t a) (tstep c t a)).
    { apply same_step. unfold tstep, same. cbn [pcs i]. rewrite upd_same, Hl, Ht.
      destruct a as [| |[]| |]; try contradiction; cbn; rewrite upd_same; auto. }
    assert (W : lock (tstep c t a) = Some t /\ log (tstep c t a) = log c /\ kind (pcs (tstep c t a) t) /\
                (forall b, pcs (tstep c t a) t <> Want b) /\
                (forall t', t' <> t -> pcs (tstep c t a) t' = pcs c t')).
    { unfold tstep. rewrite Ht. unfold take. rewrite Hl.
      destruct a as [| |[]| |]; try contradiction; cbn; rewrite upd_same;
        repeat split; try discriminate; intros t' Hn; apply upd_other; exact Hn. }
    destruct W as (W1 & W2 & W3 & W4 & W5). repeat (split; [assumption|]).
    assert (Kk : exists k', k = 2 + k').
    { exists (k - 2). assert (~ k < 3 \/ k < 3) as [|Hk] by lia; [lia|]. exfalso.
      assert (E1 : log (tstep i t a) = log c).
      { unfold tstep. cbn [pcs i]. rewrite upd_same. destruct a as [| |[]| |]; try contradiction; reflexivity. }
      assert (E2 : log (tstep (tstep i t a) t a) = log c).
      { destruct Q as (_ & _ & _ & Q). congruence. }
      assert (NE : log c <> log c ++ [(t, r)]).
      { intros E. apply (f_equal (@length _)) in E. rewrite app_length in E. cbn in E. lia. }
      assert (E0 : log i = log c) by reflexivity. clearbody i.
      destruct k as [|[|[|k]]]; [| | |lia]; cbn [repeat trun] in B4; congruence. }
    destruct Kk as [k' ->]. apply (pend_same _ _ _ _ _ _ Q). exists k', r. cbv zeta.
    assert (TR : forall j, trun i (repeat (t, a) (2 + j)) = trun (tstep (tstep i t a) t a) (repeat (t, a) j))
      by reflexivity.
    assert (E2 : log (tstep (tstep i t a) t a) = log c).
    { destruct Q as (_ & _ & _ & Q). congruence. }
    rewrite <- TR, E2, B1, B4. split; [reflexivity|]. split; [exact H2|]. split; [exact H3|].
    intros j Hj. rewrite <- TR. apply L. lia.
  Qed.

  Lemma inturn_step c t a : inv c -> inturn c -> In (t, a) sched -> progression_call a ->
    inturn (tstep c t a).
  Proof.
    intros HI [K W (f & Hs & Hn)] Hin Ha. pose proof (i_lock _ HI) as L.
    destruct (locked (pcs c t)) eqn:Lt.
    - (* inside *)
      assert (Hl : lock c = Some t) by (apply L; exact Lt). rewrite Hl in Hn.
      destruct Hn as (b & o & Hb & Hbi & k & r & P1 & P2 & P3 & P4). cbv zeta in P1, P2.
      rewrite (tstep_call c t a b) by (intros E; rewrite E in Lt; discriminate).
      destruct (locked_step c t b Lt (K t)) as [O D]. cbv zeta in O, D.
      assert (NE : log c <> log c ++ [(t, r)]).
      { intros E. apply (f_equal (@length _)) in E. rewrite app_length in E. cbn in E. lia. }
      destruct k as [|k]; [cbn in P1; congruence|]. cbn [repeat trun] in P1, P2.
      assert (KK : forall t', kind (pcs (tstep c t b) t')).
      { intros t'. destruct (Nat.eq_dec t' t) as [->|Hn'].
        - destruct D as [(_ & _ & D & _)|(_ & D)]; [exact D|rewrite D; exact I].
        - rewrite O by exact Hn'. apply K. }
      assert (WW : forall t' b', pcs (tstep c t b) t' = Want b' -> In (t', b') sched).
      { intros t' b'. destruct (Nat.eq_dec t' t) as [->|Hn'].
        - destruct D as [(_ & _ & _ & D)|(_ & D)]; [intros E; destruct (D _ E)|rewrite D; discriminate].
        - rewrite O by exact Hn'. apply W. }
      constructor; auto.
      destruct D as [(D1 & D2 & _ & _)|(D1 & D2)].
      + exists f. rewrite D1, D2, Hl. split; [exact Hs|]. exists b, o. split; [exact Hb|]. split; [exact Hbi|].
        exists k, r. cbv zeta. rewrite D2. repeat (split; [assumption|]). intros j Hj. apply (P4 (S j)). lia.
      + (* the call ends here *)
        destruct k as [|k].
        * cbn [repeat trun] in P1, P2. exists (fst (flow_step sub f o)). rewrite D1, P1.
          split; [|exact P2]. exact (ser_more sub sched f0 (log c) f t b o r Hs Hbi Hb P3).
        * exfalso. assert (E := P4 1 ltac:(lia)). cbn [repeat trun] in E.
          clear - E D1 D2 Lt K. specialize (K t).
          revert E D1 D2. unfold tstep. cbv zeta.
          destruct (pcs c t) eqn:Ep; try discriminate; try contradiction; clear Lt K;
          repeat match goal with
          | |- context [match ?x with _ => _ end] =>
              lazymatch x with context [match _ with _ => _ end] => fail | _ => destruct x end
          end; cbn; rewrite upd_same; try discriminate;
          intros E _ _; apply (f_equal (@length _)) in E; rewrite app_length in E; cbn in E; lia.
    - destruct (pcs c t) as [|b| | | | | | | | | | | | | | | | | | | | | | |] eqn:Ep;
        try discriminate; try (specialize (K t); rewrite Ep in K; contradiction).
      + (* idle *)
        assert (S : (forall u, a <> GetProg (ByObj u)) /\ tstep c t a = to c t (st c) (Want a) \/
                    tstep c t a = c).
        { unfold tstep. rewrite Ep. destruct a as [| |[]| |]; try contradiction; auto;
            left; split; auto; discriminate. }
        destruct S as [[Na S]|S]; rewrite S; [|constructor; auto; exists f; auto].
        constructor.
        * intros t'. cbn. destruct (Nat.eq_dec t' t) as [->|Hn'].
          -- rewrite upd_same. destruct a as [| |[]| |]; try contradiction; cbn; auto. eapply Na. reflexivity.
          -- rewrite upd_other by exact Hn'. apply K.
        * intros t' b. cbn. destruct (Nat.eq_dec t' t) as [->|Hn'].
          -- rewrite upd_same. intros [= <-]. exact Hin.
          -- rewrite upd_other by exact Hn'. apply W.
        * exists f. cbn [to log lock st]. split; [exact Hs|].
          destruct (lock c) as [h|] eqn:Hl; [|exact Hn].
          assert (Hh : h <> t). { intros ->. assert (E : locked (pcs c t) = true) by (apply L; reflexivity). rewrite Ep in E. discriminate. }
          destruct Hn as (b & o & Hb & Hbi & P). exists b, o. repeat (split; [assumption|]).
          eapply pend_same; [|exact P]. unfold same, to. cbn. rewrite upd_other by exact Hh. auto.
      + (* waiting *)
        destruct (lock c) as [h|] eqn:Hl.
        * assert (S : tstep c t a = c).
          { unfold tstep, take. rewrite Ep, Hl. destruct b; reflexivity. }
          rewrite S. constructor; auto. exists f. rewrite Hl. auto.
        * rewrite (tstep_call c t a b) by congruence.
          assert (Kb := K t). rewrite Ep in Kb.
          destruct (enter c t b f Hl Ep Kb Hn) as (o & E1 & E2 & E3 & E4 & E5 & E6 & E7).
          constructor.
          -- intros t'. destruct (Nat.eq_dec t' t) as [->|Hn']; [exact E4|]. rewrite E6 by exact Hn'. apply K.
          -- intros t' b'. destruct (Nat.eq_dec t' t) as [->|Hn']; [intros E; destruct (E5 _ E)|].
             rewrite E6 by exact Hn'. apply W.
          -- exists f. rewrite E2, E3. split; [exact Hs|]. exists b, o. repeat split; auto.
  Qed.
End Serial.

(** Threads that call add_progression, remove_progression and get_progression in any
    interleaving: the answers given so far, in the order in which the calls ended, are those of
    the same calls made one after the other without threads; and while no thread is inside a
    method, the flow is as those calls leave it. *)
Theorem C101_serial sub s f sched : good s -> matches s f ->
  Forall (fun e => progression_call (snd e)) sched ->
  let c := trun (init s) sched in
  exists f', serial sub sched f (log c) f' /\ (lock c = None -> matches (st c) f').
Proof.
  intros G M F.
  assert (H : forall l c, inv c -> inturn sub sched f c -> incl l sched ->
            inturn sub sched f (trun c l)).
  { induction l as [|[t a] l IH]; intros c HI HT Hl; [exact HT|]. cbn.
    assert (Hin : In (t, a) sched) by (apply Hl; left; reflexivity).
    apply IH; [apply inv_step; exact HI| |intros e He; apply Hl; right; exact He].
    apply inturn_step; auto. rewrite Forall_forall in F. exact (F _ Hin). }
  destruct (H sched (init s)) as [_ _ (f' & H1 & H2)].
  - apply good_inv. exact G.
  - constructor; [intros; exact I|discriminate|]. exists f. split; [constructor|exact M].
  - intros e He. exact He.
  - exists f'. split; [exact H1|]. intros E. cbv zeta. rewrite E in H2. exact H2.
Qed.
Print Assumptions C101_serial.

(** Three threads in turn: one adds "b", one removes "a", one looks "a" up; the answers are those
    of the calls one after the other in the order of the log. *)
Example C101_ex_serial_three :
  let q := Prog 21 (Some "b"%string) [] in
  let c := trun (init s2) (concat (repeat [(1, AddProg q); (2, RemProg (ByText "a" None)); (3, GetProg (ByText "a" None))] 6)
                           ++ repeat (2, RemProg (ById 20)) 4 ++ repeat (3, GetProg (ById 20)) 2) in
  (log c, lock c, progs (st c), names (st c)) =
  ([(1, Ret OK); (2, Ret (Prog_ (Prog 20 (Some "a"%string) []))); (3, Raise KeyError)], None,
   [(21, q)], [("b"%string, 21)]).
Proof. vm_compute. reflexivity. Qed.
