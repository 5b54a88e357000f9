(** Properties C68, C75, C76: exception trees. *)
From Coq Require Import String.
From Coq Require Import List Bool Arith Lia.
From Verif Require Import PyBase PyFacts ModelExc SpecExc ProofsExc.
Import ListNotations.

(** C68: each leaf lands in exactly one part, in order, under the same groups. *)
Theorem C68_partition : forall e above,
  let (c, r) := split_cancellation e in
  opt_located above c = filter (fun x => is_cancelled (snd x)) (located above e) /\
  opt_located above r = filter (fun x => negb (is_cancelled (snd x))) (located above e).
Proof.
  intros e above. unfold split_cancellation.
  pose proof (split_located is_cancelled (fun _ _ _ => eq_refl) e above) as H.
  destruct (split is_cancelled e) as [c r]. exact H.
Qed.
Print Assumptions C68_partition.

(** A part is None exactly when it would be empty. *)
Theorem C68_none : forall e, proper e ->
  let (c, r) := split_cancellation e in
  (c = None <-> forall x, In x (leaves e) -> is_cancelled x = false) /\
  (r = None <-> forall x, In x (leaves e) -> is_cancelled x = true) /\
  non_cancel_subgroup e = r.
Proof.
  intros e Hp. unfold split_cancellation, non_cancel_subgroup.
  pose proof (split_located is_cancelled (fun _ _ _ => eq_refl) e []) as [H1 H2].
  pose proof (split_proper is_cancelled e Hp) as [P1 P2].
  destruct (split is_cancelled e) as [c r]. simpl in *.
  rewrite (opt_leaves c P1), (opt_leaves r P2), H1, H2. unfold leaves.
  assert (G : forall (f : pyexc -> bool) (l : list (list (nat * string) * pyexc)),
    filter (fun x => f (snd x)) l = [] <-> forall x, In x (map snd l) -> f x = false).
  { intros f l. induction l as [|[a x] t IH]; simpl; [split; auto; intros; contradiction|].
    destruct (f x) eqn:E; simpl.
    - split; [discriminate|]. intros H. rewrite (H x (or_introl eq_refl)) in E. discriminate.
    - rewrite IH. split; [intros H y [<-|Hy]; auto | intros H y Hy; apply H; auto]. }
  split; [apply G|]. split; [|reflexivity]. rewrite (G (fun x => negb (is_cancelled x))).
  split; intros H x Hx; specialize (H x Hx); destruct (is_cancelled x); auto; discriminate.
Qed.
Print Assumptions C68_none.
Example C68_ex :
  let e := Group 1 "a" [Cancelled ""; Group 2 "b" [Plain "E" "1"; Cancelled "x"]; Group 3 "c" [Plain "E" "2"]] in
  split_cancellation e =
  (Some (Group 1 "a" [Cancelled ""; Group 2 "b" [Cancelled "x"]]),
   Some (Group 1 "a" [Group 2 "b" [Plain "E" "1"]; Group 3 "c" [Plain "E" "2"]])) /\ proper e.
Proof.
  split; [reflexivity|].
  repeat first [apply proper_leaf; discriminate | apply proper_group; [discriminate|] | apply Forall_cons | apply Forall_nil].
Qed.

(** C75: add_error keeps every error, in order. *)
Theorem C75_accumulates : forall fresh cur e,
  match add_error fresh cur e with
  | Ret e' => leaves e' = (match cur with None => [] | Some c => leaves c end) ++ leaves e
  | Raise x => x = TypeError /\ exists c, cur = Some c /\ (is_exception c = false \/ is_exception e = false)
  end.
Proof.
  intros fresh [c|] e; cbn [add_error]; [|reflexivity].
  destruct (exception_group c) as [l|] eqn:Eg.
  - apply exception_group_Some in Eg. destruct Eg as (o & m & -> & Hl).
    unfold mk_exception_group. destruct (l ++ [e]) eqn:El; [destruct l; discriminate|]. rewrite <- El.
    destruct (forallb is_exception (l ++ [e])) eqn:Ef.
    + cbv beta iota. rewrite !leaves_group, flat_map_app. simpl. rewrite app_nil_r. reflexivity.
    + split; [reflexivity|]. exists (Group o m l). split; [reflexivity|]. right.
      rewrite forallb_app, Hl in Ef. simpl in Ef. rewrite andb_true_r in Ef. exact Ef.
  - change (mk_exception_group fresh "multiple errors" [c; e]) with
      (if forallb is_exception [c; e] then Ret (Group fresh "multiple errors" [c; e]) else Raise TypeError).
    destruct (forallb is_exception [c; e]) eqn:Ef.
    + cbv beta iota. rewrite leaves_group. simpl. rewrite app_nil_r. reflexivity.
    + split; [reflexivity|]. exists c. split; [reflexivity|]. simpl in Ef.
      destruct (is_exception c); [right | left; reflexivity]. simpl in Ef. rewrite andb_true_r in Ef. exact Ef.
Qed.
Print Assumptions C75_accumulates.

(** Any sequence of two or more plain errors ends up as one flat group of them. *)
Fixpoint add_all (fresh : nat) (cur : option pyexc) (l : list pyexc) : outcome (option pyexc) :=
  match l with
  | [] => Ret cur
  | e :: t => match add_error fresh cur e with
              | Ret c => add_all (S fresh) (Some c) t
              | Raise x => Raise x
              end
  end.
Theorem C75_flat : forall l fresh, 2 <= List.length l ->
  (forall e, In e l -> is_exception e = true) -> (forall e, In e (firstn 1 l) -> exception_group e = None) ->
  exists oid, add_all fresh None l = Ret (Some (Group oid "multiple errors" l)).
Proof.
  intros l fresh Hl He Hg. destruct l as [|a [|b t]]; simpl in Hl; try lia.
  simpl. rewrite (Hg a (or_introl eq_refl)). unfold mk_exception_group. simpl.
  rewrite (He a (or_introl eq_refl)), (He b (or_intror (or_introl eq_refl))). simpl.
  assert (G : forall t acc f oid, acc <> [] -> forallb is_exception (acc ++ t) = true ->
    exists oid', add_all f (Some (Group oid "multiple errors" acc)) t = Ret (Some (Group oid' "multiple errors" (acc ++ t)))).
  { clear. induction t as [|e t IH]; intros acc f oid Hn Hf; simpl; [rewrite app_nil_r; eauto|].
    pose proof Hf as Hf'. rewrite forallb_app in Hf'. apply andb_true_iff in Hf'. destruct Hf' as [Ha Ht].
    simpl in Ht. apply andb_true_iff in Ht. destruct Ht as [Hee Ht].
    rewrite Ha. unfold mk_exception_group. destruct (acc ++ [e]) eqn:El; [destruct acc; discriminate|]. rewrite <- El.
    rewrite forallb_app, Ha. simpl. rewrite Hee. simpl.
    destruct (IH (acc ++ [e]) (S f) f) as [oid' H].
    - intros E. rewrite El in E. discriminate.
    - rewrite <- app_assoc. exact Hf.
    - exists oid'. rewrite H, <- app_assoc. reflexivity. }
  destruct (G t [a; b] (S (S fresh)) (S fresh)) as [oid H].
  - discriminate.
  - apply forallb_forall. exact He.
  - eauto.
Qed.
Print Assumptions C75_flat.
Example C75_ex :
  add_all 10 None [Plain "E" "1"; Lion "L" "2" true; Plain "E" "3"] =
  Ret (Some (Group 12 "multiple errors" [Plain "E" "1"; Lion "L" "2" true; Plain "E" "3"])) /\
  add_error 1 (Some (Plain "E" "1")) (Cancelled "") = Raise TypeError.
Proof. split; reflexivity. Qed.

(** C76: the serialized error shows every leaf, in place, up to 101 levels. *)
Theorem C76_faithful : forall e, is_exception e = true -> identity_ok e -> depth e <= S MAX_DEPTH ->
  exists s, ser_error (Some e) = Some s /\ ser_located [] s = located_ser [] e.
Proof.
  intros e He Hid Hd. simpl. destruct (exception_group e) as [l|] eqn:Eg.
  - eexists. split; [reflexivity|]. apply (ser_group_located e Hid); auto.
    + constructor.
    + intros o [].
  - eexists. split; [reflexivity|]. rewrite ser_leaf_located.
    pose proof (exception_group_None e He Eg) as H.
    destruct e; try reflexivity. exfalso. eapply H; reflexivity.
Qed.
Print Assumptions C76_faithful.
Example C76_ex :
  ser_error (Some (Group 1 "a" [Plain "E" "1"; Group 2 "b" [Lion "L" "2" false]])) =
  Some (SGroup "a" 2 [SErr "E" "1"; SGroup "b" 1 [SLion "L" "2" false]]).
Proof. reflexivity. Qed.

(** A group holding a BaseException that is no Exception is no ExceptionGroup: written like a single error. *)
Example C76_base : ser_error (Some (Group 1 "g" [Cancelled "c"; Plain "ValueError" "v"])) = Some (SErr "BaseExceptionGroup" "g") /\
  ser_error None = None /\ ser_error (Some (Timeout "t")) = Some (SErr "TimeoutError" "t") /\
  mk_exception_group 1 "g" [] = Raise ValueError.
Proof. repeat split. Qed.

(** Deeper trees are cut: some error disappears. *)
Fixpoint tower (n : nat) (e : pyexc) : pyexc :=
  match n with O => e | S n' => Group n "t" [tower n' e] end.
Theorem C76_deep_refuted : exists t s, is_exception t = true /\ depth t = 102 /\
  leaves t = [Plain "E" "m"] /\ ser_error (Some t) = Some s /\
  forall above, ~ In (above, SErr "E" "m") (ser_located [] s).
Proof.
  exists (tower 102 (Plain "E" "m")). eexists. split; [reflexivity|]. split; [reflexivity|].
  split; [reflexivity|]. split; [vm_compute; reflexivity|].
  intros above H. simpl in H. destruct H as [H|[]]. discriminate.
Qed.
Print Assumptions C76_deep_refuted.
