(** C83: lcall calls the function once per item, in order, up to the first failure. *)
From Coq Require Import List Bool Arith ZArith Lia.
From Verif Require Import PyBase ModelList SpecList ModelLcall PropertiesList.
Import ListNotations.
Local Open Scope list_scope.

(** * Vocabulary *)

(** The function argument is f, or an iterable of exactly f. *)
Definition usable (g : funcs) (f : func) : Prop := g = FOne f \/ g = FMany [Some f].

(** The items of an argument without input options: the list given, the items of any
    other iterable, or else the argument itself. *)
Inductive yields (model_items : Z -> list val) : val -> list val -> Prop :=
| y_seq k l : yields model_items (VSeq k l) l
| y_text s : yields model_items (VText s) (map (fun c => VText [c]) s)
| y_map kv : yields model_items (VMap kv) (map fst kv)
| y_model m : yields model_items (VModel m) (model_items m)
| y_class l : yields model_items (VEnumClass l) (map (fun p => VEnum (fst p) (snd p)) l)
| y_none : yields model_items VNone [VNone]
| y_undef : yields model_items VUndef [VUndef]
| y_atom a : yields model_items (VAtom a) [VAtom a]
| y_enum m v : yields model_items (VEnum m v) [VEnum m v].

(** The first k calls of f on items return exactly out. *)
Definition returned (f : func) (items : list val) (k : nat) (out : list val) : Prop :=
  length out = k /\
  forall i, i < k -> exists x r, nth_error items i = Some x /\ nth_error out i = Some r /\
    f (firstn i items) x = Value r.

Definition without_input (o : opts) : opts :=
  {| i_flatten := false; i_dropna := false; i_unique := false; i_values := false; i_tuples := false;
     o_flatten := o_flatten o; o_dropna := o_dropna o; o_unique := o_unique o; o_tuples := o_tuples o |}.
Definition without_output (o : opts) : opts :=
  {| i_flatten := i_flatten o; i_dropna := i_dropna o; i_unique := i_unique o; i_values := i_values o;
     i_tuples := i_tuples o;
     o_flatten := false; o_dropna := false; o_unique := false; o_tuples := false |}.
Definition plain_input (o : opts) : Prop := i_flatten o = false /\ i_dropna o = false.
Definition plain_output (o : opts) : Prop :=
  o_flatten o = false /\ o_dropna o = false /\ o_unique o = false.
(** output_unique is combined with another output option. *)
Definition output_ok (o : opts) : Prop :=
  o_unique o = true -> o_flatten o = true \/ o_dropna o = true.

(** * Proofs *)
Section Proofs.
  Variable hash : val -> option Z.
  Variable eqv : val -> val -> bool.
  Variable hdict : val -> Z.
  Variable model_items : Z -> list val.
  Notation lcall := (lcall hash eqv hdict model_items).
  Notation to_list := (to_list hash eqv hdict).
  Notation lcall_input := (lcall_input hash eqv hdict model_items).
  Notation alcall_input := (alcall_input hash eqv hdict model_items).

  Lemma pick_usable g f : usable g f -> pick g = Ret f.
  Proof. intros [-> | ->]; reflexivity. Qed.
  Lemma pick_Ret g f : pick g = Ret f -> usable g f.
  Proof.
    destruct g as [f'|[|[f'|] [|]]|]; cbn; try discriminate; intros [= ->]; [left|right]; reflexivity.
  Qed.

  Lemma loop_spec f items : forall rest called out,
    items = called ++ rest -> returned f items (length called) out ->
    exists k out', returned f items k out' /\
      match loop f rest called out with
      | (c, Ret (true, o)) => k = length items /\ c = items /\ o = out'
      | (c, Ret (false, o)) => o = out' /\ c = firstn (S k) items /\
          exists x, nth_error items k = Some x /\ f (firstn k items) x = Interrupted
      | (c, Raise e) => c = firstn (S k) items /\
          exists x, nth_error items k = Some x /\ f (firstn k items) x = Error e
      end.
  Proof.
    induction rest as [|x rest IH]; intros called out E R; cbn [loop].
    { rewrite app_nil_r in E. subst called. exists (length items), out. auto. }
    assert (Hx : nth_error items (length called) = Some x).
    { rewrite E, nth_error_app2, Nat.sub_diag by lia. reflexivity. }
    assert (Hf : firstn (length called) items = called).
    { rewrite E, firstn_app, Nat.sub_diag, firstn_all, firstn_O, app_nil_r. reflexivity. }
    assert (HS : firstn (S (length called)) items = called ++ [x]).
    { rewrite E. replace (called ++ x :: rest) with ((called ++ [x]) ++ rest)
        by (rewrite <- app_assoc; reflexivity).
      replace (S (length called)) with (length (called ++ [x])) by (rewrite app_length; cbn; lia).
      rewrite firstn_app, Nat.sub_diag, firstn_all, firstn_O, app_nil_r. reflexivity. }
    destruct (f called x) as [r| |e] eqn:Ef.
    - apply IH; [rewrite <- app_assoc; exact E|]. destruct R as [RL R].
      split; [rewrite !app_length, RL; reflexivity|]. rewrite app_length. cbn [length].
      intros i Hi. destruct (Nat.eq_dec i (length called)) as [->|Hne].
      + exists x, r. rewrite Hf, nth_error_app2, RL, Nat.sub_diag by lia. auto.
      + destruct (R i ltac:(lia)) as (y & s & H1 & H2 & H3). exists y, s.
        rewrite nth_error_app1 by lia. auto.
    - exists (length called), out. rewrite HS, Hf. split; [exact R|]. split; [reflexivity|].
      split; [reflexivity|]. exists x. auto.
    - exists (length called), out. rewrite HS, Hf. split; [exact R|]. split; [reflexivity|].
      exists x. auto.
  Qed.

  Lemma yields_input v items : yields model_items v items ->
    match py_list model_items v with Some l => l | None => [v] end = items.
  Proof. destruct 1; reflexivity. Qed.

  Lemma plain_lcall_input o v items : plain_input o -> yields model_items v items ->
    lcall_input o v = Ret items.
  Proof.
    intros [H1 H2] Y. unfold ModelLcall.lcall_input. rewrite H1, H2. cbn.
    apply yields_input in Y. destruct (py_list model_items v); congruence.
  Qed.
  Lemma py_list_seq k l : py_list model_items (VSeq k l) = Some l.
  Proof. reflexivity. Qed.

  Lemma output_check o : output_ok o <-> o_unique o && negb (o_flatten o || o_dropna o) = false.
  Proof.
    unfold output_ok. destruct (o_unique o), (o_flatten o), (o_dropna o); cbn; split; intro H;
      try reflexivity; try (intros; tauto); try discriminate.
    destruct (H eq_refl); discriminate.
  Qed.
End Proofs.

(** * Theorems *)

(** Without options, the function is called with the items in order, each once, until
    a call fails; the results come in the same order.  An InterruptedError ends the
    loop and gives the results so far; any other error is passed on. *)
Theorem C83_order : forall hash eqv hdict model_items v g f o items,
  usable g f -> plain_input o -> plain_output o -> yields model_items v items ->
  exists k out, k <= length items /\ returned f items k out /\
    let (called, r) := lcall hash eqv hdict model_items v g o in
    (k = length items /\ called = items /\ r = Ret out) \/
    (exists x, nth_error items k = Some x /\ called = firstn k items ++ [x] /\
       ((f (firstn k items) x = Interrupted /\ r = Ret out) \/
        (exists e, f (firstn k items) x = Error e /\ r = Raise e))).
Proof.
  intros hash eqv hdict mi v g f o items U PI (P1 & P2 & P3) Y.
  destruct (loop_spec f items items [] []) as (k & out & R & L); [reflexivity| |].
  { split; [reflexivity|]. cbn. lia. }
  exists k, out. unfold lcall. rewrite (pick_usable g f U), P1, P2, P3. cbn [andb orb].
  rewrite (plain_lcall_input hash eqv hdict mi o v items PI Y).
  assert (HS : forall x, nth_error items k = Some x -> firstn (S k) items = firstn k items ++ [x]).
  { clear. revert items. induction k as [|k IH]; intros [|y items] x; cbn; try discriminate.
    - intros [= ->]. reflexivity.
    - intro H. rewrite <- (IH items x H). reflexivity. }
  destruct (loop f items [] []) as [c [[[] o']|e]].
  - destruct L as (-> & -> & ->). split; [lia|]. split; [exact R|]. left. auto.
  - destruct L as (-> & -> & x & Hx & Hf). split; [apply Nat.lt_le_incl, nth_error_Some; congruence|].
    split; [exact R|]. right. exists x. rewrite (HS x Hx). auto.
  - destruct L as (-> & x & Hx & Hf). split; [apply Nat.lt_le_incl, nth_error_Some; congruence|].
    split; [exact R|]. right. exists x. rewrite (HS x Hx). split; [exact Hx|]. split; [reflexivity|].
    right. exists e. auto.
Qed.
Print Assumptions C83_order.

(** Input options: with flatten or dropna the items are those of to_list, and nothing
    is called if that fails. *)
Theorem C83_input : forall hash eqv hdict model_items v g f o,
  usable g f -> output_ok o -> ~ plain_input o ->
  lcall hash eqv hdict model_items v g o =
  match to_list hash eqv hdict v (i_flatten o) (i_dropna o) (i_unique o) (i_values o) (i_tuples o) with
  | Ret l => lcall hash eqv hdict model_items (VSeq KList l) g (without_input o)
  | Raise e => ([], Raise e)
  end.
Proof.
  intros hash eqv hdict mi v g f o U Hok Hp. unfold lcall. rewrite (pick_usable g f U).
  cbn [o_unique o_flatten o_dropna o_tuples without_input].
  destruct (o_unique o && negb (o_flatten o || o_dropna o)) eqn:E;
    [rewrite (proj1 (output_check o) Hok) in E; discriminate|].
  unfold lcall_input at 1. destruct (i_flatten o || i_dropna o) eqn:Ei.
  2:{ exfalso. apply Hp. apply orb_false_iff in Ei. exact Ei. }
  destruct (to_list _ _ _ _ _ _ _ _ _); reflexivity.
Qed.
Print Assumptions C83_input.

(** Output options: the results are what to_list makes of the plain results, unless
    the loop was interrupted; the calls are the same. *)
Theorem C83_output : forall hash eqv hdict model_items v g f o,
  usable g f -> output_ok o ->
  let plain := lcall hash eqv hdict model_items v g (without_output o) in
  let full := lcall hash eqv hdict model_items v g o in
  fst full = fst plain /\
  match snd plain with
  | Raise e => snd full = Raise e
  | Ret out =>
      (exists c x, fst plain = c ++ [x] /\ f c x = Interrupted /\ snd full = Ret out) \/
      (length out = length (fst plain) /\
       snd full = if o_flatten o || o_dropna o
                  then to_list hash eqv hdict (VSeq KList out) (o_flatten o) (o_dropna o) (o_unique o)
                         false (o_tuples o)
                  else Ret out)
  end.
Proof.
  intros hash eqv hdict mi v g f o U Hok plain full. subst plain full.
  unfold lcall. rewrite (pick_usable g f U), (proj1 (output_check o) Hok).
  cbn [o_unique o_flatten o_dropna o_tuples without_output andb negb orb].
  change (lcall_input hash eqv hdict mi (without_output o) v) with (lcall_input hash eqv hdict mi o v).
  destruct (lcall_input hash eqv hdict mi o v) as [items|e]; cbn [fst snd]; [|auto].
  destruct (loop_spec f items items [] []) as (k & out & R & L); [reflexivity| |].
  { split; [reflexivity|]. cbn. lia. }
  destruct (loop f items [] []) as [c [[[] o']|e]]; cbn [fst snd].
  - destruct L as (-> & -> & ->). split; [reflexivity|]. right. split; [exact (proj1 R)|reflexivity].
  - destruct L as (-> & -> & x & Hx & Hf). split; [reflexivity|]. left. exists (firstn k items), x.
    split; [|auto]. clear - Hx. revert items Hx.
    induction k as [|k IH]; intros [|y items]; cbn; try discriminate.
    + intros [= ->]. reflexivity.
    + intro H. cbn in IH. rewrite <- (IH items H). reflexivity.
  - auto.
Qed.
Print Assumptions C83_output.

(** ValueError before anything is called: no single function, or output_unique alone. *)
Theorem C83_value_error : forall hash eqv hdict model_items v g o,
  (forall f, ~ usable g f) \/ ~ output_ok o ->
  lcall hash eqv hdict model_items v g o = ([], Raise ValueError).
Proof.
  intros hash eqv hdict mi v g o H. unfold lcall.
  assert (P : match pick g with Ret f => usable g f | Raise e => e = ValueError end).
  { destruct (pick g) as [f|e] eqn:E; [apply pick_Ret; exact E|].
    destruct g as [f'|[|[f'|] [|]]|]; cbn in E; congruence. }
  destruct (pick g) as [f|e]; [|subst e; reflexivity].
  destruct H as [H|H]; [destruct (H f P)|].
  destruct (o_unique o && negb (o_flatten o || o_dropna o)) eqn:E; [reflexivity|].
  destruct H. apply output_check. exact E.
Qed.
Print Assumptions C83_value_error.

(** The items of alcall are those of lcall, except that it has no use_values and takes
    a model as one item. *)
Theorem C83_alcall_items : forall hash eqv hdict model_items v o,
  (i_values o = false \/ plain_input o) -> (forall m, v <> VModel m) \/ ~ plain_input o ->
  alcall_input hash eqv hdict model_items o v = lcall_input hash eqv hdict model_items o v.
Proof.
  intros hash eqv hdict mi v o Hv Hm. unfold alcall_input, lcall_input, plain_input in *.
  destruct (i_flatten o || i_dropna o) eqn:E.
  - destruct Hv as [-> | [H1 H2]]; [reflexivity|]. rewrite H1, H2 in E. discriminate.
  - apply orb_false_iff in E. destruct v; try reflexivity. destruct Hm as [Hm|Hm]; [|tauto].
    destruct (Hm m eq_refl).
Qed.
Print Assumptions C83_alcall_items.

(** * Examples *)
Definition no_opts : opts :=
  {| i_flatten := false; i_dropna := false; i_unique := false; i_values := false; i_tuples := false;
     o_flatten := false; o_dropna := false; o_unique := false; o_tuples := false |}.
Definition run_lcall := lcall py_hash py_eq (fun _ => 5%Z) (fun m => [VSeq KTuple [VText [m]; VAtom m]]).
(** A function that doubles, gives None for 0, is interrupted by 7, fails on others. *)
Definition dbl : func := fun _ x =>
  match x with
  | VAtom 0%Z => Value VNone
  | VAtom 7%Z => Interrupted
  | VAtom a => Value (VSeq KList [VAtom a; VAtom a])
  | VText s => Value (VText (s ++ s))
  | _ => Error TypeError
  end.

(** input_unique alone removes nothing. *)
Theorem C83_unique_alone_refuted :
  snd (run_lcall (VSeq KList [VText [1]; VText [1]]%Z) (FOne dbl)
    {| i_flatten := false; i_dropna := false; i_unique := true; i_values := false; i_tuples := false;
       o_flatten := false; o_dropna := false; o_unique := false; o_tuples := false |})
  = Ret [VText [1; 1]; VText [1; 1]]%Z.
Proof. reflexivity. Qed.
Print Assumptions C83_unique_alone_refuted.
(** After an interrupt, output_dropna leaves None in the results. *)
Theorem C83_output_always_processed_refuted :
  snd (run_lcall (VSeq KList [VAtom 0; VAtom 7; VAtom 1]%Z) (FOne dbl)
    {| i_flatten := false; i_dropna := false; i_unique := false; i_values := false; i_tuples := false;
       o_flatten := false; o_dropna := true; o_unique := false; o_tuples := false |}) = Ret [VNone].
Proof. reflexivity. Qed.
Print Assumptions C83_output_always_processed_refuted.
(** A text is not one item: the function sees its characters. *)
Theorem C83_text_is_one_item_refuted :
  run_lcall (VText [1; 2]%Z) (FOne dbl) no_opts =
  ([VText [1]; VText [2]], Ret [VText [1; 1]; VText [2; 2]])%Z.
Proof. reflexivity. Qed.
Print Assumptions C83_text_is_one_item_refuted.
(** alcall takes a model as one item, lcall its fields. *)
Theorem C83_alcall_agrees_refuted :
  alcall_input py_hash py_eq (fun _ => 5%Z) (fun m => [VSeq KTuple [VText [m]; VAtom m]]) no_opts (VModel 3)
    = Ret [VModel 3] /\
  lcall_input py_hash py_eq (fun _ => 5%Z) (fun m => [VSeq KTuple [VText [m]; VAtom m]]) no_opts (VModel 3)
    = Ret [VSeq KTuple [VText [3%Z]; VAtom 3]].
Proof. split; reflexivity. Qed.
Print Assumptions C83_alcall_agrees_refuted.

Example C83_example :
  run_lcall (VSeq KTuple [VAtom 1; VAtom 2; VNone; VAtom 3]%Z) (FMany [Some dbl]) no_opts =
    ([VAtom 1; VAtom 2; VNone]%Z, Raise TypeError) /\
  run_lcall (VSeq KList [VAtom 1; VSeq KList [VAtom 2; VNone]; VAtom 1]%Z) (FOne dbl)
    {| i_flatten := true; i_dropna := true; i_unique := true; i_values := false; i_tuples := false;
       o_flatten := true; o_dropna := false; o_unique := false; o_tuples := false |} =
    ([VAtom 1; VAtom 2]%Z, Ret [VAtom 1; VAtom 1; VAtom 2; VAtom 2]%Z) /\
  run_lcall (VAtom 5) (FMany [Some dbl; None]) no_opts = ([], Raise ValueError) /\
  run_lcall VNone (FOne dbl) no_opts = ([VNone], Raise TypeError).
Proof. repeat split; reflexivity. Qed.
