(** C62, C79: the persistence guard; reading outputs. *)
From Coq Require Import String.
From Coq Require Import List Bool Arith Lia.
From Verif Require Import PyBase PyFacts ModelGuard SpecGuard ProofsGuard.
Import ListNotations.
Local Open Scope string_scope.
Local Open Scope nat_scope.
Local Open Scope list_scope.
#[local] Arguments eqb : simpl never.

Section Guard.
Variable num : nat -> string.
(** The guard returns the model itself, exactly if no action call waits in it. *)
Theorem C62_guard cls fs ex m' :
  ensure_no_action_calls num (VModel cls fs ex) = Passed m' <-> m' = VModel cls fs ex /\ forall p, ~ waits (VModel cls fs ex) p.
Proof.
  pose proof (check_iff (VModel cls fs ex)) as C. cbn [check_value] in C. unfold ensure_no_action_calls.
  destruct (existsb _ fs).
  - split; [discriminate|]. intros [_ N]. destruct (proj1 C eq_refl) as (p & H). destruct (N p H).
  - split.
    + intros H. injection H as <-. split; [reflexivity|]. intros p H. assert (false = true) by (apply C; eauto). discriminate.
    + intros [-> _]. reflexivity.
Qed.
(** Otherwise the error shows the places of the first three waiting calls and counts the others. *)
Theorem C62_message cls fs ex :
  wf (VModel cls fs ex) -> (exists p, waits (VModel cls fs ex) p) ->
  exists ps, NoDup ps /\ (forall p, In p ps <-> waits (VModel cls fs ex) p) /\
    ensure_no_action_calls num (VModel cls fs ex) = RefusedWith (map (show num) (firstn 3 ps)) (length ps - 3).
Proof.
  intros W H. apply check_iff in H. cbn [check_value] in H. exists (spots (VModel cls fs ex)).
  split; [apply spots_NoDup; exact W|]. split; [intros p; apply spots_iff|]. unfold ensure_no_action_calls. rewrite H.
  inversion W; subst. rewrite find_root by assumption. rewrite firstn_map, map_length. reflexivity.
Qed.
(** Not a model (an action call itself, a scalar): AttributeError. *)
Theorem C62_not_model m : (forall cls fs ex, m <> VModel cls fs ex) -> ensure_no_action_calls num m = NoFields.
Proof. intros N. destruct m as [| cls fs ex| | |]; try reflexivity. exfalso. exact (N _ _ _ eq_refl). Qed.

Section Again.
Variable validate : string -> dict string val -> outcome val.
(** Re-validation gives the validator the dumped fields, waiting top-level calls replaced by their results. *)
Theorem C62_revalidate cls fs ex results :
  NoDup (map fst fs) ->
  ((exists f n a b c, In (f, VAct n a b c) fs /\ ~ In n (dkeys results)) ->
     revalidate validate (VModel cls fs ex) results = Raise ValueError) /\
  ((forall f n a b c, In (f, VAct n a b c) fs -> In n (dkeys results)) ->
     exists kw, revalidate validate (VModel cls fs ex) results = validate cls (kw ++ map (fun e => (fst e, dump (snd e))) ex) /\
       Forall2 (fun e e' => fst e' = fst e /\ match snd e with
                            | VAct n _ _ _ => dget n results = Some (snd e')
                            | v => snd e' = dump v
                            end) fs kw).
Proof.
  intros N. split.
  - intros (f & n & a & b & c & I & NI). cbn. rewrite (replace_bad results fs _ f n a b c I NI). reflexivity.
  - intros H. exists (map (final results) fs). split.
    + cbn [revalidate]. rewrite map_app. pose proof (replace_ok results fs [] (map (fun e => (fst e, dump (snd e))) ex)) as R. cbn [app] in R.
      rewrite R; [reflexivity|exact N|exact H].
    + clear N. induction fs as [|[f v] fs IH]; cbn; constructor; [|apply IH; intros; eapply H; right; eassumption].
      unfold final. cbn. split; [reflexivity|]. destruct v as [n a b c|cls' fs' ex'|k l|l|s]; try reflexivity.
      pose proof (H f n a b c (or_introl eq_refl)) as I. apply key_dget in I as (r & G). rewrite G. reflexivity.
Qed.
(** If validation keeps the values and no result holds a waiting call, the guard passes afterwards. *)
Theorem C62_afterwards cls fs ex results m :
  NoDup (map fst fs) ->
  (forall c kw w, validate c kw = Ret w -> w = VModel c kw []) ->
  (forall n r, In (n, r) results -> forall p, ~ waits r p) ->
  revalidate validate (VModel cls fs ex) results = Ret m -> ensure_no_action_calls num m = Passed m.
Proof.
  intros N K R H. destruct (C62_revalidate cls fs ex results N) as [BAD OK].
  assert (forall f n a b c, In (f, VAct n a b c) fs -> In n (dkeys results)) as ALL.
  { intros f n a b c I. destruct (dmem n results) eqn:D; [apply dmem_true; exact D|]. apply dmem_false in D.
    rewrite BAD in H by eauto 10. discriminate. }
  destruct (OK ALL) as (kw & E & F). rewrite E in H. apply K in H as ->. apply C62_guard. split; [reflexivity|].
  intros p (w & A & B). inversion A as [|c' fs' ex' f v p' w' I A'| |]; subst; [destruct B as (? & ? & ? & ? & B); discriminate|].
  apply in_app_iff in I as [I|I].
  - clear - I F R A' B. induction F as [|e e' l l' [E1 E2] F IH]; [contradiction|]. destruct I as [->|I]; [|auto].
    cbn in E2. assert (forall u, v = dump u -> False) as C by (intros u ->; apply (dump_clean u p'); exists w; auto).
    destruct (snd e) as [n a b c|cls' fs' ex'|k l0|l0|s].
    + apply dget_In in E2. apply (R _ _ E2 p'). exists w. auto.
    + exact (C (VModel cls' fs' ex') E2).
    + exact (C (VSeq k l0) E2).
    + exact (C (VDict l0) E2).
    + exact (C (VLeaf s) E2).
  - apply in_map_iff in I as (e & E1 & _). injection E1 as <- <-. apply (dump_clean (snd e) p'). exists w. auto.
Qed.
End Again.
End Guard.

Definition dec (n : nat) : string := nth n ["0"; "1"; "2"; "3"] "?".
Definition call (n : string) : val := VAct n "search" "search(1)" [("q", VLeaf "1")].
Definition keep (c : string) (kw : dict string val) : outcome val := Ret (VModel c kw []).
(** Calls in extra fields and in other containers pass. *)
Theorem C62_extra_refuted :
  ensure_no_action_calls dec (VModel "M" [("a", VLeaf "1")] [("b", call "x")]) = Passed (VModel "M" [("a", VLeaf "1")] [("b", call "x")]) /\
  ensure_no_action_calls dec (VModel "M" [("a", VSeq KObject [call "x"])] []) = Passed (VModel "M" [("a", VSeq KObject [call "x"])] []).
Proof. split; reflexivity. Qed.
(** A nested call that was never executed turns into data and passes the guard. *)
Theorem C62_nested_refuted :
  exists m, revalidate keep (VModel "M" [("items", VSeq KList [call "x"])] []) [] = Ret m /\
    waits (VModel "M" [("items", VSeq KList [call "x"])] []) [SField "items"; SIdx 0] /\
    ensure_no_action_calls dec m = Passed m.
Proof.
  eexists. split; [reflexivity|]. split; [|reflexivity]. exists (call "x"). split; [|do 4 eexists; reflexivity].
  econstructor; [left; reflexivity|]. econstructor; [auto|reflexivity|constructor].
Qed.
Example C62_example :
  ensure_no_action_calls dec (VModel "M" [("t", VLeaf "1"); ("s", call "x"); ("n", VModel "N" [("a", VSeq KTuple [VLeaf "2"; call "y"])] []);
    ("d", VDict [("'k'", call "z"); ("'l'", call "z")])] []) = RefusedWith ["s"; "n.a[1]"; "d['k']"] 1 /\
  revalidate keep (VModel "M" [("t", VLeaf "1"); ("s", call "x")] []) [("x", VLeaf "r")] = Ret (VModel "M" [("t", VLeaf "1"); ("s", VLeaf "r")] []) /\
  revalidate keep (VModel "M" [("t", VLeaf "1"); ("s", call "x")] []) [("y", VLeaf "r")] = Raise ValueError.
Proof. repeat split; reflexivity. Qed.
(** A call that was not executed is handed to the validator as the dict of its attributes. *)
Example C62_dumped : dump (VAct "c" "f" "f(n=1)" [("n", VLeaf "1"); ("m", call "x")]) =
  VDict [("name", VLeaf "c"); ("function", VLeaf "f"); ("arguments", VDict [("n", VLeaf "1"); ("m", dump (call "x"))]); ("raw_call", VLeaf "f(n=1)")].
Proof. reflexivity. Qed.

(** * C79 *)
(** Attributes other than the five of the output itself are its fields. *)
Theorem C79_attributes o k :
  ~ In k ["fields"; "lvars"; "lacts"; "actions"; "raw_out_block"] ->
  getattr o k = getitem o k /\
  (forall v, getattr o k = Ret v <-> dget k (out_fields o) = Some v) /\
  (getattr o k = Raise KeyError <-> ~ In k (dkeys (out_fields o))).
Proof.
  intros N. assert (getattr o k = getitem o k) as E.
  { unfold getattr. destruct (existsb (eqb k) slot_names) eqn:X; [|reflexivity]. apply existsb_exists in X as (y & I & Q).
    destruct (eqb_spec k y) as [->|]; [|discriminate]. contradiction. }
  split; [exact E|]. rewrite E. unfold getitem. destruct (dget k (out_fields o)) as [v|] eqn:D.
  - split; [intros w; split; congruence|]. split; [discriminate|]. intros NI. apply dget_None in NI. congruence.
  - split; [intros w; split; discriminate|]. split; [|reflexivity]. intros _. apply dget_None. exact D.
Qed.
(** So hasattr, copy and pickle, which expect AttributeError for a missing attribute, fail with
    KeyError; a field named like a slot is only found by item access. *)
Theorem C79_missing_refuted :
  exists o, getattr o "__deepcopy__" = Raise KeyError /\
    getattr o "actions" = Ret (VDict []) /\ getitem o "actions" = Ret (VLeaf "x").
Proof. exists (Out [("actions", VDict [])] [("actions", VLeaf "x")]). repeat split; reflexivity. Qed.
Example C79_example :
  let o := Out [("actions", VDict [])] [("title", VLeaf "x")] in
  getattr o "title" = Ret (VLeaf "x") /\ getitem o "titel" = Raise KeyError.
Proof. split; reflexivity. Qed.

Print Assumptions C62_guard.
Print Assumptions C62_message.
Print Assumptions C62_not_model.
Print Assumptions C62_revalidate.
Print Assumptions C62_afterwards.
Print Assumptions C62_extra_refuted.
Print Assumptions C62_nested_refuted.
Print Assumptions C79_attributes.
Print Assumptions C79_missing_refuted.
