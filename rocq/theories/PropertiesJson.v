(** Properties C50 (fix_json_string) and C78 (fuzzy_json). *)
From Coq Require Import List Bool Arith Lia.
From Verif Require Import PyBase ModelJson SpecJson ProofsJson.
Import ListNotations.
Local Open Scope list_scope.

(** ** C50 *)
Theorem C50_result : forall s out, fix_json_string s = Ret out ->
  exists t, out = s ++ t /\ Forall is_closer t /\ balanced (outer Out s ++ t) /\
    (forall t', Forall is_closer t' -> balanced (outer Out s ++ t') -> t' = t) /\
    (final s = Out -> balanced (outer Out out) /\ fix_json_string out = Ret out) /\
    (balanced (outer Out s) -> out = s).
Proof.
  intros s out H. assert (N : s <> []) by (intros ->; discriminate). rewrite fix_spec in H by auto.
  destruct (run (outer Out s) []) as [o|] eqn:R; [|discriminate]. injection H as <-.
  assert (F : Forall is_closer o) by (eapply run_stack; [|exact R]; constructor).
  assert (B : balanced (outer Out s ++ o)) by (apply run_balanced; rewrite run_app, R; now apply run_closers).
  exists o. split; auto. split; auto. split; auto. split.
  { intros t' F' B'. apply run_balanced in B'. rewrite run_app, R in B'. apply (run_closers t' F' o) in B'. exact B'. }
  split.
  - intros E. assert (O : outer Out (s ++ o) = outer Out s ++ o) by (rewrite outer_app; fold (final s); rewrite E, (outer_closers o F); auto).
    rewrite O. split; auto. rewrite fix_spec by (destruct s; [congruence|discriminate]). rewrite O.
    apply run_balanced in B. rewrite B. now rewrite app_nil_r.
  - intros B'. apply run_balanced in B'. rewrite R in B'. injection B' as ->. apply app_nil_r.
Qed.
Print Assumptions C50_result.

(** It raises exactly on the empty text and on texts no continuation can repair. *)
Theorem C50_raises : forall s,
  (exists e, fix_json_string s = Raise e) <-> s = [] \/ forall t, ~ balanced (outer Out s ++ t).
Proof.
  intros s. split.
  - intros (e & H). destruct s as [|c s]; auto. right. apply run_none. rewrite fix_spec in H by discriminate.
    destruct (run _ _); [discriminate|auto].
  - intros [->|H]; [eexists; reflexivity|]. destruct s as [|c s]; [eexists; reflexivity|]. exists ValueError. rewrite fix_spec by discriminate.
    apply run_none in H. now rewrite H.
Qed.
Print Assumptions C50_raises.
Theorem C50_errors : forall s e, fix_json_string s = Raise e -> e = ValueError.
Proof.
  intros s e H. destruct s as [|c s]; [injection H as <-; auto|]. rewrite fix_spec in H by discriminate.
  destruct (run _ _); [discriminate|]. now injection H.
Qed.
Print Assumptions C50_errors.

(** A text cut inside a string literal (open brace, quote, a), or ending with a backslash: the
    closers land inside the literal or are escaped, and the result is not balanced. *)
Theorem C50_balanced_refuted : exists s out,
  fix_json_string s = Ret out /\ ~ balanced (outer Out out).
Proof.
  exists [123; 34; 97], [123; 34; 97; 125]. split; [reflexivity|]. intros B. apply run_balanced in B. discriminate.
Qed.
Print Assumptions C50_balanced_refuted.
Theorem C50_trailing_backslash_refuted : exists s out,
  fix_json_string s = Ret out /\ ~ balanced (outer Out out).
Proof.
  exists [91; 92], [91; 92; 93]. split; [reflexivity|]. intros B. apply run_balanced in B. discriminate.
Qed.
Print Assumptions C50_trailing_backslash_refuted.
(** A brace, the key a, a square bracket, 1 and a literal holding a bracket: completed
    with the two closers.  A mismatched and an extra closer raise. *)
Example C50_example :
  fix_json_string [123; 34; 97; 34; 58; 91; 49; 44; 34; 93; 34] = Ret [123; 34; 97; 34; 58; 91; 49; 44; 34; 93; 34; 93; 125] /\
  fix_json_string [123; 93] = Raise ValueError /\ fix_json_string [125] = Raise ValueError /\
  fix_json_string [123; 125] = Ret [123; 125].
Proof. repeat split. Qed.

(** ** C78: fuzzy_json *)
Definition acceptable {J} (is_dict : J -> bool) (elements : J -> option (list J)) (j : J) : Prop :=
  is_dict j = true \/ exists l, elements j = Some l /\ forall x, In x l -> is_dict x = true.

Lemma validate_spec J (is_dict : J -> bool) elements j :
  (acceptable is_dict elements j /\ validate is_dict elements j = Ret j) \/
  (~ acceptable is_dict elements j /\ validate is_dict elements j = Raise TypeError).
Proof.
  unfold acceptable, validate. destruct (is_dict j); [left; auto|]. destruct (elements j) as [l|].
  - destruct (forallb is_dict l) eqn:F.
    + left. split; auto. right. exists l. split; auto. now apply forallb_forall.
    + right. split; auto. intros [|(l' & [= <-] & H)]; [discriminate|]. apply forallb_forall in H. congruence.
  - right. split; auto. intros [|(l' & X & H)]; discriminate.
Qed.

(** Valid JSON is never altered: its value is returned, or refused by its type. *)
Theorem C78_valid_json : forall J loads (is_dict : J -> bool) elements blank clean s j,
  blank s = false -> loads s = Some j ->
  (acceptable is_dict elements j -> fuzzy_json loads is_dict elements blank clean s = Ret j) /\
  (~ acceptable is_dict elements j -> fuzzy_json loads is_dict elements blank clean s = Raise TypeError).
Proof.
  intros. unfold fuzzy_json. rewrite H, H0. destruct (validate_spec J is_dict elements j) as [(A & B)|(A & B)]; split; tauto.
Qed.
Print Assumptions C78_valid_json.
(** Whatever is returned is a dict or a list of dicts parsed from the text, its
    cleaned form, or the cleaned form plus closing brackets, the earliest that parses. *)
Theorem C78_result : forall J loads (is_dict : J -> bool) elements blank clean s,
  match fuzzy_json loads is_dict elements blank clean s with
  | Ret j => blank s = false /\ acceptable is_dict elements j /\
      (loads s = Some j \/
       (loads s = None /\ loads (clean s) = Some j) \/
       (loads s = None /\ loads (clean s) = None /\ exists t, Forall is_closer t /\ balanced (outer Out (clean s) ++ t) /\
          loads (clean s ++ t) = Some j))
  | Raise e =>
      (e = TypeError /\ exists x j, loads x = Some j /\ ~ acceptable is_dict elements j) \/
      (e = ValueError /\ (blank s = true \/ (loads s = None /\ loads (clean s) = None /\
         forall t, Forall is_closer t -> balanced (outer Out (clean s) ++ t) -> clean s <> [] -> loads (clean s ++ t) = None)))
  end.
Proof.
  intros J loads is_dict elements blank clean s. unfold fuzzy_json. destruct (blank s); [right; auto|].
  destruct (loads s) as [j|] eqn:L1.
  { destruct (validate_spec J is_dict elements j) as [(A & ->)|(A & ->)]; [split; auto|left; eauto]. }
  destruct (loads (clean s)) as [j|] eqn:L2.
  { destruct (validate_spec J is_dict elements j) as [(A & ->)|(A & ->)]; [split; auto|left; eauto]. }
  destruct (fix_json_string (clean s)) as [f|e] eqn:F; cbn [bind].
  - destruct (C50_result _ _ F) as (t & -> & FC & B & U & _).
    destruct (loads (clean s ++ t)) as [j|] eqn:L3.
    + destruct (validate_spec J is_dict elements j) as [(A & ->)|(A & ->)]; [|left; eauto].
      split; auto. split; auto. right. right. split; auto. split; auto. exists t. auto.
    + right. split; auto. right. split; auto. split; auto. intros t' FC' B' _. now rewrite (U t' FC' B').
  - right. split; [eapply C50_errors; eauto|]. right. split; auto. split; auto. intros t' FC' B' N.
    assert (X : exists e, fix_json_string (clean s) = Raise e) by eauto. apply C50_raises in X.
    destruct X as [X|X]; [congruence|]. exfalso. eapply X; eauto.
Qed.
Print Assumptions C78_result.
(** Texts: [1] valid object 10, [2] valid number 20; others are cleaned to [91]. *)
Example C78_example :
  let loads s := match s with [1] => Some 10 | [2] => Some 20 | [91; 93] => Some 30 | _ => None end in
  let is_dict j := j =? 10 in
  let elements j := if j =? 30 then Some [] else None in
  let run := fuzzy_json loads is_dict elements (fun s => match s with [] => true | _ => false end) (fun _ => [91]) in
  run [1] = Ret 10 /\ run [2] = Raise TypeError /\ run [9] = Ret 30 /\ run [] = Raise ValueError.
Proof. repeat split. Qed.
