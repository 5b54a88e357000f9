(** C114: what an execution and an error report. *)
From Coq Require Import String.
From Coq Require Import List Bool Arith.
From Verif Require Import PyBase ModelReport.
Import ListNotations.
Local Open Scope string_scope.

Definition dumpable {V} (dumps : V -> tri string) (v : V) : Prop := exists s, dumps v = Fine s.

(** The report never raises an Exception, whatever the response. *)
Theorem C114_never_raises : forall V unset sentinel simple dumps convert null vtext (x : execution V),
  execution_dict V unset sentinel simple dumps convert null vtext x <> Exc
  /\ ((forall v, dumps v <> Base) -> (forall v, convert v <> Base) ->
      exists d, execution_dict V unset sentinel simple dumps convert null vtext x = Fine d).
Proof.
  intros. unfold execution_dict, response_field, get_json_serializable.
  split; [|intros H1 H2; pose proof (H1 (x_response V x)); pose proof (H2 (x_response V x))];
    destruct (sentinel (x_response V x)); try discriminate; eauto;
    destruct (unset (x_response V x)); try discriminate; eauto;
    destruct (simple (x_response V x)); try discriminate; eauto;
    destruct (dumps (x_response V x)); try discriminate; eauto; try contradiction;
    destruct (convert (x_response V x)) as [d| |]; try discriminate; eauto; try contradiction.
  - destruct (dumps d); discriminate.
  - pose proof (H1 d). destruct (dumps d); eauto; contradiction.
Qed.
Print Assumptions C114_never_raises.

(** What is reported as response: nothing if there is none; a value that can be written as JSON, or
    is of a simple type, as it is; otherwise its dictionary form if that can be written; else a
    placeholder. *)
Theorem C114_response : forall V unset sentinel simple dumps convert null vtext (v r : V),
  response_field V unset sentinel simple dumps convert null vtext v = Fine r ->
  (forall u, unset u = true -> sentinel u = true) ->
  (sentinel v = true -> r = null)
  /\ (sentinel v = false -> simple v = true \/ dumpable dumps v -> r = v)
  /\ (sentinel v = false -> simple v = false -> ~ dumpable dumps v ->
        (exists d, convert v = Fine d /\ dumpable dumps d /\ r = d)
        \/ (forall d, convert v = Fine d -> ~ dumpable dumps d) /\ r = vtext "<unserializable>").
Proof.
  intros V unset sentinel simple dumps convert null vtext v r H U. unfold response_field in H.
  destruct (sentinel v) eqn:S; [injection H as <-; repeat split; congruence|].
  assert (unset v = false) as Uv by (destruct (unset v) eqn:E; [apply U in E; congruence|reflexivity]).
  unfold get_json_serializable in H. rewrite Uv in H. repeat split; [discriminate| |].
  - intros _ [Hs|[s Hs]]; [rewrite Hs in H; congruence|]. destruct (simple v); [congruence|]. rewrite Hs in H. congruence.
  - intros _ Hs Hd. rewrite Hs in H. unfold dumpable in *. destruct (dumps v) as [s| |] eqn:D.
    + exfalso. apply Hd. now exists s.
    + destruct (convert v) as [d| |] eqn:C; try discriminate.
      * destruct (dumps d) as [s| |] eqn:D2; try discriminate.
        -- left. exists d. injection H as <-. repeat split. now exists s.
        -- right. injection H as <-. split; [|reflexivity]. intros d' [= <-] [s Hs']. congruence.
      * right. injection H as <-. split; [|reflexivity]. discriminate.
    + discriminate.
Qed.
Print Assumptions C114_response.

(** So what is reported can be written as JSON, unless the response was of a simple type and could not. *)
Theorem C114_dumpable : forall V unset sentinel simple dumps convert null vtext (v r : V),
  (forall s, dumpable dumps (vtext s)) -> dumpable dumps null -> (forall u, unset u = true -> sentinel u = true) ->
  response_field V unset sentinel simple dumps convert null vtext v = Fine r ->
  dumpable dumps r \/ simple v = true /\ r = v.
Proof.
  intros V unset sentinel simple dumps convert null vtext v r T N U H.
  destruct (C114_response V unset sentinel simple dumps convert null vtext v r H U) as (A & B & C).
  destruct (sentinel v) eqn:S; [rewrite A by reflexivity; now left|].
  destruct (simple v) eqn:Si; [right; split; [reflexivity|apply B; auto]|]. left.
  destruct (dumps v) as [s| |] eqn:D.
  - rewrite B; [now exists s|reflexivity|right; now exists s].
  - destruct C as [(d & _ & Hd & ->)|[_ ->]]; auto. intros [s X]. congruence.
  - unfold response_field, get_json_serializable in H. rewrite S in H.
    destruct (unset v) eqn:Uv; [apply U in Uv; congruence|]. rewrite Si, D in H. discriminate.
Qed.
Print Assumptions C114_dumpable.

(** Bytes are of a simple type and cannot be written: the report of an event that answered bytes
    cannot be dumped, although it was checked for. *)
Theorem C114_dumpable_refuted : exists (V : Type) unset sentinel simple dumps convert null vtext (v : V),
  (forall s, dumpable dumps (vtext s)) /\ dumpable dumps null /\ (forall u, unset u = true -> sentinel u = true) /\
  exists r, response_field V unset sentinel simple dumps convert null vtext v = Fine r /\ dumps r = Exc.
Proof.
  exists (option string), (fun _ => false), (fun _ => false), (fun _ => true),
    (fun v => match v with Some s => Fine s | None => Exc end), (fun _ => Exc), (Some "null"), Some, None.
  repeat split; [intros s; now exists s|now exists "null"|auto|]. exists None. split; reflexivity.
Qed.

(** *** Errors *)
Theorem C114_error : forall V mro (msg : option string) det retry,
  let e := new_error V mro msg det retry in
  (forall m, msg = Some m -> m <> "" -> message V e = m)
  /\ (msg = None \/ msg = Some "" -> message V e = message_of mro)
  /\ (forall b, retry = Some b -> retryable V e = b)
  /\ (retry = None -> retryable V e = retryable_of mro)
  /\ (forall d, det = Some d -> details V e = d) /\ (det = None -> details V e = []).
Proof.
  intros. unfold e, new_error. cbn. repeat split; intros; subst; auto.
  - destruct (String.eqb_spec m ""); [contradiction|reflexivity].
  - destruct H as [->| ->]; reflexivity.
Qed.
Print Assumptions C114_error.

(** The defaults are those of the most derived class that sets them. *)
Theorem C114_defaults : forall pre c post,
  ((forall b, In b pre -> own_message b = None) -> forall m, own_message c = Some m -> message_of (pre ++ c :: post) = m)
  /\ ((forall b, In b pre -> own_retryable b = None) -> forall r, own_retryable c = Some r -> retryable_of (pre ++ c :: post) = r).
Proof.
  intros pre c post. split; intros H x E; induction pre as [|b pre IH]; cbn in *; rewrite ?E; auto;
    rewrite (H b) by auto; apply IH; auto.
Qed.
Print Assumptions C114_defaults.

(** Of the built-in errors exactly those that may pass by themselves are retryable by default. *)
Theorem C114_builtin : forall c, In c builtin_errors ->
  (retryable_of [c; lionherd_error] = true <->
   In (e_name c) ["ExecutionError"; "ConnectionError"; "TimeoutError"; "QueueFullError"])
  /\ message_of [c; lionherd_error] <> message_of [lionherd_error].
Proof.
  intros c H. cbn in H. repeat (destruct H as [<-|H]); try contradiction; cbn; split; try discriminate;
    (split; [intros E; try discriminate E; auto 10|intros E; try reflexivity;
       repeat (destruct E as [E|E]; try discriminate E); contradiction]).
Qed.
Print Assumptions C114_builtin.

(** The dictionary of an error determines it, and names details exactly if there are some. *)
Theorem C114_error_dict : forall V (e f : error V),
  (error_dict V e = error_dict V f -> e = f)
  /\ (In "details" (map fst (error_dict V e)) <-> details V e <> [])
  /\ NoDup (map fst (error_dict V e))
  /\ forall k x, In (k, x) (error_dict V e) ->
       (k = "error" -> x = FText V (class_name V e)) /\ (k = "message" -> x = FText V (message V e))
       /\ (k = "retryable" -> x = FBool V (retryable V e)) /\ (k = "details" -> x = FDict V (details V e)).
Proof.
  intros V [c m d r] [c' m' d' r']. unfold error_dict. cbn. split; [|split; [|split]].
  - destruct d, d'; intros H; inversion H; reflexivity.
  - destruct d; cbn; split.
    + intros [H|[H|[H|[]]]]; discriminate.
    + congruence.
    + discriminate.
    + intros _. auto.
  - destruct d; cbn; repeat constructor; cbn; intuition discriminate.
  - intros k x. destruct d; cbn; intuition (subst; try congruence).
Qed.
Print Assumptions C114_error_dict.

(** The report of an execution has its five entries, whose values show what is known. *)
Theorem C114_report : forall V unset sentinel simple dumps convert null vtext (x : execution V) d,
  execution_dict V unset sentinel simple dumps convert null vtext x = Fine d ->
  map fst d = ["status"; "duration"; "response"; "error"; "retryable"]
  /\ (forall y, In ("status", y) d -> y = FText V (x_status V x))
  /\ (forall y, In ("duration", y) d -> (y = FNull V <-> x_duration V x = None) /\ forall n, y = FNum V n <-> x_duration V x = Some n)
  /\ (forall y, In ("error", y) d -> (y = FNull V <-> x_error V x = None) /\
        (forall e, x_error V x = Some (Lion V e) -> y = FErr V (error_dict V e))
        /\ forall c m, x_error V x = Some (Other V c m) -> y = FErr V [("error", FText V c); ("message", FText V m)])
  /\ (forall y, In ("retryable", y) d -> (y = FNull V <-> x_retryable V x = None) /\ forall b, y = FBool V b <-> x_retryable V x = Some b)
  /\ (forall y, In ("response", y) d -> exists r, y = FVal V r /\ response_field V unset sentinel simple dumps convert null vtext (x_response V x) = Fine r).
Proof.
  intros V unset sentinel simple dumps convert null vtext [st du re er rt] d. unfold execution_dict. cbn.
  destruct (response_field V unset sentinel simple dumps convert null vtext re) as [r| |] eqn:R; try discriminate.
  intros [= <-]. split; [reflexivity|].
  repeat split; intros; cbn in H; repeat (destruct H as [H|H]; [try discriminate H|]); try contradiction; injection H as <-;
    destruct du, rt; try (destruct er as [[]|]); cbn in *; try congruence; eauto;
    match goal with
    | H : Some (Lion _ _) = Some (Lion _ _) |- _ => injection H as ->
    | H : Some (Other _ _ _) = Some (Other _ _ _) |- _ => injection H as -> ->
    end; reflexivity.
Qed.
Print Assumptions C114_report.

(** A class without own settings is like LionherdError: retryable. *)
Theorem C114_base : forall pre, (forall b, In b pre -> own_message b = None /\ own_retryable b = None) ->
  message_of (pre ++ [lionherd_error]) = "Lionherd error" /\ retryable_of (pre ++ [lionherd_error]) = true.
Proof.
  intros pre H. split; apply C114_defaults; try reflexivity; intros b I; apply (H b I).
Qed.
Print Assumptions C114_base.

(** Examples *)
Example C114_ex_names : map (fun c => class_name nat (new_error nat [c; lionherd_error] None None None)) (builtin_errors ++ [lionherd_error])%list =
  ["ValidationError"; "ConfigurationError"; "ExecutionError"; "ConnectionError"; "TimeoutError"; "NotFoundError"; "ExistsError"; "QueueFullError"; "LionherdError"].
Proof. reflexivity. Qed.
Example C114_ex_queue_full : error_dict nat (new_error nat [nth 7 builtin_errors lionherd_error; lionherd_error] None None None)
  = [("error", FText nat "QueueFullError"); ("message", FText nat "Queue is full"); ("retryable", FBool nat true)].
Proof. reflexivity. Qed.
Example C114_ex_details : error_dict nat (new_error nat [EClass "Mine" None None; nth 5 builtin_errors lionherd_error; lionherd_error] (Some "") (Some [("k", 1)]) None)
  = [("error", FText nat "Mine"); ("message", FText nat "Item not found"); ("retryable", FBool nat false); ("details", FDict nat [("k", 1)])].
Proof. reflexivity. Qed.
(** Numbers as values: 0 Unset, 1 null, 2 simple, 3 not dumpable but convertible to 4, 5 hopeless *)
Definition ex_report (v : nat) := execution_dict nat (Nat.eqb 0) (Nat.eqb 0) (Nat.eqb 2)
  (fun v => if (v =? 3)%nat || (v =? 5)%nat then Exc else Fine "") (fun v => if (v =? 3)%nat then Fine 4 else Exc) 1 (fun _ => 6)
  (Execution nat "completed" (Some 10) v None (Some false)).
Example C114_ex_report : map (fun v => match ex_report v with Fine [_; _; (_, x); _; _] => Some x | _ => None end) [0; 2; 3; 5; 7]
  = [Some (FVal nat 1); Some (FVal nat 2); Some (FVal nat 4); Some (FVal nat 6); Some (FVal nat 7)].
Proof. reflexivity. Qed.
