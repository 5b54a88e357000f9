(** C121: attributes of elements and events under assignment. *)
From Coq Require Import String.
From Coq Require Import List ZArith QArith Bool Arith Lia.
From Verif Require Import PyBase PyFacts ModelToDict PropertiesToDict ModelEvent ModelAssign.
Import ListNotations.
Local Open Scope string_scope.
Local Open Scope nat_scope.
Local Open Scope list_scope.

(** A timeout that fail_after can work with. *)
Definition good (t : option Q) : Prop := match t with None => True | Some q => (0 < q)%Q end.
(** The float a value stands for. *)
Definition counts_as (R : reader) (v : value) (f : float) : Prop :=
  match v with
  | VInt z => f = Fin (inject_Z z)
  | VFloat g => f = g
  | VBool b => f = Fin (if b then 1 else 0)%Q
  | VVal (Num n) => f = Fin (inject_Z (Z.of_nat n))
  | VVal (Str s) => text_float R s = Some f
  | _ => False
  end.

Section A.
  Variable W : world.
  Variable R : reader.

  Lemma counts v f : counts_as R v f <-> read_float R v = Some f.
  Proof.
    destruct v as [z|g|b|[]|x]; cbn; split; intros H; try contradiction; try discriminate; try congruence.
  Qed.
  Lemma qle q : Qle_bool q 0 = false <-> (0 < q)%Q.
  Proof.
    split; intros H.
    - apply Qnot_le_lt. intros X. apply Qle_bool_iff in X. congruence.
    - destruct (Qle_bool q 0) eqn:Q; [|reflexivity]. apply Qle_bool_iff in Q. now apply Qle_not_lt in Q.
  Qed.
  Lemma timeout_good v t : read_timeout R v = Ret t -> good t.
  Proof.
    unfold read_timeout. intros H. destruct v as [z|g|b|[]|x];
      try (injection H as <-; exact Logic.I);
      (destruct (read_float R _) as [[q| | |]|]; try discriminate;
       destruct (Qle_bool q 0) eqn:Q; [discriminate|]; injection H as <-; now apply qle).
  Qed.

  (** What a refused assignment leaves, and what an accepted one touches. *)
  Theorem C121_refused e name v e' x : assign W R e name v = (e', Raise x) -> e' = e.
  Proof.
    unfold assign, store. destruct (private name); [discriminate|].
    repeat (match goal with |- context [if ?b then _ else _] => destruct b end;
            try match goal with |- context [match ?r with Ret _ => _ | Raise _ => _ end] => destruct r end);
      intros H; now inversion H.
  Qed.
  Theorem C121_frame e name v :
    let e' := fst (assign W R e name v) in
    e_id e' = e_id e /\ e_created e' = e_created e /\
    (name <> "metadata" -> e_meta e' = e_meta e) /\ (name <> "timeout" -> e_timeout e' = e_timeout e) /\
    (name <> "streaming" -> e_streaming e' = e_streaming e) /\ (name <> "status" -> e_status e' = e_status e).
  Proof.
    cbn zeta. unfold assign, store. destruct (private name); [cbn; auto 10|].
    destruct (eqb_spec name "metadata") as [->|]; [destruct (read_meta W R v); cbn; repeat split; congruence|].
    destruct (eqb_spec name "timeout") as [->|]; [destruct (read_timeout R v); cbn; repeat split; congruence|].
    destruct (eqb_spec name "streaming") as [->|]; [destruct (read_bool R v); cbn; repeat split; congruence|].
    destruct (eqb_spec name "status") as [->|]; [destruct (read_status v); cbn; repeat split; congruence|].
    destruct (eqb name "request" || eqb name "response"); cbn; repeat split; congruence.
  Qed.

  (** Over any history: identity stays, the timeout stays usable. *)
  Definition after (l : list (string * value)) (e : event) : event :=
    fold_left (fun e a => fst (assign W R e (fst a) (snd a))) l e.
  Theorem C121_history l e : good (e_timeout e) ->
    e_id (after l e) = e_id e /\ e_created (after l e) = e_created e /\ good (e_timeout (after l e)).
  Proof.
    revert e. induction l as [|[n v] l IH]; intros e G; [cbn; auto|]. cbn [after fold_left fst snd].
    fold (after l (fst (assign W R e n v))).
    destruct (C121_frame e n v) as (I1 & I2 & _ & T & _ & _).
    assert (G' : good (e_timeout (fst (assign W R e n v)))).
    { destruct (eqb_spec n "timeout") as [->|N]; [|rewrite T by exact N; exact G].
      unfold assign. cbn. destruct (read_timeout R v) as [t|] eqn:Q; cbn; [now apply (timeout_good v)|exact G]. }
    destruct (IH _ G') as (A & B & C). rewrite A, B. auto.
  Qed.
  Theorem C121_created i t m o b e : create W R i t m o b = Ret e -> good (e_timeout e) /\ e_status e = PENDING.
  Proof.
    unfold create. intros H. destruct (match m with Some v => _ | None => _ end) as [mm|]; [|discriminate]. cbn in H.
    destruct (match o with Some v => _ | None => _ end) as [oo|] eqn:O; [|discriminate]. cbn in H.
    destruct (match b with Some v => _ | None => _ end) as [bb|]; [|discriminate]. injection H as <-. cbn.
    split; [|reflexivity]. destruct o as [v|]; [now apply (timeout_good v)|injection O as <-; exact Logic.I].
  Qed.

  (** What is left out is empty, None, False. *)
  Theorem C121_left_out i t m o b e : create W R i t m o b = Ret e ->
    (m = None -> e_meta e = []) /\ (o = None -> e_timeout e = None) /\ (b = None -> e_streaming e = false).
  Proof.
    unfold create. intros H. destruct (match m with Some v => _ | None => _ end) as [mm|] eqn:M; [|discriminate]. cbn in H.
    destruct (match o with Some v => _ | None => _ end) as [oo|] eqn:O; [|discriminate]. cbn in H.
    destruct (match b with Some v => _ | None => _ end) as [bb|] eqn:B; [|discriminate]. cbn in H. injection H as <-. cbn.
    repeat split; intros ->; [injection M as <-|injection O as <-|injection B as <-]; reflexivity.
  Qed.
  (** Creating an event is assigning to a bare one. *)
  Theorem C121_created_as i t m o b e : create W R i t (Some m) (Some o) (Some b) = Ret e <->
    exists e1 e2, assign W R (Event i t [] None false PENDING) "metadata" m = (e1, Ret tt) /\
      assign W R e1 "timeout" o = (e2, Ret tt) /\ assign W R e2 "streaming" b = (e, Ret tt).
  Proof.
    unfold create, assign. cbn - [read_meta]. split.
    - destruct (read_meta W R m) as [mm|]; [|discriminate]. cbn. destruct (read_timeout R o) as [q|]; [|discriminate].
      cbn. destruct (read_bool R b); [|discriminate]. cbn. intros H. injection H as <-. eauto.
    - intros (e1 & e2 & A & B & C). destruct (read_meta W R m); [|discriminate]. injection A as <-. cbn in *.
      destruct (read_timeout R o); [|discriminate]. injection B as <-. cbn in *.
      destruct (read_bool R b); [|discriminate]. cbn in *. congruence.
  Qed.
  (** Each status has exactly one name, and what is no name of a status is a ValueError. *)
  Theorem C121_status x : (exists s, named s = Ret x /\ forall s', named s' = Ret x -> s' = s) /\
    forall s, (forall y, named s <> Ret y) -> named s = Raise ValueError.
  Proof.
    split; [|intros s N; destruct (named s) as [y|z] eqn:E; [destruct (N y eq_refl)|]; unfold named in E;
      repeat match type of E with
      | match ?y with _ => _ end = _ => destruct y; try discriminate E
      | (if ?y then _ else _) = _ => destruct y; try discriminate E
      end; congruence].
    exists (match x with PENDING => "pending" | PROCESSING => "processing" | COMPLETED => "completed"
            | FAILED => "failed" | CANCELLED => "cancelled" | SKIPPED => "skipped" | ABORTED => "aborted" end).
    split; [destruct x; reflexivity|]. intros s' H. unfold named in H.
    repeat match type of H with
    | match ?y with _ => _ end = _ => destruct y; try discriminate H
    | (if ?y then _ else _) = _ => destruct y; try discriminate H
    end; injection H as <-; reflexivity.
  Qed.

  (** Exactly None and the positive finite numbers are accepted as timeouts. *)
  Theorem C121_timeout e v e' : assign W R e "timeout" v = (e', Ret tt) <->
    (v = VVal NA /\ e' = Event (e_id e) (e_created e) (e_meta e) None (e_streaming e) (e_status e)) \/
    exists q, counts_as R v (Fin q) /\ (0 < q)%Q /\
      e' = Event (e_id e) (e_created e) (e_meta e) (Some q) (e_streaming e) (e_status e).
  Proof.
    unfold assign. cbn. split.
    - intros H. destruct (read_timeout R v) as [t|] eqn:T; [|discriminate]. cbn in H. injection H as <-.
      destruct t as [q|].
      + right. exists q. pose proof (timeout_good v _ T) as G. split; [|auto]. apply counts.
        unfold read_timeout in T. destruct v as [z|g|b|[]|x]; try discriminate T;
          (destruct (read_float R _) as [[p| | |]|]; try discriminate; destruct (Qle_bool p 0); [discriminate|]; congruence).
      + left. split; [|reflexivity]. unfold read_timeout in T. destruct v as [z|g|b|[]|x]; try reflexivity;
          (destruct (read_float R _) as [[p| | |]|]; try discriminate; destruct (Qle_bool p 0); discriminate).
    - intros [[-> ->]|(q & C & G & ->)]; [reflexivity|]. apply counts in C. apply qle in G.
      unfold read_timeout. destruct v as [z|g|b|[]|x]; try discriminate C; rewrite C, G; reflexivity.
  Qed.
  (** So as_fresh_event can always assign the timeout it found. *)
  Theorem C121_again l i t m o b e e0 q : create W R i t m o b = Ret e -> e_timeout (after l e) = Some q ->
    snd (assign W R e0 "timeout" (VFloat (Fin q))) = Ret tt.
  Proof.
    intros C Q. apply C121_created in C. destruct (C121_history l e (proj1 C)) as (_ & _ & G). rewrite Q in G.
    pose proof (proj2 (C121_timeout e0 (VFloat (Fin q)) _) (or_intror (ex_intro _ q (conj eq_refl (conj G eq_refl))))) as H.
    now rewrite H.
  Qed.

  (** Identity fields, unknown names and read-only properties cannot be assigned. *)
  Theorem C121_closed e name v : private name = false ->
    ~ In name ["metadata"; "timeout"; "streaming"; "status"] ->
    exists x, assign W R e name v = (e, Raise x) /\ (x = ValueError \/ x = AttributeError).
  Proof.
    intros P N. unfold assign. rewrite P.
    destruct (eqb_spec name "metadata") as [->|]; [exfalso; apply N; cbn; tauto|].
    destruct (eqb_spec name "timeout") as [->|]; [exfalso; apply N; cbn; tauto|].
    destruct (eqb_spec name "streaming") as [->|]; [exfalso; apply N; cbn; tauto|].
    destruct (eqb_spec name "status") as [->|]; [exfalso; apply N; cbn; tauto|].
    destruct (eqb name "request" || eqb name "response"); eexists; split; eauto.
  Qed.

  (** *** Metadata *)
  Definition text_keys (l : list (val * val)) : Prop := forall k v, In (k, v) l -> exists s, k = Str s.
  Lemma str_keys_spec l : (exists m, str_keys l = Ret m /\ map (fun p => (Str (fst p), snd p)) m = l) \/
    (str_keys l = Raise ValueError /\ ~ text_keys l).
  Proof.
    induction l as [|[k v] l IH]; [left; exists []; auto|]. unfold str_keys in *. cbn [collect].
    destruct k; try (right; split; [reflexivity|]; intros T; destruct (T _ _ (or_introl eq_refl)); discriminate).
    destruct IH as [(m & -> & M)|(-> & N)].
    - left. exists ((s, v) :: m). cbn. now rewrite M.
    - right. split; [reflexivity|]. intros T. apply N. intros k w I. apply (T k w). now right.
  Qed.

  (** A dict is taken as it is if its keys are texts and refused otherwise. *)
  Theorem C121_meta_dict l : 
    (text_keys l -> exists m, read_meta W R (VVal (Dict l)) = Ret m /\ map (fun p => (Str (fst p), snd p)) m = l) /\
    (~ text_keys l -> read_meta W R (VVal (Dict l)) = Raise ValueError).
  Proof.
    assert (E : read_meta W R (VVal (Dict l)) = str_keys l) by (destruct l; reflexivity). rewrite E.
    destruct (str_keys_spec l) as [(m & A & B)|[A B]]; split; intros T; eauto; [|contradiction].
    exfalso. apply T. intros k v I. rewrite <- B in I. apply in_map_iff in I. destruct I as ([s w] & X & _).
    exists s. cbn in X. congruence.
  Qed.
  (** Nothing else than a ValueError is ever raised. *)
  Theorem C121_meta_errors v x : read_meta W R v = Raise x -> x = ValueError.
  Proof.
    assert (K : forall d, match d with Dict l => str_keys l | _ => Raise ValueError end = Raise x -> x = ValueError).
    { intros []; try congruence. destruct (str_keys_spec l) as [(m & -> & _)|[-> _]]; congruence. }
    unfold read_meta. destruct (falsy R v); [discriminate|].
    assert (C : forall w, exists r, convert W w = Ret r) by (intros w; apply C73_suppress; now left).
    destruct v as [z|g|b|w|s]; try (destruct (C (Num 1)) as [r ->]; apply K); [|apply (K (Dict []))].
    destruct w; try (apply (K (Dict l))); match goal with |- context [convert W ?w] => destruct (C w) as [r ->]; apply K end.
  Qed.
  (** Numbers and texts that cannot be read are not refused: they count as no metadata. *)
  Theorem C121_meta_numbers z f b n :
    read_meta W R (VInt z) = Ret [] /\ read_meta W R (VFloat f) = Ret [] /\ read_meta W R (VBool b) = Ret [] /\
    read_meta W R (VVal (Num n)) = Ret [].
  Proof.
    unfold read_meta. repeat split; (destruct (falsy R _); [reflexivity|]); reflexivity.
  Qed.
  Theorem C121_meta_text s x : loads W s = Raise x -> read_meta W R (VVal (Str s)) = Ret [].
  Proof.
    intros L. unfold read_meta. destruct (falsy R _); [reflexivity|]. unfold convert, to_dict. cbn. rewrite L. cbn. rewrite L. reflexivity.
  Qed.
  (** A list that is not empty is refused. *)
  Theorem C121_meta_list v l r : collect (preprocess W false false false false None [] 4) (v :: l) = Ret r ->
    read_meta W R (VVal (Seq KList (v :: l))) = Raise ValueError.
  Proof.
    intros H. unfold read_meta. cbn [falsy]. unfold convert, to_dict. cbn [o_depth the_depth bind o_recursive].
    cbn [o_python_only negb o_prio o_fuzzy o_values o_parser o_kw]. cbn [preprocess].
    change (collect _ (v :: l)) with (collect (preprocess W false false false false None [] 4) (v :: l)).
    rewrite H. cbn [collect] in H.
    destruct (preprocess W false false false false None [] 4 v); [|discriminate]. cbn [bind] in H.
    destruct (collect _ l); [|discriminate]. injection H as <-. reflexivity.
  Qed.
End A.

Print Assumptions C121_refused.
Print Assumptions C121_frame.
Print Assumptions C121_history.
Print Assumptions C121_created.
Print Assumptions C121_created_as.
Print Assumptions C121_left_out.
Print Assumptions C121_status.
Print Assumptions C121_timeout.
Print Assumptions C121_again.
Print Assumptions C121_closed.
Print Assumptions C121_meta_dict.
Print Assumptions C121_meta_errors.
Print Assumptions C121_meta_numbers.
Print Assumptions C121_meta_text.
Print Assumptions C121_meta_list.

(** *** Examples *)
Definition w0 : world := {|
  method := fun _ _ => None; as_dataclass := fun _ => None; attrs := fun _ => None; dict_of := fun _ => Raise TypeError;
  iterates := fun _ => None; is_sequence := fun _ => false; hashable := fun _ => true;
  same := fun a b => match a, b with Str s, Str t => eqb s t | _, _ => false end;
  loads := fun s => if eqb s "[]" then Ret (Seq KList [])
                    else if eqb s "{}" then Ret (Dict []) else if eqb s "obj" then Ret (Dict [(Str "a", Num 1)])
                    else Raise ValueError;
  fuzzy := fun _ => Raise ValueError |}.
Definition r0 : reader := {|
  text_float := fun s => if eqb s "2.5" then Some (Fin (5 # 2)) else if eqb s "inf" then Some PInf else None;
  text_bool := fun s => if eqb s "yes" then Some true else None; truthy := fun _ => true |}.
Definition ev0 : event := Event 7 100 [("who", Str "ann")] (Some 3%Q) false PENDING.

Example timeouts :
  map (fun v => snd (assign w0 r0 ev0 "timeout" v))
    [VVal NA; VInt 5; VBool true; VVal (Str "2.5"); VVal (Str "inf"); VFloat NaN; VInt 0; VFloat (Fin (-1 # 2)); VBool false]
  = [Ret tt; Ret tt; Ret tt; Ret tt; Raise ValueError; Raise ValueError; Raise ValueError; Raise ValueError; Raise ValueError] /\
  e_timeout (fst (assign w0 r0 ev0 "timeout" (VVal (Str "2.5")))) = Some (5 # 2)%Q /\
  after w0 r0 [("id", VInt 9); ("timeout", VInt (-1)); ("status", VVal (Str "failed")); ("nope", VInt 1); ("streaming", VVal (Str "yes"))] ev0
  = Event 7 100 [("who", Str "ann")] (Some 3%Q) true FAILED.
Proof. repeat split; reflexivity. Qed.
Example flags :
  map (read_bool r0) [VBool true; VInt 0; VInt 1; VInt 2; VFloat (Fin 1); VFloat (Fin 0); VFloat (Fin 2); VVal (Num 1);
    VVal (Num 0); VVal (Str "yes"); VVal (Str "maybe"); VVal NA]
  = [Ret true; Ret false; Ret true; Raise ValueError; Ret true; Ret false; Raise ValueError; Ret true; Ret false; Ret true;
     Raise ValueError; Raise ValueError] /\
  map (fun n => snd (assign w0 r0 ev0 n (VInt 1))) ["_x"; "id"; "created_at"; "response"; "request"; "other"]
  = [Ret tt; Raise ValueError; Raise ValueError; Raise AttributeError; Raise AttributeError; Raise ValueError] /\
  read_status (VStatus FAILED) = Ret FAILED /\ read_status (VInt 1) = Raise ValueError /\
  map (falsy r0) [VVal NA; VVal (Num 0); VVal (Str ""); VVal (Dict []); VVal (Seq KTuple []); VInt 0; VBool false; VFloat (Fin 0);
    VVal (Obj 1); VFloat NaN] = [true; true; true; true; true; true; true; true; false; false].
Proof. repeat split; reflexivity. Qed.
Example metadata :
  read_meta w0 r0 (VVal (Str "obj")) = Ret [("a", Num 1)] /\
  read_meta w0 r0 (VVal (Str "[]")) = Ret [] /\
  read_meta w0 r0 (VVal (Seq KSet [Str "a"])) = Ret [("a", Str "a")] /\
  read_meta w0 r0 (VVal (Seq KList [Str "a"])) = Raise ValueError /\
  read_meta w0 r0 (VVal (Dict [(Num 1, Str "a")])) = Raise ValueError.
Proof. repeat split; reflexivity. Qed.
(** Strings are read as JSON only, and to_dict goes before model_dump. *)
Definition w1 : world := {|
  method := fun _ m => if eqb m "model_dump" then Some (fun _ => Ret (Dict [(Str "dump", Num 1)]))
                       else if eqb m "to_dict" then Some (fun _ => Ret (Dict [(Str "dict", Num 1)])) else None;
  as_dataclass := as_dataclass w0; attrs := attrs w0; dict_of := dict_of w0; iterates := iterates w0; is_sequence := is_sequence w0;
  hashable := hashable w0; same := same w0; loads := loads w0; fuzzy := fun _ => Ret (Dict [(Str "fuzzy", Num 1)]) |}.
Example metadata_of_objects :
  read_meta w1 r0 (VVal (Obj 1)) = Ret [("dict", Num 1)] /\ read_meta w1 r0 (VVal (Str "who: bob")) = Ret [] /\
  read_meta w1 r0 (VVal (Dict [(Str "a", Obj 1)])) = Ret [("a", Obj 1)] /\
  read_meta w1 r0 (VVal (EnumC [("A", (Obj 1, Num 5))])) = Ret [("A", Obj 1)].
Proof. repeat split; reflexivity. Qed.

(** Not so: what is no metadata is refused, as the docstring has it (element.py:62). *)
Theorem C121_meta_refuted :
  (exists e, assign w0 r0 ev0 "metadata" (VInt 5) = (e, Ret tt) /\ e_meta e = [] /\ e_meta ev0 <> []) /\
  (exists e, assign w0 r0 ev0 "metadata" (VVal (Str "who: bob")) = (e, Ret tt) /\ e_meta e = []).
Proof. split; eexists; repeat split; discriminate. Qed.
Print Assumptions C121_meta_refuted.
