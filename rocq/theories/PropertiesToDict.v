(** C73: conversion of nested values to dicts. *)
From Coq Require Import String.
From Coq Require Import List ZArith Bool Arith Lia.
From Verif Require Import PyBase ModelToDict.
Import ListNotations.
Local Open Scope string_scope.
Local Open Scope nat_scope.
Local Open Scope list_scope.

(** * Vocabulary *)

(** Positions in a value: through the values of mappings and the items of lists
    and tuples, numbered in order. *)
Definition children (v : val) : list val :=
  match v with
  | Dict l => map snd l
  | Seq KList l | Seq KTuple l => l
  | _ => []
  end.
Fixpoint descend (path : list nat) (v : val) : option val :=
  match path with
  | [] => Some v
  | i :: path => match nth_error (children v) i with Some x => descend path x | None => None end
  end.

(** No set, nor a subclass of a builtin collection, above the leaves; strings,
    enum classes and objects count as leaves. *)
Inductive set_free : val -> Prop :=
| sf_na : set_free NA
| sf_num n : set_free (Num n)
| sf_str s : set_free (Str s)
| sf_obj n : set_free (Obj n)
| sf_enum l : set_free (EnumC l)
| sf_dict l : (forall k x, In (k, x) l -> set_free x) -> set_free (Dict l)
| sf_seq k l : k <> KSet -> k <> KFrozen -> (forall x, In x l -> set_free x) -> set_free (Seq k l).

Definition is_dict (v : val) : Prop := exists l, v = Dict l.

Lemma collect_forall2 {A B} (f : A -> outcome B) l r :
  collect f l = Ret r <-> Forall2 (fun x y => f x = Ret y) l r.
Proof.
  split.
  - revert r. induction l as [|x l IH]; intros r H; cbn in H; [injection H as <-; constructor|].
    destruct (f x) as [y|] eqn:Hx; [|discriminate]. cbn in H.
    destruct (collect f l) as [ys|]; [|discriminate]. cbn in H. injection H as <-.
    constructor; [exact Hx|]. apply IH. reflexivity.
  - intro H. induction H as [|x y l r Hx _ IH]; [reflexivity|]. cbn. rewrite Hx. cbn. rewrite IH.
    reflexivity.
Qed.
Lemma forall2_len {A B} (R : A -> B -> Prop) l r : Forall2 R l r -> length l = length r.
Proof. intro H. induction H; cbn; congruence. Qed.
Lemma forall2_nth {A B} (R : A -> B -> Prop) l r i x : Forall2 R l r -> nth_error l i = Some x ->
  exists y, nth_error r i = Some y /\ R x y.
Proof.
  intro H. revert i. induction H as [|a b l r Hab _ IH]; intros [|i] Hi; cbn in *; try discriminate.
  - injection Hi as <-. eauto.
  - apply IH, Hi.
Qed.
Lemma collect_ok {A B} (f : A -> outcome B) l :
  (forall x, In x l -> exists y, f x = Ret y) -> exists r, collect f l = Ret r.
Proof.
  induction l as [|x l IH]; intro H; [eexists; reflexivity|]. cbn.
  destruct (H x (or_introl eq_refl)) as [y ->]. cbn.
  destruct IH as [r ->]; [intros z Hz; apply H; right; exact Hz|]. eexists. reflexivity.
Qed.
Lemma collect_raise {A B} (f : A -> outcome B) l e :
  collect f l = Raise e -> exists x, In x l /\ f x = Raise e.
Proof.
  induction l as [|x l IH]; cbn; [discriminate|].
  destruct (f x) as [y|] eqn:Hx; cbn.
  - destruct (collect f l); cbn; [discriminate|]. intros [= ->].
    destruct (IH eq_refl) as (z & Hz & Hf). eauto.
  - intros [= ->]. eauto.
Qed.

(** [kept] are the elements of [l] that equal no earlier element of [kept]. *)
Inductive firsts_from (W : world) : list val -> list val -> list val -> Prop :=
| fi_nil seen : firsts_from W seen [] []
| fi_old seen x y l kept : In y seen -> same W x y = true -> firsts_from W seen l kept -> firsts_from W seen (x :: l) kept
| fi_new seen x l kept : (forall y, In y seen -> same W x y = false) ->
    firsts_from W (x :: seen) l kept -> firsts_from W seen (x :: l) (x :: kept).
Definition firsts (W : world) : list val -> list val -> Prop := firsts_from W [].
Lemma dedupe_firsts W l : forall seen, firsts_from W seen l (dedupe W l seen).
Proof.
  induction l as [|x l IH]; intro seen; cbn; [constructor|]. destruct (existsb (same W x) seen) eqn:E.
  - apply existsb_exists in E. destruct E as (y & Hy & Hs). eapply fi_old; [exact Hy|exact Hs|apply IH].
  - apply fi_new; [|apply IH]. intros y Hy. apply not_true_iff_false. intro Hs.
    assert (existsb (same W x) seen = true) by (apply existsb_exists; eauto). congruence.
Qed.

(** A pair, as dict() takes it: a list or tuple of two, or a string of two characters. *)
Inductive is_pair : val -> val -> val -> Prop :=
| ip_list a b : is_pair (Seq KList [a; b]) a b
| ip_tuple a b : is_pair (Seq KTuple [a; b]) a b
| ip_str a b : is_pair (Str (String a (String b EmptyString))) (Str (String a EmptyString)) (Str (String b EmptyString)).
Lemma pair_of_iff v a b : pair_of v = Some (a, b) <-> is_pair v a b.
Proof.
  split.
  - destruct v as [| |[|x [|y [|z s]]]| |k [|c [|d [|e l]]]| |]; try discriminate; try (destruct k; discriminate).
    + intros [= <- <-]. constructor.
    + destruct k; try discriminate; intros [= <- <-]; constructor.
  - destruct 1; reflexivity.
Qed.

(** The dict of a list of pairs: a repeated key keeps its place and takes the last value. *)
Inductive assign (W : world) : list (val * val) -> val -> val -> list (val * val) -> Prop :=
| as_new d k x : (forall k' y, In (k', y) d -> same W k k' = false) -> assign W d k x (d ++ [(k, x)])
| as_old d k k' y x e : (forall k'' z, In (k'', z) d -> same W k k'' = false) -> same W k k' = true ->
    assign W (d ++ (k', y) :: e) k x (d ++ (k', x) :: e).
Inductive assigns (W : world) : list (val * val) -> list val -> list (val * val) -> Prop :=
| ag_nil d : assigns W d [] d
| ag_cons d v k x d' l e : is_pair v k x -> hashable W k = true -> assign W d k x d' ->
    assigns W d' l e -> assigns W d (v :: l) e.
Lemma put_assign W k x d : assign W d k x (put W k x d).
Proof.
  induction d as [|[k' y] d IH]; cbn [put].
  - apply (as_new W []). intros ? ? [].
  - destruct (same W k k') eqn:E.
    + apply (as_old W []); [intros ? ? []|exact E].
    + inversion IH as [? ? ? H1 H2 H3|? ? k2 y2 ? e H1 H2 H3]; subst.
      * apply (as_new W ((k', y) :: d)). intros k2 z [[= <- <-]|Hin]; [exact E|eapply H1, Hin].
      * apply (as_old W ((k', y) :: d0)); [|exact H2]. intros k3 z [[= <- <-]|Hin]; [exact E|eapply H1, Hin].
Qed.
Lemma dict_items_iff W l : forall acc d, dict_items W l acc = Ret (Dict d) -> assigns W acc l d.
Proof.
  induction l as [|v l IH]; intros acc d; cbn [dict_items]; [intros [= <-]; constructor|].
  destruct (pair_of v) as [[k x]|] eqn:E; [|discriminate]. destruct (hashable W k) eqn:Hh; [|discriminate].
  intro H. econstructor; [apply pair_of_iff, E|exact Hh|apply put_assign|apply IH, H].
Qed.
Definition all_pairs (W : world) (l : list val) : Prop :=
  forall v, In v l -> exists k x, is_pair v k x /\ hashable W k = true.
Lemma dict_items_ok W l : forall acc, all_pairs W l -> exists d, dict_items W l acc = Ret (Dict d).
Proof.
  induction l as [|v l IH]; intros acc H; cbn [dict_items]; [eauto|].
  destruct (H v (or_introl eq_refl)) as (k & x & Hp & Hh). apply pair_of_iff in Hp. rewrite Hp, Hh.
  apply IH. intros u Hu. apply H. right. exact Hu.
Qed.
Lemma dict_items_bad W l : forall acc, ~ all_pairs W l -> dict_items W l acc = Raise TypeError.
Proof.
  induction l as [|v l IH]; intros acc H; cbn [dict_items]; [exfalso; apply H; intros ? []|].
  destruct (pair_of v) as [[k x]|] eqn:E; [|reflexivity]. destruct (hashable W k) eqn:Hh; [|reflexivity].
  apply IH. intro Ha. apply H. intros u [<- | Hu]; [|apply Ha, Hu]. exists k, x. split; [apply pair_of_iff, E|exact Hh].
Qed.

Section ToDict.
  Variable W : world.

  Section Pre.
  Variables (custom prio fz values : bool) (p : option parser) (kw : list string).
  Notation pre := (preprocess W custom prio fz values p kw).

  (** What happens to a mapping, list or tuple: the same keys, kind and length, each
      value processed with one level less. *)
  Lemma pre_dict n l r : pre (S n) (Dict l) = Ret r ->
    exists l', r = Dict l' /\ map fst l' = map fst l /\
      Forall2 (fun x y => pre n x = Ret y) (map snd l) (map snd l').
  Proof.
    cbn. destruct (collect _ l) as [l'|] eqn:Hc; [|discriminate]. cbn. intros [= <-].
    exists l'. split; [reflexivity|]. apply collect_forall2 in Hc.
    induction Hc as [|[k x] [k' y] l l' Hx _ (IH1 & IH2)]; [split; [reflexivity|constructor]|].
    destruct (pre n x) as [y'|] eqn:Hp; [|discriminate]. cbn in Hx. injection Hx as <- <-.
    cbn. split; [congruence|]. constructor; [exact Hp|exact IH2].
  Qed.
  Lemma pre_seq n k l r : k = KList \/ k = KTuple -> pre (S n) (Seq k l) = Ret r ->
    exists l', r = Seq k l' /\ Forall2 (fun x y => pre n x = Ret y) l l'.
  Proof.
    intro Hk. cbn [preprocess]. destruct (collect (pre n) l) as [l'|] eqn:Hc; [|discriminate]. cbn [bind].
    intro H. exists l'. apply collect_forall2 in Hc.
    destruct Hk as [-> | ->]; injection H as <-; split; try reflexivity; exact Hc.
  Qed.

  (** * C73 *)

  (** The result at every position is the result of processing the value there
      with that many levels less; below the limit nothing is touched. *)
  Theorem C73_position path : forall n v r x,
    pre n v = Ret r -> descend path v = Some x ->
    exists y, descend path r = Some y /\ pre (n - length path) x = Ret y /\
      (n <= length path -> y = x).
  Proof.
    induction path as [|i path IH]; intros n v r x Hp Hd; cbn in Hd.
    - injection Hd as <-. exists r. rewrite Nat.sub_0_r. repeat split; [exact Hp|].
      cbn. intro Hn. destruct n; [|lia]. cbn in Hp. congruence.
    - destruct (nth_error (children v) i) as [c|] eqn:Hc; [|discriminate].
      destruct n as [|n].
      + cbn in Hp. injection Hp as <-. exists x. cbn. rewrite Hc. auto.
      + assert (Hch : Forall2 (fun x y => pre n x = Ret y) (children v) (children r)).
        { destruct v as [| | |l|k l| |]; try (destruct i; discriminate).
          - destruct (pre_dict n l r Hp) as (l' & -> & _ & H). exact H.
          - destruct k; try (destruct i; discriminate).
            + destruct (pre_seq n KList l r (or_introl eq_refl) Hp) as (l' & -> & H); exact H.
            + destruct (pre_seq n KTuple l r (or_intror eq_refl) Hp) as (l' & -> & H); exact H. }
        destruct (forall2_nth _ _ _ i c Hch Hc) as (d & Hd' & Hpd).
        destruct (IH n c d x Hpd Hd) as (y & Hy & Hpy & Hb).
        exists y. cbn. rewrite Hd'. repeat split; [exact Hy|exact Hpy|]. intro. apply Hb. lia.
  Qed.

  (** The shape of containers is kept. *)
  Theorem C73_shape n v r :
    pre n v = Ret r ->
    match v with
    | Dict l => exists l', r = Dict l' /\ map fst l' = map fst l
    | Seq KList l => exists l', r = Seq KList l' /\ length l' = length l
    | Seq KTuple l => exists l', r = Seq KTuple l' /\ length l' = length l
    | NA | Num _ => r = v
    | Obj _ | Seq (KSub _ _) _ => custom = false -> r = v
    | _ => True
    end.
  Proof.
    destruct n as [|n].
    { cbn. intros [= <-]. destruct v as [| | |l|[] l| |]; eauto. }
    destruct v as [| | |l|k l| |]; intro H; try exact I.
    - cbn in H. destruct custom; congruence.
    - cbn in H. destruct custom; congruence.
    - destruct (pre_dict n l r H) as (l' & -> & Hk & _). eauto.
    - destruct k; try exact I.
      + destruct (pre_seq n KList l r (or_introl eq_refl) H) as (l' & -> & Hl). exists l'.
        split; [reflexivity|]. symmetry. apply (forall2_len _ _ _ Hl).
      + destruct (pre_seq n KTuple l r (or_intror eq_refl) H) as (l' & -> & Hl). exists l'.
        split; [reflexivity|]. symmetry. apply (forall2_len _ _ _ Hl).
      + intro Hf. cbn in H. rewrite Hf in H. destruct (collect _ l); [|discriminate].
        cbn in H. congruence.
    - intro Hf. cbn in H. rewrite Hf in H. congruence.
  Qed.

  (** A string above the limit is replaced by what it parses to, processed further;
      otherwise it is kept. *)
  Theorem C73_string n s :
    (forall w r, parse_str W fz p ("use_enum_values" :: kw) s = Ret w -> pre n w = Ret r ->
       pre (S n) (Str s) = Ret r) /\
    (forall e, parse_str W fz p ("use_enum_values" :: kw) s = Raise e ->
       pre (S n) (Str s) = Ret (Str s)) /\
    (forall w e, parse_str W fz p ("use_enum_values" :: kw) s = Ret w -> pre n w = Raise e ->
       pre (S n) (Str s) = Ret (Str s)).
  Proof.
    cbn [preprocess]. split; [|split].
    - intros x r -> Hr. cbn [bind]. rewrite Hr. reflexivity.
    - intros e ->. reflexivity.
    - intros x e -> He. cbn [bind]. rewrite He. reflexivity.
  Qed.

  (** Processing fails only at a set whose processed elements cannot be hashed, with
      TypeError; without sets it never fails. *)
  Theorem C73_total v : set_free v -> forall n, exists r, pre n v = Ret r.
  Proof.
    intro H. induction H as [|a|s|a|en|l _ IH|k l Hk1 Hk2 _ IH]; intros [|n]; try (eexists; reflexivity).
    - cbn [preprocess]. destruct (bind _ _); eexists; reflexivity.
    - cbn [preprocess]. destruct (preprocess _ _ _ _ _ _ _ _ _); eexists; reflexivity.
    - cbn [preprocess]. destruct (collect_ok (fun '(k, x) => bind (pre n x) (fun y => Ret (k, y))) l)
        as [r Hr].
      + intros [k x] Hin. destruct (IH k x Hin n) as [y ->]. eexists. reflexivity.
      + rewrite Hr. eexists. reflexivity.
    - cbn [preprocess]. destruct (collect_ok (pre n) l) as [r Hr]; [intros x Hx; apply IH; exact Hx|].
      rewrite Hr. cbn [bind]. destruct k; try congruence; eexists; reflexivity.
  Qed.
  Theorem C73_only_type_error n : forall v e, pre n v = Raise e -> e = TypeError /\ ~ set_free v.
  Proof.
    intros v e H. split.
    2: { intro Hs. destruct (C73_total v Hs n) as [r Hr]. congruence. }
    revert v e H. induction n as [|n IH]; intros v e H; [discriminate|].
    destruct v as [| |s|l|k l|l|]; cbn [preprocess] in H; try discriminate.
    - destruct (bind _ _); discriminate.
    - destruct (collect _ l) eqn:Hc; [discriminate|]. cbn in H. injection H as <-.
      apply collect_raise in Hc. destruct Hc as ([k x] & _ & Hx).
      destruct (pre n x) eqn:Hp; [discriminate|]. cbn in Hx. injection Hx as ->. eapply IH; exact Hp.
    - destruct (collect _ l) eqn:Hc.
      + cbn [bind] in H. destruct k; try discriminate; unfold build_set in H;
          destruct (forallb _ _); congruence.
      + cbn in H. injection H as <-. apply collect_raise in Hc. destruct Hc as (x & _ & Hx).
        eapply IH; exact Hx.
    - destruct (preprocess _ _ _ _ _ _ _ _ _); discriminate.
  Qed.

  (** A set stays a set of the processed elements, each kept once: the first of those that
      are equal. *)
  Theorem C73_set n k l r : k = KSet \/ k = KFrozen -> pre (S n) (Seq k l) = Ret r ->
    exists items kept, Forall2 (fun x y => pre n x = Ret y) l items /\
      r = Seq k kept /\ firsts W items kept /\ (forall y, In y items -> hashable W y = true).
  Proof.
    intros Hk H. cbn [preprocess] in H. destruct (collect _ l) as [items|] eqn:Hc; [|discriminate].
    cbn [bind] in H. apply collect_forall2 in Hc. exists items.
    assert (Hb : build_set W k items = Ret r) by (destruct Hk as [-> | ->]; exact H).
    unfold build_set in Hb. destruct (forallb _ items) eqn:Hf; [|discriminate].
    injection Hb as <-. exists (dedupe W items []). repeat split; [exact Hc| |apply forallb_forall; exact Hf].
    apply (dedupe_firsts W items []).
  Qed.

  (** An Enum class above the limit becomes the dict of its members, or of their
      values if asked; an object becomes what it converts to if custom types are
      converted; both are processed further, and kept if that fails. *)
  Theorem C73_enum n l :
    let d := Dict (map (fun '(k, (m, v)) => (Str k, if values then v else m)) l) in
    (forall r, pre n d = Ret r -> pre (S n) (EnumC l) = Ret r) /\
    (forall e, pre n d = Raise e -> pre (S n) (EnumC l) = Ret (EnumC l)).
  Proof.
    cbn [preprocess]. unfold enum_dict. split; intros ? ->; reflexivity.
  Qed.
  Theorem C73_object n o :
    pre (S n) (Obj o) =
      if custom then
        match mapping_like W prio [] o with
        | Ret d => match pre n d with Ret r => Ret r | Raise _ => Ret (Obj o) end
        | Raise _ => Ret (Obj o)
        end
      else Ret (Obj o).
  Proof.
    cbn [preprocess mapping_like_val]. destruct custom; [|reflexivity].
    destruct (mapping_like W prio [] o) as [d|]; [|reflexivity]. cbn [bind].
    destruct (preprocess _ _ _ _ _ _ _ _ d); reflexivity.
  Qed.

  (** A parser that does not know the keyword use_enum_values is never used: strings
      inside stay as they are. *)
  Theorem C73_parser_unused q n s :
    p = Some q -> (forall kw s, In "use_enum_values" kw -> exists e, q kw s = Raise e) ->
    pre n (Str s) = Ret (Str s).
  Proof.
    intros -> Hq. destruct n as [|n]; [reflexivity|]. cbn [preprocess parse_str].
    destruct (Hq ("use_enum_values" :: kw) s (or_introl eq_refl)) as [e ->]. reflexivity.
  Qed.
  End Pre.

  (** Objects: the first conversion there is. *)
  Theorem C73_object_order prio kw n :
    mapping_like W prio kw n =
      match (if prio then method W n "model_dump" else None), method W n "to_dict",
            method W n "dict", method W n "to_json", method W n "json", method W n "model_dump" with
      | Some f, _, _, _, _, _ => f kw
      | None, Some f, _, _, _, _ | None, None, Some f, _, _, _ | None, None, None, Some f, _, _
      | None, None, None, None, Some f, _ | None, None, None, None, None, Some f =>
          bind (f kw) (fun r => match r with Str s => loads W s | _ => Ret r end)
      | None, None, None, None, None, None =>
          match as_dataclass W n, attrs W n with
          | Some d, _ => Ret d
          | None, Some d => Ret d
          | None, None => dict_of W n
          end
      end.
  Proof.
    unfold mapping_like. destruct (if prio then _ else None); [reflexivity|]. cbn [find].
    destruct (method W n "to_dict") eqn:H1; cbn; [rewrite H1; reflexivity|].
    destruct (method W n "dict") eqn:H2; cbn; [rewrite H2; reflexivity|].
    destruct (method W n "to_json") eqn:H3; cbn; [rewrite H3; reflexivity|].
    destruct (method W n "json") eqn:H4; cbn; [rewrite H4; reflexivity|].
    destruct (method W n "model_dump") eqn:H5; cbn; [rewrite H5; reflexivity|].
    destruct (as_dataclass W n), (attrs W n); reflexivity.
  Qed.

  (** ** The whole conversion *)
  Definition valid_depth (d : option Z) (n : nat) : Prop :=
    match d with None => n = 5 | Some z => z = Z.of_nat n /\ n <= 10 end.
  Lemma depth_iff d n : the_depth d = Ret n <-> valid_depth d n.
  Proof.
    unfold the_depth, valid_depth. destruct d as [z|]; [|split; congruence].
    destruct (Z.ltb_spec z 0); [split; [discriminate|lia]|].
    destruct (Z.ltb_spec 10 z); [split; [discriminate|lia]|].
    split; [intros [= <-]; lia|]. intros [-> _]. rewrite Nat2Z.id. reflexivity.
  Qed.

  (** A depth outside 0..10 is refused, also without recursion. *)
  Theorem C73_depth o v :
    (~ exists n, valid_depth (o_depth o) n) -> o_suppress o = false -> v <> Str "" ->
    to_dict W o v = Raise ValueError.
  Proof.
    intros Hn Hs Hv. unfold to_dict.
    assert (Hd : the_depth (o_depth o) = Raise ValueError).
    { unfold the_depth in *. destruct (o_depth o) as [z|]; [|exfalso; apply Hn; exists 5; reflexivity].
      destruct (Z.ltb_spec z 0); [reflexivity|]. destruct (Z.ltb_spec 10 z); [reflexivity|].
      exfalso. apply Hn. exists (Z.to_nat z). cbn. lia. }
    rewrite Hd. cbn [bind]. rewrite Hs. cbn [orb].
    destruct v as [| |s| | | |]; try reflexivity.
    destruct (String.eqb_spec s ""); [congruence|reflexivity].
  Qed.

  (** With suppress, and for the empty string, it never fails. *)
  Theorem C73_suppress o v :
    o_suppress o = true \/ v = Str "" -> exists r, to_dict W o v = Ret r.
  Proof.
    intro H. unfold to_dict. destruct (bind _ _); [eexists; reflexivity|].
    assert (Hc : o_suppress o || match v with Str s => String.eqb s "" | _ => false end = true).
    { destruct H as [-> | ->]; [reflexivity|]. apply orb_true_r. }
    rewrite Hc. eexists. reflexivity.
  Qed.

  (** Mappings, lists, tuples, sets and None without recursion. *)
  Theorem C73_flat o n :
    valid_depth (o_depth o) n -> o_recursive o = false ->
    (forall l, to_dict W o (Dict l) = Ret (Dict l)) /\
    (forall k l, k = KList \/ k = KTuple ->
       to_dict W o (Seq k l) = Ret (Dict (combine (map Num (seq 0 (length l))) l))) /\
    (forall l, to_dict W o (Seq KSet l) = Ret (Dict (map (fun x => (x, x)) l))) /\
    (forall l, to_dict W o (EnumC l) =
       Ret (Dict (map (fun '(k, (m, v)) => (Str k, if o_values o then v else m)) l))) /\
    to_dict W o NA = Ret (Dict []).
  Proof.
    intros Hd Hr. apply depth_iff in Hd. unfold to_dict. rewrite Hd, Hr. cbn [bind].
    repeat split; try reflexivity. intros k l [-> | ->]; reflexivity.
  Qed.

  (** Strings without recursion: json.loads, the fuzzy parser if asked, or the caller's. *)
  Theorem C73_flat_string o n s :
    valid_depth (o_depth o) n -> o_recursive o = false -> o_suppress o = false -> s <> "" ->
    to_dict W o (Str s) =
      match o_parser o, o_fuzzy o with
      | Some q, _ => q (o_kw o) s
      | None, true => fuzzy W s
      | None, false => loads W s
      end.
  Proof.
    intros Hd Hr Hs Hn. apply depth_iff in Hd. unfold to_dict. rewrite Hd, Hr, Hs. cbn [bind convert_top parse_str orb].
    destruct (String.eqb_spec s ""); [congruence|].
    unfold parse_str. destruct (o_parser o) as [q|]; [destruct (q _ s); reflexivity|]. destruct (o_fuzzy o); [destruct (fuzzy W s)|destruct (loads W s)]; reflexivity.
  Qed.
  (** Numbers are refused; a subclass of set is treated as a set; a frozenset of pairs becomes
      their dict, any other is numbered; so is a subclass of list or tuple, whatever methods it has. *)
  Theorem C73_flat_other o n :
    valid_depth (o_depth o) n -> o_recursive o = false ->
    (forall z, o_suppress o = false -> to_dict W o (Num z) = Raise TypeError) /\
    (forall c l, to_dict W o (Seq (KSub c true) l) = Ret (Dict (map (fun x => (x, x)) l))) /\
    (forall l, all_pairs W l -> exists d, to_dict W o (Seq KFrozen l) = Ret (Dict d) /\ assigns W [] l d) /\
    (forall l, ~ all_pairs W l -> to_dict W o (Seq KFrozen l) = Ret (Dict (combine (map Num (seq 0 (length l))) l))) /\
    (forall c l, to_dict W o (Seq (KSub c false) l) = Ret (Dict (combine (map Num (seq 0 (length l))) l))).
  Proof.
    intros Hd Hr. apply depth_iff in Hd. unfold to_dict. rewrite Hd, Hr. cbn [bind].
    split; [|split; [|split; [|split]]].
    - intros z ->. reflexivity.
    - reflexivity.
    - intros l Hl. destruct (dict_items_ok W l [] Hl) as [d E]. exists d. split; [|apply dict_items_iff, E].
      cbn [convert_top]. unfold try_object. cbn [sequence mapping_like_val]. rewrite E. reflexivity.
    - intros l Hl. cbn [convert_top]. unfold try_object. cbn [sequence mapping_like_val].
      rewrite (dict_items_bad W l [] Hl). reflexivity.
    - reflexivity.
  Qed.

  (** Objects that are no sequences: what they convert to, a text parsed as JSON (never by the
      caller's parser), items numbered; else their elements numbered; else dict(obj). *)
  Theorem C73_flat_object o n i :
    valid_depth (o_depth o) n -> o_recursive o = false -> o_suppress o = false -> is_sequence W i = false ->
    let fallback := match iterates W i with
                    | Some l => Ret (Dict (combine (map Num (seq 0 (length l))) l))
                    | None => dict_of W i
                    end in
    to_dict W o (Obj i) =
      match mapping_like W (o_prio o) (o_kw o) i with
      | Ret (Dict l) => Ret (Dict l)
      | Ret (Str s) => match (if o_fuzzy o then fuzzy W s else loads W s) with Ret r => Ret r | Raise _ => fallback end
      | Ret (Seq _ l) => Ret (Dict (combine (map Num (seq 0 (length l))) l))
      | Ret (EnumC l) => Ret (Dict (combine (map Num (seq 0 (length l))) (map (fun '(_, (m, _)) => m) l)))
      | Ret (Obj c) => match iterates W c with
                       | Some l => Ret (Dict (combine (map Num (seq 0 (length l))) l))
                       | None => match dict_of W c with Ret r => Ret r | Raise _ => fallback end
                       end
      | Ret NA | Ret (Num _) | Raise _ => fallback
      end.
  Proof.
    intros Hd Hr Hs Hq. apply depth_iff in Hd. unfold to_dict. rewrite Hd, Hr, Hs. cbn [bind convert_top orb].
    unfold try_object. cbn [sequence mapping_like_val]. rewrite Hq.
    assert (F : forall r : outcome val, match r with Ret x => Ret x | Raise e => if false then Ret (Dict []) else Raise e end = r)
      by (intros []; reflexivity).
    rewrite F. cbn [elements dict_call]. unfold enumerate, parse_str.
    destruct (mapping_like W (o_prio o) (o_kw o) i) as [[| |s|l|k l|l|c]|]; cbn [bind elements dict_call]; try reflexivity.
    - rewrite map_length. reflexivity.
    - destruct (iterates W c); [reflexivity|]. destruct (dict_of W c); reflexivity.
  Qed.

  (** With recursion, each value below is processed. *)
  Theorem C73_recursive o n l :
    valid_depth (o_depth o) (S n) -> o_recursive o = true ->
    (forall k x, In (k, x) l -> set_free x) ->
    exists l', to_dict W o (Dict l) = Ret (Dict l') /\ map fst l' = map fst l /\
      Forall2 (fun x y => preprocess W (negb (o_python_only o)) (o_prio o) (o_fuzzy o) (o_values o)
                            (o_parser o) (o_kw o) n x = Ret y) (map snd l) (map snd l').
  Proof.
    intros Hd Hr Hs. apply depth_iff in Hd.
    destruct (C73_total (negb (o_python_only o)) (o_prio o) (o_fuzzy o) (o_values o)
                (o_parser o) (o_kw o) (Dict l) (sf_dict l Hs) (S n)) as [r Hp].
    destruct (pre_dict _ _ _ _ _ _ n l r Hp) as (l' & -> & Hk & Hc).
    exists l'. split; [|split; assumption]. unfold to_dict. rewrite Hd, Hr. cbn [bind].
    rewrite Hp. reflexivity.
  Qed.

  (** What is returned is a dict, unless a string was converted: by itself or by an
      object that gives one. *)
  Theorem C73_is_dict o v r :
    (forall n x, dict_of W n = Ret x -> is_dict x) ->
    to_dict W o v = Ret r ->
    is_dict r \/
    exists x, (if o_recursive o
               then exists n, preprocess W (negb (o_python_only o)) (o_prio o) (o_fuzzy o)
                      (o_values o) (o_parser o) (o_kw o) n v = Ret x
               else x = v) /\
      ((exists s, x = Str s) \/ (exists s, mapping_like_val W (o_prio o) (o_kw o) x = Ret (Str s))).
  Proof.
    intros Hdict H. unfold to_dict in H.
    destruct (the_depth (o_depth o)) as [n|e]; cbn [bind] in H.
    2: { destruct (_ || _); [|discriminate]. injection H as <-. left. exists []. reflexivity. }
    destruct (if o_recursive o then _ else Ret v) as [x|e] eqn:Hx; cbn [bind] in H.
    2: { destruct (_ || _); [|discriminate]. injection H as <-. left. exists []. reflexivity. }
    assert (Hx' : if o_recursive o
               then exists n, preprocess W (negb (o_python_only o)) (o_prio o) (o_fuzzy o)
                      (o_values o) (o_parser o) (o_kw o) n v = Ret x
               else x = v).
    { destruct (o_recursive o); [exists n; exact Hx|congruence]. }
    destruct (convert_top W _ _ _ _ _ x) as [y|e] eqn:Hc; cbn in H.
    2: { destruct (_ || _); [|discriminate]. injection H as <-. left. exists []. reflexivity. }
    injection H as <-.
    assert (Hen : forall l, is_dict (enumerate l)) by (intro l; eexists; reflexivity).
    assert (Hcall : forall v y, dict_call W v = Ret y -> is_dict y).
    { intros [] z Hz; cbn in Hz; try discriminate; [injection Hz as <-; eexists; reflexivity|].
      eapply Hdict; exact Hz. }
    assert (Hobj : match try_object W (o_prio o) (o_fuzzy o) (o_kw o) x with
        | Ret r => Ret r
        | Raise _ => match elements W x with Some l => Ret (enumerate l) | None => dict_call W x end
        end = Ret y -> is_dict y \/
        exists s, mapping_like_val W (o_prio o) (o_kw o) x = Ret (Str s)).
    { intro Ht. destruct (try_object W _ _ _ x) as [z|e] eqn:Hto.
      - injection Ht as <-. unfold try_object in Hto. destruct (sequence W x); [discriminate|].
        destruct (mapping_like_val W (o_prio o) (o_kw o) x) as [c|] eqn:Hm; [|discriminate].
        cbn [bind] in Hto.
        destruct c as [| |s|l|k l|l|m]; cbn [elements] in Hto; try (right; eexists; reflexivity);
          left; try (injection Hto as <-; apply Hen || (eexists; reflexivity));
          try (eapply Hcall; exact Hto).
        destruct (iterates W m); [injection Hto as <-; apply Hen|eapply Hcall; exact Hto].
      - left. destruct (elements W x); [injection Ht as <-; apply Hen|eapply Hcall; exact Ht]. }
    destruct x as [| |s|l|k l|l|m]; cbn [convert_top] in Hc.
    - left. injection Hc as <-. eexists. reflexivity.
    - destruct (Hobj Hc) as [Hd|Hs]; [left; exact Hd|right; eexists; split; [exact Hx'|right; exact Hs]].
    - right. eexists. split; [exact Hx'|]. left. eexists. reflexivity.
    - left. injection Hc as <-. eexists. reflexivity.
    - destruct k as [| | | |q []];
        try (left; injection Hc as <-; eexists; reflexivity);
        (destruct (Hobj Hc) as [Hd|Hs]; [left; exact Hd|right; eexists; split; [exact Hx'|right; exact Hs]]).
    - left. injection Hc as <-. eexists. reflexivity.
    - destruct (Hobj Hc) as [Hd|Hs]; [left; exact Hd|right; eexists; split; [exact Hx'|right; exact Hs]].
  Qed.
End ToDict.
Print Assumptions C73_position. Print Assumptions C73_shape. Print Assumptions C73_string.
Print Assumptions C73_total. Print Assumptions C73_only_type_error. Print Assumptions C73_set.
Print Assumptions C73_enum. Print Assumptions C73_object. Print Assumptions C73_parser_unused. Print Assumptions C73_object_order.
Print Assumptions C73_depth. Print Assumptions C73_suppress. Print Assumptions C73_flat.
Print Assumptions C73_flat_string. Print Assumptions C73_flat_other. Print Assumptions C73_flat_object. Print Assumptions C73_recursive. Print Assumptions C73_is_dict.

(** * Examples *)
Definition loads_ (s : string) : outcome val :=
  if String.eqb s "1" then Ret (Num 1)
  else if String.eqb s "[1,1]" then Ret (Seq KList [Num 1; Num 1])
  else if String.eqb s "q1" then Ret (Str "1")
  else if String.eqb s "{}" then Ret (Dict [])
  else Raise ValueError.
Definition w : world := {|
  method := fun n m => if Nat.eqb n 1 && String.eqb m "to_dict" then Some (fun _ => Ret (Dict [(Str "a", Obj 1)])) else None;
  as_dataclass := fun n => if Nat.eqb n 2 then Some (Dict [(Str "f", Num 2)]) else None;
  attrs := fun n => if Nat.eqb n 3 then Some (Dict []) else None;
  dict_of := fun _ => Raise TypeError; iterates := fun _ => None; is_sequence := fun _ => false;
  hashable := fun v => match v with Dict _ | Seq KList _ => false | _ => true end;
  same := fun x y => match x, y with Num a, Num b => Nat.eqb a b | Str a, Str b => String.eqb a b | _, _ => false end;
  loads := loads_; fuzzy := loads_ |}.
Definition opt (r : bool) (d : option Z) (py : bool) (p : option parser) : options :=
  Options false false false p r d py false [].
Example nested :
  let v := Dict [(Str "a", Str "1"); (Str "b", Seq KTuple [Str "q1"; Str "x"]); (Str "c", Seq KList [Seq KList [Str "1"]])] in
  to_dict w (opt true (Some 2%Z) true None) v =
    Ret (Dict [(Str "a", Num 1); (Str "b", Seq KTuple [Str "q1"; Str "x"]); (Str "c", Seq KList [Seq KList [Str "1"]])]) /\
  to_dict w (opt true (Some 3%Z) true None) v =
    Ret (Dict [(Str "a", Num 1); (Str "b", Seq KTuple [Str "1"; Str "x"]); (Str "c", Seq KList [Seq KList [Str "1"]])]) /\
  to_dict w (opt true None true None) v =
    Ret (Dict [(Str "a", Num 1); (Str "b", Seq KTuple [Num 1; Str "x"]); (Str "c", Seq KList [Seq KList [Num 1]])]) /\
  to_dict w (opt false None true None) v = Ret v /\
  to_dict w (opt false (Some 11%Z) true None) v = Raise ValueError.
Proof. repeat split; reflexivity. Qed.
(** An object that contains itself is unfolded as deep as allowed. *)
Example cyclic :
  to_dict w (opt true (Some 3%Z) false None) (Obj 1) = Ret (Dict [(Str "a", Dict [(Str "a", Obj 1)])]) /\
  to_dict w (opt true None false None) (Seq KList [Obj 2]) = Ret (Dict [(Num 0, Dict [(Str "f", Num 2)])]).
Proof. split; reflexivity. Qed.

Example enums :
  let colour := EnumC [("RED", (Obj 8, Str "1"))] in
  to_dict w (opt true None true None) (Dict [(Str "c", colour)]) = Ret (Dict [(Str "c", Dict [(Str "RED", Obj 8)])]) /\
  to_dict w (Options false false false None true None true true []) (Dict [(Str "c", colour)])
    = Ret (Dict [(Str "c", Dict [(Str "RED", Num 1)])]).
Proof. split; reflexivity. Qed.

(** A set of JSON texts; a frozenset of pairs with a repeated key; fuzzy parsing. *)
Example sets :
  to_dict w (opt false None true None) (Seq KFrozen [Seq KTuple [Num 1; Num 2]; Str "ab"; Seq KTuple [Num 1; Num 3]])
    = Ret (Dict [(Num 1, Num 3); (Str "a", Str "b")]) /\
  to_dict w (opt false None true None) (Seq KFrozen [Num 7; Str "ab"]) = Ret (Dict [(Num 0, Num 7); (Num 1, Str "ab")]) /\
  to_dict w (opt false None true None) (Seq KFrozen [Seq KTuple [Seq KList []; Num 2]]) = Ret (Dict [(Num 0, Seq KTuple [Seq KList []; Num 2])]).
Proof. repeat split; reflexivity. Qed.
Example fuzzy_ :
  let w' := {| method := method w; as_dataclass := as_dataclass w; attrs := attrs w; dict_of := dict_of w;
               iterates := iterates w; is_sequence := is_sequence w; hashable := hashable w; same := same w;
               loads := loads w; fuzzy := fun s => Ret (Dict [(Str "fuzzy", Str s)]) |} in
  to_dict w' (Options false true false None false None true false []) (Str "x") = Ret (Dict [(Str "fuzzy", Str "x")]) /\
  to_dict w' (opt false None true None) (Str "x") = Raise ValueError.
Proof. split; reflexivity. Qed.

(** The result need not be a dict; recursion changes that. *)
Theorem C73_list_refuted :
  to_dict w (opt false None true None) (Str "[1,1]") = Ret (Seq KList [Num 1; Num 1]) /\
  to_dict w (opt true None true None) (Str "[1,1]") = Ret (Dict [(Num 0, Num 1); (Num 1, Num 1)]).
Proof. split; reflexivity. Qed.
(** A set with a JSON string makes the conversion fail, or loses an element. *)
Theorem C73_set_refuted :
  to_dict w (opt true None true None) (Dict [(Str "s", Seq KSet [Str "{}"])]) = Raise TypeError /\
  to_dict w (opt true None true None) (Dict [(Str "s", Seq KSet [Str "1"; Num 1])]) = Ret (Dict [(Str "s", Seq KSet [Num 1])]).
Proof. split; reflexivity. Qed.
(** A custom parser that takes only the string works at the top but not inside. *)
Definition strict_parser : parser := fun kw s => match kw with [] => Ret (Dict [(Str "parsed", Str s)]) | _ => Raise TypeError end.
Theorem C73_parser_refuted :
  to_dict w (opt true None true (Some strict_parser)) (Str "x") = Ret (Dict [(Str "parsed", Str "x")]) /\
  to_dict w (opt true None true (Some strict_parser)) (Dict [(Str "k", Str "x")]) = Ret (Dict [(Str "k", Str "x")]).
Proof. split; reflexivity. Qed.
(** With custom types, a subclass of list loses its items: object 3 has an empty __dict__. *)
Theorem C73_subclass_refuted :
  to_dict w (opt true None false None) (Dict [(Str "l", Seq (KSub 3 false) [Num 1; Num 2])]) = Ret (Dict [(Str "l", Dict [])]) /\
  to_dict w (opt true None true None) (Dict [(Str "l", Seq (KSub 3 false) [Num 1; Num 2])])
    = Ret (Dict [(Str "l", Seq (KSub 3 false) [Num 1; Num 2])]).
Proof. split; reflexivity. Qed.
Print Assumptions C73_list_refuted. Print Assumptions C73_set_refuted. Print Assumptions C73_parser_refuted.
Print Assumptions C73_subclass_refuted.
