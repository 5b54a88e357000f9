(** C87: the JSON default() uses the first matching serialiser, whatever it was asked
    before.  C88: deterministic sets.  C89: option flags and NDJSON lines. *)
From Coq Require Import String Ascii.
From Coq Require Import List Bool Arith ZArith NArith Lia Permutation DecimalZ.
From Verif Require Import PyBase PyFacts ModelExtract ModelDump.
Import ListNotations.
Local Open Scope string_scope.
Local Open Scope nat_scope.
Local Open Scope list_scope.

#[local] Arguments eqb : simpl never.

Definition txt (s : string) : text := map nat_of_ascii (list_ascii_of_string s).

(** * Vocabulary *)
(** l is k with some items left out. *)
Inductive part {A} : list A -> list A -> Prop :=
| part_nil : part [] []
| part_keep x l k : part l k -> part (x :: l) (x :: k)
| part_skip x l k : part l k -> part l (x :: k).

(** The module's own serialisers. *)
Inductive builtin (g : config) : cls -> ser -> Prop :=
| b_path : builtin g CPath SStr
| b_decimal : builtin g CDecimal (if decimal_as_float g then SFloat else SStr)
| b_set : builtin g CSet (if deterministic_sets g then SSorted else SList)
| b_frozenset : builtin g CFrozenset (if deterministic_sets g then SSorted else SList)
| b_enum : enum_as_name g = true -> builtin g CEnum SName
| b_datetime : passthrough_datetime g = true -> builtin g CDatetime SIso.

(** What the caller gives for a type replaces the module's own. *)
Definition serializes (g : config) (t : cls) (f : ser) : Prop :=
  match dget t (additional g) with
  | Some v => v = Some f
  | None => builtin g t f
  end.

(** The first type in a list that c is a subclass of and that has a serialiser. *)
Definition first_match (sub : cls -> cls -> bool) (g : config) (l : list cls) (c : cls) (f : ser) : Prop :=
  exists pre t post, l = pre ++ t :: post /\ sub c t = true /\ serializes g t f /\
    (forall u h, In u pre -> sub c u = true -> ~ serializes g u h).
Definition no_match (sub : cls -> cls -> bool) (g : config) (l : list cls) (c : cls) : Prop :=
  forall t f, In t l -> sub c t = true -> ~ serializes g t f.

(** * The serialisers and the order *)
Lemma dget_update {V} (e d : dict cls V) t : NoDup (dkeys e) ->
  dget t (update d e) = match dget t e with Some v => Some v | None => dget t d end.
Proof.
  unfold update. revert d. induction e as [|[k v] e IH]; intros d N; [reflexivity|].
  cbn in N. inversion N as [|? ? NI N']; subst. cbn [fold_left fst snd]. rewrite IH; [|assumption].
  cbn [dget]. destruct (eqb_spec t k) as [->|D].
  - destruct (dget k e) eqn:E; [exfalso; apply NI; apply dget_Some_key in E; exact E|].
    rewrite dget_dset_same. reflexivity.
  - rewrite dget_dset_other by assumption. reflexivity.
Qed.

Lemma builtin_spec g t f : dget t (default_serializers g) = Some (Some f) <-> builtin g t f.
Proof.
  unfold default_serializers. split.
  - intro H. apply dget_In in H. cbn in H.
    destruct (enum_as_name g) eqn:E, (passthrough_datetime g) eqn:P; cbn in H;
      repeat (destruct H as [H|H]; [injection H as <- <-; try (constructor; assumption); constructor|]); destruct H.
  - intros []; try reflexivity.
    + rewrite H. reflexivity.
    + rewrite H. destruct (enum_as_name g); reflexivity.
Qed.

Lemma serializes_spec g t f : NoDup (dkeys (additional g)) ->
  dget t (serializers g) = Some (Some f) <-> serializes g t f.
Proof.
  intro N. unfold serializers, serializes. rewrite dget_update by assumption.
  destruct (dget t (additional g)) as [v|].
  - split; [intros [= ->]; reflexivity|intros ->; reflexivity].
  - apply builtin_spec.
Qed.

Lemma search_some sub g c f l : NoDup (dkeys (additional g)) ->
  search sub (serializers g) c l = Some f -> first_match sub g l c f.
Proof.
  intros N. induction l as [|t l IH]; cbn [search]; [discriminate|]. intro H.
  destruct (sub c t) eqn:S.
  - destruct (dget t (serializers g)) as [[h|]|] eqn:D.
    + injection H as ->. exists [], t, l. split; [reflexivity|]. split; [assumption|].
      split; [apply serializes_spec; assumption|intros ? ? []].
    + destruct (IH H) as (pre & u & post & -> & A & B & C). exists (t :: pre), u, post. repeat split; try assumption.
      intros w h [<-|I] Sw; [|apply (C w h I Sw)]. intro Z. apply serializes_spec in Z; [congruence|assumption].
    + destruct (IH H) as (pre & u & post & -> & A & B & C). exists (t :: pre), u, post. repeat split; try assumption.
      intros w h [<-|I] Sw; [|apply (C w h I Sw)]. intro Z. apply serializes_spec in Z; [congruence|assumption].
  - destruct (IH H) as (pre & u & post & -> & A & B & C). exists (t :: pre), u, post. repeat split; try assumption.
    intros w h [<-|I] Sw; [congruence|apply (C w h I Sw)].
Qed.

Lemma search_none sub g c l : NoDup (dkeys (additional g)) ->
  search sub (serializers g) c l = None -> no_match sub g l c.
Proof.
  intros N. induction l as [|t l IH]; cbn [search]; intros H u f I; [destruct I|].
  destruct (sub c t) eqn:S.
  - destruct (dget t (serializers g)) as [[h|]|] eqn:D; [discriminate| |];
      destruct I as [<-|I]; try (apply (IH H u f I)); intros _ Z; apply serializes_spec in Z; congruence.
  - destruct I as [<-|I]; [congruence|apply (IH H u f I)].
Qed.

Lemma first_match_fun sub g l c f h : NoDup (dkeys (additional g)) ->
  first_match sub g l c f -> first_match sub g l c h -> f = h.
Proof.
  intros N (pre & t & post & -> & A & B & C) (pre' & t' & post' & E & A' & B' & C').
  revert pre' E C'. induction pre as [|x pre IH]; intros [|y pre'] E C'; cbn in E; injection E as -> E.
  - apply serializes_spec in B; [|assumption]. apply serializes_spec in B'; [|assumption]. congruence.
  - exfalso. apply (C' y f (or_introl eq_refl) A B).
  - exfalso. apply (C t' h (or_introl eq_refl) A' B').
  - apply (IH (fun u k I => C u k (or_intror I)) pre' E (fun u k I => C' u k (or_intror I))).
Qed.

Lemma part_filter {A} (p : A -> bool) l : part (filter p l) l.
Proof. induction l as [|x l IH]; cbn; [constructor|]. destruct (p x); constructor; assumption. Qed.
Lemma part_trans {A} (a b c : list A) : part a b -> part b c -> part a c.
Proof.
  intros H K. revert a H. induction K as [|x l k K IH|x l k K IH]; intros a H; [assumption| |constructor; auto].
  inversion H; subst; constructor; auto.
Qed.
Lemma part_refl {A} (l : list A) : part l l.
Proof. induction l; constructor; assumption. Qed.

(** * C87 *)
Section C87.
  Variable space : nat -> bool.
  Variable cut : text -> nat -> text -> text.
  Variable V : Type.
  Variable vtext : text -> V.
  Variable sub : cls -> cls -> bool.
  Variable apply : ser -> obj V -> outcome V.
  Notation default := (default space cut V vtext sub apply).
  Notation calls := (calls space cut V vtext sub apply).

  (** Every answer of a default() callable depends on the object alone, not on the
      objects it was asked about before. *)
  Theorem C87_history g xs : calls g [] xs = map (fun x => snd (default g [] x)) xs.
  Proof.
    assert (G : forall cache, (forall c f, dget c cache = Some f ->
                  search sub (serializers g) c (order_tuple g) = Some f) ->
                calls g cache xs = map (fun x => snd (default g [] x)) xs).
    { induction xs as [|x l IH]; intros cache I; [reflexivity|]. cbn [ModelDump.calls map].
      unfold default at 1 2. cbn [dget].
      destruct (dget (o_cls V x) cache) as [f|] eqn:D.
      - rewrite (I _ _ D). cbn. f_equal. apply IH. exact I.
      - destruct (search sub (serializers g) (o_cls V x) (order_tuple g)) as [f|] eqn:S; cbn; f_equal.
        + apply IH. intros c h E. destruct (eqb_spec c (o_cls V x)) as [->|N].
          * rewrite dget_dset_same in E. injection E as <-. exact S.
          * rewrite dget_dset_other in E by assumption. apply I. exact E.
        + apply IH. exact I. }
    apply G. intros c f E. cbn in E. discriminate.
  Qed.

  (** The serialiser of the first type in the order that fits decides; without one,
      model_dump(), then dict(), then the fallback. *)
  Theorem C87_choice g x : NoDup (dkeys (additional g)) ->
    (forall f, first_match sub g (order_tuple g) (o_cls V x) f -> snd (default g [] x) = apply f x) /\
    (no_match sub g (order_tuple g) (o_cls V x) ->
       (forall v, o_model_dump V x = Some (Ret v) -> snd (default g [] x) = Ret v) /\
       ((forall v, o_model_dump V x <> Some (Ret v)) ->
          (forall v, o_dict V x = Some (Ret v) -> snd (default g [] x) = Ret v) /\
          ((forall v, o_dict V x <> Some (Ret v)) ->
             (safe_fallback g = false -> snd (default g [] x) = Raise TypeError) /\
             (safe_fallback g = true ->
                (forall p, o_error V x = Some p -> snd (default g [] x) = p) /\
                (forall r, o_error V x = None -> o_repr V x = Ret r ->
                   snd (default g [] x) = match clip space cut r (fallback_clip g) with
                                          | Ret t => Ret (vtext t)
                                          | Raise e => Raise e
                                          end))))).
  Proof.
    intro N. unfold default. cbn [dget].
    destruct (search sub (serializers g) (o_cls V x) (order_tuple g)) as [f|] eqn:S.
    - apply search_some in S; [|assumption]. split.
      + intros h H. cbn. rewrite (first_match_fun _ _ _ _ _ _ N S H). reflexivity.
      + intro H. exfalso. destruct S as (pre & t & post & E & A & B & C).
        apply (H t f); [rewrite E; apply in_elt|assumption|assumption].
    - apply search_none in S; [|assumption]. split.
      + intros f (pre & t & post & E & A & B & C). exfalso.
        apply (S t f); [rewrite E; apply in_elt|assumption|assumption].
      + intros _. cbn [snd]. unfold duck.
        destruct (o_model_dump V x) as [[v|e]|]; split;
          try (intros ? [= <-]; reflexivity); try (intros ? [=]);
          (intro M; try (exfalso; apply (M v); reflexivity));
          destruct (o_dict V x) as [[w|e']|]; split;
          try (intros ? [= <-]; reflexivity); try (intros ? [=]);
          (intro M'; try (exfalso; apply (M' w); reflexivity));
          (split; [intros ->; reflexivity|intros ->]);
          (split; [intros p ->; reflexivity|intros r -> ->; cbn [bind]; destruct (clip space cut r (fallback_clip g)); reflexivity]).
  Qed.
End C87.

(** A class always has a first match or none at all. *)
Theorem C87_decided sub g l c : NoDup (dkeys (additional g)) ->
  (exists f, first_match sub g l c f) \/ no_match sub g l c.
Proof.
  intro N. destruct (search sub (serializers g) c l) as [f|] eqn:S.
  - left. exists f. apply search_some; assumption.
  - right. apply search_none; assumption.
Qed.

(** The order: the module's types first (unless the caller replaces them), then the
    caller's types in their order; the types orjson knows take part only if asked for. *)
Theorem C87_order g :
  (forall t, In t (order_tuple g) <->
     ((exists f, builtin g t f) /\ (order g = [] \/ extend_default g = true) \/ In t (order g)) /\
     (passthrough_datetime g = true \/ ~ In t native)) /\
  (order g <> [] -> extend_default g = false -> part (order_tuple g) (order g)) /\
  (order g = [] \/ extend_default g = true ->
     exists own, order_tuple g = (if passthrough_datetime g then [CDatetime] else [])
                                 ++ (if enum_as_name g then [CEnum] else [])
                                 ++ [CPath; CDecimal; CSet; CFrozenset] ++ own /\
       part own (order g) /\ (forall t, In t own -> forall f, ~ builtin g t f)).
Proof.
  assert (B : forall t, In t (base_order g) <-> exists f, builtin g t f).
  { intro t. unfold base_order. split.
    - intro I. rewrite !in_app_iff in I. destruct I as [I|[I|I]].
      + destruct (passthrough_datetime g) eqn:P; [|destruct I]. destruct I as [<-|[]].
        exists SIso. constructor. assumption.
      + destruct (enum_as_name g) eqn:P; [|destruct I]. destruct I as [<-|[]]. exists SName. constructor. assumption.
      + destruct I as [<-|[<-|[<-|[<-|[]]]]]; eexists; constructor.
    - intros [f F]. rewrite !in_app_iff.
      destruct F as [| | | |E|E]; try (rewrite E); cbn; auto 8. }
  assert (NB : forall t, passthrough_datetime g = false -> In t (base_order g) -> ~ In t native).
  { intros t P I. apply B in I. destruct I as [f F].
    intros [<-|[<-|[<-|[<-|[]]]]]; inversion F; congruence. }
  assert (NF : passthrough_datetime g = false -> filter (fun t => negb (memb t native)) (base_order g) = base_order g).
  { unfold base_order. intros ->. destruct (enum_as_name g); reflexivity. }
  split; [|split].
  - intro t. unfold order_tuple.
    set (o := match order g with [] => base_order g | _ => _ end).
    assert (O : In t o <-> (exists f, builtin g t f) /\ (order g = [] \/ extend_default g = true) \/ In t (order g)).
    { subst o. rewrite <- B. destruct (order g) as [|c l] eqn:E.
      - cbn. tauto.
      - destruct (extend_default g).
        + rewrite in_app_iff, filter_In, negb_true_iff, memb_notIn.
          split; [tauto|]. intros [[I _]|I]; [tauto|].
          destruct (memb t (base_order g)) eqn:M; [apply memb_In in M; tauto|apply memb_notIn in M; tauto].
        + split; [tauto|]. intros [[_ [Q|Q]]|I]; [discriminate|discriminate|exact I]. }
    destruct (passthrough_datetime g).
    + tauto.
    + rewrite filter_In, negb_true_iff, memb_notIn, O. split; [tauto|]. intros [H [Q|K]]; [discriminate|tauto].
  - intros NE X. unfold order_tuple. destruct (order g) as [|c l]; [congruence|]. rewrite X.
    destruct (passthrough_datetime g); [apply part_refl|apply part_filter].
  - intro H. unfold order_tuple.
    assert (Z : exists own, match order g with
                | [] => base_order g
                | _ :: _ => if extend_default g
                            then base_order g ++ filter (fun t => negb (memb t (base_order g))) (order g)
                            else order g
                end = base_order g ++ own /\ part own (order g) /\ (forall t, In t own -> ~ In t (base_order g))).
    { destruct (order g) as [|c l] eqn:E.
      - exists []. rewrite app_nil_r. repeat split; [constructor|intros ? []].
      - destruct H as [H| ->]; [discriminate|]. eexists. split; [reflexivity|]. split; [apply part_filter|].
        intros t I. apply filter_In in I. destruct I as [_ I]. apply memb_notIn, negb_true_iff, I. }
    destruct Z as (own & EQ & PT & NI).
    replace (match order g with
             | [] => base_order g
             | c :: l => if extend_default g
                         then base_order g ++ filter (fun t => negb (memb t (base_order g))) (c :: l)
                         else c :: l
             end) with (base_order g ++ own).
    2:{ rewrite <- EQ. destruct (order g); reflexivity. }
    destruct (passthrough_datetime g) eqn:P.
    + exists own. split; [unfold base_order; rewrite P, <- !app_assoc; reflexivity|]. split; [assumption|].
      intros t I f F. apply (NI t I). apply B. eauto.
    + exists (filter (fun t => negb (memb t native)) own). rewrite filter_app, NF by reflexivity.
      split; [unfold base_order; rewrite P, <- !app_assoc; reflexivity|].
      split; [eapply part_trans; [apply part_filter|assumption]|].
      intros t I f F. apply filter_In in I. apply (NI t (proj1 I)). apply B. eauto.
Qed.

(** * The fallback text *)
Section Fallback.
  Variable space : nat -> bool.
  Variable cut : text -> nat -> text -> text.

  Lemma words_app v s w : Forall (fun c => space c = false) v -> words space w (v ++ s) = words space (w ++ v) s.
  Proof.
    revert w. induction v as [|c v IH]; intros w F; [rewrite app_nil_r; reflexivity|].
    inversion F as [|? ? C F']; subst. cbn [words app]. rewrite C, IH by assumption. rewrite <- app_assoc. reflexivity.
  Qed.

  (** A text of words with one space between them. *)
  Definition is_word (w : text) : Prop := w <> [] /\ Forall (fun c => space c = false) w.
  Lemma words_unwords ws : space 32 = true -> Forall is_word ws -> words space [] (unwords ws) = ws.
  Proof.
    intros SP. induction ws as [|w ws IH]; intro F; [reflexivity|].
    inversion F as [|? ? [NE NS] F']; subst. destruct ws as [|w' ws].
    - cbn [unwords]. rewrite <- (app_nil_r w) at 1. rewrite words_app by assumption. cbn [words app].
      destruct w; [congruence|reflexivity].
    - change (unwords (w :: w' :: ws)) with (w ++ 32 :: unwords (w' :: ws)).
      rewrite words_app by assumption. cbn [app words]. rewrite SP.
      destruct w as [|c w]; [congruence|]. rewrite IH by assumption. reflexivity.
  Qed.

  (** s is the words ws with whitespace around and between them. *)
  Inductive laid_out : text -> list text -> Prop :=
  | lo_nil g : Forall (fun c => space c = true) g -> laid_out g []
  | lo_last g w : Forall (fun c => space c = true) g -> is_word w -> laid_out (g ++ w) [w]
  | lo_cons g w c s ws : Forall (fun c => space c = true) g -> is_word w -> space c = true -> laid_out s ws ->
      laid_out (g ++ w ++ c :: s) (w :: ws).
  Lemma words_gap g s : Forall (fun c => space c = true) g -> words space [] (g ++ s) = words space [] s.
  Proof. induction g as [|c g IH]; intro F; [reflexivity|]. inversion F; subst. cbn [app words]. rewrite H1. apply IH. assumption. Qed.
  Lemma words_laid_out s ws : laid_out s ws -> words space [] s = ws.
  Proof.
    induction 1 as [g G|g w G [NE W]|g w c s ws G [NE W] C L IH].
    - rewrite <- (app_nil_r g), words_gap by assumption. reflexivity.
    - rewrite words_gap by assumption. rewrite <- (app_nil_r w) at 1. rewrite words_app by assumption.
      cbn [words app]. destruct w; [congruence|reflexivity].
    - rewrite words_gap, words_app by assumption. cbn [words app]. rewrite C, IH. destruct w; [congruence|reflexivity].
  Qed.

  Lemma placeholder_length s limit : 12 <= length (placeholder s limit).
  Proof. unfold placeholder. rewrite !app_length. cbn. lia. Qed.

  (** The placeholder says in decimal how far the text is beyond the limit. *)
  Definition value_of (ds : text) : Z := fold_left (fun n c => 10 * n + Z.of_nat (c - 48))%Z ds 0%Z.
  Lemma uint_value u : forall acc, fold_left (fun n c => 10 * n + Z.of_nat (c - 48))%Z (uint_digits u) (Zpos acc) = Zpos (Pos.of_uint_acc u acc).
  Proof. induction u; intro acc; [reflexivity|..]; cbn [uint_digits fold_left Pos.of_uint_acc]; rewrite <- IHu; f_equal; lia. Qed.
  Lemma uint_value_0 u : fold_left (fun n c => 10 * n + Z.of_nat (c - 48))%Z (uint_digits u) 0%Z = Z.of_uint u.
  Proof. induction u; [reflexivity|exact IHu|..]; apply (uint_value u). Qed.
  Theorem C87_placeholder s limit : (limit <= Z.of_nat (length s))%Z ->
    exists ds, placeholder s limit = txt "...(+" ++ ds ++ txt " chars)" /\ Forall (fun c => 48 <= c <= 57) ds /\
      value_of ds = (Z.of_nat (length s) - limit)%Z.
  Proof.
    intro L. set (n := (Z.of_nat (length s) - limit)%Z). exists (int_digits (Z.to_int n)).
    split; [reflexivity|]. destruct (Z.to_int n) as [u|u] eqn:U.
    - split; [clear U; induction u; cbn; constructor; try assumption; lia|].
      unfold value_of. cbn [int_digits]. rewrite uint_value_0. change (Z.of_uint u) with (Z.of_int (Decimal.Pos u)). rewrite <- U. apply DecimalZ.of_to.
    - exfalso. destruct n eqn:N; cbn in U; try discriminate. lia.
  Qed.

  (** The clipped text: the words with single spaces, if they fit (so a text of
      single-spaced words that fits is kept); it fails exactly if the limit is too small for the placeholder, whatever the text. *)
  Theorem C87_clip s limit :
    (forall e, clip space cut s limit = Raise e -> e = ValueError) /\
    ((exists t, clip space cut s limit = Ret t) <-> (Z.of_nat (length (placeholder s limit)) <= limit)%Z) /\
    (space 32 = true -> forall ws, s = unwords ws -> Forall is_word ws ->
       (Z.of_nat (length s) <= limit)%Z -> (Z.of_nat (length (placeholder s limit)) <= limit)%Z ->
       clip space cut s limit = Ret s) /\
    (forall ws, laid_out s ws ->
       (Z.of_nat (length (unwords ws)) <= limit)%Z -> (Z.of_nat (length (placeholder s limit)) <= limit)%Z ->
       clip space cut s limit = Ret (unwords ws)).
  Proof.
    unfold clip. pose proof (placeholder_length s limit) as PL.
    destruct (Z.leb_spec limit 0) as [L|L]; [|destruct (Z.ltb_spec limit (Z.of_nat (length (placeholder s limit)))) as [M|M]].
    - split; [congruence|]. split; [split; [intros [t [=]]|lia]|split; lia].
    - split; [congruence|]. split; [split; [intros [t [=]]|lia]|split; lia].
    - split; [discriminate|]. split; [split; [intros _; exact M|eauto]|].
      split; [|intros ws LO F _; rewrite (words_laid_out _ _ LO);
               destruct (Nat.leb_spec (length (unwords ws)) (Z.to_nat limit)); [reflexivity|lia]].
      intros SP ws E W F _. rewrite E, words_unwords by assumption. rewrite <- E.
      destruct (Nat.leb_spec (length s) (Z.to_nat limit)); [reflexivity|lia].
  Qed.

  (** Claim refuted: with safe_fallback no object ever raises.  A fallback_clip below 12
      makes every fallback fail. *)
  Theorem C87_safe_refuted V vtext sub apply g x r :
    (fallback_clip g < 12)%Z -> search sub (serializers g) (o_cls V x) (order_tuple g) = None ->
    o_model_dump V x = None -> o_dict V x = None -> o_error V x = None -> o_repr V x = Ret r ->
    snd (default space cut V vtext sub apply g [] x) = Raise (if safe_fallback g then ValueError else TypeError).
  Proof.
    intros L S M D E R. unfold default. cbn [dget]. rewrite S. cbn [snd]. unfold duck. rewrite M, D, E, R. cbn [bind].
    destruct (safe_fallback g); [|reflexivity]. unfold clip. pose proof (placeholder_length r (fallback_clip g)).
    destruct (Z.leb_spec (fallback_clip g) 0); [reflexivity|].
    destruct (Z.ltb_spec (fallback_clip g) (Z.of_nat (length (placeholder r (fallback_clip g))))); [reflexivity|lia].
  Qed.
End Fallback.

(** An ordinary configuration. *)
Definition plain : config :=
  {| order := []; additional := []; extend_default := true; deterministic_sets := false; decimal_as_float := false;
     enum_as_name := false; passthrough_datetime := false; safe_fallback := false; fallback_clip := 2048 |}.

Lemma builtin_same g g' t f :
  decimal_as_float g = decimal_as_float g' -> deterministic_sets g = deterministic_sets g' ->
  enum_as_name g = enum_as_name g' -> passthrough_datetime g = passthrough_datetime g' ->
  builtin g t f -> builtin g' t f.
Proof.
  intros E1 E2 E3 E4 [| | | |H|H]; rewrite ?E1, ?E2.
  - apply b_path.
  - apply b_decimal.
  - apply b_set.
  - apply b_frozenset.
  - apply b_enum. congruence.
  - apply b_datetime. congruence.
Qed.

(** A serialiser given in [additional] for a type that is neither in [order] nor one of
    the module's is never used. *)
Theorem C87_additional g t f (v : option ser) sub l c :
  NoDup (dkeys (additional g)) -> l = order_tuple g -> ~ In t (order g) -> (forall h, ~ builtin g t h) ->
  dget t (additional g) = None ->
  let g' := {| order := order g; additional := additional g ++ [(t, v)]; extend_default := extend_default g;
               deterministic_sets := deterministic_sets g; decimal_as_float := decimal_as_float g;
               enum_as_name := enum_as_name g; passthrough_datetime := passthrough_datetime g;
               safe_fallback := safe_fallback g; fallback_clip := fallback_clip g |} in
  first_match sub g (order_tuple g) c f <-> first_match sub g' (order_tuple g') c f.
Proof.
  intros N -> NO NB NA g'.
  assert (NT : ~ In t (order_tuple g)).
  { intro I. apply (proj1 (C87_order g)) in I. destruct I as [[[[h H] _]|I] _]; [apply (NB h H)|tauto]. }
  assert (S : forall u, u <> t -> forall h, serializes g u h <-> serializes g' u h).
  { intros u D h. unfold serializes. cbn [additional g'].
    assert (E : dget u (additional g ++ [(t, v)]) = dget u (additional g)).
    { clear - D. induction (additional g) as [|[k w] d IH]; cbn.
      - destruct (eqb_spec u t); [congruence|reflexivity].
      - destruct (eqb_spec u k); [reflexivity|apply IH]. }
    rewrite E. destruct (dget u (additional g)); [tauto|].
    split; apply builtin_same; reflexivity. }
  change (order_tuple g') with (order_tuple g). unfold first_match.
  split; intros (pre & u & post & E & A & B & C); exists pre, u, post; (split; [exact E|]); (split; [exact A|]);
    (assert (IU : In u (order_tuple g)) by (rewrite E; apply in_elt));
    (assert (U : u <> t) by (intros ->; tauto));
    (split; [apply (S u U f) in B || (apply S; [exact U|exact B]); try exact B|]);
    intros w h I SW Z;
    (assert (IW : In w (order_tuple g)) by (rewrite E; apply in_or_app; left; exact I));
    (assert (W : w <> t) by (intros ->; tauto));
    apply (C w h I SW); apply (S w W h); exact Z.
Qed.

(** The class tree of the examples: 7 is a subclass of Path, 8 of set. *)
Definition tree (c t : cls) : bool :=
  cls_eqb c t || match c, t with COther 7, CPath | COther 8, CSet => true | _, _ => false end.
Definition thing (c : cls) : obj (text) :=
  {| o_cls := c; o_model_dump := None; o_dict := None; o_error := None; o_repr := Ret (txt "<thing>") |}.
Definition shown (f : ser) (x : obj text) : outcome text :=
  Ret (match f with SUser n => [n] | SSorted => txt "sorted" | SList => txt "list" | _ => txt "str" end).
Definition ask (g : config) (x : obj text) : outcome text :=
  snd (default (Nat.eqb 32) (fun t _ _ => t) text (fun t => t) tree shown g [] x).

(** Claim refuted: the caller's order comes first.  A subclass of Path listed by the
    caller is still written with str. *)
Theorem C87_override_refuted :
  ask {| order := [COther 7]; additional := [(COther 7, Some (SUser 1))]; extend_default := true;
         deterministic_sets := false; decimal_as_float := false; enum_as_name := false;
         passthrough_datetime := false; safe_fallback := false; fallback_clip := 2048 |} (thing (COther 7))
  = Ret (txt "str") /\
  ask {| order := [COther 7]; additional := [(COther 7, Some (SUser 1))]; extend_default := false;
         deterministic_sets := false; decimal_as_float := false; enum_as_name := false;
         passthrough_datetime := false; safe_fallback := false; fallback_clip := 2048 |} (thing (COther 7))
  = Ret [1].
Proof. split; reflexivity. Qed.

Example C87_ex :
  ask plain (thing (COther 8)) = Ret (txt "list") /\
  ask plain (thing (COther 3)) = Raise TypeError /\
  (* a listed type, and the same serialiser without listing the type *)
  (let g o := {| order := o; additional := [(COther 3, Some (SUser 1)); (CSet, Some (SUser 2))]; extend_default := true;
                 deterministic_sets := true; decimal_as_float := false; enum_as_name := false;
                 passthrough_datetime := false; safe_fallback := true; fallback_clip := 20 |} in
   ask (g [COther 3]) (thing (COther 3)) = Ret [1] /\ ask (g []) (thing (COther 3)) = Ret (txt "<thing>") /\
   ask (g []) (thing (COther 8)) = Ret [2] /\ ask (g []) (thing CFrozenset) = Ret (txt "sorted")).
Proof. repeat split; vm_compute; reflexivity. Qed.

(** * C88 *)
(** Texts are ordered by their first difference, pairs by their first components. *)
Definition text_le (a b : text) : Prop :=
  (exists r, b = a ++ r) \/
  (exists p x y a' b', a = p ++ x :: a' /\ b = p ++ y :: b' /\ x < y).
Definition key_le (a b : text * text) : Prop :=
  fst a <> fst b /\ text_le (fst a) (fst b) \/ fst a = fst b /\ text_le (snd a) (snd b).

Lemma text_leb_spec a b : text_leb a b = true <-> text_le a b.
Proof.
  revert b. induction a as [|x a IH]; intros b; cbn [text_leb].
  - split; [intros _; left; exists b; reflexivity|reflexivity].
  - destruct b as [|y b].
    + split; [discriminate|]. intros [[r [=]]|(p & u & v & a' & b' & _ & E & _)]. destruct p; discriminate.
    + destruct (Nat.ltb_spec x y) as [L|L].
      { split; [intros _|reflexivity]. right. exists [], x, y, a, b. auto. }
      destruct (Nat.eqb_spec x y) as [->|N].
      * rewrite IH. split.
        -- intros [[r ->]|(p & u & v & a' & b' & -> & -> & U)]; [left; exists r; reflexivity|].
           right. exists (y :: p), u, v, a', b'. auto.
        -- intros [[r [= ->]]|(p & u & v & a' & b' & E & E' & U)]; [left; exists r; reflexivity|].
           right. destruct p as [|w p]; cbn in E, E'; inversion E; inversion E'; subst.
           ++ lia.
           ++ exists p, u, v, a', b'. auto.
      * split; [discriminate|]. intros [[r [= -> _]]|(p & u & v & a' & b' & E & E' & U)]; [congruence|].
        destruct p as [|w p]; cbn in E, E'; injection E as E1 E2; injection E' as E3 E4; lia.
Qed.
Lemma text_leb_refl a : text_leb a a = true.
Proof. apply text_leb_spec. left. exists []. rewrite app_nil_r. reflexivity. Qed.
Lemma text_leb_total a b : text_leb a b = true \/ text_leb b a = true.
Proof.
  revert b. induction a as [|x a IH]; intros [|y b]; cbn [text_leb]; auto.
  destruct (Nat.ltb_spec x y); [auto|]. destruct (Nat.ltb_spec y x); [auto|].
  assert (x = y) as -> by lia. rewrite ?Nat.ltb_irrefl, Nat.eqb_refl. apply IH.
Qed.
Lemma text_leb_antisym a b : text_leb a b = true -> text_leb b a = true -> a = b.
Proof.
  revert b. induction a as [|x a IH]; intros [|y b]; cbn [text_leb]; try congruence.
  destruct (Nat.ltb_spec x y), (Nat.ltb_spec y x); try lia;
    destruct (Nat.eqb_spec x y), (Nat.eqb_spec y x); try congruence; try lia.
  subst. intros H1 H2. f_equal. apply IH; assumption.
Qed.
Lemma text_leb_trans a b c : text_leb a b = true -> text_leb b c = true -> text_leb a c = true.
Proof.
  revert b c. induction a as [|x a IH]; intros [|y b] [|z c]; cbn [text_leb]; try congruence.
  destruct (Nat.ltb_spec x y), (Nat.ltb_spec y z), (Nat.ltb_spec x z); try lia; try congruence;
    destruct (Nat.eqb_spec x y), (Nat.eqb_spec y z), (Nat.eqb_spec x z); try lia; try congruence.
  apply IH.
Qed.
Lemma key_leb_spec a b : key_leb a b = true <-> key_le a b.
Proof.
  unfold key_leb, key_le. rewrite <- !text_leb_spec.
  destruct (text_leb (fst a) (fst b)) eqn:A.
  - destruct (text_leb (fst b) (fst a)) eqn:B.
    + pose proof (text_leb_antisym _ _ A B). intuition congruence.
    + assert (fst a <> fst b) by (intro E; rewrite E, text_leb_refl in B; discriminate). intuition.
  - assert (fst a <> fst b) by (intro E; rewrite E, text_leb_refl in A; discriminate). intuition discriminate.
Qed.
Lemma key_leb_total a b : key_leb a b = true \/ key_leb b a = true.
Proof.
  unfold key_leb. destruct (text_leb (fst a) (fst b)) eqn:A, (text_leb (fst b) (fst a)) eqn:B; auto.
  - apply text_leb_total.
  - destruct (text_leb_total (fst a) (fst b)); congruence.
Qed.
Lemma key_leb_antisym a b : key_leb a b = true -> key_leb b a = true -> a = b.
Proof.
  unfold key_leb. destruct a as [a1 a2], b as [b1 b2]. cbn [fst snd].
  destruct (text_leb a1 b1) eqn:A, (text_leb b1 a1) eqn:B; try discriminate.
  intros X Y. f_equal; apply text_leb_antisym; assumption.
Qed.
Lemma key_leb_trans a b c : key_leb a b = true -> key_leb b c = true -> key_leb a c = true.
Proof.
  unfold key_leb. destruct a as [a1 a2], b as [b1 b2], c as [c1 c2]. cbn [fst snd].
  destruct (text_leb a1 b1) eqn:A; [|discriminate]. destruct (text_leb b1 c1) eqn:B; [|discriminate].
  rewrite (text_leb_trans _ _ _ A B). intros X Y.
  destruct (text_leb c1 a1) eqn:C; [|reflexivity].
  rewrite (text_leb_trans _ _ _ B C) in X. rewrite (text_leb_trans _ _ _ C A) in Y.
  apply (text_leb_trans _ b2); assumption.
Qed.

Section C88.
  Variable A : Type.
  Variable class_name : A -> text.
  Variable str : A -> text.
  Notation key := (sort_key A class_name str).
  Notation stable_sorted := (stable_sorted A class_name str).
  Notation insert := (insert A class_name str).

  (** No item stands before one with a smaller key. *)
  Definition ordered (l : list A) : Prop :=
    forall pre x mid y post, l = pre ++ x :: mid ++ y :: post -> key_le (key x) (key y).

  Inductive sorted : list A -> Prop :=
  | s_nil : sorted []
  | s_cons x l : (forall y, In y l -> key_leb (key x) (key y) = true) -> sorted l -> sorted (x :: l).
  Lemma sorted_ordered l : sorted l -> ordered l.
  Proof.
    intros S pre x mid y post E. revert pre E. induction S as [|z l F S IH]; intros pre E; [destruct pre; discriminate|].
    destruct pre as [|w pre]; cbn in E; injection E as -> E.
    - apply key_leb_spec. apply F. rewrite E. apply in_elt.
    - apply (IH pre E).
  Qed.
  Lemma insert_perm x l : Permutation (x :: l) (insert x l).
  Proof.
    induction l as [|y l IH]; cbn; [reflexivity|]. destruct (key_leb _ _); [reflexivity|].
    rewrite perm_swap. constructor. exact IH.
  Qed.
  Lemma insert_sorted x l : sorted l -> sorted (insert x l).
  Proof.
    induction l as [|y l IH]; intro S; cbn; [constructor; [intros ? []|constructor]|].
    inversion S as [|? ? F S']; subst. destruct (key_leb (key x) (key y)) eqn:E.
    - constructor; [|exact S]. intros z [<-|I]; [exact E|]. eapply key_leb_trans; [exact E|apply F, I].
    - constructor; [|apply IH, S']. intros z I.
      apply (Permutation_in _ (Permutation_sym (insert_perm x l))) in I. destruct I as [<-|I]; [|apply F, I].
      destruct (key_leb_total (key x) (key y)); [congruence|assumption].
  Qed.
  Lemma stable_sorted_sorted l : sorted (stable_sorted l).
  Proof. induction l; cbn; [constructor|apply insert_sorted; assumption]. Qed.
  Lemma stable_sorted_perm l : Permutation l (stable_sorted l).
  Proof. induction l as [|x l IH]; cbn; [reflexivity|]. rewrite <- insert_perm. constructor. exact IH. Qed.

  (** The serialised set has the same members, by class name and normalised text. *)
  Theorem C88_sorted l : Permutation l (stable_sorted l) /\ ordered (stable_sorted l).
  Proof. split; [apply stable_sorted_perm|apply sorted_ordered, stable_sorted_sorted]. Qed.

  Lemma sorted_unique l k : Permutation l k -> sorted l -> sorted k ->
    (forall x y, In x l -> In y l -> key x = key y -> x = y) -> l = k.
  Proof.
    revert k. induction l as [|x l IH]; intros k P S S' D.
    - apply Permutation_nil in P. subst. reflexivity.
    - destruct k as [|y k]; [apply Permutation_sym, Permutation_nil in P; discriminate|].
      inversion S as [|? ? F SL]; subst. inversion S' as [|? ? F' SK]; subst.
      assert (IX : In x (y :: k)) by (apply (Permutation_in _ P); left; reflexivity).
      assert (IY : In y (x :: l)) by (apply (Permutation_in _ (Permutation_sym P)); left; reflexivity).
      assert (x = y) as ->.
      { destruct IX as [->|IX]; [reflexivity|]. destruct IY as [->|IY]; [reflexivity|].
        apply D; [left; reflexivity|right; exact IY|]. apply key_leb_antisym; [apply F, IY|apply F', IX]. }
      f_equal. apply IH; [apply (Permutation_cons_inv P)|assumption|assumption|].
      intros u v U W. apply D; right; assumption.
  Qed.

  (** If no two members have the same class name and normalised text, the result is the
      same for every iteration order of the set. *)
  Theorem C88_deterministic l k : Permutation l k ->
    (forall x y, In x l -> In y l -> key x = key y -> x = y) -> stable_sorted l = stable_sorted k.
  Proof.
    intros P D. apply sorted_unique.
    - rewrite <- stable_sorted_perm, <- stable_sorted_perm. exact P.
    - apply stable_sorted_sorted.
    - apply stable_sorted_sorted.
    - intros x y X Y. apply D; eapply Permutation_in; try apply Permutation_sym; try apply stable_sorted_perm; assumption.
  Qed.

  (** Members with the same key stay in iteration order. *)
  Theorem C88_ties l (q : text * text -> bool) k :
    (forall x, q (key x) = true -> key x = k) ->
    filter (fun x => q (key x)) (stable_sorted l) = filter (fun x => q (key x)) l.
  Proof.
    intro Q. induction l as [|x l IH]; [reflexivity|]. cbn [ModelDump.stable_sorted filter].
    assert (I : forall m, sorted m ->
              filter (fun x => q (key x)) (insert x m) =
              if q (key x) then x :: filter (fun x => q (key x)) m else filter (fun x => q (key x)) m).
    { induction m as [|y m IHm]; intro S; cbn [ModelDump.insert filter]; [reflexivity|].
      inversion S as [|? ? F S']; subst.
      destruct (key_leb (key x) (key y)) eqn:E; cbn [filter]; [reflexivity|]. rewrite IHm by assumption.
      destruct (q (key x)) eqn:X, (q (key y)) eqn:Y; try reflexivity.
      exfalso. rewrite (Q _ X), (Q _ Y) in E.
      destruct (key_leb_total k k); congruence. }
    rewrite I by apply stable_sorted_sorted. rewrite IH. reflexivity.
  Qed.
End C88.

(** Normalisation *)
Lemma drop_hex_length s : length (drop_hex s) <= length s.
Proof. induction s as [|c s IH]; cbn [drop_hex]; [lia|]. destruct (hex c); cbn [length]; lia. Qed.
Lemma after_at0x s r : after at0x s = Some r -> s = at0x ++ r.
Proof.
  unfold at0x. intro H.
  repeat (destruct s as [|? s]; [discriminate|]; cbn [after] in H;
          match type of H with context [?a =? ?b] => destruct (Nat.eqb_spec a b) as [<-|]; [|discriminate] end).
  injection H as ->. reflexivity.
Qed.
Lemma after_app p s : after p (p ++ s) = Some s.
Proof. induction p as [|c p IH]; [reflexivity|]. cbn [after app]. rewrite Nat.eqb_refl. exact IH. Qed.
Lemma normalize_fuel n m s : length s <= n -> length s <= m -> normalize_from n s = normalize_from m s.
Proof.
  revert m s. induction n as [|n IH]; intros [|m] [|c s] N M; cbn [length] in *; try lia; try reflexivity.
  cbn [normalize_from]. destruct (after at0x (c :: s)) as [[|h r]|] eqn:E.
  - f_equal. apply IH; lia.
  - destruct (hex h); [|f_equal; apply IH; lia]. do 2 f_equal. apply IH;
      pose proof (drop_hex_length r); apply after_at0x in E; apply (f_equal (@length nat)) in E;
      rewrite app_length in E; cbn in E; lia.
  - f_equal. apply IH; lia.
Qed.
Lemma normalize_hit h r : hex h = true -> normalize (at0x ++ h :: r) = at0x ++ [63] ++ normalize (drop_hex r).
Proof.
  intro H. remember (at0x ++ h :: r) as s eqn:E. destruct s as [|c s]; [discriminate|].
  unfold normalize at 1. cbn [length normalize_from]. rewrite E, after_app, H. do 2 f_equal.
  apply normalize_fuel; [|lia]. pose proof (drop_hex_length r). apply (f_equal (@length nat)) in E.
  rewrite app_length in E. cbn [length] in E. lia.
Qed.
Lemma normalize_miss c s : (forall h r, c :: s = at0x ++ h :: r -> hex h = false) -> normalize (c :: s) = c :: normalize s.
Proof.
  intro H. unfold normalize. cbn [length normalize_from].
  destruct (after at0x (c :: s)) as [[|h r]|] eqn:E; try reflexivity.
  rewrite (H h r); [reflexivity|]. apply after_at0x. exact E.
Qed.
Lemma drop_hex_app h q : Forall (fun c => hex c = true) h -> drop_hex (h ++ q) = drop_hex q.
Proof. induction h as [|c h IH]; intro F; [reflexivity|]. inversion F; subst. cbn. rewrite H1. apply IH. assumption. Qed.
(** The run of digits in front of the address ends at its blank. *)
Lemma drop_hex_at p : exists p', length p' <= length p /\ forall q, drop_hex (p ++ at0x ++ q) = p' ++ at0x ++ q.
Proof.
  induction p as [|c p (p' & L & IH)].
  - exists []. split; [lia|reflexivity].
  - cbn [app drop_hex]. destruct (hex c).
    + exists p'. split; [cbn; lia|exact IH].
    + exists (c :: p). split; [lia|reflexivity].
Qed.
Lemma at0x_overlap c p q h r : (c :: p) ++ at0x ++ q = at0x ++ h :: r -> hex h = true ->
  exists p', c :: p = at0x ++ h :: p' /\ r = p' ++ at0x ++ q.
Proof.
  intros E H. unfold at0x in *. cbn [app] in E.
  do 6 (destruct p as [|? p]; [cbn in E; inversion E; subst; cbn in H; discriminate|]; cbn [app] in E).
  inversion E; subst. exists p. split; reflexivity.
Qed.
Lemma normalize_at p : forall h h' q, h <> [] -> h' <> [] ->
  Forall (fun c => hex c = true) h -> Forall (fun c => hex c = true) h' ->
  normalize (p ++ at0x ++ h ++ q) = normalize (p ++ at0x ++ h' ++ q).
Proof.
  remember (length p) as n eqn:L. assert (LE : length p <= n) by lia. clear L. revert p LE.
  induction n as [|n IH]; intros p LE h h' q N N' F F'.
  - destruct p; [|cbn in LE; lia]. cbn [app].
    destruct h as [|x h]; [congruence|]. destruct h' as [|x' h']; [congruence|].
    inversion F; inversion F'; subst. cbn [app]. rewrite !normalize_hit by assumption.
    rewrite !drop_hex_app by assumption. reflexivity.
  - destruct p as [|c p]; [apply (IH [] (Nat.le_0_l _)); assumption|].
    destruct (after at0x (c :: p)) as [[|x p']|] eqn:E.
    + assert (M : forall h, normalize ((c :: p) ++ at0x ++ h ++ q) = c :: normalize (p ++ at0x ++ h ++ q)).
      { intro k. cbn [app]. apply normalize_miss. intros y r Z. destruct (hex y) eqn:Y; [|reflexivity].
        destruct (at0x_overlap c p (k ++ q) y r Z Y) as (w & W & _).
        apply after_at0x in E. rewrite E in W. apply (f_equal (@length nat)) in W. rewrite !app_length in W. cbn in W. lia. }
      rewrite !M. f_equal. apply IH; try assumption. cbn in LE. lia.
    + pose proof E as E'. apply after_at0x in E'. destruct (hex x) eqn:X.
      * rewrite E'. rewrite <- !app_assoc. cbn [app]. rewrite !normalize_hit by assumption.
        destruct (drop_hex_at p') as (w & W & D). rewrite !D. do 2 f_equal. apply IH; try assumption.
        apply (f_equal (@length nat)) in E'. rewrite app_length in E'. cbn in E', LE. lia.
      * assert (M : forall h, normalize ((c :: p) ++ at0x ++ h ++ q) = c :: normalize (p ++ at0x ++ h ++ q)).
        { intro k. cbn [app]. apply normalize_miss. intros y r Z. destruct (hex y) eqn:Y; [|reflexivity].
          destruct (at0x_overlap c p (k ++ q) y r Z Y) as (w & W & _).
          rewrite E' in W. apply app_inv_head in W. congruence. }
        rewrite !M. f_equal. apply IH; try assumption. cbn in LE. lia.
    + assert (M : forall h, normalize ((c :: p) ++ at0x ++ h ++ q) = c :: normalize (p ++ at0x ++ h ++ q)).
      { intro k. cbn [app]. apply normalize_miss. intros y r Z. destruct (hex y) eqn:Y; [|reflexivity].
        destruct (at0x_overlap c p (k ++ q) y r Z Y) as (w & W & _).
        rewrite W in E. cbn in E. discriminate. }
      rewrite !M. f_equal. apply IH; try assumption. cbn in LE. lia.
Qed.

(** The key does not depend on a memory address in the text, and is the text itself if
    there is none. *)
Definition hex_digit (c : nat) : Prop := In c (txt "0123456789abcdefABCDEF").
Lemma hex_iff c : hex_digit c <-> hex c = true.
Proof.
  unfold hex_digit, hex. rewrite !orb_true_iff, !andb_true_iff, !Nat.leb_le. cbn. split; [|lia].
  intros H. repeat destruct H as [<-|H]; try lia.
Qed.
Theorem C88_address p h h' q : h <> [] -> h' <> [] -> Forall hex_digit h -> Forall hex_digit h' ->
  normalize (p ++ txt " at 0x" ++ h ++ q) = normalize (p ++ txt " at 0x" ++ h' ++ q).
Proof.
  intros N N' H H'. apply (normalize_at p h h' q N N'); eapply Forall_impl; [|exact H| |exact H']; intros c; apply hex_iff.
Qed.
Theorem C88_no_address s : (forall p h q, s = p ++ txt " at 0x" ++ h :: q -> ~ hex_digit h) -> normalize s = s.
Proof.
  intros H0. assert (forall p h q, s = p ++ txt " at 0x" ++ h :: q -> hex h = false) as H.
  { intros p h q E. apply not_true_is_false. intros X. apply hex_iff in X. exact (H0 p h q E X). }
  revert H. clear H0.
  induction s as [|c s IH]; intro H; [reflexivity|]. rewrite normalize_miss.
  - f_equal. apply IH. intros p h q E. apply (H (c :: p) h q). rewrite E. reflexivity.
  - intros h r E. apply (H [] h r). exact E.
Qed.

(** Claim refuted: deterministic_sets gives equal sets equal output.  Two objects of one
    class with default texts have the same key; they stay in iteration order. *)
Theorem C88_same_set_refuted :
  exists (str : nat -> text),
    stable_sorted nat (fun _ => txt "A") str [1; 2] = [1; 2] /\ stable_sorted nat (fun _ => txt "A") str [2; 1] = [2; 1].
Proof.
  exists (fun n => txt "<A object at 0x7f3" ++ [48 + n] ++ txt ">"). split; vm_compute; reflexivity.
Qed.

Example C88_ex :
  let name := fun x : string * string => txt (fst x) in
  let str := fun x : string * string => txt (snd x) in
  stable_sorted _ name str [("str", "b"); ("int", "10"); ("str", "B"); ("int", "9"); ("float", "2.5")]
  = [("float", "2.5"); ("int", "10"); ("int", "9"); ("str", "B"); ("str", "b")] /\
  normalize (txt "<f at 0x7fA9 of A at 0x0 at 0xyz>") = txt "<f at 0x? of A at 0x? at 0xyz>".
Proof. vm_compute. split; reflexivity. Qed.

(** * C89 *)
(** Each option is its own bit. *)
Theorem C89_options f k : N.testbit (make_options f) k = true <->
  (k = 0%N /\ pretty f = true) \/ (k = 1%N /\ naive_utc f = true) \/ (k = 2%N /\ allow_non_str_keys f = true) \/
  (k = 5%N /\ sort_keys f = true) \/ (k = 7%N /\ utc_z f = true) \/ (k = 9%N /\ f_passthrough_datetime f = true) \/
  (k = 10%N /\ append_newline f = true).
Proof.
  unfold make_options.
  assert (F : forall b j o, N.testbit (flag b j o) k = true <-> (k = j /\ b = true) \/ N.testbit o k = true).
  { intros b j o. destruct b; cbn [flag].
    - rewrite N.lor_spec, orb_true_iff, N.shiftl_1_l, N.pow2_bits_eqb, N.eqb_eq. split; intros [H|H]; intuition.
    - intuition congruence. }
  rewrite !F. rewrite N.bits_0. unfold INDENT_2, NAIVE_UTC, NON_STR_KEYS, SORT_KEYS, UTC_Z, PASSTHROUGH_DATETIME, APPEND_NEWLINE.
  split; intro H; [|tauto]. destruct H as [H|[H|[H|[H|[H|[H|[H|H]]]]]]]; [..|discriminate H]; tauto.
Qed.

Section C89.
  Variable A : Type.
  Variable dumps : N -> A -> outcome text.
  (** What is assumed of orjson: the newline option appends a newline to the output
      without it, and without indentation the output contains no newline. *)
  Hypothesis append : forall o x, N.testbit o 10 = false ->
    dumps (N.lor o (N.shiftl 1 10)) x = match dumps o x with Ret l => Ret (l ++ [10]) | Raise e => Raise e end.
  Hypothesis one_line : forall o x l, N.testbit o 0 = false -> N.testbit o 10 = false -> dumps o x = Ret l -> ~ In 10 l.

  (** Each item is one line: the bytes are newline-terminated lines without newlines in
      them, one per item in order, each the plain JSON of its item under options that
      differ only in the newline; the stream ends at the first item that fails. *)
  Theorem C89_lines options f it :
    (forall o, options = Some o -> N.testbit o 0 = false) ->
    let '(ls, e) := lines_iter A dumps (lines_options options f) it in
    exists opt bodies done, ls = map (fun b => b ++ [10]) bodies /\
      (forall b, In b bodies -> ~ In 10 b) /\
      N.testbit opt 10 = false /\ N.testbit opt 0 = false /\
      (forall k, k <> 10%N -> N.testbit opt k = N.testbit (lines_options options f) k) /\
      Forall2 (fun x b => dumps opt x = Ret b) done bodies /\
      (e = None -> done = it) /\
      (forall x, e = Some x -> exists y rest, it = done ++ y :: rest /\ dumps opt y = Raise x).
  Proof.
    intro H. set (full := lines_options options f).
    assert (B10 : N.testbit full 10 = true).
    { subst full. unfold lines_options. destruct options as [o|].
      - rewrite N.lor_spec, N.shiftl_1_l, N.pow2_bits_true, orb_true_r. reflexivity.
      - apply C89_options. cbn. tauto. }
    assert (B0 : N.testbit full 0 = false).
    { subst full. unfold lines_options. destruct options as [o|].
      - rewrite N.lor_spec, (H o eq_refl). reflexivity.
      - match goal with |- N.testbit (make_options ?g) 0 = false =>
          destruct (N.testbit (make_options g) 0) eqn:E; [|reflexivity]; apply C89_options in E; cbn in E end.
        intuition discriminate. }
    set (opt := N.clearbit full 10).
    assert (O10 : N.testbit opt 10 = false) by (subst opt; apply N.clearbit_eq).
    assert (OK : forall k, k <> 10%N -> N.testbit opt k = N.testbit full k).
    { intros k K. subst opt. apply N.clearbit_neq. congruence. }
    assert (FULL : full = N.lor opt (N.shiftl 1 10)).
    { apply N.bits_inj. intro k. rewrite N.lor_spec, N.shiftl_1_l, N.pow2_bits_eqb.
      destruct (N.eqb_spec 10 k) as [<-|K]; [rewrite B10, orb_true_r; reflexivity|].
      rewrite orb_false_r, OK by congruence. reflexivity. }
    assert (O0 : N.testbit opt 0 = false) by (rewrite OK; [exact B0|discriminate]).
    clearbody full opt. clear H.
    assert (G : let '(ls, e) := lines_iter A dumps full it in
      exists bodies done, ls = map (fun b => b ++ [10]) bodies /\ (forall b, In b bodies -> ~ In 10 b) /\
        Forall2 (fun x b => dumps opt x = Ret b) done bodies /\ (e = None -> done = it) /\
        (forall x, e = Some x -> exists y rest, it = done ++ y :: rest /\ dumps opt y = Raise x)).
    { induction it as [|x it IH]; cbn [lines_iter].
      - exists [], []. repeat split; [intros ? []|constructor|discriminate].
      - rewrite FULL, append by assumption. rewrite <- FULL. destruct (dumps opt x) as [l|e] eqn:D.
        + destruct (lines_iter A dumps full it) as [ls e]. destruct IH as (bs & dn & -> & NL & F & EN & ES).
          exists (l :: bs), (x :: dn). split; [reflexivity|]. split.
          { intros b [<-|I]; [apply (one_line opt x); assumption|apply NL, I]. }
          split; [constructor; assumption|]. split; [intro Z; rewrite (EN Z); reflexivity|].
          intros y Z. destruct (ES y Z) as (w & rest & -> & W). exists w, rest. split; [reflexivity|exact W].
        + exists [], []. split; [reflexivity|]. split; [intros ? []|]. split; [constructor|]. split; [discriminate|].
          intros y [= <-]. exists x, it. split; [reflexivity|exact D]. }
    destruct (lines_iter A dumps full it) as [ls e]. destruct G as (bs & dn & E1 & E2 & E3 & E4 & E5).
    exists opt, bs, dn. repeat (split; [assumption|]). assumption.
  Qed.
End C89.

(** A small orjson: numbers, and lists of digits that indentation spreads over lines. *)
Definition nl (b : bool) : text := if b then [10; 32; 32] else [].
Definition small_dumps (o : N) (x : nat) : outcome text :=
  if x =? 99 then Raise TypeError
  else Ret (txt "[" ++ nl (N.testbit o 0) ++ [48 + x] ++ txt "]" ++ (if N.testbit o 10 then [10] else [])).

(** Claim refuted: every output of json_lines_iter is one line.  Indentation asked for in
    [options] puts newlines into the lines. *)
Theorem C89_indent_refuted :
  let no := {| pretty := false; sort_keys := false; naive_utc := false; utc_z := false; append_newline := false;
               f_passthrough_datetime := false; allow_non_str_keys := false |} in
  fst (lines_iter nat small_dumps (lines_options (Some 1%N) no) [5]) = [txt "[" ++ [10; 32; 32] ++ txt "5]" ++ [10]].
Proof. reflexivity. Qed.

(** Claim refuted: the flags count.  With [options] given they are ignored, by
    json_dumps as well as by json_lines_iter. *)
Theorem C89_flags_refuted A dumps o (f : flags) x :
  json_dumpb A dumps (Some o) f x = dumps o x /\
  lines_options (Some o) f = N.lor o (N.shiftl 1 10).
Proof. split; reflexivity. Qed.

Example C89_ex :
  let no := {| pretty := true; sort_keys := true; naive_utc := true; utc_z := false; append_newline := false;
               f_passthrough_datetime := false; allow_non_str_keys := true |} in
  make_options no = 39%N /\ lines_options None no = 1030%N /\
  lines_iter nat small_dumps (lines_options None no) [5; 7; 99; 1] = ([txt "[5]" ++ [10]; txt "[7]" ++ [10]], Some TypeError).
Proof. repeat split; vm_compute; reflexivity. Qed.

(** The hypotheses on orjson hold of the small one. *)
Example C89_small :
  (forall o x, N.testbit o 10 = false ->
     small_dumps (N.lor o (N.shiftl 1 10)) x = match small_dumps o x with Ret l => Ret (l ++ [10]) | Raise e => Raise e end) /\
  (forall o x l, N.testbit o 0 = false -> N.testbit o 10 = false -> small_dumps o x = Ret l -> ~ In 10 l).
Proof.
  split.
  - intros o x H. unfold small_dumps. destruct (x =? 99); [reflexivity|].
    rewrite !N.lor_spec, H. rewrite orb_false_r. cbn [orb].
    change (N.testbit (N.shiftl 1 10) 0) with false. change (N.testbit (N.shiftl 1 10) 10) with true.
    rewrite ?orb_false_r. rewrite app_nil_r. rewrite <- !app_assoc. reflexivity.
  - intros o x l H0 H10. unfold small_dumps. rewrite H0, H10. destruct (x =? 99); intros [= <-].
    cbn. intuition lia.
Qed.

Print Assumptions C87_history.
Print Assumptions C87_choice.
Print Assumptions C87_decided.
Print Assumptions C87_order.
Print Assumptions C87_clip.
Print Assumptions C87_placeholder.
Print Assumptions C87_safe_refuted.
Print Assumptions C87_additional.
Print Assumptions C87_override_refuted.
Print Assumptions C88_sorted.
Print Assumptions C88_deterministic.
Print Assumptions C88_ties.
Print Assumptions C88_address.
Print Assumptions C88_no_address.
Print Assumptions C88_same_set_refuted.
Print Assumptions C89_options.
Print Assumptions C89_lines.
Print Assumptions C89_indent_refuted.
Print Assumptions C89_flags_refuted.
