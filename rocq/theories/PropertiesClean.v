(** C94: which texts fuzzy_json repairs. *)
From Coq Require Import String Ascii.
From Coq Require Import List Bool Arith Lia.
From Verif Require Import PyBase ModelJson ModelClean.
Import ListNotations.
Local Open Scope nat_scope.
Local Open Scope list_scope.

(** * Texts of JSON values, strict and loose *)
(** A value: a literal (number, true, false, null) by its text, a string, a list or a dict. *)
Inductive doc := Lit (w : list nat) | Str (s : list nat) | Arr (l : list doc) | Obj (l : list (list nat * doc)).

(** A text of a value: with gaps of whitespace between all parts, strings in single or
    double quotes, and keys perhaps without quotes.  A comma may be followed by nothing. *)
Inductive key := Bare (w : list nat) | Quoted (q : nat) (s : list nat).
Inductive tree := TLit (w : list nat) | TStr (q : nat) (s : list nat) | TArr (i : items) | TObj (e : entries)
with items :=
| INone (g : list nat)
| IOne (g1 : list nat) (t : tree) (g2 : list nat)
| ICons (g1 : list nat) (t : tree) (g2 : list nat) (i : items)
with entries :=
| ENone (g : list nat)
| EOne (g1 : list nat) (k : key) (g2 g3 : list nat) (t : tree) (g4 : list nat)
| ECons (g1 : list nat) (k : key) (g2 g3 : list nat) (t : tree) (g4 : list nat) (e : entries).
Scheme tree_ind' := Induction for tree Sort Prop
with items_ind' := Induction for items Sort Prop
with entries_ind' := Induction for entries Sort Prop.
Combined Scheme trees_ind from tree_ind', items_ind', entries_ind'.

Definition text_key (k : key) : list nat :=
  match k with Bare w => w | Quoted q s => q :: s ++ [q] end.
Fixpoint text (t : tree) : list nat :=
  match t with
  | TLit w => w
  | TStr q s => q :: s ++ [q]
  | TArr i => 91 :: text_items i ++ [93]
  | TObj e => 123 :: text_entries e ++ [125]
  end
with text_items (i : items) : list nat :=
  match i with
  | INone g => g
  | IOne g1 t g2 => g1 ++ text t ++ g2
  | ICons g1 t g2 i => g1 ++ text t ++ g2 ++ 44 :: text_items i
  end
with text_entries (e : entries) : list nat :=
  match e with
  | ENone g => g
  | EOne g1 k g2 g3 t g4 => g1 ++ text_key k ++ g2 ++ 58 :: g3 ++ text t ++ g4
  | ECons g1 k g2 g3 t g4 e => g1 ++ text_key k ++ g2 ++ 58 :: g3 ++ text t ++ g4 ++ 44 :: text_entries e
  end.
(** The value of a text. *)
Definition key_name (k : key) : list nat := match k with Bare w => w | Quoted _ s => s end.
Fixpoint value (t : tree) : doc :=
  match t with
  | TLit w => Lit w
  | TStr _ s => Str s
  | TArr i => Arr (values i)
  | TObj e => Obj (pairs e)
  end
with values (i : items) : list doc :=
  match i with INone _ => [] | IOne _ t _ => [value t] | ICons _ t _ i => value t :: values i end
with pairs (e : entries) : list (list nat * doc) :=
  match e with
  | ENone _ => []
  | EOne _ k _ _ t _ => [(key_name k, value t)]
  | ECons _ k _ _ t _ e => (key_name k, value t) :: pairs e
  end.

Section C94.
  Variable space : nat -> bool.
  Variable literal : list nat -> Prop.      (* JSON's numbers, true, false, null *)
  Variable encodable : nat -> Prop.         (* not a surrogate *)
  Hypothesis space_32 : space 32 = true.
  Hypothesis not_space : forall c, In c [34; 39; 44; 58; 91; 93; 123; 125] -> space c = false.

  Definition gap (g : list nat) : Prop := Forall (fun c => space c = true) g.
  (** Characters that need no escape in JSON. *)
  Definition harmless (c : nat) : Prop := 32 <= c /\ c <> 34 /\ c <> 92 /\ encodable c.
  Definition word_char (c : nat) : Prop :=
    harmless c /\ space c = false /\ ~ In c [39; 44; 58; 91; 93; 123; 125].
  Definition word (w : list nat) : Prop := w <> [] /\ Forall word_char w.

  (** ** Strict texts: JSON without escapes *)
  Definition json_gap (g : list nat) : Prop := Forall (fun c => In c [9; 10; 13; 32]) g.
  Definition strict_key (k : key) : Prop :=
    match k with Bare _ => False | Quoted q s => q = 34 /\ Forall harmless s end.
  Fixpoint strict (t : tree) : Prop :=
    match t with
    | TLit w => literal w
    | TStr q s => q = 34 /\ Forall harmless s
    | TArr i => strict_items i
    | TObj e => strict_entries e
    end
  with strict_items (i : items) : Prop :=
    match i with
    | INone g => json_gap g
    | IOne g1 t g2 => json_gap g1 /\ strict t /\ json_gap g2
    | ICons g1 t g2 i => json_gap g1 /\ strict t /\ json_gap g2 /\ strict_items i /\ forall g, i <> INone g
    end
  with strict_entries (e : entries) : Prop :=
    match e with
    | ENone g => json_gap g
    | EOne g1 k g2 g3 t g4 => json_gap g1 /\ strict_key k /\ json_gap g2 /\ json_gap g3 /\ strict t /\ json_gap g4
    | ECons g1 k g2 g3 t g4 e =>
        json_gap g1 /\ strict_key k /\ json_gap g2 /\ json_gap g3 /\ strict t /\ json_gap g4 /\ strict_entries e /\ forall g, e <> ENone g
    end.

  (** ** Loose texts *)
  (** Strings without quotes, apostrophes, backslashes and control characters, whose
      whitespace is single spaces, and that do not have both a comma or opening brace and
      a colon or closing bracket. *)
  Fixpoint tidy (s : list nat) : Prop :=
    match s with
    | [] => True
    | c :: s => (space c = true -> c = 32 /\ match s with d :: _ => space d = false | [] => True end) /\ tidy s
    end.
  Definition safe (s : list nat) : Prop :=
    Forall (fun c => harmless c /\ c <> 39) s /\ tidy s /\
    ((~ In 44 s /\ ~ In 123 s) \/ (~ In 58 s /\ ~ In 125 s /\ ~ In 93 s)).
  Definition a_quote (q : nat) : Prop := q = 34 \/ q = 39.
  Definition in_quotes (t : tree) : Prop := match t with TStr _ _ => True | _ => False end.
  (** A key without quotes must stand behind whitespace, or directly behind a brace if [f];
      whitespace or a quote must follow its colon. *)
  Definition loose_key (Q : nat -> Prop) (f : bool) (g1 : list nat) (k : key) (g3 : list nat) (t : tree) : Prop :=
    match k with
    | Bare w => word w /\ (f = true \/ g1 <> []) /\ (g3 <> [] \/ in_quotes t)
    | Quoted q s => Q q /\ safe s
    end.
  Definition some (g : list nat) : bool := match g with [] => false | _ => true end.
  (** [f]: the text stands at the beginning, behind a colon, or first in such a list (or
      behind a bracket and whitespace), and not behind the comma of a list. *)
  Fixpoint loose (Q : nat -> Prop) (f : bool) (t : tree) : Prop :=
    match t with
    | TLit w => literal w /\ word w
    | TStr q s => Q q /\ safe s
    | TArr i => loose_items Q f i
    | TObj e => loose_entries Q f e
    end
  with loose_items (Q : nat -> Prop) (f : bool) (i : items) : Prop :=
    match i with
    | INone g => gap g
    | IOne g1 t g2 => gap g1 /\ loose Q (f || some g1) t /\ gap g2
    | ICons g1 t g2 i => gap g1 /\ loose Q (f || some g1) t /\ gap g2 /\ loose_rest Q i
    end
  with loose_rest (Q : nat -> Prop) (i : items) : Prop :=                    (* behind a comma *)
    match i with
    | INone g => gap g
    | IOne g1 t g2 => gap g1 /\ loose Q false t /\ gap g2
    | ICons g1 t g2 i => gap g1 /\ loose Q false t /\ gap g2 /\ loose_rest Q i
    end
  with loose_entries (Q : nat -> Prop) (f : bool) (e : entries) : Prop :=
    match e with
    | ENone g => gap g
    | EOne g1 k g2 g3 t g4 => gap g1 /\ loose_key Q f g1 k g3 t /\ gap g2 /\ gap g3 /\ loose Q true t /\ gap g4
    | ECons g1 k g2 g3 t g4 e =>
        gap g1 /\ loose_key Q f g1 k g3 t /\ gap g2 /\ gap g3 /\ loose Q true t /\ gap g4 /\ loose_entries Q false e
    end.

  (** ** The passes on trees *)
  Definition map_key (fq : nat -> nat) (k : key) : key := match k with Bare w => Bare w | Quoted q s => Quoted (fq q) s end.
  Fixpoint tmap (fg : list nat -> list nat) (fq : nat -> nat) (t : tree) : tree :=
    match t with
    | TLit w => TLit w
    | TStr q s => TStr (fq q) s
    | TArr i => TArr (imap fg fq i)
    | TObj e => TObj (emap fg fq e)
    end
  with imap (fg : list nat -> list nat) (fq : nat -> nat) (i : items) : items :=
    match i with
    | INone g => INone (fg g)
    | IOne g1 t g2 => IOne (fg g1) (tmap fg fq t) (fg g2)
    | ICons g1 t g2 i => ICons (fg g1) (tmap fg fq t) (fg g2) (imap fg fq i)
    end
  with emap (fg : list nat -> list nat) (fq : nat -> nat) (e : entries) : entries :=
    match e with
    | ENone g => ENone (fg g)
    | EOne g1 k g2 g3 t g4 => EOne (fg g1) (map_key fq k) (fg g2) (fg g3) (tmap fg fq t) (fg g4)
    | ECons g1 k g2 g3 t g4 e => ECons (fg g1) (map_key fq k) (fg g2) (fg g3) (tmap fg fq t) (fg g4) (emap fg fq e)
    end.
  Fixpoint dt (t : tree) : tree :=
    match t with TArr i => TArr (di i) | TObj e => TObj (de e) | _ => t end
  with di (i : items) : items :=
    match i with
    | INone g => INone g
    | IOne g1 t g2 => IOne g1 (dt t) g2
    | ICons g1 t g2 i => match i with INone _ => IOne g1 (dt t) g2 | _ => ICons g1 (dt t) g2 (di i) end
    end
  with de (e : entries) : entries :=
    match e with
    | ENone g => ENone g
    | EOne g1 k g2 g3 t g4 => EOne g1 k g2 g3 (dt t) g4
    | ECons g1 k g2 g3 t g4 e => match e with ENone _ => EOne g1 k g2 g3 (dt t) g4 | _ => ECons g1 k g2 g3 (dt t) g4 (de e) end
    end.
  Definition bare_gap (k : key) (g : list nat) : list nat := match k with Bare _ => [] | _ => g end.
  Definition quoted (k : key) : key := match k with Bare w => Quoted 34 w | _ => k end.
  Fixpoint qk (t : tree) : tree :=
    match t with TArr i => TArr (qi i) | TObj e => TObj (qe e) | _ => t end
  with qi (i : items) : items :=
    match i with
    | INone g => INone g
    | IOne g1 t g2 => IOne g1 (qk t) g2
    | ICons g1 t g2 i => ICons g1 (qk t) g2 (qi i)
    end
  with qe (e : entries) : entries :=
    match e with
    | ENone g => ENone g
    | EOne g1 k g2 g3 t g4 => EOne (bare_gap k g1) (quoted k) (bare_gap k g2) g3 (qk t) g4
    | ECons g1 k g2 g3 t g4 e => ECons (bare_gap k g1) (quoted k) (bare_gap k g2) g3 (qk t) g4 (qe e)
    end.
  Definition norm (g : list nat) : list nat := match g with [] => [] | _ => [32] end.
  Definition idg (g : list nat) := g.
  Definition idq (q : nat) := q.
  Definition to34 (q : nat) : nat := 34.
  Definition repaired (t : tree) : tree := qk (dt (tmap norm idq (tmap idg to34 t))).

  (** ** Values are kept *)
  Lemma value_tmap fg fq : (forall t, value (tmap fg fq t) = value t) /\ (forall i, values (imap fg fq i) = values i) /\
    (forall e, pairs (emap fg fq e) = pairs e).
  Proof.
    assert (K : forall k, key_name (map_key fq k) = key_name k) by (intros []; reflexivity).
    apply trees_ind; intros; cbn [tmap imap emap qk qi qe value values pairs]; rewrite ?K; congruence.
  Qed.
  Lemma value_dt : (forall t, value (dt t) = value t) /\ (forall i, values (di i) = values i) /\ (forall e, pairs (de e) = pairs e).
  Proof.
    apply trees_ind; try (intros; cbn; congruence).
    - intros g1 t H g2 i IH. cbn [di]. destruct i; cbn [values] in *; rewrite ?H; try reflexivity; rewrite IH; reflexivity.
    - intros g1 k g2 g3 t H g4 e IH. cbn [de]. destruct e; cbn [pairs] in *; rewrite ?H; try reflexivity; rewrite IH; reflexivity.
  Qed.
  Lemma value_qk : (forall t, value (qk t) = value t) /\ (forall i, values (qi i) = values i) /\ (forall e, pairs (qe e) = pairs e).
  Proof.
    assert (K : forall k, key_name (quoted k) = key_name k) by (intros []; reflexivity).
    apply trees_ind; intros; cbn [tmap imap emap qk qi qe value values pairs]; rewrite ?K; congruence.
  Qed.
  Lemma value_repaired t : value (repaired t) = value t.
  Proof. unfold repaired. rewrite (proj1 value_qk), (proj1 value_dt), !(proj1 (value_tmap _ _)). reflexivity. Qed.

  (** ** The result is strict *)
  Lemma gap_norm g : gap (norm g).
  Proof. destruct g; constructor; [exact space_32|constructor]. Qed.
  Lemma jgap_norm g : json_gap (norm g).
  Proof. destruct g; constructor; [cbn; tauto|constructor]. Qed.
  Lemma safe_harmless s : safe s -> Forall harmless s.
  Proof. intros [F _]. eapply Forall_impl; [|exact F]. intros c H. apply H. Qed.
  Lemma word_harmless w : word w -> Forall harmless w.
  Proof. intros [_ F]. eapply Forall_impl; [|exact F]. intros c H. apply H. Qed.
  Lemma jgap_bare k g : json_gap g -> json_gap (bare_gap k g).
  Proof. destruct k; [constructor|auto]. Qed.
  Lemma strict_quoted Q f g1 k g3 t : loose_key Q f g1 k g3 t -> strict_key (quoted (map_key idq (map_key to34 k))).
  Proof. destruct k; cbn; [intros [W _]; split; [reflexivity|apply word_harmless, W]|intros [_ S]; split; [reflexivity|apply safe_harmless, S]]. Qed.
  Lemma loose_mono Q : (forall t f g, (f = true -> g = true) -> loose Q f t -> loose Q g t) /\
    (forall i, (forall f g, (f = true -> g = true) -> loose_items Q f i -> loose_items Q g i) /\
               (forall f, loose_rest Q i -> loose_items Q f i)) /\
    (forall e f g, (f = true -> g = true) -> loose_entries Q f e -> loose_entries Q g e).
  Proof.
    assert (LK : forall f g g1 k g3 t, (f = true -> g = true) -> loose_key Q f g1 k g3 t -> loose_key Q g g1 k g3 t).
    { intros f g g1 [w|q s] g3 t M; cbn; [|tauto]. intros (A & [B|B] & C); auto. }
    apply trees_ind; cbn; auto.
    - intros i [H _] f g M L. apply (H f); assumption.
    - intros g1 t H g2. split.
      + intros f g M (A & B & C). repeat split; try assumption. eapply H; [|exact B].
        destruct f; cbn; [rewrite M by reflexivity; reflexivity|]. intros ->. rewrite orb_true_r. reflexivity.
      + intros f (A & B & C). repeat split; try assumption. eapply H; [|exact B]. discriminate.
    - intros g1 t H g2 i [H1 H2]. split.
      + intros f g M (A & B & C & D). repeat split; try assumption. eapply H; [|exact B].
        destruct f; cbn; [rewrite M by reflexivity; reflexivity|]. intros ->. rewrite orb_true_r. reflexivity.
      + intros f (A & B & C & D). repeat split; try assumption. eapply H; [|exact B]. discriminate.
    - intros g1 k g2 g3 t H g4 f g M (A & B & C & D & E & F). repeat split; try assumption. apply (LK f); assumption.
    - intros g1 k g2 g3 t H g4 e IH f g M (A & B & C & D & E & F & G). repeat split; try assumption. apply (LK f); assumption.
  Qed.
  Definition comp_i (i : items) := qi (di (imap norm idq (imap idg to34 i))).
  Definition comp_e (e : entries) := qe (de (emap norm idq (emap idg to34 e))).
  Lemma strict_repaired Q : (forall t f, loose Q f t -> strict (repaired t)) /\
    (forall i f, loose_items Q f i -> strict_items (comp_i i)) /\
    (forall e f, loose_entries Q f e -> strict_entries (comp_e e)).
  Proof.
    apply trees_ind.
    - intros w f [L _]. exact L.
    - intros q s f [_ S]. split; [reflexivity|apply safe_harmless, S].
    - intros i H f L. apply (H f L).
    - intros e H f L. apply (H f L).
    - intros g f L. apply jgap_norm.
    - intros g1 t H g2 f (A & B & C). split; [apply jgap_norm|]. split; [apply (H _ B)|apply jgap_norm].
    - intros g1 t H g2 i IH f (A & B & C & D).
      specialize (IH false (proj2 (proj1 (proj2 (loose_mono Q)) i) false D)).
      unfold comp_i in *. cbn [imap di]. destruct i; cbn [imap di qi strict_items] in *.
      + repeat split; try apply jgap_norm. apply (H _ B).
      + repeat split; try apply jgap_norm; try (apply (H _ B)); try (apply IH). discriminate.
      + repeat split; try apply jgap_norm; [apply (H _ B)|exact IH|]. intro g. destruct (imap norm idq (imap idg to34 i)); discriminate.
    - intros g f L. apply jgap_norm.
    - intros g1 k g2 g3 t H g4 f (A & B & C & D & E & F). unfold comp_e. cbn.
      repeat split; try apply jgap_norm; try apply jgap_bare, jgap_norm; [apply (strict_quoted Q f g1 k g3 t B)|apply (H _ E)].
    - intros g1 k g2 g3 t H g4 e IH f (A & B & C & D & E & F & G).
      specialize (IH false G).
      unfold comp_e in *. cbn [emap de]. destruct e; cbn [emap de qe strict_entries] in *.
      + repeat split; try apply jgap_norm; try apply jgap_bare, jgap_norm; [apply (strict_quoted Q f g1 k g3 t B)|apply (H _ E)].
      + repeat split; try apply jgap_norm; try apply jgap_bare, jgap_norm; try (apply (strict_quoted Q f g1 k g3 t B)); try (apply (H _ E)); try (apply IH). discriminate.
      + repeat split; try apply jgap_norm; try apply jgap_bare, jgap_norm; [apply (strict_quoted Q f g1 k g3 t B)|apply (H _ E)|exact IH|].
        intro g. destruct (emap norm idq (emap idg to34 e)); discriminate.
  Qed.

  (** ** Loose texts stay loose *)
  Lemma loose_tmap (Q Q' : nat -> Prop) fg fq : (forall g, gap g -> gap (fg g)) -> (forall g, some (fg g) = some g) ->
    (forall q, Q q -> Q' (fq q)) ->
    (forall t f, loose Q f t -> loose Q' f (tmap fg fq t)) /\
    (forall i, (forall f, loose_items Q f i -> loose_items Q' f (imap fg fq i)) /\
               (loose_rest Q i -> loose_rest Q' (imap fg fq i))) /\
    (forall e f, loose_entries Q f e -> loose_entries Q' f (emap fg fq e)).
  Proof.
    intros G S QQ.
    assert (SN : forall g, g <> [] -> fg g <> []).
    { intros g N. specialize (S g). destruct (fg g), g; cbn in S; congruence. }
    assert (LK : forall f g1 k g3 t, loose_key Q f g1 k g3 t -> loose_key Q' f (fg g1) (map_key fq k) (fg g3) (tmap fg fq t)).
    { intros f g1 [w|q s] g3 t; cbn [loose_key map_key].
      - intros (A & B & C). repeat split; try apply A; [destruct B; auto|]. destruct C as [C|C]; [auto|].
        right. destruct t; cbn in *; tauto.
      - intros [A B]. split; auto. }
    apply trees_ind; cbn [loose loose_items loose_rest loose_entries tmap imap emap].
    - intros w f H. exact H.
    - intros q s f [A B]. auto.
    - intros i [H _] f L. apply H, L.
    - intros e H f L. apply H, L.
    - intros g. split; intros; apply G; assumption.
    - intros g1 t H g2. split; intros; [rewrite S|]; firstorder auto.
    - intros g1 t H g2 i [H1 H2]. split; intros; [rewrite S|]; firstorder auto.
    - intros g f L. apply G, L.
    - intros g1 k g2 g3 t H g4 f (A & B & C & D & E & F). repeat split; auto.
    - intros g1 k g2 g3 t H g4 e IH f (A & B & C & D & E & F & J). repeat split; auto.
  Qed.
  Lemma loose_dt Q :
    (forall t f, loose Q f t -> loose Q f (dt t)) /\
    (forall i, (forall f, loose_items Q f i -> loose_items Q f (di i)) /\ (loose_rest Q i -> loose_rest Q (di i))) /\
    (forall e f, loose_entries Q f e -> loose_entries Q f (de e)).
  Proof.
    assert (LK : forall f g1 k g3 t, loose_key Q f g1 k g3 t -> loose_key Q f g1 k g3 (dt t)).
    { intros f g1 [w|q s] g3 t; cbn [loose_key]; [|auto]. intros (A & B & C). repeat split; try apply A; [exact B|].
      destruct C as [C|C]; [auto|]. right. destruct t; cbn in *; tauto. }
    apply trees_ind; cbn [dt].
    - intros w f H. exact H.
    - intros q s f H. exact H.
    - intros i [H _] f L. apply H, L.
    - intros e H f L. apply H, L.
    - intros g. split; auto.
    - intros g1 t H g2. cbn [di loose_items loose_rest]. split; intros; firstorder auto.
    - intros g1 t H g2 i [H1 H2]. cbn [di]. destruct i; cbn [loose_items loose_rest] in *.
      + split; intros; firstorder auto.
      + split; intros; firstorder auto.
      + split.
        * intros f (A & B & C & D). specialize (H2 D). repeat split; auto.
        * intros (A & B & C & D). specialize (H2 D). repeat split; auto.
    - intros g f L. exact L.
    - intros g1 k g2 g3 t H g4 f (A & B & C & D & E & F). cbn [de loose_entries]. repeat split; auto.
    - intros g1 k g2 g3 t H g4 e IH f (A & B & C & D & E & F & J). specialize (IH false J). cbn [de].
      destruct e; cbn [loose_entries] in *; repeat split; auto; apply IH || apply J.
  Qed.

  (** ** Pass 1: quotes *)
  Lemma quotes_same s : ~ In 39 s -> quotes s = s.
  Proof.
    intro N. unfold quotes in *. induction s as [|c s IH]; [reflexivity|]. cbn [map]. rewrite IH by (intro; apply N; right; assumption).
    destruct (c =? 39) eqn:E; [apply Nat.eqb_eq in E; exfalso; apply N; left; exact E|reflexivity].
  Qed.
  Lemma gap_39 g : gap g -> ~ In 39 g.
  Proof.
    intros G I. unfold gap in G. rewrite Forall_forall in G. specialize (G _ I). rewrite not_space in G; [discriminate|cbn; tauto].
  Qed.
  Lemma word_39 w : word w -> ~ In 39 w.
  Proof. intros [_ F] I. rewrite Forall_forall in F. destruct (F _ I) as (_ & _ & N). apply N. cbn. tauto. Qed.
  Lemma safe_39 s : safe s -> ~ In 39 s.
  Proof. intros [F _] I. rewrite Forall_forall in F. destruct (F _ I) as (_ & N). congruence. Qed.
  Lemma quotes_app a b : quotes (a ++ b) = quotes a ++ quotes b.
  Proof. apply map_app. Qed.
  Lemma quotes_cons c b : c <> 39 -> quotes (c :: b) = c :: quotes b.
  Proof. intro N. unfold quotes. cbn [map]. apply Nat.eqb_neq in N. rewrite N. reflexivity. Qed.
  Lemma quotes_str q s : a_quote q -> safe s -> quotes (q :: s ++ [q]) = 34 :: s ++ [34].
  Proof.
    intros Q S. change (q :: s ++ [q]) with ([q] ++ s ++ [q]). rewrite !quotes_app, (quotes_same s) by (apply safe_39, S).
    destruct Q as [->| ->]; reflexivity.
  Qed.
  Lemma quotes_text :
    (forall t f, loose a_quote f t -> quotes (text t) = text (tmap idg to34 t)) /\
    (forall i f, loose_items a_quote f i -> quotes (text_items i) = text_items (imap idg to34 i)) /\
    (forall e f, loose_entries a_quote f e -> quotes (text_entries e) = text_entries (emap idg to34 e)).
  Proof.
    assert (LK : forall f g1 k g3 t, loose_key a_quote f g1 k g3 t -> quotes (text_key k) = text_key (map_key to34 k)).
    { intros f g1 [w|q s] g3 t; cbn [loose_key map_key text_key]; [intros [W _]; apply quotes_same, word_39, W|].
      intros [A B]. apply quotes_str; assumption. }
    assert (GP : forall g, gap g -> quotes g = g) by (intros; apply quotes_same, gap_39; assumption).
    apply trees_ind; cbn [text text_items text_entries tmap imap emap].
    - intros w f [_ W]. apply quotes_same, word_39, W.
    - intros q s f [A B]. apply quotes_str; assumption.
    - intros i H f L. rewrite quotes_cons, quotes_app, (H f L) by discriminate. reflexivity.
    - intros e H f L. rewrite quotes_cons, quotes_app, (H f L) by discriminate. reflexivity.
    - intros g f L. apply GP, L.
    - intros g1 t H g2 f (A & B & C). rewrite !quotes_app, (H _ B), (GP g1 A), (GP g2 C). reflexivity.
    - intros g1 t H g2 i IH f (A & B & C & D).
      rewrite !quotes_app, quotes_cons, (H _ B), (GP g1 A), (GP g2 C), (IH false) by (discriminate || apply (loose_mono a_quote), D). reflexivity.
    - intros g f L. apply GP, L.
    - intros g1 k g2 g3 t H g4 f (A & B & C & D & E & F).
      rewrite !quotes_app, quotes_cons, !quotes_app, (H _ E), (LK _ _ _ _ _ B), (GP g1 A), (GP g2 C), (GP g3 D), (GP g4 F) by discriminate. reflexivity.
    - intros g1 k g2 g3 t H g4 e IH f (A & B & C & D & E & F & G).
      rewrite !quotes_app, quotes_cons, !quotes_app, quotes_cons, (H _ E), (LK _ _ _ _ _ B), (GP g1 A), (GP g2 C), (GP g3 D), (GP g4 F), (IH false G) by discriminate. reflexivity.
  Qed.

  (** ** Texts begin with visible characters *)
  Definition nsp (k : list nat) : Prop := match k with c :: _ => space c = false | [] => True end.
  Definition visible (c : nat) : Prop := space c = false /\ c <> 58 /\ c <> 44 /\ closer c = false.
  Lemma word_visible w : word w -> exists c r, w = c :: r /\ visible c.
  Proof.
    intros [N F]. destruct w as [|c r]; [congruence|]. exists c, r. split; [reflexivity|]. inversion F as [|? ? (A & B & C) _]; subst.
    repeat split; try (intros ->; apply C; cbn; tauto); [exact B|]. unfold closer.
    destruct (c =? 125) eqn:X; [apply Nat.eqb_eq in X; subst; exfalso; apply C; cbn; tauto|].
    destruct (c =? 93) eqn:Y; [apply Nat.eqb_eq in Y; subst; exfalso; apply C; cbn; tauto|]. reflexivity.
  Qed.
  Lemma quote_visible q : a_quote q -> visible q.
  Proof. intros [->| ->]; (split; [apply not_space; cbn; tauto|]); repeat split; discriminate. Qed.
  Lemma text_visible (Q : nat -> Prop) t f : (forall q, Q q -> a_quote q) -> loose Q f t -> exists c r, text t = c :: r /\ visible c.
  Proof.
    intros QA. destruct t as [w|q s|i|e]; cbn [loose text].
    - intros [_ W]. apply word_visible, W.
    - intros [A _]. exists q, (s ++ [q]). split; [reflexivity|apply quote_visible, QA, A].
    - intros _. eexists _, _. split; [reflexivity|]. split; [apply not_space; cbn; tauto|repeat split; discriminate].
    - intros _. eexists _, _. split; [reflexivity|]. split; [apply not_space; cbn; tauto|repeat split; discriminate].
  Qed.
  Lemma key_visible (Q : nat -> Prop) f g1 k g3 t : (forall q, Q q -> a_quote q) -> loose_key Q f g1 k g3 t -> exists c r, text_key k = c :: r /\ visible c.
  Proof.
    intros QA. destruct k as [w|q s]; cbn [loose_key text_key].
    - intros [W _]. apply word_visible, W.
    - intros [A _]. exists q, (s ++ [q]). split; [reflexivity|apply quote_visible, QA, A].
  Qed.

  (** ** Pass 2: whitespace *)
  Lemma collapse_gap g k : gap g -> nsp k -> collapse space false (g ++ k) = norm g ++ collapse space false k.
  Proof.
    assert (T : forall g, gap g -> nsp k -> collapse space true (g ++ k) = collapse space false k).
    { clear g. induction g as [|c g IH]; intros G N; cbn [app].
      - destruct k as [|c k]; [reflexivity|]. cbn in *. rewrite N. reflexivity.
      - inversion G as [|? ? S G']; subst. cbn [collapse]. rewrite S. apply IH; assumption. }
    intros G N. destruct g as [|c g]; [reflexivity|]. inversion G as [|? ? S G']; subst. cbn [app collapse norm]. rewrite S, T by assumption. reflexivity.
  Qed.
  Lemma collapse_cons c k : space c = false -> collapse space false (c :: k) = c :: collapse space false k.
  Proof. intro S. cbn [collapse]. rewrite S. reflexivity. Qed.
  Lemma collapse_word w k : Forall word_char w -> collapse space false (w ++ k) = w ++ collapse space false k.
  Proof.
    intro F. induction F as [|c w (_ & S & _) F IH]; [reflexivity|]. cbn [app]. rewrite collapse_cons, IH by exact S. reflexivity.
  Qed.
  Lemma collapse_tidy s k b : tidy s -> nsp k -> (b = true -> nsp (s ++ k)) -> collapse space b (s ++ k) = s ++ collapse space false k.
  Proof.
    revert b. induction s as [|c s IH]; intros b T N B; cbn [app].
    - cbn [app] in B. destruct b; [|reflexivity]. specialize (B eq_refl). destruct k as [|c k]; [reflexivity|].
      cbn in *. rewrite B. reflexivity.
    - destruct T as [TC T]. cbn [collapse]. destruct (space c) eqn:S.
      + destruct (TC eq_refl) as [-> H]. destruct b; [specialize (B eq_refl); cbn in B; congruence|].
        rewrite (IH true T N); [reflexivity|]. intros _. destruct s as [|d s]; [exact N|exact H].
      + rewrite (IH false T N); [reflexivity|discriminate].
  Qed.
  Lemma collapse_str q s k : a_quote q -> safe s -> collapse space false ((q :: s ++ [q]) ++ k) = (q :: s ++ [q]) ++ collapse space false k.
  Proof.
    intros Q (F & T & _). destruct (quote_visible q Q) as [S _]. cbn [app]. rewrite collapse_cons by exact S.
    rewrite <- app_assoc. cbn [app]. rewrite (collapse_tidy s (q :: k) false T); [|exact S|discriminate].
    rewrite collapse_cons by exact S. rewrite <- app_assoc. reflexivity.
  Qed.
  Lemma nsp_app c r k : space c = false -> nsp ((c :: r) ++ k).
  Proof. intro S. exact S. Qed.
  Lemma nsp_text (Q : nat -> Prop) f t k : (forall q, Q q -> a_quote q) -> loose Q f t -> nsp (text t ++ k).
  Proof. intros QA L. destruct (text_visible Q t f QA L) as (c & r & -> & V & _). exact V. Qed.
  Lemma nsp_key (Q : nat -> Prop) f g1 key g3 t k : (forall q, Q q -> a_quote q) -> loose_key Q f g1 key g3 t -> nsp (text_key key ++ k).
  Proof. intros QA L. destruct (key_visible Q f g1 key g3 t QA L) as (c & r & -> & V & _). exact V. Qed.
  Lemma sp c : In c [34; 39; 44; 58; 91; 93; 123; 125] -> nsp [c] /\ space c = false.
  Proof. intro I. split; apply not_space, I. Qed.

  Lemma collapse_text (Q : nat -> Prop) : (forall q, Q q -> a_quote q) ->
    (forall t f k, loose Q f t -> collapse space false (text t ++ k) = text (tmap norm idq t) ++ collapse space false k) /\
    (forall i f c k, loose_items Q f i -> space c = false ->
       collapse space false (text_items i ++ c :: k) = text_items (imap norm idq i) ++ c :: collapse space false k) /\
    (forall e f c k, loose_entries Q f e -> space c = false ->
       collapse space false (text_entries e ++ c :: k) = text_entries (emap norm idq e) ++ c :: collapse space false k).
  Proof.
    intro QA.
    assert (LK : forall f g1 key g3 t k, loose_key Q f g1 key g3 t ->
              collapse space false (text_key key ++ k) = text_key (map_key idq key) ++ collapse space false k).
    { intros f g1 [w|q s] g3 t k; cbn [loose_key map_key text_key]; [intros [[_ F] _]; apply collapse_word, F|].
      intros [A B]. apply collapse_str; auto. }
    assert (SP : forall c, In c [34; 39; 44; 58; 91; 93; 123; 125] -> space c = false) by exact not_space.
    apply trees_ind; cbn [text text_items text_entries tmap imap emap].
    - intros w f k [_ [_ F]]. apply collapse_word, F.
    - intros q s f k [A B]. apply collapse_str; auto.
    - intros i H f k L. cbn [app]. rewrite collapse_cons by (apply SP; cbn; tauto). rewrite <- ?app_assoc. cbn [app].
      rewrite (H f) by (exact L || (apply SP; cbn; tauto)). reflexivity.
    - intros e H f k L. cbn [app]. rewrite collapse_cons by (apply SP; cbn; tauto). rewrite <- ?app_assoc. cbn [app].
      rewrite (H f) by (exact L || (apply SP; cbn; tauto)). reflexivity.
    - intros g f c k G S. rewrite collapse_gap by assumption. rewrite collapse_cons by exact S. reflexivity.
    - intros g1 t H g2 f c k (A & B & C) S. rewrite <- ?app_assoc.
      rewrite collapse_gap by (assumption || (eapply nsp_text; eassumption)).
      rewrite (H _ _ B). rewrite collapse_gap by assumption. rewrite collapse_cons by exact S. reflexivity.
    - intros g1 t H g2 i IH f c k (A & B & C & D) S. rewrite <- ?app_assoc. cbn [app].
      rewrite collapse_gap by (assumption || (eapply nsp_text; eassumption)).
      rewrite (H _ _ B). rewrite collapse_gap by (assumption || (apply SP; cbn; tauto)). rewrite collapse_cons by (apply SP; cbn; tauto).
      rewrite (IH false) by (exact S || apply (loose_mono Q), D). reflexivity.
    - intros g f c k G S. rewrite collapse_gap by assumption. rewrite collapse_cons by exact S. reflexivity.
    - intros g1 key g2 g3 t H g4 f c k (A & B & C & D & E & F) S. rewrite <- ?app_assoc. cbn [app]. rewrite <- ?app_assoc.
      rewrite collapse_gap by (assumption || (eapply nsp_key; eassumption)). rewrite (LK _ _ _ _ _ _ B).
      rewrite collapse_gap by (assumption || (apply SP; cbn; tauto)). rewrite collapse_cons by (apply SP; cbn; tauto).
      rewrite collapse_gap by (assumption || (eapply nsp_text; eassumption)).
      rewrite (H _ _ E). rewrite collapse_gap by assumption. rewrite collapse_cons by exact S. reflexivity.
    - intros g1 key g2 g3 t H g4 e IH f c k (A & B & C & D & E & F & G) S. rewrite <- ?app_assoc. cbn [app]. rewrite <- ?app_assoc. cbn [app].
      rewrite collapse_gap by (assumption || (eapply nsp_key; eassumption)). rewrite (LK _ _ _ _ _ _ B).
      rewrite collapse_gap by (assumption || (apply SP; cbn; tauto)). rewrite collapse_cons by (apply SP; cbn; tauto).
      rewrite collapse_gap by (assumption || (eapply nsp_text; eassumption)).
      rewrite (H _ _ E). rewrite collapse_gap by (assumption || (apply SP; cbn; tauto)). rewrite collapse_cons by (apply SP; cbn; tauto).
      rewrite (IH false) by assumption. reflexivity.
  Qed.

  (** ** Pass 3: trailing commas *)
  Lemma closer_cases c : closer c = true -> c = 125 \/ c = 93.
  Proof. unfold closer. rewrite orb_true_iff, !Nat.eqb_eq. tauto. Qed.
  Lemma closer_sp c : closer c = true -> space c = false /\ c <> 44.
  Proof. intro C. destruct (closer_cases c C) as [->| ->]; (split; [apply not_space; cbn; tauto|discriminate]). Qed.
  Lemma drop_gap g k : gap g -> drop_ws space (g ++ k) = drop_ws space k.
  Proof. intro G. induction G as [|c g S G IH]; [reflexivity|]. cbn. rewrite S. exact IH. Qed.
  Lemma drop_nsp k : nsp k -> drop_ws space k = k.
  Proof. destruct k as [|c k]; [reflexivity|]. cbn. intros ->. reflexivity. Qed.
  Lemma trailing_cons c k : c <> 44 -> trailing space false (c :: k) = c :: trailing space false k.
  Proof. intro N. apply Nat.eqb_neq in N. cbn [trailing andb]. rewrite N. reflexivity. Qed.
  Lemma trailing_plain w k : ~ In 44 w -> trailing space false (w ++ k) = w ++ trailing space false k.
  Proof.
    intro N. induction w as [|c w IH]; [reflexivity|]. cbn [app]. rewrite trailing_cons by (intros ->; apply N; left; reflexivity).
    rewrite IH by (intro; apply N; right; assumption). reflexivity.
  Qed.
  Lemma gap_44 g : gap g -> ~ In 44 g.
  Proof.
    intros G I. unfold gap in G. rewrite Forall_forall in G. specialize (G _ I). rewrite not_space in G; [discriminate|cbn; tauto].
  Qed.
  Lemma word_44 w : Forall word_char w -> ~ In 44 w.
  Proof. intros F I. rewrite Forall_forall in F. destruct (F _ I) as (_ & _ & N). apply N. cbn. tauto. Qed.
  Lemma trailing_skip g c k : gap g -> space c = false -> c <> 44 -> trailing space true (g ++ c :: k) = c :: trailing space false k.
  Proof.
    intros G S N. apply Nat.eqb_neq in N. induction G as [|d g D G IH]; cbn [app trailing andb].
    - rewrite S, N. reflexivity.
    - rewrite D. exact IH.
  Qed.
  Lemma trailing_comma r : closer_next space r = false -> trailing space false (44 :: r) = 44 :: trailing space false r.
  Proof. intro C. cbn [trailing andb]. rewrite C. reflexivity. Qed.
  Lemma trailing_quiet s q k : ~ In 125 s -> ~ In 93 s -> a_quote q ->
    trailing space false (s ++ q :: k) = s ++ trailing space false (q :: k).
  Proof.
    intros A B Q. induction s as [|c s IH]; [reflexivity|]. cbn [app].
    assert (IH' : trailing space false (s ++ q :: k) = s ++ trailing space false (q :: k)).
    { apply IH; intro; [apply A|apply B]; right; assumption. }
    destruct (Nat.eq_dec c 44) as [->|N]; [|rewrite trailing_cons, IH' by exact N; reflexivity].
    rewrite trailing_comma, IH'; [reflexivity|]. unfold closer_next.
    assert (X : forall d, In d s \/ d = q -> closer d = false).
    { intros d H. destruct (closer d) eqn:C; [|reflexivity]. exfalso. destruct (closer_cases d C) as [->| ->].
      - destruct H as [H| <-]; [apply A; right; exact H|]. destruct Q; discriminate.
      - destruct H as [H| <-]; [apply B; right; exact H|]. destruct Q; discriminate. }
    clear - X Q not_space. induction s as [|d s IH]; cbn [app drop_ws].
    - destruct (quote_visible q Q) as [S _]. rewrite S. apply X. auto.
    - destruct (space d); [apply IH; intros e [H|H]; apply X; cbn; tauto|]. apply X. cbn. tauto.
  Qed.
  Lemma trailing_str q s k : a_quote q -> safe s ->
    trailing space false ((q :: s ++ [q]) ++ k) = (q :: s ++ [q]) ++ trailing space false k.
  Proof.
    intros Q (_ & _ & S). assert (N : q <> 44) by (destruct Q; subst; discriminate).
    cbn [app]. rewrite trailing_cons, <- !app_assoc by exact N. cbn [app].
    assert (E : trailing space false (s ++ q :: k) = s ++ trailing space false (q :: k)).
    { destruct S as [[A _]|(_ & A & B)]; [apply trailing_plain, A|apply trailing_quiet; assumption]. }
    rewrite E, trailing_cons by exact N. reflexivity.
  Qed.
  Lemma closer_next_visible g c r : gap g -> visible c -> closer_next space (g ++ c :: r) = false.
  Proof. intros G (S & _ & _ & C). unfold closer_next. rewrite drop_gap by exact G. cbn. rewrite S. exact C. Qed.
  Lemma closer_next_closer g c r : gap g -> closer c = true -> closer_next space (g ++ c :: r) = true.
  Proof. intros G C. unfold closer_next. rewrite drop_gap by exact G. cbn. rewrite (proj1 (closer_sp c C)). exact C. Qed.

  Lemma trailing_text (Q : nat -> Prop) : (forall q, Q q -> a_quote q) ->
    (forall t f k, loose Q f t -> trailing space false (text t ++ k) = text (dt t) ++ trailing space false k) /\
    (forall i f c k, loose_items Q f i -> closer c = true ->
       trailing space false (text_items i ++ c :: k) = text_items (di i) ++ c :: trailing space false k) /\
    (forall e f c k, loose_entries Q f e -> closer c = true ->
       trailing space false (text_entries e ++ c :: k) = text_entries (de e) ++ c :: trailing space false k).
  Proof.
    intro QA.
    assert (GP : forall g k, gap g -> trailing space false (g ++ k) = g ++ trailing space false k).
    { intros g k G. apply trailing_plain, gap_44, G. }
    assert (LK : forall f g1 key g3 t k, loose_key Q f g1 key g3 t ->
              trailing space false (text_key key ++ k) = text_key key ++ trailing space false k).
    { intros f g1 [w|q s] g3 t k; cbn [loose_key text_key]; [intros [[_ F] _]; apply trailing_plain, word_44, F|].
      intros [A B]. apply trailing_str; auto. }
    assert (CL : forall c k, closer c = true -> trailing space false (c :: k) = c :: trailing space false k).
    { intros c k C. apply trailing_cons, closer_sp, C. }
    apply trees_ind; cbn [text text_items text_entries dt].
    - intros w f k [_ [_ F]]. apply trailing_plain, word_44, F.
    - intros q s f k [A B]. apply trailing_str; auto.
    - intros i H f k L. cbn [app]. rewrite trailing_cons by discriminate. rewrite <- ?app_assoc. cbn [app].
      rewrite (H f) by (exact L || reflexivity). cbn [text]. cbn [app]. rewrite <- ?app_assoc. reflexivity.
    - intros e H f k L. cbn [app]. rewrite trailing_cons by discriminate. rewrite <- ?app_assoc. cbn [app].
      rewrite (H f) by (exact L || reflexivity). cbn [text]. cbn [app]. rewrite <- ?app_assoc. reflexivity.
    - intros g f c k G S. rewrite GP, CL by assumption. reflexivity.
    - intros g1 t H g2 f c k (A & B & C) S. cbn [di text_items]. rewrite <- ?app_assoc. rewrite GP, (H _ _ B), GP, CL by assumption. reflexivity.
    - intros g1 t H g2 i IH f c k (A & B & C & D) S. rewrite <- ?app_assoc. cbn [app].
      rewrite GP, (H _ _ B), GP by assumption. assert (LI := proj2 (proj1 (proj2 (loose_mono Q)) i) false D).
      cbn [di]. destruct i as [g|h1 u h2|h1 u h2 j].
      + cbn [text_items]. cbn [trailing andb]. change (44 =? 44) with true. cbn [andb].
        rewrite closer_next_closer by assumption. destruct (closer_sp c S) as [S1 S2].
        rewrite trailing_skip by assumption. rewrite <- ?app_assoc. reflexivity.
      + rewrite trailing_comma.
        * rewrite (IH false c k LI S). cbn [text_items]. rewrite <- ?app_assoc. cbn [app]. reflexivity.
        * destruct LI as (G & L & _). destruct (text_visible Q u _ QA L) as (x & r & E & V). cbn [text_items].
          rewrite <- ?app_assoc, E. cbn [app]. apply closer_next_visible; assumption.
      + rewrite trailing_comma.
        * rewrite (IH false c k LI S). cbn [text_items]. rewrite <- ?app_assoc. cbn [app]. reflexivity.
        * destruct LI as (G & L & _). destruct (text_visible Q u _ QA L) as (x & r & E & V). cbn [text_items].
          rewrite <- ?app_assoc, E. cbn [app]. apply closer_next_visible; assumption.
    - intros g f c k G S. rewrite GP, CL by assumption. reflexivity.
    - intros g1 key g2 g3 t H g4 f c k (A & B & C & D & E & F) S. cbn [de text_entries]. rewrite <- ?app_assoc. cbn [app]. rewrite <- ?app_assoc.
      rewrite GP, (LK _ _ _ _ _ _ B), GP, trailing_cons, GP, (H _ _ E), GP, CL by (assumption || discriminate). reflexivity.
    - intros g1 key g2 g3 t H g4 e IH f c k (A & B & C & D & E & F & LI) S. rewrite <- ?app_assoc. cbn [app]. rewrite <- ?app_assoc. cbn [app].
      rewrite GP, (LK _ _ _ _ _ _ B), GP, trailing_cons, GP, (H _ _ E), GP by (assumption || discriminate).
      cbn [de]. destruct e as [g|h1 ky h2 h3 u h4|h1 ky h2 h3 u h4 j].
      + cbn [text_entries]. cbn [trailing andb]. change (44 =? 44) with true. cbn [andb].
        rewrite closer_next_closer by assumption. destruct (closer_sp c S) as [S1 S2].
        rewrite trailing_skip by assumption. rewrite <- ?app_assoc. cbn [app]. rewrite <- ?app_assoc. reflexivity.
      + rewrite trailing_comma.
        * rewrite (IH false c k LI S). cbn [text_entries]. rewrite <- ?app_assoc. cbn [app]. rewrite <- ?app_assoc. cbn [app]. reflexivity.
        * destruct LI as (G & L & _). destruct (key_visible Q _ _ _ _ _ QA L) as (x & r & X & V). cbn [text_entries].
          rewrite <- ?app_assoc, X. cbn [app]. apply closer_next_visible; assumption.
      + rewrite trailing_comma.
        * rewrite (IH false c k LI S). cbn [text_entries]. rewrite <- ?app_assoc. cbn [app]. rewrite <- ?app_assoc. cbn [app]. reflexivity.
        * destruct LI as (G & L & _). destruct (key_visible Q _ _ _ _ _ QA L) as (x & r & X & V). cbn [text_entries].
          rewrite <- ?app_assoc, X. cbn [app]. apply closer_next_visible; assumption.
  Qed.

  (** ** Pass 4: keys *)
  Lemma drop_shorter s : length (drop_ws space s) <= length s.
  Proof. induction s as [|c s IH]; cbn; [lia|]. destruct (space c); cbn; lia. Qed.
  Lemma run_app s a b : take_run space s = (a, b) -> s = a ++ b.
  Proof.
    revert a. induction s as [|c s IH]; intros a; cbn; [intros [= <- <-]; reflexivity|].
    destruct (_ || _); [intros [= <- <-]; reflexivity|]. destruct (take_run space s) as [a' b']. intros [= <- <-].
    rewrite (IH a' eq_refl) at 1. reflexivity.
  Qed.
  Lemma last_colon_app s a b : last_colon s = Some (a, b) -> s = a ++ 58 :: b.
  Proof.
    revert a. induction s as [|c s IH]; intro a; cbn; [discriminate|].
    destruct (last_colon s) as [[a' b']|]; [intros [= <- <-]; cbn; rewrite <- (IH a' eq_refl); reflexivity|].
    destruct (c =? 58) eqn:C; [|discriminate]. apply Nat.eqb_eq in C. intros [= <- <-]. subst. reflexivity.
  Qed.
  Lemma match_shorter s k r : match_key space s = Some (k, r) -> length r <= length s.
  Proof.
    unfold match_key. destruct (take_run space (drop_ws space s)) as [run r1] eqn:T. apply run_app in T.
    assert (L : length run + length r1 <= length s).
    { rewrite <- app_length, <- T. apply drop_shorter. }
    destruct run as [|x run]; [discriminate|].
    assert (X : match last_colon (x :: run) with Some ([], _) | None => None | Some (k, rest) => Some (k, rest ++ r1) end = Some (k, r) -> length r <= length s).
    { destruct (last_colon (x :: run)) as [[[|y a] b]|] eqn:C; try discriminate. intros [= <- <-].
      apply last_colon_app in C. apply (f_equal (@length nat)) in C. rewrite app_length in *. cbn in *. lia. }
    assert (D := drop_shorter r1).
    destruct (drop_ws space r1) as [|d r2]; [exact X|].
    destruct (Nat.eq_dec d 58) as [->|N].
    - intros [= <- <-]. cbn in *. lia.
    - do 59 (destruct d as [|d]; [first [exact X|exfalso; apply N; reflexivity]|]). exact X.
  Qed.
  Lemma keys_fuel s : forall n m, length s <= n -> length s <= m -> keys_from space n s = keys_from space m s.
  Proof.
    assert (X : forall N s n m, length s <= N -> length s <= n -> length s <= m -> keys_from space n s = keys_from space m s).
    { clear s. induction N as [|N IH]; intros s n m A B C.
      - destruct s; [|cbn in A; lia]. destruct n, m; reflexivity.
      - destruct s as [|c s]; [destruct n, m; reflexivity|]. cbn in A, B, C. destruct n as [|n]; [lia|]. destruct m as [|m]; [lia|].
        cbn [keys_from]. destruct (opens c); [|f_equal; apply IH; lia].
        destruct (match_key space s) as [[k r]|] eqn:M; [|f_equal; apply IH; lia].
        apply match_shorter in M. do 3 f_equal. f_equal. f_equal. apply IH; lia. }
    intros n m A B. apply (X (length s)); lia.
  Qed.
  Notation K := (keys space).
  Lemma keys_plain c r : opens c = false -> K (c :: r) = c :: K r.
  Proof. intro O. unfold keys. cbn [length keys_from]. rewrite O. reflexivity. Qed.
  Lemma keys_none c r : match_key space r = None -> K (c :: r) = c :: K r.
  Proof. intro M. unfold keys. cbn [length keys_from]. rewrite M. destruct (opens c); reflexivity. Qed.
  Lemma keys_some c r k r' : opens c = true -> match_key space r = Some (k, r') -> K (c :: r) = c :: 34 :: k ++ 34 :: 58 :: K r'.
  Proof.
    intros O M. unfold keys. cbn [length keys_from]. rewrite O, M. apply match_shorter in M.
    rewrite (keys_fuel r' (length r) (length r')) by lia. reflexivity.
  Qed.

  (** Texts in front of which no key is seen. *)
  Definition no_colon (k : list nat) : Prop := match drop_ws space k with 58 :: _ => False | _ => True end.
  Definition calm (k : list nat) : Prop :=
    let '(a, b) := take_run space k in ~ In 58 a /\ no_colon b.
  Lemma last_colon_none a : ~ In 58 a -> last_colon a = None.
  Proof.
    intro N. induction a as [|c a IH]; [reflexivity|]. cbn. rewrite IH by (intro; apply N; right; assumption).
    destruct (c =? 58) eqn:C; [apply Nat.eqb_eq in C; exfalso; apply N; left; congruence|reflexivity].
  Qed.
  Lemma not_colon_match (A : Type) (x : list nat) (P : list nat -> A) (q : A) :
    match x with 58 :: _ => False | _ => True end -> match x with 58 :: r => P r | _ => q end = q.
  Proof.
    destruct x as [|d x]; [reflexivity|]. intro H. do 59 (destruct d as [|d]; [try reflexivity; destruct H|]). reflexivity.
  Qed.
  Lemma calm_none k : calm (drop_ws space k) -> match_key space k = None.
  Proof.
    unfold calm, match_key. destruct (take_run space (drop_ws space k)) as [a b]. intros [N C]. destruct a as [|x a]; [reflexivity|].
    rewrite (not_colon_match _ (drop_ws space b)) by exact C. rewrite last_colon_none by exact N. reflexivity.
  Qed.
  Lemma calm_char c k : c <> 58 -> space c = false -> c <> 34 -> calm k -> calm (c :: k).
  Proof.
    intros N S Q. unfold calm. cbn [take_run]. apply Nat.eqb_neq in Q. rewrite Q, S. cbn [orb].
    destruct (take_run space k) as [a b]. intros [A B]. split; [|exact B]. intros [H|H]; [congruence|tauto].
  Qed.
  Lemma calm_quote k : calm (34 :: k).
  Proof. unfold calm. cbn. split; [tauto|]. unfold no_colon. cbn. rewrite not_space by (cbn; tauto). exact I. Qed.
  Lemma calm_space c k : space c = true -> no_colon k -> calm (c :: k).
  Proof.
    intros S N. unfold calm. cbn [take_run]. rewrite S, orb_true_r. split; [tauto|]. unfold no_colon in *. cbn [drop_ws]. rewrite S. exact N.
  Qed.
  Lemma calm_no_colon k : calm k -> no_colon k.
  Proof.
    unfold calm, no_colon. destruct k as [|c k]; cbn; [auto|]. destruct (space c) eqn:S.
    - rewrite orb_true_r. cbn. rewrite S. tauto.
    - destruct (c =? 34) eqn:Q; cbn [orb].
      + apply Nat.eqb_eq in Q. subst. auto.
      + destruct (take_run space k) as [a b]. intros [A _]. destruct (Nat.eq_dec c 58) as [->|N]; [exfalso; apply A; left; reflexivity|].
        do 59 (destruct c as [|c]; [exact I || congruence|]). exact I.
  Qed.
  Lemma no_colon_visible c r : space c = false -> c <> 58 -> no_colon (c :: r).
  Proof.
    intros S N. unfold no_colon. cbn [drop_ws]. rewrite S. do 59 (destruct c as [|c]; [exact I || congruence|]). exact I.
  Qed.
  Lemma no_colon_gap g k : gap g -> no_colon (g ++ k) <-> no_colon k.
  Proof. intro G. unfold no_colon. rewrite drop_gap by exact G. reflexivity. Qed.
  Lemma calm_gap g k : gap g -> (g = [] -> calm k) -> no_colon k -> calm (g ++ k).
  Proof.
    intros G E N. destruct g as [|c g]; [apply E; reflexivity|]. inversion G as [|? ? S G']; subst. cbn [app].
    apply calm_space; [exact S|]. apply no_colon_gap; assumption.
  Qed.
  Lemma calm_word w k : Forall word_char w -> calm k -> calm (w ++ k).
  Proof.
    intros F C. induction F as [|c w ((_ & Q & _) & S & N) F IH]; [exact C|]. cbn [app].
    apply calm_char; [intros ->; apply N; cbn; tauto|exact S|exact Q|exact IH].
  Qed.
  Lemma calm_closer c k : closer c = true -> calm k -> calm (c :: k).
  Proof.
    intros C K. destruct (closer_sp c C) as [S _]. apply calm_char; [|exact S| |exact K];
      destruct (closer_cases c C) as [->| ->]; discriminate.
  Qed.

  Notation L34 := (eq 34).
  Lemma q34 : forall q, L34 q -> a_quote q.
  Proof. intros q <-. left. reflexivity. Qed.
  Lemma no_colon_text f t k : loose L34 f t -> no_colon (text t ++ k).
  Proof. intro L. destruct (text_visible L34 t f q34 L) as (c & r & -> & S & N & _). cbn [app]. apply no_colon_visible; assumption. Qed.
  Lemma no_colon_key f g1 key g3 t k : loose_key L34 f g1 key g3 t -> no_colon (text_key key ++ k).
  Proof. intro L. destruct (key_visible L34 f g1 key g3 t q34 L) as (c & r & -> & S & N & _). cbn [app]. apply no_colon_visible; assumption. Qed.
  Lemma calm_44 k : calm k -> calm (44 :: k).
  Proof. apply calm_char; [discriminate|apply not_space; cbn; tauto|discriminate]. Qed.
  Lemma calm_gap' g k : gap g -> calm k -> calm (g ++ k).
  Proof. intros G C. apply calm_gap; [exact G|auto|apply calm_no_colon, C]. Qed.
  Lemma some_nil g : g <> [] -> some g = true.
  Proof. destruct g; cbn; congruence. Qed.

  Lemma calm_text :
    (forall t k, loose L34 false t -> calm k -> calm (text t ++ k)) /\
    (forall i k, loose_items L34 false i -> calm k -> calm (text_items i ++ k)) /\
    (forall e k, loose_entries L34 false e -> calm k -> calm (text_entries e ++ k)).
  Proof.
    assert (LK : forall g1 key g3 t k, gap g1 -> loose_key L34 false g1 key g3 t -> calm (g1 ++ text_key key ++ k)).
    { intros g1 key g3 t k G L. apply calm_gap; [exact G| |apply (no_colon_key _ _ _ _ _ _ L)].
      intros ->. destruct key as [w|q s]; cbn [loose_key] in L.
      - destruct L as (_ & [H|H] & _); [discriminate|congruence].
      - destruct L as [<- _]. apply calm_quote. }
    assert (ST : forall g1 t k, gap g1 -> loose L34 (some g1) t -> (loose L34 false t -> calm (text t ++ k)) -> calm (g1 ++ text t ++ k)).
    { intros g1 t k G L H. apply calm_gap; [exact G| |apply (no_colon_text _ _ _ L)]. intros ->. apply H, L. }
    apply trees_ind; cbn [text text_items text_entries].
    - intros w k [_ [_ F]] C. apply calm_word; assumption.
    - intros q s k [<- _] C. apply calm_quote.
    - intros i H k L C. cbn [app]. rewrite <- ?app_assoc. apply calm_char; try discriminate; [apply not_space; cbn; tauto|].
      apply H; [exact L|]. apply calm_closer; [reflexivity|exact C].
    - intros e H k L C. cbn [app]. rewrite <- ?app_assoc. apply calm_char; try discriminate; [apply not_space; cbn; tauto|].
      apply H; [exact L|]. apply calm_closer; [reflexivity|exact C].
    - intros g k G C. apply calm_gap'; assumption.
    - intros g1 t H g2 k (A & B & D) C. rewrite <- ?app_assoc. apply ST; try assumption. intro L. apply H; [exact L|apply calm_gap'; assumption].
    - intros g1 t H g2 i IH k (A & B & D & R) C. rewrite <- ?app_assoc. apply ST; try assumption. intro L. apply H; [exact L|].
      apply calm_gap'; [exact D|]. cbn [app]. apply calm_44, IH; [apply (proj2 (proj1 (proj2 (loose_mono L34)) i) false R)|exact C].
    - intros g k G C. apply calm_gap'; assumption.
    - intros g1 key g2 g3 t H g4 k (A & B & _) C. rewrite <- ?app_assoc. apply (LK _ _ g3 t); assumption.
    - intros g1 key g2 g3 t H g4 e IH k (A & B & _) C. rewrite <- ?app_assoc. apply (LK _ _ g3 t); assumption.
  Qed.
  Lemma calm_rest i k : loose_rest L34 i -> nsp k -> calm k -> calm (drop_ws space (text_items i ++ k)).
  Proof.
    intros L N C. destruct i as [g|g1 t g2|g1 t g2 i]; cbn [text_items loose_rest] in *; rewrite <- ?app_assoc.
    - rewrite drop_gap by exact L. rewrite drop_nsp by exact N. exact C.
    - destruct L as (A & B & D). rewrite drop_gap, drop_nsp by (exact A || apply (nsp_text L34 false), B; apply q34).
      apply (proj1 calm_text); [exact B|apply calm_gap'; assumption].
    - destruct L as (A & B & D & E). rewrite drop_gap, drop_nsp by (exact A || apply (nsp_text L34 false), B; apply q34).
      apply (proj1 calm_text); [exact B|]. apply calm_gap'; [exact D|]. cbn [app]. apply calm_44. apply calm_text; [|exact C].
      apply (proj2 (proj1 (proj2 (loose_mono L34)) i) false E).
  Qed.

  Lemma opens_cases c : opens c = true -> c = 123 \/ c = 44.
  Proof. unfold opens. rewrite orb_true_iff, !Nat.eqb_eq. tauto. Qed.
  Lemma keys_quiet w k : ~ In 44 w -> ~ In 123 w -> K (w ++ k) = w ++ K k.
  Proof.
    intros A B. induction w as [|c w IH]; [reflexivity|]. cbn [app].
    rewrite keys_plain, IH; [reflexivity|intro; apply A; right; assumption|intro; apply B; right; assumption|].
    destruct (opens c) eqn:O; [|reflexivity]. exfalso. destruct (opens_cases c O) as [->| ->]; [apply B|apply A]; left; reflexivity.
  Qed.
  Lemma no_colon_str s k : ~ In 58 s -> no_colon (s ++ 34 :: k).
  Proof.
    intro N. induction s as [|c s IH]; [apply no_colon_visible; [apply not_space; cbn; tauto|discriminate]|]. cbn [app].
    destruct (space c) eqn:S; [|apply no_colon_visible; [exact S|intros ->; apply N; left; reflexivity]].
    unfold no_colon. cbn [drop_ws]. rewrite S. apply IH. intro; apply N; right; assumption.
  Qed.
  Lemma calm_str s k : ~ In 58 s -> calm (s ++ 34 :: k).
  Proof.
    intro N. induction s as [|c s IH]; [apply calm_quote|]. cbn [app].
    assert (N' : ~ In 58 s) by (intro; apply N; right; assumption).
    destruct (space c) eqn:S; [apply calm_space; [exact S|apply no_colon_str, N']|].
    destruct (Nat.eq_dec c 34) as [->|Q]; [apply calm_quote|].
    apply calm_char; [intros ->; apply N; left; reflexivity|exact S|exact Q|apply IH, N'].
  Qed.
  Lemma calm_drop_str s k : ~ In 58 s -> calm (drop_ws space (s ++ 34 :: k)).
  Proof.
    intro N. induction s as [|c s IH]; cbn [app drop_ws].
    - rewrite not_space by (cbn; tauto). apply calm_quote.
    - destruct (space c); [apply IH; intro; apply N; right; assumption|]. apply (calm_str (c :: s)), N.
  Qed.
  Lemma keys_str s k : safe s -> K ((34 :: s ++ [34]) ++ k) = (34 :: s ++ [34]) ++ K k.
  Proof.
    intros (_ & _ & S). cbn [app]. rewrite <- ?app_assoc. rewrite keys_plain by reflexivity. f_equal. cbn [app].
    transitivity (s ++ K (34 :: k)); [|rewrite keys_plain by reflexivity; reflexivity].
    destruct S as [[A B]|(A & _ & _)]; [apply keys_quiet; assumption|].
    induction s as [|c s IH]; [reflexivity|]. cbn [app]. assert (A' : ~ In 58 s) by (intro; apply A; right; assumption).
    rewrite keys_none, IH by (exact A' || apply calm_none, calm_drop_str, A'). reflexivity.
  Qed.
  Lemma gap_opens g : gap g -> ~ In 44 g /\ ~ In 123 g.
  Proof.
    intro G. unfold gap in G. rewrite Forall_forall in G. split; intro I; specialize (G _ I);
      (rewrite not_space in G; [discriminate|cbn; tauto]).
  Qed.
  Lemma word_opens w : Forall word_char w -> ~ In 44 w /\ ~ In 123 w.
  Proof. intro F. rewrite Forall_forall in F. split; intro I; destruct (F _ I) as (_ & _ & N); apply N; cbn; tauto. Qed.
  Lemma keys_gap g k : gap g -> K (g ++ k) = g ++ K k.
  Proof. intro G. apply keys_quiet; apply gap_opens, G. Qed.
  Lemma run_word w r : Forall word_char w -> take_run space (w ++ r) = (w ++ fst (take_run space r), snd (take_run space r)).
  Proof.
    intro F. induction F as [|c w ((_ & Q & _) & S & N) F IH]; cbn [app]; [destruct (take_run space r); reflexivity|].
    cbn [take_run]. apply Nat.eqb_neq in Q. rewrite Q, S. cbn [orb]. rewrite IH. reflexivity.
  Qed.
  Lemma last_colon_end w : last_colon (w ++ [58]) = Some (w, []).
  Proof. induction w as [|c w IH]; [reflexivity|]. cbn [app last_colon]. rewrite IH. reflexivity. Qed.
  Lemma match_bare g1 w g2 x : gap g1 -> word w -> gap g2 -> no_colon x ->
    match x with [] => False | c :: _ => c = 34 \/ space c = true end ->
    match_key space (g1 ++ w ++ g2 ++ 58 :: x) = Some (w, x).
  Proof.
    intros G1 [W F] G2 N X. unfold match_key. rewrite drop_gap by exact G1.
    rewrite drop_nsp by (destruct F as [|c w (_ & S & _) F]; [congruence|exact S]).
    rewrite run_word by exact F. destruct w as [|c w]; [congruence|]. clear W. cbn [app].
    destruct g2 as [|d g2].
    - cbn [app take_run]. rewrite (not_space 58) by (cbn; tauto). cbn [orb Nat.eqb].
      assert (E : take_run space x = ([], x)).
      { destruct x as [|d x]; [destruct X|]. cbn [take_run]. destruct X as [->|X]; [reflexivity|]. rewrite X, orb_true_r. reflexivity. }
      rewrite E. cbn [fst snd]. rewrite (not_colon_match _ (drop_ws space x)) by exact N.
      rewrite (last_colon_end (c :: w) : last_colon (c :: w ++ [58]) = _). reflexivity.
    - assert (S : space d = true) by (inversion G2; assumption). cbn [app take_run]. rewrite S, orb_true_r. cbn [fst snd]. rewrite app_nil_r.
      rewrite (drop_gap (d :: g2) (58 :: x) G2 : drop_ws space (d :: g2 ++ 58 :: x) = _). cbn [drop_ws]. rewrite (not_space 58) by (cbn; tauto). reflexivity.
  Qed.

  Lemma keys_text :
    (forall t f k, loose L34 f t -> calm k -> K (text t ++ k) = text (qk t) ++ K k) /\
    (forall i f k, loose_items L34 f i -> nsp k -> calm k -> K (text_items i ++ k) = text_items (qi i) ++ K k) /\
    (forall e f c k, loose_entries L34 f e -> nsp k -> calm k -> opens c = true ->
       K (c :: text_entries e ++ k) = c :: text_entries (qe e) ++ K k).
  Proof.
    assert (CM : forall k, nsp k -> calm k -> match_key space k = None).
    { intros k N C. apply calm_none. rewrite drop_nsp; assumption. }
    assert (KY : forall f g1 key g2 g3 t c k, opens c = true -> gap g1 -> loose_key L34 f g1 key g3 t -> gap g2 -> gap g3 -> loose L34 true t ->
              K (c :: g1 ++ text_key key ++ g2 ++ 58 :: g3 ++ text t ++ k) =
              c :: bare_gap key g1 ++ text_key (quoted key) ++ bare_gap key g2 ++ 58 :: g3 ++ K (text t ++ k)).
    { intros f g1 [w|q s] g2 g3 t c k O G1 L G2 G3 T; cbn [loose_key text_key quoted bare_gap] in *.
      - destruct L as (W & _ & X). rewrite (keys_some c _ w (g3 ++ text t ++ k) O).
        + cbn [app]. rewrite <- ?app_assoc. cbn [app]. rewrite keys_gap by exact G3. reflexivity.
        + apply match_bare; try assumption.
          * apply no_colon_gap; [exact G3|]. apply (no_colon_text _ _ _ T).
          * destruct g3 as [|d g3]; [|right; inversion G3; assumption]. destruct X as [X|X]; [congruence|].
            destruct t; cbn in X; try contradiction. destruct T as [<- _]. left. reflexivity.
      - destruct L as [<- S]. rewrite keys_none.
        + rewrite keys_gap, keys_str, keys_gap, keys_plain, keys_gap by (assumption || reflexivity). reflexivity.
        + apply calm_none. rewrite drop_gap by exact G1. cbn [app drop_ws]. rewrite not_space by (cbn; tauto). apply calm_quote. }
    apply trees_ind; cbn [text text_items text_entries qk qi qe].
    - intros w f k [_ [_ F]] C. apply keys_quiet; apply word_opens, F.
    - intros q s f k [<- S] C. apply keys_str, S.
    - intros i H f k L C. cbn [app]. rewrite <- ?app_assoc. cbn [app]. rewrite keys_plain by reflexivity.
      rewrite (H f) by (exact L || (apply not_space; cbn; tauto) || (apply calm_closer; [reflexivity|exact C])).
      rewrite keys_plain by reflexivity. reflexivity.
    - intros e H f k L C. cbn [app]. rewrite <- ?app_assoc. cbn [app].
      rewrite (H f) by (exact L || (apply not_space; cbn; tauto) || (apply calm_closer; [reflexivity|exact C]) || reflexivity).
      rewrite keys_plain by reflexivity. reflexivity.
    - intros g f k G N C. apply keys_gap, G.
    - intros g1 t H g2 f k (A & B & D) N C. rewrite <- ?app_assoc.
      rewrite keys_gap, (H _ _ B), keys_gap by (assumption || apply calm_gap'; assumption). reflexivity.
    - intros g1 t H g2 i IH f k (A & B & D & R) N C. rewrite <- ?app_assoc. cbn [app].
      assert (LI := proj2 (proj1 (proj2 (loose_mono L34)) i) false R).
      rewrite keys_gap, (H _ _ B), keys_gap; try assumption.
      + rewrite keys_none by (apply calm_none, calm_rest; assumption). rewrite (IH _ _ LI N C). reflexivity.
      + apply calm_gap', calm_44, calm_text; assumption.
    - intros g f c k G N C O. rewrite keys_none, keys_gap; [reflexivity|exact G|]. apply calm_none. rewrite drop_gap, drop_nsp; assumption.
    - intros g1 key g2 g3 t H g4 f c k (A & B & D & E & F & J) N C O. rewrite <- ?app_assoc. cbn [app]. rewrite <- ?app_assoc.
      rewrite (KY f) by assumption. rewrite (H _ _ F), keys_gap by (assumption || apply calm_gap'; assumption). reflexivity.
    - intros g1 key g2 g3 t H g4 e IH f c k (A & B & D & E & F & J & R) N C O.
      rewrite <- ?app_assoc. cbn [app]. rewrite <- ?app_assoc. cbn [app].
      rewrite (KY f) by assumption. rewrite (H _ _ F), keys_gap; try assumption.
      + rewrite (IH _ _ _ R N C) by reflexivity. reflexivity.
      + apply calm_gap', calm_44, calm_text; assumption.
  Qed.

  (** ** All passes *)
  Lemma text_last Q f t : loose Q f t -> exists r c, text (repaired t) = r ++ [c] /\ space c = false.
  Proof.
    destruct t as [w|q s|i|e]; cbn [loose].
    - intros [_ [W F]]. destruct (exists_last W) as (r & c & ->). exists r, c. split; [reflexivity|].
      apply Forall_app in F. destruct F as [_ F]. inversion F as [|? ? (_ & S & _)]; subst. exact S.
    - intros _. exists (34 :: s), 34. split; [reflexivity|apply not_space; cbn; tauto].
    - intros _. eexists (91 :: _), 93. split; [reflexivity|apply not_space; cbn; tauto].
    - intros _. eexists (123 :: _), 125. split; [reflexivity|apply not_space; cbn; tauto].
  Qed.
  Lemma strip_around g r c g' : gap g -> nsp (r ++ [c]) -> space c = false -> gap g' -> strip space (g ++ (r ++ [c]) ++ g') = r ++ [c].
  Proof.
    intros G N S G'. unfold strip. rewrite drop_gap by exact G.
    rewrite (drop_nsp ((r ++ [c]) ++ g')) by (destruct r; exact N). rewrite !rev_app_distr. cbn [rev app].
    rewrite drop_gap by (unfold gap; apply Forall_rev, G'). cbn [drop_ws]. rewrite S. cbn [rev]. rewrite rev_involutive. reflexivity.
  Qed.
  Lemma clean_text t g g' : gap g -> gap g' -> loose a_quote true t -> clean space (g ++ text t ++ g') = text (repaired t).
  Proof.
    intros G G' L. unfold clean. rewrite !quotes_app, (quotes_same g), (quotes_same g'), (proj1 quotes_text _ _ L) by (apply gap_39; assumption).
    assert (L1 : loose L34 true (tmap idg to34 t)).
    { eapply (proj1 (loose_tmap a_quote L34 idg to34 _ _ _)), L. Unshelve. all: try reflexivity; try (intros; assumption). }
    rewrite collapse_gap by (exact G || apply (nsp_text L34 true), L1; apply q34).
    rewrite (proj1 (collapse_text L34 q34) _ _ _ L1).
    replace (collapse space false g') with (norm g') by (rewrite <- (app_nil_r g'), (collapse_gap g' []) by (exact G' || exact I); cbn; rewrite app_nil_r; rewrite app_nil_r; reflexivity).
    assert (L2 : loose L34 true (tmap norm idq (tmap idg to34 t))).
    { eapply (proj1 (loose_tmap L34 L34 norm idq _ _ _)), L1. Unshelve. all: try (intros; apply gap_norm); try (intros []; reflexivity); try (intros; assumption). }
    rewrite (trailing_plain (norm g)), (proj1 (trailing_text L34 q34) _ _ _ L2) by apply gap_44, gap_norm.
    rewrite <- (app_nil_r (norm g')), (trailing_plain (norm g')) by apply gap_44, gap_norm. cbn [trailing]. rewrite app_nil_r.
    assert (L3 := proj1 (loose_dt L34) _ _ L2).
    assert (C : calm (norm g')).
    { destruct g'; unfold calm; cbn; [split; [tauto|exact I]|]. rewrite space_32. cbn. split; [tauto|]. unfold no_colon. cbn. rewrite space_32. exact I. }
    rewrite keys_gap, (proj1 keys_text _ _ _ L3 C) by apply gap_norm.
    rewrite <- (app_nil_r (norm g')), keys_gap by apply gap_norm. cbn [keys keys_from length]. rewrite app_nil_r.
    change (qk (dt (tmap norm idq (tmap idg to34 t)))) with (repaired t).
    destruct (text_last _ _ _ L) as (r & c & E & S). rewrite E.
    apply strip_around; [apply gap_norm| |exact S|apply gap_norm]. rewrite <- E.
    assert (X : exists d x, text (repaired t) = d :: x /\ space d = false).
    { destruct t as [w|q s|i|e].
      - destruct L as [_ W]. destruct (word_visible w W) as (d & x & -> & V & _). exists d, x. auto.
      - exists 34, (s ++ [34]). split; [reflexivity|apply not_space; cbn; tauto].
      - eexists 91, _. split; [reflexivity|apply not_space; cbn; tauto].
      - eexists 123, _. split; [reflexivity|apply not_space; cbn; tauto]. }
    destruct X as (d & x & -> & D). exact D.
  Qed.

  (** C94. A loose text with whitespace around it is cleaned to a strict JSON text of the
      same value. *)
  Theorem C94_repaired t g g' : gap g -> gap g' -> loose a_quote true t ->
    exists t', clean space (g ++ text t ++ g') = text t' /\ strict t' /\ value t' = value t.
  Proof.
    intros G G' L. exists (repaired t). split; [apply clean_text; assumption|]. split; [apply (proj1 (strict_repaired a_quote) t true L)|apply value_repaired].
  Qed.

  (** With a parser that reads strict JSON, and rejects a loose text or reads it as the same
      value, fuzzy_json answers as for that value: the dict, or the list if all its elements
      are dicts. *)
  Theorem C94_fuzzy (J : Type) (loads : list nat -> option J) (mean : doc -> J) is_dict elements t g g' :
    (forall t, strict t -> loads (text t) = Some (mean (value t))) ->
    gap g -> gap g' -> loose a_quote true t ->
    loads (g ++ text t ++ g') = None \/ loads (g ++ text t ++ g') = Some (mean (value t)) ->
    fuzzy_json loads is_dict elements (fun s => match drop_ws space s with [] => true | _ => false end) (clean space) (g ++ text t ++ g')
    = (if is_dict (mean (value t)) then Ret (mean (value t))
       else match elements (mean (value t)) with
            | Some l => if forallb is_dict l then Ret (mean (value t)) else Raise TypeError
            | None => Raise TypeError
            end).
  Proof.
    intros P G G' L D. unfold fuzzy_json. rewrite drop_gap by exact G.
    assert (Q : forall q, a_quote q -> a_quote q) by auto.
    rewrite drop_nsp by (apply (nsp_text a_quote true); [exact Q|exact L]).
    destruct (text_visible a_quote t true Q L) as (c & r & E & _). rewrite E at 1. cbn [app].
    destruct (C94_repaired t g g' G G' L) as (t' & E1 & S & V).
    destruct D as [->| ->]; [|reflexivity]. rewrite E1, (P t' S), V. reflexivity.
  Qed.
End C94.
Print Assumptions C94_repaired.
Print Assumptions C94_fuzzy.

(** * Examples *)
(** ASCII's and Latin-1's whitespace. *)
Definition ws (c : nat) : bool := ((9 <=? c) && (c <=? 13)) || ((28 <=? c) && (c <=? 32)) || (c =? 133) || (c =? 160).
Definition codes (s : string) : list nat := map nat_of_ascii (list_ascii_of_string s).
Definition number (w : list nat) : Prop := w <> [] /\ Forall (fun c => 48 <= c <= 57) w.
Definition all (c : nat) : Prop := True.
Example ex_clean_keys : clean ws (codes " {  a: 1, 'b' : [2,3 , {'c': null,},], d :{ e:'x, y' } } ")
  = codes "{""a"": 1, ""b"" : [2,3 , {""c"": null}],""d"":{""e"":""x, y"" } }".
Proof. vm_compute. reflexivity. Qed.
(** The theorem's hypotheses on a text with all repairs. *)
Definition t_ex : tree :=
  TObj (ECons [] (Bare (codes "a")) [] [32] (TLit (codes "1")) []
       (ECons [32; 32] (Quoted 39 (codes "b, c")) [] [] (TArr (ICons [] (TStr 39 (codes "x: y")) [] (ICons [32] (TObj (ENone [])) [] (INone [32])))) []
       (ENone []))).
Example ex_text : text t_ex = codes "{a: 1,  'b, c':['x: y', {}, ],}".
Proof. reflexivity. Qed.
Example ex_loose : loose ws number all a_quote true t_ex.
Proof.
  cbn [loose loose_entries loose_items loose_rest loose_key t_ex]. repeat split; try (repeat constructor; try discriminate; cbn; lia);
    try (cbn; intuition discriminate); auto; try (right; reflexivity); try (left; discriminate).
Qed.

Example ex_repaired : clean ws (codes " " ++ text t_ex ++ [10]) = codes "{""a"": 1, ""b, c"":[""x: y"", {}]}".
Proof. vm_compute. reflexivity. Qed.

(** * What is not repaired *)
Notation fuzzy loads is_dict elements s :=
  (fuzzy_json loads is_dict elements (fun x => match drop_ws ws x with [] => true | _ => false end) (clean ws) s).
(** Keys without quotes and nothing after their colons: fuzzy_json answers another dict,
    {"a:1,b": 2}. *)
Theorem C94_compact_refuted :
  let t := TObj (ECons [] (Bare (codes "a")) [] [] (TLit (codes "1")) [] (EOne [] (Bare (codes "b")) [] [] (TLit (codes "2")) [])) in
  let t' := TObj (EOne [] (Quoted 34 (codes "a:1,b")) [] [] (TLit (codes "2")) []) in
  text t = codes "{a:1,b:2}" /\ clean ws (text t) = text t' /\ strict number all t' /\ value t' <> value t.
Proof.
  cbn zeta. split; [reflexivity|]. split; [vm_compute; reflexivity|]. split; [|discriminate].
  cbn [strict strict_entries strict_key]. repeat split; try constructor; try discriminate; repeat constructor; cbn; lia.
Qed.
(** A list of dicts with keys without quotes: ValueError. *)
Theorem C94_list_refuted (J : Type) (loads : list nat -> option J) is_dict elements :
  loads (codes "[{a: 1}, {a: 2}]") = None -> loads (codes "[{""a"": 1},""{a"": 2}]") = None ->
  fuzzy loads is_dict elements (codes "[{a: 1}, {a: 2}]") = Raise ValueError.
Proof.
  intros A B. unfold fuzzy_json. rewrite A.
  change (clean ws (codes "[{a: 1}, {a: 2}]")) with (codes "[{""a"": 1},""{a"": 2}]"). rewrite B. reflexivity.
Qed.
(** A string with a comma before a colon: the text of the string is torn apart. *)
Theorem C94_colon_refuted : clean ws (codes "{'t': 'note, see: b'}") = codes "{""t"": ""note,""see"": b""}".
Proof. vm_compute. reflexivity. Qed.
(** An apostrophe in a string. *)
Theorem C94_apostrophe_refuted : clean ws (codes "{""t"": ""it's"",}") = codes "{""t"": ""it""s""}".
Proof. vm_compute. reflexivity. Qed.
(** Whitespace in strings: fuzzy_json answers another string. *)
Theorem C94_spaces_refuted :
  let t := TObj (EOne [] (Quoted 39 (codes "t")) [] [] (TStr 39 (codes "a  b")) []) in
  let t' := TObj (EOne [] (Quoted 34 (codes "t")) [] [] (TStr 34 (codes "a b")) []) in
  text t = codes "{'t':'a  b'}" /\ clean ws (text t) = text t' /\ strict number all t' /\ value t' <> value t.
Proof.
  cbn zeta. split; [reflexivity|]. split; [vm_compute; reflexivity|]. split; [|discriminate].
  cbn [strict strict_entries strict_key]. repeat split; try constructor; try discriminate; repeat constructor; cbn; lia.
Qed.
Print Assumptions C94_compact_refuted.
Print Assumptions C94_list_refuted.
Print Assumptions C94_colon_refuted.
Print Assumptions C94_apostrophe_refuted.
Print Assumptions C94_spaces_refuted.
