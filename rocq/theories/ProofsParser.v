(** Proofs about the parser: termination, errors, unique aliases, extracted contents. *)
From Coq Require Import String.
From Coq Require Import List Bool Arith Lia ZArith.
From Verif Require Import PyBase PyFacts ModelLexer SpecLexer ModelParser SpecParser ProofsLexer.
Import ListNotations.
Local Open Scope string_scope.
Local Open Scope nat_scope.
Local Open Scope list_scope.
#[local] Arguments eqb : simpl never.

Lemma is_true t k : is t k = true <-> fst k = t.
Proof. unfold is. destruct (ttype_dec (fst k) t); split; congruence. Qed.
Lemma is_false t k : is t k = false <-> fst k <> t.
Proof. unfold is. destruct (ttype_dec (fst k) t); split; congruence. Qed.

Lemma case_iff w a : In w ["true"; "false"; "null"] -> any_case w a <-> map lower a = codes w.
Proof.
  intros I. unfold any_case.
  assert (Forall (fun d => 97 <= d <= 122) (codes w)) as F.
  { destruct I as [<-|[<-|[<-|[]]]]; repeat constructor; cbn; lia. }
  revert a. induction F as [|d l D F IH]; intros a.
  - destruct a; split; intros H; try constructor; try discriminate; inversion H.
  - destruct a as [|c a]; [split; intros H; inversion H|]. cbn [map].
    assert (c = d \/ c + 32 = d <-> lower c = d) as E.
    { unfold lower. destruct (Nat.leb_spec 65 c), (Nat.leb_spec c 90); cbn [andb]; lia. }
    split; intros H.
    + inversion H as [|? ? ? ? H1 H2]; subst. f_equal; [apply E, H1|apply IH, H2].
    + injection H as H1 H2. constructor; [apply E, H1|apply IH, H2].
Qed.
Lemma case_spec w a : In w ["true"; "false"; "null"] -> reflect (any_case w a) (eqb (map lower a) (codes w)).
Proof.
  intros I. apply iff_reflect. rewrite (case_iff w a I).
  destruct (eqb_spec (map lower a) (codes w)); split; congruence.
Qed.

Section Total.
Variables (uspace : nat -> bool) (udec : nat -> option nat) (src : text) (whole : list tk).

Definition ends (ts : list tk) : Prop := exists l v, ts = l ++ [(EOF, v)].
Definition inv (ts : list tk) : Prop := ends ts /\ incl ts whole.
Definition okerr (e : exn) : Prop :=
  e = ParseErr \/ (e = ValueError /\ exists v, In (NUM, v) whole /\ number udec v = Raise ValueError).
Definition wp {A} (m : P A) (Q : A -> list tk -> Prop) (ts : list tk) : Prop :=
  match m ts with Done a ts' => Q a ts' | Err e => okerr e | Loop => False end.

Lemma wp_bind {A B} (m : P A) (f : A -> P B) Q ts :
  wp m (fun a ts' => wp (f a) Q ts') ts -> wp (pbind m f) Q ts.
Proof. unfold wp, pbind. destruct (m ts); auto. Qed.
Lemma wp_ret {A} (a : A) (Q : A -> list tk -> Prop) ts : Q a ts -> wp (pret a) Q ts.
Proof. auto. Qed.
Lemma wp_raise {A} Q ts : wp (praise (A := A) ParseErr) Q ts.
Proof. left. reflexivity. Qed.
Lemma wp_mono {A} (m : P A) (Q Q' : A -> list tk -> Prop) ts :
  wp m Q ts -> (forall a ts', Q a ts' -> Q' a ts') -> wp m Q' ts.
Proof. unfold wp. destruct (m ts); auto. Qed.
Lemma wp_at l (Q : bool -> list tk -> Prop) ts :
  Q (existsb (fun t => is t (cur ts)) l) ts -> wp (at_ l) Q ts.
Proof. auto. Qed.

Lemma inv_tail x y r : inv (x :: y :: r) -> inv (y :: r).
Proof.
  intros [[l [v E]] I]. split.
  - destruct l as [|z l]; [discriminate|]. cbn in E. injection E as _ E. exists l, v. assumption.
  - intros z H. apply I. right. assumption.
Qed.
Lemma inv_last x : inv [x] -> fst x = EOF.
Proof. intros [[l [v E]] _]. destruct l as [|? [|? ?]]; cbn in E; try discriminate. injection E as ->. reflexivity. Qed.
Lemma inv_ne ts : inv ts -> ts <> [].
Proof. intros [[l [v ->]] _]. destruct l; discriminate. Qed.
Lemma inv_cur ts : inv ts -> In (cur ts) whole.
Proof. intros H. pose proof (inv_ne _ H). destruct ts; [contradiction|]. apply H. left. reflexivity. Qed.

Lemma wp_advance ts (Q : unit -> list tk -> Prop) :
  inv ts -> fst (cur ts) <> EOF -> (forall ts', inv ts' -> length ts' < length ts -> Q tt ts') -> wp advance Q ts.
Proof.
  intros I N H. pose proof (inv_ne _ I). destruct ts as [|x [|y r]]; [contradiction| |].
  - exfalso. apply N. apply (inv_last _ I).
  - unfold wp, advance. apply H; [eapply inv_tail; eauto|cbn; lia].
Qed.
Lemma wp_expect t ts (Q : text -> list tk -> Prop) :
  t <> EOF -> inv ts ->
  (forall v ts', inv ts' -> length ts' < length ts -> In (t, v) whole -> Q v ts') -> wp (expect t) Q ts.
Proof.
  intros T I H. unfold wp, expect. destruct (is t (cur ts)) eqn:E; [|left; reflexivity].
  apply is_true in E. change (wp (_ <-- advance ;; pret (snd (cur ts))) Q ts).
  apply wp_bind, wp_advance; [assumption|congruence|]. intros ts' I' L. apply H; try assumption.
  rewrite <- E, <- surjective_pairing. apply inv_cur. assumption.
Qed.
Lemma wp_newlines ts (Q : unit -> list tk -> Prop) :
  inv ts -> (forall ts', inv ts' -> length ts' <= length ts -> Q tt ts') -> wp skip_newlines Q ts.
Proof.
  intros I. induction ts as [|x r IH]; intros H; [destruct (inv_ne _ I eq_refl)|].
  unfold wp in *. cbn [skip_newlines]. destruct (is NEWLINE x) eqn:E.
  - apply is_true in E. destruct r as [|y r]; [pose proof (inv_last _ I); congruence|].
    apply IH; [eapply inv_tail; eauto|]. intros ts' I' L. apply H; [assumption|]. cbn in *. lia.
  - apply H; auto.
Qed.
Lemma wp_skip_to c ts (Q : unit -> list tk -> Prop) :
  c <> EOF -> inv ts -> (forall ts', inv ts' -> length ts' <= length ts -> Q tt ts') -> wp (skip_to c) Q ts.
Proof.
  intros C I. induction ts as [|x r IH]; intros H; [destruct (inv_ne _ I eq_refl)|].
  unfold wp in *. cbn [skip_to]. destruct (is c x) eqn:E; [apply H; auto|].
  destruct (is EOF x) eqn:E'; [left; reflexivity|]. apply is_false in E'.
  destruct r as [|y r]; [pose proof (inv_last _ I); congruence|].
  apply IH; [eapply inv_tail; eauto|]. intros ts' I' L. apply H; [assumption|]. cbn in *. lia.
Qed.
Lemma existsb_false_at l ts : existsb (fun t => is t (cur ts)) l = false -> forall t, In t l -> fst (cur ts) <> t.
Proof.
  intros H t I E. assert (existsb (fun t => is t (cur ts)) l = true); [|congruence].
  apply existsb_exists. exists t. split; [assumption|]. apply is_true. assumption.
Qed.
Lemma existsb_true_at l ts : existsb (fun t => is t (cur ts)) l = true -> In (fst (cur ts)) l.
Proof. intros H. apply existsb_exists in H as (t & I & E). apply is_true in E. subst t. assumption. Qed.
Lemma wp_comma ts (Q : unit -> list tk -> Prop) (c : bool) t :
  inv ts -> t <> EOF -> c = existsb (fun u => is u (cur ts)) [t] ->
  (forall ts', inv ts' -> length ts' <= length ts -> Q tt ts') ->
  wp (if c then advance else pret tt) Q ts.
Proof.
  intros I T -> H. destruct (existsb _ _) eqn:E.
  - apply existsb_true_at in E as [E|[]]. apply wp_advance; [assumption|congruence|]. intros ts' I' L. apply H; [assumption|lia].
  - apply wp_ret. apply H; auto.
Qed.

Ltac wps := repeat match goal with
  | |- wp (pbind _ _) _ _ => apply wp_bind
  | |- wp (praise _) _ _ => apply wp_raise
  | |- wp (pret _) _ _ => apply wp_ret
  | |- wp (at_ _) _ _ => apply wp_at
  | |- wp skip_newlines _ _ => apply wp_newlines; [assumption|intros ? ? ?]
  | |- wp (expect _) _ _ => apply wp_expect; [discriminate|assumption|intros ? ? ? ? ?]
  | |- wp (skip_to _) _ _ => apply wp_skip_to; [discriminate|assumption|intros ? ? ?]
  end.

Definition known (h : head) : Prop := match h with HRaw _ => True | HNamed m _ _ => In (ID, m) whole end.
Lemma wp_head o ts (Q : head -> list tk -> Prop) :
  o <> EOF -> inv ts -> (forall h ts', inv ts' -> length ts' < length ts -> known h -> Q h ts') -> wp (parse_head o) Q ts.
Proof.
  intros O I H. unfold parse_head. apply wp_bind, wp_expect; [assumption|assumption|]. intros v ts1 I1 L1 _.
  wps. destruct (existsb _ _) eqn:E.
  - apply existsb_true_at in E as [E|[]]. apply wp_bind, wp_advance; [assumption|congruence|]. intros ts4 I4 L4.
    wps. destruct (existsb _ _).
    + wps. apply H; [assumption|lia|assumption].
    + wps. apply H; [assumption|lia|assumption].
  - wps. apply H; [assumption|lia|exact Logic.I].
Qed.
Lemma wp_extract ps close ts (Q : text -> list tk -> Prop) :
  (forall c, search uspace ps close src = Some c -> Q (strip uspace c) ts) -> wp (extract uspace ps close src) Q ts.
Proof.
  intros H. unfold extract. destruct src; [apply wp_raise|].
  destruct (search _ _ _ _) eqn:E; [apply wp_ret; auto|apply wp_raise].
Qed.
(** A declaration and where its content comes from. *)
Lemma wp_lvar ts (Q : lvar -> list tk -> Prop) :
  inv ts ->
  (forall h c ts', inv ts' -> length ts' < length ts ->
     search uspace (lvar_pattern h) t_lvar_close src = Some c -> known h -> Q (lvar_of h (strip uspace c)) ts') ->
  wp (parse_lvar uspace src) Q ts.
Proof.
  intros I H. unfold parse_lvar. apply wp_bind, wp_head; [discriminate|assumption|]. intros h ts1 I1 L1 K1.
  apply wp_bind, wp_extract. intros c E. wps.
  specialize (H h c). destruct h as [a|m f [a|]]; apply H; try assumption; lia.
Qed.
Lemma wp_lact ts (Q : lact -> list tk -> Prop) :
  inv ts ->
  (forall h c ts', inv ts' -> length ts' < length ts ->
     search uspace (lact_pattern h) t_lact_close src = Some c -> known h -> Q (lact_of h (strip uspace c)) ts') ->
  wp (parse_lact uspace src) Q ts.
Proof.
  intros I H. unfold parse_lact. apply wp_bind, wp_head; [discriminate|assumption|]. intros h ts1 I1 L1 K1.
  apply wp_bind, wp_extract. intros c E. wps.
  specialize (H h c). destruct h as [a|m f [a|]]; apply H; try assumption; lia.
Qed.
Lemma wp_refs fuel ts (Q : list text -> list tk -> Prop) :
  length ts < fuel -> inv ts -> (forall l ts', inv ts' -> length ts' <= length ts -> Q l ts') -> wp (parse_refs fuel) Q ts.
Proof.
  revert ts Q. induction fuel as [|fuel IH]; intros ts Q F I H; [lia|]. cbn [parse_refs].
  wps. destruct (existsb _ _); [apply wp_ret; auto|]. wps.
  destruct (existsb _ _); [apply wp_ret; apply H; auto|]. wps.
  destruct (existsb _ _); wps.
  eapply wp_comma; [assumption| |reflexivity|]; [discriminate|]. intros tsX IX LX.
  apply wp_bind, IH; [lia|assumption|]. intros l tsY IY LY. apply wp_ret, H; [assumption|lia].
Qed.
Lemma wp_number ts v (Q : oval -> list tk -> Prop) :
  In (NUM, v) whole -> (forall x, Q x ts) -> wp (plift (number udec v)) Q ts.
Proof.
  intros I H. destruct (number udec v) as [x|e] eqn:E; [apply H|].
  right. assert (e = ValueError) as ->; [|split; [reflexivity|]; exists v; auto].
  revert E. unfold number. destruct (existsb _ _); [destruct (float_ok _ _)|destruct (to_int _ _)]; congruence.
Qed.
Lemma wp_oval fuel ts (Q : option oval -> list tk -> Prop) :
  length ts < fuel -> inv ts -> (forall v ts', inv ts' -> length ts' <= length ts -> Q v ts') -> wp (parse_oval udec fuel) Q ts.
Proof.
  intros F I H. pose proof (inv_cur _ I) as C.
  assert (fst (cur ts) = EOF \/ fst (cur ts) <> EOF) as [EE|NE] by (destruct (ttype_dec (fst (cur ts)) EOF); auto).
  { unfold wp, parse_oval. rewrite EE. unfold pbind, advance, pret. pose proof (inv_ne _ I).
    destruct ts as [|x [|y r]]; [contradiction| |]; apply H; auto.
    eapply inv_tail; eauto. cbn; lia. }
  assert (forall (f : unit -> P (option oval)),
            (forall ts', inv ts' -> length ts' < length ts -> wp (f tt) Q ts') -> wp (x <-- advance ;; f x) Q ts) as A.
  { intros f G. apply wp_bind, wp_advance; auto. }
  unfold wp, parse_oval. destruct (fst (cur ts)) eqn:E;
    try (change (wp (_ <-- advance ;; pret None) Q ts); apply A; intros; apply wp_ret, H; [assumption|lia]).
  - apply (A (fun _ => pret (Some (word (snd (cur ts)))))). intros; apply wp_ret, H; [assumption|lia].
  - apply (A (fun _ => v <-- plift (number udec (snd (cur ts))) ;; pret (Some v))). intros; apply wp_bind, wp_number.
    + rewrite <- E, <- surjective_pairing. assumption.
    + intros x. apply wp_ret, H; [assumption|lia].
  - apply (A (fun _ => pret (Some (OStr (snd (cur ts)))))). intros; apply wp_ret, H; [assumption|lia].
  - apply (A (fun _ => _ <-- skip_newlines ;; l <-- parse_refs fuel ;; c <-- at_ [RBRACKET] ;;
                       _ <-- (if c : bool then advance else pret tt) ;; pret (Some (ORefs l)))).
    intros ts1 I1 L1. wps. apply wp_refs; [lia|assumption|]. intros l ts2 I2 L2. wps.
    eapply wp_comma; [assumption| |reflexivity|]; [discriminate|]. intros tsX IX LX. apply wp_ret, H; [assumption|lia].
Qed.
Lemma wp_fields fuel d ts (Q : dict text oval -> list tk -> Prop) :
  length ts < fuel -> inv ts -> (forall l ts', inv ts' -> length ts' <= length ts -> Q l ts') -> wp (parse_fields udec fuel d) Q ts.
Proof.
  revert d ts Q. induction fuel as [|fuel IH]; intros d ts Q F I H; [lia|]. cbn [parse_fields].
  wps. destruct (existsb _ _); [apply wp_ret; auto|]. wps.
  destruct (existsb _ _) eqn:S; [apply wp_ret; apply H; auto|]. wps.
  destruct (existsb _ [ID]); wps.
  - apply wp_oval; [lia|assumption|]. intros vX tsX IX LX. wps.
    eapply wp_comma; [assumption| |reflexivity|]; [discriminate|]. intros ts1 I1 L1.
    apply IH; [lia|assumption|]. intros l tsY IY LY. apply H; [assumption|lia].
  - apply wp_advance; [assumption| |].
    + eapply existsb_false_at; [exact S|]. cbn; auto.
    + intros ts1 I1 L1. apply IH; [lia|assumption|]. intros l tsY IY LY. apply H; [assumption|lia].
Qed.
Lemma wp_out fuel ts (Q : dict text oval -> list tk -> Prop) :
  length ts <= fuel -> inv ts -> (forall l ts', inv ts' -> Q l ts') -> wp (parse_out_block udec fuel) Q ts.
Proof.
  intros F I H. unfold parse_out_block. wps. apply wp_fields; [lia|assumption|]. intros l ts1 I1 L1. wps.
  eapply wp_comma; [assumption| |reflexivity|]; [discriminate|]. intros ts2 I2 L2. apply wp_ret; auto.
Qed.

(** What holds of every program the parser returns. *)
Definition from_lvar (v : lvar) : Prop :=
  exists h c, v = lvar_of h (strip uspace c) /\ search uspace (lvar_pattern h) t_lvar_close src = Some c /\ known h.
Definition from_lact (v : lact) : Prop :=
  exists h c, v = lact_of h (strip uspace c) /\ search uspace (lact_pattern h) t_lact_close src = Some c /\ known h.
Definition pinv (vs : list lvar) (acs : list lact) : Prop :=
  NoDup (map lvar_alias vs ++ map ac_alias acs) /\ Forall from_lvar vs /\ Forall from_lact acs.

Lemma memb_false {K} `{EqB K} (x : K) l : memb x l = false -> ~ In x l.
Proof.
  induction l as [|y l IH]; simpl; [auto|]. destruct (eqb_spec x y); [discriminate|]. intros E [F|F]; [congruence|].
  apply IH; assumption.
Qed.
Lemma wp_loop fuel vs acs al ts :
  length ts < fuel -> inv ts -> pinv vs acs -> (forall a, In a (map lvar_alias vs ++ map ac_alias acs) -> In a al) ->
  wp (parse_loop uspace udec fuel src vs acs al) (fun p _ => pinv (lvars p) (lacts p)) ts.
Proof.
  revert vs acs al ts. induction fuel as [|fuel IH]; intros vs acs al ts F I PI AL; [lia|]. cbn [parse_loop].
  wps. destruct (existsb _ _); [apply wp_ret; assumption|]. wps.
  destruct (existsb _ _) eqn:S; [apply wp_ret; assumption|]. wps.
  assert (forall a, memb a al = false -> ~ In a (map lvar_alias vs ++ map ac_alias acs)) as FR.
  { intros a M K. apply AL in K. apply memb_false in M. contradiction. }
  destruct PI as (N & FV & FA).
  destruct (existsb _ [LVAR_OPEN]); wps.
  { apply wp_lvar; [assumption|]. intros h c ts2 I2 L2 E K2. destruct (memb _ al) eqn:M; [apply wp_raise|].
    apply FR in M. apply IH; [lia|assumption| |].
    - split; [|split; [|assumption]].
      + rewrite map_app, <- app_assoc. cbn [map app]. apply NoDup_Add with (a := lvar_alias (lvar_of h (strip uspace c))) (l := map lvar_alias vs ++ map ac_alias acs).
        { apply Add_app. } split; assumption.
      + apply Forall_app. split; [assumption|]. constructor; [|constructor]. exists h, c. auto.
    - intros a. rewrite map_app, <- app_assoc. cbn [map app]. rewrite in_app_iff. cbn [In].
      specialize (AL a). rewrite in_app_iff in AL. tauto. }
  destruct (existsb _ [LACT_OPEN]); wps.
  { apply wp_lact; [assumption|]. intros h c ts2 I2 L2 E K2. destruct (memb _ al) eqn:M; [apply wp_raise|].
    apply FR in M. apply IH; [lia|assumption| |].
    - split; [|split; [assumption|]].
      + rewrite map_app, app_assoc. cbn [map]. apply NoDup_Add with (a := ac_alias (lact_of h (strip uspace c))) (l := map lvar_alias vs ++ map ac_alias acs).
        { rewrite <- (app_nil_r (map lvar_alias vs ++ map ac_alias acs)) at 1. apply Add_app. } split; assumption.
      + apply Forall_app. split; [assumption|]. constructor; [|constructor]. exists h, c. auto.
    - intros a. rewrite map_app, app_assoc, in_app_iff. cbn [map In]. intros [K|[K|[]]]; [right; auto|left; assumption]. }
  destruct (existsb _ [OUT_OPEN]); wps.
  - apply wp_out; [lia|assumption|]. intros l ts1 I1. apply wp_ret. split; [|split]; assumption.
  - apply wp_advance; [assumption| |].
    + eapply existsb_false_at; [exact S|]. cbn; auto.
    + intros ts1 I1 L1. apply IH; [lia|assumption| |assumption]. split; [|split]; assumption.
Qed.
End Total.

(** * Searching the source *)
Section Search.
Variable uspace : nat -> bool.
Notation sp := (isspace uspace).

Lemma ws_rests_spec s r : In r (ws_rests uspace s) <-> exists w, s = w ++ r /\ all sp w.
Proof.
  induction s as [|c s IH]; cbn [ws_rests].
  - cbn. split.
    + intros [<-|[]]. exists []. split; [reflexivity|constructor].
    + intros (w & E & _). symmetry in E. apply app_eq_nil in E as [_ ->]. auto.
  - destruct (sp c) eqn:C.
    + rewrite in_app_iff, IH. cbn [In]. split.
      * intros [(w & -> & F)|[<-|[]]].
        -- exists (c :: w). split; [reflexivity|]. constructor; assumption.
        -- exists []. split; [reflexivity|constructor].
      * intros (w & E & F). destruct w as [|x w]; cbn in E.
        -- right. left. assumption.
        -- injection E as <- ->. left. exists w. inversion F; auto.
    + cbn [In]. split.
      * intros [<-|[]]. exists []. split; [reflexivity|constructor].
      * intros (w & E & F). destruct w as [|x w]; cbn in E; [left; assumption|].
        injection E as <- ->. inversion F. congruence.
Qed.
Inductive matches : list piece -> text -> Prop :=
| m_nil : matches [] []
| m_lit t ps r : matches ps r -> matches (Lit t :: ps) (t ++ r)
| m_sp0 w ps r : all sp w -> matches ps r -> matches (Sp0 :: ps) (w ++ r)
| m_sp1 w ps r : w <> [] -> all sp w -> matches ps r -> matches (Sp1 :: ps) (w ++ r).

Lemma cands_spec ps s r : In r (cands uspace ps s) <-> exists t, matches ps t /\ s = t ++ r.
Proof.
  revert s. induction ps as [|[t| |] ps IH]; intros s; cbn [cands].
  - cbn. split.
    + intros [<-|[]]. exists []. split; [constructor|reflexivity].
    + intros (t & M & ->). inversion M. auto.
  - destruct (starts t s) eqn:S.
    + apply starts_spec in S as [q ->]. rewrite skipn_app, skipn_all2, Nat.sub_diag by lia. cbn [app skipn].
      rewrite IH. split.
      * intros (t' & M & ->). exists (t ++ t'). split; [constructor; assumption|]. rewrite app_assoc. reflexivity.
      * intros (t' & M & E). inversion M; subst. rewrite <- app_assoc in E. apply app_inv_head in E. subst q. eauto.
    + cbn. split; [contradiction|]. intros (t' & M & ->). inversion M; subst. rewrite <- app_assoc in S.
      assert (starts t (t ++ r0 ++ r) = true) by (apply starts_spec; eauto). congruence.
  - destruct s as [|c s].
    + cbn. split; [contradiction|]. intros (t' & M & E). inversion M; subst. destruct w; [contradiction|discriminate].
    + destruct (sp c) eqn:C.
      * rewrite in_flat_map. split.
        -- intros (x & Hx & Hr). apply ws_rests_spec in Hx as (w & -> & F). apply IH in Hr as (t & M & ->).
           exists ((c :: w) ++ t). split.
           ++ constructor; [discriminate| |assumption]. constructor; assumption.
           ++ cbn. rewrite app_assoc. reflexivity.
        -- intros (t & M & E). inversion M as [| | |w ps' q N F M']; subst. destruct w as [|x w]; [contradiction|].
           cbn in E. injection E as <- ->. inversion F; subst. exists (q ++ r). split.
           ++ apply ws_rests_spec. exists w. split; [rewrite app_assoc; reflexivity|assumption].
           ++ apply IH. eauto.
      * cbn. split; [contradiction|]. intros (t & M & E). inversion M as [| | |w ps' q N F M']; subst.
        destruct w as [|x w]; [contradiction|]. cbn in E. injection E as <- _. inversion F. congruence.
  - rewrite in_flat_map. split.
    + intros (x & Hx & Hr). apply ws_rests_spec in Hx as (w & -> & F). apply IH in Hr as (t & M & ->).
      exists (w ++ t). split; [constructor; assumption|]. rewrite app_assoc. reflexivity.
    + intros (t & M & E). inversion M as [| |w ps' q F M'|]; subst. exists (q ++ r). split.
      * apply ws_rests_spec. exists w. rewrite app_assoc. auto.
      * apply IH. eauto.
Qed.

Lemma until_spec close s :
  match until close s with
  | Some b => exists post, upto close s b post
  | None => forall b post, s <> b ++ close ++ post
  end.
Proof.
  induction s as [|c s IH]; cbn [until].
  - destruct (starts close []) eqn:S.
    + apply starts_spec in S as [post E]. exists post. split; [assumption|]. intros. cbn. lia.
    + intros b post E. symmetry in E. apply app_eq_nil in E as [_ E].
      assert (starts close [] = true) by (apply starts_spec; eauto). congruence.
  - destruct (starts close (c :: s)) eqn:S.
    + apply starts_spec in S as [post E]. exists post. split; [assumption|]. intros. cbn. lia.
    + assert (forall b post, c :: s = b ++ close ++ post -> exists b', b = c :: b' /\ s = b' ++ close ++ post) as K.
      { intros b post E. destruct b as [|x b].
        - cbn in E. assert (starts close (c :: s) = true) by (apply starts_spec; eauto). congruence.
        - cbn in E. injection E as <- E. eauto. }
      destruct (until close s) as [b|]; cbn [option_map].
      * destruct IH as (post & -> & M). exists post. split; [reflexivity|].
        intros b' post' E. apply K in E as (b'' & -> & E). apply M in E. cbn. lia.
      * intros b post E. apply K in E as (b' & _ & E). eapply IH; eauto.
Qed.
Lemma first_some_spec {A B} (f : A -> option B) l :
  match first_some f l with
  | Some b => exists a, In a l /\ f a = Some b
  | None => forall a, In a l -> f a = None
  end.
Proof.
  induction l as [|a l IH]; cbn [first_some].
  - intros a [].
  - destruct (f a) eqn:E; [exists a; cbn; auto|]. destruct (first_some f l).
    + destruct IH as (x & I & F). exists x. cbn; auto.
    + intros x [<-|I]; auto.
Qed.
Lemma search_here ps close s c :
  first_some (until close) (cands uspace ps s) = Some c ->
  exists t r post, s = t ++ r /\ matches ps t /\ upto close r c post.
Proof.
  intros H. pose proof (first_some_spec (until close) (cands uspace ps s)) as F. rewrite H in F.
  destruct F as (r & I & U). apply cands_spec in I as (t & M & ->). pose proof (until_spec close r) as V. rewrite U in V.
  destruct V as (post & V). eauto 8.
Qed.
Lemma search_not_here ps close s t b post :
  first_some (until close) (cands uspace ps s) = None -> s = t ++ b ++ close ++ post -> matches ps t -> False.
Proof.
  intros H E M. pose proof (first_some_spec (until close) (cands uspace ps s)) as F. rewrite H in F.
  assert (In (b ++ close ++ post) (cands uspace ps s)) as I by (apply cands_spec; eauto).
  apply F in I. pose proof (until_spec close (b ++ close ++ post)) as V. rewrite I in V. eapply V; reflexivity.
Qed.
Lemma search_spec ps close src c :
  search uspace ps close src = Some c ->
  exists pre t s post, src = pre ++ t ++ s /\ matches ps t /\ upto close s c post /\
    forall pre' t' b' post', src = pre' ++ t' ++ b' ++ close ++ post' -> matches ps t' -> length pre <= length pre'.
Proof.
  induction src as [|x src IH]; cbn [search];
    match goal with |- context [first_some ?f ?l] => destruct (first_some f l) eqn:E end.
  - intros H. injection H as ->. apply search_here in E as (t & r & post & E & M & U).
    exists [], t, r, post. repeat split; auto; try apply U. intros. cbn. lia.
  - discriminate.
  - intros H. injection H as ->. apply search_here in E as (t & r & post & E & M & U).
    exists [], t, r, post. repeat split; auto; try apply U. intros. cbn. lia.
  - intros H. apply IH in H as (pre & t & s & post & -> & M & U & L). exists (x :: pre), t, s, post.
    repeat split; auto; try apply U. intros [|y pre'] t' b' post' E' M'.
    + cbn in E'. exfalso. eapply search_not_here; eauto.
    + cbn in E'. injection E' as _ E'. cbn. apply L in E'; auto. lia.
Qed.
Lemma search_some ps close src pre t b post :
  src = pre ++ t ++ b ++ close ++ post -> matches ps t -> exists c, search uspace ps close src = Some c.
Proof.
  intros E M. revert src E. induction pre as [|x pre IH]; intros src E.
  - cbn [app] in E. destruct src as [|y src]; cbn [search];
      match goal with |- context [first_some ?f ?l] => destruct (first_some f l) eqn:F end; eauto;
      exfalso; eapply search_not_here; eauto.
  - destruct src as [|y src]; [discriminate|]. cbn in E. injection E as -> E. cbn [search].
    match goal with |- context [first_some ?f ?l] => destruct (first_some f l) end; eauto.
Qed.

Lemma all_app f a b : all f (a ++ b) <-> all f a /\ all f b.
Proof. apply Forall_app. Qed.
(** * White space *)
Lemma strip_trimmed b : trimmed sp b (strip uspace b).
Proof.
  unfold strip, lstrip, trimmed.
  destruct (span sp b) as [w b1] eqn:E1. destruct (span_spec _ _ _ _ E1) as (-> & F1 & G1). cbn [snd].
  destruct (span sp (rev b1)) as [w2 b2] eqn:E2. destruct (span_spec _ _ _ _ E2) as (E & F2 & G2). cbn [snd].
  apply (f_equal (@rev nat)) in E. rewrite rev_involutive, rev_app_distr in E. subst b1.
  exists w, (rev w2). split; [reflexivity|]. split; [assumption|]. split; [apply Forall_rev; assumption|].
  rewrite rev_involutive. split.
  - destruct (rev b2) as [|x r] eqn:R; [exact I|]. exact G1.
  - destruct b2 as [|x r]; [|assumption]. cbn [rev app] in G1. destruct (rev w2) as [|x r] eqn:R; [reflexivity|].
    exfalso. assert (In x w2) as I by (apply in_rev; rewrite R; left; reflexivity).
    unfold all in F2. rewrite Forall_forall in F2. rewrite (F2 x) in G1 by assumption. discriminate.
Qed.
Lemma trimmed_strip b c : trimmed sp b c -> strip uspace b = c.
Proof.
  intros (w & w' & -> & F & F' & H1 & H2). unfold strip, lstrip. destruct c as [|x c].
  - cbn in H2. subst w'. rewrite app_nil_r. rewrite <- (app_nil_r w). rewrite span_app; [|assumption|exact I]. reflexivity.
  - rewrite span_app; [|assumption|exact H1]. cbn [snd]. rewrite rev_app_distr. rewrite span_app; [|apply Forall_rev; assumption|].
    + cbn [snd]. apply rev_involutive.
    + destruct (rev (x :: c)); [exact I|assumption].
Qed.

Lemma codes_gt : codes ">" = [62]. Proof. reflexivity. Qed.
Lemma matches_lvar h t : matches (lvar_pattern h) t <-> tag sp sp t_lvar_open h t.
Proof.
  unfold lvar_pattern, named_pieces, dotted. split.
  - intros M. destruct h as [a|m f [a|]]; cbn [app] in M;
      repeat match goal with H : matches (_ :: _) _ |- _ => inversion H; clear H; subst | H : matches [] _ |- _ => inversion H; clear H; subst end.
    + rewrite app_nil_r. constructor; assumption.
    + rewrite app_nil_r. rewrite <- (app_assoc m). constructor; assumption.
    + rewrite app_nil_r. rewrite <- (app_assoc m). apply (tag_field sp sp t_lvar_open m f); assumption.
  - intros T. inversion T; subst; cbn [app].
    + rewrite <- (app_nil_r (codes ">")). repeat first [apply m_lit | apply m_sp1; [assumption|assumption|] | apply m_sp0; [assumption|] | apply m_nil].
    + replace (m ++ codes "." ++ fd ++ w2 ++ codes ">") with ((m ++ dot :: fd) ++ w2 ++ codes ">" ++ []) by (rewrite app_nil_r, <- app_assoc; reflexivity).
      repeat first [apply m_lit | apply m_sp1; [assumption|assumption|] | apply m_sp0; [assumption|] | apply m_nil].
    + replace (m ++ codes "." ++ fd ++ w3 ++ a ++ w2 ++ codes ">") with ((m ++ dot :: fd) ++ w3 ++ a ++ w2 ++ codes ">" ++ []) by (rewrite app_nil_r, <- app_assoc; reflexivity).
      repeat first [apply m_lit | apply m_sp1; [assumption|assumption|] | apply m_sp0; [assumption|] | apply m_nil].
Qed.
Lemma matches_lact h t :
  match h with HNamed m _ _ => m <> [] | _ => True end ->
  matches (lact_pattern h) t <-> tag sp sp t_lact_open h t.
Proof.
  intros N. replace (lact_pattern h) with
    ([Lit t_lact_open; Sp1] ++ match h with HRaw a => [Lit a] | HNamed m f a => named_pieces m f a end ++ [Sp0; Lit (codes ">")])
    by (destruct h as [|[|? ?] ? ?]; [reflexivity|contradiction|reflexivity]).
  unfold named_pieces, dotted. split.
  - intros M. destruct h as [a|m f [a|]]; cbn [app] in M;
      repeat match goal with H : matches (_ :: _) _ |- _ => inversion H; clear H; subst | H : matches [] _ |- _ => inversion H; clear H; subst end.
    + rewrite app_nil_r. constructor; assumption.
    + rewrite app_nil_r. rewrite <- (app_assoc m). constructor; assumption.
    + rewrite app_nil_r. rewrite <- (app_assoc m). apply (tag_field sp sp t_lact_open m f); assumption.
  - intros T. inversion T; subst; cbn [app].
    + rewrite <- (app_nil_r (codes ">")). repeat first [apply m_lit | apply m_sp1; [assumption|assumption|] | apply m_sp0; [assumption|] | apply m_nil].
    + replace (m ++ codes "." ++ fd ++ w2 ++ codes ">") with ((m ++ dot :: fd) ++ w2 ++ codes ">" ++ []) by (rewrite app_nil_r, <- app_assoc; reflexivity).
      repeat first [apply m_lit | apply m_sp1; [assumption|assumption|] | apply m_sp0; [assumption|] | apply m_nil].
    + replace (m ++ codes "." ++ fd ++ w3 ++ a ++ w2 ++ codes ">") with ((m ++ dot :: fd) ++ w3 ++ a ++ w2 ++ codes ">" ++ []) by (rewrite app_nil_r, <- app_assoc; reflexivity).
      repeat first [apply m_lit | apply m_sp1; [assumption|assumption|] | apply m_sp0; [assumption|] | apply m_nil].
Qed.
Lemma search_content ps kw close h src c :
  (forall t, matches ps t <-> tag sp sp kw h t) -> search uspace ps close src = Some c ->
  first_content sp kw close h src (strip uspace c).
Proof.
  intros M S. apply search_spec in S as (pre & t & s & post & -> & T & U & L).
  exists pre, t, s, c, post. repeat split; try apply U; auto using strip_trimmed.
  - apply M. assumption.
  - intros. eapply L; eauto. apply M. assumption.
Qed.
End Search.
