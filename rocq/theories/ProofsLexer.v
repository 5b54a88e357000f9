(** Proofs about the lexer. *)
From Coq Require Import List Bool Arith Lia Sorting.
From Verif Require Import ModelLexer SpecLexer.
Import ListNotations.
Local Open Scope nat_scope.
Local Open Scope list_scope.

(** * Texts *)
Lemma starts_spec p s : starts p s = true <-> exists r, s = p ++ r.
Proof.
  revert s. induction p as [|x p IH]; intros s; simpl.
  - split; eauto.
  - destruct s as [|y s].
    + split; [discriminate | intros [r H]; discriminate].
    + rewrite andb_true_iff, Nat.eqb_eq, IH. split.
      * intros [-> [r ->]]. exists r. reflexivity.
      * intros [r H]. injection H as -> ->. eauto.
Qed.
Lemma span_spec f s a b :
  span f s = (a, b) -> s = a ++ b /\ Forall (fun c => f c = true) a /\ match b with c :: _ => f c = false | [] => True end.
Proof.
  revert a b. induction s as [|c r IH]; intros a b; simpl.
  - intros H. injection H as <- <-. auto.
  - destruct (f c) eqn:F.
    + destruct (span f r) as [a' b'] eqn:E. intros H. injection H as <- <-.
      destruct (IH _ _ eq_refl) as (-> & G & K). auto.
    + intros H. injection H as <- <-. auto.
Qed.
Lemma span_app f a b :
  Forall (fun c => f c = true) a -> match b with c :: _ => f c = false | [] => True end -> span f (a ++ b) = (a, b).
Proof.
  intros F G. induction F as [|c a H F IH]; simpl.
  - destruct b as [|c b]; [reflexivity|]. simpl. rewrite G. reflexivity.
  - rewrite H, IH. reflexivity.
Qed.

(** * Positions *)
Definition pos (s : text) : nat * nat :=
  (S (newlines s), tail_length s + (if S (newlines s) =? 1 then 1 else 0)).
Lemma newlines_app a b : newlines (a ++ b) = newlines a + newlines b.
Proof. apply count_occ_app. Qed.
Lemma existsb_newlines s : existsb (Nat.eqb 10) s = negb (newlines s =? 0).
Proof.
  unfold newlines. induction s as [|c s IH]; [reflexivity|]. cbn [existsb count_occ].
  destruct (Nat.eq_dec c 10) as [->|N].
  - reflexivity.
  - destruct (Nat.eqb_spec 10 c); [congruence|]. exact IH.
Qed.
Lemma tail_snoc s c : tail_length (s ++ [c]) = if c =? 10 then 0 else S (tail_length s).
Proof.
  induction s as [|x s IH].
  - cbn [app tail_length existsb]. destruct (Nat.eqb_spec c 10) as [->|N]; [reflexivity|].
    destruct (Nat.eqb_spec 10 c); [congruence|]. reflexivity.
  - cbn [app tail_length]. rewrite IH. cbn [existsb]. rewrite existsb_app. cbn [existsb].
    rewrite orb_false_r, (Nat.eqb_sym 10 c). destruct (c =? 10).
    + rewrite !orb_true_r. reflexivity.
    + rewrite !orb_false_r. destruct ((10 =? x) || existsb (Nat.eqb 10) s); reflexivity.
Qed.
Lemma pos_snoc s c : pos (s ++ [c]) = adv c (pos s).
Proof.
  unfold pos, adv, newline. rewrite newlines_app, tail_snoc. unfold newlines at 2 4. cbn [count_occ].
  destruct (Nat.eqb_spec c 10) as [->|N]; cbn [fst snd].
  - destruct (Nat.eq_dec 10 10); [|congruence]. replace (newlines s + 1) with (S (newlines s)) by lia.
    reflexivity.
  - destruct (Nat.eq_dec c 10); [congruence|]. rewrite Nat.add_0_r. reflexivity.
Qed.
Lemma pos_app s l :
  Forall (fun c => c <> 10) l -> pos (s ++ l) = (fst (pos s), snd (pos s) + length l).
Proof.
  revert s. induction l as [|c l IH]; intros s F.
  - rewrite app_nil_r. cbn [length]. rewrite Nat.add_0_r. destruct (pos s); reflexivity.
  - inversion F; subst. replace (s ++ c :: l) with ((s ++ [c]) ++ l) by (rewrite <- app_assoc; reflexivity).
    rewrite IH by assumption. rewrite pos_snoc. unfold adv, newline. destruct (Nat.eqb_spec c 10); [congruence|].
    cbn [fst snd length]. f_equal. lia.
Qed.

(** * String literals *)
Lemma escaped_iff e x : escaped e x <-> x = unescape e.
Proof.
  unfold unescape. split.
  - intros H. destruct H as [| | |e H]; try reflexivity. cbn in H.
    destruct (Nat.eqb_spec e 110); [exfalso; auto|]. destruct (Nat.eqb_spec e 116); [exfalso; auto|].
    destruct (Nat.eqb_spec e 114); [exfalso; auto|reflexivity].
  - intros ->. destruct (Nat.eqb_spec e 110) as [->|]; [constructor|]. destruct (Nat.eqb_spec e 116) as [->|]; [constructor|].
    destruct (Nat.eqb_spec e 114) as [->|]; constructor. cbn. intuition.
Qed.
Lemma un_esc' q e b v : unescapes q b v -> unescapes q (92 :: e :: b) (unescape e :: v).
Proof. intros H. apply un_esc; [apply escaped_iff; reflexivity|assumption]. Qed.
Inductive strlit (q : nat) : text -> text -> text -> Prop :=
| sl_closed b v r : unescapes q b v -> strlit q (b ++ q :: r) v r
| sl_open b v : unescapes q b v -> strlit q b v []
| sl_back b v : unescapes q b v -> strlit q (b ++ [92]) v [].

Lemma read_string_ok q n s pre :
  length s <= n -> q <> 92 ->
  exists v r b, read_string q s (pos pre) = (v, r, pos (pre ++ b)) /\ s = b ++ r /\ strlit q s v r.
Proof.
  revert s pre. induction n as [|n IH]; intros s pre L Q.
  - destruct s; [|simpl in L; lia]. exists [], [], []. cbn. rewrite app_nil_r. repeat split. apply sl_open. constructor.
  - destruct s as [|c r].
    + exists [], [], []. cbn. rewrite app_nil_r. repeat split. apply sl_open. constructor.
    + cbn [read_string]. destruct (Nat.eqb_spec c q) as [->|N].
      * exists [], r, [q]. rewrite <- pos_snoc. repeat split. apply (sl_closed q []). constructor.
      * unfold backslash. destruct (Nat.eqb_spec c 92) as [->|M].
        -- destruct r as [|e r].
           ++ exists [], [], [92]. rewrite <- pos_snoc. repeat split. apply (sl_back q []). constructor.
           ++ rewrite <- !pos_snoc. destruct (IH r ((pre ++ [92]) ++ [e])) as (v & rest & b & E & -> & K).
              { simpl in L. lia. } { assumption. }
              rewrite E. exists (unescape e :: v), rest, (92 :: e :: b). repeat split.
              ** rewrite <- !app_assoc. reflexivity.
              ** revert K. generalize (b ++ rest). intros t K. inversion K; subst.
                 --- change (strlit q ((92 :: e :: b0) ++ q :: rest) (unescape e :: v) rest). constructor. apply un_esc'. assumption.
                 --- apply sl_open, un_esc'. assumption.
                 --- change (strlit q ((92 :: e :: b0) ++ [92]) (unescape e :: v) []). apply sl_back, un_esc'. assumption.
        -- rewrite <- !pos_snoc. destruct (IH r (pre ++ [c])) as (v & rest & b & E & -> & K).
           { simpl in L. lia. } { assumption. }
           rewrite E. exists (c :: v), rest, (c :: b). repeat split.
           ++ rewrite <- !app_assoc. reflexivity.
           ++ revert K. generalize (b ++ rest). intros t K. inversion K; subst.
              --- change (strlit q ((c :: b0) ++ q :: rest) (c :: v) rest). constructor. constructor; assumption.
              --- apply sl_open. constructor; assumption.
              --- change (strlit q ((c :: b0) ++ [92]) (c :: v) []). apply sl_back. constructor; assumption.
Qed.
Lemma strlit_app q s v r : strlit q s v r -> exists b, s = b ++ r.
Proof.
  intros H. destruct H as [b v r H|b v H|b v H].
  - exists (b ++ [q]). rewrite <- app_assoc. reflexivity.
  - exists b. rewrite app_nil_r. reflexivity.
  - exists (b ++ [92]). rewrite app_nil_r. reflexivity.
Qed.
Lemma app_same_tail {A} (a b r : list A) : a ++ r = b ++ r -> a = b.
Proof. intros H. apply app_inv_tail in H. assumption. Qed.
Lemma strlit_literal q b v r last :
  (q = 34 \/ q = 39) -> strlit q (b ++ r) v r -> (r = [] -> last = true) -> literal last (q :: b) v.
Proof.
  intros Q H L. remember (b ++ r) as s eqn:E. destruct H as [b' v r H|b' v H|b' v H].
  - replace (b' ++ q :: r) with ((b' ++ [q]) ++ r) in E by (rewrite <- app_assoc; reflexivity).
    apply app_same_tail in E. subst b. apply lit_closed; assumption.
  - rewrite app_nil_r in E. subst b'. apply lit_open; auto.
  - rewrite app_nil_r in E. subst b. apply lit_back; auto.
Qed.
Lemma read_string_unescapes q b v r pre :
  unescapes q b v -> q <> 92 -> read_string q (b ++ q :: r) (pos pre) = (v, r, pos (pre ++ b ++ [q])).
Proof.
  intros U Q. revert pre. induction U as [|c b v N M U IH|e x b v X U IH]; intros pre.
  3: apply escaped_iff in X as ->.
  - cbn [app read_string]. rewrite Nat.eqb_refl, <- pos_snoc. reflexivity.
  - cbn [app read_string]. unfold backslash. rewrite (proj2 (Nat.eqb_neq _ _) N), (proj2 (Nat.eqb_neq _ _) M), <- pos_snoc, IH.
    rewrite <- app_assoc. reflexivity.
  - cbn [app read_string]. unfold backslash. rewrite (proj2 (Nat.eqb_neq 92 q)) by congruence. cbn [Nat.eqb].
    rewrite <- !pos_snoc, IH, <- !app_assoc. reflexivity.
Qed.

(** * The lexer *)
Section Lexer.
Variables (ualpha unum udigit : nat -> bool).
Notation lex := (lex ualpha unum udigit).
Notation id_char := (id_char ualpha unum udigit).
Notation id_start := (id_start ualpha).
Notation isdigit := (isdigit udigit).
Notation num_char := (num_char udigit).

Lemma id_start_char c : id_start c = true -> id_char c = true.
Proof.
  unfold id_start, id_char, isalnum. rewrite !orb_true_iff. tauto.
Qed.
Lemma digit_num c : isdigit c = true -> num_char c = true.
Proof. unfold num_char. intros ->. reflexivity. Qed.
Lemma ascii_ctrl c : c <? 48 = true -> id_char c = false /\ isdigit c = false.
Proof.
  intros H. apply Nat.ltb_lt in H. unfold id_char, isalnum, isalpha, ModelLexer.isdigit, underscore.
  assert (c <? 128 = true) as -> by (apply Nat.ltb_lt; lia).
  assert (65 <=? c = false) as -> by (apply Nat.leb_gt; lia).
  assert (97 <=? c = false) as -> by (apply Nat.leb_gt; lia).
  assert (48 <=? c = false) as -> by (apply Nat.leb_gt; lia).
  assert (c =? 95 = false) as -> by (apply Nat.eqb_neq; lia). split; reflexivity.
Qed.
Lemma id_char_nl : id_char 10 = false.
Proof. reflexivity. Qed.
Lemma num_char_nl : num_char 10 = false.
Proof. reflexivity. Qed.

(** One round: either a token or a skipped piece. *)
Inductive round (io : bool) (s : text) : option (ttype * text) -> bool -> text -> text -> Prop :=
| r_skip b r : s = b ++ r -> b <> [] ->
    (forall i c, nth_error b i = Some c -> ignorable ualpha udigit s i c) ->
    Forall (fun c => blank c = true) b \/ length b = 1 -> round io s None io b r
| r_tok t v b r io' : s = b ++ r -> b <> [] -> t <> EOF ->
    io' = match t with OUT_OPEN => true | OUT_CLOSE => false | _ => io end ->
    (forall l c, well_formed ualpha unum udigit (Tok t v l c)) ->
    (match t with STR => io = true /\ literal (match r with [] => true | _ => false end) b v | _ => b = v end) ->
    (forall w, v = 45 :: w -> t = NUM -> io = true) ->
    (forall c, nth_error r 0 = Some c ->
       match t with ID => id_char c = false | NUM => num_char c = false | _ => True end) ->
    round io s (Some (t, v)) io' b r.

Lemma tags_lt tag : In tag tags -> exists r, tag = 60 :: r.
Proof.
  intros H. cbn [tags In] in H. repeat destruct H as [<-|H]; try contradiction; eexists; reflexivity.
Qed.
Lemma no_tag tag s i c : In tag tags -> nth_error s i = Some c -> c <> 60 -> starts tag (skipn i s) = false.
Proof.
  intros H E N. destruct (tags_lt _ H) as [r ->].
  assert (skipn i s = c :: skipn (S i) s) as ->.
  { revert i E. induction s as [|x s IH]; intros [|i] E; try discriminate.
    - injection E as ->. reflexivity.
    - simpl in E. cbn [skipn]. rewrite (IH _ E). reflexivity. }
  cbn [starts]. rewrite (proj2 (Nat.eqb_neq 60 c)) by congruence. reflexivity.
Qed.
Lemma blank_cases c : blank c = true -> c = 32 \/ c = 9 \/ c = 13.
Proof. unfold blank. rewrite !orb_true_iff, !Nat.eqb_eq. tauto. Qed.
Lemma nth_app_l {A} (b r : list A) i c : nth_error b i = Some c -> nth_error (b ++ r) i = Some c.
Proof. intros H. rewrite nth_error_app1; [assumption|]. apply nth_error_Some. congruence. Qed.
Lemma tag_round (io : bool) t tag s rest :
  s = tag ++ rest -> tag <> [] -> In t [LVAR_OPEN; LVAR_CLOSE; LACT_OPEN; LACT_CLOSE] ->
  (forall l c, well_formed ualpha unum udigit (Tok t tag l c)) ->
  round io s (Some (t, tag)) io tag rest.
Proof.
  intros -> N T W. apply r_tok; try assumption; try reflexivity;
  cbn [In] in T; repeat destruct T as [<-|T]; try contradiction; try discriminate; auto.
Qed.

Lemma lex_round fuel io s pre :
  s <> [] ->
  exists m io' b r, round io s m io' b r /\
    lex (S fuel) io s (pos pre) =
      match m with
      | None => lex fuel io' r (pos (pre ++ b))
      | Some (t, v) => option_map (cons (Tok t v (fst (pos pre)) (snd (pos pre)))) (lex fuel io' r (pos (pre ++ b)))
      end.
Proof.
  intros NE. destruct s as [|c r]; [contradiction|]. clear NE. cbn [ModelLexer.lex].
  destruct (blank c) eqn:B.
  { destruct (span blank (c :: r)) as [w rest] eqn:E. pose proof (span_spec _ _ _ _ E) as (A & F & _).
    exists None, io, w, rest. split.
    - apply r_skip; [assumption| | |left; assumption].
      + intros ->. simpl in E. rewrite B in E. destruct (span blank r); discriminate.
      + intros i x H. assert (blank x = true) as K by (rewrite Forall_forall in F; apply F; eapply nth_error_In; eauto).
        assert (nth_error (c :: r) i = Some x) as H' by (rewrite A; apply nth_app_l; assumption).
        repeat split; try (apply blank_cases in K as [->|[->| ->]]; cbv; congruence).
        intros tag T. eapply no_tag; eauto. apply blank_cases in K as [->|[->| ->]]; lia.
    - rewrite pos_app; [reflexivity|]. eapply Forall_impl; [|exact F]. cbn beta. intros x K ->. discriminate. }
  unfold newline at 1. destruct (Nat.eqb_spec c 10) as [->|NL].
  { exists (Some (NEWLINE, [10])), io, [10], r. rewrite <- pos_snoc. split; [|reflexivity].
    apply r_tok; try reflexivity; try discriminate; auto. }
  unfold lt_sign. destruct (Nat.eqb_spec c 60) as [->|LT].
  { destruct (starts t_lvar_close (60 :: r)) eqn:E1.
    { apply starts_spec in E1 as [rest E]. rewrite E. change (skipn 7 (t_lvar_close ++ rest)) with rest.
      exists (Some (LVAR_CLOSE, t_lvar_close)), io, t_lvar_close, rest. split.
      - apply tag_round; cbn; auto; discriminate.
      - rewrite pos_app; [reflexivity|]. repeat constructor; discriminate. }
    destruct (starts t_lact_close (60 :: r)) eqn:E2.
    { apply starts_spec in E2 as [rest E]. rewrite E. change (skipn 7 (t_lact_close ++ rest)) with rest.
      exists (Some (LACT_CLOSE, t_lact_close)), io, t_lact_close, rest. split.
      - apply tag_round; cbn; auto; discriminate.
      - rewrite pos_app; [reflexivity|]. repeat constructor; discriminate. }
    destruct (starts t_lvar_open (60 :: r)) eqn:E3.
    { apply starts_spec in E3 as [rest E]. rewrite E. change (skipn 5 (t_lvar_open ++ rest)) with rest.
      exists (Some (LVAR_OPEN, t_lvar_open)), io, t_lvar_open, rest. split.
      - apply tag_round; cbn; auto; discriminate.
      - rewrite pos_app; [reflexivity|]. repeat constructor; discriminate. }
    destruct (starts t_lact_open (60 :: r)) eqn:E4.
    { apply starts_spec in E4 as [rest E]. rewrite E. change (skipn 5 (t_lact_open ++ rest)) with rest.
      exists (Some (LACT_OPEN, t_lact_open)), io, t_lact_open, rest. split.
      - apply tag_round; cbn; auto; discriminate.
      - rewrite pos_app; [reflexivity|]. repeat constructor; discriminate. }
    exists None, io, [60], r. rewrite <- pos_snoc. split; [|reflexivity].
    apply r_skip; [reflexivity|discriminate| |right; reflexivity]. intros [|[|i]] x H; cbn in H; try discriminate. injection H as <-.
    repeat split; try discriminate. cbn [skipn]. cbn [tags In]. intros tag H.
    repeat destruct H as [<-|H]; try assumption; contradiction. }
  destruct (starts t_out (c :: r)) eqn:O.
  { apply starts_spec in O as [rest E]. rewrite E. change (skipn 4 (t_out ++ rest)) with rest.
    exists (Some (OUT_OPEN, t_out)), true, t_out, rest. split.
    - apply r_tok; try reflexivity; try discriminate; auto.
    - rewrite pos_app; [reflexivity|]. repeat constructor; discriminate. }
  destruct (id_start c) eqn:I.
  { destruct (span id_char (c :: r)) as [v rest] eqn:E. pose proof (span_spec _ _ _ _ E) as (A & F & M).
    destruct v as [|c' v].
    { cbn [span] in E. rewrite (id_start_char _ I) in E. destruct (span id_char r); discriminate. }
    cbn [app] in A. injection A as <- A. exists (Some (ID, c :: v)), io, (c :: v), rest. split.
    - apply r_tok; try reflexivity; try discriminate; auto.
      + cbn. rewrite A. reflexivity.
      + intros l col. exists c, v. inversion F; subst; repeat split; assumption.
      + intros x H. destruct rest; [discriminate|]. injection H as <-. assumption.
    - rewrite pos_app; [reflexivity|]. eapply Forall_impl; [|exact F]. cbn beta. intros x K ->. discriminate. }
  destruct ((c =? minus) && io && match r with d :: _ => isdigit d | [] => false end) eqn:M.
  { apply andb_true_iff in M as [M D]. apply andb_true_iff in M as [M ->]. apply Nat.eqb_eq in M. unfold minus in M. subst c.
    destruct r as [|d r]; [discriminate|].
    destruct (span num_char (d :: r)) as [v rest] eqn:E. pose proof (span_spec _ _ _ _ E) as (A & F & MX).
    destruct v as [|d' v].
    { cbn [span] in E. rewrite (digit_num _ D) in E. destruct (span num_char r); discriminate. }
    cbn [app] in A. injection A as <- A. exists (Some (NUM, 45 :: d :: v)), true, (45 :: d :: v), rest. split.
    - apply r_tok; try reflexivity; try discriminate; auto.
      + cbn. rewrite A. reflexivity.
      + intros l col. exists d, v. inversion F; subst; repeat split; auto.
      + intros x H. destruct rest; [discriminate|]. injection H as <-. assumption.
    - rewrite pos_app; [reflexivity|]. constructor; [discriminate|].
      eapply Forall_impl; [|exact F]. cbn beta. intros x K ->. discriminate. }
  destruct (isdigit c) eqn:D.
  { destruct (span num_char (c :: r)) as [v rest] eqn:E. pose proof (span_spec _ _ _ _ E) as (A & F & MX).
    destruct v as [|d' v].
    { cbn [span] in E. rewrite (digit_num _ D) in E. destruct (span num_char r); discriminate. }
    cbn [app] in A. injection A as <- A. exists (Some (NUM, c :: v)), io, (c :: v), rest. split.
    - apply r_tok; try reflexivity; try discriminate; auto.
      + cbn. rewrite A. reflexivity.
      + intros l col. exists c, v. inversion F; subst; repeat split; auto.
      + intros w H _. injection H as -> _. discriminate.
      + intros x H. destruct rest; [discriminate|]. injection H as <-. assumption.
    - rewrite pos_app; [reflexivity|]. eapply Forall_impl; [|exact F]. cbn beta. intros x K ->. discriminate. }
  destruct (is_quote c && io) eqn:Q.
  { apply andb_true_iff in Q as [Q ->]. unfold is_quote in Q. rewrite orb_true_iff, !Nat.eqb_eq in Q.
    rewrite <- pos_snoc. destruct (read_string_ok c (length r) r (pre ++ [c])) as (v & rest & b & E & -> & S).
    { lia. } { lia. }
    rewrite E. exists (Some (STR, v)), true, (c :: b), rest. split.
    - apply r_tok; try reflexivity; try discriminate; auto.
      + split; [reflexivity|]. eapply strlit_literal; eauto. intros ->. reflexivity.
    - rewrite <- app_assoc. reflexivity. }
  destruct (punct c) as [t|] eqn:P.
  { exists (Some (t, [c])), (match t with OUT_CLOSE => false | _ => io end), [c], r. rewrite <- pos_snoc. split; [|reflexivity].
    assert (In t [DOT; COMMA; COLON; LBRACKET; RBRACKET; LPAREN; RPAREN; OUT_CLOSE; GT]) as T.
    { revert P. unfold punct. clear.
      repeat match goal with |- context [c =? ?n] => destruct (c =? n); [intros H; injection H as <-; cbn; tauto|] end. discriminate. }
    cbn [In] in T. repeat destruct T as [<-|T]; try contradiction;
      (apply r_tok; try reflexivity; try discriminate; auto; intros l col; exists c; auto). }
  exists None, io, [c], r. rewrite <- pos_snoc. split; [|reflexivity].
  apply r_skip; [reflexivity|discriminate| |right; reflexivity]. intros [|[|i]] x H; cbn in H; try discriminate. injection H as <-.
  repeat split; try assumption. intros tag T. eapply no_tag; eauto. reflexivity.
Qed.

Definition opened_from (io : bool) (l : list token) : bool :=
  fold_left (fun b t => match ty t with OUT_OPEN => true | OUT_CLOSE => false | _ => b end) l io.
Definition needs_out (t : token) : Prop := ty t = STR \/ (ty t = NUM /\ exists w, value t = 45 :: w).

Record lexed (io : bool) (pre s : text) (toks : list token) (sp : list (nat * nat)) : Prop := {
  lx_stands : Forall2 (stands (pre ++ s)) toks sp;
  lx_max : Forall2 (maximal ualpha unum udigit (pre ++ s)) toks sp;
  lx_wf : Forall (well_formed ualpha unum udigit) toks;
  lx_sorted : StronglySorted before sp;
  lx_from : Forall (fun a => length pre <= fst a) sp;
  lx_gap : forall j c, length pre <= j -> nth_error (pre ++ s) j = Some c -> ~ covered j sp -> ignorable ualpha udigit (pre ++ s) j c;
  lx_eof : exists l t, toks = l ++ [t] /\ ty t = EOF /\ Forall (fun t => ty t <> EOF) l;
  lx_out : forall l t r, toks = l ++ t :: r -> needs_out t -> opened_from io l = true }.

Lemma firstn_pre (pre s : text) : firstn (length pre) (pre ++ s) = pre.
Proof. rewrite firstn_app, firstn_all, Nat.sub_diag, firstn_O, app_nil_r. reflexivity. Qed.
Lemma skipn_pre (pre s : text) n : skipn (length pre + n) (pre ++ s) = skipn n s.
Proof.
  rewrite skipn_app, skipn_all2 by lia. cbn [app]. f_equal. lia.
Qed.
Lemma firstn_piece (b r : text) : firstn (length b) (b ++ r) = b.
Proof. apply firstn_pre. Qed.
Lemma pos_line pre s : fst (pos pre) = line_at (pre ++ s) (length pre).
Proof. unfold line_at. rewrite firstn_pre. reflexivity. Qed.
Lemma pos_col pre s :
  snd (pos pre) = offset_in_line (pre ++ s) (length pre) + (if line_at (pre ++ s) (length pre) =? 1 then 1 else 0).
Proof. unfold line_at, offset_in_line. rewrite firstn_pre. reflexivity. Qed.

Lemma ignorable_shift pre s i c :
  ignorable ualpha udigit s i c -> ignorable ualpha udigit (pre ++ s) (length pre + i) c.
Proof. unfold ignorable. rewrite skipn_pre. tauto. Qed.

Lemma lex_ok fuel io pre s :
  length s < fuel -> exists toks sp, lex fuel io s (pos pre) = Some toks /\ lexed io pre s toks sp.
Proof.
  revert io pre s. induction fuel as [|fuel IH]; intros io pre s L; [lia|].
  destruct s as [|c r].
  - exists [Tok EOF [] (fst (pos pre)) (snd (pos pre))], [(length pre, 0)]. split; [reflexivity|].
    constructor.
    + constructor; [|constructor]. cbn [stands ty line column value].
      split; [rewrite app_length; lia|]. split; [apply pos_line|]. split; [apply pos_col|].
      rewrite app_nil_r. auto.
    + repeat constructor.
    + repeat constructor.
    + repeat constructor.
    + repeat constructor.
    + intros j c H E. exfalso. rewrite app_nil_r in E. assert (j < length pre) by (apply nth_error_Some; congruence). lia.
    + exists [], (Tok EOF [] (fst (pos pre)) (snd (pos pre))). auto.
    + intros l t r E N. destruct l as [|x [|? ?]]; cbn in E; try discriminate. injection E as <- <-.
      destruct N as [N|[N _]]; discriminate.
  - destruct (lex_round fuel io (c :: r) pre) as (m & io' & b & rest & R & ->); [discriminate|].
    assert (exists toks sp, lex fuel io' rest (pos (pre ++ b)) = Some toks /\ lexed io' (pre ++ b) rest toks sp) as (toks & sp & E & X).
    { apply IH. assert (c :: r = b ++ rest /\ b <> []) as [A N] by (inversion R; subst; auto).
      apply (f_equal (@length nat)) in A. rewrite app_length in A. destruct b; [contradiction|]. cbn [length] in *. lia. }
    rewrite E. destruct X as [X1 X2 X3 X4 X5 X6 X7 X8]. clear IH L E.
    inversion R as [b' rest' A N G _|t v b' rest' io'' A N T IO W V Z MX]; subst.
    + exists toks, sp. split; [reflexivity|]. rewrite A in *. rewrite <- app_assoc in *.
      constructor; try assumption.
      * eapply Forall_impl; [|exact X5]. cbn beta. intros a H. rewrite app_length in H. lia.
      * intros j x H K C. destruct (Nat.le_gt_cases (length (pre ++ b)) j) as [J|J]; [auto|].
        rewrite app_length in J. replace j with (length pre + (j - length pre)) by lia. apply ignorable_shift.
        apply G. rewrite nth_error_app2, nth_error_app1 in K by lia. assumption.
    + cbn [option_map]. set (t0 := Tok t v (fst (pos pre)) (snd (pos pre))).
      exists (t0 :: toks), ((length pre, length b) :: sp). split; [reflexivity|].
      rewrite A in *. rewrite <- app_assoc in *.
      assert (0 < length b) as BP by (destruct b; [contradiction|cbn; lia]).
      assert (firstn (length b) (skipn (length pre) (pre ++ b ++ rest)) = b) as BE.
      { rewrite <- (Nat.add_0_r (length pre)), skipn_pre. cbn [skipn]. apply firstn_piece. }
      constructor.
      * constructor; [|assumption]. cbn [stands t0 ty value line column].
        repeat split.
        -- rewrite !app_length. lia.
        -- apply pos_line.
        -- apply pos_col.
        -- rewrite BE. destruct t; try (split; [assumption|exact V]); [|contradiction].
           split; [assumption|]. destruct V as [_ V]. revert V. rewrite !app_length.
           destruct rest; cbn [length].
           ++ replace (_ =? _) with true; [auto|]. symmetry. apply Nat.eqb_eq. lia.
           ++ replace (_ =? _) with false; [auto|]. symmetry. apply Nat.eqb_neq. lia.
      * constructor; [|assumption]. intros x H. cbn [fst snd t0 ty] in *. apply MX.
        rewrite nth_error_app2, nth_error_app2 in H by lia.
        replace (length pre + length b - length pre - length b) with 0 in H by lia. assumption.
      * constructor; [|assumption]. apply W.
      * constructor; [assumption|]. eapply Forall_impl; [|exact X5]. cbn beta. intros a H. rewrite app_length in H.
        unfold before. cbn. assumption.
      * constructor; [cbn; lia|]. eapply Forall_impl; [|exact X5]. cbn beta. intros a H. rewrite app_length in H. lia.
      * intros j x H K C. destruct (Nat.le_gt_cases (length (pre ++ b)) j) as [J|J].
        -- apply X6; auto. intros (a & Ha & Hj). apply C. exists a. split; [right; assumption|assumption].
        -- exfalso. apply C. rewrite app_length in J. exists (length pre, length b). split; [left; reflexivity|]. cbn. lia.
      * destruct X7 as (l & t' & -> & X7 & X7'). exists (t0 :: l), t'. repeat split; auto.
      * intros l x r' E NE. destruct l as [|y l].
        -- cbn in E. injection E as <- _. cbn. destruct NE as [NE|[NE [w NW]]]; cbn [t0 ty value] in NE.
           ++ subst t. apply V.
           ++ eapply Z; eauto.
        -- cbn in E. injection E as <- E. cbn [opened_from fold_left]. change (ty t0) with t. 
           change (opened_from (match t with OUT_OPEN => true | OUT_CLOSE => false | _ => io end) l = true). eauto.
Qed.

Lemma read_string_indep q n s p p' :
  length s <= n -> fst (read_string q s p) = fst (read_string q s p').
Proof.
  revert s p p'. induction n as [|n IH]; intros s p p' L.
  - destruct s; [reflexivity|simpl in L; lia].
  - destruct s as [|c r]; [reflexivity|]. cbn [read_string]. destruct (c =? q); [reflexivity|]. destruct (c =? backslash).
    + destruct r as [|e r]; [reflexivity|].
      specialize (IH r (adv e (adv c p)) (adv e (adv c p'))). simpl in L.
      destruct (read_string q r (adv e (adv c p))) as [[v a] ?], (read_string q r (adv e (adv c p'))) as [[v' a'] ?].
      cbn [fst] in *. assert ((v, a) = (v', a')) as H by (apply IH; lia). injection H as -> ->. reflexivity.
    + specialize (IH r (adv c p) (adv c p')). simpl in L.
      destruct (read_string q r (adv c p)) as [[v a] ?], (read_string q r (adv c p')) as [[v' a'] ?].
      cbn [fst] in *. assert ((v, a) = (v', a')) as H by (apply IH; lia). injection H as -> ->. reflexivity.
Qed.
(** Types and values do not depend on the position, nor on surplus fuel. *)
Lemma lex_indep n io s p a :
  lex n io s p = Some a ->
  forall n' p', n <= n' -> exists a', lex n' io s p' = Some a' /\ map kind a' = map kind a.
Proof.
  revert io s p a. induction n as [|n IH]; intros io s p a H n' p' L; [discriminate|].
  destruct n' as [|n']; [lia|]. apply le_S_n in L.
  assert (forall io s p (k : ttype * text) l c l' c' p' a, option_map (cons (Tok (fst k) (snd k) l c)) (lex n io s p) = Some a ->
            exists a', option_map (cons (Tok (fst k) (snd k) l' c')) (lex n' io s p') = Some a' /\ map kind a' = map kind a) as EM.
  { intros io0 s0 p0 k l c l' c' p0' a0 H0. destruct (lex n io0 s0 p0) as [x|] eqn:E; [|discriminate].
    cbn in H0. injection H0 as <-. destruct (IH _ _ _ _ E n' p0' L) as (x' & E' & K). rewrite E'. cbn.
    eexists. split; [reflexivity|]. cbn. rewrite K. reflexivity. }
  assert (forall t v, exists k : ttype * text, t = fst k /\ v = snd k) as PK by (intros t v; exists (t, v); auto).
  cbn [ModelLexer.lex] in *. destruct s as [|c r].
  - injection H as <-. eexists. split; reflexivity.
  - destruct (blank c). { destruct (span blank (c :: r)) as [w rest]. eapply IH; eauto. }
    destruct (c =? newline). { eapply (EM _ _ _ (NEWLINE, [newline])); eauto. }
    destruct (c =? lt_sign).
    { destruct (starts t_lvar_close (c :: r)). { eapply (EM _ _ _ (LVAR_CLOSE, t_lvar_close)); eauto. }
      destruct (starts t_lact_close (c :: r)). { eapply (EM _ _ _ (LACT_CLOSE, t_lact_close)); eauto. }
      destruct (starts t_lvar_open (c :: r)). { eapply (EM _ _ _ (LVAR_OPEN, t_lvar_open)); eauto. }
      destruct (starts t_lact_open (c :: r)). { eapply (EM _ _ _ (LACT_OPEN, t_lact_open)); eauto. }
      eapply IH; eauto. }
    destruct (starts t_out (c :: r)). { eapply (EM _ _ _ (OUT_OPEN, t_out)); eauto. }
    destruct (id_start c). { destruct (span id_char (c :: r)) as [v rest]. eapply (EM _ _ _ (ID, v)); eauto. }
    destruct ((c =? minus) && io && match r with d :: _ => isdigit d | [] => false end).
    { destruct (span num_char r) as [v rest]. eapply (EM _ _ _ (NUM, minus :: v)); eauto. }
    destruct (isdigit c). { destruct (span num_char (c :: r)) as [v rest]. eapply (EM _ _ _ (NUM, v)); eauto. }
    destruct (is_quote c && io).
    { pose proof (read_string_indep c (length r) r (adv c p) (adv c p') (le_n _)) as Q.
      destruct (read_string c r (adv c p)) as [[v rest] p1], (read_string c r (adv c p')) as [[v' rest'] p1'].
      cbn [fst] in Q. injection Q as <- <-. eapply (EM _ _ _ (STR, v)); eauto. }
    destruct (punct c) as [t|]. { eapply (EM _ _ _ (t, [c])); eauto. }
    eapply IH; eauto.
Qed.
Lemma lex_kinds n n' io s p p' a a' :
  lex n io s p = Some a -> lex n' io s p' = Some a' -> map kind a = map kind a'.
Proof.
  intros H H'. destruct (Nat.le_ge_cases n n') as [L|L].
  - destruct (lex_indep _ _ _ _ _ H _ p' L) as (x & E & K). congruence.
  - destruct (lex_indep _ _ _ _ _ H' _ p L) as (x & E & K). congruence.
Qed.
End Lexer.
Lemma escape_unescapes q s : q = 34 \/ q = 39 -> unescapes q (escape q s) s.
Proof.
  intros Q. induction s as [|c r IH]; cbn [escape]; [constructor|].
  destruct (Nat.eqb_spec c 92) as [->|N]; [|destruct (Nat.eqb_spec c q) as [->|M]]; cbn [orb].
  - apply (un_esc' q 92). assumption.
  - assert (unescape q = q) as E by (destruct Q as [->| ->]; reflexivity). pose proof (un_esc' q q _ _ IH) as K. rewrite E in K. exact K.
  - constructor; assumption.
Qed.
