(** Documents are lexed and parsed into the programs they denote. *)
From Coq Require Import String.
From Coq Require Import List Bool Arith Lia ZArith.
From Verif Require Import PyBase PyFacts ModelLexer SpecLexer ModelParser SpecParser ProofsLexer ProofsParser.
Import ListNotations.
Local Open Scope string_scope.
Local Open Scope nat_scope.
Local Open Scope list_scope.
#[local] Arguments eqb : simpl never.

Section Doc.
Variables (ualpha unum udigit uspace : nat -> bool) (udec : nat -> option nat).
(** White space is neither letter nor digit. *)
Hypothesis disjoint : forall c, uspace c = true -> ualpha c = false /\ udigit c = false /\ unum c = false.
Notation lex := (lex ualpha unum udigit).
Notation sp := (isspace uspace).
Notation id_char := (id_char ualpha unum udigit).
Notation id_start := (id_start ualpha).
Notation isdigit := (isdigit udigit).
Notation num_char := (num_char udigit).
Notation name := (name ualpha unum udigit).

(** * Lexing, types and values only *)
Definition K (io : bool) (s : text) (ks : list tk) : Prop :=
  exists n p toks, lex n io s p = Some toks /\ map kind toks = ks.
Lemma K_fun io s a b : K io s a -> K io s b -> a = b.
Proof. intros (n & p & t & E & <-) (n' & p' & t' & E' & <-). eapply lex_kinds; eauto. Qed.
Lemma K_total io s : exists ks, K io s ks.
Proof.
  destruct (lex_ok ualpha unum udigit (S (length s)) io [] s) as (toks & _ & E & _); [lia|].
  exists (map kind toks). exists (S (length s)), (pos []), toks. auto.
Qed.
Lemma K_eof io : K io [] [(EOF, [])].
Proof. exists 1, (1, 1), [Tok EOF [] 1 1]. auto. Qed.
Lemma K_ne io s ks : K io s ks -> ks <> [].
Proof.
  intros (n & p & t & E & <-). destruct (lex_ok ualpha unum udigit (S (length s)) io [] s) as (toks & s' & E' & X); [lia|].
  rewrite (lex_kinds _ _ _ _ _ _ _ _ _ _ _ E E'). destruct (lx_eof _ _ _ _ _ _ _ _ X) as (l & x & -> & _).
  rewrite map_app. destruct (map kind l); discriminate.
Qed.
(** Lexing a text can be started anywhere. *)
Lemma K_lex io s ks n p : length s < n -> K io s ks -> exists toks, lex n io s p = Some toks /\ map kind toks = ks.
Proof.
  intros L (m & p' & t & E & <-). destruct (lex_ok ualpha unum udigit n io [] s) as (toks & s' & E' & X); [lia|].
  destruct (lex_indep _ _ _ _ _ _ _ _ E' n p (le_n _)) as (x & E2 & K2). exists x. split; [assumption|].
  rewrite K2. eapply lex_kinds; eauto.
Qed.
Lemma K_round io s :
  s <> [] -> exists m io' b r, round ualpha unum udigit io s m io' b r /\
    forall ks, K io' r ks -> K io s (match m with None => ks | Some k => k :: ks end).
Proof.
  intros N. destruct (lex_round ualpha unum udigit (S (length s)) io s [] N) as (m & io' & b & r & R & E).
  exists m, io', b, r. split; [assumption|]. intros ks H.
  assert (length r < S (length s)) as L by (inversion R; subst; rewrite app_length; lia).
  destruct (K_lex _ _ _ _ (pos ([] ++ b)) L H) as (toks & E' & <-). rewrite E' in E.
  exists (S (S (length s))), (pos []). destruct m as [[t v]|]; rewrite E; cbn [option_map]; eexists; split; reflexivity.
Qed.

Lemma id_start_not c : id_start c = true -> ~ In c [32; 9; 13; 10; 60; 45; 34; 39; 46; 44; 58; 91; 93; 40; 41; 125; 62; 123].
Proof. intros H I. cbn [In] in I. repeat destruct I as [<-|I]; try contradiction; discriminate. Qed.
Lemma id_char_not c : id_char c = true -> ~ In c [32; 9; 13; 10; 60; 45; 34; 39; 46; 44; 58; 91; 93; 40; 41; 125; 62; 123].
Proof. intros H I. cbn [In] in I. repeat destruct I as [<-|I]; try contradiction; discriminate. Qed.
Lemma digit_not c : isdigit c = true -> ~ In c [32; 9; 13; 10; 60; 45; 34; 39; 46; 44; 58; 91; 93; 40; 41; 125; 62; 123].
Proof. intros H I. cbn [In] in I. repeat destruct I as [<-|I]; try contradiction; discriminate. Qed.
Lemma not_blank c : ~ In c [32; 9; 13] -> blank c = false.
Proof.
  intros H. unfold blank. destruct (Nat.eqb_spec c 32); [subst; cbn in H; tauto|].
  destruct (Nat.eqb_spec c 9); [subst; cbn in H; tauto|]. destruct (Nat.eqb_spec c 13); [subst; cbn in H; tauto|]. reflexivity.
Qed.
Lemma not_eqb c n : ~ In c [n] -> (c =? n) = false.
Proof. intros H. apply Nat.eqb_neq. intros ->. apply H. left. reflexivity. Qed.

(** A separator may follow a name or a number. *)
Definition sepc (c : nat) : Prop := In c [32; 9; 13; 10; 44; 58; 93; 125; 62; 60].
Definition sep (s : text) : Prop := match s with c :: _ => sepc c | [] => False end.
Definition sepd (s : text) : Prop := match s with c :: _ => sepc c \/ c = 46 | [] => False end.
Lemma sepc_id c : sepc c \/ c = 46 -> id_char c = false.
Proof. unfold sepc. cbn [In]. intros H. repeat destruct H as [H|H]; try contradiction; subst; reflexivity. Qed.
Lemma sepc_num c : sepc c -> num_char c = false.
Proof. unfold sepc. cbn [In]. intros H. repeat destruct H as [H|H]; try contradiction; subst; reflexivity. Qed.

Lemma K_blank io c s ks : blank c = true -> K io s ks -> K io (c :: s) ks.
Proof.
  intros B (n & p & toks & E & <-). destruct n as [|n]; [discriminate|]. destruct (span blank s) as [w rest] eqn:S.
  assert (exists n' p', lex n' io rest p' = Some toks) as (n' & p' & E') .
  { destruct s as [|x s]; [cbn in S; injection S as <- <-; eauto|]. cbn [ModelLexer.lex] in E. destruct (blank x) eqn:X.
    - rewrite S in E. eauto.
    - cbn [span] in S. rewrite X in S. injection S as <- <-. exists (Datatypes.S n), p. cbn [ModelLexer.lex]. rewrite X. exact E. }
  destruct (lex_indep _ _ _ _ _ _ _ _ E' n' (1, 1 + length (c :: w)) (le_n _)) as (t & E2 & K2).
  exists (Datatypes.S n'), (1, 1), t. split; [|assumption]. cbn [ModelLexer.lex]. rewrite B. cbn [span]. rewrite B, S.
  cbn [fst snd]. exact E2.
Qed.
Lemma K_emit io io' s r k ks :
  K io' r ks ->
  (forall n p, exists p', lex (S n) io s p = option_map (cons (Tok (fst k) (snd k) (fst p) (snd p))) (lex n io' r p')) ->
  K io s (k :: ks).
Proof.
  intros (n & p & toks & E & <-) H. destruct (H n (1, 1)) as (p' & E').
  destruct (lex_indep _ _ _ _ _ _ _ _ E n p' (le_n _)) as (t & E2 & K2). rewrite E2 in E'.
  eexists (S n), (1, 1), _. split; [exact E'|]. cbn. rewrite K2. destruct k. reflexivity.
Qed.
Lemma K_newline io s ks : K io s ks -> K io (10 :: s) ((NEWLINE, [10]) :: ks).
Proof. intros H. eapply K_emit; [exact H|]. intros n p. eexists. reflexivity. Qed.
Lemma K_lvar_open io s ks : K io s ks -> K io (t_lvar_open ++ s) ((LVAR_OPEN, t_lvar_open) :: ks).
Proof. intros H. eapply K_emit; [exact H|]. intros n p. eexists. reflexivity. Qed.
Lemma K_lact_open io s ks : K io s ks -> K io (t_lact_open ++ s) ((LACT_OPEN, t_lact_open) :: ks).
Proof. intros H. eapply K_emit; [exact H|]. intros n p. eexists. reflexivity. Qed.
Lemma K_lvar_close io s ks : K io s ks -> K io (t_lvar_close ++ s) ((LVAR_CLOSE, t_lvar_close) :: ks).
Proof. intros H. eapply K_emit; [exact H|]. intros n p. eexists. reflexivity. Qed.
Lemma K_lact_close io s ks : K io s ks -> K io (t_lact_close ++ s) ((LACT_CLOSE, t_lact_close) :: ks).
Proof. intros H. eapply K_emit; [exact H|]. intros n p. eexists. reflexivity. Qed.
Lemma K_out io s ks : K true s ks -> K io (t_out ++ s) ((OUT_OPEN, t_out) :: ks).
Proof. intros H. eapply K_emit; [exact H|]. intros n p. eexists. reflexivity. Qed.
Lemma K_punct io c t s ks :
  In (c, t) [(46, DOT); (44, COMMA); (58, COLON); (91, LBRACKET); (93, RBRACKET); (62, GT)] ->
  K io s ks -> K io (c :: s) ((t, [c]) :: ks).
Proof.
  intros I H. cbn [In] in I. repeat destruct I as [I|I]; try contradiction; injection I as <- <-;
    (eapply K_emit; [exact H|]; intros n p; eexists; cbn [ModelLexer.lex]; rewrite ?andb_false_r; reflexivity).
Qed.
Lemma K_out_close io s ks : K false s ks -> K io (125 :: s) ((OUT_CLOSE, [125]) :: ks).
Proof. intros H. eapply K_emit; [exact H|]. intros n p. eexists. cbn [ModelLexer.lex]. rewrite ?andb_false_r. reflexivity. Qed.

Lemma no_out a s : all id_char a -> a <> [] -> sepd s -> starts t_out (a ++ s) = false.
Proof.
  intros F N S. destruct (starts t_out (a ++ s)) eqn:E; [|reflexivity]. exfalso. apply starts_spec in E as [r E].
  change t_out with [79; 85; 84; 123] in E. destruct s as [|x s]; [contradiction|].
  assert (id_char x = false) as X by (apply sepc_id; exact S).
  assert (x <> 123) as X' by (intros ->; cbn in S; unfold sepc in S; cbn in S; intuition discriminate).
  destruct a as [|a1 [|a2 [|a3 [|a4 a]]]]; [contradiction| | | |]; cbn in E; injection E; intros; subst; try (cbv in X; discriminate); try contradiction.
  unfold all in F. rewrite !Forall_cons_iff in F. destruct F as (_ & _ & _ & F & _). discriminate.
Qed.
Lemma name_all a : name a -> all id_char a /\ a <> [].
Proof.
  intros (c & r & -> & S & F). split; [|discriminate]. constructor; [|assumption]. apply id_start_char. assumption.
Qed.
Lemma K_name io a s ks : name a -> sepd s -> K io s ks -> K io (a ++ s) ((ID, a) :: ks).
Proof.
  intros Na S H. pose proof (name_all _ Na) as (F & N). pose proof (no_out _ _ F N S) as NO.
  destruct Na as (c & r & -> & ST & _). eapply K_emit; [exact H|]. intros n p. cbn [app] in *.
  pose proof (id_start_not _ ST) as X.
  assert (span id_char ((c :: r) ++ s) = (c :: r, s)) as SP.
  { apply span_app; [assumption|]. destruct s; [exact I|]. apply sepc_id. exact S. }
  cbn [app] in SP. eexists. cbn [ModelLexer.lex]. rewrite not_blank by (cbn in *; tauto).
  unfold newline, lt_sign. rewrite !not_eqb by (cbn in *; tauto). rewrite NO, ST, SP. reflexivity.
Qed.
Lemma starts_out_not c s : c <> 79 -> starts t_out (c :: s) = false.
Proof. intros H. change t_out with [79; 85; 84; 123]. cbn [starts]. rewrite (proj2 (Nat.eqb_neq 79 c)) by congruence. reflexivity. Qed.
Lemma K_num a s ks io : (exists c r, a = c :: r /\ isdigit c = true /\ id_start c = false /\ all num_char r) -> sep s -> K io s ks -> K io (a ++ s) ((NUM, a) :: ks).
Proof.
  intros (c & r & -> & D & ST & F) S H. eapply K_emit; [exact H|]. intros n p. cbn [app].
  pose proof (digit_not _ D) as X.
  assert (span num_char ((c :: r) ++ s) = (c :: r, s)) as SP.
  { apply span_app; [constructor; [apply digit_num|]; assumption|]. destruct s; [exact I|]. apply sepc_num. exact S. }
  cbn [app] in SP. eexists. cbn [ModelLexer.lex]. rewrite not_blank by (cbn in *; tauto).
  unfold newline, lt_sign, minus. rewrite !not_eqb by (cbn in *; tauto). rewrite starts_out_not, ST by (intros ->; discriminate).
  cbn [andb]. rewrite D, SP. reflexivity.
Qed.
Lemma K_neg a s ks : (exists c r, a = c :: r /\ isdigit c = true /\ all num_char r) -> sep s -> K true s ks -> K true (45 :: a ++ s) ((NUM, 45 :: a) :: ks).
Proof.
  intros (c & r & -> & D & F) S H. eapply K_emit; [exact H|]. intros n p. cbn [app].
  assert (span num_char ((c :: r) ++ s) = (c :: r, s)) as SP.
  { apply span_app; [constructor; [apply digit_num|]; assumption|]. destruct s; [exact I|]. apply sepc_num. exact S. }
  cbn [app] in SP. eexists. cbn [ModelLexer.lex]. cbn [blank Nat.eqb orb newline lt_sign]. rewrite starts_out_not by discriminate.
  change (id_start 45) with false. cbn [minus Nat.eqb andb]. rewrite D, SP. reflexivity.
Qed.
Lemma K_str q b v s ks : (q = 34 \/ q = 39) -> unescapes q b v -> K true s ks -> K true (q :: b ++ q :: s) ((STR, v) :: ks).
Proof.
  intros Q U H. eapply K_emit; [exact H|]. intros n p.
  assert (exists p', read_string q (b ++ q :: s) (adv q p) = (v, s, p')) as (p' & R).
  { pose proof (read_string_unescapes q b v s [] U ltac:(lia)) as R.
    pose proof (read_string_indep q _ (b ++ q :: s) (adv q p) (pos []) (le_n _)) as R'. rewrite R in R'. cbn [fst] in R'.
    destruct (read_string q (b ++ q :: s) (adv q p)) as [[v' s'] p']. cbn in R'. injection R' as -> ->. eauto. }
  exists p'. destruct Q as [->| ->]; cbn [ModelLexer.lex]; cbn [blank Nat.eqb orb newline lt_sign]; rewrite starts_out_not by discriminate;
  [change (id_start 34) with false; change (isdigit 34) with false | change (id_start 39) with false; change (isdigit 39) with false];
  cbn [minus Nat.eqb andb is_quote orb]; rewrite R; reflexivity.
Qed.
(** White space gives newline tokens. *)
Definition nls (ks : list tk) : Prop := Forall (fun k => fst k = NEWLINE) ks.
Lemma white_cases c : white c = true -> blank c = true \/ c = 10.
Proof. unfold white. rewrite orb_true_iff, Nat.eqb_eq. tauto. Qed.
Lemma K_white io w s ks : all white w -> K io s ks -> exists ns, nls ns /\ K io (w ++ s) (ns ++ ks).
Proof.
  intros F H. induction F as [|c w C F (ns & N & IH)].
  - exists []. split; [constructor|exact H].
  - apply white_cases in C as [C| ->].
    + exists ns. split; [assumption|]. apply K_blank; assumption.
    + exists ((NEWLINE, [10]) :: ns). split; [constructor; [reflexivity|assumption]|]. apply K_newline. assumption.
Qed.
Lemma K_blanks io w s ks : all blank w -> K io s ks -> K io (w ++ s) ks.
Proof. intros F H. induction F as [|c w C F IH]; [assumption|]. apply K_blank; assumption. Qed.

(** Plain text gives tokens the parser passes over. *)
Definition noise (k : tk) : Prop := ~ In (fst k) [LVAR_OPEN; LVAR_CLOSE; LACT_OPEN; LACT_CLOSE; OUT_OPEN; STR; EOF].
Lemma app_cases {A} (b r n R : list A) h :
  b ++ r = n ++ h :: R -> (exists n', n = b ++ n') \/ (exists b', b = n ++ h :: b').
Proof.
  revert n. induction b as [|x b IH]; intros n E.
  - left. exists n. reflexivity.
  - destruct n as [|y n]; cbn in E.
    + injection E as -> E. right. exists b. reflexivity.
    + injection E as -> E. destruct (IH _ E) as [[n' ->]|[b' ->]]; [left; exists n'; reflexivity|right; exists b'; reflexivity].
Qed.
Definition last_ok (n : text) : Prop := match rev n with c :: _ => id_char c = false | [] => True end.
Lemma last_ok_tail b n : last_ok (b ++ n) -> last_ok n.
Proof. unfold last_ok. rewrite rev_app_distr. destruct (rev n); [intros _; exact I|]. cbn [app]. auto. Qed.
Lemma last_ok_in n : last_ok n -> n <> [] -> exists c, In c n /\ id_char c = false.
Proof.
  unfold last_ok. intros H N. destruct (rev n) as [|c r] eqn:E.
  - apply (f_equal (@rev nat)) in E. rewrite rev_involutive in E. contradiction.
  - exists c. split; [|assumption]. apply in_rev. rewrite E. left. reflexivity.
Qed.
Lemma plain_tail b n : plain (b ++ n) -> plain n.
Proof.
  intros [A B]. split.
  - intros H. apply A. apply in_app_iff. auto.
  - intros p q ->. apply (B (b ++ p) q). rewrite <- app_assoc. reflexivity.
Qed.
Definition border (n R : text) : Prop :=
  (exists r, R = 60 :: r) \/ (last_ok n /\ exists r, R = t_out ++ r).
Lemma K_plain n R ks :
  plain n -> border n R -> K false R ks -> exists ns, Forall noise ns /\ K false (n ++ R) (ns ++ ks).
Proof.
  remember (length n) as len eqn:L. revert n L. induction len as [len IH] using lt_wf_ind. intros n L P B H.
  destruct n as [|c n]; [exists []; split; [constructor|assumption]|].
  assert (exists h R', R = h :: R' /\ (h = 60 \/ (h = 79 /\ last_ok (c :: n)))) as (h & R' & -> & Hh).
  { destruct B as [[r ->]|[LO [r ->]]]; [exists 60, r; auto|]. exists 79, ([85; 84; 123] ++ r). auto. }
  assert (c <> 60) as C60 by (intros ->; apply P; left; reflexivity).
  destruct (K_round false ((c :: n) ++ h :: R')) as (m & io' & b & r & RD & KK); [discriminate|].
  assert (b ++ r = (c :: n) ++ h :: R' /\ b <> []) as [E NB] by (inversion RD; subst; auto).
  assert (forall f : nat -> bool, f h = false -> all f b -> exists n', c :: n = b ++ n') as PRE.
  { intros f F A. destruct (app_cases _ _ _ _ _ E) as [X|[b' ->]]; [assumption|].
    unfold all in A. rewrite Forall_forall in A. rewrite A in F; [discriminate|]. apply in_app_iff. right. left. reflexivity. }
  assert (length b = 1 -> exists n', c :: n = b ++ n') as ONE.
  { intros O. destruct b as [|x [|? ?]]; try discriminate. cbn in E. injection E as -> _. exists n. reflexivity. }
  assert (io' = false /\ (exists n', c :: n = b ++ n') /\ match m with Some k => noise k | None => True end) as (-> & [n' En] & NO).
  { inversion RD as [b0 r0 A N G BL|t v b0 r0 io0 A N T IO W V Z MX]; subst.
    - split; [reflexivity|]. split; [|exact I]. destruct BL as [BL|BL]; [|auto].
      apply (PRE blank); [|assumption]. destruct Hh as [->|[-> _]]; reflexivity.
    - destruct b as [|x b]; [contradiction|]. cbn in E. injection E as -> E. specialize (W 0 0). unfold well_formed in W. cbn [ty value] in W.
      destruct t; try (rewrite <- V in W, Z; clear V); try (exfalso; apply (f_equal (hd 0)) in W; cbv in W; congruence).
      + exfalso. change t_out with [79; 85; 84; 123] in W. injection W as -> ->. cbn in E.
        destruct (app_cases [85; 84; 123] _ _ _ _ E) as [[n' ->]|[b' X]].
        * destruct P as [_ P]. apply (P [] n'). reflexivity.
        * assert (In h [85; 84; 123]) as Y by (rewrite X; apply in_app_iff; right; left; reflexivity).
          cbn in Y. destruct Hh as [->|[-> _]]; intuition discriminate.
      + split; [reflexivity|]. destruct W as (y & W & _). injection W as <- ->. split; [apply ONE; reflexivity|].
        intros Y; cbn in Y; intuition discriminate.
      + split; [reflexivity|]. destruct W as (y & z & W & W1 & W2). injection W as <- ->.
        split; [|intros Y; cbn in Y; intuition discriminate].
        assert (all id_char (c :: z)) as A1 by (constructor; [apply id_start_char|]; assumption).
        destruct Hh as [->|[-> LO]]; [apply (PRE id_char); [reflexivity|assumption]|].
        destruct (app_cases (c :: z) r (c :: n) R' 79) as [X|[b' X]]; [cbn; rewrite E; reflexivity|assumption|].
        exfalso. destruct (last_ok_in _ LO) as (u & U1 & U2); [discriminate|].
        unfold all in A1. rewrite Forall_forall in A1. rewrite (A1 u) in U2; [discriminate|]. rewrite X. apply in_app_iff. auto.
      + split; [reflexivity|]. destruct W as (y & z & W & W1 & W2).
        destruct W as [W|W]; [|injection W as -> ->; specialize (Z _ eq_refl eq_refl); discriminate].
        injection W as <- ->. split; [|intros Y; cbn in Y; intuition discriminate].
        apply (PRE num_char).
        * destruct Hh as [->|[-> _]]; reflexivity.
        * constructor; [apply digit_num|]; assumption.
      + destruct V as [V _]. discriminate.
      + split; [reflexivity|]. destruct W as (y & W & _). injection W as <- ->. split; [apply ONE; reflexivity|].
        intros Y; cbn in Y; intuition discriminate.
      + split; [reflexivity|]. destruct W as (y & W & _). injection W as <- ->. split; [apply ONE; reflexivity|].
        intros Y; cbn in Y; intuition discriminate.
      + split; [reflexivity|]. destruct W as (y & W & _). injection W as <- ->. split; [apply ONE; reflexivity|].
        intros Y; cbn in Y; intuition discriminate.
      + split; [reflexivity|]. destruct W as (y & W & _). injection W as <- ->. split; [apply ONE; reflexivity|].
        intros Y; cbn in Y; intuition discriminate.
      + split; [reflexivity|]. destruct W as (y & W & _). injection W as <- ->. split; [apply ONE; reflexivity|].
        intros Y; cbn in Y; intuition discriminate.
      + split; [reflexivity|]. destruct W as (y & W & _). injection W as <- ->. split; [apply ONE; reflexivity|].
        intros Y; cbn in Y; intuition discriminate.
      + split; [reflexivity|]. destruct W as (y & W & _). injection W as <- ->. split; [apply ONE; reflexivity|].
        intros Y; cbn in Y; intuition discriminate.
      + split; [reflexivity|]. destruct W as (y & W & _). injection W as <- ->. split; [apply ONE; reflexivity|].
        intros Y; cbn in Y; intuition discriminate.
      + split; [reflexivity|]. injection W as -> ->. split; [apply ONE; reflexivity|].
        intros Y; cbn in Y; intuition discriminate.
      + contradiction. }
  rewrite En in E. rewrite <- app_assoc in E. apply app_inv_head in E. subst r.
  destruct (IH (length n')) with (n := n') as (ns & N1 & N2); try assumption; try reflexivity.
  - rewrite L, En, app_length. destruct b; [contradiction|]. cbn. lia.
  - rewrite En in P. eapply plain_tail; eauto.
  - destruct B as [B|[B1 B2]]; [left; assumption|]. right. split; [|assumption]. rewrite En in B1. eapply last_ok_tail; eauto.
  - apply KK in N2. destruct m as [k|].
    + exists (k :: ns). split; [constructor; assumption|]. exact N2.
    + exists ns. split; assumption.
Qed.

(** * Parsing *)
Lemma bind_done {A B} (m : P A) (f : A -> P B) ts a ts' : m ts = Done a ts' -> pbind m f ts = f a ts'.
Proof. unfold pbind. intros ->. reflexivity. Qed.
Lemma at_done l ts : at_ l ts = Done (existsb (fun t => is t (cur ts)) l) ts.
Proof. reflexivity. Qed.
Lemma advance_ok k ts : ts <> [] -> advance (k :: ts) = Done tt ts.
Proof. destruct ts; [contradiction|reflexivity]. Qed.
Lemma is_refl t v : is t (t, v) = true.
Proof. apply is_true. reflexivity. Qed.
Lemma expect_ok t v ts : ts <> [] -> expect t ((t, v) :: ts) = Done v ts.
Proof.
  intros N. unfold expect. cbn [cur hd snd]. rewrite is_refl. unfold pbind. rewrite advance_ok by assumption. reflexivity.
Qed.
Lemma skip_cons k ts : fst k = NEWLINE -> ts <> [] -> skip_newlines (k :: ts) = skip_newlines ts.
Proof. intros H N. cbn [skip_newlines]. rewrite (proj2 (is_true NEWLINE k) H). destruct ts; [contradiction|reflexivity]. Qed.
Lemma app_ne {A} (a b : list A) : b <> [] -> a ++ b <> [].
Proof. intros H E. apply app_eq_nil in E as [_ E]. contradiction. Qed.
Lemma skip_nls ns ts : nls ns -> ts <> [] -> skip_newlines (ns ++ ts) = skip_newlines ts.
Proof.
  intros F N. induction F as [|k ns H F IH]; [reflexivity|]. cbn [app].
  rewrite skip_cons; [assumption|assumption|apply app_ne; assumption].
Qed.
Lemma skip_id k ts : fst k <> NEWLINE -> skip_newlines (k :: ts) = Done tt (k :: ts).
Proof. intros H. cbn. rewrite (proj2 (is_false NEWLINE k) H). reflexivity. Qed.
Lemma skip_nls_id ns k ts : nls ns -> fst k <> NEWLINE -> skip_newlines (ns ++ k :: ts) = Done tt (k :: ts).
Proof. intros F N. rewrite skip_nls by (assumption || discriminate). apply skip_id. assumption. Qed.
Lemma skip_noise ns k ts :
  Forall noise ns -> fst k <> NEWLINE -> exists ns', skip_newlines (ns ++ k :: ts) = Done tt (ns' ++ k :: ts) /\ Forall noise ns'.
Proof.
  intros F N. induction F as [|x ns H F (ns' & IH & G)].
  - exists []. split; [apply skip_id; assumption|constructor].
  - cbn [app]. destruct (ttype_dec (fst x) NEWLINE) as [E|E].
    + exists ns'. split; [|assumption]. rewrite skip_cons; [assumption|assumption|apply app_ne; discriminate].
    + exists (x :: ns). split; [apply skip_id; assumption|]. constructor; assumption.
Qed.
Lemma skip_to_cons c k ts : fst k <> c -> fst k <> EOF -> ts <> [] -> skip_to c (k :: ts) = skip_to c ts.
Proof.
  intros H H' N. cbn [skip_to]. rewrite (proj2 (is_false c k) H), (proj2 (is_false EOF k) H').
  destruct ts; [contradiction|reflexivity].
Qed.
Lemma skip_to_ok c ns v ts :
  Forall noise ns -> In c [LVAR_CLOSE; LACT_CLOSE] -> skip_to c (ns ++ (c, v) :: ts) = Done tt ((c, v) :: ts).
Proof.
  intros F C. induction F as [|x ns H F IH]; cbn [app].
  - cbn [skip_to]. rewrite is_refl. reflexivity.
  - rewrite skip_to_cons; [assumption| | |apply app_ne; discriminate].
    + intros E; apply H; rewrite E; cbn in *; tauto.
    + intros E; apply H; rewrite E; cbn; tauto.
Qed.

Definition head_toks (h : head) : list tk :=
  match h with
  | HRaw a => [(ID, a)]
  | HNamed m f None => [(ID, m); (DOT, [46]); (ID, f)]
  | HNamed m f (Some a) => [(ID, m); (DOT, [46]); (ID, f); (ID, a)]
  end.
Lemma head_ok o kw ns h v ts :
  nls ns -> ts <> [] ->
  parse_head o ((o, kw) :: ns ++ head_toks h ++ (GT, v) :: ts) = pbind skip_newlines (fun _ => pret h) ts.
Proof.
  intros N T. unfold parse_head.
  erewrite bind_done by (apply expect_ok; destruct ns, h as [|? ? [|]]; discriminate).
  assert (exists a r, head_toks h ++ (GT, v) :: ts = (ID, a) :: r) as (a & r & E) by (destruct h as [|? ? [|]]; cbn; eauto).
  rewrite E. erewrite bind_done by (apply skip_nls_id; [assumption|discriminate]). rewrite <- E. clear a r E.
  destruct ts as [|k ts]; [contradiction|]. destruct h as [a|m f [a|]]; reflexivity.
Qed.
Lemma K_tag io kw o h t s ks :
  ((kw = t_lvar_open /\ o = LVAR_OPEN) \/ (kw = t_lact_open /\ o = LACT_OPEN)) ->
  tag white blank kw h t -> good_head ualpha unum udigit h -> K io s ks ->
  exists ns, nls ns /\ K io (t ++ s) ((o, kw) :: ns ++ head_toks h ++ (GT, [62]) :: ks).
Proof.
  intros KW T G H.
  assert (forall s ks, K io s ks -> K io (kw ++ s) ((o, kw) :: ks)) as OP.
  { destruct KW as [[-> ->]|[-> ->]]; auto using K_lvar_open, K_lact_open. }
  assert (forall w r, all blank w -> sep (w ++ 62 :: r)) as SG.
  { intros w r F. destruct F as [|x w B F]; cbn; unfold sepc; cbn; [tauto|]. apply blank_cases in B as [->|[->| ->]]; auto 10. }
  assert (forall w r, w <> [] -> all blank w -> sep (w ++ r)) as SB.
  { intros w r NE F. destruct F as [|x w B F]; [contradiction|]. cbn. unfold sepc. cbn. apply blank_cases in B as [->|[->| ->]]; auto 10. }
  assert (forall s, sep s -> sepd s) as SD by (intros [|x r]; cbn; tauto).
  assert (forall w, all blank w -> K io (w ++ 62 :: s) ((GT, [62]) :: ks)) as GTK.
  { intros w F. apply K_blanks; [assumption|]. apply K_punct; [cbn; auto 10|assumption]. }
  inversion T as [a w1 w2 N1 F1 F2|m f w1 w2 N1 F1 F2|m f a w1 w2 w3 N1 N3 F1 F2 F3]; subst; cbn in G.
  - destruct (K_white io w1 (a ++ w2 ++ 62 :: s) ((ID, a) :: (GT, [62]) :: ks)) as (ns & NS & E); [assumption| |].
    { apply K_name; auto. }
    exists ns. split; [assumption|]. rewrite <- !app_assoc. change (codes ">" ++ s) with (62 :: s). apply OP. exact E.
  - destruct G as [G1 G2].
    destruct (K_white io w1 (m ++ 46 :: f ++ w2 ++ 62 :: s) ((ID, m) :: (DOT, [46]) :: (ID, f) :: (GT, [62]) :: ks)) as (ns & NS & E); [assumption| |].
    { apply K_name; [assumption|cbn; auto|]. apply K_punct; [cbn; auto|]. apply K_name; auto. }
    exists ns. split; [assumption|]. rewrite <- !app_assoc. change (codes ">" ++ s) with (62 :: s). apply OP. exact E.
  - destruct G as (G1 & G2 & G3).
    destruct (K_white io w1 (m ++ 46 :: f ++ w3 ++ a ++ w2 ++ 62 :: s) ((ID, m) :: (DOT, [46]) :: (ID, f) :: (ID, a) :: (GT, [62]) :: ks)) as (ns & NS & E); [assumption| |].
    { apply K_name; [assumption|cbn; auto|]. apply K_punct; [cbn; auto|]. apply K_name; auto.
      apply K_blanks; [assumption|]. apply K_name; auto. }
    exists ns. split; [assumption|]. rewrite <- !app_assoc. change (codes ">" ++ s) with (62 :: s). apply OP. exact E.
Qed.

(** Parsing one declaration. *)
Lemma lvar_ok src ns h v ns2 v2 ts b :
  nls ns -> Forall noise ns2 -> ts <> [] -> src <> [] ->
  search uspace (lvar_pattern h) t_lvar_close src = Some b ->
  parse_lvar uspace src ((LVAR_OPEN, v) :: ns ++ head_toks h ++ (GT, [62]) :: ns2 ++ (LVAR_CLOSE, v2) :: ts) =
  Done (lvar_of h (strip uspace b)) ts.
Proof.
  intros N F T SN S. unfold parse_lvar.
  destruct (skip_noise ns2 (LVAR_CLOSE, v2) ts F) as (ns3 & E3 & F3); [discriminate|].
  erewrite bind_done.
  2: { rewrite head_ok; [|assumption|destruct ns2; discriminate]. unfold pbind. rewrite E3. reflexivity. }
  erewrite bind_done.
  2: { unfold extract. destruct src; [contradiction|]. rewrite S. reflexivity. }
  erewrite bind_done by (apply skip_to_ok; [assumption|cbn; auto]).
  erewrite bind_done by (apply expect_ok; assumption).
  unfold pret. destruct h as [|? ? [|]]; reflexivity.
Qed.
Lemma lact_ok src ns h v ns2 v2 ts b :
  nls ns -> Forall noise ns2 -> ts <> [] -> src <> [] ->
  search uspace (lact_pattern h) t_lact_close src = Some b ->
  parse_lact uspace src ((LACT_OPEN, v) :: ns ++ head_toks h ++ (GT, [62]) :: ns2 ++ (LACT_CLOSE, v2) :: ts) =
  Done (lact_of h (strip uspace b)) ts.
Proof.
  intros N F T SN S. unfold parse_lact.
  destruct (skip_noise ns2 (LACT_CLOSE, v2) ts F) as (ns3 & E3 & F3); [discriminate|].
  erewrite bind_done.
  2: { rewrite head_ok; [|assumption|destruct ns2; discriminate]. unfold pbind. rewrite E3. reflexivity. }
  erewrite bind_done.
  2: { unfold extract. destruct src; [contradiction|]. rewrite S. reflexivity. }
  erewrite bind_done by (apply skip_to_ok; [assumption|cbn; auto]).
  erewrite bind_done by (apply expect_ok; assumption).
  unfold pret. destruct h as [|? ? [|]]; reflexivity.
Qed.

(** Loops can begin by passing newlines. *)
Lemma peel {A} (l : list ttype) (x : A) (body : P A) ts :
  ts <> [] -> ~ In NEWLINE l ->
  (stop <-- at_ l ;; if stop : bool then pret x else
   _ <-- skip_newlines ;; stop <-- at_ l ;; if stop : bool then pret x else body) ts =
  (_ <-- skip_newlines ;; stop <-- at_ l ;; if stop : bool then pret x else body) ts.
Proof.
  intros N I. unfold pbind at 1. unfold at_ at 1. destruct (existsb (fun t => is t (cur ts)) l) eqn:E; [|reflexivity].
  destruct ts as [|k ts]; [contradiction|]. cbn [cur hd] in E.
  unfold pbind at 1. rewrite skip_id.
  - unfold pbind, at_. cbn [cur hd]. rewrite E. reflexivity.
  - intros K1. apply existsb_exists in E as (t & It & Et). apply is_true in Et. congruence.
Qed.
Lemma refs_peel f ns ts : nls ns -> ts <> [] -> parse_refs (S f) (ns ++ ts) = parse_refs (S f) ts.
Proof.
  intros N T. cbn [parse_refs]. rewrite !peel; try (cbn; intuition discriminate).
  - unfold pbind at 1. unfold pbind at 8. rewrite skip_nls by assumption. reflexivity.
  - destruct ns; [assumption|discriminate].
Qed.

Lemma fields_peel f d ns ts : nls ns -> ts <> [] -> parse_fields udec (S f) d (ns ++ ts) = parse_fields udec (S f) d ts.
Proof.
  intros N T. cbn [parse_fields]. rewrite !peel; try (cbn; intuition discriminate).
  - unfold pbind at 1. unfold pbind at 12. rewrite skip_nls by assumption. reflexivity.
  - apply app_ne. assumption.
Qed.
Lemma loop_peel f src vs acs al ns ts :
  nls ns -> ts <> [] -> parse_loop uspace udec (S f) src vs acs al (ns ++ ts) = parse_loop uspace udec (S f) src vs acs al ts.
Proof.
  intros N T. cbn [parse_loop]. rewrite !peel; try (cbn; intuition discriminate).
  - match goal with |- pbind _ ?k _ = _ => generalize k end. intros k. unfold pbind. rewrite skip_nls by assumption. reflexivity.
  - apply app_ne. assumption.
Qed.

(** * Reference lists *)
Lemma white_sep w c r : all white w -> sepc c -> sep (w ++ c :: r).
Proof.
  intros F C. destruct F as [|x w B F]; cbn; [assumption|]. unfold sepc. cbn.
  apply white_cases in B as [B| ->]; [|auto 10]. apply blank_cases in B as [->|[->| ->]]; auto 10.
Qed.
Lemma sep_sepd s : sep s -> sepd s.
Proof. destruct s; cbn; tauto. Qed.
Lemma refs_one f a ns ts :
  nls ns -> ts <> [] -> fst (cur ts) <> NEWLINE -> fst (cur ts) <> COMMA ->
  parse_refs (S f) ((ID, a) :: ns ++ ts) = pbind (parse_refs f) (fun l => pret (a :: l)) ts.
Proof.
  intros N T T1 T2. destruct ts as [|k ts]; [contradiction|]. cbn [cur hd] in T1, T2.
  cbn [parse_refs]. rewrite peel; [|discriminate|cbn; intuition discriminate].
  erewrite bind_done by (apply skip_id; discriminate). erewrite bind_done by apply at_done.
  change (existsb (fun t => is t (cur ((ID, a) :: ns ++ k :: ts))) [RBRACKET; EOF]) with false. cbv iota.
  erewrite bind_done by apply at_done. change (existsb (fun t => is t (cur ((ID, a) :: ns ++ k :: ts))) [ID]) with true. cbv iota.
  erewrite bind_done by (apply expect_ok, app_ne; discriminate).
  erewrite bind_done by (apply skip_nls_id; assumption).
  erewrite bind_done by apply at_done.
  match goal with |- context [if ?b then _ else _] => replace b with false end; [reflexivity|].
  cbn [existsb cur hd]. rewrite (proj2 (is_false COMMA k) T2). reflexivity.
Qed.
Lemma refs_comma f a ns v ts :
  nls ns -> ts <> [] ->
  parse_refs (S f) ((ID, a) :: ns ++ (COMMA, v) :: ts) = pbind (parse_refs f) (fun l => pret (a :: l)) ts.
Proof.
  intros N T. cbn [parse_refs]. rewrite peel; [|discriminate|cbn; intuition discriminate].
  erewrite bind_done by (apply skip_id; discriminate). erewrite bind_done by apply at_done.
  change (existsb (fun t => is t (cur ((ID, a) :: ns ++ (COMMA, v) :: ts))) [RBRACKET; EOF]) with false. cbv iota.
  erewrite bind_done by apply at_done. change (existsb (fun t => is t (cur ((ID, a) :: ns ++ (COMMA, v) :: ts))) [ID]) with true. cbv iota.
  erewrite bind_done by (apply expect_ok, app_ne; discriminate).
  erewrite bind_done by (apply skip_nls_id; [assumption|discriminate]).
  erewrite bind_done by apply at_done. change (existsb (fun t => is t (cur ((COMMA, v) :: ts))) [COMMA]) with true. cbv iota.
  erewrite bind_done by (apply advance_ok; assumption). reflexivity.
Qed.
Lemma app_norm2 {A} (n1 n2 t z : list A) x y : (n1 ++ x :: n2 ++ y :: t) ++ z = n1 ++ x :: n2 ++ y :: t ++ z.
Proof. rewrite <- app_assoc. cbn [app]. rewrite <- app_assoc. reflexivity. Qed.
Lemma refs_ok l r :
  refs_text ualpha unum udigit l r -> forall (rest : text) (ks : list tk), K true (93 :: rest) ((RBRACKET, [93]) :: ks) ->
  exists tr : list tk, K true (r ++ 93 :: rest) (tr ++ (RBRACKET, [93]) :: ks) /\
    forall fuel, length tr < fuel -> parse_refs fuel (tr ++ (RBRACKET, [93]) :: ks) = Done l ((RBRACKET, [93]) :: ks).
Proof.
  intros R. induction R as [w W|w a w' W A W'|w a w' l r W A W' R IH]; intros rest ks H.
  - destruct (K_white true w (93 :: rest) _ W H) as (ns & N & E). exists ns. split; [assumption|].
    intros [|f] L; [lia|]. rewrite refs_peel by (assumption || discriminate). reflexivity.
  - destruct (K_white true w' (93 :: rest) _ W' H) as (ns2 & N2 & E2).
    destruct (K_white true w (a ++ w' ++ 93 :: rest) ((ID, a) :: ns2 ++ (RBRACKET, [93]) :: ks)) as (ns1 & N1 & E1); [assumption| |].
    { apply K_name; [assumption| |assumption]. apply sep_sepd, white_sep; [assumption|cbn; auto 10]. }
    exists (ns1 ++ (ID, a) :: ns2). rewrite <- !app_assoc. split; [assumption|]. intros f L. rewrite app_length in L. cbn in L.
    destruct f as [|[|f]]; try lia. cbn [app]. rewrite refs_peel by (assumption || discriminate).
    rewrite refs_one by (assumption || discriminate). reflexivity.
  - destruct (IH rest ks H) as (tr & E & PR).
    destruct (K_white true w' (44 :: r ++ 93 :: rest) ((COMMA, [44]) :: tr ++ (RBRACKET, [93]) :: ks)) as (ns2 & N2 & E2); [assumption| |].
    { apply K_punct; [cbn; auto|assumption]. }
    destruct (K_white true w (a ++ w' ++ 44 :: r ++ 93 :: rest) ((ID, a) :: ns2 ++ (COMMA, [44]) :: tr ++ (RBRACKET, [93]) :: ks)) as (ns1 & N1 & E1); [assumption| |].
    { apply K_name; [assumption| |assumption]. apply sep_sepd, white_sep; [assumption|cbn; auto 10]. }
    exists (ns1 ++ (ID, a) :: ns2 ++ (COMMA, [44]) :: tr). split.
    + replace ((w ++ a ++ w' ++ codes "," ++ r) ++ 93 :: rest) with (w ++ a ++ w' ++ 44 :: r ++ 93 :: rest) by (rewrite <- !app_assoc; reflexivity).
      rewrite app_norm2. exact E1.
    + intros f L. rewrite app_length in L. cbn in L. rewrite app_length in L. cbn in L. destruct f as [|f]; [lia|].
      rewrite app_norm2.
      rewrite refs_peel by (assumption || discriminate). rewrite refs_comma by (assumption || (apply app_ne; discriminate)).
      unfold pbind. rewrite PR by lia. reflexivity.
Qed.

(** * Values *)
Lemma ascii_digit_facts c : ascii_digit c = true -> isdigit c = true /\ id_start c = false /\ num_char c = true /\ dec udec c = Some (c - 48) /\ c <> 45 /\ c <> 46.
Proof.
  unfold ascii_digit. intros H. pose proof H as H'. rewrite andb_true_iff, !Nat.leb_le in H'.
  assert (c <? 128 = true) as L by (apply Nat.ltb_lt; lia).
  assert (isdigit c = true) as D by (unfold isdigit; rewrite L; exact H).
  split; [assumption|]. split.
  { unfold id_start, isalpha, underscore. rewrite L.
    assert (65 <=? c = false) as -> by (apply Nat.leb_gt; lia). assert (97 <=? c = false) as -> by (apply Nat.leb_gt; lia).
    assert (c =? 95 = false) as -> by (apply Nat.eqb_neq; lia). reflexivity. }
  split; [apply digit_num; assumption|]. split; [unfold dec; rewrite L, H; reflexivity|]. lia.
Qed.
Lemma digits_horner s acc :
  all ascii_digit s -> digits udec s acc = Some (fold_left (fun a c => 10 * a + Z.of_nat (c - 48))%Z s acc).
Proof.
  intros F. revert acc. induction F as [|c s C F IH]; intros acc; cbn [digits fold_left]; [reflexivity|].
  apply ascii_digit_facts in C as (_ & _ & _ & -> & _). apply IH.
Qed.
Lemma no_dot s : all ascii_digit s -> existsb (Nat.eqb dot) s = false.
Proof.
  intros F. induction F as [|c s C F IH]; [reflexivity|]. cbn [existsb]. rewrite IH, orb_false_r.
  apply ascii_digit_facts in C as (_ & _ & _ & _ & _ & C). apply Nat.eqb_neq. unfold dot. congruence.
Qed.
Lemma number_int s : s <> [] -> all ascii_digit s -> number udec s = Ret (OInt (horner s)).
Proof.
  intros N F. unfold number. rewrite no_dot by assumption. unfold to_int. pose proof F as F'.
  destruct F' as [|c r C F']; [contradiction|]. apply ascii_digit_facts in C as (_ & _ & _ & _ & C & _).
  unfold minus. rewrite (proj2 (Nat.eqb_neq c 45)) by assumption. rewrite digits_horner by assumption. reflexivity.
Qed.
Lemma number_neg s : s <> [] -> all ascii_digit s -> number udec (45 :: s) = Ret (OInt (- horner s)).
Proof.
  intros N F. unfold number. cbn [existsb]. rewrite no_dot by assumption. cbn [dot Nat.eqb orb to_int minus].
  destruct s as [|c r]; [contradiction|]. rewrite digits_horner by assumption. reflexivity.
Qed.
Lemma filter_digits s : all ascii_digit s -> filter (fun c => negb (c =? dot)) s = s.
Proof.
  intros F. induction F as [|c s C F IH]; [reflexivity|]. cbn [filter].
  apply ascii_digit_facts in C as (_ & _ & _ & _ & _ & C). unfold dot in *. rewrite (proj2 (Nat.eqb_neq c 46)) by assumption.
  cbn [negb]. rewrite IH. reflexivity.
Qed.
Lemma float_body a b :
  a <> [] -> all ascii_digit a -> all ascii_digit b ->
  let body := a ++ 46 :: b in let d := filter (fun c => negb (c =? dot)) body in
  (length body =? S (length d)) && negb (length d =? 0) && forallb (fun c => match dec udec c with Some _ => true | None => false end) d = true.
Proof.
  intros N F G. cbv zeta. rewrite filter_app. cbn [filter dot Nat.eqb negb]. 
  rewrite !filter_digits by assumption. rewrite !app_length. cbn [length].
  replace (length a + S (length b)) with (S (length a + length b)) by lia. rewrite Nat.eqb_refl. cbn [andb].
  destruct a as [|x a]; [contradiction|]. cbn [length Nat.add Nat.eqb negb andb].
  apply forallb_forall. intros c I. assert (ascii_digit c = true) as C.
  { assert (all ascii_digit ((x :: a) ++ b)) as X by (apply Forall_app; auto). unfold all in X. rewrite Forall_forall in X. auto. }
  apply ascii_digit_facts in C as (_ & _ & _ & -> & _). reflexivity.
Qed.
Lemma number_float a b :
  a <> [] -> all ascii_digit a -> all ascii_digit b ->
  number udec (a ++ 46 :: b) = Ret (OFloat (a ++ 46 :: b)) /\ number udec (45 :: a ++ 46 :: b) = Ret (OFloat (45 :: a ++ 46 :: b)).
Proof.
  intros N F G. pose proof (float_body a b N F G) as B. cbv zeta in B. unfold number. split.
  - replace (existsb _ _) with true by (symmetry; rewrite existsb_app; cbn; apply orb_true_r).
    unfold float_ok. destruct a as [|c a]; [contradiction|]. cbn [app] in *. pose proof F as F'. inversion F' as [|? ? C _]; subst.
    apply ascii_digit_facts in C as (_ & _ & _ & _ & C & _). unfold minus. rewrite (proj2 (Nat.eqb_neq c 45)) by assumption.
    rewrite B. reflexivity.
  - replace (existsb _ _) with true by (symmetry; cbn [existsb]; rewrite existsb_app; cbn; apply orb_true_r).
    unfold float_ok. cbn [minus Nat.eqb]. rewrite B. reflexivity.
Qed.
Lemma lower_inv c n : lower c = n -> c = n \/ c + 32 = n.
Proof. unfold lower. destruct (_ && _); auto. Qed.
Lemma name_true a : any_case "true" a -> name a.
Proof.
  intros H. apply case_iff in H; [|cbn; auto]. revert H. change (codes "true") with [116; 114; 117; 101]. intros H.
  destruct a as [|c1 [|c2 [|c3 [|c4 [|]]]]]; try discriminate. injection H as H1 H2 H3 H4.
  exists c1, [c2; c3; c4]. split; [reflexivity|].
  apply lower_inv in H1, H2, H3, H4.
  split.
  - destruct H1 as [->|H1]; [reflexivity|]. replace c1 with 84 by lia. reflexivity.
  - repeat apply Forall_cons; try apply Forall_nil.
    + destruct H2 as [->|H2]; [reflexivity|]. replace c2 with 82 by lia. reflexivity.
    + destruct H3 as [->|H3]; [reflexivity|]. replace c3 with 85 by lia. reflexivity.
    + destruct H4 as [->|H4]; [reflexivity|]. replace c4 with 69 by lia. reflexivity.
Qed.
Lemma name_false a : any_case "false" a -> name a.
Proof.
  intros H. apply case_iff in H; [|cbn; auto]. revert H. change (codes "false") with [102; 97; 108; 115; 101]. intros H.
  destruct a as [|c1 [|c2 [|c3 [|c4 [|c5 [|]]]]]]; try discriminate. injection H as H1 H2 H3 H4 H5.
  exists c1, [c2; c3; c4; c5]. split; [reflexivity|].
  apply lower_inv in H1, H2, H3, H4, H5.
  split.
  - destruct H1 as [->|H1]; [reflexivity|]. replace c1 with 70 by lia. reflexivity.
  - repeat apply Forall_cons; try apply Forall_nil.
    + destruct H2 as [->|H2]; [reflexivity|]. replace c2 with 65 by lia. reflexivity.
    + destruct H3 as [->|H3]; [reflexivity|]. replace c3 with 76 by lia. reflexivity.
    + destruct H4 as [->|H4]; [reflexivity|]. replace c4 with 83 by lia. reflexivity.
    + destruct H5 as [->|H5]; [reflexivity|]. replace c5 with 69 by lia. reflexivity.
Qed.
Lemma eqb_true {A} `{EqB A} (x : A) : eqb x x = true.
Proof. destruct (eqb_spec x x); [reflexivity|contradiction]. Qed.
Lemma eqb_false {A} `{EqB A} (x y : A) : x <> y -> eqb x y = false.
Proof. destruct (eqb_spec x y); [contradiction|reflexivity]. Qed.
Lemma oval_simple fuel t v x ks :
  ks <> [] ->
  match t with
  | ID => x = Ret (word v) | STR => x = Ret (OStr v) | NUM => x = number udec v | _ => False
  end ->
  match x with Ret y => parse_oval udec fuel ((t, v) :: ks) = Done (Some y) ks | Raise _ => True end.
Proof.
  intros N X. destruct x as [y|]; [|exact I]. unfold parse_oval. cbn [cur hd fst snd].
  destruct t; try contradiction; unfold pbind; rewrite advance_ok by assumption.
  - injection X as ->. reflexivity.
  - rewrite <- X. reflexivity.
  - injection X as ->. reflexivity.
Qed.
Lemma num_toks a : a <> [] -> all ascii_digit a -> forall b, all num_char b ->
  exists c r, a ++ b = c :: r /\ isdigit c = true /\ id_start c = false /\ all num_char r.
Proof.
  intros N F b B. destruct F as [|c a C F]; [contradiction|]. exists c, (a ++ b). split; [reflexivity|].
  pose proof (ascii_digit_facts _ C) as (C1 & C2 & _). repeat split; try assumption. apply Forall_app. split; [|assumption].
  eapply Forall_impl; [|exact F]. cbn beta. intros d Hd. apply ascii_digit_facts in Hd. tauto.
Qed.
Lemma value_ok v t :
  value_text ualpha unum udigit v t -> forall (rest : text) (ks : list tk), sep rest -> ks <> [] -> K true rest ks ->
  exists tv : list tk, K true (t ++ rest) (tv ++ ks) /\ fst (cur tv) <> NEWLINE /\ tv <> [] /\
    forall fuel, length tv < fuel -> parse_oval udec fuel (tv ++ ks) = Done (Some v) ks.
Proof.
  intros V rest ks S N H.
  assert (forall a, name a -> K true (a ++ rest) ([(ID, a)] ++ ks)) as NA.
  { intros a A. apply K_name; [assumption|apply sep_sepd; assumption|assumption]. }
  assert (forall b, all ascii_digit b -> all num_char b) as DN.
  { intros b B. eapply Forall_impl; [|exact B]. cbn beta. intros d Hd. apply ascii_digit_facts in Hd. tauto. }
  inversion V as [l r R|a A T1 T2|a T|a T|q b x Q U|s NE F|s NE F|a b NE F G|a b NE F G]; subst.
  - destruct (refs_ok l r R rest ks) as (tr & E & PR). { apply K_punct; [cbn; auto 10|assumption]. }
    exists ((LBRACKET, [91]) :: tr ++ [(RBRACKET, [93])]). split.
    + replace ((codes "[" ++ r ++ codes "]") ++ rest) with (91 :: r ++ 93 :: rest) by (rewrite <- !app_assoc; reflexivity).
      cbn [app]. rewrite <- app_assoc. cbn [app]. apply K_punct; [cbn; auto 10|assumption].
    + split; [discriminate|]. split; [discriminate|]. intros fuel L. cbn [length] in L. rewrite app_length in L. cbn [length app] in *. rewrite <- app_assoc. cbn [app].
      unfold parse_oval. cbn [cur hd fst]. erewrite bind_done by (apply advance_ok, app_ne; discriminate).
      destruct fuel as [|f]; [lia|].
      assert (exists ns tr', nls ns /\ tr ++ (RBRACKET, [93]) :: ks = ns ++ tr' /\ tr' <> [] /\ fst (cur tr') <> NEWLINE) as (ns & tr' & N1 & E1 & N2 & N3).
      { clear. induction tr as [|k tr (ns & tr' & A & B & C & D)].
        - exists [], ((RBRACKET, [93]) :: ks). repeat split; try discriminate. constructor.
        - destruct (ttype_dec (fst k) NEWLINE) as [X|X].
          + exists (k :: ns), tr'. cbn [app]. rewrite B. repeat split; try assumption. constructor; assumption.
          + exists [], (k :: tr ++ (RBRACKET, [93]) :: ks). repeat split; try assumption; try discriminate. constructor. }
      specialize (PR (Datatypes.S f) ltac:(lia)). rewrite E1 in *. rewrite refs_peel in PR by assumption.
      destruct tr' as [|k tr']; [contradiction|].
      erewrite (bind_done skip_newlines _ _ tt (k :: tr')) by (etransitivity; [apply f_equal; exact E1|apply skip_nls_id; [assumption|exact N3]]).
      erewrite bind_done by exact PR.
      erewrite bind_done by apply at_done. change (existsb (fun t => is t (cur ((RBRACKET, [93]) :: ks))) [RBRACKET]) with true. cbv iota.
      erewrite bind_done by (apply advance_ok; assumption). reflexivity.
  - exists [(ID, t)]. split; [auto|]. split; [discriminate|]. split; [discriminate|]. intros fuel L. cbn [app].
    pose proof (oval_simple fuel ID t (Ret (word t)) ks N eq_refl) as O. cbv beta iota in O. refine (eq_trans O _).
    unfold word. destruct (case_spec "true" t ltac:(cbn; auto)); [contradiction|].
    destruct (case_spec "false" t ltac:(cbn; auto)); [contradiction|]. reflexivity.
  - exists [(ID, t)]. split; [apply NA, name_true; assumption|]. split; [discriminate|]. split; [discriminate|]. intros fuel L. cbn [app].
    pose proof (oval_simple fuel ID t (Ret (word t)) ks N eq_refl) as O. cbv beta iota in O. refine (eq_trans O _).
    unfold word. apply case_iff in T; [|cbn; auto]. rewrite T, eqb_true. reflexivity.
  - exists [(ID, t)]. split; [apply NA, name_false; assumption|]. split; [discriminate|]. split; [discriminate|]. intros fuel L. cbn [app].
    pose proof (oval_simple fuel ID t (Ret (word t)) ks N eq_refl) as O. cbv beta iota in O. refine (eq_trans O _).
    unfold word. apply case_iff in T; [|cbn; auto]. rewrite T, eqb_true. rewrite eqb_false by discriminate. reflexivity.
  - exists [(STR, x)]. split.
    + cbn [app]. rewrite <- app_assoc. apply K_str; assumption.
    + split; [discriminate|]. split; [discriminate|]. intros fuel L. cbn [app]. apply (oval_simple fuel STR x (Ret (OStr x)) ks N eq_refl).
  - exists [(NUM, t)]. split.
    + apply K_num; [|assumption|assumption]. rewrite <- (app_nil_r t). apply num_toks; try assumption. apply Forall_nil.
    + split; [discriminate|]. split; [discriminate|]. intros fuel L. pose proof (oval_simple fuel NUM t _ ks N eq_refl) as O. rewrite number_int in O by assumption. exact O.
  - exists [(NUM, 45 :: s)]. split.
    + change (codes "-" ++ s) with (45 :: s). cbn [app]. apply K_neg; [|assumption|exact H].
      destruct (num_toks s NE F []) as (c & r & E & D & _ & B); [constructor|]. rewrite app_nil_r in E. exists c, r. auto.
    + split; [discriminate|]. split; [discriminate|]. intros fuel L. pose proof (oval_simple fuel NUM (45 :: s) _ ks N eq_refl) as O. rewrite (number_neg s NE F) in O. exact O.
  - destruct (number_float a b NE F G) as [NF _]. change (codes "." ++ b) with (46 :: b) in *. exists [(NUM, a ++ 46 :: b)]. split.
    + apply K_num; [|assumption|assumption]. apply num_toks; try assumption. constructor; [reflexivity|exact (DN b G)].
    + split; [discriminate|]. split; [discriminate|]. intros fuel L. pose proof (oval_simple fuel NUM (a ++ 46 :: b) _ ks N eq_refl) as O. rewrite NF in O. exact O.
  - destruct (number_float a b NE F G) as [_ NF]. change (codes "-" ++ a ++ codes "." ++ b) with (45 :: a ++ 46 :: b) in *. exists [(NUM, 45 :: a ++ 46 :: b)]. split.
    + cbn [app]. apply K_neg; [|assumption|assumption].
      destruct (num_toks a NE F (46 :: b)) as (c & r & E & D & _ & B); [constructor; [reflexivity|exact (DN b G)]|]. exists c, r. auto.
    + split; [discriminate|]. split; [discriminate|]. intros fuel L. pose proof (oval_simple fuel NUM (45 :: a ++ 46 :: b) _ ks N eq_refl) as O. rewrite NF in O. exact O.
Qed.

(** * Fields *)
Lemma app_norm3 {A} (n1 n2 n3 v n4 z : list A) x y :
  (n1 ++ x :: n2 ++ y :: n3 ++ v ++ n4) ++ z = n1 ++ x :: n2 ++ y :: n3 ++ v ++ n4 ++ z.
Proof. rewrite <- app_assoc. cbn [app]. rewrite <- app_assoc. cbn [app]. rewrite <- !app_assoc. reflexivity. Qed.
Lemma field_ok n v t :
  field_text ualpha unum udigit n v t -> forall c (rest : text) (k : tk) (ks : list tk),
  sepc c -> fst k <> NEWLINE -> K true (c :: rest) (k :: ks) ->
  exists tf : list tk, K true (t ++ c :: rest) (tf ++ k :: ks) /\ tf <> [] /\
    forall f d, length tf <= f ->
      parse_fields udec (S f) d (tf ++ k :: ks) =
      pbind (at_ [COMMA]) (fun c : bool => pbind (if c then advance else pret tt) (fun _ => parse_fields udec f (dset n v d))) (k :: ks).
Proof.
  intros (w1 & w2 & w3 & w4 & vt & -> & NN & W1 & W2 & W3 & W4 & V) c rest k ks C KN H.
  destruct (K_white true w4 (c :: rest) _ W4 H) as (ns4 & N4 & E4).
  destruct (value_ok v vt V (w4 ++ c :: rest) (ns4 ++ k :: ks)) as (tv & EV & HV & NV & PV).
  { apply white_sep; assumption. } { apply app_ne. discriminate. } { assumption. }
  destruct (K_white true w3 _ _ W3 EV) as (ns3 & N3 & E3).
  assert (K true (58 :: w3 ++ vt ++ w4 ++ c :: rest) ((COLON, [58]) :: ns3 ++ tv ++ ns4 ++ k :: ks)) as EC.
  { apply K_punct; [cbn; auto|assumption]. }
  destruct (K_white true w2 _ _ W2 EC) as (ns2 & N2 & E2).
  assert (K true (n ++ w2 ++ 58 :: w3 ++ vt ++ w4 ++ c :: rest) ((ID, n) :: ns2 ++ (COLON, [58]) :: ns3 ++ tv ++ ns4 ++ k :: ks)) as EN.
  { apply K_name; [assumption| |assumption]. apply sep_sepd, white_sep; [assumption|cbn; auto 10]. }
  destruct (K_white true w1 _ _ W1 EN) as (ns1 & N1 & E1).
  exists (ns1 ++ (ID, n) :: ns2 ++ (COLON, [58]) :: ns3 ++ tv ++ ns4). split; [|split].
  - rewrite app_norm3.
    replace ((w1 ++ n ++ w2 ++ codes ":" ++ w3 ++ vt ++ w4) ++ c :: rest) with (w1 ++ n ++ w2 ++ 58 :: w3 ++ vt ++ w4 ++ c :: rest)
      by (rewrite <- !app_assoc; reflexivity). exact E1.
  - apply app_ne. discriminate.
  - intros f d L. rewrite app_norm3. rewrite fields_peel by (assumption || discriminate).
    assert (length tv < f) as LV.
    { rewrite app_length in L. cbn [length] in L. rewrite app_length in L. cbn [length] in L. rewrite !app_length in L. lia. }
    cbn [parse_fields]. rewrite peel; [|discriminate|cbn; intuition discriminate].
    erewrite bind_done by (apply skip_id; discriminate). erewrite bind_done by apply at_done. cbv iota.
    match goal with |- context [existsb ?g [OUT_CLOSE; EOF]] => change (existsb g [OUT_CLOSE; EOF]) with false end. cbv iota.
    erewrite bind_done by apply at_done.
    match goal with |- context [existsb ?g [ID]] => change (existsb g [ID]) with true end. cbv iota.
    erewrite bind_done by (apply expect_ok, app_ne; discriminate).
    erewrite bind_done by (apply skip_nls_id; [assumption|discriminate]).
    erewrite bind_done by (apply expect_ok, app_ne, app_ne, app_ne; discriminate).
    destruct tv as [|k1 tv]; [contradiction|]. cbn [cur hd] in HV.
    erewrite bind_done by (apply skip_nls_id; assumption).
    erewrite bind_done by (apply (PV f); assumption).
    erewrite bind_done by (apply skip_nls_id; assumption). reflexivity.
Qed.
Definition sets (l : list (text * oval)) (d : dict text oval) : dict text oval :=
  fold_left (fun d e => dset (fst e) (snd e) d) l d.
Lemma fields_ok fs t :
  fields_text ualpha unum udigit fs t -> forall (rest : text) (ks : list tk),
  K true (125 :: rest) ((OUT_CLOSE, [125]) :: ks) ->
  exists tf : list tk, K true (t ++ 125 :: rest) (tf ++ (OUT_CLOSE, [125]) :: ks) /\
    forall f d, length tf < f -> parse_fields udec f d (tf ++ (OUT_CLOSE, [125]) :: ks) = Done (sets fs d) ((OUT_CLOSE, [125]) :: ks).
Proof.
  intros F. induction F as [w W|n v t F|n v t l r F FS IH]; intros rest ks H.
  - destruct (K_white true w _ _ W H) as (ns & N & E). exists ns. split; [assumption|]. intros [|f] d L; [lia|].
    rewrite fields_peel by (assumption || discriminate). reflexivity.
  - destruct (field_ok n v t F 125 rest (OUT_CLOSE, [125]) ks) as (tf & E & NE & PF); [cbn; auto 10|discriminate|assumption|].
    exists tf. split; [assumption|]. intros [|f] d L; [lia|]. rewrite PF by lia.
    destruct tf as [|? tf]; [contradiction|]. cbn in L. destruct f as [|f]; [lia|]. reflexivity.
  - destruct (IH rest ks H) as (tr & ER & PR).
    assert (K true (44 :: r ++ 125 :: rest) ((COMMA, [44]) :: tr ++ (OUT_CLOSE, [125]) :: ks)) as EC.
    { apply K_punct; [cbn; auto|assumption]. }
    destruct (field_ok n v t F 44 _ (COMMA, [44]) _ ltac:(cbn; auto 10) ltac:(discriminate) EC) as (tf & E & NE & PF).
    exists (tf ++ (COMMA, [44]) :: tr).
    assert ((tf ++ (COMMA, [44]) :: tr) ++ (OUT_CLOSE, [125]) :: ks = tf ++ (COMMA, [44]) :: tr ++ (OUT_CLOSE, [125]) :: ks) as AP
      by (rewrite <- app_assoc; reflexivity).
    split.
    + refine (eq_ind_r (fun z => K true _ z) _ AP). rewrite <- !app_assoc. exact E.
    + intros [|f] d L; [lia|]. refine (eq_trans (f_equal _ AP) _). rewrite app_length in L. cbn [length] in L. cbn [app]. rewrite PF by lia.
      erewrite bind_done by apply at_done.
      match goal with |- context [existsb ?g [COMMA]] => change (existsb g [COMMA]) with true end. cbv iota.
      erewrite bind_done by (apply advance_ok, app_ne; discriminate). cbn [sets fold_left fst snd]. apply PR. lia.
Qed.
Lemma sets_nodup l d : NoDup (dkeys d ++ map fst l) -> sets l d = d ++ l.
Proof.
  revert d. induction l as [|[k v] l IH]; intros d N; [rewrite app_nil_r; reflexivity|]. cbn [sets fold_left fst snd].
  assert (~ In k (dkeys d)) as NI.
  { intros I. cbn in N. apply NoDup_remove_2 in N. apply N. apply in_app_iff. auto. }
  fold (sets l (dset k v d)). rewrite dkeys_dset_notin by assumption. rewrite IH.
  - rewrite <- app_assoc. reflexivity.
  - rewrite dkeys_app. cbn. rewrite <- app_assoc. exact N.
Qed.
Lemma out_ok fs t rest ks v :
  fields_text ualpha unum udigit fs t -> NoDup (map fst fs) ->
  K true (125 :: rest) ((OUT_CLOSE, [125]) :: ks) -> ks <> [] ->
  exists tf : list tk, K true (t ++ 125 :: rest) (tf ++ (OUT_CLOSE, [125]) :: ks) /\
    forall f, length tf < f -> parse_out_block udec f ((OUT_OPEN, v) :: tf ++ (OUT_CLOSE, [125]) :: ks) = Done fs ks.
Proof.
  intros F N H NE. destruct (fields_ok fs t F rest ks H) as (tf & E & PF). exists tf. split; [assumption|].
  intros [|f] L; [lia|]. unfold parse_out_block. erewrite bind_done by (apply expect_ok, app_ne; discriminate).
  assert (exists (ns tr : list tk) k, nls ns /\ tf ++ (OUT_CLOSE, [125]) :: ks = ns ++ k :: tr /\ fst k <> NEWLINE) as (ns & tr & k & N1 & E1 & N3).
  { clear. induction tf as [|k tf (ns & tr & k' & A & B & C)].
    - exists [], ks, (OUT_CLOSE, [125]). repeat split; try discriminate. constructor.
    - destruct (ttype_dec (fst k) NEWLINE) as [X|X].
      + exists (k :: ns), tr, k'. cbn [app]. rewrite B. repeat split; try assumption. constructor; assumption.
      + exists [], (tf ++ (OUT_CLOSE, [125]) :: ks), k. repeat split; try assumption. constructor. }
  specialize (PF (S f) [] L). rewrite E1, fields_peel in PF by (assumption || discriminate).
  erewrite (bind_done skip_newlines _ _ tt (k :: tr)) by (etransitivity; [apply f_equal; exact E1|apply skip_nls_id; assumption]).
  erewrite bind_done by exact PF. erewrite bind_done by apply at_done.
  match goal with |- context [existsb ?g [OUT_CLOSE]] => change (existsb g [OUT_CLOSE]) with true end. cbv iota.
  erewrite bind_done by (apply advance_ok; assumption). unfold pret. rewrite sets_nodup by assumption. reflexivity.
Qed.

(** * Declarations *)
Lemma loop_noise src vs acs al ns ts f :
  Forall noise ns -> ts <> [] -> length (ns ++ ts) < f ->
  exists f', length ts < f' /\ parse_loop uspace udec f src vs acs al (ns ++ ts) = parse_loop uspace udec f' src vs acs al ts.
Proof.
  intros F N. revert f. induction F as [|k ns H F IH]; intros f L; [exists f; auto|].
  destruct f as [|f]; [cbn in L; lia|]. cbn [app length] in L.
  destruct (ttype_dec (fst k) NEWLINE) as [E|E].
  - destruct (IH (S f)) as (f' & L' & P'); [lia|]. exists f'. split; [assumption|]. rewrite <- P'.
    apply (loop_peel f src vs acs al [k]); [constructor; [assumption|constructor]|apply app_ne; assumption].
  - destruct (IH f) as (f' & L' & P'); [lia|]. exists f'. split; [assumption|]. rewrite <- P'. clear P' IH.
    assert (forall t, In t [LVAR_OPEN; LVAR_CLOSE; LACT_OPEN; LACT_CLOSE; OUT_OPEN; STR; EOF] -> is t k = false) as X.
    { intros t I. apply is_false. intros K1. apply H. rewrite K1. assumption. }
    cbn [parse_loop app]. rewrite peel; [|discriminate|cbn; intuition discriminate].
    erewrite bind_done by (apply skip_id; assumption).
    unfold pbind at 1, at_ at 1. cbn [cur hd existsb]. rewrite (X EOF) by (cbn; auto 10). cbn [orb].
    unfold pbind at 1, at_ at 1. cbn [cur hd existsb]. rewrite (X LVAR_OPEN) by (cbn; auto 10). cbn [orb].
    unfold pbind at 1, at_ at 1. cbn [cur hd existsb]. rewrite (X LACT_OPEN) by (cbn; auto 10). cbn [orb].
    unfold pbind at 1, at_ at 1. cbn [cur hd existsb]. rewrite (X OUT_OPEN) by (cbn; auto 10). cbn [orb].
    erewrite bind_done by (apply advance_ok, app_ne; assumption). reflexivity.
Qed.
Lemma loop_lvar src vs acs al v ts x ts' f :
  parse_lvar uspace src ((LVAR_OPEN, v) :: ts) = Done x ts' -> ~ In (lvar_alias x) al ->
  parse_loop uspace udec (S f) src vs acs al ((LVAR_OPEN, v) :: ts) =
  parse_loop uspace udec f src (vs ++ [x]) acs (lvar_alias x :: al) ts'.
Proof.
  intros E N. cbn [parse_loop]. rewrite peel; [|discriminate|cbn; intuition discriminate].
  erewrite bind_done by (apply skip_id; discriminate).
  unfold pbind at 1, at_ at 1. cbn [cur hd existsb is fst ttype_dec]. cbn [orb].
  change (is EOF (LVAR_OPEN, v)) with false. cbn [orb].
  unfold pbind at 1, at_ at 1. cbn [cur hd existsb]. change (is LVAR_OPEN (LVAR_OPEN, v)) with true. cbn [orb].
  erewrite bind_done by exact E. destruct (memb (lvar_alias x) al) eqn:M; [|reflexivity].
  exfalso. apply N. clear - M. induction al as [|y al IH]; [discriminate|]. simpl in M.
  destruct (eqb_spec (lvar_alias x) y); [left; congruence|]. right. apply IH. assumption.
Qed.
Lemma loop_lact src vs acs al v ts x ts' f :
  parse_lact uspace src ((LACT_OPEN, v) :: ts) = Done x ts' -> ~ In (ac_alias x) al ->
  parse_loop uspace udec (S f) src vs acs al ((LACT_OPEN, v) :: ts) =
  parse_loop uspace udec f src vs (acs ++ [x]) (ac_alias x :: al) ts'.
Proof.
  intros E N. cbn [parse_loop]. rewrite peel; [|discriminate|cbn; intuition discriminate].
  erewrite bind_done by (apply skip_id; discriminate).
  unfold pbind at 1, at_ at 1. cbn [cur hd existsb is fst ttype_dec]. cbn [orb].
  change (is EOF (LACT_OPEN, v)) with false. cbn [orb].
  unfold pbind at 1, at_ at 1. cbn [cur hd existsb]. change (is LVAR_OPEN (LACT_OPEN, v)) with false. cbn [orb].
  unfold pbind at 1, at_ at 1. cbn [cur hd existsb]. change (is LACT_OPEN (LACT_OPEN, v)) with true. cbn [orb].
  erewrite bind_done by exact E. destruct (memb (ac_alias x) al) eqn:M; [|reflexivity].
  exfalso. apply N. clear - M. induction al as [|y al IH]; [discriminate|]. simpl in M.
  destruct (eqb_spec (ac_alias x) y); [left; congruence|]. right. apply IH. assumption.
Qed.
Lemma loop_out src vs acs al v ts d ts' f :
  parse_out_block udec f ((OUT_OPEN, v) :: ts) = Done d ts' ->
  parse_loop uspace udec (S f) src vs acs al ((OUT_OPEN, v) :: ts) = Done (Prog vs acs (Some d)) ts'.
Proof.
  intros E. cbn [parse_loop]. rewrite peel; [|discriminate|cbn; intuition discriminate].
  erewrite bind_done by (apply skip_id; discriminate).
  unfold pbind at 1, at_ at 1. cbn [cur hd existsb]. change (is EOF (OUT_OPEN, v)) with false. cbn [orb].
  unfold pbind at 1, at_ at 1. cbn [cur hd existsb]. change (is LVAR_OPEN (OUT_OPEN, v)) with false. cbn [orb].
  unfold pbind at 1, at_ at 1. cbn [cur hd existsb]. change (is LACT_OPEN (OUT_OPEN, v)) with false. cbn [orb].
  unfold pbind at 1, at_ at 1. cbn [cur hd existsb]. change (is OUT_OPEN (OUT_OPEN, v)) with true. cbn [orb].
  erewrite bind_done by exact E. reflexivity.
Qed.

(** * The tag found in the source is the declaration's own *)
Lemma sp_not_id c : sp c = true -> id_char c = false.
Proof.
  unfold isspace, ModelLexer.id_char, isalnum, ModelLexer.isalpha, ModelLexer.isdigit. intros H. destruct (c <? 128) eqn:L.
  - assert (In c [9; 10; 11; 12; 13; 28; 29; 30; 31; 32]) as I.
    { apply orb_true_iff in H. rewrite !andb_true_iff, !Nat.leb_le in H. cbn [In]. lia. }
    cbn [In] in I. repeat destruct I as [<-|I]; try reflexivity. contradiction.
  - destruct (disjoint c H) as (A & B & C). rewrite A. cbn [orb]. rewrite ?B, ?C.
    destruct (Nat.eqb_spec c underscore) as [->|N]; [discriminate|reflexivity].
Qed.

Definition stop (f : nat -> bool) (r : text) : Prop := match r with c :: _ => f c = false | [] => True end.
Lemma span_unique f a r a' r' : all f a -> all f a' -> stop f r -> stop f r' -> a ++ r = a' ++ r' -> a = a' /\ r = r'.
Proof.
  intros A A' S S' E. pose proof (span_app f a r A S) as X. rewrite E in X.
  rewrite (span_app f a' r' A' S') in X. injection X as -> ->. auto.
Qed.
Lemma name_ids a : name a -> all id_char a.
Proof. intros (c & r & -> & C & R). constructor; [apply id_start_char; assumption|assumption]. Qed.
Lemma name_stop a r : name a -> stop sp (a ++ r).
Proof.
  intros (c & r' & -> & C & _). cbn. destruct (sp c) eqn:S; [|reflexivity].
  apply sp_not_id in S. rewrite id_start_char in S by assumption. discriminate.
Qed.
Lemma space_stop w c r : all sp w -> id_char c = false -> stop id_char (w ++ c :: r).
Proof. intros W C. destruct W as [|x w X W]; cbn; auto using sp_not_id. Qed.
Lemma space_stop' w r : all sp w -> w <> [] -> stop id_char (w ++ r).
Proof. intros W C. destruct W as [|x w X W]; [contradiction|]. cbn. auto using sp_not_id. Qed.
Lemma space_no w c r c' r' : all sp w -> sp c' = false -> c <> c' -> w ++ c :: r <> c' :: r'.
Proof. intros W C N E. destruct W as [|x w X W]; cbn in E; injection E as -> E; congruence. Qed.

Lemma head_unique h h' kw kw' t t' x x' :
  In kw [t_lvar_open; t_lact_open] -> In kw' [t_lvar_open; t_lact_open] ->
  good_head ualpha unum udigit h -> good_head ualpha unum udigit h' ->
  tag sp sp kw h t -> tag sp sp kw' h' t' -> t ++ x = t' ++ x' -> kw = kw' /\ h = h' /\ t = t'.
Proof.
  intros Kw Kw' G G' T T' E.
  assert (kw = kw' /\ h = h' /\ x = x') as (-> & -> & ->); [|apply app_inv_tail in E; auto].
  assert (kw = kw' /\ exists u u', t = kw ++ u /\ t' = kw ++ u' /\ u ++ x = u' ++ x') as (-> & u & u' & -> & -> & E').
  { assert (exists u, t = kw ++ u) as [u ->] by (inversion T; eauto).
    assert (exists u, t' = kw' ++ u) as [u' ->] by (inversion T'; eauto).
    rewrite <- !app_assoc in E.
    cbn in Kw, Kw'. destruct Kw as [<-|[<-|[]]], Kw' as [<-|[<-|[]]];
      try (apply app_inv_head in E; split; [reflexivity|]; eauto); discriminate. }
  split; [reflexivity|]. clear E.
  assert (id_char 62 = false) as I62 by reflexivity. assert (id_char 46 = false) as I46 by reflexivity.
  assert (sp 62 = false) as S62 by reflexivity. assert (sp 46 = false) as S46 by reflexivity.
  assert (forall a r r', name a -> 62 :: r <> a ++ r') as NG.
  { intros a r r' (c & a' & -> & C & _) E. injection E as <- E. discriminate. }
  inversion T as [a w1 w2 N1 F1 F2 Eh Et|m f w1 w2 N1 F1 F2 Eh Et|m f a w1 w2 w3 N1 N3 F1 F2 F3 Eh Et]; subst h; apply app_inv_head in Et; subst u;
  inversion T' as [a' w1' w2' N1' F1' F2' Eh' Et'|m' f' w1' w2' N1' F1' F2' Eh' Et'|m' f' a' w1' w2' w3' N1' N3' F1' F2' F3' Eh' Et']; subst h'; apply app_inv_head in Et'; subst u';
  cbn in G, G'; change (codes ">") with [62] in E'; change (codes ".") with [46] in E'; repeat (progress (rewrite <- ?app_assoc in E'; cbn [app] in E'));
  apply span_unique with (f := sp) in E' as [-> E']; try assumption; try (apply name_stop; tauto);
  apply span_unique with (f := id_char) in E' as [-> E']; try (apply name_ids; tauto); try exact I46; try (apply space_stop; assumption);
  try (exfalso; eapply space_no; [| | |exact E']; [assumption|assumption|discriminate]);
  try (exfalso; symmetry in E'; eapply space_no; [| | |exact E']; [assumption|assumption|discriminate]).
  - apply span_unique with (f := sp) in E' as [-> E']; try assumption. injection E' as ->. auto.
  - injection E' as E'. apply span_unique with (f := id_char) in E' as [-> E']; try (apply name_ids; tauto); try (apply space_stop; assumption).
    apply span_unique with (f := sp) in E' as [-> E']; try assumption. injection E' as ->. auto.
  - exfalso. injection E' as E'. apply span_unique with (f := id_char) in E' as [-> E']; try (apply name_ids; tauto); try (apply space_stop; assumption); try (apply space_stop'; assumption).
    apply span_unique with (f := sp) in E' as [-> E']; try assumption; try (apply name_stop; tauto). eapply NG; [|exact E']. tauto.
  - exfalso. injection E' as E'. apply span_unique with (f := id_char) in E' as [-> E']; try (apply name_ids; tauto); try (apply space_stop; assumption); try (apply space_stop'; assumption).
    apply span_unique with (f := sp) in E' as [-> E']; try assumption; try (apply name_stop; tauto). symmetry in E'. eapply NG; [|exact E']. tauto.
  - injection E' as E'. apply span_unique with (f := id_char) in E' as [-> E']; try (apply name_ids; tauto); try (apply space_stop'; assumption).
    apply span_unique with (f := sp) in E' as [-> E']; try assumption; try (apply name_stop; tauto).
    apply span_unique with (f := id_char) in E' as [-> E']; try (apply name_ids; tauto); try (apply space_stop; assumption).
    apply span_unique with (f := sp) in E' as [-> E']; try assumption. injection E' as ->. auto.
Qed.
Lemma blank_sp c : blank c = true -> sp c = true.
Proof. intros B. unfold blank in B. rewrite !orb_true_iff, !Nat.eqb_eq in B. destruct B as [[->| ->]| ->]; reflexivity. Qed.
Lemma white_sp c : white c = true -> sp c = true.
Proof. intros W. apply white_cases in W as [B| ->]; [apply blank_sp; assumption|reflexivity]. Qed.
Lemma tag_sp kw h t : tag white blank kw h t -> tag sp sp kw h t.
Proof.
  assert (forall w, all white w -> all sp w) as A by (intros w; apply Forall_impl; exact white_sp).
  assert (forall w, all blank w -> all sp w) as B by (intros w; apply Forall_impl; exact blank_sp).
  intros T. destruct T; constructor; auto.
Qed.

(** No tag for a head with another alias begins in p. *)
Definition passed (al : list text) (p : text) : Prop :=
  forall kw h pre t s rest, In kw [t_lvar_open; t_lact_open] -> good_head ualpha unum udigit h -> ~ In (head_alias h) al ->
    tag sp sp kw h t -> p ++ rest = pre ++ t ++ s -> length p <= length pre.
Lemma app_split {A} (a b c d : list A) :
  a ++ b = c ++ d -> (exists m, c = a ++ m /\ b = m ++ d) \/ (exists x m, a = c ++ x :: m /\ d = x :: m ++ b).
Proof.
  revert c. induction a as [|y a IH]; intros c E.
  - left. exists c. auto.
  - destruct c as [|z c]; cbn in E.
    + right. exists y, a. auto.
    + injection E as -> E. destruct (IH _ E) as [(m & -> & ->)|(x & m & -> & ->)]; [left; exists m; auto|right; exists x, m; auto].
Qed.
Lemma passed_app al p q : passed al p -> passed al q -> passed al (p ++ q).
Proof.
  intros HP HQ kw h pre t s rest Kw G N T E. rewrite <- app_assoc in E.
  pose proof (HP _ _ _ _ _ _ Kw G N T E) as L.
  destruct (app_split _ _ _ _ E) as [(m & -> & E')|(x & m & -> & _)].
  - apply (HQ _ _ _ _ _ _ Kw G N T) in E'. rewrite !app_length. lia.
  - rewrite app_length in L. cbn in L. lia.
Qed.
Lemma tag_lt kw h t : In kw [t_lvar_open; t_lact_open] -> tag sp sp kw h t -> exists r, t = 60 :: 108 :: r.
Proof. intros Kw T. cbn in Kw. destruct Kw as [<-|[<-|[]]]; inversion T; cbn; eauto. Qed.
Lemma passed_no_lt al p : ~ In 60 p -> passed al p.
Proof.
  intros NI kw h pre t s rest Kw G N T E. destruct (app_split _ _ _ _ E) as [(m & -> & E')|(x & m & -> & E')].
  - rewrite app_length. lia.
  - destruct (tag_lt _ _ _ Kw T) as [r ->]. cbn in E'. injection E' as <- _. exfalso. apply NI. apply in_app_iff. right. left. reflexivity.
Qed.
Lemma passed_close al r : ~ In 60 r -> passed al (60 :: 47 :: r).
Proof.
  intros NI kw h pre t s rest Kw G N T E. destruct pre as [|x pre].
  - destruct (tag_lt _ _ _ Kw T) as [r' ->]. discriminate.
  - cbn in E. injection E as <- E. cbn [length]. apply le_n_S.
    apply (passed_no_lt al (47 :: r)) with (kw := kw) (h := h) (t := t) (s := s) (rest := rest); try assumption.
    intros [X|X]; [discriminate|contradiction].
Qed.
Lemma tag_tail kw h t : In kw [t_lvar_open; t_lact_open] -> tag sp sp kw h t -> good_head ualpha unum udigit h ->
  exists r, t = 60 :: r /\ ~ In 60 r.
Proof.
  intros Kw T G.
  assert (forall w, all sp w -> ~ In 60 w) as A.
  { intros w W I. unfold all in W. rewrite Forall_forall in W. specialize (W _ I). discriminate. }
  assert (forall w, name w -> ~ In 60 w) as B.
  { intros w W I. apply name_ids in W. unfold all in W. rewrite Forall_forall in W. specialize (W _ I). discriminate. }
  assert (forall (a b : text), ~ In 60 a -> ~ In 60 b -> ~ In 60 (a ++ b)) as D by (intros a b Ha Hb I; apply in_app_iff in I; tauto).
  assert (exists k, kw = 60 :: k /\ ~ In 60 k) as (k & -> & Hk).
  { cbn in Kw. destruct Kw as [<-|[<-|[]]]; eexists; (split; [reflexivity|]); cbn; intuition discriminate. }
  assert (~ In 60 [62]) by (cbn; intuition discriminate). assert (~ In 60 [46]) by (cbn; intuition discriminate).
  inversion T; subst; cbn in G; cbn [app]; eexists; (split; [reflexivity|]); repeat apply D; auto; (apply A + apply B); tauto.
Qed.
Lemma passed_tag al kw h t : In kw [t_lvar_open; t_lact_open] -> good_head ualpha unum udigit h -> tag sp sp kw h t ->
  passed (head_alias h :: al) t.
Proof.
  intros Kw G T kw' h' pre t' s rest Kw' G' N T' E. destruct pre as [|x pre].
  - cbn in E. destruct (head_unique _ _ _ _ _ _ _ _ Kw Kw' G G' T T' E) as (_ & <- & _).
    exfalso. apply N. left. reflexivity.
  - destruct (tag_tail _ _ _ Kw T G) as (r & -> & NI). cbn in E. injection E as <- E. cbn [length]. apply le_n_S.
    apply (passed_no_lt al r NI) with (kw := kw') (h := h') (t := t') (s := s) (rest := rest); try assumption.
    intros I. apply N. right. assumption.
Qed.
Lemma passed_more al al' p : passed al p -> (forall a, In a al -> In a al') -> passed al' p.
Proof. intros HP I kw h pre t s rest Kw G N. apply HP; auto. Qed.

Lemma search_own al p ps kw close cl h t b post :
  passed al p -> In kw [t_lvar_open; t_lact_open] -> (forall t, matches uspace ps t <-> tag sp sp kw h t) ->
  close = 60 :: cl -> ~ In 60 b -> good_head ualpha unum udigit h -> ~ In (head_alias h) al -> tag sp sp kw h t ->
  search uspace ps close (p ++ t ++ b ++ close ++ post) = Some b.
Proof.
  intros HP Kw M C NB G N T. remember (p ++ t ++ b ++ close ++ post) as src eqn:Esrc.
  destruct (search_some uspace ps close src p t b post Esrc) as [c E]; [apply M; assumption|]. rewrite E. f_equal.
  apply search_spec in E as (pre & t' & s & post' & E & T' & U & L). apply M in T'.
  pose proof (L _ _ _ _ Esrc (proj2 (M _) T)) as L1.
  rewrite Esrc in E. pose proof (HP _ _ _ _ _ _ Kw G N T' E) as L2.
  assert (length p = length pre) as L3 by lia.
  destruct (app_split _ _ _ _ E) as [(m & X & E')|(x & m & X & _)].
  2: { apply (f_equal (@length nat)) in X. rewrite app_length in X. cbn in X. lia. }
  destruct m as [|? ?]; [|apply (f_equal (@length nat)) in X; rewrite app_length in X; cbn in X; lia].
  cbn in E'. destruct (head_unique _ _ _ _ _ _ _ _ Kw Kw G G T T' E') as (_ & _ & <-). apply app_inv_head in E'.
  destruct U as [U1 U2]. rewrite <- E' in U1, U2. specialize (U2 b post eq_refl).
  destruct (app_split _ _ _ _ U1) as [(m & -> & _)|(x & m & -> & Y)].
  - rewrite app_length in U2. destruct m; [apply app_nil_r|]. cbn in U2. lia.
  - exfalso. subst close. cbn in Y. injection Y as <- _. apply NB. apply in_app_iff. right. left. reflexivity.
Qed.

(** * Documents *)
Lemma good_model h : good_head ualpha unum udigit h -> match h with HNamed m _ _ => m <> [] | _ => True end.
Proof.
  assert (forall a, name a -> a <> []) as N by (intros a (c & r & -> & _); discriminate).
  destruct h as [|m f [a|]]; cbn; [intros _; exact I| |]; intros G; apply N; tauto.
Qed.
Lemma alias_lvar h c : lvar_alias (lvar_of h c) = head_alias h.
Proof. destruct h as [|m f [a|]]; reflexivity. Qed.
Lemma alias_lact h c : ac_alias (lact_of h c) = head_alias h.
Proof. destruct h as [|m f [a|]]; reflexivity. Qed.
Lemma app_norm4 {A} (a b c d : list A) x y z : x :: (a ++ b ++ y :: c ++ [z]) ++ d = x :: a ++ b ++ y :: c ++ z :: d.
Proof. rewrite <- !app_assoc. cbn [app]. rewrite <- app_assoc. reflexivity. Qed.
Lemma decl_ok d t : decl_text ualpha unum udigit uspace d t -> forall rest (ks : list tk), K false rest ks ->
  exists td : list tk, K false (t ++ rest) (td ++ ks) /\ td <> [] /\
    forall p vs acs al f, passed al p -> ~ In (decl_alias d) al ->
      parse_loop uspace udec (S f) (p ++ t ++ rest) vs acs al (td ++ ks) =
      parse_loop uspace udec f (p ++ t ++ rest) (vs ++ vars [d]) (acs ++ acts [d]) (decl_alias d :: al) ks /\
      passed (decl_alias d :: al) (p ++ t).
Proof.
  intros D rest ks H. pose proof (K_ne _ _ _ H) as NE.
  destruct D as [h c t b G T P TR|h c t b G T P TR].
  - destruct (K_plain b (t_lvar_close ++ rest) ((LVAR_CLOSE, t_lvar_close) :: ks) P) as (ns & N1 & E1); [left; eexists; reflexivity|apply K_lvar_close; exact H|].
    destruct (K_tag false t_lvar_open LVAR_OPEN h t _ _ ltac:(auto) T G E1) as (ns1 & N2 & E2).
    exists ((LVAR_OPEN, t_lvar_open) :: ns1 ++ head_toks h ++ (GT, [62]) :: ns ++ [(LVAR_CLOSE, t_lvar_close)]).
    cbn [app]. split; [|split; [discriminate|]].
    + refine (eq_ind_r (fun z => K false _ z) _ (app_norm4 _ _ _ _ _ _ _)). rewrite <- !app_assoc. exact E2.
    + intros p vs acs al f HP NI. cbn [decl_alias] in *. cbn [vars acts flat_map app]. rewrite app_nil_r. split.
      * refine (eq_trans (f_equal _ (app_norm4 _ _ _ _ _ _ _)) _).
        rewrite (loop_lvar _ _ _ _ _ _ (lvar_of h c) ks f).
        -- rewrite alias_lvar. reflexivity.
        -- rewrite <- (trimmed_strip uspace b c TR). apply lvar_ok; try assumption.
           ++ destruct p; [|discriminate]. destruct (tag_lt t_lvar_open h t ltac:(cbn; auto) (tag_sp _ _ _ T)) as [r ->]. discriminate.
           ++ rewrite <- !app_assoc. eapply search_own with (kw := t_lvar_open); eauto using tag_sp.
              ** cbn; auto.
              ** intros. apply matches_lvar.
              ** reflexivity.
              ** apply P.
        -- rewrite alias_lvar. assumption.
      * apply passed_app; [eapply passed_more; [exact HP|intros; right; assumption]|].
        apply passed_app; [apply passed_tag with (kw := t_lvar_open); auto using tag_sp; cbn; auto|].
        apply passed_app; [apply passed_no_lt, P|]. apply passed_close. cbn. intuition discriminate.
  - destruct (K_plain b (t_lact_close ++ rest) ((LACT_CLOSE, t_lact_close) :: ks) P) as (ns & N1 & E1); [left; eexists; reflexivity|apply K_lact_close; exact H|].
    destruct (K_tag false t_lact_open LACT_OPEN h t _ _ ltac:(auto) T G E1) as (ns1 & N2 & E2).
    exists ((LACT_OPEN, t_lact_open) :: ns1 ++ head_toks h ++ (GT, [62]) :: ns ++ [(LACT_CLOSE, t_lact_close)]).
    cbn [app]. split; [|split; [discriminate|]].
    + refine (eq_ind_r (fun z => K false _ z) _ (app_norm4 _ _ _ _ _ _ _)). rewrite <- !app_assoc. exact E2.
    + intros p vs acs al f HP NI. cbn [decl_alias] in *. cbn [vars acts flat_map app]. rewrite app_nil_r. split.
      * refine (eq_trans (f_equal _ (app_norm4 _ _ _ _ _ _ _)) _).
        rewrite (loop_lact _ _ _ _ _ _ (lact_of h c) ks f).
        -- rewrite alias_lact. reflexivity.
        -- rewrite <- (trimmed_strip uspace b c TR). apply lact_ok; try assumption.
           ++ destruct p; [|discriminate]. destruct (tag_lt t_lact_open h t ltac:(cbn; auto) (tag_sp _ _ _ T)) as [r ->]. discriminate.
           ++ rewrite <- !app_assoc. eapply search_own with (kw := t_lact_open); eauto using tag_sp.
              ** cbn; auto.
              ** intros. apply matches_lact, good_model. assumption.
              ** reflexivity.
              ** apply P.
        -- rewrite alias_lact. assumption.
      * apply passed_app; [eapply passed_more; [exact HP|intros; right; assumption]|].
        apply passed_app; [apply passed_tag with (kw := t_lact_open); auto using tag_sp; cbn; auto|].
        apply passed_app; [apply passed_no_lt, P|]. apply passed_close. cbn. intuition discriminate.
Qed.
Lemma vars_cons d ds : vars (d :: ds) = vars [d] ++ vars ds.
Proof. unfold vars. cbn [flat_map]. rewrite app_nil_r. reflexivity. Qed.
Lemma acts_cons d ds : acts (d :: ds) = acts [d] ++ acts ds.
Proof. unfold acts. cbn [flat_map]. rewrite app_nil_r. reflexivity. Qed.
Lemma decls_ok ds t : decls_text ualpha unum udigit uspace ds t -> forall rest (ks : list tk),
  K false (t_out ++ rest) ks ->
  exists td : list tk, K false (t ++ t_out ++ rest) (td ++ ks) /\
    forall p vs acs al f, passed al p -> NoDup (map decl_alias ds) -> (forall d, In d ds -> ~ In (decl_alias d) al) ->
      length (td ++ ks) < f ->
      exists f' al', length ks < f' /\
      parse_loop uspace udec f (p ++ t ++ t_out ++ rest) vs acs al (td ++ ks) =
      parse_loop uspace udec f' (p ++ t ++ t_out ++ rest) (vs ++ vars ds) (acs ++ acts ds) al' ks.
Proof.
  intros D. induction D as [n P L|n d t ds r P DT D IH]; intros rest ks H; pose proof (K_ne _ _ _ H) as NE.
  - destruct (K_plain n (t_out ++ rest) ks P) as (ns & N & E); [right; eauto|assumption|].
    exists ns. split; [assumption|]. intros p vs acs al f HP ND NI LF.
    destruct (loop_noise (p ++ n ++ t_out ++ rest) vs acs al ns ks f N NE LF) as (f' & L' & E').
    exists f', al. split; [assumption|]. cbn [vars acts flat_map]. rewrite !app_nil_r. exact E'.
  - destruct (IH rest ks H) as (td & E1 & P1).
    destruct (decl_ok d t DT _ _ E1) as (tt & E2 & N2 & P2).
    destruct (K_plain n (t ++ r ++ t_out ++ rest) (tt ++ td ++ ks) P) with (2 := E2) as (ns & N & E).
    { left. assert (exists kw h u v, t = u ++ v /\ In kw [t_lvar_open; t_lact_open] /\ tag sp sp kw h u) as (kw & h & u & v & -> & I & T).
      { destruct DT as [h c u b G T _ _|h c u b G T _ _]; [exists t_lvar_open|exists t_lact_open]; exists h, u; eexists; cbn; eauto 8 using tag_sp. }
      destruct (tag_lt _ _ _ I T) as [x ->]. eexists. reflexivity. }
    exists (ns ++ tt ++ td).
    assert ((ns ++ tt ++ td) ++ ks = ns ++ tt ++ td ++ ks) as AP by (rewrite <- !app_assoc; reflexivity).
    split.
    + refine (eq_ind_r (fun z => K false _ z) _ AP). rewrite <- !app_assoc. exact E.
    + intros p vs acs al f HP ND NI LF. rewrite AP in LF. inversion ND as [|? ? ND1 ND2]; subst.
      destruct (loop_noise (p ++ (n ++ t ++ r) ++ t_out ++ rest) vs acs al ns (tt ++ td ++ ks) f N) as (f' & L' & E').
      { destruct tt; [contradiction|discriminate]. } { assumption. }
      destruct f' as [|f']; [lia|].
      destruct (P2 (p ++ n) vs acs al f') as [E3 HP3].
      { apply passed_app; [assumption|apply passed_no_lt, P]. } { apply NI. left. reflexivity. }
      destruct (P1 (p ++ n ++ t) (vs ++ vars [d]) (acs ++ acts [d]) (decl_alias d :: al) f') as (f'' & al' & L'' & E4).
      { rewrite app_assoc. exact HP3. } { assumption. }
      { intros d' I' [X|X]; [|exact (NI _ (or_intror I') X)]. apply ND1. rewrite X. apply in_map. assumption. }
      { rewrite !app_length in *. destruct tt; [contradiction|]. cbn [length] in L'. lia. }
      exists f'', al'. split; [assumption|].
      refine (eq_trans (f_equal _ AP) _). rewrite E'. rewrite <- !app_assoc in E3. rewrite <- !app_assoc.
      replace ((p ++ n ++ t) ++ r ++ t_out ++ rest) with (p ++ n ++ t ++ r ++ t_out ++ rest) in E4 by (rewrite <- !app_assoc; reflexivity).
      etransitivity; [exact E3|]. etransitivity; [exact E4|]. rewrite (vars_cons d ds), (acts_cons d ds), <- !app_assoc. reflexivity.
Qed.
Theorem document_ok prog text :
  document ualpha unum udigit uspace prog text ->
  exists toks, tokenize ualpha unum udigit text = Some toks /\
  exists ts, parse uspace udec toks (Some text) = Done prog ts.
Proof.
  intros D. destruct D as [ds t fs ft post DT ND FT NF].
  destruct (K_total false post) as [kp EP]. pose proof (K_ne _ _ _ EP) as NE.
  apply K_out_close with (io := true) in EP.
  destruct (out_ok fs ft post kp t_out FT NF EP NE) as (tf & EF & PF).
  apply K_out with (io := false) in EF.
  destruct (decls_ok ds t DT _ _ EF) as (td & ED & PD).
  destruct (K_lex _ _ _ (S (length (t ++ t_out ++ ft ++ 125 :: post))) (1, 1) (Nat.lt_succ_diag_r _) ED) as (toks & E & EK).
  exists toks. split; [exact E|].
  destruct (PD [] [] [] [] (S (length toks))) as (f' & al' & L & PL).
  { intros kw h pre x s rest _ _ _ _ _. cbn. lia. } { assumption. } { intros d _ []. }
  { rewrite <- EK, map_length. lia. }
  exists kp. unfold parse, parse_kinds. rewrite EK.
  destruct (td ++ (OUT_OPEN, t_out) :: tf ++ (OUT_CLOSE, [125]) :: kp) as [|k0 ks0] eqn:Ek; [destruct td; discriminate|].
  cbn [app] in PL. etransitivity; [exact PL|]. destruct f' as [|f']; [lia|]. apply loop_out, PF.
  cbn [length] in L. rewrite app_length in L. cbn [length] in L. lia.
Qed.
End Doc.
