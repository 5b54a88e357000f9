(** C53-C55: the LNDL lexer. *)
From Coq Require Import String.
From Coq Require Import List Bool Arith Lia Sorting.
From Verif Require Import ModelLexer SpecLexer ProofsLexer.
Import ListNotations.
Local Open Scope string_scope.
Local Open Scope nat_scope.
Local Open Scope list_scope.

Section Lexer.
Variables (ualpha unum udigit : nat -> bool).
Notation tokenize := (tokenize ualpha unum udigit).

(** Every token stands in the text where its line and column say, tokens come in order without
    overlap, names and numbers are maximal, and all that lies between tokens is ignorable.
    The column is the offset in the line, plus one on the first line only. *)
Theorem C53_positions s :
  exists toks spans, tokenize s = Some toks /\ Forall2 (stands s) toks spans /\ StronglySorted before spans /\
    Forall2 (maximal ualpha unum udigit s) toks spans /\ Forall (well_formed ualpha unum udigit) toks /\
    forall j c, nth_error s j = Some c -> ~ covered j spans -> ignorable ualpha udigit s j c.
Proof.
  destruct (lex_ok ualpha unum udigit (S (length s)) false [] s) as (toks & sp & E & X); [lia|].
  exists toks, sp. destruct X. cbn [app length] in *. do 5 (split; [assumption|]). auto with arith.
Qed.

(** tokenize terminates; the only EOF is the last token. *)
Theorem C54_total s :
  exists toks t, tokenize s = Some (toks ++ [t]) /\ ty t = EOF /\ Forall (fun t => ty t <> EOF) toks.
Proof.
  destruct (lex_ok ualpha unum udigit (S (length s)) false [] s) as (toks & sp & E & X); [lia|].
  destruct (lx_eof _ _ _ _ _ _ _ _ X) as (l & t & -> & H). exists l, t. split; assumption.
Qed.
(** A text of ASCII letters, digits and underscores that does not begin with a digit is one name. *)
Definition ascii_letter c := 65 <= c <= 90 \/ 97 <= c <= 122.
Definition ascii_digit c := 48 <= c <= 57.
Theorem C54_names c s :
  ascii_letter c \/ c = 95 -> Forall (fun d => ascii_letter d \/ ascii_digit d \/ d = 95) s ->
  tokenize (c :: s) = Some [Tok ID (c :: s) 1 1; Tok EOF [] 1 (2 + length s)].
Proof.
  intros C S.
  assert (CH : forall d, ascii_letter d \/ ascii_digit d \/ d = 95 -> id_char ualpha unum udigit d = true).
  { unfold ascii_letter, ascii_digit, id_char, isalnum, isalpha, isdigit. intros d D.
    destruct (Nat.ltb_spec d 128); [|lia]. change underscore with 95.
    destruct D as [[D|D]|[D| ->]]; [| | |reflexivity];
    destruct (Nat.leb_spec 65 d), (Nat.leb_spec d 90), (Nat.leb_spec 97 d), (Nat.leb_spec d 122), (Nat.leb_spec 48 d), (Nat.leb_spec d 57); try lia; reflexivity. }
  assert (SP : forall l, Forall (fun d => ascii_letter d \/ ascii_digit d \/ d = 95) l -> span (id_char ualpha unum udigit) l = (l, [])).
  { intros l F. induction F as [|d l D F IH]; [reflexivity|]. cbn [span]. rewrite (CH d D), IH. reflexivity. }
  assert (ST : starts t_out (c :: s) = false).
  { destruct s as [|d1 [|d2 [|d3 s]]]; change t_out with [79; 85; 84; 123]; cbn [starts]; rewrite ?andb_false_r; try reflexivity.
    destruct (Nat.eqb_spec 123 d3) as [<-|_]; [|rewrite ?andb_false_r; reflexivity].
    inversion S as [|? ? _ S1]; subst. inversion S1 as [|? ? _ S2]; subst. inversion S2 as [|? ? S3 _]; subst.
    unfold ascii_letter, ascii_digit in S3. lia. }
  assert (B : blank c = false /\ (c =? newline) = false /\ (c =? lt_sign) = false /\ id_start ualpha c = true).
  { unfold blank, newline, lt_sign, id_start, isalpha. change underscore with 95. unfold ascii_letter in C.
    destruct (Nat.eqb_spec c 32), (Nat.eqb_spec c 9), (Nat.eqb_spec c 13), (Nat.eqb_spec c 10), (Nat.eqb_spec c 60); try lia.
    repeat split. destruct (Nat.ltb_spec c 128); [|lia]. destruct C as [[C|C]| ->]; [| |reflexivity];
    destruct (Nat.leb_spec 65 c), (Nat.leb_spec c 90), (Nat.leb_spec 97 c), (Nat.leb_spec c 122); try lia; reflexivity. }
  destruct B as (B1 & B2 & B3 & B4). unfold ModelLexer.tokenize. set (n := length (c :: s)). cbn [lex fst snd].
  rewrite B1, B2, B3, ST, B4, SP by (constructor; [tauto|exact S]). subst n. reflexivity.
Qed.
(** String and negative number tokens only occur between OUT{ and the next closing brace. *)
Theorem C54_strings s toks l t r :
  tokenize s = Some toks -> toks = l ++ t :: r ->
  ty t = STR \/ (ty t = NUM /\ exists w, value t = 45 :: w) -> opened l = true.
Proof.
  intros H E N. destruct (lex_ok ualpha unum udigit (S (length s)) false [] s) as (toks' & sp & E' & X); [lia|].
  unfold ModelLexer.tokenize in H. change (pos []) with (1, 1) in E'. rewrite H in E'. injection E' as <-.
  exact (lx_out _ _ _ _ _ _ _ _ X _ _ _ E N).
Qed.

(** Any spelling of a string inside an OUT block is read back; what follows is read
    independently of it. *)
Theorem C55_any_spelling q b v rest :
  q = 34 \/ q = 39 -> unescapes q b v ->
  exists t1 t2 toks, tokenize (t_out ++ q :: b ++ q :: rest) = Some (t1 :: t2 :: toks) /\
    kind t1 = (OUT_OPEN, t_out) /\ kind t2 = (STR, v) /\
    forall toks', tokenize (t_out ++ rest) = Some toks' -> map kind toks = tl (map kind toks').
Proof.
  intros Q U. unfold ModelLexer.tokenize. cbn [length].
  remember (length (t_out ++ q :: b ++ q :: rest)) as n eqn:N.
  assert (length rest + 3 < n) as L.
  { rewrite N. cbn. rewrite app_length. cbn [length]. lia. }
  destruct n as [|[|n]]; try lia. clear N.
  assert (lex ualpha unum udigit (S (S (S n))) false (t_out ++ q :: b ++ q :: rest) (1, 1) =
          option_map (cons (Tok OUT_OPEN t_out 1 1)) (lex ualpha unum udigit (S (S n)) true (q :: b ++ q :: rest) (1, 5))) as -> by reflexivity.
  assert (exists c, lex ualpha unum udigit (S (S n)) true (q :: b ++ q :: rest) (1, 5) =
          option_map (cons (Tok STR v 1 5)) (lex ualpha unum udigit (S n) true rest (pos (t_out ++ q :: b ++ [q]))) /\ c = 0) as (? & -> & _).
  { exists 0. split; [|reflexivity].
    pose proof (read_string_unescapes q b v rest (t_out ++ [q]) U ltac:(lia)) as R.
    rewrite pos_snoc in R. change (pos t_out) with (1, 5) in R.
    remember (S n) as n'. destruct Q as [->| ->]; cbn [lex blank Nat.eqb orb andb newline lt_sign starts t_out codes id_start underscore minus is_quote];
    change (isalpha ualpha 34) with false; change (isalpha ualpha 39) with false;
    change (isdigit udigit 34) with false; change (isdigit udigit 39) with false; cbn [orb];
    rewrite R; cbn [fst snd]; rewrite <- app_assoc; reflexivity. }
  destruct (lex_ok ualpha unum udigit (S n) true (t_out ++ q :: b ++ [q]) rest) as (toks & sp & E & _); [lia|].
  rewrite E. cbn [option_map]. do 3 eexists. split; [reflexivity|]. split; [reflexivity|]. split; [reflexivity|].
  intros toks'.
  assert (lex ualpha unum udigit (S (length (t_out ++ rest))) false (t_out ++ rest) (1, 1) =
          option_map (cons (Tok OUT_OPEN t_out 1 1)) (lex ualpha unum udigit (length (t_out ++ rest)) true rest (1, 5))) as -> by reflexivity.
  destruct (lex ualpha unum udigit (length (t_out ++ rest)) true rest (1, 5)) as [l|] eqn:E2; [|discriminate].
  intros H. injection H as <-. cbn [map tl]. eapply lex_kinds; eauto.
Qed.
(** In particular with backslashes and quotes escaped. *)
Theorem C55_round_trip q s rest :
  q = 34 \/ q = 39 ->
  exists t1 t2 toks, tokenize (t_out ++ q :: escape q s ++ q :: rest) = Some (t1 :: t2 :: toks) /\
    kind t1 = (OUT_OPEN, t_out) /\ kind t2 = (STR, s) /\
    forall toks', tokenize (t_out ++ rest) = Some toks' -> map kind toks = tl (map kind toks').
Proof. intros Q. apply C55_any_spelling; [assumption|]. apply escape_unescapes. assumption. Qed.
End Lexer.

Definition none : nat -> bool := fun _ => false.
(** A column is not always the offset in the line plus one. *)
Theorem C53_column_refuted :
  exists s l t, tokenize none none none s = Some (l ++ [t]) /\ line t = 2 /\
    column t <> S (offset_in_line s (length s)).
Proof.
  exists (codes "a" ++ [10] ++ codes "b"), [Tok ID (codes "a") 1 1; Tok NEWLINE [10] 1 2; Tok ID (codes "b") 2 0], (Tok EOF [] 2 1).
  repeat split. cbv. discriminate.
Qed.

Example C53_example :
  tokenize none none none (codes "<lvar a>x-1 'y</lvar>" ++ [10] ++ codes "OUT{f:['-2") = Some [
    Tok LVAR_OPEN (codes "<lvar") 1 1; Tok ID (codes "a") 1 7; Tok GT (codes ">") 1 8; Tok ID (codes "x") 1 9;
    Tok NUM (codes "1") 1 11; Tok ID (codes "y") 1 14; Tok LVAR_CLOSE (codes "</lvar>") 1 15; Tok NEWLINE [10] 1 22;
    Tok OUT_OPEN (codes "OUT{") 2 0; Tok ID (codes "f") 2 4; Tok COLON (codes ":") 2 5; Tok LBRACKET (codes "[") 2 6;
    Tok STR (codes "-2") 2 7; Tok EOF [] 2 10].
Proof. reflexivity. Qed.
Example C55_example :
  option_map (map kind) (tokenize none none none (codes "OUT{'it\'s\n\\'}")) =
  Some [(OUT_OPEN, codes "OUT{"); (STR, codes "it's" ++ [10; 92]); (OUT_CLOSE, codes "}"); (EOF, [])].
Proof. reflexivity. Qed.

Example C54_example_name :
  tokenize none none none (codes "zebra_Z9") = Some [Tok ID (codes "zebra_Z9") 1 1; Tok EOF [] 1 9].
Proof. reflexivity. Qed.

Print Assumptions C53_positions.
Print Assumptions C53_column_refuted.
Print Assumptions C54_total.
Print Assumptions C54_names.
Print Assumptions C54_strings.
Print Assumptions C55_any_spelling.
Print Assumptions C55_round_trip.
