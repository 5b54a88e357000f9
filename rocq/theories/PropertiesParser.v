(** C56-C58: the LNDL parser. *)
From Coq Require Import String.
From Coq Require Import List Bool Arith Lia ZArith.
From Verif Require Import PyBase ModelLexer SpecLexer ProofsLexer ModelParser SpecParser ProofsParser ProofsDoc.
Import ListNotations.
Local Open Scope string_scope.
Local Open Scope nat_scope.
Local Open Scope list_scope.

Lemma digits_some udec s z : Forall (fun c => dec udec c <> None) s -> exists n, digits udec s z = Some n.
Proof.
  intros F. revert z. induction F as [|c s H F IH]; intros z; cbn [digits]; [eauto|].
  destruct (dec udec c); [apply IH|contradiction].
Qed.
Lemma numeral_number udec s : numeral udec s -> exists v, number udec s = Ret v.
Proof.
  intros (neg & a & b & -> & HN & HB & (x & Hx & Nx) & F).
  assert (forall c, dec udec c <> None -> c <> 46 /\ c <> 45) as DC.
  { intros c H. split; intros ->; apply H; reflexivity. }
  assert (forall l, Forall (fun c => dec udec c <> None) l -> existsb (Nat.eqb dot) l = false) as ND.
  { intros l G. induction G as [|c l H G IH]; [reflexivity|]. cbn [existsb]. rewrite IH, orb_false_r.
    apply Nat.eqb_neq. intros E. apply DC in H as [H _]. apply H. rewrite <- E. reflexivity. }
  unfold number. rewrite !existsb_app. replace (existsb (Nat.eqb dot) neg) with false by (destruct HN as [->| ->]; reflexivity).
  destruct HB as [->|[b' ->]].
  - cbn [tl] in F. rewrite ?app_nil_r in *. rewrite ND by assumption. cbn [existsb orb].
    destruct (digits_some udec a 0%Z F) as [n En].
    destruct a as [|c a]; [destruct Hx|]. assert ((c =? minus) = false) as CM.
    { apply Nat.eqb_neq. inversion F; subst. apply DC in H1 as [_ H1]. exact H1. }
    destruct HN as [->| ->].
    + cbn [app to_int]. rewrite CM, En. eauto.
    + change (codes "-" ++ c :: a) with (minus :: c :: a). cbn [to_int]. rewrite Nat.eqb_refl, En. cbn. eauto.
  - change (codes "." ++ b') with (46 :: b') in *. cbn [tl] in F. apply Forall_app in F as [FA FB].
    change (existsb (Nat.eqb dot) (46 :: b')) with true. rewrite !orb_true_r.
    assert (forall l, Forall (fun c => dec udec c <> None) l -> filter (fun c => negb (c =? dot)) l = l) as FI.
    { intros l G. induction G as [|c l H G IH]; [reflexivity|]. cbn [filter].
      destruct (Nat.eqb_spec c dot) as [->|_]; [exfalso; apply H; reflexivity|]. cbn. rewrite IH. reflexivity. }
    assert (forall l, Forall (fun c => dec udec c <> None) l -> forallb (fun c => match dec udec c with Some _ => true | None => false end) l = true) as FD.
    { intros l G. induction G as [|c l H G IH]; [reflexivity|]. cbn. rewrite IH. destruct (dec udec c); [reflexivity|contradiction]. }
    assert (float_ok udec (neg ++ a ++ 46 :: b') = true) as ->; [|eauto].
    unfold float_ok.
    replace (match neg ++ a ++ 46 :: b' with c :: r => if c =? minus then r else neg ++ a ++ 46 :: b' | [] => [] end) with (a ++ 46 :: b').
    + rewrite filter_app. cbn [filter]. change (46 =? dot) with true. cbn [negb]. rewrite !FI by assumption.
      rewrite !app_length. cbn [length]. rewrite <- Nat.add_succ_r, Nat.eqb_refl. cbn [andb].
      rewrite FD by (apply Forall_app; auto). rewrite andb_true_r. apply negb_true_iff, Nat.eqb_neq.
      destruct a as [|? a], b' as [|? b']; cbn; try lia. cbn in Hx. destruct Hx as [Hx|[]]. congruence.
    + destruct HN as [->| ->]; [|reflexivity]. cbn [app]. destruct a as [|c a]; [reflexivity|]. cbn [app].
      inversion FA; subst. apply DC in H1 as [_ H1]. apply Nat.eqb_neq in H1. unfold minus. rewrite H1. reflexivity.
Qed.

Section Parser.
Variables (ualpha unum udigit uspace : nat -> bool) (udec : nat -> option nat).
Notation tokenize := (tokenize ualpha unum udigit).
Notation parse := (parse uspace udec).
Notation sp := (isspace uspace).

Lemma parse_ok toks src :
  (exists l t, toks = l ++ [t] /\ ty t = EOF) ->
  match parse toks (Some src) with
  | Done p _ => pinv uspace src (map kind toks) (lvars p) (lacts p)
  | Err e => okerr udec (map kind toks) e
  | Loop => False
  end.
Proof.
  intros (l & t & -> & T).
  pose proof (wp_loop uspace udec src (map kind (l ++ [t])) (S (length (l ++ [t]))) [] [] [] (map kind (l ++ [t]))) as W.
  unfold wp in W. unfold ModelParser.parse, parse_kinds. destruct (map kind (l ++ [t])) as [|k ks] eqn:E.
  { rewrite map_app in E. destruct (map kind l); discriminate. }
  apply W.
  - rewrite <- E, map_length. lia.
  - split; [|intros x; auto]. exists (map kind l), (value t). rewrite <- E, map_app. cbn. unfold kind at 2. rewrite T. reflexivity.
  - repeat split; constructor.
  - intros a [].
Qed.

(** On every list of tokens that ends in EOF the parser stops; aliases of what it returns are
    distinct; it raises ParseError, or ValueError for a number token that is not a numeral. *)
Theorem C56_parse toks src :
  (exists l t, toks = l ++ [t] /\ ty t = EOF) ->
  match parse toks src with
  | Done p _ => NoDup (map lvar_alias (lvars p) ++ map ac_alias (lacts p))
  | Err e => e = ParseErr \/ (e = ValueError /\ exists t, In t toks /\ ty t = NUM /\ ~ numeral udec (value t))
  | Loop => False
  end.
Proof.
  intros H. destruct src as [src|].
  - pose proof (parse_ok toks src H) as Q. destruct (parse toks (Some src)) as [p ts|e|].
    + apply Q.
    + destruct Q as [->|(-> & v & I & E)]; [auto|]. right. split; [reflexivity|]. apply in_map_iff in I as (t & K & I).
      exists t. split; [assumption|]. unfold kind in K. injection K as K1 K2. split; [assumption|]. intros N.
      apply numeral_number in N as [x N]. congruence.
    + contradiction.
  - destruct H as (l & t & -> & _). unfold ModelParser.parse, parse_kinds. destruct (map kind (l ++ [t])) eqn:E; [|left; reflexivity].
    rewrite map_app in E. destruct (map kind l); discriminate.
Qed.
(** In particular on every source text. *)
Theorem C56_source s :
  exists toks, tokenize s = Some toks /\
  match parse toks (Some s) with
  | Done p _ => NoDup (map lvar_alias (lvars p) ++ map ac_alias (lacts p))
  | Err e => e = ParseErr \/ (e = ValueError /\ exists t, In t toks /\ ty t = NUM /\ ~ numeral udec (value t))
  | Loop => False
  end.
Proof.
  destruct (lex_ok ualpha unum udigit (S (length s)) false [] s) as (toks & sps & E & X); [lia|].
  exists toks. split; [exact E|]. apply C56_parse. destruct (lx_eof _ _ _ _ _ _ _ _ X) as (l & t & -> & T & _). eauto.
Qed.

(** The content of every variable and action is the trimmed text after the first closed tag in
    the source that declares the same thing. *)
Theorem C57_content s toks p ts :
  tokenize s = Some toks -> parse toks (Some s) = Done p ts ->
  Forall (fun v => exists h c, v = lvar_of h c /\ first_content sp t_lvar_open t_lvar_close h s c) (lvars p) /\
  Forall (fun v => exists h c, v = lact_of h c /\ first_content sp t_lact_open t_lact_close h s c) (lacts p).
Proof.
  intros H E. destruct (lex_ok ualpha unum udigit (S (length s)) false [] s) as (toks' & sps & E' & X); [lia|].
  unfold ModelLexer.tokenize in H. change (pos []) with (1, 1) in E'. rewrite H in E'. injection E' as <-.
  pose proof (parse_ok toks s) as Q. rewrite E in Q. destruct Q as (_ & FV & FA).
  { destruct (lx_eof _ _ _ _ _ _ _ _ X) as (l & t & -> & T & _). eauto. }
  split.
  - eapply Forall_impl; [|exact FV]. intros v (h & c & -> & S & _). exists h, (strip uspace c). split; [reflexivity|].
    eapply search_content; [|exact S]. intros. apply matches_lvar.
  - eapply Forall_impl; [|exact FA]. intros v (h & c & -> & S & K). exists h, (strip uspace c). split; [reflexivity|].
    eapply search_content; [|exact S]. intros. apply matches_lact. destruct h as [|m f a]; [exact I|]. cbn in K.
    apply in_map_iff in K as (t0 & K & I). unfold kind in K. injection K as K1 K2. intros ->.
    pose proof (lx_wf _ _ _ _ _ _ _ _ X) as W. rewrite Forall_forall in W. specialize (W _ I). unfold well_formed in W.
    rewrite K1, K2 in W. destruct W as (y & z & W & _). discriminate.
Qed.

(** Reading a document gives back exactly the program it was written for. *)
Theorem C58_document prog s :
  (forall c, uspace c = true -> ualpha c = false /\ udigit c = false /\ unum c = false) ->
  document ualpha unum udigit uspace prog s ->
  exists toks ts, tokenize s = Some toks /\ parse toks (Some s) = Done prog ts.
Proof.
  intros D H. destruct (document_ok ualpha unum udigit uspace udec D prog s H) as (toks & E & ts & P). eauto.
Qed.
End Parser.

Definition no : nat -> bool := fun _ => false.
Definition noz : nat -> option nat := fun _ => None.
Definition read (s : text) : option (pres program) :=
  option_map (fun toks => parse no noz toks (Some s)) (tokenize no no no s).

(** A source text can make the parser raise ValueError. *)
Theorem C56_value_error_refuted : read (codes "OUT{a: 1.2.3}") = Some (Err ValueError).
Proof. reflexivity. Qed.
(** Tokens without a final EOF: it never stops. *)
Theorem C56_no_eof_refuted fuel : parse_kinds no noz fuel (Some (codes "a")) [(ID, codes "a")] = Loop.
Proof.
  unfold parse_kinds. induction fuel as [|fuel IH]; [reflexivity|].
  cbn [parse_loop]. etransitivity; [|exact IH]. reflexivity.
Qed.

(** The content is not always that between the declaration's own tags. *)
Theorem C57_own_refuted :
  read (codes "<lvar a>x <lvar b>wrong</lvar> <lvar b>right</lvar> OUT{f: [b]}") =
  Some (Done (Prog [RLvar (codes "a") (codes "x <lvar b>wrong"); RLvar (codes "b") (codes "wrong")] []
                   (Some [(codes "f", ORefs [codes "b"])])) [(EOF, [])]).
Proof. reflexivity. Qed.
(** Contents with OUT{ are not read as contents. *)
Theorem C58_content_refuted :
  read (codes "<lvar a>write OUT{ when it's done</lvar> OUT{f: [a]}") = Some (Err ParseErr) /\
  read (codes "<lvar a>write OUT{ when it is done</lvar> OUT{f: [a]}") =
    Some (Done (Prog [RLvar (codes "a") (codes "write OUT{ when it is done")] [] (Some [(codes "f", ORefs [codes "a"])])) [(EOF, [])]).
Proof. split; reflexivity. Qed.
(** Glued to a name OUT{ is not recognised, and a field given twice counts once. *)
Theorem C58_out_refuted :
  read (codes "answer:xOUT{f: [a]}") = Some (Done (Prog [] [] None) [(EOF, [])]) /\
  read (codes "OUT{f: 1, f: 2}") = Some (Done (Prog [] [] (Some [(codes "f", OInt 2)])) [(EOF, [])]).
Proof. split; reflexivity. Qed.

Example C58_example :
  read (codes "Plan: <lvar Report.title t> On 'time' </lvar>, <lact Report.body b>f(x < 1)</lact>
<lvar n>7</lvar>
OUT{ report: [t, b], n: [n], ok: True, score: -4.25, note: ""it's"" } done") =
  Some (Done (Prog [Lvar (codes "Report") (codes "title") (codes "t") (codes "On 'time'"); RLvar (codes "n") (codes "7")]
                   [Lact (Some (codes "Report", codes "body")) (codes "b") (codes "f(x < 1)")]
                   (Some [(codes "report", ORefs [codes "t"; codes "b"]); (codes "n", ORefs [codes "n"]); (codes "ok", OBool true);
                          (codes "score", OFloat (codes "-4.25")); (codes "note", OStr (codes "it's"))]))
             [(ID, codes "done"); (EOF, [])]).
Proof. reflexivity. Qed.
Example C58_document_example :
  document no no no no (Prog [RLvar (codes "a") (codes "hi")] [] (Some [(codes "f", ORefs [codes "a"])]))
    (codes "so <lvar a> hi</lvar> OUT{f:[a]}.").
Proof.
  assert (forall s, existsb (Nat.eqb 60) s = false -> existsb (Nat.eqb 79) s = false -> plain s) as PL.
  { intros s A B. split.
    - intros I. assert (existsb (Nat.eqb 60) s = true) by (apply existsb_exists; exists 60; auto). congruence.
    - intros p q ->. rewrite !existsb_app in B. cbn in B. rewrite orb_true_r in B. discriminate. }
  apply (doc no no no no [DVar (HRaw (codes "a")) (codes "hi")] (codes "so " ++ (codes "<lvar a>" ++ codes " hi" ++ codes "</lvar>") ++ codes " ")
             [(codes "f", ORefs [codes "a"])] (codes "f:[a]") (codes ".")).
  - apply ds_cons; [apply PL; reflexivity| |constructor; [apply PL; reflexivity|reflexivity]].
    apply dt_var.
    + exists 97, []. repeat constructor.
    + apply (tag_raw white blank t_lvar_open (codes "a") [32] []); [discriminate|repeat constructor|constructor].
    + apply PL; reflexivity.
    + exists [32], []. repeat split; repeat constructor.
  - repeat constructor. intros [].
  - apply ft_last. exists [], [], [], [], (codes "[a]"). split; [reflexivity|].
    split; [exists 102, []; repeat constructor|]. do 4 (split; [constructor|]).
    apply (vt_refs no no no [codes "a"] (codes "a")). apply (rt_last no no no [] (codes "a") []); try constructor.
    exists 97, []. repeat constructor.
  - repeat constructor. intros [].
Qed.

Print Assumptions C56_parse.
Print Assumptions C56_source.
Print Assumptions C56_value_error_refuted.
Print Assumptions C56_no_eof_refuted.
Print Assumptions C57_content.
Print Assumptions C57_own_refuted.
Print Assumptions C58_document.
Print Assumptions C58_content_refuted.
Print Assumptions C58_out_refuted.
