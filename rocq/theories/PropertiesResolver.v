(** C59: reference resolution. *)
From Coq Require Import String.
From Coq Require Import List Bool Arith Lia ZArith.
From Verif Require Import PyBase PyFacts ModelLexer ModelParser SpecParser ProofsParser ProofsDoc ModelResolver SpecResolver ProofsResolver.
Import ListNotations.
Local Open Scope string_scope.
Local Open Scope nat_scope.
Local Open Scope list_scope.
#[local] Arguments eqb : simpl never.

Section Resolver.
Variables (V W : Type) (vbool : bool -> V) (vnone : V) (vstr vfloat : text -> V) (vint : Z -> V).
Variables (literal : text -> outcome V) (conv : scalar -> V -> outcome V) (call : text -> outcome (text * V)) (uspace : nat -> bool).
Variables (validate : text -> dict text V -> outcome W) (construct : text -> dict text (arg V) -> W).
Notation resolve := (resolve V W vbool vnone vstr vfloat vint literal conv call uspace validate construct).
Notation resolves := (resolves V W vbool vnone vstr vfloat vint literal conv call uspace validate construct).
Notation action_of := (action_of V call).
Notation parse_lndl := (parse_lndl V W vbool vnone vstr vfloat vint literal conv call uspace validate construct).
Notation resolve_program := (resolve_program V W vbool vnone vstr vfloat vint literal conv call uspace validate construct).

Section Given.
Variables (out : dict text oval) (lv : dict text lmeta) (la : dict text ameta) (specs : list (spec W)).
(** Operables have distinct names, dicts distinct keys. *)
Hypotheses (names : NoDup (map sp_name specs)) (keys : NoDup (dkeys out)).
(** One field: the spec of that name, and what the value resolves to. *)
Definition right (e : text * oval) (f : text * fval V W) : Prop :=
  fst e = fst f /\ exists sp, In sp specs /\ sp_name sp = Some (fst e) /\ resolves lv la sp (snd e) (snd f).
Definition complete : Prop :=
  (forall a, In a (dkeys lv) -> ~ In a (dkeys la)) /\
  (forall sp, In sp specs -> sp_required sp = true -> exists n, sp_name sp = Some n /\ In n (dkeys out)).

(** What is returned: every field as its spec requires, all required fields, and exactly the
    actions that OUT refers to. *)
Theorem C59_sound o :
  resolve out lv la specs = Resolved o ->
  complete /\ Forall2 right out (o_fields o) /\ NoDup (dkeys (o_actions o)) /\
  forall a c, dget a (o_actions o) = Some c <-> referenced out a /\ action_of la a c.
Proof.
  intros H. destruct (checks V W vbool vnone vstr vfloat vint literal conv call uspace validate construct out lv la specs)
    as [((C1 & C2 & C3) & E)|[(a & _ & _ & E)|[(n & _ & _ & E)|(sp & _ & _ & _ & E)]]]; rewrite H in E; try discriminate.
  destruct (ModelResolver.fields _ _ _ _ _ _ _ _ _ _ _ _ _ lv la specs out [] [] []) as [[fs acts] errs] eqn:F.
  destruct errs; [|discriminate]. injection E as ->. cbn [o_fields o_actions].
  apply fields_ok in F as (rs & A & EE & -> & T). symmetry in EE. cbn [app] in EE.
  destruct (good_ok _ _ _ _ _ _ _ _ _ _ _ _ _ lv la specs out rs names A EE) as [G1 G2].
  split; [split; assumption|]. split.
  - rewrite sets_fresh; [exact G1|]. cbn [dkeys map app]. rewrite G2. exact keys.
  - rewrite (T EE). split; [apply table_NoDup; constructor|]. intros a c. rewrite (table_get V W vstr vfloat literal call validate construct) by (intros ? ? X; discriminate X). cbn [dget].
    assert (In a (flat_map (fun e => refs_of (snd e)) out) <-> referenced out a) as ->.
    { unfold referenced. rewrite in_flat_map. split.
      - intros ([n v] & I & I'). destruct v; try contradiction. cbn in I'. eauto.
      - intros (n & l & I & I'). exists (n, ORefs l). auto. }
    split; [intros [X|X]; [discriminate|assumption]|auto].
Qed.
(** And nothing else is needed. *)
Theorem C59_complete fs :
  complete -> Forall2 right out fs -> exists acts, resolve out lv la specs = Resolved (Output fs acts).
Proof.
  intros [C1 C3] R. destruct (checks V W vbool vnone vstr vfloat vint literal conv call uspace validate construct out lv la specs)
    as [(_ & E)|[(a & I1 & I2 & E)|[(n & I & N & E)|(sp & I & Q & N & E)]]].
  - destruct (ModelResolver.fields _ _ _ _ _ _ _ _ _ _ _ _ _ lv la specs out [] [] []) as [[fs' acts] errs] eqn:F.
    apply fields_ok in F as (rs & A & -> & -> & T). cbn [app] in E.
    assert (flat_map (failed V W) rs = [] /\ good V W (combine (map fst out) rs) = fs) as [E1 E2].
    { clear E T keys C3. revert fs R. induction A as [|e r l rs A1 A IH]; intros fs R; inversion R as [|? f ? fs' R1 R2]; subst; [auto|].
      destruct R1 as (E1 & sp & I & N & RS). assert (r = Ret (snd f)) as ->.
      { apply A1. exists sp. split; [|assumption]. apply (get_spec_iff V W vstr vfloat literal call validate construct); auto. }
      destruct (IH _ R2) as [IH1 IH2]. split; [exact IH1|]. cbn. fold (good V W (combine (map fst l) rs)). rewrite IH2, E1. destruct f. reflexivity. }
    rewrite E1, E2 in E. rewrite sets_fresh in E.
    + exists acts. exact E.
    + cbn [dkeys map app]. replace (map fst fs) with (map fst out); [exact keys|].
      clear - R. induction R as [|e f l fs [H _] R IH]; cbn; [reflexivity|]. f_equal; assumption.
  - exfalso. exact (C1 _ I1 I2).
  - exfalso. unfold dkeys in I. apply in_map_iff in I as (e & <- & I). clear - R I N.
    induction R as [|e' f l fs (_ & sp & I1 & I2 & _) R IH]; [contradiction|]. destruct I as [->|I]; [|auto]. exact (N _ I1 I2).
  - exfalso. destruct (C3 _ I Q) as (n & E1 & E2). exact (N _ E1 E2).
Qed.
(** Otherwise ValueError for a name that is both variable and action or a field without spec,
    MissingFieldError, or a group with one error for each field that does not resolve. *)
Theorem C59_errors :
  (forall e, resolve out lv la specs = Refused e ->
     (e = ValueError /\ ((exists a, In a (dkeys lv) /\ In a (dkeys la)) \/
                         exists n, In n (dkeys out) /\ forall sp, In sp specs -> sp_name sp <> Some n)) \/
     (e = LNDLMissingField /\ exists sp, In sp specs /\ sp_required sp = true /\ forall n, sp_name sp = Some n -> ~ In n (dkeys out))) /\
  (forall l, resolve out lv la specs = Group l -> complete /\ l <> [] /\
     exists rs, l = flat_map (fun r => match r with Raise e => [e] | Ret _ => [] end) rs /\
       Forall2 (fun e r => forall x, r = Ret x <-> right e (fst e, x)) out rs).
Proof.
  destruct (checks V W vbool vnone vstr vfloat vint literal conv call uspace validate construct out lv la specs)
    as [((C1 & C2 & C3) & E)|[(a & I1 & I2 & E)|[(n & I & N & E)|(sp & I & Q & N & E)]]]; rewrite E.
  2,3,4: split; [intros e H; injection H as <-|discriminate]; eauto 10.
  destruct (ModelResolver.fields _ _ _ _ _ _ _ _ _ _ _ _ _ lv la specs out [] [] []) as [[fs' acts] errs] eqn:F.
  apply fields_ok in F as (rs & A & -> & -> & T). cbn [app] in *. split.
  - intros e. destruct (flat_map (failed V W) rs); discriminate.
  - destruct (flat_map (failed V W) rs) as [|e0 l0] eqn:EE; [discriminate|]. intros l H. injection H as <-.
    split; [split; assumption|]. split; [discriminate|]. exists rs. split; [rewrite <- EE; reflexivity|].
    clear - A names. induction A as [|e r l' rs' H A IH]; constructor; [|exact IH]. intros x. rewrite (H x). unfold right. cbn [fst snd]. split.
    + intros (sp & G & R). apply (get_spec_iff V W vstr vfloat literal call validate construct) in G as [G1 G2]; [|assumption]. split; [reflexivity|]. eauto.
    + intros (_ & sp & G1 & G2 & R). exists sp. split; [apply (get_spec_iff V W vstr vfloat literal call validate construct); auto|assumption].
Qed.
(** Whose fault it is: errors that are certain, by field. *)
Inductive blame (sp : spec W) : oval -> exn -> Prop :=
| b_count s l : sp_type sp = TScalar s -> length l <> 1 -> blame sp (ORefs l) ValueError
| b_scalar s a : sp_type sp = TScalar s -> ~ In a (dkeys lv) -> ~ In a (dkeys la) -> blame sp (ORefs [a]) ValueError
| b_number s n x e : sp_type sp = TScalar s -> conv s (vint n) = Raise x ->
    e = match x with TypeError => ValueError | _ => x end -> blame sp (OInt n) e
| b_literal v : (forall s, sp_type sp <> TScalar s) -> (forall l, v <> ORefs l) -> blame sp v ValueError
| b_type l : sp_type sp = TOther -> blame sp (ORefs l) TypeError
| b_undeclared m a l : sp_type sp = TModel m -> ~ In a (dkeys lv) -> ~ In a (dkeys la) -> blame sp (ORefs (a :: l)) ValueError
| b_raw m a x l : sp_type sp = TModel m -> dget a lv = Some (RMeta x) -> ~ In a (dkeys la) -> blame sp (ORefs (a :: l)) ValueError
| b_other m a m' f x l : sp_type sp = TModel m -> dget a lv = Some (LMeta m' f x) -> m' <> m -> ~ In a (dkeys la) ->
    blame sp (ORefs (a :: l)) LNDLTypeMismatch
| b_action m a m' f t l : sp_type sp = TModel m -> dget a la = Some (AMeta (Some (m', f)) t) -> m' <> m ->
    blame sp (ORefs (a :: l)) LNDLTypeMismatch
| b_mixed m a t b l : sp_type sp = TModel m -> dget a la = Some (AMeta None t) -> blame sp (ORefs (a :: b :: l)) ValueError
| b_call s a t e : sp_type sp = TScalar s -> dget a la = Some t -> call (am_call t) = Raise e -> blame sp (ORefs [a]) e.
Theorem C59_causes l :
  resolve out lv la specs = Group l ->
  forall n v sp e, In (n, v) out -> In sp specs -> sp_name sp = Some n -> blame sp v e -> In e l.
Proof.
  intros H n v sp e I1 I2 N B.
  assert (G : get_spec W specs n = Some sp) by (apply (get_spec_iff V W vstr vfloat literal call validate construct); auto).
  assert (forall acts, fst (field V W vbool vnone vstr vfloat vint literal conv call uspace validate construct lv la sp v acts) = Raise e) as F.
  { assert (NG : forall B (d : dict text B) a, ~ In a (dkeys d) -> dget a d = None).
    { intros C d a X. apply dget_None. exact X. }
    intros acts. unfold field. destruct B as [s l0 T L|s a T L1 L2|s k x e T C ->|v T L|l0 T|m a l0 T L1 L2|m a x l0 T D L|m a m' f x l0 T D NE L|m a m' f t l0 T D NE|m a t b l0 T D|s a t e T D C].
    - rewrite T. destruct l0 as [|? [|? ?]]; [reflexivity| |reflexivity]. elim L. reflexivity.
    - rewrite T, (NG _ _ _ L2), (NG _ _ _ L1). reflexivity.
    - rewrite T. cbn. rewrite C. destruct x; reflexivity.
    - destruct (sp_type sp) as [s| |] eqn:T'; [elim (T s); reflexivity| |]; (destruct v; [elim (L l0); reflexivity| | | |]); reflexivity.
    - rewrite T. reflexivity.
    - rewrite T. cbn [collect]. rewrite (NG _ _ _ L2), (NG _ _ _ L1). destruct l0; reflexivity.
    - rewrite T. cbn [collect]. rewrite (NG _ _ _ L), D. destruct l0; reflexivity.
    - rewrite T. cbn [collect]. rewrite (NG _ _ _ L), D. destruct (eqb_spec m' m) as [->|_]; [elim NE; reflexivity|]. destruct l0; reflexivity.
    - rewrite T. cbn [collect]. rewrite D. cbn [am_target]. destruct (eqb_spec m' m) as [->|_]; [elim NE; reflexivity|]. destruct l0; reflexivity.
    - rewrite T. cbn [collect]. rewrite D. reflexivity.
    - rewrite T, D. unfold make. rewrite C. reflexivity. }
  destruct (checks V W vbool vnone vstr vfloat vint literal conv call uspace validate construct out lv la specs)
    as [(_ & E)|[(a & _ & _ & E)|[(m & _ & _ & E)|(s & _ & _ & _ & E)]]]; rewrite H in E; try discriminate.
  assert (K : forall o fs acts errs, (In (n, v) o \/ In e errs) ->
    In e (snd (ModelResolver.fields V W vbool vnone vstr vfloat vint literal conv call uspace validate construct lv la specs o fs acts errs))).
  { intros o. induction o as [|[n' v'] o IH]; intros fs acts errs [J|J]; cbn [ModelResolver.fields].
    - elim J.
    - exact J.
    - destruct J as [J|J].
      + injection J as -> ->. rewrite G. specialize (F acts).
        destruct (field V W vbool vnone vstr vfloat vint literal conv call uspace validate construct lv la sp v acts) as [r acts']. cbn [fst] in F. subst r.
        apply IH. right. apply in_or_app. right. left. reflexivity.
      + destruct (get_spec W specs n') as [sp'|]; [|apply IH; auto].
        destruct (field V W vbool vnone vstr vfloat vint literal conv call uspace validate construct lv la sp' v' acts) as [[?|?] ?]; apply IH; auto.
    - destruct (get_spec W specs n') as [sp'|]; [|apply IH; right; apply in_or_app; auto].
      destruct (field V W vbool vnone vstr vfloat vint literal conv call uspace validate construct lv la sp' v' acts) as [[?|?] ?]; apply IH; right; [exact J|apply in_or_app; auto]. }
  specialize (K out [] [] [] (or_introl I1)).
  destruct (ModelResolver.fields V W vbool vnone vstr vfloat vint literal conv call uspace validate construct lv la specs out [] [] []) as [[fs acts] errs].
  cbn [snd] in K. destruct errs; [discriminate|]. injection E as ->. exact K.
Qed.
(** Every name in a resolved reference list is declared. *)
Theorem C59_declared n l x : right (n, ORefs l) (n, x) -> forall a, In a l -> In a (dkeys lv) \/ In a (dkeys la).
Proof.
  assert (forall a m, dget a la = Some m -> In a (dkeys la)) as LA by (intros a m D; apply dget_In in D; apply (in_map fst) in D; exact D).
  assert (forall a m, dget a lv = Some m -> In a (dkeys lv)) as LV by (intros a m D; apply dget_In in D; apply (in_map fst) in D; exact D).
  assert (forall a c, action_of la a c -> In a (dkeys la)) as AO by (intros a c (m & _ & _ & D & _); eauto).
  intros (_ & sp & _ & _ & R) a I. cbn [snd] in R. inversion R as [s1 a1 c1 T1 A1|s1 a1 m1 x1 y1 T1 D1 L1 M1 C1|s1 v1 x1 y1 T1 DN1 C1|n1 a1 c1 T1 D1 A1|n1 r1 l1 w1 w2 T1 D1 F1 B1 C1]; subst.
  - destruct I as [<-|[]]. eauto.
  - destruct I as [<-|[]]. eauto.
  - inversion DN1.
  - destruct I as [<-|[]]. eauto.
  - clear - F1 I LA LV. induction F1 as [|b e r1 l1 A F IH]; [contradiction|]. destruct I as [<-|I]; [|auto]. inversion A; subst; eauto.
Qed.
End Given.

(** A whole response. *)
Theorem C59_document ualpha unum udigit udec prog s specs :
  (forall c, uspace c = true -> ualpha c = false /\ udigit c = false /\ unum c = false) ->
  document ualpha unum udigit uspace prog s ->
  parse_lndl ualpha unum udigit udec s specs = Some (resolve_program prog specs).
Proof.
  intros D H. destruct (document_ok ualpha unum udigit uspace udec D prog s H) as (toks & E & ts & P).
  unfold ModelResolver.parse_lndl. rewrite E, P. reflexivity.
Qed.
End Resolver.

(** * Concrete values *)
Inductive pv := PBool (b : bool) | PNone | PStr (s : text) | PFloat (s : text) | PInt (n : Z).
Inductive pm := Full (n : text) (d : dict text pv) | Part (n : text) (d : dict text (arg pv)) | Checked (m : pm).
Definition lit (s : text) : outcome pv :=
  match to_int (fun _ => None) s with Some n => Ret (PInt n) | None => Raise ValueError end.
Definition cv (s : scalar) (v : pv) : outcome pv :=
  match s, v with
  | SStr, PStr t => Ret (PStr t)
  | SStr, PNone => Ret (PStr (codes "None"))
  | SStr, PBool true => Ret (PStr (codes "True"))
  | SInt, PInt n => Ret (PInt n)
  | SInt, PNone => Raise TypeError
  | SBool, PBool b => Ret (PBool b)
  | _, _ => Raise ValueError
  end.
Definition cl (s : text) : outcome (text * pv) :=
  match s with 102 :: r => Ret ([102], PStr r) | _ => Raise ValueError end.
Definition va (n : text) (d : dict text pv) : outcome pm := match d with [] => Raise ValueError | _ => Ret (Full n d) end.
Definition run (s : string) (specs : list (spec pm)) : option (result pv pm) :=
  parse_lndl pv pm PBool PNone PStr PFloat PInt lit cv cl (fun _ => false) va Part
    (fun _ => false) (fun _ => false) (fun _ => false) (fun _ => None) (codes s) specs.
Definition report : spec pm := Spec (Some (codes "report")) true (TModel (codes "R")) [fun m => Ret (Checked m)].
Definition answer : spec pm := Spec (Some (codes "answer")) false (TScalar SStr) [fun _ => Raise ValueError].
Definition act (a c : string) : action pv := Act (codes a) (codes "f") (PStr (codes c)) (codes (String.append "f" c)).

(** Of two variables for one model field the first is dropped. *)
Theorem C59_repeated_refuted :
  run "<lvar R.title a>one</lvar><lvar R.title b>two</lvar>OUT{report: [a, b]}" [report] =
  Some (Resolved (Output [(codes "report", FInst (Checked (Full (codes "R") [(codes "title", PStr (codes "two"))])))] [])).
Proof. reflexivity. Qed.
(** A text field does not keep its text; its validators are not run. *)
Theorem C59_text_refuted :
  run "<lvar a>null</lvar><lvar R.x r>1</lvar> OUT{report: [r], answer: [a]}" [report; answer] =
  Some (Resolved (Output [(codes "report", FInst (Checked (Full (codes "R") [(codes "x", PInt 1)])));
                          (codes "answer", FVal (PStr (codes "None")))] [])).
Proof. reflexivity. Qed.
(** An action whose field is given again by a variable is handed out although no field waits for it. *)
Theorem C59_stale_action_refuted :
  run "<lact R.title a>f(1)</lact><lvar R.title b>two</lvar>OUT{report: [a, b]}" [report] =
  Some (Resolved (Output [(codes "report", FInst (Checked (Full (codes "R") [(codes "title", PStr (codes "two"))])))]
                         [(codes "a", act "a" "(1)")])).
Proof. reflexivity. Qed.
(** Declarations after OUT do not count. *)
Theorem C59_order_refuted :
  run "OUT{report: [r]} <lvar R.x r>1</lvar>" [report] = Some (Group [ValueError]) /\
  run "<lvar R.x r>1</lvar> OUT{report: [r]}" [report] =
  Some (Resolved (Output [(codes "report", FInst (Checked (Full (codes "R") [(codes "x", PInt 1)])))] [])).
Proof. split; reflexivity. Qed.

Example C59_example :
  run "<lvar R.title t>Plan</lvar><lact R.body b>f(1)</lact><lact d>f(2)</lact><lact u>f(3)</lact> OUT{report: [t, b], answer: [d]}" [report; answer] =
  Some (Resolved (Output
    [(codes "report", FInst (Checked (Part (codes "R") [(codes "title", AVal (PStr (codes "Plan"))); (codes "body", AAct (act "b" "(1)"))])));
     (codes "answer", FAct (act "d" "(2)"))]
    [(codes "b", act "b" "(1)"); (codes "d", act "d" "(2)")])).
Proof. reflexivity. Qed.
Example C59_example_errors :
  run "<lvar S.title t>Plan</lvar><lact d>g(2)</lact> OUT{report: [t], answer: [d]}" [report; answer] = Some (Group [LNDLTypeMismatch; ValueError]) /\
  run "OUT{answer: 'x'}" [report; answer] = Some (Refused LNDLMissingField) /\
  run "OUT{report: [a], other: 'x'}" [report; answer] = Some (Refused ValueError) /\
  run "<lvar a>1</lvar>" [] = Some (Refused LNDLMissingOut).
Proof. repeat split; reflexivity. Qed.

Definition odd : spec pm := Spec (Some (codes "odd")) false TOther [].
Example C59_example_causes :
  run "<lvar a>1</lvar><lact d>f(2)</lact> OUT{odd: [a], answer: [a, a], report: [d, a]}" [report; answer; odd] =
  Some (Group [TypeError; ValueError; ValueError]) /\
  run "<lact S.x d>f(2)</lact> OUT{odd: 1, answer: [q], report: [d]}" [report; answer; odd] =
  Some (Group [ValueError; ValueError; LNDLTypeMismatch]) /\
  run "<lact d>g(2)</lact> OUT{report: [d]}" [report; answer; odd] = Some (Group [ValueError]).
Proof. repeat split; reflexivity. Qed.

Print Assumptions C59_sound.
Print Assumptions C59_complete.
Print Assumptions C59_errors.
Print Assumptions C59_causes.
Print Assumptions C59_declared.
Print Assumptions C59_document.
Print Assumptions C59_repeated_refuted.
Print Assumptions C59_text_refuted.
Print Assumptions C59_stale_action_refuted.
Print Assumptions C59_order_refuted.
