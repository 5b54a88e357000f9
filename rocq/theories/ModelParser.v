(** Model of /repo/src/lionherd_core/lndl/parser.py.

    The parser reads only type and value of a token; line and column appear in error messages,
    which are not modelled, nor is the warning about reserved action names (488-494).
    Loops that make no progress at a last token other than EOF give [Loop].
    Not modelled: the limit on the number of digits of int(). *)
From Coq Require Import String.
From Coq Require Import List Bool Arith ZArith.
From Verif Require Import PyBase ModelLexer SpecLexer.
Import ListNotations.
Local Open Scope string_scope.
Local Open Scope nat_scope.
Local Open Scope list_scope.

Definition tk := (ttype * text)%type.
Definition ttype_dec (a b : ttype) : {a = b} + {a <> b}. Proof. decide equality. Defined.
Definition is (t : ttype) (k : tk) : bool := if ttype_dec (fst k) t then true else false.
Definition text_eqb (a b : text) : bool := if list_eq_dec Nat.eq_dec a b then true else false.
Lemma text_eqb_spec a b : reflect (a = b) (text_eqb a b).
Proof. unfold text_eqb. destruct (list_eq_dec Nat.eq_dec a b); constructor; assumption. Qed.
#[global] Instance EqB_text : EqB text := {| eqb := text_eqb; eqb_spec := text_eqb_spec |}.

Inductive pres (A : Type) := Done (a : A) (ts : list tk) | Err (e : exn) | Loop.
Arguments Done {A}. Arguments Err {A}. Arguments Loop {A}.
Definition P (A : Type) := list tk -> pres A.
Definition pbind {A B} (m : P A) (f : A -> P B) : P B :=
  fun ts => match m ts with Done a ts => f a ts | Err e => Err e | Loop => Loop end.
Definition pret {A} (a : A) : P A := fun ts => Done a ts.
Definition praise {A} (e : exn) : P A := fun _ => Err e.
Notation "x <-- m ;; f" := (pbind m (fun x => f)) (at level 61, m at next level, right associativity).

(** 156-164, 181-184: the rest of the tokens; the last one is never passed. *)
Definition cur (ts : list tk) : tk := hd (EOF, []) ts.
Definition at_ (l : list ttype) : P bool := fun ts => Done (existsb (fun t => is t (cur ts)) l) ts.
Definition advance : P unit :=
  fun ts => match ts with _ :: (_ :: _) as r => Done tt r | _ => Done tt ts end.
(** 186-202 *)
Definition expect (t : ttype) : P text :=
  fun ts => if is t (cur ts) then (_ <-- advance ;; pret (snd (cur ts))) ts else Err ParseErr.
(** 214-217 *)
Fixpoint skip_newlines (ts : list tk) : pres unit :=
  match ts with
  | [] => Err IndexError
  | t :: r => if is NEWLINE t then match r with [] => Loop | _ => skip_newlines r end else Done tt ts
  end.
(** 381-384, 478-481 *)
Fixpoint skip_to (c : ttype) (ts : list tk) : pres unit :=
  match ts with
  | [] => Err IndexError
  | t :: r =>
      if is c t then Done tt ts
      else if is EOF t then Err ParseErr
      else match r with [] => Loop | _ => skip_to c r end
  end.

(** ast.py 70-163 *)
Inductive lvar := Lvar (model field alias content : text) | RLvar (alias content : text).
Record lact := Lact { ac_name : option (text * text); ac_alias : text; ac_call : text }.
Inductive oval := ORefs (l : list text) | OStr (s : text) | OInt (n : Z) | OFloat (s : text) | OBool (b : bool).
Record program := Prog { lvars : list lvar; lacts : list lact; out : option (dict text oval) }.
Definition lvar_alias (l : lvar) : text := match l with Lvar _ _ a _ => a | RLvar a _ => a end.

(** What a tag names. *)
Inductive head := HRaw (alias : text) | HNamed (model field : text) (alias : option text).
Definition head_alias (h : head) : text :=
  match h with HRaw a => a | HNamed _ _ (Some a) => a | HNamed _ f None => f end.

(** * Regular expressions of 357-366 and 455-464 *)
Inductive piece := Lit (t : text) | Sp1 | Sp0.

Section Parser.
Variables (uspace : nat -> bool) (udec : nat -> option nat).                   (* from 128 on *)
Definition isspace (c : nat) : bool :=
  if c <? 128 then ((9 <=? c) && (c <=? 13)) || ((28 <=? c) && (c <=? 32)) else uspace c.

(** What is left after some white space, longest first. *)
Fixpoint ws_rests (s : text) : list text :=
  match s with
  | [] => [[]]
  | c :: r => if isspace c then ws_rests r ++ [s] else [s]
  end.
Fixpoint cands (ps : list piece) (s : text) : list text :=
  match ps with
  | [] => [s]
  | Lit t :: ps => if starts t s then cands ps (skipn (length t) s) else []
  | Sp0 :: ps => flat_map (cands ps) (ws_rests s)
  | Sp1 :: ps => match s with c :: r => if isspace c then flat_map (cands ps) (ws_rests r) else [] | [] => [] end
  end.
(** (.*?) and the closing tag *)
Fixpoint until (close s : text) : option text :=
  if starts close s then Some []
  else match s with [] => None | c :: r => option_map (cons c) (until close r) end.
Fixpoint first_some {A B} (f : A -> option B) (l : list A) : option B :=
  match l with [] => None | a :: l => match f a with Some b => Some b | None => first_some f l end end.
(** re.search *)
Fixpoint search (ps : list piece) (close s : text) : option text :=
  match first_some (until close) (cands ps s) with
  | Some c => Some c
  | None => match s with [] => None | _ :: r => search ps close r end
  end.
(** str.strip *)
Definition lstrip (s : text) : text := snd (span isspace s).
Definition strip (s : text) : text := rev (lstrip (rev (lstrip s))).

Definition dotted (m f : text) : text := m ++ dot :: f.
Definition named_pieces (m f : text) (a : option text) : list piece :=
  match a with Some a => [Lit (dotted m f); Sp1; Lit a] | None => [Lit (dotted m f)] end.
Definition lvar_pattern (h : head) : list piece :=
  [Lit t_lvar_open; Sp1] ++ match h with HRaw a => [Lit a] | HNamed m f a => named_pieces m f a end ++ [Sp0; Lit (codes ">")].
Definition lact_pattern (h : head) : list piece :=
  [Lit t_lact_open; Sp1] ++
  match h with
  | HRaw a => [Lit a]
  | HNamed [] f a => [Lit (head_alias h)]                                      (* 455: "if model" *)
  | HNamed m f a => named_pieces m f a
  end ++ [Sp0; Lit (codes ">")].

(** 316-350, 417-446 *)
Definition parse_head (open : ttype) : P head :=
  _ <-- expect open ;;
  _ <-- skip_newlines ;;
  first <-- expect ID ;;
  d <-- at_ [DOT] ;;
  h <-- (if d : bool then
           _ <-- advance ;;
           field <-- expect ID ;;
           i <-- at_ [ID] ;;
           if i : bool then a <-- expect ID ;; pret (HNamed first field (Some a))
           else pret (HNamed first field None)
         else pret (HRaw first)) ;;
  _ <-- expect GT ;;
  _ <-- skip_newlines ;;
  pret h.
(** 352-378, 448-475 *)
Definition extract (ps : list piece) (close src : text) : P text :=
  match src with
  | [] => praise ParseErr
  | _ => match search ps close src with Some c => pret (strip c) | None => praise ParseErr end
  end.
(** 288-392 *)
Definition parse_lvar (src : text) : P lvar :=
  h <-- parse_head LVAR_OPEN ;;
  content <-- extract (lvar_pattern h) t_lvar_close src ;;
  _ <-- skip_to LVAR_CLOSE ;;
  _ <-- expect LVAR_CLOSE ;;
  pret (match h with HRaw a => RLvar a content | HNamed m f _ => Lvar m f (head_alias h) content end).
(** 394-496 *)
Definition parse_lact (src : text) : P lact :=
  h <-- parse_head LACT_OPEN ;;
  call <-- extract (lact_pattern h) t_lact_close src ;;
  _ <-- skip_to LACT_CLOSE ;;
  _ <-- expect LACT_CLOSE ;;
  pret (Lact (match h with HRaw _ => None | HNamed m f _ => Some (m, f) end) (head_alias h) call).

(** 547-571 *)
Fixpoint parse_refs (fuel : nat) : P (list text) :=
  match fuel with
  | 0 => fun _ => Loop
  | S fuel =>
      stop <-- at_ [RBRACKET; EOF] ;;
      if stop : bool then pret [] else
      _ <-- skip_newlines ;;
      stop <-- at_ [RBRACKET; EOF] ;;
      if stop : bool then pret [] else
      i <-- at_ [ID] ;;
      if i : bool then
        a <-- expect ID ;;
        _ <-- skip_newlines ;;
        c <-- at_ [COMMA] ;;
        _ <-- (if c : bool then advance else pret tt) ;;
        l <-- parse_refs fuel ;;
        pret (a :: l)
      else praise ParseErr
  end.

(** int() and float() of number tokens: an optional minus, digits and dots. *)
Definition dec (c : nat) : option nat := if c <? 128 then if (48 <=? c) && (c <=? 57) then Some (c - 48) else None else udec c.
Fixpoint digits (s : text) (acc : Z) : option Z :=
  match s with
  | [] => Some acc
  | c :: r => match dec c with Some d => digits r (10 * acc + Z.of_nat d)%Z | None => None end
  end.
Definition to_int (s : text) : option Z :=
  match s with
  | [] => None
  | c :: r => if c =? minus then match r with [] => None | _ => option_map Z.opp (digits r 0) end else digits s 0
  end.
Definition float_ok (s : text) : bool :=
  let body := match s with c :: r => if c =? minus then r else s | [] => [] end in
  let d := filter (fun c => negb (c =? dot)) body in
  (length body =? S (length d)) && negb (length d =? 0) && forallb (fun c => match dec c with Some _ => true | None => false end) d.
Definition number (s : text) : outcome oval :=
  if existsb (Nat.eqb dot) s then if float_ok s then Ret (OFloat s) else Raise ValueError
  else match to_int s with Some n => Ret (OInt n) | None => Raise ValueError end.
Definition plift {A} (o : outcome A) : P A := match o with Ret a => pret a | Raise e => praise e end.
(** str.lower, as far as the comparisons with "true" and "false" can see *)
Definition lower (c : nat) : nat := if (65 <=? c) && (c <=? 90) then c + 32 else c.
Definition word (s : text) : oval :=
  if eqb (map lower s) (codes "true") then OBool true
  else if eqb (map lower s) (codes "false") then OBool false
  else ORefs [s].

(** 541-606: None: nothing recognised *)
Definition parse_oval (fuel : nat) : P (option oval) :=
  fun ts =>
  match fst (cur ts) with
  | LBRACKET =>
      (_ <-- advance ;;
       _ <-- skip_newlines ;;
       l <-- parse_refs fuel ;;
       c <-- at_ [RBRACKET] ;;
       _ <-- (if c : bool then advance else pret tt) ;;
       pret (Some (ORefs l))) ts
  | STR => (_ <-- advance ;; pret (Some (OStr (snd (cur ts))))) ts
  | NUM => (_ <-- advance ;; v <-- plift (number (snd (cur ts))) ;; pret (Some v)) ts
  | ID => (_ <-- advance ;; pret (Some (word (snd (cur ts))))) ts
  | _ => (_ <-- advance ;; pret None) ts
  end.
(** 520-612 *)
Fixpoint parse_fields (fuel : nat) (fields : dict text oval) : P (dict text oval) :=
  match fuel with
  | 0 => fun _ => Loop
  | S fuel =>
      stop <-- at_ [OUT_CLOSE; EOF] ;;
      if stop : bool then pret fields else
      _ <-- skip_newlines ;;
      stop <-- at_ [OUT_CLOSE; EOF] ;;
      if stop : bool then pret fields else
      i <-- at_ [ID] ;;
      if i : bool then
        name <-- expect ID ;;
        _ <-- skip_newlines ;;
        _ <-- expect COLON ;;
        _ <-- skip_newlines ;;
        v <-- parse_oval fuel ;;
        _ <-- skip_newlines ;;
        c <-- at_ [COMMA] ;;
        _ <-- (if c : bool then advance else pret tt) ;;
        parse_fields fuel (match v with Some v => dset name v fields | None => fields end)
      else _ <-- advance ;; parse_fields fuel fields
  end.
(** 498-620 *)
Definition parse_out_block (fuel : nat) : P (dict text oval) :=
  _ <-- expect OUT_OPEN ;;
  _ <-- skip_newlines ;;
  fields <-- parse_fields fuel [] ;;
  c <-- at_ [OUT_CLOSE] ;;
  _ <-- (if c : bool then advance else pret tt) ;;
  pret fields.

(** 219-286 *)
Fixpoint parse_loop (fuel : nat) (src : text) (vs : list lvar) (acs : list lact) (aliases : list text) : P program :=
  match fuel with
  | 0 => fun _ => Loop
  | S fuel =>
      stop <-- at_ [EOF] ;;
      if stop : bool then pret (Prog vs acs None) else
      _ <-- skip_newlines ;;
      stop <-- at_ [EOF] ;;
      if stop : bool then pret (Prog vs acs None) else
      v <-- at_ [LVAR_OPEN] ;;
      if v : bool then
        x <-- parse_lvar src ;;
        if memb (lvar_alias x) aliases then praise ParseErr
        else parse_loop fuel src (vs ++ [x]) acs (lvar_alias x :: aliases)
      else
      a <-- at_ [LACT_OPEN] ;;
      if a : bool then
        x <-- parse_lact src ;;
        if memb (ac_alias x) aliases then praise ParseErr
        else parse_loop fuel src vs (acs ++ [x]) (ac_alias x :: aliases)
      else
      o <-- at_ [OUT_OPEN] ;;
      if o : bool then fields <-- parse_out_block fuel ;; pret (Prog vs acs (Some fields))
      else _ <-- advance ;; parse_loop fuel src vs acs aliases
  end.
Definition parse_kinds (fuel : nat) (src : option text) (ts : list tk) : pres program :=
  match ts, src with
  | [], _ => Err IndexError
  | _, None => Err ParseErr
  | _, Some src => parse_loop fuel src [] [] [] ts
  end.
(** Parser(tokens, source_text).parse() *)
Definition parse (toks : list token) (src : option text) : pres program :=
  parse_kinds (S (length toks)) src (map kind toks).
End Parser.
