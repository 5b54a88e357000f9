(** Model of /repo/src/lionherd_core/lndl/lexer.py.

    Texts are lists of code points.  isalpha, isalnum and isdigit beyond ASCII are
    parameters. *)
From Coq Require Import String Ascii.
From Coq Require Import List Bool Arith.
Import ListNotations.
Local Open Scope string_scope.
Local Open Scope nat_scope.
Local Open Scope list_scope.

Definition text := list nat.
Definition codes (s : string) : text := map nat_of_ascii (list_ascii_of_string s).

(** 26-54 *)
Inductive ttype :=
| LVAR_OPEN | LVAR_CLOSE | LACT_OPEN | LACT_CLOSE | OUT_OPEN | OUT_CLOSE
| ID | NUM | STR
| DOT | COMMA | COLON | LBRACKET | RBRACKET | LPAREN | RPAREN | GT
| NEWLINE | EOF.

(** 57-71 *)
Record token := Tok { ty : ttype; value : text; line : nat; column : nat }.

Fixpoint starts (p s : text) : bool :=
  match p, s with
  | [], _ => true
  | _ :: _, [] => false
  | x :: p, y :: s => (x =? y) && starts p s
  end.
Fixpoint span (f : nat -> bool) (s : text) : text * text :=
  match s with
  | [] => ([], [])
  | c :: r => if f c then let (a, b) := span f r in (c :: a, b) else ([], s)
  end.

Definition t_lvar_close := codes "</lvar>".
Definition t_lact_close := codes "</lact>".
Definition t_lvar_open := codes "<lvar".
Definition t_lact_open := codes "<lact".
Definition t_out := codes "OUT{".
Definition newline := 10.
Definition lt_sign := 60.
Definition underscore := 95.
Definition minus := 45.
Definition dot := 46.
Definition backslash := 92.
Definition blank (c : nat) : bool := (c =? 32) || (c =? 9) || (c =? 13).       (* space, tab, return *)
Definition is_quote (c : nat) : bool := (c =? 34) || (c =? 39).

(** 340-358 *)
Definition punct (c : nat) : option ttype :=
  if c =? 46 then Some DOT
  else if c =? 44 then Some COMMA
  else if c =? 58 then Some COLON
  else if c =? 91 then Some LBRACKET
  else if c =? 93 then Some RBRACKET
  else if c =? 40 then Some LPAREN
  else if c =? 41 then Some RPAREN
  else if c =? 125 then Some OUT_CLOSE
  else if c =? 62 then Some GT
  else None.

(** 201-215 *)
Definition unescape (e : nat) : nat :=
  if e =? 110 then 10 else if e =? 116 then 9 else if e =? 114 then 13 else e.

(** 140-147, on line and column. *)
Definition adv (c : nat) (p : nat * nat) : nat * nat :=
  if c =? newline then (S (fst p), 0) else (fst p, S (snd p)).

(** 196-222, after the opening quote: value, rest and position. *)
Fixpoint read_string (q : nat) (s : text) (p : nat * nat) : text * text * (nat * nat) :=
  match s with
  | [] => ([], [], p)
  | c :: r =>
      if c =? q then ([], r, adv c p)
      else if c =? backslash then
        match r with
        | [] => ([], [], adv c p)
        | e :: r => let '(v, rest, p) := read_string q r (adv e (adv c p)) in (unescape e :: v, rest, p)
        end
      else let '(v, rest, p) := read_string q r (adv c p) in (c :: v, rest, p)
  end.

Section Lexer.
Variables (ualpha unum udigit : nat -> bool).   (* from 128 on; [unum]: numeric, neither letter nor digit *)
Definition isdigit (c : nat) : bool := if c <? 128 then (48 <=? c) && (c <=? 57) else udigit c.
Definition isalpha (c : nat) : bool :=
  if c <? 128 then ((65 <=? c) && (c <=? 90)) || ((97 <=? c) && (c <=? 122)) else ualpha c.
Definition isalnum (c : nat) : bool := isalpha c || isdigit c || (negb (c <? 128) && unum c).
Definition id_start (c : nat) : bool := isalpha c || (c =? underscore).
Definition id_char (c : nat) : bool := isalnum c || (c =? underscore).
Definition num_char (c : nat) : bool := isdigit c || (c =? dot).

(** 239-367; [io]: in_out_block, [p]: line and column.  None: out of fuel. *)
Fixpoint lex (fuel : nat) (io : bool) (s : text) (p : nat * nat) : option (list token) :=
  match fuel with
  | 0 => None
  | S fuel =>
      let tok t v := Tok t v (fst p) (snd p) in
      let emit t r := option_map (cons t) r in
      let skip n := (fst p, snd p + n) in
      match s with
      | [] => Some [tok EOF []]                                                (* 366 *)
      | c :: r =>
          if blank c then                                                      (* 241-243 *)
            let (w, rest) := span blank s in lex fuel io rest (skip (length w))
          else if c =? newline then                                            (* 246-249 *)
            emit (tok NEWLINE [newline]) (lex fuel io r (adv c p))
          else if c =? lt_sign then                                            (* 252-294 *)
            if starts t_lvar_close s then emit (tok LVAR_CLOSE t_lvar_close) (lex fuel io (skipn 7 s) (skip 7))
            else if starts t_lact_close s then emit (tok LACT_CLOSE t_lact_close) (lex fuel io (skipn 7 s) (skip 7))
            else if starts t_lvar_open s then emit (tok LVAR_OPEN t_lvar_open) (lex fuel io (skipn 5 s) (skip 5))
            else if starts t_lact_open s then emit (tok LACT_OPEN t_lact_open) (lex fuel io (skipn 5 s) (skip 5))
            else lex fuel io r (adv c p)
          else if starts t_out s then                                          (* 297-302 *)
            emit (tok OUT_OPEN t_out) (lex fuel true (skipn 4 s) (skip 4))
          else if id_start c then                                              (* 305-310 *)
            let (v, rest) := span id_char s in emit (tok ID v) (lex fuel io rest (skip (length v)))
          else if (c =? minus) && io && match r with d :: _ => isdigit d | [] => false end then   (* 313-321 *)
            let (v, rest) := span num_char r in
            emit (tok NUM (minus :: v)) (lex fuel io rest (skip (S (length v))))
          else if isdigit c then                                               (* 324-329 *)
            let (v, rest) := span num_char s in emit (tok NUM v) (lex fuel io rest (skip (length v)))
          else if is_quote c && io then                                        (* 332-337 *)
            let '(v, rest, p') := read_string c r (adv c p) in
            emit (tok STR v) (lex fuel io rest p')
          else match punct c with                                              (* 340-363 *)
               | Some t => emit (tok t [c]) (lex fuel (match t with OUT_CLOSE => false | _ => io end) r (adv c p))
               | None => lex fuel io r (adv c p)
               end
      end
  end.
(** 104-114, 226-367 *)
Definition tokenize (s : text) : option (list token) := lex (S (length s)) false s (1, 1).
End Lexer.
