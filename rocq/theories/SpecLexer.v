(** Vocabulary for the lexer: positions in a text, pieces of a text, string literals. *)
From Coq Require Import List Bool Arith Sorting.
From Verif Require Import ModelLexer.
Import ListNotations.
Local Open Scope nat_scope.
Local Open Scope list_scope.

(** Newlines before an offset; distance from the last newline before it. *)
Definition newlines (s : text) : nat := count_occ Nat.eq_dec s 10.
Definition line_at (s : text) (o : nat) : nat := S (newlines (firstn o s)).
Fixpoint tail_length (s : text) : nat :=          (* characters after the last newline *)
  match s with
  | [] => 0
  | c :: r => if existsb (Nat.eqb 10) s then tail_length r else S (tail_length r)
  end.
Definition offset_in_line (s : text) (o : nat) : nat := tail_length (firstn o s).

(** What a backslash and a character stand for. *)
Inductive escaped : nat -> nat -> Prop :=
| esc_n : escaped 110 10
| esc_t : escaped 116 9
| esc_r : escaped 114 13
| esc_self e : ~ In e [110; 116; 114] -> escaped e e.
(** The text of a string literal between its quotes, and its value. *)
Inductive unescapes (q : nat) : text -> text -> Prop :=
| un_nil : unescapes q [] []
| un_raw c b v : c <> q -> c <> 92 -> unescapes q b v -> unescapes q (c :: b) (c :: v)
| un_esc e x b v : escaped e x -> unescapes q b v -> unescapes q (92 :: e :: b) (x :: v).
(** [last]: the piece reaches the end of the text. *)
Inductive literal (last : bool) : text -> text -> Prop :=
| lit_closed q b v : (q = 34 \/ q = 39) -> unescapes q b v -> literal last (q :: b ++ [q]) v
| lit_open q b v : last = true -> (q = 34 \/ q = 39) -> unescapes q b v -> literal last (q :: b) v
| lit_back q b v : last = true -> (q = 34 \/ q = 39) -> unescapes q b v -> literal last (q :: b ++ [92]) v.

(** The token t is what stands at offset o on a length of n. *)
Definition stands (s : text) (t : token) (on : nat * nat) : Prop :=
  let (o, n) := on in
  o + n <= length s /\ line t = line_at s o /\
  column t = offset_in_line s o + (if line_at s o =? 1 then 1 else 0) /\
  match ty t with
  | STR => 0 < n /\ literal (o + n =? length s) (firstn n (skipn o s)) (value t)
  | EOF => o = length s /\ n = 0 /\ value t = []
  | _ => 0 < n /\ firstn n (skipn o s) = value t
  end.
(** Pieces follow each other without overlap. *)
Definition before (a b : nat * nat) : Prop := fst a + snd a <= fst b.
Definition covered (j : nat) (l : list (nat * nat)) : Prop := exists a, In a l /\ fst a <= j < fst a + snd a.

Definition tags : list text := [t_lvar_close; t_lact_close; t_lvar_open; t_lact_open].
(** A character that can be skipped. *)
Definition ignorable ualpha udigit (s : text) (j c : nat) : Prop :=
  id_start ualpha c = false /\ isdigit udigit c = false /\ c <> 10 /\ punct c = None /\
  forall tag, In tag tags -> starts tag (skipn j s) = false.

(** Inside an OUT block after the given tokens. *)
Definition opened (l : list token) : bool :=
  fold_left (fun b t => match ty t with OUT_OPEN => true | OUT_CLOSE => false | _ => b end) l false.

(** The kind of text a token of a type has. *)
Definition well_formed ualpha unum udigit (t : token) : Prop :=
  match ty t with
  | LVAR_OPEN => value t = t_lvar_open
  | LVAR_CLOSE => value t = t_lvar_close
  | LACT_OPEN => value t = t_lact_open
  | LACT_CLOSE => value t = t_lact_close
  | OUT_OPEN => value t = t_out
  | ID => exists c r, value t = c :: r /\ id_start ualpha c = true /\ Forall (fun c => id_char ualpha unum udigit c = true) r
  | NUM => exists d r, (value t = d :: r \/ value t = 45 :: d :: r) /\ isdigit udigit d = true /\ Forall (fun c => num_char udigit c = true) r
  | STR | EOF => True
  | NEWLINE => value t = [10]
  | p => exists c, value t = [c] /\ punct c = Some p
  end.

(** Names and numbers extend as far as possible. *)
Definition maximal ualpha unum udigit (s : text) (t : token) (on : nat * nat) : Prop :=
  forall c, nth_error s (fst on + snd on) = Some c ->
    match ty t with
    | ID => id_char ualpha unum udigit c = false
    | NUM => num_char udigit c = false
    | _ => True
    end.

(** The usual spelling of a string between quotes q. *)
Fixpoint escape (q : nat) (s : text) : text :=
  match s with
  | [] => []
  | c :: r => if (c =? 92) || (c =? q) then 92 :: c :: escape q r else c :: escape q r
  end.
Definition kind (t : token) : ttype * text := (ty t, value t).
