(** Vocabulary for bracket repair: reading a text character by character, bracket
    words, and the Dyck words. *)
From Coq Require Import List Bool Arith.
From Verif Require Import PyBase.
Import ListNotations.
Local Open Scope list_scope.

(** Where the reader is: outside, right after a backslash outside, inside a string
    literal, right after a backslash in it. *)
Inductive mode := Out | OutEsc | Str | StrEsc.
Definition next (m : mode) (c : nat) : mode :=
  match m with
  | Out => if c =? 92 then OutEsc else if c =? 34 then Str else Out
  | OutEsc => Out
  | Str => if c =? 92 then StrEsc else if c =? 34 then Out else Str
  | StrEsc => Str
  end.
Definition is_bracket (c : nat) : bool := (c =? 123) || (c =? 125) || (c =? 91) || (c =? 93).

(** The brackets read outside of literals and escapes; the mode at the end. *)
Fixpoint outer (m : mode) (s : list nat) : list nat :=
  match s with
  | [] => []
  | c :: s => match m with
              | Out => if is_bracket c then c :: outer (next m c) s else outer (next m c) s
              | _ => outer (next m c) s
              end
  end.
Definition final (s : list nat) : mode := fold_left next s Out.

(** Properly nested bracket words. *)
Inductive balanced : list nat -> Prop :=
| bal_nil : balanced []
| bal_brace a b : balanced a -> balanced b -> balanced (123 :: a ++ 125 :: b)
| bal_square a b : balanced a -> balanced b -> balanced (91 :: a ++ 93 :: b).

Definition is_closer (c : nat) : Prop := c = 125 \/ c = 93.
