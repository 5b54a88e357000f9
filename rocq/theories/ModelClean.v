(** Model of _clean_json_string,
    /repo/src/lionherd_core/libs/string_handlers/_fuzzy_json.py:89-101, and of the
    replacement of single quotes before it (30): the regular expression substitutions,
    each as a left-to-right scan.

    Strings are lists of code points; which characters are whitespace for \s and strip is
    a parameter (the two agree on all characters). *)
From Coq Require Import List Bool Arith.
From Verif Require Import PyBase ModelJson.
Import ListNotations.
Local Open Scope list_scope.

Section Clean.
  Variable space : nat -> bool.

  (** 30, str.replace; it leaves nothing for the first substitution (93) to do. *)
  Definition quotes (s : list nat) : list nat := map (fun c => if c =? 39 then 34 else c) s.

  (** 95: \s+ becomes one space; [b]: the last character was whitespace *)
  Fixpoint collapse (b : bool) (s : list nat) : list nat :=
    match s with
    | [] => []
    | c :: s => if space c then (if b then collapse true s else 32 :: collapse true s)
                else c :: collapse false s
    end.

  Fixpoint drop_ws (s : list nat) : list nat :=
    match s with c :: r => if space c then drop_ws r else s | [] => [] end.
  Definition closer_next (s : list nat) : bool :=
    match drop_ws s with d :: _ => closer d | [] => false end.
  (** 97: a comma, whitespace and a closing bracket become the bracket; [k]: behind such a
      comma *)
  Fixpoint trailing (k : bool) (s : list nat) : list nat :=
    match s with
    | [] => []
    | c :: s => if k && space c then trailing true s
                else if (c =? 44) && closer_next s then trailing true s
                else c :: trailing false s
    end.

  (** The longest run without quotes and whitespace, and what follows. *)
  Fixpoint take_run (s : list nat) : list nat * list nat :=
    match s with
    | [] => ([], [])
    | c :: r => if (c =? 34) || space c then ([], s)
                else let '(a, b) := take_run r in (c :: a, b)
    end.
  (** What is before and after the last colon. *)
  Fixpoint last_colon (s : list nat) : option (list nat * list nat) :=
    match s with
    | [] => None
    | c :: s => match last_colon s with
                | Some (a, b) => Some (c :: a, b)
                | None => if c =? 58 then Some ([], s) else None
                end
    end.
  (** 100, behind the bracket or comma: the longest non-empty text without quotes and
      whitespace that whitespace and a colon follow, and what follows the colon. *)
  Definition match_key (s : list nat) : option (list nat * list nat) :=
    let '(run, r) := take_run (drop_ws s) in
    match run with
    | [] => None
    | _ => match drop_ws r with
           | 58 :: r => Some (run, r)
           | _ => match last_colon run with
                  | Some ([], _) | None => None
                  | Some (k, rest) => Some (k, rest ++ r)
                  end
           end
    end.
  Definition opens (c : nat) : bool := (c =? 123) || (c =? 44).
  Fixpoint keys_from (fuel : nat) (s : list nat) : list nat :=
    match fuel, s with
    | S n, c :: r =>
        if opens c
        then match match_key r with
             | Some (k, r) => c :: 34 :: k ++ 34 :: 58 :: keys_from n r
             | None => c :: keys_from n r
             end
        else c :: keys_from n r
    | _, _ => s
    end.
  Definition keys (s : list nat) : list nat := keys_from (length s) s.

  Definition strip (s : list nat) : list nat := rev (drop_ws (rev (drop_ws s))).

  (** 30, 89-101 *)
  Definition clean (s : list nat) : list nat := strip (keys (trailing false (collapse false (quotes s)))).
End Clean.
