(** Model of extract_json, /repo/src/lionherd_core/libs/string_handlers/_extract_json.py.

    Texts are lists of code points.  The regular expression of line 13 is matched as
    the re module does it: a greedy star tries the longest run first, a lazy one the
    shortest.  [space] is what \s accepts; [parse] is fuzzy_json or orjson.loads
    (modelled in [ModelJson]; any function here). *)
From Coq Require Import List Bool Arith.
From Verif Require Import PyBase.
Import ListNotations.
Local Open Scope nat_scope.
Local Open Scope list_scope.

Definition text := list nat.
Definition fence : text := [96; 96; 96].                              (* ``` *)
Definition opening : text := [96; 96; 96; 106; 115; 111; 110].        (* ```json *)

(** What follows the prefix p in s. *)
Fixpoint after (p s : text) : option text :=
  match p, s with
  | [], _ => Some s
  | x :: p, y :: s => if x =? y then after p s else None
  | _ :: _, [] => None
  end.

Section Regex.
  Variable space : nat -> bool.
  (** \s*, then k *)
  Fixpoint spaces {A} (s : text) (k : text -> option A) : option A :=
    match s with
    | c :: s' => if space c then match spaces s' k with Some r => Some r | None => k s end else k s
    | [] => k s
    end.
  (** (.*?) with DOTALL, then k; [acc] is the group so far *)
  Fixpoint lazily {A} (acc s : text) (k : text -> text -> option A) : option A :=
    match k acc s with
    | Some r => Some r
    | None => match s with [] => None | c :: s => lazily (acc ++ [c]) s k end
    end.
  (** 13: the group, and what follows the match *)
  Definition match_here (s : text) : option (text * text) :=
    match after opening s with
    | None => None
    | Some s =>
        spaces s (fun s => lazily [] s (fun group s => spaces s (fun s =>
          match after fence s with Some s => Some (group, s) | None => None end)))
    end.
  (** findall; every step shortens the text *)
  Fixpoint find_from (fuel : nat) (s : text) : list text :=
    match fuel with
    | O => []
    | S fuel =>
        match match_here s with
        | Some (b, rest) => b :: find_from fuel rest
        | None => match s with [] => [] | _ :: s => find_from fuel s end
        end
    end.
  Definition find_all (s : text) : list text := find_from (S (length s)) s.
End Regex.

Section Extract.
  Context {J O : Type}.
  Variable space : nat -> bool.
  Variable parse : text -> outcome J.        (* fuzzy_json or orjson.loads *)
  Variable parse_other : O -> outcome J.     (* the same, of a value that is no str *)
  Variable of_list : list J -> J.            (* a Python list as a value *)

  Inductive source :=
  | SText (s : text)
  | SLines (l : list (option text))          (* a list; None: an item that is not a str *)
  | SOther (o : O).

  (** "\n".join; None: TypeError *)
  Fixpoint join (l : list (option text)) : option text :=
    match l with
    | [] => Some []
    | [x] => x
    | x :: l =>
        match x, join l with
        | Some a, Some b => Some (a ++ 10 :: b)
        | _, _ => None
        end
    end.

  Definition parsed (s : text) : list J := match parse s with Ret j => [j] | Raise _ => [] end.

  (** 38-64, of a str *)
  Definition extract_text (one : bool) (s : text) : J :=
    match parse s with
    | Ret j => j                                                      (* 40-43 *)
    | Raise _ =>
        match find_all space s with                                   (* 46 *)
        | [] => of_list []                                            (* 47-48 *)
        | [b] => if one then match parse b with Ret j => j | Raise _ => of_list [] end (* 51-57 *)
                 else of_list (parsed b)
        | bs => of_list (flat_map parsed bs)                          (* 60-65 *)
        end
    end.

  Definition extract_json (one : bool) (i : source) : outcome J :=
    match i with
    | SText s => Ret (extract_text one s)
    | SLines l => match join l with Some s => Ret (extract_text one s) | None => Raise TypeError end
    | SOther o => match parse_other o with Ret j => Ret j | Raise _ => Raise TypeError end
    end.
End Extract.
Arguments source : clear implicits.
