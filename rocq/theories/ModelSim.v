(** String similarity (libs/string_handlers/_string_similarity.py) and
    fuzzy_match_keys (ln/_fuzzy_match.py:25-147).

    A string is the list of its code points.  Scores are rationals (floats in
    Python, so equality of scores here may differ from equality after rounding);
    the cosine score is kept as its square, which has the same order.  [lower] is
    str.lower.  sequence_matcher (difflib) is not modelled. *)
From Coq Require Import List Bool Arith ZArith QArith.
From Verif Require Import PyBase ModelHeap.
Import ListNotations.
Local Close Scope Q_scope.
Local Open Scope nat_scope.
Local Open Scope list_scope.

Definition pystr := list nat.
Fixpoint str_eqb (a b : pystr) : bool :=
  match a, b with
  | [], [] => true
  | x :: a, y :: b => (x =? y) && str_eqb a b
  | _, _ => false
  end.
Definition qn (n : nat) : Q := inject_Z (Z.of_nat n).

(** 31-47, squared: len(intersection)^2 / (len(set1) * len(set2)) *)
Definition cosine_sq (s1 s2 : pystr) : Q :=
  match s1, s2 with
  | [], _ | _, [] => 0%Q
  | _, _ =>
      let set1 := nodup Nat.eq_dec s1 in
      let set2 := nodup Nat.eq_dec s2 in
      let k := length (filter (fun x => existsb (Nat.eqb x) set2) set1) in
      (qn (k * k) / qn (length set1 * length set2))%Q
  end.

(** 50-67 *)
Definition hamming (s1 s2 : pystr) : Q :=
  if (length s1 =? 0) || (length s2 =? 0) || negb (length s1 =? length s2) then 0%Q
  else (qn (length (filter (fun p => fst p =? snd p) (combine s1 s2))) / qn (length s1))%Q.

(** 102-107: the first free position in the window that holds [c] *)
Fixpoint find_match (c : nat) (t : pystr) (tm : list bool) (j lo hi : nat) : option nat :=
  match t, tm with
  | y :: t, m :: tm =>
      if (lo <=? j) && (j <? hi) && negb (m || negb (c =? y)) then Some j
      else find_match c t tm (S j) lo hi
  | _, _ => None
  end.

(** 98-107; returns s_matches (from i on) and t_matches *)
Fixpoint match_loop (md : nat) (t : pystr) (s : pystr) (i : nat) (tm : list bool) : list bool * list bool :=
  match s with
  | [] => ([], tm)
  | c :: s =>
      match find_match c t tm 0 (i - md) (min (i + md + 1) (length t)) with
      | Some j => let '(sm, tm') := match_loop md t s (S i) (upd j true tm) in (true :: sm, tm')
      | None => let '(sm, tm') := match_loop md t s (S i) tm in (false :: sm, tm')
      end
  end.

(** 117-118: from position k on, the next matched character and what follows it;
    running off the end is an IndexError *)
Fixpoint next_matched (t : pystr) (tm : list bool) : outcome (nat * pystr * list bool) :=
  match t, tm with
  | y :: t, true :: tm => Ret (y, t, tm)
  | _ :: t, false :: tm => next_matched t tm
  | _, _ => Raise IndexError
  end.

(** 113-121 *)
Fixpoint transpositions (s : pystr) (sm : list bool) (t : pystr) (tm : list bool) : outcome nat :=
  match s, sm with
  | c :: s, true :: sm =>
      bind (next_matched t tm) (fun '(y, t, tm) =>
      bind (transpositions s sm t tm) (fun n => Ret ((if c =? y then 0 else 1) + n)))
  | _ :: s, false :: sm => transpositions s sm t tm
  | _, _ => Ret 0
  end.

Definition count_true (l : list bool) : nat := length (filter (fun b => b) l).

(** 70-125 *)
Definition jaro (s t : pystr) : outcome Q :=
  if (length s =? 0) && (length t =? 0) then Ret 1%Q
  else if (length s =? 0) || (length t =? 0) then Ret 0%Q
  else
    let md := max (length s) (length t) / 2 - 1 in                            (* 88-89 *)
    let '(sm, tm) := match_loop md t s 0 (repeat false (length t)) in
    let matches := count_true sm in
    if matches =? 0 then Ret 0%Q
    else
      bind (transpositions s sm t tm) (fun tr =>
      let tr := tr / 2 in
      Ret ((qn matches / qn (length s) + qn matches / qn (length t) + qn (matches - tr) / qn matches) / 3)%Q).

(** 147-154 *)
Fixpoint common_prefix (k : nat) (s t : pystr) : nat :=
  match k, s, t with
  | S k, x :: s, y :: t => if x =? y then S (common_prefix k s t) else 0
  | _, _, _ => 0
  end.

(** 128-156 *)
Definition jaro_winkler (s t : pystr) (scaling : Q) : outcome Q :=
  if negb (Qle_bool 0 scaling && Qle_bool scaling (1 # 4)) then Raise ValueError
  else bind (jaro s t) (fun j => Ret (j + qn (common_prefix 4 s t) * scaling * (1 - j))%Q).

(** 185-191, one row: [prev] is d[i-1][j-1..], [left] is d[i][j-1]; the result is
    d[i][j..].  The table is filled row by row, each entry once. *)
Fixpoint lev_row (x : nat) (b : pystr) (prev : list nat) (left : nat) : list nat :=
  match b, prev with
  | y :: b, diag :: ((up :: _) as prev) =>
      let cost := if x =? y then 0 else 1 in
      let v := min (min (up + 1) (left + 1)) (diag + cost) in
      v :: lev_row x b prev v
  | _, _ => []
  end.
(** Rows i, i+1, ... for the rest of [a]; d[i][0] = i (180-181) *)
Fixpoint lev_rows (a b : pystr) (i : nat) (prev : list nat) : list nat :=
  match a with
  | [] => prev
  | x :: a => lev_rows a b (S i) (i :: lev_row x b prev i)
  end.
(** 159-193; row 0 is 0..n (182-183) *)
Definition levenshtein (a b : pystr) : nat :=
  match a, b with
  | [], _ => length b
  | _, [] => length a
  | _, _ => last (lev_rows a b 1 (seq 0 (S (length b)))) 0
  end.

(** 196-215 *)
Definition levenshtein_similarity (s1 s2 : pystr) : Q :=
  match s1, s2 with
  | [], [] => 1%Q
  | [], _ | _, [] => 0%Q
  | _, _ => (1 - qn (levenshtein s1 s2) / qn (max (length s1) (length s2)))%Q
  end.

(** ** string_similarity, 264-347 *)
Record match_result := { m_word : pystr; m_score : Q; m_index : nat }.

Section Similarity.
Variable lower : pystr -> pystr.
Variable score : pystr -> pystr -> Q.

(** 336: smaller key (-score, index) first; [Qle_bool] decides scores *)
Definition before (a b : match_result) : bool :=
  negb (Qle_bool (m_score a) (m_score b)) ||
  (Qeq_bool (m_score a) (m_score b) && (m_index a <=? m_index b)).
Fixpoint insert_result (x : match_result) (l : list match_result) : list match_result :=
  match l with
  | [] => [x]
  | y :: l => if before x y then x :: y :: l else y :: insert_result x l
  end.
Definition sort_results (l : list match_result) : list match_result := fold_right insert_result [] l.

(** 322-329 *)
Fixpoint collect (is_hamming cs : bool) (word : pystr) (threshold : Q) (words : list pystr) (idx : nat) : list match_result :=
  match words with
  | [] => []
  | w :: words =>
      let rest := collect is_hamming cs word threshold words (S idx) in
      let comp := if cs then w else lower w in
      if is_hamming && negb (length comp =? length word) then rest
      else let sc := score word comp in
           if Qle_bool threshold sc then Build_match_result w sc idx :: rest else rest
  end.

(** [is_hamming]: the algorithm was given as the name "hamming" *)
Definition similar (word : pystr) (words : list pystr) (is_hamming : bool) (threshold : Q) (cs : bool)
  : outcome (option (list match_result)) :=
  if length words =? 0 then Raise ValueError                                 (* 288-289 *)
  else if negb (Qle_bool 0 threshold && Qle_bool threshold 1) then Raise ValueError
  else
    let word := if cs then word else lower word in
    match sort_results (collect is_hamming cs word threshold words 0) with
    | [] => Ret None                                                         (* 332-333 *)
    | r :: rs =>
        Ret (Some (if cs then filter (fun x => Qeq_bool (m_score x) (m_score r)) (r :: rs) else r :: rs))
    end.

(** 344-347 *)
Definition most_similar word words is_hamming threshold cs : outcome (option pystr) :=
  bind (similar word words is_hamming threshold cs) (fun r =>
  Ret (match r with Some (x :: _) => Some (m_word x) | _ => None end)).
Definition all_similar word words is_hamming threshold cs : outcome (option (list pystr)) :=
  bind (similar word words is_hamming threshold cs) (fun r => Ret (option_map (map m_word) r)).

(** ** fuzzy_match_keys, _fuzzy_match.py:25-147 *)
Context {V : Type}.

Inductive unmatched := UIgnore | URaise | URemove | UFill | UForce.

Definition mem (k : pystr) (l : list pystr) : bool := existsb (str_eqb k) l.
Definition del (k : pystr) (l : list pystr) : list pystr := filter (fun x => negb (str_eqb k x)) l.
Fixpoint sget (k : pystr) (d : list (pystr * V)) : option V :=
  match d with [] => None | (k', v) :: d => if str_eqb k k' then Some v else sget k d end.
Fixpoint sset (k : pystr) (v : V) (d : list (pystr * V)) : list (pystr * V) :=
  match d with
  | [] => [(k, v)]
  | (k', v') :: d => if str_eqb k k' then (k', v) :: d else (k', v') :: sset k v d
  end.

(** 98-117: [keys] is remaining_input in the order in which the set is iterated,
    [exp] is list(remaining_expected).  Result: output, remaining expected keys,
    matched input keys. *)
Fixpoint fuzzy_pass (threshold : Q) (mode : unmatched) (d : list (pystr * V)) (keys : list pystr)
    (exp : list pystr) (out : list (pystr * V)) (hit : list pystr)
  : outcome (list (pystr * V) * list pystr * list pystr) :=
  match keys with
  | [] => Ret (out, exp, hit)
  | key :: keys =>
      match exp with
      | [] => Ret (out, exp, hit)                                            (* 99-100 *)
      | _ =>
          bind (most_similar key exp false threshold false) (fun m =>
          let v := sget key d in
          match m, v with
          | Some ((_ :: _) as k), Some v =>                                  (* 110: a non-empty string *)
              fuzzy_pass threshold mode d keys (del k exp) (sset k v out) (key :: hit)
          | _, Some v =>
              fuzzy_pass threshold mode d keys exp
                (match mode with UIgnore => sset key v out | _ => out end) hit
          | _, None => Raise KeyError
          end)
      end
  end.

(** [order] gives the iteration order of a set built from the given elements. *)
Variable order : list pystr -> list pystr.

Definition fuzzy_match_keys (d : list (pystr * V)) (keys : list pystr) (threshold : Q) (fuzzy : bool)
    (mode : unmatched) (fill_value : V) (fill_mapping : list (pystr * V)) (strict : bool)
  : outcome (list (pystr * V)) :=
  if negb (Qle_bool 0 threshold && Qle_bool threshold 1) then Raise ValueError   (* 63-64 *)
  else
    match keys with
    | [] => Ret d                                                            (* 68-69 *)
    | _ =>
        let exact := filter (fun p => mem (fst p) keys) d in                 (* 87-91 *)
        let rest_in := order (filter (fun k => negb (mem k keys)) (map fst d)) in     (* 95 *)
        let rest_exp := order (filter (fun k => negb (mem k (map fst exact))) keys) in  (* 96 *)
        bind (if fuzzy then fuzzy_pass threshold mode d rest_in rest_exp exact []
              else Ret (exact, rest_exp, []))
        (fun '(out, un_exp, hit) =>
        let un_in := filter (fun k => negb (mem k hit)) rest_in in            (* 120 *)
        let keep out := fold_left (fun o k => match sget k d with Some v => sset k v o | None => o end) un_in out in
        let fill out := fold_left (fun o k => sset k (match sget k fill_mapping with Some v => v | None => fill_value end) o) un_exp out in
        if (match mode with URaise => negb (length un_in =? 0) | _ => false end) then Raise ValueError  (* 123-124 *)
        else
          let out := match mode with
                     | UIgnore => keep out                                   (* 126-128 *)
                     | UFill => keep (fill out)                              (* 130-141 *)
                     | UForce => fill out
                     | _ => out
                     end in
          if strict && negb (length un_exp =? 0) then Raise ValueError       (* 144-145 *)
          else Ret out)
    end.
End Similarity.

(** ** get_bins, ln/_utils.py:111-126; strings enter by their lengths *)
Fixpoint bins_loop (lens : list nat) (upper : Z) (idx current : nat) (bin : list nat) (bins : list (list nat)) : list (list nat) :=
  match lens with
  | [] => match bin with [] => bins | _ => bins ++ [bin] end                 (* 124-126 *)
  | n :: lens =>
      if (Z.of_nat (current + n) <? upper)%Z then bins_loop lens upper (S idx) (current + n) (bin ++ [idx]) bins
      else bins_loop lens upper (S idx) n [idx] (bins ++ [bin])
  end.
Definition get_bins (lens : list nat) (upper : Z) : list (list nat) := bins_loop lens upper 0 0 [] [].
