(** Model of /repo/src/lionherd_core/ln/_json_dump.py: the default() callable built by
    get_orjson_default, the ordering of sets, the option flags and the NDJSON stream.

    Texts are lists of code points.  Parameters: which classes are subclasses of which,
    what a serialiser makes of an object, and orjson.dumps.  Simplified: the
    exceptions of model_dump() and dict() are all subclasses of Exception; what
    textwrap.shorten does to a text that is too long is a parameter. *)
From Coq Require Import List Bool Arith ZArith NArith Decimal.
From Verif Require Import PyBase ModelExtract.
Import ListNotations.
Local Open Scope nat_scope.
Local Open Scope list_scope.

(** Classes: those the module names, and any other. *)
Inductive cls := CPath | CDecimal | CSet | CFrozenset | CEnum | CDatetime | CDate | CTime | CUUID
               | COther (n : nat).
Definition cls_eqb (a b : cls) : bool :=
  match a, b with
  | CPath, CPath | CDecimal, CDecimal | CSet, CSet | CFrozenset, CFrozenset | CEnum, CEnum
  | CDatetime, CDatetime | CDate, CDate | CTime, CTime | CUUID, CUUID => true
  | COther n, COther m => n =? m
  | _, _ => false
  end.
Lemma cls_eqb_spec a b : reflect (a = b) (cls_eqb a b).
Proof.
  destruct a, b; cbn [cls_eqb]; try (constructor; congruence).
  destruct (Nat.eqb_spec n n0); constructor; congruence.
Qed.
#[global] Instance EqB_cls : EqB cls := {| eqb := cls_eqb; eqb_spec := cls_eqb_spec |}.

(** 30: types orjson serialises itself *)
Definition native : list cls := [CDatetime; CDate; CTime; CUUID].

(** Serialisers: str, float, the sorted list, list, the name, isoformat, or the caller's. *)
Inductive ser := SStr | SFloat | SSorted | SList | SName | SIso | SUser (n : nat).

(** The arguments of get_orjson_default; in [additional], None is a value that is falsy. *)
Record config := {
  order : list cls; additional : dict cls (option ser); extend_default : bool;
  deterministic_sets : bool; decimal_as_float : bool; enum_as_name : bool;
  passthrough_datetime : bool; safe_fallback : bool; fallback_clip : Z }.

(** 59-77 *)
Definition default_serializers (g : config) : dict cls (option ser) :=
  let sets := Some (if deterministic_sets g then SSorted else SList) in
  [(CPath, Some SStr); (CDecimal, Some (if decimal_as_float g then SFloat else SStr));
   (CSet, sets); (CFrozenset, sets)]
  ++ (if enum_as_name g then [(CEnum, Some SName)] else [])
  ++ (if passthrough_datetime g then [(CDatetime, Some SIso)] else []).

(** dict.update *)
Definition update {V} (d e : dict cls V) : dict cls V := fold_left (fun d kv => dset (fst kv) (snd kv) d) e d.

(** 108-115 *)
Definition serializers (g : config) : dict cls (option ser) := update (default_serializers g) (additional g).

(** 117-121 *)
Definition base_order (g : config) : list cls :=
  (if passthrough_datetime g then [CDatetime] else [])
  ++ (if enum_as_name g then [CEnum] else [])
  ++ [CPath; CDecimal; CSet; CFrozenset].

(** 123-136 *)
Definition order_tuple (g : config) : list cls :=
  let order_ :=
    match order g with
    | [] => base_order g
    | o => if extend_default g then base_order g ++ filter (fun t => negb (memb t (base_order g))) o else o
    end in
  if passthrough_datetime g then order_ else filter (fun t => negb (memb t native)) order_.

(** * textwrap.shorten *)
(** The decimal digits of a number, as code points. *)
Fixpoint uint_digits (u : uint) : text :=
  match u with
  | Nil => []
  | D0 u => 48 :: uint_digits u | D1 u => 49 :: uint_digits u | D2 u => 50 :: uint_digits u
  | D3 u => 51 :: uint_digits u | D4 u => 52 :: uint_digits u | D5 u => 53 :: uint_digits u
  | D6 u => 54 :: uint_digits u | D7 u => 55 :: uint_digits u | D8 u => 56 :: uint_digits u
  | D9 u => 57 :: uint_digits u
  end.
Definition int_digits (i : int) : text :=
  match i with Pos u => uint_digits u | Neg u => 45 :: uint_digits u end.
(** 38: ...(+N chars) *)
Definition placeholder (s : text) (limit : Z) : text :=
  [46; 46; 46; 40; 43] ++ int_digits (Z.to_int (Z.of_nat (length s) - limit))
  ++ [32; 99; 104; 97; 114; 115; 41].

Section Dump.
  Variable space : nat -> bool.
  (** str.split(): the words between whitespace; [w] is the word being read. *)
  Fixpoint words (w s : text) : list text :=
    match s with
    | [] => match w with [] => [] | _ => [w] end
    | c :: s => if space c then match w with [] => words [] s | _ => w :: words [] s end
                else words (w ++ [c]) s
    end.
  Fixpoint unwords (l : list text) : text :=
    match l with [] => [] | [w] => w | w :: l => w ++ [32] ++ unwords l end.
  Variable cut : text -> nat -> text -> text.
  (** 37-38.  textwrap refuses a width that is not positive or too small for the
      placeholder, whatever the text. *)
  Definition clip (s : text) (limit : Z) : outcome text :=
    let ph := placeholder s limit in
    if (limit <=? 0)%Z then Raise ValueError
    else if (limit <? Z.of_nat (length ph))%Z then Raise ValueError
    else let t := unwords (words [] s) in
         Ret (if length t <=? Z.to_nat limit then t else cut t (Z.to_nat limit) ph).

  (** * default() *)
  Variable V : Type.                       (* what orjson goes on with *)
  Variable vtext : text -> V.
  Variable sub : cls -> cls -> bool.       (* issubclass *)
  (** The object given to default(). *)
  Record obj := {
    o_cls : cls;
    o_model_dump : option (outcome V);     (* a callable model_dump, and what it does *)
    o_dict : option (outcome V);           (* a callable dict *)
    o_error : option (outcome V);          (* Some: an Exception, and its type and message *)
    o_repr : outcome text }.
  Variable apply : ser -> obj -> outcome V.

  (** 144-150 *)
  Fixpoint search (s : dict cls (option ser)) (c : cls) (o : list cls) : option ser :=
    match o with
    | [] => None
    | t :: o => if sub c t then match dget t s with Some (Some f) => Some f | _ => search s c o end
                else search s c o
    end.

  (** 152-167 *)
  Definition duck (g : config) (x : obj) : outcome V :=
    match o_model_dump x with
    | Some (Ret v) => Ret v
    | _ =>
      match o_dict x with
      | Some (Ret v) => Ret v
      | _ => if safe_fallback g
             then match o_error x with
                  | Some p => p
                  | None => bind (o_repr x) (fun r => bind (clip r (fallback_clip g)) (fun t => Ret (vtext t)))
                  end
             else Raise TypeError
      end
    end.

  (** 141-168 *)
  Definition default (g : config) (cache : dict cls ser) (x : obj) : dict cls ser * outcome V :=
    match dget (o_cls x) cache with
    | Some f => (cache, apply f x)
    | None =>
        match search (serializers g) (o_cls x) (order_tuple g) with
        | Some f => (dset (o_cls x) f cache, apply f x)
        | None => (cache, duck g x)
        end
    end.

  (** Calls of one default() one after the other. *)
  Fixpoint calls (g : config) (cache : dict cls ser) (xs : list obj) : list (outcome V) :=
    match xs with
    | [] => []
    | x :: xs => let '(cache, r) := default g cache x in r :: calls g cache xs
    end.
End Dump.

(** * Ordering of sets *)
Definition hex (c : nat) : bool :=
  (48 <=? c) && (c <=? 57) || (65 <=? c) && (c <=? 70) || (97 <=? c) && (c <=? 102).
Definition at0x : text := [32; 97; 116; 32; 48; 120].                 (*  at 0x *)
Fixpoint drop_hex (s : text) : text :=
  match s with c :: s' => if hex c then drop_hex s' else s | [] => [] end.
(** 34, 41-44: every address replaced by a question mark.  [n] bounds the scan. *)
Fixpoint normalize_from (n : nat) (s : text) : text :=
  match n, s with
  | O, _ | _, [] => s
  | S n, c :: s' =>
      match after at0x s with
      | Some (h :: r) => if hex h then at0x ++ [63] ++ normalize_from n (drop_hex r) else c :: normalize_from n s'
      | _ => c :: normalize_from n s'
      end
  end.
Definition normalize (s : text) : text := normalize_from (length s) s.

(** Texts are compared by code points. *)
Fixpoint text_leb (a b : text) : bool :=
  match a, b with
  | [], _ => true
  | _ :: _, [] => false
  | x :: a, y :: b => if x <? y then true else if x =? y then text_leb a b else false
  end.

Section Sets.
  Variable A : Type.
  Variable class_name : A -> text.
  Variable str : A -> text.
  Definition sort_key (x : A) : text * text := (class_name x, normalize (str x)).
  (** Comparison of pairs *)
  Definition key_leb (a b : text * text) : bool :=
    if text_leb (fst a) (fst b)
    then if text_leb (fst b) (fst a) then text_leb (snd a) (snd b) else true
    else false.
  (** sorted() is stable: an item goes behind those that are not greater. *)
  Fixpoint insert (x : A) (l : list A) : list A :=
    match l with
    | [] => [x]
    | y :: l => if key_leb (sort_key x) (sort_key y) then x :: y :: l else y :: insert x l
    end.
  (** 47-53 *)
  Fixpoint stable_sorted (l : list A) : list A :=
    match l with [] => [] | x :: l => insert x (stable_sorted l) end.
End Sets.

(** * Options *)
Definition INDENT_2 : N := 0.              (* bit numbers of orjson's flags *)
Definition NAIVE_UTC : N := 1.
Definition NON_STR_KEYS : N := 2.
Definition SORT_KEYS : N := 5.
Definition UTC_Z : N := 7.
Definition PASSTHROUGH_DATETIME : N := 9.
Definition APPEND_NEWLINE : N := 10.

Record flags := {
  pretty : bool; sort_keys : bool; naive_utc : bool; utc_z : bool; append_newline : bool;
  f_passthrough_datetime : bool; allow_non_str_keys : bool }.

Definition flag (b : bool) (k : N) (opt : N) : N := if b then N.lor opt (N.shiftl 1 k) else opt.

(** 195-222 *)
Definition make_options (f : flags) : N :=
  flag (allow_non_str_keys f) NON_STR_KEYS
  (flag (f_passthrough_datetime f) PASSTHROUGH_DATETIME
  (flag (utc_z f) UTC_Z
  (flag (naive_utc f) NAIVE_UTC
  (flag (sort_keys f) SORT_KEYS
  (flag (pretty f) INDENT_2
  (flag (append_newline f) APPEND_NEWLINE 0%N)))))).

(** 287-342; [dumps] is orjson.dumps with the default() already given.  The lines
    yielded, and the exception that ends the stream, if any. *)
Section Lines.
  Variable A : Type.
  Variable dumps : N -> A -> outcome text.
  Definition lines_options (options : option N) (f : flags) : N :=
    match options with
    | None => make_options {| pretty := false; sort_keys := false; naive_utc := naive_utc f;
                              utc_z := utc_z f; append_newline := true;
                              f_passthrough_datetime := f_passthrough_datetime f;
                              allow_non_str_keys := allow_non_str_keys f |}
    | Some o => N.lor o (N.shiftl 1 APPEND_NEWLINE)
    end.
  Fixpoint lines_iter (opt : N) (it : list A) : list text * option exn :=
    match it with
    | [] => ([], None)
    | x :: it => match dumps opt x with
                 | Ret l => let '(ls, e) := lines_iter opt it in (l :: ls, e)
                 | Raise e => ([], Some e)
                 end
    end.
  (** 225-271: options given as a number win over the flags. *)
  Definition json_dumpb (options : option N) (f : flags) (x : A) : outcome text :=
    dumps (match options with Some o => o | None => make_options f end) x.
End Lines.
