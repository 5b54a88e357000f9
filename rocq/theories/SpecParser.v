(** Vocabulary for the parser: tags in a source text, documents and the programs they denote. *)
From Coq Require Import String.
From Coq Require Import List Bool Arith ZArith.
From Verif Require Import PyBase ModelLexer SpecLexer ModelParser.
Import ListNotations.
Local Open Scope string_scope.
Local Open Scope nat_scope.
Local Open Scope list_scope.

Definition all (f : nat -> bool) (s : text) : Prop := Forall (fun c => f c = true) s.
(** [tag f g kw h t]: t opens a declaration of h; [f], [g]: white space after the keyword and elsewhere. *)
Inductive tag (f g : nat -> bool) (kw : text) : head -> text -> Prop :=
| tag_raw a w1 w2 : w1 <> [] -> all f w1 -> all g w2 ->
    tag f g kw (HRaw a) (kw ++ w1 ++ a ++ w2 ++ codes ">")
| tag_field m fd w1 w2 : w1 <> [] -> all f w1 -> all g w2 ->
    tag f g kw (HNamed m fd None) (kw ++ w1 ++ m ++ codes "." ++ fd ++ w2 ++ codes ">")
| tag_alias m fd a w1 w2 w3 : w1 <> [] -> w3 <> [] -> all f w1 -> all g w2 -> all g w3 ->
    tag f g kw (HNamed m fd (Some a)) (kw ++ w1 ++ m ++ codes "." ++ fd ++ w3 ++ a ++ w2 ++ codes ">").

(** b is the text before the first close of s, post what follows it. *)
Definition upto (close s b post : text) : Prop :=
  s = b ++ close ++ post /\ forall b' post', s = b' ++ close ++ post' -> length b <= length b'.
(** c is b without surrounding white space. *)
Definition trimmed (f : nat -> bool) (b c : text) : Prop :=
  exists w w', b = w ++ c ++ w' /\ all f w /\ all f w' /\
    match c with x :: _ => f x = false | [] => True end /\ match rev c with x :: _ => f x = false | [] => w' = [] end.

(** The content of the first closed tag for h in the source. *)
Definition first_content (sp : nat -> bool) (kw close : text) (h : head) (src c : text) : Prop :=
  exists pre t s b post, src = pre ++ t ++ s /\ tag sp sp kw h t /\ upto close s b post /\ trimmed sp b c /\
    forall pre' t' b' post', src = pre' ++ t' ++ b' ++ close ++ post' -> tag sp sp kw h t' -> length pre <= length pre'.

Definition lvar_of (h : head) (c : text) : lvar :=
  match h with
  | HRaw a => RLvar a c
  | HNamed m f (Some a) => Lvar m f a c
  | HNamed m f None => Lvar m f f c
  end.
Definition lact_of (h : head) (c : text) : lact :=
  match h with
  | HRaw a => Lact None a c
  | HNamed m f (Some a) => Lact (Some (m, f)) a c
  | HNamed m f None => Lact (Some (m, f)) f c
  end.

(** A number token that int() or float() accepts: digits with at most one dot. *)
Definition numeral (udec : nat -> option nat) (s : text) : Prop :=
  exists neg a b, s = neg ++ a ++ b /\ (neg = [] \/ neg = codes "-") /\
    (b = [] \/ exists b', b = codes "." ++ b') /\ (exists c, In c (a ++ b) /\ c <> 46) /\
    Forall (fun c => dec udec c <> None) (a ++ tl b).

Section Documents.
Variables (ualpha unum udigit uspace : nat -> bool).
Definition name (s : text) : Prop :=
  exists c r, s = c :: r /\ id_start ualpha c = true /\ all (id_char ualpha unum udigit) r.
Definition white (c : nat) : bool := blank c || (c =? 10).
(** Text without tags and OUT{. *)
Definition plain (s : text) : Prop := ~ In 60 s /\ forall p q, s <> p ++ t_out ++ q.

Definition good_head (h : head) : Prop :=
  match h with
  | HRaw a => name a
  | HNamed m f None => name m /\ name f
  | HNamed m f (Some a) => name m /\ name f /\ name a
  end.
Inductive decl := DVar (h : head) (c : text) | DAct (h : head) (c : text).
Definition decl_alias (d : decl) : text := match d with DVar h _ | DAct h _ => head_alias h end.
Definition vars (l : list decl) : list lvar := flat_map (fun d => match d with DVar h c => [lvar_of h c] | DAct _ _ => [] end) l.
Definition acts (l : list decl) : list lact := flat_map (fun d => match d with DAct h c => [lact_of h c] | DVar _ _ => [] end) l.

Inductive decl_text : decl -> text -> Prop :=
| dt_var h c t b : good_head h -> tag white blank t_lvar_open h t -> plain b -> trimmed (isspace uspace) b c ->
    decl_text (DVar h c) (t ++ b ++ t_lvar_close)
| dt_act h c t b : good_head h -> tag white blank t_lact_open h t -> plain b -> trimmed (isspace uspace) b c ->
    decl_text (DAct h c) (t ++ b ++ t_lact_close).
(** Declarations with plain text between them; the text before OUT{ does not end in a name. *)
Inductive decls_text : list decl -> text -> Prop :=
| ds_nil n : plain n -> match rev n with c :: _ => id_char ualpha unum udigit c = false | [] => True end -> decls_text [] n
| ds_cons n d t ds r : plain n -> decl_text d t -> decls_text ds r -> decls_text (d :: ds) (n ++ t ++ r).

Inductive refs_text : list text -> text -> Prop :=
| rt_nil w : all white w -> refs_text [] w
| rt_last w a w' : all white w -> name a -> all white w' -> refs_text [a] (w ++ a ++ w')
| rt_cons w a w' l r : all white w -> name a -> all white w' -> refs_text l r ->
    refs_text (a :: l) (w ++ a ++ w' ++ codes "," ++ r).
(** The word w of small letters, in any mix of capitals (32 less) and small letters. *)
Definition any_case (w : string) (a : text) : Prop := Forall2 (fun c d => c = d \/ c + 32 = d) a (codes w).
(** Decimal digits and their value. *)
Definition ascii_digit (c : nat) : bool := (48 <=? c) && (c <=? 57).
Definition horner (s : text) : Z := fold_left (fun a c => 10 * a + Z.of_nat (c - 48))%Z s 0%Z.
Inductive value_text : oval -> text -> Prop :=
| vt_refs l r : refs_text l r -> value_text (ORefs l) (codes "[" ++ r ++ codes "]")
| vt_ref a : name a -> ~ any_case "true" a -> ~ any_case "false" a -> value_text (ORefs [a]) a
| vt_true a : any_case "true" a -> value_text (OBool true) a
| vt_false a : any_case "false" a -> value_text (OBool false) a
| vt_str q b v : (q = 34 \/ q = 39) -> unescapes q b v -> value_text (OStr v) (q :: b ++ [q])
| vt_nat s : s <> [] -> all ascii_digit s -> value_text (OInt (horner s)) s
| vt_neg s : s <> [] -> all ascii_digit s -> value_text (OInt (- horner s)) (codes "-" ++ s)
| vt_float a b : a <> [] -> all ascii_digit a -> all ascii_digit b ->
    value_text (OFloat (a ++ codes "." ++ b)) (a ++ codes "." ++ b)
| vt_negfloat a b : a <> [] -> all ascii_digit a -> all ascii_digit b ->
    value_text (OFloat (codes "-" ++ a ++ codes "." ++ b)) (codes "-" ++ a ++ codes "." ++ b).
Definition field_text (n : text) (v : oval) (t : text) : Prop :=
  exists w1 w2 w3 w4 vt, t = w1 ++ n ++ w2 ++ codes ":" ++ w3 ++ vt ++ w4 /\ name n /\
    all white w1 /\ all white w2 /\ all white w3 /\ all white w4 /\ value_text v vt.
Inductive fields_text : list (text * oval) -> text -> Prop :=
| ft_nil w : all white w -> fields_text [] w
| ft_last n v t : field_text n v t -> fields_text [(n, v)] t
| ft_cons n v t l r : field_text n v t -> fields_text l r -> fields_text ((n, v) :: l) (t ++ codes "," ++ r).

(** A document: declarations, an OUT block, anything. *)
Inductive document : program -> text -> Prop :=
| doc ds t fs ft post :
    decls_text ds t -> NoDup (map decl_alias ds) -> fields_text fs ft -> NoDup (map fst fs) ->
    document (Prog (vars ds) (acts ds) (Some fs)) (t ++ t_out ++ ft ++ codes "}" ++ post).
End Documents.
