(** Vocabulary for statements about (de)serialisation, independent of how the
    code moves entries around. *)
From Coq Require Import String.
From Coq Require Import List ZArith Bool Arith.
From Verif Require Import PyBase ModelSerde.
Import ListNotations.
Local Open Scope string_scope.
Local Open Scope nat_scope.
Local Open Scope list_scope.

(** What JSON can represent as such. *)
Inductive json_plain : val -> Prop :=
| jp_none : json_plain VNone
| jp_bool b : json_plain (VBool b)
| jp_num z : json_plain (VNum z)
| jp_str s : json_plain (VStr s)
| jp_list l : (forall v, In v l -> json_plain v) -> json_plain (VList l)
| jp_dict d : (forall k v, In (k, v) d -> json_plain v) -> json_plain (VDict d).

(** Two aware datetimes that Python calls equal. *)
Definition same_instant (t t' : time) : Prop :=
  t_pos t = t_pos t' /\ t_off t <> None /\ t_off t' <> None.

(** Where the metadata of a dump is found. *)
Definition stored_at (m : mode) (mk : option string) : string :=
  match mk with
  | Some k => if String.eqb k "" then "metadata" else k
  | None => match m with Db => "node_metadata" | _ => "metadata" end
  end.

(** The keys a reader may pass for metadata stored at [st]: that key; or none, or
    one that no field has, if it is one of the two standard keys. *)
Definition matching (free : string -> Prop) (st : string) (mk : option string) : Prop :=
  mk = Some st \/
  ((mk = None \/ mk = Some "" \/ exists k, mk = Some k /\ free k) /\
   (st = "metadata" \/ st = "node_metadata")).

(** What a mode makes of values. *)
Definition encode (E : env) (m : mode) (v : val) : outcome val :=
  match m with Python => Ret v | _ => jsonify E v end.

Definition encode_meta (E : env) (m : mode) (d : data) : outcome data :=
  match m with Python => Ret d | _ => jsonify_dict E d end.

(** The text formats are faithful. *)
Record faithful (E : env) : Prop := {
  f_uuid : forall n, parse_uuid E (uuid_str E n) = Some n;
  f_float : forall t, parse_float E (iso E t) = None;
  f_iso : forall t, parse_iso E (iso E t) = Some t
}.

(** A field value survives its own dump and load in mode [m]. *)
Definition field_ok (E : env) (m : mode) (c : nat) (k : string) (v : val) : Prop :=
  forall w, encode E m (fdump E c k v) = Ret w -> fload E c k w = Ret v.

Definition reserved : list string := ["id"; "created_at"; "metadata"; "node_metadata"].

(** An element as the constructor makes it. *)
Record valid (E : env) (e : element) : Prop := {
  v_aware : t_off (e_created e) <> None;
  v_meta : NoDup (dkeys (e_meta e));
  v_fields : dkeys (e_fields e) = own_fields E (e_cls e);
  v_nodup : NoDup (own_fields E (e_cls e));
  v_names : forall k, In k (own_fields E (e_cls e)) -> ~ In k reserved
}.

Definition fields_ok (E : env) (m : mode) (e : element) : Prop :=
  forall k v, In (k, v) (e_fields e) -> field_ok E m (e_cls e) k v.

(** The metadata key is free: no field has that name. *)
Definition free_key (E : env) (c : nat) (k : string) : Prop :=
  k <> "id" /\ k <> "created_at" /\ ~ In k (own_fields E c).

(** Class [c0].from_dict finds class [c] by its name. *)
Definition finds (E : env) (c0 c : nat) : Prop :=
  c0 = c \/
  (cname E c0 <> cname E c /\ cname E c <> "" /\ load E (cname E c) = Some c /\
   is_element E c = true /\ impl_of E c = impl_of E c0).

(** [e'] is [e] as far as mode [m] can represent it; its metadata lacks the key
    [lion_class], which the dump uses for itself. *)
Record restored (E : env) (m : mode) (e e' : element) : Prop := {
  r_cls : e_cls e' = e_cls e;
  r_id : e_id e' = e_id e;
  r_created : same_instant (e_created e) (e_created e');
  r_meta : encode_meta E m (filter (fun '(k, _) => negb (String.eqb k "lion_class")) (e_meta e))
           = Ret (e_meta e');
  r_fields : e_fields e' = e_fields e
}.

(** Node class [c0].from_dict finds node class [c] in the registry. *)
Definition node_finds (E : env) (c0 c : nat) : Prop :=
  c0 = c \/
  (cname E c0 <> cname E c /\ cname E c <> "" /\ find_class E (cname E c) = Some c).

(** ---- piles ---- *)

Definition pile_names : list string := ["items"; "item_type"; "strict_type"].

Definition pile_free (E : env) (c : nat) (k : string) : Prop :=
  free_key E c k /\ ~ In k pile_names.

(** The keys that Pile.from_dict accepts for metadata stored at [st]. *)
Definition pile_matching (free : string -> Prop) (st : string) (mk : option string) : Prop :=
  mk = Some st \/
  (st = "metadata" /\ (mk = None \/ mk = Some "" \/ exists k, mk = Some k /\ free k)).

(** The class constraint of a pile, as documented. *)
Definition allowed (E : env) (ts : option (list nat)) (strict : bool) (c : nat) : Prop :=
  match ts with
  | None => True
  | Some l => exists t, In t l /\ if strict then t = c else sub E c t = true
  end.

(** Element.from_dict ([base] is Element) finds the class of an item. *)
Definition loadable (E : env) (base c : nat) : Prop :=
  load E (cname E c) = Some c /\ is_element E c = true /\ cname E c <> "" /\
  (c = base \/ (cname E base <> cname E c /\ (impl_of E c = IElement \/ impl_of E c = INode))).

Definition item_mode (m : mode) : mode := match m with Python => Python | _ => Json end.

Record pile_ok (E : env) (base : nat) (p : pile) : Prop := {
  po_el : valid E (p_el p);
  po_names : forall k, In k (own_fields E (e_cls (p_el p))) -> ~ In k pile_names;
  po_ids : NoDup (map e_id (p_items p));
  po_items : forall i, In i (p_items p) -> valid E i;
  po_cls : forall i, In i (p_items p) -> loadable E base (e_cls i);
  po_fit : forall i, In i (p_items p) -> allowed E (p_types p) (p_strict p) (e_cls i);
  po_types : forall ts, p_types p = Some ts ->
    ts <> [] /\ forall t, In t ts -> load E (tname E t) = Some t
}.

(** The name that survives: Python treats the empty name as none. *)
Definition real_name (n : option string) : option string :=
  match n with Some s => if String.eqb s "" then None else Some s | None => None end.

Definition is_mark (k : string) : bool :=
  String.eqb k "lion_class" || String.eqb k "progression_name".

(** [p'] is [p] as far as the mode can represent it.  The metadata keep the two
    marks that the dump adds. *)
Record pile_restored (E : env) (m : mode) (p p' : pile) : Prop := {
  pr_cls : e_cls (p_el p') = e_cls (p_el p);
  pr_id : e_id (p_el p') = e_id (p_el p);
  pr_created : same_instant (e_created (p_el p)) (e_created (p_el p'));
  pr_fields : e_fields (p_el p') = e_fields (p_el p);
  pr_types : p_types p' = p_types p;
  pr_strict : p_strict p' = p_strict p;
  pr_name : p_name p' = real_name (p_name p);
  pr_items : Forall2 (restored E (item_mode m)) (p_items p) (p_items p');
  pr_meta : encode_meta E m (filter (fun '(k, _) => negb (is_mark k)) (e_meta (p_el p)))
            = Ret (filter (fun '(k, _) => negb (is_mark k)) (e_meta (p_el p')));
  pr_mark : dget "lion_class" (e_meta (p_el p')) = Some (VStr (cname E (e_cls (p_el p))));
  pr_mark_name : dget "progression_name" (e_meta (p_el p'))
                 = option_map VStr (real_name (p_name p))
}.

(** ---- containers of piles ---- *)

(** [e'] is [e] with the class name left among the metadata. *)
Record marked (E : env) (m : mode) (e e' : element) : Prop := {
  mk_cls : e_cls e' = e_cls e;
  mk_id : e_id e' = e_id e;
  mk_created : same_instant (e_created e) (e_created e');
  mk_fields : e_fields e' = e_fields e;
  mk_mark : dget "lion_class" (e_meta e') = Some (VStr (cname E (e_cls e)));
  mk_meta : encode_meta E m (filter (fun '(k, _) => negb (String.eqb k "lion_class")) (e_meta e))
            = Ret (filter (fun '(k, _) => negb (String.eqb k "lion_class")) (e_meta e'))
}.

(** The two pile entries of a container are not fields of the element part. *)
Definition container_free (E : env) (names : list string) (c : nat) (k : string) : Prop :=
  free_key E c k /\ ~ In k names.

(** A pile whose own metadata leave the name of the progression alone. *)
Definition name_ok (p : pile) : Prop :=
  (exists n, real_name (p_name p) = Some n) \/
  ~ In "progression_name" (dkeys (e_meta (p_el p))).

(** What is needed of a pile that is dumped in mode [m] with item key [imk] and
    loaded with item key [imk']. *)
Record pile_io (E : env) (base : nat) (m : mode) (imk imk' : option string) (p : pile) : Prop := {
  io_ok : pile_ok E base p;
  io_fields : fields_ok E m (p_el p);
  io_items : forall i, In i (p_items p) -> fields_ok E (item_mode m) i;
  io_free : forall i, In i (p_items p) -> free_key E (e_cls i) (stored_at (item_mode m) imk);
  io_match : forall i, In i (p_items p) ->
    matching (free_key E (e_cls i)) (stored_at (item_mode m) imk) imk';
  io_name : name_ok p
}.

(** How created_at is written. *)
Definition written_time (E : env) (m : mode) (f : option format) (t : time) : val :=
  match f with
  | Some Isoformat => VStr (iso E t)
  | Some Timestamp => VNum (timestamp E t)
  | Some Datetime => VTime t
  | None => match m with Json => VStr (iso E t) | _ => VTime t end
  end.
