(** Models of fuzzy_validate_pydantic and fuzzy_validate_mapping,
    /repo/src/lionherd_core/ln/_fuzzy_validate.py, and of validate_response and
    update_model, /repo/src/lionherd_core/types/spec_adapters/_protocol.py with the
    methods of pydantic_field.py:150-177.

    JSON values are trees.  extract_json is that of [ModelExtract], fuzzy_match_keys
    that of [ModelSim].  Parsing, the similarity score, the order of sets, pydantic's
    model_validate and model_dump, and to_dict of values that are no text (it does not
    fail, see C73) are parameters.  Simplified: keys of dicts are strings. *)
From Coq Require Import List Bool Arith ZArith QArith.
From Verif Require Import PyBase ModelHeap ModelSim ModelExtract.
Import ListNotations.
Local Close Scope Q_scope.
Local Open Scope nat_scope.
Local Open Scope list_scope.

Inductive jv :=
| JDict (d : list (pystr * jv))
| JList (l : list jv)
| JAtom (a : Z)
| JUnset.                                  (* a sentinel *)
Definition jdict := list (pystr * jv).

Record mopts := {
  mo_thr : Q; mo_fuzzy : bool; mo_mode : unmatched; mo_fill : jv; mo_map : jdict; mo_strict : bool }.
(** The defaults of fuzzy_match_keys, with a way to handle unmatched keys. *)
Definition default_opts (mode : unmatched) : mopts :=
  {| mo_thr := 17 # 20; mo_fuzzy := true; mo_mode := mode; mo_fill := JUnset; mo_map := []; mo_strict := false |}.

Inductive err := EValidation | EPy (e : exn).     (* lionherd's ValidationError, or another *)

Section Validate.
  Context {M O : Type}.
  Variables (lower : pystr -> pystr) (score : pystr -> pystr -> Q) (order : list pystr -> list pystr).
  Variable space : nat -> bool.
  Variable parse : bool -> text -> outcome jv.       (* fuzzy_json if true, else orjson.loads *)
  Variable parse_other : bool -> O -> outcome jv.
  Variable fields : list pystr.                      (* model_fields *)
  Variable model_validate : jv -> outcome M.

  Definition extract (fuzzy : bool) (s : source O) : outcome jv :=
    extract_json space (parse fuzzy) (parse_other fuzzy) JList true s.

  (** _fuzzy_match.py:59-60, then the rest *)
  Definition match_keys (j : jv) (keys : list pystr) (o : mopts) : outcome jdict :=
    match j with
    | JDict d => fuzzy_match_keys lower score order d keys (mo_thr o) (mo_fuzzy o) (mo_mode o)
                   (mo_fill o) (mo_map o) (mo_strict o)
    | _ => Raise TypeError
    end.

  (** ** fuzzy_validate_pydantic, 22-76 *)
  Inductive input :=
  | IInstance (m : M)                                (* an instance of model_type *)
  | IDict (d : jdict)
  | ISource (s : source O).                          (* anything else *)
  Inductive params := PNone | POpts (o : mopts) | PBad.
  Inductive vres := VOk (m : M) | VErr (e : err).

  Definition fuzzy_validate_pydantic (fuzzy_parse fuzzy_match : bool) (p : params) (i : input) : vres :=
    match i with
    | IInstance m => VOk m                                                    (* 47-48 *)
    | _ =>
        let data := match i with
                    | IDict d => Ret (JDict d)                                (* 51-52 *)
                    | ISource s => extract fuzzy_parse s                      (* 54-58 *)
                    | IInstance _ => Ret JUnset
                    end in
        match data with
        | Raise _ => VErr EValidation
        | Ret j =>
            let matched :=                                                    (* 60-70 *)
              if fuzzy_match then
                match p with
                | PNone => bind (match_keys j fields (default_opts URemove)) (fun d => Ret (JDict d))
                | POpts o => bind (match_keys j fields o) (fun d => Ret (JDict d))
                | PBad => Raise TypeError
                end
              else Ret j in
            match matched with
            | Raise e => VErr (EPy e)
            | Ret j => match model_validate j with Ret m => VOk m | Raise _ => VErr EValidation end (* 72-75 *)
            end
        end
    end.

  (** ** fuzzy_validate_mapping, 78-151 *)
  Context {P : Type}.
  Variable to_dict : P -> jv.                        (* to_dict(d, …, suppress=True) of a value that is no text *)
  Inductive minput := MNone | MText (s : text) | MValue (v : P).
  (** to_dict(s, fuzzy_parse=True, suppress=True), _to_dict.py:255-263, 367-370 *)
  Definition text_to_dict (s : text) : jv := match parse true s with Ret j => j | Raise _ => JDict [] end.

  Definition fuzzy_validate_mapping (i : minput) (keys : list pystr) (o : mopts) (suppress : bool) : outcome jdict :=
    match i with
    | MNone => Raise TypeError                                                (* 117-118 *)
    | _ =>
        let dict_input :=
          match i with
          | MText s =>                                                        (* 122-127 *)
              match extract_text space (parse true) JList true s with
              | JList (x :: _) => x
              | JList [] => text_to_dict s
              | j => j
              end
          | MValue v => to_dict v                                             (* 129 *)
          | MNone => JUnset
          end in
        match dict_input with
        | JDict _ => match_keys dict_input keys o                             (* 144-151 *)
        | _ => if suppress then match_keys (JDict []) keys o else Raise ValueError  (* 131-141 *)
        end
    end.

  (** ** validate_response, _protocol.py:80-109 *)
  (** 60-71 *)
  Definition parse_json (fuzzy : bool) (s : text) : jv :=
    match extract_text space (parse fuzzy) JList true s with
    | JList [x] => x
    | j => j
    end.
  Definition is_unset (j : jv) : bool := match j with JUnset => true | _ => false end.
  (** pydantic_field.py:150-168 *)
  Definition fuzzy_match_fields (j : jv) (strict : bool) : outcome jdict :=
    bind (match_keys j fields (default_opts (if strict then URaise else UIgnore))) (fun d =>
    Ret (filter (fun e => negb (is_unset (snd e))) d)).
  Definition caught (e : exn) : bool :=                                       (* 102 *)
    match e with ValueError | TypeError | KeyError | AttributeError => true | _ => false end.
  (** None: the result None *)
  Definition validate_response (s : text) (strict fuzzy : bool) : outcome (option M) :=
    match bind (fuzzy_match_fields (parse_json fuzzy s) strict) (fun d => model_validate (JDict d)) with
    | Ret m => Ret (Some m)
    | Raise e => if caught e && negb strict then Ret None else Raise e
    end.

  (** 111-125; [dump] is model_dump of the instance *)
  Definition update (d u : jdict) : jdict := fold_left (fun d e => sset (fst e) (snd e) d) u d.
  Definition update_model (dump : M -> jdict) (m : M) (updates : jdict) : outcome M :=
    model_validate (JDict (update (dump m) updates)).
End Validate.
Arguments input : clear implicits.
Arguments vres : clear implicits.
Arguments minput : clear implicits.
