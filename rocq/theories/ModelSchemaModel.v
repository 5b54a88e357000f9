(** Model of /repo/src/lionherd_core/libs/schema_handlers/_schema_to_model.py:
    which name is looked for, which file is written, which class comes back
    and which exception is raised.  The code generator, the import machinery
    and pydantic's rebuild are arbitrary functions.
    Left out: the choice of Python and pydantic versions (lines 20-31,
    252-253), the text of messages, and the removal of the temporary
    directory. *)
From Coq Require Import String.
From Coq Require Import List Arith Bool.
From Verif Require Import ModelLexer.
Import ListNotations.

(** The exceptions that leave [load_pydantic_model_from_schema]. *)
Inductive lexn :=
| LImport | LValue | LType | LAttribute | LRuntime | LFileNotFound | LOther.

Inductive lres (A : Type) := LOk (a : A) | LErr (e : lexn).
Arguments LOk {A} a.
Arguments LErr {A} e.

(** [string.ascii_letters], [string.digits] and underscore (line 40); texts
    are lists of code points. *)
Definition s_upper (c : nat) : bool := (65 <=? c) && (c <=? 90).
Definition s_lower (c : nat) : bool := (97 <=? c) && (c <=? 122).
Definition s_digit (c : nat) : bool := (48 <=? c) && (c <=? 57).
Definition s_valid (c : nat) : bool :=
  s_upper c || s_lower c || s_digit c || (c =? 95).

(** _sanitize_model_name, lines 34-47.  [isalpha] is only asked about a kept
    character, so about an ASCII one. *)
Definition sanitize (name : text) : lres text :=
  match filter s_valid (filter (fun c => negb (c =? 32)) name) with
  | [] => LErr LValue
  | c :: t => if s_upper c || s_lower c then LOk (c :: t) else LErr LValue
  end.

(** The value at key title: a string or something else; no key is [None]. *)
Inductive tval := TStr (s : text) | TOther.

(** _extract_model_name_from_schema, lines 50-58. *)
Definition pick_name (title : option tval) (default : text) : text :=
  match title with
  | Some (TStr []) => default
  | Some (TStr s) => match sanitize s with LOk n => n | LErr _ => default end
  | _ => default
  end.

(** What a schema string is parsed into: a dict (only its title matters), or
    a value that is no dict and so has no [get]. *)
Inductive parsed := PDict (title : option tval) | PNoDict.

(** What json_dumps does with a dict. *)
Inductive dumped := DText (s : text) | DTypeErr | DOtherErr.

Inductive schema :=
| SDict (title : option tval) (d : dumped)
| SStr (s : text)
| SAny.                                  (* neither dict nor str *)

(** What datamodel_code_generator, the import system, the generated module
    and pydantic do. *)
Inductive attr := AModel (n : nat) | ABaseModel | ANotModel (n : nat).

Inductive gen := GRaises | GNoFile | GWrites.

Record world := World {
  w_installed : bool;                    (* is the generator importable *)
  w_parse : text -> option parsed;       (* orjson.loads; [None] raises *)
  w_hash : text -> text;                 (* str(hash(schema_json)) *)
  w_low : nat -> text;                   (* str.lower on one non-ASCII character *)
  w_tmp : text;                          (* the temporary directory *)
  w_gen : text -> text -> gen;           (* schema text, output file *)
  w_spec : text -> bool;                 (* a module spec with a loader *)
  w_exec : text -> option (text -> option attr); (* the module's attributes *)
  w_rebuild : attr -> bool
}.

(** ln.to_dict on a string: ln/_to_dict.py lines 251-257 and 370-373: a
    string that does not parse raises, except the empty one. *)
Definition str_to_dict (w : world) (s : text) : option parsed :=
  match w_parse w s with
  | Some v => Some v
  | None => match s with [] => Some (PDict None) | _ => None end
  end.

(** _prepare_schema_input, lines 61-85: the schema text and the name. *)
Definition prepare (w : world) (sch : schema) (default : text) : lres (text * text) :=
  match sch with
  | SDict title d =>
      match d with
      | DText s => LOk (s, pick_name title default)
      | DTypeErr => LErr LValue
      | DOtherErr => LErr LOther
      end
  | SStr s =>
      match str_to_dict w s with
      | None => LErr LValue
      | Some (PDict title) => LOk (s, pick_name title default)
      | Some PNoDict => LErr LAttribute   (* line 52: no attribute get *)
      end
  | SAny => LErr LType
  end.

(** [str.lower] *)
Definition lower1 (w : world) (c : nat) : text :=
  if s_upper c then [c + 32] else if c <? 128 then [c] else w_low w c.
Definition lower (w : world) (s : text) : text := flat_map (lower1 w) s.

(** [tmpdir_path / name] (line 259): an absolute right-hand side replaces the
    directory. *)
Definition join (dir name : text) : text :=
  match name with
  | c :: _ => if c =? 47 then name else dir ++ 47 :: name
  | [] => dir
  end.

Definition file_name (w : world) (json name : text) : text :=
  lower w name ++ codes "_model_" ++ w_hash w json ++ codes ".py".

Definition is_model (a : attr) : bool :=
  match a with ANotModel _ => false | _ => true end.

(** _extract_model_class, lines 133-172. *)
Definition extract_class (m : text -> option attr) (name : text) : lres attr :=
  match m name with
  | Some a => if is_model a then LOk a else LErr LType
  | None =>
      match m (codes "Model") with
      | Some a => if is_model a then LOk a else LErr LType
      | None => LErr LAttribute
      end
  end.

(** load_pydantic_model_from_schema, lines 184-269, with the file handed to
    the generator. *)
Definition load (w : world) (sch : schema) (default : text)
  : lres attr * option text :=
  if negb (w_installed w) then (LErr LImport, None)
  else
    match prepare w sch default with
    | LErr e => (LErr e, None)
    | LOk (json, name) =>
        let file := join (w_tmp w) (file_name w json name) in
        (match w_gen w json file with
         | GRaises => LErr LRuntime              (* lines 97-109 *)
         | GNoFile => LErr LFileNotFound         (* lines 114-116 *)
         | GWrites =>
             if negb (w_spec w file) then LErr LImport   (* lines 118-121 *)
             else
               match w_exec w file with
               | None => LErr LRuntime           (* lines 124-128 *)
               | Some m =>
                   match extract_class m name with
                   | LErr e => LErr e
                   | LOk c => if w_rebuild w c then LOk c else LErr LRuntime
                   end
               end
         end, Some file)
    end.
