(** lndl/fuzzy.py.

    Scores and thresholds are rationals (floats in Python).  [order] is the order in which the
    elements of a set are iterated.  Model classes are identified by their names; specs without
    a name are not candidates (in Python the text Undefined would be one). *)
From Coq Require Import String.
From Coq Require Import List Bool Arith ZArith QArith Qabs.
From Verif Require Import PyBase ModelLexer ModelParser ModelResolver.
From Verif Require ModelSim.
Import ListNotations.
Local Close Scope Q_scope.
Local Open Scope string_scope.
Local Open Scope nat_scope.
Local Open Scope list_scope.

Section Correct.
Variables (lowers : text -> text)                          (* str.lower *)
          (score : text -> text -> Q).                     (* jaro_winkler_similarity *)
(** max over a non-empty dict: the first entry with the largest value *)
Fixpoint argmax (best : text * Q) (l : list (text * Q)) : text * Q :=
  match l with
  | [] => best
  | e :: l => if Qle_bool (snd e) (snd best) then argmax best l else argmax e l
  end.
(** 57-132 *)
Definition correct_name (target : text) (cands : list text) (thr : Q) : outcome text :=
  if existsb (eqb target) cands then Ret target                                            (* 84-85 *)
  else if Qle_bool 1 thr then Raise LNDLMissingField                                       (* 88-92 *)
  else match ModelSim.all_similar lowers score target cands false thr false with           (* 95-101 *)
       | Raise e => Raise e
       | Ret None => Raise LNDLMissingField
       | Ret (Some words) =>
           match fold_left (fun d c => dset c (score target c) d) words [] with            (* 111 *)
           | [] => Raise LNDLMissingField                                                  (* 103-107 *)
           | s :: scores =>
               let best := argmax s scores in                                              (* 114, 127 *)
               let ties := filter (fun e => negb (Qle_bool (1 # 20) (Qabs (snd e - snd best)))) (s :: scores) in
               if 1 <? length ties then Raise LNDLAmbiguous else Ret (fst best)            (* 117-127 *)
           end
       end.
End Correct.

Section Fuzzy.
Variables (V W : Type) (vbool : bool -> V) (vnone : V) (vstr vfloat : text -> V) (vint : Z -> V).
Variables (literal : text -> outcome V) (conv : scalar -> V -> outcome V) (call : text -> outcome (text * V)) (uspace : nat -> bool).
Variables (validate : text -> dict text V -> outcome W) (construct : text -> dict text (arg V) -> W).
Variables (lowers : text -> text) (score : text -> text -> Q) (order : list text -> list text).
Variable mfields : text -> list text.                      (* model_fields of a model *)
Notation correct_name := (correct_name lowers score).

Record thresholds := Thr { t_all : Q; t_field : option Q; t_lvar : option Q; t_model : option Q; t_spec : option Q }.
Definition or_else (o : option Q) (d : Q) : Q := match o with Some q => q | None => d end.
(** 190-195 *)
Definition th_field (t : thresholds) : Q := or_else (t_field t) (t_all t).
Definition th_lvar (t : thresholds) : Q := or_else (t_lvar t) (t_all t).
Definition th_model (t : thresholds) : Q := or_else (t_model t) (if Qle_bool (t_all t) (9 # 10) then 9 # 10 else t_all t).
Definition th_spec (t : thresholds) : Q := or_else (t_spec t) (t_all t).

Definition spec_names (specs : list (spec W)) : list text :=
  flat_map (fun s => match sp_name s with Some n => [n] | None => [] end) specs.
(** 198-209; operable.py 83-101: an empty include set selects all specs *)
Definition active (specs : list (spec W)) (caps : option (list text)) : outcome (list (spec W) * list text) :=
  match caps with
  | None => Ret (specs, order (spec_names specs))
  | Some l =>
      if forallb (allowed W specs) l then
        Ret (match l with
             | [] => specs
             | _ => flat_map (fun n => match get_spec W specs n with Some s => [s] | None => [] end) (order l)
             end, order l)
      else Raise ValueError
  end.

(** 261-283: for every model name, whether it is a model (or the operable's own name) *)
Definition spec_map (opname : option text) (specs : list (spec W)) : dict text bool :=
  fold_left (fun (m : dict text bool) s =>
    match sp_type s with
    | TModel n => dset n true m
    | _ =>
        match opname with
        | Some (c :: r) =>
            let n : text := c :: r in
            if dmem n m then m
            else let m := dset n false m in
                 let resp : text := n ++ codes "Response" in
                 if dmem resp m then m else dset resp false m
        | _ => m
        end
    end) specs [].
(** 307-312 and elsewhere *)
Definition expected_fields (names : list text) (m : text) (model_based : bool) : list text :=
  if model_based then mfields m else names.

(** 290-347: strict mode; every failed check raises MissingFieldError *)
Definition known (names : list text) (smap : dict text bool) (m f : text) : bool :=
  match dget m smap with
  | Some b => existsb (eqb f) (expected_fields names m b)
  | None => false
  end.
Definition strict_ok (names : list text) (smap : dict text bool) (lv : dict text lmeta) (la : dict text ameta) (o : dict text oval) : bool :=
  forallb (fun e => match snd e with LMeta m f _ => known names smap m f | RMeta _ => true end) lv &&
  forallb (fun e => match am_target (snd e) with Some (m, f) => known names smap m f | None => true end) la &&
  forallb (fun n => existsb (eqb n) names) (dkeys o).

(** 365-368, 384-388: corrections of a set of names *)
Fixpoint correct_all (cands : list text) (thr : Q) (l : list text) (d : dict text text) : outcome (dict text text) :=
  match l with
  | [] => Ret d
  | a :: l => match correct_name a cands thr with Ret b => correct_all cands thr l (dset a b d) | Raise e => Raise e end
  end.
(** 354-361 *)
Definition models_of (lv : dict text lmeta) : list text :=
  flat_map (fun e => match snd e with LMeta m _ _ => [m] | RMeta _ => [] end) lv.
Definition fields_by_model (lv : dict text lmeta) : dict text (list text) :=
  fold_left (fun d e =>
    match snd e with
    | LMeta m f _ => dset m (match dget m d with Some l => l | None => [] end ++ [f]) d
    | RMeta _ => d
    end) lv [].
(** 371-388, nested: model, then field *)
Fixpoint correct_fields (names : list text) (smap : dict text bool) (thr : Q) (models : dict text text)
    (l : list (text * list text)) (d : dict text (dict text text)) : outcome (dict text (dict text text)) :=
  match l with
  | [] => Ret d
  | (m, fs) :: l =>
      match dget m models with
      | None => Raise KeyError
      | Some m' =>
          match dget m' smap with
          | None => Raise KeyError
          | Some b =>
              match correct_all (expected_fields names m' b) thr (order fs) [] with
              | Ret c => correct_fields names smap thr models l (dset m c d)
              | Raise e => Raise e
              end
          end
      end
  end.
Definition lookup (d : dict text text) (k : text) : text := match dget k d with Some v => v | None => k end.
Definition lookup2 (d : dict text (dict text text)) (m f : text) : text := match dget m d with Some c => lookup c f | None => f end.
(** 391-408, 412-429 *)
Definition fix_var (models : dict text text) (flds : dict text (dict text text)) (x : lmeta) : lmeta :=
  match x with LMeta m f v => LMeta (lookup models m) (lookup2 flds m f) v | RMeta v => RMeta v end.
Definition fix_act (models : dict text text) (flds : dict text (dict text text)) (x : ameta) : ameta :=
  match am_target x with
  | Some (m, f) => match m with [] => x | _ => AMeta (Some (lookup models m, lookup2 flds m f)) (am_call x) end
  | None => x
  end.
(** 435-439 *)
Fixpoint fix_out (names : list text) (thr : Q) (o : list (text * oval)) (d : dict text oval) : outcome (dict text oval) :=
  match o with
  | [] => Ret d
  | (n, v) :: o => match correct_name n names thr with Ret n' => fix_out names thr o (dset n' v d) | Raise e => Raise e end
  end.
(** 449-456 *)
Fixpoint fix_list (cands : list text) (thr : Q) (l : list text) : outcome (list text) :=
  match l with
  | [] => Ret []
  | a :: l => match correct_name a cands thr with
              | Ret b => match fix_list cands thr l with Ret l => Ret (b :: l) | Raise e => Raise e end
              | Raise e => Raise e
              end
  end.
(** 447-460 *)
Fixpoint fix_refs (cands : list text) (thr : Q) (o : list (text * oval)) (d : dict text oval) : outcome (dict text oval) :=
  match o with
  | [] => Ret d
  | (n, ORefs l) :: o => match fix_list cands thr l with Ret l => fix_refs cands thr o (dset n (ORefs l) d) | Raise e => Raise e end
  | (n, v) :: o => fix_refs cands thr o (dset n v d)
  end.

Notation result := (result V W).
Notation resolve := (resolve V W vbool vnone vstr vfloat vint literal conv call uspace validate construct).
(** 349-465 *)
Definition correct (t : thresholds) (names : list text) (smap : dict text bool) (lv : dict text lmeta) (la : dict text ameta) (o : dict text oval)
  : outcome (dict text oval * dict text lmeta * dict text ameta) :=
  bind (correct_all (order (dkeys smap)) (th_model t) (order (models_of lv)) []) (fun models =>
  bind (correct_fields names smap (th_field t) models (fields_by_model lv) []) (fun flds =>
  let lv' := map (fun e => (fst e, fix_var models flds (snd e))) lv in
  let la' := map (fun e => (fst e, fix_act models flds (snd e))) la in
  bind (fix_out names (th_spec t) o []) (fun o1 =>
  bind (fix_refs (dkeys lv' ++ dkeys la') (th_lvar t) o1 []) (fun o2 => Ret (o2, lv', la'))))).
(** 211-465, after parsing; [specs], [names] as given by [active] *)
Definition fuzzy_program (t : thresholds) (opname : option text) (specs : list (spec W)) (names : list text) (p : program) : result :=
  match out p with
  | None => Refused LNDLMissingOut
  | Some o =>
      let lv := to_dict (map lvar_meta (lvars p)) in
      let la := to_dict (map lact_meta (lacts p)) in
      let smap := spec_map opname specs in
      if Qle_bool 1 (t_all t) then
        if strict_ok names smap lv la o then resolve o lv la specs else Refused LNDLMissingField
      else match correct t names smap lv la o with
           | Ret (o, lv, la) => resolve o lv la specs
           | Raise e => Refused e
           end
  end.
(** 135-465 *)
Definition parse_lndl_fuzzy (ualpha unum udigit : nat -> bool) (udec : nat -> option nat) (t : thresholds) (opname : option text)
    (caps : option (list text)) (s : text) (specs : list (spec W)) : option result :=
  match active specs caps with
  | Raise e => Some (Refused e)
  | Ret (specs, names) =>
      match tokenize ualpha unum udigit s with
      | None => None
      | Some toks =>
          match parse uspace udec toks (Some s) with
          | Done p _ => Some (fuzzy_program t opname specs names p)
          | Err e => Some (Refused e)
          | Loop => None
          end
      end
  end.
End Fuzzy.
