(** Model of acreate_path, /repo/src/lionherd_core/ln/_utils.py:27-107, of the POSIX
    paths it builds and of the file operations it performs (pathlib: parsing, joining,
    parent, mkdir(parents=True), exists).

    Simplified: no symbolic links, permissions or name length limits; no other process
    changes the files between the two operations; a negative random_hash_digits counts
    as 0; the time stamp and the random hex digits are parameters.  anyio runs each file
    operation in a thread after a checkpoint and does not interrupt it, so a timeout
    strikes before the first or before the second operation, or not at all. *)
From Coq Require Import String Ascii.
From Coq Require Import List Bool Arith.
From Verif Require Import PyBase.
Import ListNotations.
Local Open Scope list_scope.
Local Open Scope string_scope.

(** * Strings *)
(** s.split(c); [w] is what was read of the part *)
Fixpoint split_on (c : ascii) (w s : string) : list string :=
  match s with
  | EmptyString => [w]
  | String x s => if Ascii.eqb x c then w :: split_on c "" s else split_on c (w ++ String x "") s
  end.
(** c in s *)
Fixpoint has (c : ascii) (s : string) : bool :=
  match s with EmptyString => false | String x s => Ascii.eqb x c || has c s end.
(** s.rsplit(c, 1), None if c is not in s *)
Fixpoint rsplit (c : ascii) (s : string) : option (string * string) :=
  match s with
  | EmptyString => None
  | String x s =>
      match rsplit c s with
      | Some (n, e) => Some (String x n, e)
      | None => if Ascii.eqb x c then Some ("", s) else None
      end
  end.
(** s.lstrip(c) *)
Fixpoint lstrip (c : ascii) (s : string) : string :=
  match s with String x t => if Ascii.eqb x c then lstrip c t else s | _ => s end.

(** * Pure paths *)
Record path := { root : string; parts : list string }.
Definition root_of (s : string) : string :=
  match s with
  | String "/" (String "/" (String "/" _)) => "/"
  | String "/" (String "/" _) => "//"
  | String "/" _ => "/"
  | _ => ""
  end.
Definition proper (s : string) : bool := negb (String.eqb s "" || String.eqb s ".").
Definition parse (s : string) : path :=
  {| root := root_of s; parts := filter proper (split_on "/" "" s) |}.
(** p / s *)
Definition join (p : path) (s : string) : path :=
  let q := parse s in
  if String.eqb (root q) "" then {| root := root p; parts := (parts p ++ parts q)%list |} else q.

(** * The path, 63-92 *)
Record options := { extension : option string; timestamp : option string;   (* the stamp, if asked for *)
                    time_prefix : bool; hash_digits : nat; dir_exist_ok : bool; file_exist_ok : bool }.
(** 66-68 *)
Definition split_dir (dir : path) (filename : string) : path * string :=
  if has "/" filename
  then let l := split_on "/" "" filename in (join dir (String.concat "/" (removelast l)), last l "")
  else (dir, filename).
(** 75-80 *)
Definition split_ext (o : options) (filename : string) : string * string :=
  let '(name, ext) :=
    match rsplit "." filename with
    | Some p => p
    | None => (filename, match extension o with Some e => e | None => "" end)
    end in
  (name, if String.eqb ext "" then "" else String "." (lstrip "." ext)).
(** 82-90; [hex] is uuid4().hex *)
Definition decorate (o : options) (hex name : string) : string :=
  let name := match timestamp o with
              | Some ts => if time_prefix o then ts ++ "_" ++ name else name ++ "_" ++ ts
              | None => name
              end in
  if Nat.ltb 0 (hash_digits o) then name ++ "-" ++ substring 0 (hash_digits o) hex else name.
(** 63-92 *)
Definition target (dir : path) (filename : string) (o : options) (hex : string) : outcome path :=
  let '(dir, filename) := split_dir dir filename in
  if has "\" filename then Raise ValueError
  else let '(name, ext) := split_ext o filename in
       Ret (join dir (decorate o hex name ++ ext)).

(** * Files *)
(** A place is the names from the innermost outwards. *)
Definition loc := list string.
Inductive kind := Dir | File.
Definition files := loc -> option kind.
Definition loc_eqb (a b : loc) : bool := if list_eq_dec string_dec a b then true else false.
Definition step (l : loc) (p : string) : loc := if String.eqb p ".." then tl l else p :: l.
Inductive place := At (l : loc) | Missing | NotDir.
(** The place a path leads to; the last name need not exist. *)
Fixpoint walk (fs : files) (l : loc) (ps : list string) : place :=
  match ps with
  | [] => At l
  | p :: ps => match fs l with
               | Some Dir => walk fs (step l p) ps
               | Some File => NotDir
               | None => Missing
               end
  end.
Inductive failure := FileExists | FileNotFound | NotADirectory | TimedOut | BadName.
(** os.mkdir *)
Definition os_mkdir (fs : files) (s : loc) (ps : list string) : files + failure :=
  match walk fs s ps with
  | At l => match fs l with
            | None => inl (fun m => if loc_eqb m l then Some Dir else fs m)
            | Some _ => inr FileExists
            end
  | Missing => inr FileNotFound
  | NotDir => inr NotADirectory
  end.
Definition is_dir (fs : files) (s : loc) (ps : list string) : bool :=
  match walk fs s ps with At l => match fs l with Some Dir => true | _ => false end | _ => false end.
Definition exists_ (fs : files) (s : loc) (ps : list string) : bool :=
  match walk fs s ps with At l => match fs l with Some _ => true | _ => false end | _ => false end.
(** Path.mkdir(parents=False, exist_ok) *)
Definition mkdir1 (fs : files) (s : loc) (ps : list string) (ok : bool) : files * option failure :=
  match os_mkdir fs s ps with
  | inl fs => (fs, None)
  | inr FileNotFound => (fs, Some FileNotFound)
  | inr e => (fs, if ok && is_dir fs s ps then None else Some e)
  end.
(** Path.mkdir(parents=True, exist_ok) of the reversed parts *)
Fixpoint mkdirs (fs : files) (s : loc) (rps : list string) (ok : bool) : files * option failure :=
  match os_mkdir fs s (rev rps), rps with
  | inl fs, _ => (fs, None)
  | inr FileNotFound, _ :: r =>
      match mkdirs fs s r true with
      | (fs, None) => mkdir1 fs s (rev rps) ok
      | (fs, Some e) => (fs, Some e)
      end
  | inr e, _ => (fs, if ok && is_dir fs s (rev rps) then None else Some e)
  end.

(** * acreate_path, 61-107 *)
Inductive strike := Never | BeforeMkdir | BeforeExists.   (* when the timeout strikes *)
Definition start (cwd : loc) (p : path) : loc := if String.eqb (root p) "" then cwd else [].
Definition acreate_path (fs : files) (cwd : loc) (dir : path) (filename : string) (o : options) (hex : string)
    (t : strike) : files * (path + failure) :=
  match target dir filename o hex with
  | Raise _ => (fs, inr BadName)
  | Ret p =>
      match t with
      | BeforeMkdir => (fs, inr TimedOut)
      | _ =>
          match mkdirs fs (start cwd p) (rev (removelast (parts p))) (dir_exist_ok o) with
          | (fs, Some e) => (fs, inr e)
          | (fs, None) =>
              match t with
              | BeforeExists => (fs, inr TimedOut)
              | _ => if exists_ fs (start cwd p) (parts p) && negb (file_exist_ok o)
                     then (fs, inr FileExists) else (fs, inl p)
              end
          end
      end
  end.
