(** Model of what the exports do with file names: the parts of posixpath/os they call. *)
From Coq Require Import List String Ascii Bool.
From Verif Require Import Base.Exc.
Import ListNotations.
Local Open Scope string_scope.

Definition slash : ascii := "/"%char.

(** str.rfind("/") + 1 as used by posixpath.split: the prefix of [p] up to and including its last
    slash. *)
Fixpoint head_part (p : string) : string :=
  match p with
  | "" => ""
  | String c r =>
      match head_part r with
      | "" => if Ascii.eqb c slash then String c "" else ""
      | h => String c h
      end
  end.

(** str.rstrip("/") *)
Fixpoint rstrip_slash (p : string) : string :=
  match p with
  | "" => ""
  | String c r =>
      match rstrip_slash r with
      | "" => if Ascii.eqb c slash then "" else String c ""
      | h => String c h
      end
  end.

(** os.path.dirname (CPython Lib/posixpath.py, dirname): the head, without its trailing slashes
    unless it consists of slashes only. *)
Definition dirname (p : string) : string :=
  let h := head_part p in
  match rstrip_slash h with
  | "" => h
  | h' => h'
  end.

(** str.endswith *)
Definition endswith (s suffix : string) : bool :=
  let ls := String.length s in
  let lx := String.length suffix in
  (Nat.leb lx ls && String.eqb (substring (ls - lx) lx s) suffix)%bool.

(** The folders that exist on disk. os.path.exists("") is False, and os.makedirs("") raises. *)
Definition folders := list string.

Definition path_exists (fs : folders) (d : string) : bool :=
  (negb (String.eqb d "") && existsb (String.eqb d) fs)%bool.

(** os.makedirs(d, exist_ok=True).  Simplification: never fails for a non-empty path (no permission
    problems, no file in the way), and only [d] itself is recorded. *)
Definition makedirs (fs : folders) (d : string) : res folders :=
  if String.eqb d "" then Err (FileNotFoundError "[Errno 2] No such file or directory: ''")
  else Ok (d :: fs).

(** festim/exports/derived_quantities/derived_quantities.py L148-151 and
    festim/exports/txt_export.py L200-204: create the folder of a file before writing it. *)
Definition ensure_folder (fs : folders) (filename : string) : res folders :=
  let d := dirname filename in
  if path_exists fs d then Ok fs else makedirs fs d.

(** festim/exports/derived_quantities/derived_quantities.py L91-98,
    festim/exports/txt_export.py L69-76, festim/exports/xdmf_export.py L96-105: the filename setters
    (the value is None or a str; other types raise TypeError, not modelled). *)
Definition check_filename (ext : string) (value : option string) : res (option string) :=
  match value with
  | None => Ok None
  | Some s => if endswith s ext then Ok (Some s)
              else Err (ValueError ("filename must end with " ++ ext))
  end.
