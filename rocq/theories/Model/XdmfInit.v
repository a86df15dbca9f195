(** Model of the construction of XDMFExport and TrapDensityXDMF: festim/exports/xdmf_export.py,
    festim/exports/trap_density_xdmf.py. *)
From Coq Require Import ZArith List String Ascii Bool.
From Verif Require Import Base.Exc Model.Paths.
Import ListNotations.
Local Open Scope string_scope.

(** A Python argument. bool is an instance of int.  [VOther]: any other hashable object. *)
Inductive pyval : Type :=
| VNone
| VStr (s : string)
| VInt (z : Z)
| VBool (b : bool)
| VOther.

(** str.isdigit, for ASCII strings (Unicode digits are left out). *)
Definition is_digit (c : ascii) : bool :=
  let n := nat_of_ascii c in (Nat.leb 48 n && Nat.leb n 57)%bool.
Fixpoint all_digits (s : string) : bool :=
  match s with "" => true | String c r => (is_digit c && all_digits r)%bool end.
Definition isdigit (s : string) : bool := (negb (String.eqb s "") && all_digits s)%bool.

(** str.replace(c, new, 1) for a one-character pattern. *)
Fixpoint replace_first (c : ascii) (new s : string) : string :=
  match s with
  | "" => ""
  | String d r => if Ascii.eqb c d then new ++ r else String d (replace_first c new r)
  end.

(** xdmf_export.py L7-12: field_to_label. *)
Definition field_to_label : list (string * string) :=
  [("solute", "mobile_concentration"); ("T", "temperature"); ("retention", "retention");
   ("trap", "trap_i_concentration")].
Fixpoint lookup (k : string) (l : list (string * string)) : option string :=
  match l with
  | [] => None
  | (k', v) :: r => if String.eqb k k' then Some v else lookup k r
  end.

(** xdmf_export.py L52-61: the label setter.  The value is None or a str (other labels are not modelled);
    the result is None when _label is not set. *)
Definition set_label (field : pyval) (value : option string) : res (option string) :=
  match value with
  | Some s => Ok (Some s)
  | None =>
      match field with
      | VStr s =>
          match lookup s field_to_label with
          | Some l => Ok (Some l)
          | None => if isdigit s then Ok (Some (replace_first "i" s "trap_i_concentration")) else Ok None
          end
      | _ => Err (AttributeError "object has no attribute 'isdigit'")
      end
  end.

(** xdmf_export.py L83-89: the folder setter. *)
Definition set_folder (value : pyval) : res (option string) :=
  match value with
  | VNone => Ok None
  | VStr s => Ok (Some s)
  | _ => Err (TypeError "folder must be a string")
  end.

(** xdmf_export.py L95-104: the filename setter. *)
Definition set_filename (label : option string) (value : pyval) : res string :=
  match value with
  | VNone =>
      match label with
      | Some l => Ok (l ++ ".xdmf")
      | None => Err (AttributeError "'XDMFExport' object has no attribute '_label'")
      end
  | VStr s => if endswith s ".xdmf" then Ok s else Err (ValueError "filename must end with .xdmf")
  | _ => Err (TypeError "filename must be a string")
  end.

(** xdmf_export.py L67-77: the mode setter. True and False are the ints 1 and 0. *)
Inductive mode : Type := Last | Every (n : Z).
Definition set_mode (value : pyval) : res mode :=
  match value with
  | VInt z => if Z.leb z 0 then Err (ValueError "mode must be positive") else Ok (Every z)
  | VBool b => if b then Ok (Every 1) else Err (ValueError "mode must be positive")
  | VStr s => if String.eqb s "last" then Ok Last else Err (ValueError "accepted values for mode are int and 'last'")
  | _ => Err (ValueError "accepted values for mode are int and 'last'")
  end.

(** xdmf_export.py L106-112: the file name given to XDMFFile. *)
Definition xdmf_path (folder : option string) (filename : string) : string :=
  match folder with
  | None => filename
  | Some d => d ++ "/" ++ filename
  end.

Record xdmf : Type := mkXdmf {
  x_label : option string;
  x_path  : string;
  x_mode  : mode;
  x_checkpoint : bool
}.

(** xdmf_export.py L33-50: __init__. *)
Definition XDMFExport (field : pyval) (label : option string) (filename mode checkpoint folder : pyval) : res xdmf :=
  let! l := set_label field label in
  let! d := set_folder folder in
  let! f := set_filename l filename in
  let! m := set_mode mode in
  match checkpoint with
  | VBool b => Ok (mkXdmf l (xdmf_path d f) m b)
  | _ => Err (TypeError "checkpoint must be a bool")
  end.

(** trap_density_xdmf.py L12-17: __init__; the trap is only stored. *)
Definition TrapDensityXDMF (label : option string) (filename mode checkpoint folder : pyval) : res xdmf :=
  XDMFExport (VStr "1") label filename mode checkpoint folder.

(** xdmf_export.py L115-136: the name written in the file (reading an unset label raises). *)
Definition written_name (x : xdmf) : res string :=
  match x_label x with
  | Some l => Ok l
  | None => Err (AttributeError "'XDMFExport' object has no attribute '_label'")
  end.
