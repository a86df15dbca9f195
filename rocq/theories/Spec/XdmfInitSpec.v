(** Names of XDMF files. *)
From Coq Require Import ZArith List String Ascii.
From Verif Require Import Model.XdmfInit.
Import ListNotations.
Local Open Scope string_scope.

(** A decimal numeral. *)
Definition digit (c : ascii) : Prop := In c ["0"; "1"; "2"; "3"; "4"; "5"; "6"; "7"; "8"; "9"]%char.
Definition numeral (s : string) : Prop := s <> "" /\ forall c, In c (list_ascii_of_string s) -> digit c.

(** The documented fields and the names of their data. *)
Inductive named : string -> string -> Prop :=
| N_solute : named "solute" "mobile_concentration"
| N_T : named "T" "temperature"
| N_retention : named "retention" "retention"
| N_trap n : numeral n -> named n ("trap_" ++ n ++ "_concentration").

(** What the constructor accepts. *)
Definition good_mode (v : pyval) : Prop :=
  v = VStr "last" \/ v = VBool true \/ exists z, v = VInt z /\ (0 < z)%Z.
Definition good_folder (v : pyval) : Prop := v = VNone \/ exists s, v = VStr s.
Definition good_checkpoint (v : pyval) : Prop := exists b, v = VBool b.
(** A file name, or a name that can be derived from the label or the field. *)
Definition good_name (field : pyval) (label : option string) (filename : pyval) : Prop :=
  (label <> None \/ exists s, field = VStr s) /\
  ((exists s, filename = VStr (s ++ ".xdmf")) \/
   (filename = VNone /\ (label <> None \/ field = VStr "trap" \/ exists s l, field = VStr s /\ named s l))).
