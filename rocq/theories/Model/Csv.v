(** Model of the text of the derived quantities file: festim/exports/derived_quantities/derived_quantities.py
    L154 (numpy.savetxt with fmt="%s" and delimiter=",") and of how a point is printed in the title of a
    PointValue (point_value.py L26-30 and L42). *)
From Coq Require Import ZArith List String.
From Verif Require Import Base.Exc Model.Exports.
Import ListNotations.
Local Open Scope string_scope.

(** sep.join(l) *)
Fixpoint join (sep : string) (l : list string) : string :=
  match l with
  | [] => ""
  | [s] => s
  | s :: r => s ++ sep ++ join sep r
  end.

Section Csv.
Context {A V : Type}.
(** str of a time and of a value in numpy.array(self.data). *)
Variable show_t : A -> string.
Variable show_v : V -> string.
(** numpy.array(self.data): an array of strings, since the header is one. *)
Definition cells (r : row (A:=A) V) : list string :=
  match r with
  | Header titles => titles
  | Row t values => show_t t :: map show_v values
  end.
(** numpy.savetxt: no quoting. *)
Definition csv_line (r : row (A:=A) V) : string := join "," (cells r).
Definition csv_lines (rows : list (row (A:=A) V)) : list string := map csv_line rows.
End Csv.

(** f"{self.x}": a list or a tuple; point_value.py L28-29 makes a list of a single number. *)
Inductive point_arg : Type :=
| PNumber (s : string)          (* a number, printed as s *)
| PList (l : list string)
| PTuple (l : list string).
Definition print_point (x : point_arg) : string :=
  match x with
  | PNumber s => "[" ++ s ++ "]"
  | PList l => "[" ++ join ", " l ++ "]"
  | PTuple [s] => "(" ++ s ++ ",)"
  | PTuple l => "(" ++ join ", " l ++ ")"
  end.
