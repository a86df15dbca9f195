(** The solver a run should use, from what the user did. *)
From Coq Require Import List Bool.
From Verif Require Import Model.Solvers.
Import ListNotations.

(** The parameters in force after the operations. *)
Definition params_after (p0 : params) (l : list op) : params :=
  fold_left (fun p x => match x with SetParams q => q | _ => p end) l p0.

(** The solvers the user assigned, in order. *)
Definition assigned (l : list op) : list solver :=
  flat_map (fun x => match x with SetSolver (VSolver s) => [s] | _ => [] end) l.

(** No assignment of None or of something else, no initialisation. *)
Definition plain (x : op) : Prop :=
  match x with SetSolver VNone | SetSolver VOther | Initialise _ => False | _ => True end.
(** The same, initialisations allowed. *)
Definition proper (x : op) : Prop := match x with SetSolver VNone | SetSolver VOther => False | _ => True end.

(** The last of the solvers s :: l. *)
Definition latest (s : solver) (l : list solver) : solver := last l s.
