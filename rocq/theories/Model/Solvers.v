(** Which Newton solver a problem uses: the setters newton_solver, define_newton_solver and the calls of it in
    h_transport_problem.py, temperature/temperature_solver.py and concentration/traps/extrinsic_trap.py.
    A solver is built by festim from the parameters (all of them kept here), or comes from the user. *)
From Coq Require Import List Bool String ZArith QArith.
From Verif Require Import Base.Exc.
Import ListNotations.

(** settings.py L65-76, temperature_solver.py L52-56, extrinsic_trap.py L46-50. *)
Record params : Type := mkParams {
  absolute_tolerance : Q;
  relative_tolerance : Q;
  maximum_iterations : Z;
  linear_solver      : option string;
  preconditioner     : string
}.

(** fenics.NewtonSolver objects: built by festim with the parameters and error_on_nonconvergence, or the n-th
    one made by the user. *)
Inductive solver : Type :=
| Built (p : params) (error_on_nonconvergence : bool)
| Custom (n : nat).

(** What a user can assign. *)
Inductive value : Type := VNone | VSolver (s : solver) | VOther.

(** The attributes of the object that owns the solver, and the number of times "Settings for the Newton
    solver will be overwritten" was printed. *)
Record owner : Type := mkOwner {
  ow_params  : params;
  ow_solver  : option solver;
  ow_printed : nat
}.

(** h_transport_problem.py L52-63, temperature_solver.py L70-81, extrinsic_trap.py L62-71: the setter. *)
Definition set_newton_solver (o : owner) (v : value) : res owner :=
  match v with
  | VNone => Ok (mkOwner (ow_params o) None (ow_printed o))
  | VSolver s =>
      let n := match ow_solver o with Some _ => S (ow_printed o) | None => ow_printed o end in
      Ok (mkOwner (ow_params o) (Some s) n)
  | VOther => Err (TypeError "accepted type for newton_solver is fenics.NewtonSolver")
  end.

(** h_transport_problem.py L280-294 (error = false), temperature_solver.py L226-234 and extrinsic_trap.py
    L73-81 (error = true): define_newton_solver. *)
Definition define_newton_solver (error : bool) (o : owner) : res owner :=
  set_newton_solver o (VSolver (Built (ow_params o) error)).

Inductive kind : Type := Hydrogen | Heat | ExtrinsicTrap.

(** What Simulation.initialise() does to the solver.
    - Hydrogen: a new HTransportProblem is made (generic_simulation.py L348-350, h_transport_problem.py L40) and
      its solver defined (h_transport_problem.py L104); the parameters are those of settings;
    - Heat: temperature_solver.py L132-133;
    - ExtrinsicTrap: h_transport_problem.py L109-111, traps.py L90-93. *)
Definition initialise (k : kind) (transient : bool) (o : owner) : res owner :=
  match k with
  | Hydrogen => define_newton_solver false (mkOwner (ow_params o) None (ow_printed o))
  | Heat => match ow_solver o with None => define_newton_solver true o | Some _ => Ok o end
  | ExtrinsicTrap => if transient then define_newton_solver true o else Ok o
  end.

(** What a user does with the owner. *)
Inductive op : Type :=
| SetParams (p : params)
| SetSolver (v : value)
| Initialise (transient : bool).

Definition step (k : kind) (o : owner) (x : op) : res owner :=
  match x with
  | SetParams p => Ok (mkOwner p (ow_solver o) (ow_printed o))
  | SetSolver v => set_newton_solver o v
  | Initialise tr => initialise k tr o
  end.
Fixpoint exec (k : kind) (o : owner) (l : list op) : res owner :=
  match l with
  | [] => Ok o
  | x :: r => let! o' := step k o x in exec k o' r
  end.

(** The constructors: newton_solver = None (h_transport_problem.py L40, temperature_solver.py L64,
    extrinsic_trap.py L52). *)
Definition new_owner (p : params) : owner := mkOwner p None 0.
