(** Model of festim/nonlinear_problem.py: the vector given to the Newton solver. *)
From Coq Require Import Reals List Arith.
Import ListNotations.
Local Open Scope R_scope.

(** A fenics.DirichletBC as the list of the constrained degrees of freedom with their values; the values of the
    list of conditions are collected in order, so a later condition replaces the value of an earlier one. *)
Fixpoint boundary_value (bcs : list (list (nat * R))) (i : nat) : option R :=
  match bcs with
  | [] => None
  | b :: r => match boundary_value r i with
              | Some g => Some g
              | None => option_map snd (find (fun q => Nat.eqb (fst q) i) b)
              end
  end.

(** nonlinear_problem.py L18-27: Problem.F, entry i of b, for the iterate [x]; [residual i] is the residual form
    assembled with the i-th basis function.
    Simplification: in the rows that are not constrained SystemAssembler also subtracts multiples of x[j] - g[j]
    (it keeps the matrix symmetric); these terms are zero as soon as the constrained rows are, and are left out. *)
Definition problem_F (bcs : list (list (nat * R))) (residual : nat -> R) (x : nat -> R) (i : nat) : R :=
  match boundary_value bcs i with
  | Some g => x i - g
  | None => residual i
  end.

(** nonlinear_problem.py L29-31: Problem.J, entry i of the product of the matrix assembled at [x] with [d].  The rows of the constrained
    degrees of freedom are those of the identity; the others are those of the form J, the derivative of the residual form with
    respect to the solution (h_transport_problem.py L323-325 and L358-363, temperature_solver.py L138-140 and L265-267, traps.py L98-100):
    [y] is the derivative of entry i of the residual in the direction d. *)
Definition problem_J (bcs : list (list (nat * R))) (residual : (nat -> R) -> nat -> R) (x d : nat -> R) (i : nat) (y : R) : Prop :=
  match boundary_value bcs i with
  | Some _ => y = d i
  | None => derivable_pt_lim (fun e => residual (fun j => x j + e * d j) i) 0 y
  end.
