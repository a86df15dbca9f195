(** Model of the densities of the extrinsic traps in a simulation: their initial value, and what happens to them in a
    transient and in a steady run. *)
From Coq Require Import Reals ZArith List.
From Verif Require Import Base.Exc Base.Dual Model.Materials Model.Theta Model.Forms.
Import ListNotations.
Local Open Scope R_scope.

Section ExtrinsicDensity.
Context {P : Type}.

(** extrinsic_trap.py L84-130 and neutron_induced_trap.py L34-59: the parameters of the two classes of traps deriving
    from ExtrinsicTrapBase. *)
Inductive extrinsic : Type :=
| ExtrinsicTrap (phi_0 n_amax n_bmax eta_a eta_b f_a f_b : P -> R)
| NeutronInducedTrap (phi K n_max A_0 E_A : P -> R).

(** A function by its values; the forms of the densities contain no gradient. *)
Definition as_field (u : P -> R) : field P := fun p => dconst (u p).

(** extrinsic_trap.py L132-161, neutron_induced_trap.py L61-94: create_form_density of each class. *)
Definition form_density (k : extrinsic) (dt : R) (T n n_prev v : P -> R) : form P :=
  match k with
  | ExtrinsicTrap phi_0 n_amax n_bmax eta_a eta_b f_a f_b =>
      extrinsic_form dt phi_0 n_amax n_bmax eta_a eta_b f_a f_b (as_field n) (as_field n_prev) (as_field v)
  | NeutronInducedTrap phi K n_max A_0 E_A =>
      neutron_form dt phi K n_max A_0 E_A (as_field T) (as_field n) (as_field n_prev) (as_field v)
  end.

(** traps.py L95-106 (solve_extrinsic_traps): the density solves its form for every test function of its space [V].
    Simplification: the solver is exact. *)
Definition solve_density (M : mesh P) (V : (P -> R) -> Prop) (k : extrinsic) (dt : R) (T n_prev n : P -> R) : Prop :=
  V n /\ forall v, V v -> assemble M (form_density k dt T n n_prev v) = 0.

(** traps.py L65-71: a new Function, and the projection of 0. *)
Definition initial_density : P -> R := fun _ => 0.

(** h_transport_problem.py L329-337, traps.py L108-111: update in turn assigns the density to the previous density and
    solves, with the value dt has at that moment.  [dts]: these values, in the order of the steps.  Simplification: the
    parameters and the temperature do not change. *)
Inductive solve_densities (M : mesh P) (V : (P -> R) -> Prop) (k : extrinsic) (T : P -> R)
  : list R -> (P -> R) -> (P -> R) -> Prop :=
| NoStep n : solve_densities M V k T [] n n
| OneStep dt dts n n' n'' :
    solve_density M V k dt T n n' -> solve_densities M V k T dts n' n'' ->
    solve_densities M V k T (dt :: dts) n n''.

(** h_transport_problem.py L110-112: the forms of the densities are only defined in transient simulations;
    generic_simulation.py L485-503 (run_steady): solve_once does not solve for the densities. *)
Definition simulated_density (M : mesh P) (V : (P -> R) -> Prop) (k : extrinsic) (T : P -> R) (transient : bool)
    (dts : list R) (n : P -> R) : Prop :=
  if transient then solve_densities M V k T dts initial_density n else n = initial_density.
End ExtrinsicDensity.
Arguments extrinsic P : clear implicits.
