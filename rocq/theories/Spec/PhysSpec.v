(** Independent statements of the physics: constants, Arrhenius laws, surface balances. *)
From Coq Require Import Reals.
Local Open Scope R_scope.

(** Boltzmann constant in eV/K and gas constant in J/mol/K. *)
Definition boltzmann : R := 8.6173303e-5.
Definition gas_constant : R := 8.314462618.

(** A coefficient of pre-exponential factor A and activation energy E (eV) at temperature T (K). *)
Definition arrhenius (A E T : R) : R := A / exp (E / (boltzmann * T)).

(** Implantation of a flux phi at depth R_p below a surface (docstring of ImplantationDirichlet):
    [c_R] is the concentration at the surface.  With a recombination coefficient Kr, what recombines is
    what is implanted plus what dissociates from the gas (nothing when no dissociation coefficient is
    given); without, recombination is instantaneous. *)
Definition surface_balance (phi dissociated : R) (Kr : option R) (c_R : R) : Prop :=
  0 <= c_R /\
  match Kr with
  | None => c_R = 0
  | Some Kr => Kr * c_R ^ 2 = phi + dissociated
  end.
(** The implanted flux goes back to the surface by diffusion over the depth R_p. *)
Definition carries_flux (phi R_p D c c_R : R) : Prop := D * (c - c_R) / R_p = phi.

(** Flux dissociated from a gas at pressure P, and a coefficient, when the parameters are given. *)
Definition dissociated (Kd_0 E_Kd P : option R) (T : R) : R :=
  match Kd_0, E_Kd, P with
  | Some k, Some e, Some p => arrhenius k e T * p
  | _, _, _ => 0
  end.
Definition coefficient (K_0 E : option R) (T : R) : option R :=
  match K_0, E with
  | Some k, Some e => Some (arrhenius k e T)
  | _, _ => None
  end.
