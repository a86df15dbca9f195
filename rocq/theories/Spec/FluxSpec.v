(** The flux vector of the transport and heat equations, and the fields of properties given to the quantities. *)
From Coq Require Import Reals ZArith List String.
From Verif Require Import Base.Exc Base.Dual Model.Materials Model.Exports Model.Laws Model.Theta Model.Forms
  Model.Quantities Spec.PhysSpec Spec.BalanceSpec.
Import ListNotations.
Local Open Scope R_scope.

Section Flux.
Context {P : Type}.
Implicit Types (M : mesh P) (x : context P).

(** D (grad c + Q c / (k_B T^2) grad T), with what a quantity of the solute has been given; k grad T. *)
Definition flux_vector x (p : P) (i : nat) : R :=
  x_D x p * (grd (x_function x p) i
             + if x_soret x then x_Q x p * val (x_function x p) / (boltzmann * val (x_T x p) ^ 2) * grd (x_T x p) i
               else 0).
Definition heat_vector x (p : P) (i : nat) : R := x_cond x p * grd (x_function x p) i.

(** The fields materials.D, Q and thermal_cond (materials.py L281-291) at the points. *)
Definition given_D M (ms : list mat_obj) (T : field P) x : Prop :=
  forall p, In p (q_cells M) \/ In p (q_facets M) ->
  arhenius_coeff (fun m => Some (m_D0 m)) (fun m => Some (m_ED m)) (map attrs ms) (q_volume M p) (val (T p)) = Ok (x_D x p).
Definition given_prop M (ms : list mat_obj) (T : field P) (key : mat -> option prop) (f : P -> R) : Prop :=
  forall p, In p (q_cells M) \/ In p (q_facets M) ->
  thermal_prop key (map attrs ms) (q_volume M p) (val (T p)) = Ok (f p).

(** The volume element with its gradient: 1, r, r^2. *)
Definition element_of M (p : P) : dual :=
  match q_type M with
  | Cartesian => dconst 1
  | Cylindrical => dcoord0 (q_x0 M p)
  | Spherical => dmul (dcoord0 (q_x0 M p)) (dcoord0 (q_x0 M p))
  end.
End Flux.
