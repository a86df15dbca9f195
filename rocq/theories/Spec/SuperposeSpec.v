(** Superposition of linear problems. *)
From Coq Require Import Reals ZArith List.
From Verif Require Import Base.Exc Base.Dual Model.Materials Model.Laws Model.Theta Model.Forms Spec.BalanceSpec.
Import ListNotations.
Local Open Scope R_scope.

Inductive Forall3 {A} (Rel : A -> A -> A -> Prop) : list A -> list A -> list A -> Prop :=
| F3_nil : Forall3 Rel [] [] []
| F3_cons a b c l k r : Rel a b c -> Forall3 Rel l k r -> Forall3 Rel (a :: l) (b :: k) (c :: r).

Section Superpose.
Context {P : Type}.
Variables (a b : R).

(** w = a u + b v, with the gradients. *)
Definition mix (u v w : field P) : Prop :=
  forall p, val (w p) = a * val (u p) + b * val (v p) /\ forall i, grd (w p) i = a * grd (u p) i + b * grd (v p) i.
Definition mix_data (u v w : P -> R) : Prop := forall p, w p = a * u p + b * v p.

Definition mix_source (s t r : source P) : Prop :=
  s_volume r = s_volume s /\ s_volume t = s_volume s /\ s_decay r = s_decay s /\ s_decay t = s_decay s /\
  mix_data (s_value s) (s_value t) (s_value r).

(** Conditions whose flux is linear in the concentration and the data. *)
Inductive mix_flux : flux P -> flux P -> flux P -> Prop :=
| MixValue u v w : mix_data u v w -> mix_flux (FluxBC u) (FluxBC v) (FluxBC w)
| MixRecombination K E : mix_flux (RecombinationFlux K E (EInt 1)) (RecombinationFlux K E (EInt 1)) (RecombinationFlux K E (EInt 1))
| MixDissociation K E u v w : mix_data u v w -> mix_flux (DissociationFlux K E u) (DissociationFlux K E v) (DissociationFlux K E w)
| MixMass h u v w : mix_data u v w -> mix_flux (MassFlux h u) (MassFlux h v) (MassFlux h w).
Inductive mix_bc : bc P -> bc P -> bc P -> Prop :=
| MixHeat l f g h : mix_bc (BFlux true l f) (BFlux true l g) (BFlux true l h)
| MixFlux l f g h : mix_flux f g h -> mix_bc (BFlux false l f) (BFlux false l g) (BFlux false l h).

(** No conservation of chemical potential, or with Sieverts materials only. *)
Definition linear_class (cl : mobile_class P) (ms : list mat_obj) : Prop :=
  match cl with
  | ClassMobile => True
  | ClassTheta _ ms' => (forall m, In m ms -> m_law (attrs m) = Sievert) /\ (forall m, In m ms' -> m_law m = Sievert)
  end.

Definition mix_problem (m1 m2 m : mobile P) : Prop :=
  mb_class m1 = mb_class m /\ mb_class m2 = mb_class m /\ mb_test m1 = mb_test m /\ mb_test m2 = mb_test m /\
  mix (mb_solution m1) (mb_solution m2) (mb_solution m) /\ mix (mb_previous m1) (mb_previous m2) (mb_previous m) /\
  Forall3 mix_source (mb_sources m1) (mb_sources m2) (mb_sources m) /\ Forall3 mix_bc (mb_bcs m1) (mb_bcs m2) (mb_bcs m).

(** Heat: constant properties, fluxes linear in the temperature and the data. *)
Inductive mix_heat_flux : flux P -> flux P -> flux P -> Prop :=
| MixHeatValue u v w : mix_data u v w -> mix_heat_flux (FluxBC u) (FluxBC v) (FluxBC w)
| MixConvective h u v w : mix_data u v w -> mix_heat_flux (ConvectiveFlux h u) (ConvectiveFlux h v) (ConvectiveFlux h w).
Definition mix_heat_bc (x y z : list Z * flux P) : Prop :=
  fst x = fst z /\ fst y = fst z /\ mix_heat_flux (snd x) (snd y) (snd z).
Definition constant_thermal (m : mat) : Prop :=
  (exists k, m_thermal m = Some (Const k)) /\ (forall f, m_heat m <> Some (Fun f)) /\ (forall f, m_rho m <> Some (Fun f)).

(** Values imposed on the same degrees of freedom. *)
Definition mix_row (x y z : nat * R) : Prop := fst x = fst z /\ fst y = fst z /\ snd z = a * snd x + b * snd y.
Definition mix_rows (x y z : list (list (nat * R))) : Prop := Forall3 (Forall3 mix_row) x y z.
End Superpose.

(** Derived quantities of the same simulation inputs, with mixed fields; extrema aside. *)
From Verif Require Import Model.Exports Model.Quantities.
Definition mix_context {P} (a b : R) (x y z : context P) : Prop :=
  mix a b (x_function x) (x_function y) (x_function z) /\
  x_D x = x_D z /\ x_D y = x_D z /\ x_cond x = x_cond z /\ x_cond y = x_cond z /\ x_Q x = x_Q z /\ x_Q y = x_Q z /\
  x_T x = x_T z /\ x_T y = x_T z /\ x_n x = x_n z /\ x_n y = x_n z /\ x_soret x = x_soret z /\ x_soret y = x_soret z.
Definition is_extremum (k : qkind) : bool :=
  match k with MaximumVolume | MinimumVolume | MaximumSurface | MinimumSurface => true | _ => false end.
