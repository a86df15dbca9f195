(** Exchanges of a surface with kinetics (C71): the two fluxes as documented, and the test functions that
    select the equation of one species. *)
From Coq Require Import Reals ZArith List.
From Verif Require Import Base.Dual Model.Materials Model.Laws Model.Theta Model.Forms Spec.PhysSpec Spec.BalanceSpec.
Import ListNotations.
Local Open Scope R_scope.

Section Surface.
Context {P : Type}.

Definition null (v : field P) : Prop := forall p, val (v p) = 0 /\ forall i, grd (v p) i = 0.

(** From the subsurface to the surface: proportional to the concentration and to the free adsorption sites. *)
Definition to_surface (s : surface_kinetics P) (T c_s c : R) (p : P) : R :=
  sk_k_bs s T c_s c p * c * ((sk_n_surf s - c_s) / sk_n_surf s).
(** From the surface to the subsurface: proportional to the adsorbed hydrogen and to the free interstitial sites. *)
Definition to_bulk (s : surface_kinetics P) (T c_s c : R) (p : P) : R :=
  sk_k_sb s T c_s c p * c_s * ((sk_n_IS s - c) / sk_n_IS s).

Definition adsorbed_null (b : bc P) : Prop :=
  match b with BSurf s => forall a, In a (sk_adsorbed s) -> null (a_test a) | BFlux _ _ _ => True end.

(** One surface of one condition among the others: the condition [s] of the problem, the adsorbed species [a]. *)
Definition one_of (mb : mobile P) (s : surface_kinetics P) (a : adsorbed P) (B1 B2 : list (bc P)) (A1 A2 : list (adsorbed P)) : Prop :=
  mb_bcs mb = B1 ++ BSurf s :: B2 /\ sk_adsorbed s = A1 ++ a :: A2.
(** All test functions but the one of [a] are zero. *)
Definition only_adsorbed (mb : mobile P) (traps : list (trap P)) (B1 B2 : list (bc P)) (A1 A2 : list (adsorbed P)) : Prop :=
  null (mb_test mb) /\ (forall t, In t traps -> null (t_test t)) /\
  (forall b, In b (B1 ++ B2) -> adsorbed_null b) /\ (forall a, In a (A1 ++ A2) -> null (a_test a)).

(** The surface z is one vertex (SurfaceKinetics is 1D only). *)
Definition vertex (M : mesh P) (z : Z) (p : P) : Prop :=
  filter (fun q => Z.eqb (q_surface M q) z) (q_facets M) = [p] /\ q_weight M p <> 0.

(** The condition seen from the bulk: what the surface gives minus what it takes, and what the layer of
    thickness lambda_IS takes. *)
Definition equivalent_flux (dt : option R) (T : field P) (s : surface_kinetics P) (c c_n : P -> R) (a : adsorbed P) : bc P :=
  BFlux false [a_surface a] (FluxBC (fun p =>
    to_bulk s (val (T p)) (val (a_solution a p)) (c p) p - to_surface s (val (T p)) (val (a_solution a p)) (c p) p
    - match dt with Some dt => sk_lambda_IS s * (c p - c_n p) / dt | None => 0 end)).
Definition with_bcs (mb : mobile P) (bs : list (bc P)) : mobile P :=
  mkMobile (mb_class mb) (mb_solution mb) (mb_previous mb) (mb_test mb) (mb_sources mb) bs.
End Surface.
