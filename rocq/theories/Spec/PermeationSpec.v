(** Steady permeation through a slab of layers, in linear elements on a segment. *)
From Coq Require Import Reals ZArith List Arith.
From Verif Require Import Base.Exc Base.Dual Model.Materials Model.Laws Model.Theta Model.Forms Model.NonlinearProblem
  Spec.PhysSpec Spec.BalanceSpec Spec.NewtonSpec Spec.MaximumSpec.
Import ListNotations.
Local Open Scope R_scope.

Section Permeation.
Variables (K : nat) (X : nat -> R) (rule : list (R * R)) (vol : nat -> Z) (left right : Z).
Local Notation M := (segment K X rule vol left right).

(** D is the diffusivity, by the Arrhenius law of the material of each point. *)
Definition diffusivity (ms : list mat_obj) (T : temperature pt) (D : pt -> R) : Prop :=
  forall m D_0 E_D p, In m ms -> m_D0 (attrs m) = Const D_0 -> m_ED (attrs m) = Const E_D -> point M p ->
  In (q_volume M p) (ids (m_id (attrs m))) -> D p = arrhenius D_0 E_D (val (T_T T p)).
(** Mean diffusivity of element e over its length, and resistance of the first n elements, in series. *)
Definition conductance (D : pt -> R) (e : nat) : R :=
  rsum (map (fun q => snd q * D (Cell e (fst q) (snd q))) rule) / length_of X e.
Definition resistance (D : pt -> R) (n : nat) : R := rsum (map (fun e => / conductance D e) (seq 0 n)).
(** Concentrations are imposed at the ends only. *)
Definition ends_only (bcs : list (list (nat * R))) : Prop := forall i, (0 < i < K)%nat -> boundary_value bcs i = None.
(** What the flux conditions bring at an end where the concentration is c. *)
Definition entering (bcs : list (bc pt)) (T : temperature pt) (c : R) (p : pt) : R :=
  rsum (map (fun b => match b with
                      | BFlux false surfaces f =>
                          rsum (map (fun z => if Z.eqb (q_surface M p) z then flux_into f (val (T_T T p)) c p else 0) surfaces)
                      | _ => 0
                      end) bcs).
(** A slab of layers without volumetric sources, traps, Soret effect and surface kinetics. *)
Definition slab (mb : mobile pt) (ms : list mat_obj) (T : temperature pt) (D : pt -> R) : Prop :=
  (0 < K)%nat /\ (forall e, (e < K)%nat -> X e < X (S e)) /\ exact_2 rule /\ covered M ms /\ positive_temperature M T /\
  diffusivity ms T D /\ (forall p, In p (q_cells M) -> 0 < D p) /\ mb_class mb = ClassMobile /\ mb_sources mb = [] /\
  forall b, In b (mb_bcs mb) -> match b with BSurf _ => False | _ => True end.
End Permeation.
