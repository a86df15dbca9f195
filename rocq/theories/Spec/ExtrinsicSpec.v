(** What the densities of extrinsic and neutron-induced traps should do: traps are created at a rate, and disappear in
    proportion to their density. *)
From Coq Require Import Reals List.
From Verif Require Import Base.Dual Model.Laws Model.Theta Model.Forms Model.ExtrinsicDensity.
Import ListNotations.
Local Open Scope R_scope.

Section ExtrinsicSpec.
Context {P : Type}.

(** Traps created per unit time in an empty crystal. *)
Definition creation (k : extrinsic P) (p : P) : R :=
  match k with
  | ExtrinsicTrap phi_0 _ _ eta_a eta_b f_a f_b => phi_0 p * (eta_a p * f_a p + eta_b p * f_b p)
  | NeutronInducedTrap phi K _ _ _ => phi p * K p
  end.
(** Share of the traps lost per unit time, by saturation and annealing. *)
Definition loss (k : extrinsic P) (T : P -> R) (p : P) : R :=
  match k with
  | ExtrinsicTrap phi_0 n_amax n_bmax eta_a eta_b f_a f_b =>
      phi_0 p * (eta_a p * f_a p / n_amax p + eta_b p * f_b p / n_bmax p)
  | NeutronInducedTrap phi K n_max A_0 E_A => phi p * K p / n_max p + A_0 p * exp (- E_A p / (k_B * T p))
  end.

(** The function space: differences of its functions, and constants. *)
Definition space (V : (P -> R) -> Prop) : Prop :=
  (forall u v, V u -> V v -> V (fun p => u p - v p)) /\ (forall a, V (fun _ => a)).
Definition weights (M : mesh P) : Prop := forall p, In p (q_cells M) -> 0 <= q_weight M p.
(** Creation [c] and loss [l] at every point. *)
Definition uniform (M : mesh P) (k : extrinsic P) (T : P -> R) (c l : R) : Prop :=
  forall p, In p (q_cells M) -> creation k p = c /\ loss k T p = l.

(** The share of the equilibrium density still missing after steps of these sizes. *)
Fixpoint missing (l : R) (dts : list R) : R :=
  match dts with [] => 1 | dt :: dts => / (1 + l * dt) * missing l dts end.
Definition elapsed (dts : list R) : R := fold_right Rplus 0 dts.
(** Square of the mean distance of two densities. *)
Definition distance2 (M : mesh P) (n m : P -> R) : R := integral M DxAll (fun p => (n p - m p) * (n p - m p)).
End ExtrinsicSpec.
