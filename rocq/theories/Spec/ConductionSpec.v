(** Steady heat conduction through a wall of layers, in linear elements on a segment; exchanges at the ends. *)
From Coq Require Import Reals ZArith List Arith.
From Verif Require Import Base.Exc Base.Dual Model.Materials Model.Laws Model.Theta Model.Forms Model.NonlinearProblem
  Spec.PhysSpec Spec.BalanceSpec Spec.NewtonSpec Spec.MaximumSpec Spec.PermeationSpec.
Import ListNotations.
Local Open Scope R_scope.

(** What happens at an end: a value is imposed, or an exchange h (outside - u) with the outside. *)
Inductive end_condition : Type := Imposed (c : R) | Exchange (h c : R).
Definition outside (e : end_condition) : R := match e with Imposed c | Exchange _ c => c end.
(** A film of resistance 1 / h, or none. *)
Definition film (e : end_condition) : R := match e with Imposed _ => 0 | Exchange h _ => / h end.
(** [enter u]: what the flux conditions of the end bring when the value there is u. *)
Definition at_end (bcs : list (list (nat * R))) (enter : R -> R) (i : nat) (e : end_condition) : Prop :=
  match e with
  | Imposed c => boundary_value bcs i = Some c
  | Exchange h c => boundary_value bcs i = None /\ 0 < h /\ forall u, enter u = h * (c - u)
  end.
(** Values going monotonically from a to b. *)
Definition monotone_between (K : nat) (x : nat -> R) (a b : R) : Prop :=
  (a <= b -> forall i j, (i <= j <= K)%nat -> a <= x i <= x j /\ x j <= b) /\
  (b <= a -> forall i j, (i <= j <= K)%nat -> b <= x j <= x i /\ x i <= a).

Section Conduction.
Variables (K : nat) (X : nat -> R) (rule : list (R * R)) (vol : nat -> Z) (left right : Z).
Local Notation M := (segment K X rule vol left right).

(** k t p is the thermal conductivity at point p if the temperature there is t. *)
Definition conductivity (ms : list mat_obj) (k : R -> pt -> R) : Prop :=
  forall m p t, In m ms -> point M p -> In (q_volume M p) (ids (m_id (attrs m))) ->
  match m_thermal (attrs m) with Some (Const c) => k t p = c | Some (Fun f) => k t p = f t | None => True end.
(** What the flux conditions bring at an end where the temperature is t. *)
Definition heat_entering (bcs : list (list Z * flux pt)) (t : R) (p : pt) : R :=
  rsum (map (fun b => rsum (map (fun z => if Z.eqb (q_surface M p) z then flux_into (snd b) t 0 p else 0) (fst b))) bcs).
(** A wall of layers with fluxes of heat at its ends. *)
Definition wall (ms : list mat_obj) (bcs : list (list Z * flux pt)) (k : R -> pt -> R) : Prop :=
  (0 < K)%nat /\ (forall e, (e < K)%nat -> X e < X (S e)) /\ exact_2 rule /\ covered M ms /\ conductivity ms k /\
  (forall t p, In p (q_cells M) -> 0 < k t p) /\
  forall b, In b bcs -> match snd b with FluxBC _ | ConvectiveFlux _ _ | CustomFlux _ => True | _ => False end.
End Conduction.
