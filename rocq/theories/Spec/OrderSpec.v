(** Two problems whose data are ordered: one is supplied with at least as much hydrogen as the other. *)
From Coq Require Import Reals ZArith List.
From Verif Require Import Base.Exc Base.Dual Model.Materials Model.Laws Model.Theta Model.Forms Model.NonlinearProblem
  Spec.PhysSpec Spec.BalanceSpec Spec.NewtonSpec Spec.MaximumSpec.
Import ListNotations.
Local Open Scope R_scope.

Section Order.
Context {P : Type}.

(** Hydrogen brought per unit time and volume where the concentration is c. *)
Definition brings (s : source P) (c : R) (p : P) : R :=
  match s_decay s with Some l => - (l * c) | None => s_value s p end.
(** The second source brings at least as much as the first, also where there is less hydrogen (concentrations >= lo). *)
Definition source_order (lo : R) (M : mesh P) (s1 s2 : source P) : Prop :=
  s_volume s1 = s_volume s2 /\
  forall p c d, In p (q_cells M) -> In (q_volume M p) (ids (s_volume s1)) -> lo <= c -> 0 <= d ->
  brings s1 (c + d) p <= brings s2 c p.
(** The same for the fluxes through a surface (those of the temperature do not matter). *)
Definition bc_order (lo : R) (M : mesh P) (T : temperature P) (b1 b2 : bc P) : Prop :=
  match b1, b2 with
  | BFlux true _ _, BFlux true _ _ => True
  | BFlux false S1 f1, BFlux false S2 f2 =>
      S1 = S2 /\ forall p c d, In p (q_facets M) -> In (q_surface M p) S1 -> lo <= c -> 0 <= d ->
      flux_into f1 (val (T_T T p)) (c + d) p <= flux_into f2 (val (T_T T p)) c p
  | _, _ => False
  end.
(** Concentrations imposed at the same unknowns, in order. *)
Definition imposed_order (N : nat) (bcs1 bcs2 : list (list (nat * R))) : Prop :=
  forall i, (i < N)%nat ->
  match boundary_value bcs1 i, boundary_value bcs2 i with
  | Some g1, Some g2 => g1 <= g2
  | None, None => True
  | _, _ => False
  end.
(** Everything that feeds the mobile species, in order: what was there before, sources, fluxes. *)
Definition data_order (lo : R) (M : mesh P) (T : temperature P) (mb1 mb2 : mobile P) : Prop :=
  mb_class mb1 = ClassMobile /\ mb_class mb2 = ClassMobile /\
  (forall p, In p (q_cells M) -> val (mb_previous mb1 p) <= val (mb_previous mb2 p)) /\
  Forall2 (source_order lo M) (mb_sources mb1) (mb_sources mb2) /\
  Forall2 (bc_order lo M T) (mb_bcs mb1) (mb_bcs mb2).

(** Heat brought through a surface, per unit time and area, where the temperature is t. *)
Definition heat_in (f : flux P) (t : R) (p : P) : option R :=
  match f with
  | FluxBC g => Some (g p)
  | ConvectiveFlux h T_ext => Some (h p * (T_ext p - t))
  | CustomFlux fn => Some (fn t 0 p)
  | _ => None
  end.
(** The second condition brings at least as much as the first, also where it is colder (temperatures >= lo). *)
Definition heat_bc_order (lo : R) (M : mesh P) (b1 b2 : list Z * flux P) : Prop :=
  fst b1 = fst b2 /\ forall p t d, In p (q_facets M) -> In (q_surface M p) (fst b1) -> lo <= t -> 0 <= d ->
  exists q1 q2, heat_in (snd b1) (t + d) p = Some q1 /\ heat_in (snd b2) t p = Some q2 /\ q1 <= q2.
Definition heat_source_order (M : mesh P) (s1 s2 : source P) : Prop :=
  s_volume s1 = s_volume s2 /\
  forall p, In p (q_cells M) -> In (q_volume M p) (ids (s_volume s1)) -> s_value s1 p <= s_value s2 p.
(** Conductivity, heat capacity and density are numbers, the last two positive. *)
Definition fixed_thermal (ms : list mat_obj) : Prop :=
  forall y, In y ms -> exists k cp rho, m_thermal (attrs y) = Some (Const k) /\ m_heat (attrs y) = Some (Const cp) /\
    m_rho (attrs y) = Some (Const rho) /\ 0 < cp /\ 0 < rho.
End Order.

(** h^2 rho cp <= 6 k dt in every element of a segment, for every material there. *)
Definition heat_step_large_enough (K : nat) (X : nat -> R) (vol : nat -> Z) (ms : list mat_obj) (dt : R) : Prop :=
  forall y k cp rho e, In y ms -> m_thermal (attrs y) = Some (Const k) -> m_heat (attrs y) = Some (Const cp) ->
  m_rho (attrs y) = Some (Const rho) -> (e < K)%nat -> In (vol e) (ids (m_id (attrs y))) ->
  length_of X e ^ 2 * (rho * cp) <= 6 * k * dt.
