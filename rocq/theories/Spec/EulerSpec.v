(** The terms that distinguish a transient from a steady formulation. *)
From Coq Require Import Reals ZArith List.
From Verif Require Import Base.Exc Base.Dual Model.Materials Model.Theta Model.Forms Spec.BalanceSpec.
Import ListNotations.
Local Open Scope R_scope.

Section Euler.
Context {P : Type}.
Implicit Types (M : mesh P).

(** Integrals: over the domain, the volume z, the surface z. *)
Definition isum M (ps : list P) (f : P -> R) : R := rsum (map (fun p => q_weight M p * f p) ps).
Definition volume_points M (z : Z) : list P := filter (fun p => Z.eqb (q_volume M p) z) (q_cells M).
Definition surface_points M (z : Z) : list P := filter (fun p => Z.eqb (q_surface M p) z) (q_facets M).

(** (f - f_n)/dt *)
Definition quotient (dt : R) (f f_n : P -> R) (p : P) : R := (f p - f_n p) / dt.
(** Backward difference quotients of the species times their test functions. *)
Definition surface_quotient M (dt : R) (c c_n v : P -> R) (b : bc P) : R :=
  match b with
  | BFlux _ _ _ => 0
  | BSurf s => sum_over (sk_adsorbed s) (fun a => isum M (surface_points M (a_surface a)) (fun p =>
      quotient dt (fun p => val (a_solution a p)) (fun p => val (a_previous a p)) p * val (a_test a p)
      + sk_lambda_IS s * quotient dt c c_n p * v p))
  end.
Definition time_terms M (dt : R) (c c_n : P -> R) (mb : mobile P) (traps : list (trap P)) : R :=
  isum M (q_cells M) (fun p => quotient dt c c_n p * val (mb_test mb p)) +
  sum_over traps (fun t => isum M (q_cells M) (fun p =>
    quotient dt (fun p => val (t_solution t p)) (fun p => val (t_previous t p)) p * val (t_test t p))) +
  sum_over (mb_bcs mb) (surface_quotient M dt c c_n (fun p => val (mb_test mb p))).
(** What a steady formulation adds for a trap in the materials it is not attached to: c_t = 0. *)
Definition empty_terms M (ms : list mat_obj) (t : trap P) : R :=
  sum_over (filter (fun m => negb (mat_in m (t_materials t))) ms) (fun m =>
    sum_over (ids (m_id (attrs m))) (fun z => isum M (volume_points M z) (fun p => val (t_solution t p) * val (t_test t p)))).

(** The near-surface term reads the unknown of the previous step, which is a concentration. *)
Definition near_surface_ok (mb : mobile P) : Prop := mb_class mb = ClassMobile \/ no_surface_kinetics mb.

(** Nothing has changed since the previous step. *)
Definition at_rest (mb : mobile P) (T : temperature P) (traps : list (trap P)) : Prop :=
  (forall p, val (mb_previous mb p) = val (mb_solution mb p)) /\ (forall p, val (T_Tn T p) = val (T_T T p)) /\
  (forall t, In t traps -> forall p, val (t_previous t p) = val (t_solution t p)) /\
  (forall s a, In (BSurf s) (mb_bcs mb) -> In a (sk_adsorbed s) -> forall p, val (a_previous a p) = val (a_solution a p)).
(** No trapped hydrogen where the trap is not. *)
Definition empty_outside M (ms : list mat_obj) (t : trap P) : Prop :=
  forall m p, In m ms -> mat_in m (t_materials t) = false -> In p (q_cells M) -> In (q_volume M p) (ids (m_id (attrs m))) -> val (t_solution t p) = 0.
(** Traps can be used in steady state: one id per material, or attached to all materials. *)
Definition steady_ids (ms : list mat_obj) (t : trap P) : Prop :=
  forall m, In m ms -> mat_in m (t_materials t) = false -> exists z, m_id (attrs m) = IdOne z.

(** Heat: rho cp (T - T_n)/dt in the materials. *)
Definition heat_time_terms M (dt : R) (rho cp : mat_obj -> R -> R) (ms : list mat_obj) (T T_n v : field P) : R :=
  sum_over ms (fun m => sum_over (ids (m_id (attrs m))) (fun z => isum M (volume_points M z) (fun p =>
    rho m (val (T p)) * cp m (val (T p)) * (quotient dt (fun p => val (T p)) (fun p => val (T_n p)) p * val (v p))))).
(** A property given as a number or a function of the temperature. *)
Definition is_property (o : option prop) (f : R -> R) : Prop :=
  o = Some (Fun f) \/ exists r, o = Some (Const r) /\ forall T, f T = r.
End Euler.
