(** The equations with the true rates of change instead of the difference quotients of the time steps. *)
From Coq Require Import Reals ZArith List Arith.
From Verif Require Import Base.Exc Base.Dual Model.Materials Model.Laws Model.Theta Model.Forms
  Spec.PhysSpec Spec.BalanceSpec Spec.StabilitySpec Spec.EulerSpec Spec.RelaxSpec.
Import ListNotations.
Local Open Scope R_scope.

(** y has the rate of change y', which changes by at most B per second. *)
Definition smooth (y y' : R -> R) (B : R) : Prop :=
  forall t, 0 <= t -> derivable_pt_lim y t (y' t) /\ forall s, 0 <= s -> Rabs (y' s - y' t) <= B * Rabs (s - t).

Section Converge.
Context {P : Type}.
Implicit Types (M : mesh P).

Definition smooth_state M (n : nat) (w : R -> state P) (w' : R -> nat -> P -> R) (B : R) : Prop :=
  forall j p, (j <= n)%nat -> In p (q_cells M) -> smooth (fun t => val (w t j p)) (fun t => w' t j p) B.
(** At every instant the rates of change of the concentrations, tested with v, balance the other terms of the
    equations; where a trap is not, its concentration stays as it is (empty_terms: what a steady formulation
    would add there). *)
Definition evolution M (pb : R -> problem P) (V : state P -> Prop) (w : R -> state P) (w' : R -> nat -> P -> R) : Prop :=
  forall t v, 0 < t -> V v -> exists F, equations M (pb t) None (w t) (w t) v = Ok F /\
    total M (fun p => sum_over (seq 0 (S (length (pb_traps (pb t))))) (fun j => w' t j p * val (v j p)))
    + (assemble M F - sum_over (put 1 (pb_traps (pb t)) (w t) (w t) v) (empty_terms M (pb_materials (pb t)))) = 0.
(** L2 distance of the species and the traps. *)
Definition distance M (n : nat) (u w : state P) : R := sqrt (norm2 M n (diff u w)).
(** A run with the stepsizes dt: every step reads the data at its new time, and comes with the same imposed
    values, non-negative surface concentrations and bounded trapping rates. *)
Definition run M (pb : R -> problem P) (V : state P -> Prop) (L Lambda : R) (dt : nat -> R) (u : nat -> state P) (w : R -> state P) : Prop :=
  forall k, let t := time_after dt (S k) in
  solves M (pb t) (Some (dt k)) V (u (S k)) (u k) /\ V (diff (u (S k)) (w t)) /\
  nonnegative_at_boundary M (u (S k)) /\ nonnegative_at_boundary M (w t) /\ bounded_rates M (pb t) (u (S k)) (w t) L Lambda.
(** Data of the problem at all times. *)
Definition good_data M (pb : R -> problem P) (D : R -> P -> R) (n : nat) : Prop :=
  forall t, 0 < t -> physical M (pb t) (D t) /\ length (pb_traps (pb t)) = n /\
  (forall tr, In tr (pb_traps (pb t)) -> steady_ids (pb_materials (pb t)) tr).

(** Heat: rho cp dT/dt. *)
Definition heat_evolution M (ms : list mat_obj) (rho cp : mat_obj -> R) (sources : R -> list (source P)) (bcs : R -> list (list Z * flux P))
    (V : field P -> Prop) (T : R -> field P) (T' : R -> P -> R) : Prop :=
  forall t v, 0 < t -> V v -> exists F, heat_form M false 1 (T t) (T t) v ms (sources t) (bcs t) = Ok F /\
    energy M rho cp ms (fun p => T' t p * val (v p)) + assemble M F = 0.
Definition heat_distance M (ms : list mat_obj) (rho cp : mat_obj -> R) (T S : field P) : R :=
  sqrt (energy M rho cp ms (fun p => (val (T p) - val (S p)) ^ 2)).
Definition heat_run M (ms : list mat_obj) (sources : R -> list (source P)) (bcs : R -> list (list Z * flux P)) (V : field P -> Prop)
    (dt : nat -> R) (T : nat -> field P) (S : R -> field P) : Prop :=
  forall k, let t := time_after dt (Datatypes.S k) in
  heat_solves M ms (sources t) (bcs t) true (dt k) V (T (Datatypes.S k)) (T k) /\ V (fun p => dsub (T (Datatypes.S k) p) (S t p)) /\
  (forall p, In p (q_facets M) -> 0 < val (T (Datatypes.S k) p) /\ 0 < val (S t p)) /\
  (forall b, In b (bcs t) -> forall p, In p (q_facets M) -> In (q_surface M p) (fst b) -> cooling (snd b) p).
End Converge.
