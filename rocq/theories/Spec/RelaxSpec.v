(** How fast differences of concentration and temperature die out. *)
From Coq Require Import Reals ZArith List Arith.
From Verif Require Import Base.Exc Base.Dual Model.Materials Model.Laws Model.Theta Model.Forms
  Spec.PhysSpec Spec.BalanceSpec Spec.NewtonSpec Spec.StabilitySpec Spec.MaximumSpec.
Import ListNotations.
Local Open Scope R_scope.

(** Time after k steps. *)
Definition time_after (dt : nat -> R) (k : nat) : R := rsum (map dt (seq 0 k)).

Section Relax.
Context {P : Type}.
(** What diffusion dissipates, and a lower bound of it relative to the size: 1/lambda is a diffusion time. *)
Definition dissipation (M : mesh P) (D : P -> R) (v : field P) : R :=
  integral M DxAll (fun p => D p * dot (q_dim M) (grd (v p)) (grd (v p))).
Definition dissipates (M : mesh P) (D : P -> R) (V : state P -> Prop) (lambda : R) : Prop :=
  forall v, V v -> lambda * norm2 M 0 v <= dissipation M D (v 0%nat).
(** The same for heat: conduction relative to rho cp T^2. *)
Definition conduction (M : mesh P) (ms : list mat_obj) (k : mat_obj -> R) (v : field P) : R :=
  sum_over ms (fun m => sum_over (ids (m_id (attrs m))) (fun z => integral M (Dx z) (fun p => k m * dot (q_dim M) (grd (v p)) (grd (v p))))).
Definition conducts (M : mesh P) (ms : list mat_obj) (rho cp k : mat_obj -> R) (V : field P -> Prop) (lambda : R) : Prop :=
  forall v, V v -> lambda * energy M rho cp ms (fun p => val (v p) ^ 2) <= conduction M ms k v.
End Relax.

(** Linear elements on a segment, value imposed at node i. *)
Definition pinned_field (K : nat) (X : nat -> R) (M : mesh pt) (i : nat) (v : field pt) : Prop :=
  exists y, y i = 0 /\ forall p, point M p ->
    val (v p) = val (span (S K) (linear K X) y p) /\ forall j, grd (v p) j = grd (span (S K) (linear K X) y p) j.
Definition pinned_state (K : nat) (X : nat -> R) (M : mesh pt) (i : nat) (v : state pt) : Prop := pinned_field K X M i (v 0%nat).
