(** Traps in steady state: the equations of each degree of freedom of the mobile species and of the traps; Langmuir isotherm. *)
From Coq Require Import Reals ZArith List Arith.
From Verif Require Import Base.Exc Base.Dual Model.Materials Model.Laws Model.Theta Model.Forms Model.NonlinearProblem
  Spec.PhysSpec Spec.BalanceSpec Spec.NewtonSpec Spec.WeakSpec.
Import ListNotations.
Local Open Scope R_scope.

Section TrapSteady.
Context {P : Type}.

(** Test functions of the mixed space with one component. *)
Definition null : field P := fun _ => dconst 0.
Definition only_mobile (v : field P) : test_functions P := mkTests v (fun _ => null) (fun _ _ => null).
Definition only_trap (j : nat) (v : field P) : test_functions P :=
  mkTests null (fun i => if Nat.eqb i j then v else null) (fun _ _ => null).

(** x solves the steady equations with traps: x i is the value imposed at i, or the equation of the mobile species tested with
    phi i holds; the equation of each trap holds for all the phi i (traps and mobile species in the same finite element space,
    settings.traps_element_type = "CG"). *)
Definition solves_with_traps M (mb : mobile P) (ms : list mat_obj) (T : temperature P) (traps : list (trap P)) (soret : bool)
    (N : nat) (phi : nat -> field P) (bcs : list (list (nat * R))) (x : nat -> R) : Prop :=
  let mb' := mkMobile (mb_class mb) (span N phi x) (mb_previous mb) (mb_test mb) (mb_sources mb) (mb_bcs mb) in
  (forall i, (i < N)%nat -> match boundary_value bcs i with
                            | Some g => x i = g
                            | None => weak_residual M mb' ms T None traps soret (only_mobile (phi i)) 0
                            end) /\
  (forall j i, (j < length traps)%nat -> (i < N)%nat -> weak_residual M mb' ms T None traps soret (only_trap j (phi i)) 0).

(** k, d and n are the trapping and detrapping rates and the density of the trap, point by point. *)
Definition kinetics M (T : temperature P) (t : trap P) (k d n : P -> R) : Prop :=
  forall p, In p (q_cells M) -> forall i m k_0 E_k p_0 E_p nn, nth_error (t_materials t) i = Some m ->
  In (q_volume M p) (ids (m_id (attrs m))) -> trap_params t i k_0 E_k p_0 E_p nn ->
  k p = arrhenius k_0 E_k (val (T_T T p)) /\ d p = arrhenius p_0 E_p (val (T_T T p)) /\ n p = nn p.
(** What a trap holds when trapping k c (n - c_t) and detrapping d c_t balance. *)
Definition langmuir (k d n c : R) : R := n * (k * c) / (k * c + d).
End TrapSteady.
