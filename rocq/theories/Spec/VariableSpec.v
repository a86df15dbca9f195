(** Conservation of chemical potential as a change of unknown. *)
From Coq Require Import Reals ZArith List.
From Verif Require Import Base.Exc Base.Dual Model.Materials Model.Laws Model.Theta Model.Forms Spec.PhysSpec Spec.BalanceSpec.
Import ListNotations.
Local Open Scope R_scope.

Section Unknown.
Context {P : Type}.
Implicit Types (M : mesh P).

(** c = S(T) theta (Sieverts) or S(T) theta^2 (Henry), and its gradient: d theta and dT with
    S'(T) = S(T) E_S / (k_B T^2). *)
Definition theta_slope (l : law) (theta : R) : R := match l with Sievert => 1 | Henry => 2 * theta end.
Definition is_concentration (l : law) (S_0 E_S : R) (T theta c : dual) : Prop :=
  let S := arrhenius S_0 E_S (val T) in
  val c = law_conc l S (val theta) /\
  forall i, grd c i = S * theta_slope l (val theta) * grd theta i + val c * (E_S / (boltzmann * val T ^ 2)) * grd T i.

(** [c] and [c_n] are the concentrations now and before, with the law of the material at each point. *)
Definition concentration_fields M (mb : mobile P) (T : temperature P) (ms : list mat_obj) (c c_n : field P) : Prop :=
  forall p, In p (q_cells M) \/ In p (q_facets M) ->
  forall m, In m ms -> In (q_volume M p) (ids (m_id (attrs m))) ->
  exists S_0 E_S, m_S0 (attrs m) = Some (Const S_0) /\ m_ES (attrs m) = Some (Const E_S) /\
    is_concentration (m_law (attrs m)) S_0 E_S (T_T T p) (mb_solution mb p) (c p) /\
    is_concentration (m_law (attrs m)) S_0 E_S (T_Tn T p) (mb_previous mb p) (c_n p).

(** The mobile species of a simulation without conservation of chemical potential, of concentration c. *)
Definition of_concentration (mb : mobile P) (c c_n : field P) : mobile P :=
  mkMobile ClassMobile c c_n (mb_test mb) (mb_sources mb) (mb_bcs mb).
End Unknown.
