(** States in which nothing moves: no flux anywhere, traps and surfaces in equilibrium. *)
From Coq Require Import Reals ZArith List.
From Verif Require Import Base.Exc Base.Dual Model.Materials Model.Laws Model.Theta Model.Forms Spec.PhysSpec Spec.BalanceSpec.
Import ListNotations.
Local Open Scope R_scope.

Section Rest.
Context {P : Type}.
Implicit Types (M : mesh P).

(** The flux of the concentration c vanishes: Fick, and thermal diffusion with the heat of transport of the
    material. *)
Definition heat_of_transport (m : mat) (T Q : R) : Prop :=
  m_Q m = Some (Const Q) \/ exists f, m_Q m = Some (Fun f) /\ Q = f T.
Definition no_flux M (soret : bool) (T : temperature P) (ms : list mat_obj) (c : field P) : Prop :=
  forall p, In p (q_cells M) -> forall m, In m ms -> In (q_volume M p) (ids (m_id (attrs m))) ->
  forall i, (i < q_dim M)%nat ->
  if soret then forall Q, heat_of_transport (attrs m) (val (T_T T p)) Q ->
                grd (c p) i + Q * val (c p) / (boltzmann * val (T_T T p) ^ 2) * grd (T_T T p) i = 0
  else grd (c p) i = 0.

(** Trapping and detrapping balance in the materials of the trap. *)
Definition trap_balanced M (T : temperature P) (c : field P) (t : trap P) : Prop :=
  forall i m k_0 E_k p_0 E_p n p, nth_error (t_materials t) i = Some m -> trap_params t i k_0 E_k p_0 E_p n ->
  In p (q_cells M) -> In (q_volume M p) (ids (m_id (attrs m))) ->
  arrhenius k_0 E_k (val (T_T T p)) * val (c p) * (n p - val (t_solution t p))
  = arrhenius p_0 E_p (val (T_T T p)) * val (t_solution t p).
(** Nothing in the materials the trap is not attached to. *)
Definition absent_elsewhere M (ms : list mat_obj) (t : trap P) : Prop :=
  forall m p, In m ms -> mat_in m (t_materials t) = false ->
  In p (q_cells M) -> In (q_volume M p) (ids (m_id (attrs m))) -> val (t_solution t p) = 0.

(** What the flux conditions let through at a point of the boundary, together. *)
Definition net_flux M (T : temperature P) (c : field P) (bcs : list (bc P)) (p : P) : R :=
  sum_over bcs (fun b => match b with
    | BFlux false surfaces f =>
        sum_over surfaces (fun z => if Z.eqb z (q_surface M p) then flux_into f (val (T_T T p)) (val (c p)) p else 0)
    | _ => 0
    end).
(** A surface with kinetics in equilibrium with the bulk and the vacuum. *)
Definition surface_balanced M (T : temperature P) (c : field P) (s : surface_kinetics P) : Prop :=
  forall a p, In a (sk_adsorbed s) -> In p (q_facets M) -> q_surface M p = a_surface a ->
  let T_ := val (T_T T p) in let c_s := val (a_solution a p) in let c_m := val (c p) in
  val (a_previous a p) = c_s /\ sk_J_vs s T_ c_s c_m p = 0 /\
  sk_k_bs s T_ c_s c_m p * c_m * (1 - c_s / sk_n_surf s) = sk_k_sb s T_ c_s c_m p * c_s * (1 - c_m / sk_n_IS s).

Definition at_rest_state M (soret : bool) (T : temperature P) (ms : list mat_obj) (c c_n : field P)
    (bcs : list (bc P)) (traps : list (trap P)) : Prop :=
  (forall p, val (c_n p) = val (c p)) /\ no_flux M soret T ms c /\
  (forall t, In t traps -> trap_balanced M T c t /\ absent_elsewhere M ms t /\ t_sources t = [] /\
     (forall p, val (t_previous t p) = val (t_solution t p))) /\
  (forall p, In p (q_facets M) -> net_flux M T c bcs p = 0) /\
  (forall s, In (BSurf s) bcs -> surface_balanced M T c s).

(** Heat: nothing flows in and the temperature is uniform. *)
Definition net_heat M (T : field P) (bcs : list (list Z * flux P)) (p : P) : R :=
  sum_over bcs (fun b => sum_over (fst b) (fun z => if Z.eqb z (q_surface M p) then flux_into (snd b) (val (T p)) 0 p else 0)).
End Rest.
