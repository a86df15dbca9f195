(** Inventories, sources and fluxes as weighted sums over the quadrature points, independent of the
    way the forms are built. *)
From Coq Require Import Reals ZArith List.
From Verif Require Import Base.Exc Base.Dual Model.Materials Model.Laws Model.Theta Model.Forms Spec.PhysSpec.
Import ListNotations.
Local Open Scope R_scope.

Section Balance.
Context {P : Type}.
Implicit Types (M : mesh P).

(** Volume element of the coordinate system: 1, r or r^2 (times an angle). *)
Definition weight M (p : P) : R :=
  match q_type M with
  | Cartesian => 1
  | Cylindrical => q_x0 M p
  | Spherical => q_x0 M p ^ 2
  end.
(** The field is the volume element, with its gradient. *)
Definition is_weight M (v : field P) : Prop :=
  forall p, val (v p) = weight M p /\
    forall i, grd (v p) i = match q_type M, i with
                            | Cylindrical, O => 1
                            | Spherical, O => 2 * q_x0 M p
                            | _, _ => 0
                            end.

Definition wsum M (ps : list P) (f : P -> R) : R :=
  rsum (map (fun p => q_weight M p * (weight M p * f p)) ps).
(** Integral of f over the domain, over the volume z, over the surface z. *)
Definition total M (f : P -> R) : R := wsum M (q_cells M) f.
Definition total_in M (z : Z) (f : P -> R) : R :=
  wsum M (filter (fun p => Z.eqb (q_volume M p) z) (q_cells M)) f.
Definition total_on M (z : Z) (f : P -> R) : R :=
  wsum M (filter (fun p => Z.eqb (q_surface M p) z) (q_facets M)) f.
Definition sum_over {A} (l : list A) (f : A -> R) : R := rsum (map f l).

(** No id is used twice and each point belongs to the material with its marker. *)
Definition all_ids (ms : list mat_obj) : list Z := flat_map (fun m => ids (m_id (attrs m))) ms.
Definition covered M (ms : list mat_obj) : Prop :=
  NoDup (all_ids ms) /\ forall p, In p (q_cells M) \/ In p (q_facets M) -> In (q_volume M p) (all_ids ms).

(** [c] and [c_n] are the mobile concentration now and at the previous step: the unknown itself, or the
    unknown times the solubility at T and T_n (squared unknown for Henry). *)
Definition law_conc (l : law) (S theta : R) : R :=
  match l with Sievert => theta * S | Henry => theta ^ 2 * S end.
Definition concentration_at (mb : mobile P) (T : temperature P) (m : mat) (p : P) (c c_n : R) : Prop :=
  match mb_class mb with
  | ClassMobile => c = val (mb_solution mb p) /\ c_n = val (mb_previous mb p)
  | ClassTheta _ _ =>
      exists S_0 E_S, m_S0 m = Some (Const S_0) /\ m_ES m = Some (Const E_S) /\
        c = law_conc (m_law m) (arrhenius S_0 E_S (val (T_T T p))) (val (mb_solution mb p)) /\
        c_n = law_conc (m_law m) (arrhenius S_0 E_S (val (T_Tn T p))) (val (mb_previous mb p))
  end.
Definition concentrations M (mb : mobile P) (T : temperature P) (ms : list mat_obj) (c c_n : P -> R) : Prop :=
  forall p, In p (q_cells M) \/ In p (q_facets M) ->
  forall m, In m ms -> In (q_volume M p) (ids (m_id (attrs m))) ->
  concentration_at mb T (attrs m) p (c p) (c_n p).
(** The solubility field of Theta is the one of the materials of the simulation. *)
Definition solubility_field M (mb : mobile P) (T : temperature P) (ms : list mat_obj) : Prop :=
  match mb_class mb with
  | ClassMobile => True
  | ClassTheta S_ ms' =>
      ms' = map attrs ms /\
      forall p, In p (q_cells M) \/ In p (q_facets M) ->
      forall m, In m ms -> In (q_volume M p) (ids (m_id (attrs m))) ->
      exists S_0 E_S, m_S0 (attrs m) = Some (Const S_0) /\ m_ES (attrs m) = Some (Const E_S) /\
        S_ p = arrhenius S_0 E_S (val (T_T T p))
  end.
Definition positive_temperature M (T : temperature P) : Prop :=
  forall p, In p (q_cells M) \/ In p (q_facets M) -> 0 < val (T_T T p) /\ 0 < val (T_Tn T p).

(** Rate at which a source feeds a species of concentration c. *)
Definition source_rate M (c : P -> R) (s : source P) : R :=
  sum_over (ids (s_volume s))
    (fun z => total_in M z (fun p => match s_decay s with Some l => - (l * c p) | None => s_value s p end)).

(** Flux into the domain, by definition of each condition. *)
Definition flux_into (f : flux P) (T c : R) (p : P) : R :=
  match f with
  | FluxBC value => value p
  | RecombinationFlux Kr_0 E_Kr order => - (arrhenius (Kr_0 p) (E_Kr p) T * power c order)
  | DissociationFlux Kd_0 E_Kd Pr => arrhenius (Kd_0 p) (E_Kd p) T * Pr p
  | MassFlux h_coeff c_ext => h_coeff p * (c_ext p - c)
  | ConvectiveFlux h_coeff T_ext => h_coeff p * (T_ext p - T)
  | CustomFlux f => f T c p
  end.

(** Inventory gained per unit time through a flux condition. *)
Definition flux_rate M (T : temperature P) (c : P -> R) (b : bc P) : R :=
  match b with
  | BFlux true _ _ => 0
  | BFlux false surfaces f => sum_over surfaces (fun z => total_on M z (fun p => flux_into f (val (T_T T p)) (c p) p))
  | BSurf s =>
      sum_over (sk_adsorbed s) (fun a => total_on M (a_surface a) (fun p =>
        sk_J_vs s (val (T_T T p)) (val (a_solution a p)) (c p) p))
  end.
(** Rate of change of what is stored on the surface: adsorbed, and in the near-surface layer of
    thickness lambda_IS where the concentration goes from [before] to c. *)
Definition surface_rate M (dt : R) (c before : P -> R) (b : bc P) : R :=
  match b with
  | BFlux _ _ _ => 0
  | BSurf s =>
      sum_over (sk_adsorbed s) (fun a => total_on M (a_surface a) (fun p =>
        (val (a_solution a p) - val (a_previous a p)) / dt + sk_lambda_IS s * (c p - before p) / dt))
  end.

(** The test functions are the volume element: for a trap in the cells, for an adsorbed species on
    its surface. *)
Definition tests M (mb : mobile P) (traps : list (trap P)) : Prop :=
  is_weight M (mb_test mb) /\
  (forall t, In t traps -> forall p, In p (q_cells M) -> val (t_test t p) = weight M p) /\
  (forall s a, In (BSurf s) (mb_bcs mb) -> In a (sk_adsorbed s) ->
   forall p, In p (q_facets M) -> q_surface M p = a_surface a -> val (a_test a p) = weight M p).
(** r is not zero at the points of the cells (the axis has no quadrature point). *)
Definition off_axis M : Prop := q_type M = Cartesian \/ forall p, In p (q_cells M) -> q_x0 M p <> 0.

(** Mobile and trapped hydrogen after and before the step. *)
Definition inventory M (c : P -> R) (traps : list (trap P)) : R :=
  total M c + sum_over traps (fun t => total M (fun p => val (t_solution t p))).
Definition inventory_before M (c_n : P -> R) (traps : list (trap P)) : R :=
  total M c_n + sum_over traps (fun t => total M (fun p => val (t_previous t p))).
(** What the sources of the mobile species and of the traps bring, and the flux conditions. *)
Definition supply M (T : temperature P) (c : P -> R) (mb : mobile P) (traps : list (trap P)) : R :=
  sum_over (mb_sources mb) (source_rate M c) +
  sum_over traps (fun t => sum_over (t_sources t) (source_rate M (fun p => val (t_solution t p)))) +
  sum_over (mb_bcs mb) (flux_rate M T c).
Definition no_surface_kinetics (mb : mobile P) : Prop := forall s, ~ In (BSurf s) (mb_bcs mb).
(** Trapped hydrogen in the materials the trap is not attached to. *)
Definition outside M (ms : list mat_obj) (t : trap P) : R :=
  sum_over (filter (fun m => negb (mat_in m (t_materials t))) ms)
    (fun m => sum_over (ids (m_id (attrs m))) (fun z => total_in M z (fun p => val (t_solution t p)))).

(** Residual of a form at a point: the integrands of the measures that contain the point. *)
Definition applies M (m : measure) (p : P) : Prop :=
  match m with
  | DxAll => True
  | Dx z => q_volume M p = z
  | Ds z => q_surface M p = z
  end.
Inductive residual M (p : P) : form P -> R -> Prop :=
| residual_nil : residual M p [] 0
| residual_in m e F r : applies M m p -> residual M p F r -> residual M p ((m, e) :: F) (e p + r)
| residual_out m e F r : ~ applies M m p -> residual M p F r -> residual M p ((m, e) :: F) r.

(** The parameters of a trap in its i-th material: the same everywhere, or one per material. *)
Definition trap_params (t : trap P) (i : nat) (k_0 E_k p_0 E_p : R) (n : P -> R) : Prop :=
  (t_k0 t = Scalar k_0 /\ t_Ek t = Scalar E_k /\ t_p0 t = Scalar p_0 /\ t_Ep t = Scalar E_p /\
   nth_error (t_density t) 0 = Some n) \/
  (exists lk lE lp lF,
     t_k0 t = PerMat lk /\ t_Ek t = PerMat lE /\ t_p0 t = PerMat lp /\ t_Ep t = PerMat lF /\
     nth_error lk i = Some k_0 /\ nth_error lE i = Some E_k /\ nth_error lp i = Some p_0 /\
     nth_error lF i = Some E_p /\ nth_error (t_density t) i = Some n).

(** Adsorbed hydrogen and hydrogen of the near-surface layers, after and before the step. *)
Definition stock M (c : P -> R) (b : bc P) : R :=
  match b with
  | BFlux _ _ _ => 0
  | BSurf s => sum_over (sk_adsorbed s) (fun a => total_on M (a_surface a) (fun p =>
                 val (a_solution a p) + sk_lambda_IS s * c p))
  end.
Definition stock_before M (c_n : P -> R) (b : bc P) : R :=
  match b with
  | BFlux _ _ _ => 0
  | BSurf s => sum_over (sk_adsorbed s) (fun a => total_on M (a_surface a) (fun p =>
                 val (a_previous a p) + sk_lambda_IS s * c_n p))
  end.

(** Thermal energy when rho and the heat capacity do not depend on the temperature. *)
Definition energy M (rho cp : mat_obj -> R) (ms : list mat_obj) (T : P -> R) : R :=
  sum_over ms (fun m => sum_over (ids (m_id (attrs m))) (fun z => total_in M z (fun p => rho m * cp m * T p))).
Definition constant_heat (rho cp : mat_obj -> R) (ms : list mat_obj) : Prop :=
  forall m, In m ms -> m_rho (attrs m) = Some (Const (rho m)) /\ m_heat (attrs m) = Some (Const (cp m)).
(** Heat brought by the sources and the flux conditions (surfaces, flux). *)
Definition heat_supply M (T : field P) (sources : list (source P)) (bcs : list (list Z * flux P)) : R :=
  sum_over sources (fun s => sum_over (ids (s_volume s)) (fun z => total_in M z (s_value s))) +
  sum_over bcs (fun b => sum_over (fst b) (fun z => total_on M z (fun p => flux_into (snd b) (val (T p)) 0 p))).
End Balance.

(** One step of a run, with its form and the concentrations after and before. *)
Record step_state (P : Type) : Type := mkStep {
  st_mb : mobile P; st_T : temperature P; st_traps : list (trap P); st_dt : R;
  st_c : P -> R; st_cn : P -> R; st_form : form P
}.
Arguments mkStep {P}. Arguments st_mb {P}. Arguments st_T {P}. Arguments st_traps {P}. Arguments st_dt {P}.
Arguments st_c {P}. Arguments st_cn {P}. Arguments st_form {P}.
Definition same_class {P} (a b : mobile_class P) : Prop :=
  match a, b with
  | ClassMobile, ClassMobile => True
  | ClassTheta _ _, ClassTheta _ _ => True
  | _, _ => False
  end.
(** The previous fields of [b] are the fields of [a]: solution, traps, temperature. *)
Definition chained {P} (a b : step_state P) : Prop :=
  same_class (mb_class (st_mb a)) (mb_class (st_mb b)) /\
  (forall p, val (mb_previous (st_mb b) p) = val (mb_solution (st_mb a) p)) /\
  (forall p, val (T_Tn (st_T b) p) = val (T_T (st_T a) p)) /\
  Forall2 (fun t u => forall p, val (t_previous u p) = val (t_solution t p)) (st_traps a) (st_traps b).
(** The residual of the step is zero on the volume element. *)
Definition solved {P} (M : mesh P) (ms : list mat_obj) (soret : bool) (s : step_state P) : Prop :=
  concentrations M (st_mb s) (st_T s) ms (st_c s) (st_cn s) /\ solubility_field M (st_mb s) (st_T s) ms /\
  positive_temperature M (st_T s) /\ tests M (st_mb s) (st_traps s) /\ no_surface_kinetics (st_mb s) /\
  0 < st_dt s /\
  define_variational_problem M (st_mb s) ms (st_T s) (Some (st_dt s)) (st_traps s) soret = Ok (st_form s) /\
  assemble M (st_form s) = 0.
