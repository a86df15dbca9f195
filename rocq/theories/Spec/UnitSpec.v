(** Changes of units: the same data expressed with other units of length, time, concentration, pressure,
    energy and mass.  Temperatures stay in kelvin and activation energies in eV. *)
From Coq Require Import Reals ZArith List.
From Verif Require Import Base.Exc Base.Dual Model.Materials Model.Exports Model.Laws Model.Theta Model.Forms Model.Quantities
  Spec.BalanceSpec Spec.EulerSpec Spec.QuantitySpec.
Import ListNotations.
Local Open Scope R_scope.

(** New value = factor * old value.  [u_th]: square root of the pressure unit. *)
Record units : Type := mkUnits { u_c : R; u_x : R; u_t : R; u_th : R; u_e : R; u_m : R }.
Definition positive_units (u : units) : Prop := 0 < u_c u /\ 0 < u_x u /\ 0 < u_t u /\ 0 < u_th u /\ 0 < u_e u /\ 0 < u_m u.

(** m-2 s-1 (in units of amount), W m-2. *)
Definition hydrogen_flux (u : units) : R := u_c u * u_x u / u_t u.
Definition heat_flux (u : units) : R := u_e u / (u_t u * u_x u ^ 2).
Definition pressure (u : units) : R := u_th u ^ 2.
(** Solubility: concentration per square root of pressure (Sieverts), per pressure (Henry). *)
Definition solubility (u : units) (l : law) : R := match l with Sievert => u_c u / u_th u | Henry => u_c u / pressure u end.
(** c^order *)
Definition concentration_power (u : units) (e : exponent) : R := match e with EInt n => u_c u ^ n | EReal y => Rpower (u_c u) y end.

Section Units.
Context {P : Type}.
Implicit Types (M : mesh P).
Variable u : units.

Definition times (k : R) (f : P -> R) : P -> R := fun p => k * f p.
(** Gradients are per length. *)
Definition rescale (k : R) (f : field P) : field P := fun p => mkDual (k * val (f p)) (fun i => k / u_x u * grd (f p) i).
(** The same mesh; [w] is the unit of the facets, [w * u_x] the one of the cells. *)
Definition rescaled_mesh (w : R) M M' : Prop :=
  q_cells M' = q_cells M /\ q_facets M' = q_facets M /\ q_volume M' = q_volume M /\ q_surface M' = q_surface M /\
  q_dim M' = q_dim M /\ q_type M' = q_type M /\ (forall p, q_x0 M' p = u_x u * q_x0 M p) /\
  (forall p, In p (q_cells M) -> q_weight M' p = w * u_x u * q_weight M p) /\
  (forall p, In p (q_facets M) -> q_weight M' p = w * q_weight M p).
(** Such a mesh. *)
Definition scale_mesh (w : R) (facet : P -> bool) M : mesh P :=
  mkMesh (q_cells M) (q_facets M) (fun p => (if facet p then w else w * u_x u) * q_weight M p) (q_volume M) (q_surface M)
    (fun p => u_x u * q_x0 M p) (q_dim M) (q_type M).

Definition scale_prop (k : R) (p : prop) : prop := match p with Const r => Const (k * r) | Fun f => Fun (fun T => k * f T) end.
Definition scale_borders (b : @borders R) : @borders R :=
  let pair := fun ab : R * R => (u_x u * fst ab, u_x u * snd ab) in
  match b with BNone => BNone | BOne ab => BOne (pair ab) | BMany l => BMany (map pair l) end.
Definition scale_mat (m : mat) : mat :=
  mkMaterial (m_id m) (m_name m) (scale_prop (u_x u ^ 2 / u_t u) (m_D0 m)) (m_ED m)
    (option_map (scale_prop (solubility u (m_law m))) (m_S0 m)) (m_ES m)
    (option_map (scale_prop (u_e u / (u_t u * u_x u))) (m_thermal m)) (option_map (scale_prop (u_e u / u_m u)) (m_heat m))
    (option_map (scale_prop (u_m u / u_x u ^ 3)) (m_rho m)) (scale_borders (m_borders m)) (m_Q m) (m_law m).
Definition scale_obj (m : mat_obj) : mat_obj := mkMatObj (uid m) (scale_mat (attrs m)).
Definition scale_temp (T : temperature P) : temperature P := mkTemp (rescale 1 (T_T T)) (rescale 1 (T_Tn T)).

(** A source in units of [k] per time. *)
Definition scale_source (k : R) (s : source P) : source P :=
  mkSource (s_volume s) (times (k / u_t u) (s_value s)) (option_map (Rmult (/ u_t u)) (s_decay s)).
Definition scale_arg (k : R) (a : arg) : arg := match a with Scalar r => Scalar (k * r) | PerMat l => PerMat (map (Rmult k) l) end.
Definition scale_trap (t : trap P) : trap P :=
  mkTrap (scale_arg (/ (u_c u * u_t u)) (t_k0 t)) (t_Ek t) (scale_arg (/ u_t u) (t_p0 t)) (t_Ep t)
    (map (times (u_c u)) (t_density t)) (map scale_obj (t_materials t))
    (rescale (u_c u) (t_solution t)) (rescale (u_c u) (t_previous t)) (rescale 1 (t_test t)) (map (scale_source (u_c u)) (t_sources t)).
(** A flux condition, fluxes being in units of [phi]. *)
Definition scale_flux (phi : R) (f : flux P) : flux P :=
  match f with
  | FluxBC value => FluxBC (times phi value)
  | RecombinationFlux Kr_0 E_Kr order => RecombinationFlux (times (phi / concentration_power u order) Kr_0) E_Kr order
  | DissociationFlux Kd_0 E_Kd Pr => DissociationFlux (times (phi / pressure u) Kd_0) E_Kd (times (pressure u) Pr)
  | MassFlux h_coeff c_ext => MassFlux (times (phi / u_c u) h_coeff) (times (u_c u) c_ext)
  | ConvectiveFlux h_coeff T_ext => ConvectiveFlux (times phi h_coeff) T_ext
  | CustomFlux f => CustomFlux (fun T c p => phi * f T (c / u_c u) p)
  end.
Definition scale_adsorbed (a : adsorbed P) : adsorbed P :=
  mkAds (a_surface a) (rescale (u_c u * u_x u) (a_solution a)) (rescale (u_c u * u_x u) (a_previous a)) (rescale 1 (a_test a)).
Definition scale_sk (s : surface_kinetics P) : surface_kinetics P :=
  let old := fun (f : R -> R -> R -> P -> R) T c_s c_m p => f T (c_s / (u_c u * u_x u)) (c_m / u_c u) p in
  mkSK (fun T c_s c_m p => / u_t u * old (sk_k_sb s) T c_s c_m p) (fun T c_s c_m p => u_x u / u_t u * old (sk_k_bs s) T c_s c_m p)
    (fun T c_s c_m p => hydrogen_flux u * old (sk_J_vs s) T c_s c_m p)
    (u_x u * sk_lambda_IS s) (u_c u * u_x u * sk_n_surf s) (u_c u * sk_n_IS s) (map scale_adsorbed (sk_adsorbed s)).
Definition scale_bc (b : bc P) : bc P :=
  match b with BFlux T surfaces f => BFlux T surfaces (scale_flux (hydrogen_flux u) f) | BSurf s => BSurf (scale_sk s) end.
(** The unknown is a concentration or the square root of a pressure. *)
Definition unknown (c : mobile_class P) : R := match c with ClassMobile => u_c u | ClassTheta _ _ => u_th u end.
Definition scale_class (S' : P -> R) (c : mobile_class P) : mobile_class P :=
  match c with ClassMobile => ClassMobile | ClassTheta _ ms => ClassTheta S' (map scale_mat ms) end.
Definition scale_mobile (S' : P -> R) (mb : mobile P) : mobile P :=
  mkMobile (scale_class S' (mb_class mb)) (rescale (unknown (mb_class mb)) (mb_solution mb))
    (rescale (unknown (mb_class mb)) (mb_previous mb)) (rescale 1 (mb_test mb)) (map (scale_source (u_c u)) (mb_sources mb)) (map scale_bc (mb_bcs mb)).
(** The solubility field of the new units. *)
Definition rescaled_solubility M (mb : mobile P) (S' : P -> R) : Prop :=
  match mb_class mb with
  | ClassMobile => True
  | ClassTheta S_ ms => forall p m, In m ms -> In (q_volume M p) (ids (m_id m)) -> S' p = solubility u (m_law m) * S_ p
  end.
(** Real powers are only taken of non-negative concentrations. *)
Definition real_power (b : bc P) : Prop := match b with BFlux false _ (RecombinationFlux _ _ (EReal _)) => True | _ => False end.
Definition powers_defined M (mb : mobile P) (c : P -> R) : Prop :=
  (exists b, In b (mb_bcs mb) /\ real_power b) -> forall p, In p (q_facets M) -> 0 <= c p.

(** Both fail with the same exception, or the second result is [k] times the first. *)
Definition proportional M M' (k : R) (F F' : res (form P)) : Prop :=
  match F, F' with
  | Ok F, Ok F' => assemble M' F' = k * assemble M F
  | Err e, Err e' => e = e'
  | _, _ => False
  end.

(** * Derived quantities *)

(** Factor of a unit, the amount being concentration * length^3. *)
Definition factor (v : phys_unit) : R :=
  match u_base v with Kelvin => 1 | Watt => u_e u / u_t u | Atoms => u_c u * u_x u ^ 3 end
  * powerRZ (u_x u) (u_metres v) * powerRZ (u_t u) (u_seconds v).
Definition scale_context (l : label) (x : context P) : context P :=
  mkCtx (rescale (factor (field_unit l)) (x_function x)) (times (u_x u ^ 2 / u_t u) (x_D x)) (times (u_e u / (u_t u * u_x u)) (x_cond x))
    (x_Q x) (rescale 1 (x_T x)) (x_n x) (x_soret x).
Definition scale_space (l : label) (V : fespace) : fespace :=
  mkFe (fe_cell_markers V) (fe_facet_markers V) (fe_cell_dofs V) (map (Rmult (factor (field_unit l))) (fe_vector V)).
End Units.
