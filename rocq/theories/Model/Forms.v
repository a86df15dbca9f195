(** Model of the variational formulations: festim/concentration/mobile.py, concentration/traps/trap.py,
    concentration/traps/extrinsic_trap.py, neutron_induced_trap.py, boundary_conditions/fluxes/*.py,
    temperature/temperature_solver.py (form) and h_transport_problem.py:define_variational_problem.

    A mesh is seen through its quadrature points; a field (coefficient or test function) is its value and
    gradient at each of them; a form is a list of integrals (measure, integrand).  The forms are linear in
    the test functions, which are arguments.  Numbers are real numbers. *)
From Coq Require Import Reals ZArith List Bool String.
From Verif Require Import Base.Exc Base.Key Base.Dual Model.Materials Model.Laws Model.Theta.
Import ListNotations.
Local Open Scope R_scope.
Local Open Scope string_scope.
Local Open Scope list_scope.

(** mesh.type (mesh.py L9-28). *)
Inductive mesh_type : Type := Cartesian | Cylindrical | Spherical.

(** mesh.dx, mesh.dx(id), mesh.ds(id). *)
Inductive measure : Type :=
| DxAll
| Dx (id : Z)
| Ds (id : Z).

Section Forms.
(** [P]: quadrature points (in the cells and on the boundary facets). *)
Variable P : Type.

Definition field : Type := P -> dual.
Local Notation scalar := (P -> R).

(** The quadrature: points of the cells and of the boundary facets, weights, volume marker of the cell
    of the point, surface marker of the facet, first coordinate, dimension. *)
Record mesh : Type := mkMesh {
  q_cells   : list P;
  q_facets  : list P;
  q_weight  : P -> R;
  q_volume  : P -> Z;
  q_surface : P -> Z;
  q_x0      : P -> R;
  q_dim     : nat;
  q_type    : mesh_type
}.

Definition form : Type := list (measure * scalar).
Definition neg (F : form) : form := map (fun i => (fst i, fun p => - snd i p)) F.

(** Evaluation of a form: the points of a measure, and the sum of weight * integrand. *)
Definition points (M : mesh) (m : measure) : list P :=
  match m with
  | DxAll => q_cells M
  | Dx id => filter (fun p => Z.eqb (q_volume M p) id) (q_cells M)
  | Ds id => filter (fun p => Z.eqb (q_surface M p) id) (q_facets M)
  end.
Definition integral (M : mesh) (m : measure) (e : scalar) : R :=
  rsum (map (fun p => q_weight M p * e p) (points M m)).
Definition assemble (M : mesh) (F : form) : R :=
  rsum (map (fun i => integral M (fst i) (snd i)) F).

(** for x in l: F += f(x) *)
Fixpoint sum_forms {A} (f : A -> res form) (l : list A) : res form :=
  match l with
  | [] => Ok []
  | a :: r => let! F := f a in let! G := sum_forms f r in Ok (F ++ G)
  end.
(** for i, x in enumerate(l) *)
Fixpoint sum_forms_enum {A} (f : nat -> A -> res form) (i : nat) (l : list A) : res form :=
  match l with
  | [] => Ok []
  | a :: r => let! F := f i a in let! G := sum_forms_enum f (S i) r in Ok (F ++ G)
  end.

(** A material object: identity and attributes. *)
Record mat_obj : Type := mkMatObj { uid : nat; attrs : mat }.

(** festim.Temperature: T and T_n. *)
Record temperature : Type := mkTemp { T_T : field; T_Tn : field }.

(** Source, RadioactiveDecay (source.py, radioactive_decay.py); volume is an int or a list. *)
Record source : Type := mkSource {
  s_volume : mat_id;
  s_value  : scalar;
  s_decay  : option R     (* decay_constant, for RadioactiveDecay *)
}.

(** Trap parameters: a float, or a list with one entry per material (trap.py L9-38). *)
Inductive arg : Type :=
| Scalar (r : R)
| PerMat (l : list R).

Record trap : Type := mkTrap {
  t_k0 : arg; t_Ek : arg; t_p0 : arg; t_Ep : arg;
  t_density   : list scalar;
  t_materials : list mat_obj;
  t_solution  : field;
  t_previous  : field;
  t_test      : field;
  t_sources   : list source
}.

(** Flux conditions; the parameters are the values of the user expressions at the points. *)
Inductive flux : Type :=
| FluxBC (value : scalar)
| RecombinationFlux (Kr_0 E_Kr : scalar) (order : exponent)
| DissociationFlux (Kd_0 E_Kd Pr : scalar)
| MassFlux (h_coeff c_ext : scalar)
| ConvectiveFlux (h_coeff T_ext : scalar)
| CustomFlux (f : R -> R -> P -> R).          (* function(T, solute, **prms) *)

(** One adsorbed unknown of a SurfaceKinetics condition: its surface, solutions[i],
    previous_solutions[i] and test_functions[i]. *)
Record adsorbed : Type := mkAds {
  a_surface  : Z;
  a_solution : field;
  a_previous : field;
  a_test     : field
}.
Record surface_kinetics : Type := mkSK {
  sk_k_sb : R -> R -> R -> P -> R;            (* k_sb(T, surf_conc, mobile_conc, prms) *)
  sk_k_bs : R -> R -> R -> P -> R;
  sk_J_vs : R -> R -> R -> P -> R;
  sk_lambda_IS : R; sk_n_surf : R; sk_n_IS : R;
  sk_adsorbed : list adsorbed
}.

(** Boundary conditions in mobile.boundary_conditions (FluxBC only, h_transport_problem.py L300-302). *)
Inductive bc : Type :=
| BFlux (field_T : bool) (surfaces : list Z) (f : flux)   (* field_T: bc.field == "T" *)
| BSurf (s : surface_kinetics).

(** Mobile or Theta (chemical_pot).  [mb_S]: materials.S; the markers are those of [mb_materials]. *)
Inductive mobile_class : Type :=
| ClassMobile
| ClassTheta (S : scalar) (ms : @materials R prop).
Record mobile : Type := mkMobile {
  mb_class    : mobile_class;
  mb_solution : field;
  mb_previous : field;
  mb_test     : field;
  mb_sources  : list source;
  mb_bcs      : list bc
}.

(** mobile.py L240-241, theta.py L44-67: get_concentration_for_a_given_material. *)
Definition check_concentration (mb : mobile) (m : mat) : res unit :=
  match mb_class mb with
  | ClassMobile => Ok tt
  | ClassTheta _ _ =>
      let! _ := float_of (m_ES m) in
      let! _ := float_of (m_S0 m) in
      Ok tt
  end.
Definition or_zero (r : res (dual * dual)) : dual * dual :=
  match r with Ok x => x | Err _ => (dconst 0, dconst 0) end.
Definition get_concentration (mb : mobile) (m : mat) (T : temperature) : res (field * field) :=
  let! _ := check_concentration mb m in
  match mb_class mb with
  | ClassMobile => Ok (mb_solution mb, mb_previous mb)
  | ClassTheta _ _ =>
      let both := fun p => or_zero (theta_concentration m (T_T T p) (T_Tn T p)
                                      (mb_solution mb p) (mb_previous mb p)) in
      Ok (fun p => fst (both p), fun p => snd (both p))
  end.

(** mobile.py L243-244, theta.py L69-82: mobile_concentration. *)
Definition mobile_concentration (M : mesh) (mb : mobile) : scalar :=
  match mb_class mb with
  | ClassMobile => fun p => val (mb_solution mb p)
  | ClassTheta S_ ms =>
      fun p => theta_mobile_concentration ms (q_volume M p) (S_ p) (val (mb_solution mb p))
  end.

(** mobile.py L79-139: the terms of one subdomain of one material. *)
Definition diffusion_terms (M : mesh) (soret : bool) (D_0 E_D : R) (Q : R -> R)
    (c_0 c_0_n : field) (v : field) (T : field) (dt : option R) (subdomain : Z) : form :=
  let dx := Dx subdomain in
  let D := fun p => D_0 * exp (- E_D / k_B / val (T p)) in
  let r := fun p => dcoord0 (q_x0 M p) in
  (match dt with
   | Some dt => [(dx, fun p => (val (c_0 p) - val (c_0_n p)) / dt * val (v p))]
   | None => []
   end) ++
  (match q_type M with
   | Cartesian =>
       (dx, fun p => dot (q_dim M) (fun i => D p * grd (c_0 p) i) (grd (v p)))
       :: (if soret
           then [(dx, fun p => dot (q_dim M)
                                 (fun i => D p * Q (val (T p)) * val (c_0 p)
                                           / (k_B * val (T p) ^ 2) * grd (T p) i)
                                 (grd (v p)))]
           else [])
   | Cylindrical =>
       (dx, fun p => val (r p) * dot (q_dim M) (fun i => D p * grd (c_0 p) i) (grd (ddiv (v p) (r p))))
       :: (if soret
           then [(dx, fun p => val (r p) * dot (q_dim M)
                                 (fun i => D p * Q (val (T p)) * val (c_0 p)
                                           / (k_B * val (T p) ^ 2) * grd (T p) i)
                                 (grd (ddiv (v p) (r p))))]
           else [])
   | Spherical =>
       (dx, fun p => D p * val (r p) * val (r p)
                     * dot (q_dim M) (grd (c_0 p)) (grd (ddiv (ddiv (v p) (r p)) (r p))))
       :: (if soret
           then [(dx, fun p => D p * val (r p) * val (r p)
                               * dot (q_dim M)
                                 (fun i => Q (val (T p)) * val (c_0 p)
                                           / (k_B * val (T p) ^ 2) * grd (T p) i)
                                 (grd (ddiv (ddiv (v p) (r p)) (r p))))]
           else [])
   end).

(** mobile.py L68-139: one material. material.Q is only read when soret is true. *)
Definition material_form (M : mesh) (mb : mobile) (T : temperature) (dt : option R) (soret : bool)
    (m : mat_obj) : res form :=
  let! c := get_concentration mb (attrs m) T in
  let! D_0 := float_of (Some (m_D0 (attrs m))) in
  let! E_D := float_of (Some (m_ED (attrs m))) in
  let! Q := (if soret then value_at (m_Q (attrs m)) else Ok (fun _ => 0)) in
  Ok (flat_map (diffusion_terms M soret D_0 E_D Q (fst c) (snd c) (mb_test mb) (T_T T) dt)
        (ids (m_id (attrs m)))).

(** l[i] *)
Definition index {A} (l : list A) (i : nat) : res A :=
  match nth_error l i with
  | Some x => Ok x
  | None => Err (IndexError "list index out of range")
  end.
(** trap.E_k[i] *)
Definition arg_index (a : arg) (i : nat) : res R :=
  match a with
  | PerMat l => index l i
  | Scalar _ => Err (TypeError "'float' object is not subscriptable")
  end.
(** trap.E_k used as a number *)
Definition arg_number (a : arg) : res R :=
  match a with
  | Scalar r => Ok r
  | PerMat _ => Err (TypeError "bad operand type for unary -: 'list'")
  end.

(** mobile.py L146-173: the trapping terms of one trap in its i-th material. *)
Definition mobile_trapping_terms (mb : mobile) (T : temperature) (t : trap) (i : nat) (m : mat_obj)
  : res form :=
  let! prm := (match t_k0 t with
               | PerMat k =>
                   let! k_0 := index k i in
                   let! E_k := arg_index (t_Ek t) i in
                   let! p_0 := arg_index (t_p0 t) i in
                   let! E_p := arg_index (t_Ep t) i in
                   let! density := index (t_density t) i in
                   Ok (k_0, E_k, p_0, E_p, density)
               | Scalar k_0 =>
                   let! E_k := arg_number (t_Ek t) in
                   let! p_0 := arg_number (t_p0 t) in
                   let! E_p := arg_number (t_Ep t) in
                   let! density := index (t_density t) 0 in
                   Ok (k_0, E_k, p_0, E_p, density)
               end) in
  let '(k_0, E_k, p_0, E_p, density) := prm in
  let! c := get_concentration mb (attrs m) T in
  let c_m := fst c in
  let! id := dx_id (m_id (attrs m)) in
  Ok [(Dx id, fun p => - k_0 * exp (- E_k / k_B / val (T_T T p)) * val (c_m p)
                       * (density p - val (t_solution t p)) * val (mb_test mb p));
      (Dx id, fun p => p_0 * exp (- E_p / k_B / val (T_T T p)) * val (t_solution t p)
                       * val (mb_test mb p))].

(** mobile.py L50-177: create_diffusion_form. *)
Definition create_diffusion_form (M : mesh) (mb : mobile) (ms : list mat_obj) (T : temperature)
    (dt : option R) (traps : list trap) (soret : bool) : res form :=
  let! F := sum_forms (material_form M mb T dt soret) ms in
  let! F_trapping :=
    sum_forms (fun t => sum_forms_enum (mobile_trapping_terms mb T t) 0 (t_materials t)) traps in
  Ok (F ++ neg F_trapping).

(** mobile.py L179-204: create_source_form. *)
Definition mobile_source_terms (M : mesh) (mb : mobile) (s : source) : form :=
  let value := match s_decay s with
               | Some l => fun p => decay_form l (mobile_concentration M mb p)
               | None => s_value s
               end in
  map (fun volume => (Dx volume, fun p => - value p * val (mb_test mb p))) (ids (s_volume s)).
Definition create_mobile_source_form (M : mesh) (mb : mobile) : form :=
  flat_map (mobile_source_terms M mb) (mb_sources mb).

(** fluxes/*.py: create_form(T, solute). *)
Definition flux_form (f : flux) (T : field) (solute : scalar) : scalar :=
  match f with
  | FluxBC value => value
  | RecombinationFlux Kr_0 E_Kr order =>
      fun p => recombination_form (Kr_0 p) (E_Kr p) order (val (T p)) (solute p)
  | DissociationFlux Kd_0 E_Kd Pr => fun p => dissociation_form (Kd_0 p) (E_Kd p) (Pr p) (val (T p))
  | MassFlux h_coeff c_ext => fun p => mass_form (h_coeff p) (c_ext p) (solute p)
  | ConvectiveFlux h_coeff T_ext => fun p => convective_form (h_coeff p) (T_ext p) (val (T p))
  | CustomFlux f => fun p => f (val (T p)) (solute p) p
  end.

(** surface_kinetics.py L115-170: the body of the loop of create_form. *)
Definition surface_kinetics_terms (s : surface_kinetics) (solute solute_prev : scalar) (test : field)
    (T : field) (dt : option R) (a : adsorbed) : form :=
  let ds := Ds (a_surface a) in
  let c_s := fun p => val (a_solution a p) in
  let J_vs := fun p => sk_J_vs s (val (T p)) (c_s p) (solute p) p in
  let k_sb := fun p => sk_k_sb s (val (T p)) (c_s p) (solute p) p in
  let k_bs := fun p => sk_k_bs s (val (T p)) (c_s p) (solute p) p in
  let J_sb := fun p => k_sb p * c_s p * (1 - solute p / sk_n_IS s) in
  let J_bs := fun p => k_bs p * solute p * (1 - c_s p / sk_n_surf s) in
  (match dt with
   | Some dt =>
       [(ds, fun p => (c_s p - val (a_previous a p)) / dt * val (a_test a p));
        (ds, fun p => sk_lambda_IS s * (solute p - solute_prev p) / dt * val (test p))]
   | None => []
   end) ++
  [(ds, fun p => - (J_vs p + J_bs p - J_sb p) * val (a_test a p));
   (ds, fun p => (J_bs p - J_sb p) * val (test p))].

(** mobile.py L216-234: one boundary condition. SurfaceKinetics gets self.previous_solution. *)
Definition flux_terms (M : mesh) (mb : mobile) (T : temperature) (dt : option R) (b : bc) : form :=
  let solute := mobile_concentration M mb in
  match b with
  | BSurf s =>
      flat_map (surface_kinetics_terms s solute (fun p => val (mb_previous mb p)) (mb_test mb) (T_T T) dt)
        (sk_adsorbed s)
  | BFlux true _ _ => []
  | BFlux false surfaces f =>
      map (fun surf => (Ds surf, fun p => - val (mb_test mb p) * flux_form f (T_T T) solute p)) surfaces
  end.
(** mobile.py L206-238: create_fluxes_form. *)
Definition create_fluxes_form (M : mesh) (mb : mobile) (T : temperature) (dt : option R) : form :=
  flat_map (flux_terms M mb T dt) (mb_bcs mb).

(** mobile.py L31-48: create_form. *)
Definition mobile_create_form (M : mesh) (mb : mobile) (ms : list mat_obj) (T : temperature)
    (dt : option R) (traps : list trap) (soret : bool) : res form :=
  let! F := create_diffusion_form M mb ms T dt traps soret in
  Ok (F ++ create_mobile_source_form M mb ++ create_fluxes_form M mb T dt).

(** trap.py L157-193: the terms of the i-th material. *)
Definition trapping_terms (mb : mobile) (T : temperature) (t : trap) (i : nat) (m : mat_obj) : res form :=
  let! prm := (match t_k0 t with
               | PerMat k =>
                   let! k_0 := index k i in
                   let! E_k := arg_index (t_Ek t) i in
                   let! p_0 := arg_index (t_p0 t) i in
                   let! E_p := arg_index (t_Ep t) i in
                   let! density := index (t_density t) i in
                   Ok (k_0, E_k, p_0, E_p, density)
               | Scalar k_0 =>
                   let! E_k := arg_number (t_Ek t) in
                   let! p_0 := arg_number (t_p0 t) in
                   let! E_p := arg_number (t_Ep t) in
                   let! density := index (t_density t) 0 in
                   Ok (k_0, E_k, p_0, E_p, density)
               end) in
  let '(k_0, E_k, p_0, E_p, density) := prm in
  let! _ := (match mb_class mb, m_law (attrs m) with
             | ClassTheta _ _, Henry =>
                 Err (NotImplementedError "Henry law of solubility is not implemented with traps")
             | _, _ => Ok tt
             end) in
  let! c := get_concentration mb (attrs m) T in
  let c_0 := fst c in
  let! id := dx_id (m_id (attrs m)) in
  Ok [(Dx id, fun p => - k_0 * exp (- E_k / k_B / val (T_T T p)) * val (c_0 p)
                       * (density p - val (t_solution t p)) * val (t_test t p));
      (Dx id, fun p => p_0 * exp (- E_p / k_B / val (T_T T p)) * val (t_solution t p)
                       * val (t_test t p))].

(** "mat not in self.materials" (objects are compared by identity). *)
Definition mat_in (m : mat_obj) (l : list mat_obj) : bool := existsb (fun x => Nat.eqb (uid m) (uid x)) l.

(** trap.py L125-197: create_trapping_form (self.materials are Material objects by then,
    h_transport_problem.py L95). *)
Definition create_trapping_form (mb : mobile) (ms : list mat_obj) (T : temperature) (dt : option R)
    (t : trap) : res form :=
  let! F0 := (match dt with
              | Some dt =>
                  Ok [(DxAll, fun p => (val (t_solution t p) - val (t_previous t p)) / dt
                                       * val (t_test t p))]
              | None =>
                  sum_forms (fun m => if mat_in m (t_materials t) then Ok []
                                      else let! id := dx_id (m_id (attrs m)) in
                                           Ok [(Dx id, fun p => val (t_solution t p) * val (t_test t p))]) ms
              end) in
  let! F1 := sum_forms_enum (trapping_terms mb T t) 0 (t_materials t) in
  Ok (F0 ++ F1).

(** trap.py L199-211: create_source_form; dx(source.volume) without splitting lists. *)
Definition trap_source_terms (t : trap) (s : source) : res form :=
  let value := match s_decay s with
               | Some l => fun p => decay_form l (val (t_solution t p))
               | None => s_value s
               end in
  let! volume := dx_id (s_volume s) in
  Ok [(Dx volume, fun p => - value p * val (t_test t p))].

(** trap.py L108-123: create_form. *)
Definition trap_create_form (mb : mobile) (ms : list mat_obj) (T : temperature) (dt : option R)
    (t : trap) : res form :=
  let! F := create_trapping_form mb ms T dt t in
  let! G := sum_forms (trap_source_terms t) (t_sources t) in
  Ok (F ++ G).

(** h_transport_problem.py L249-278 and traps.py L52-57: define_variational_problem. *)
Definition define_variational_problem (M : mesh) (mb : mobile) (ms : list mat_obj) (T : temperature)
    (dt : option R) (traps : list trap) (soret : bool) : res form :=
  let! F := mobile_create_form M mb ms T dt traps soret in
  let! G := sum_forms (trap_create_form mb ms T dt) traps in
  Ok (F ++ G).

(** extrinsic_trap.py L132-161: create_form_density; [n]: density[0]. *)
Definition extrinsic_form (dt : R) (phi_0 n_amax n_bmax eta_a eta_b f_a f_b : scalar)
    (n n_prev test : field) : form :=
  [(DxAll, fun p => (val (n p) - val (n_prev p)) / dt * val (test p));
   (DxAll, fun p => - phi_0 p * ((1 - val (n p) / n_amax p) * eta_a p * f_a p
                                 + (1 - val (n p) / n_bmax p) * eta_b p * f_b p) * val (test p))].

(** neutron_induced_trap.py L61-94: create_form_density. *)
Definition neutron_form (dt : R) (phi K n_max A_0 E_A : scalar) (T n n_prev test : field) : form :=
  [(DxAll, fun p => (val (n p) - val (n_prev p)) / dt * val (test p));
   (DxAll, fun p => - phi p * K p * (1 - val (n p) / n_max p) * val (test p));
   (DxAll, fun p => A_0 p * exp (- E_A p / (k_B * val (T p))) * val (n p) * val (test p))].

(** temperature_solver.py L164-204: one material of the heat problem. *)
Definition heat_material_form (M : mesh) (transient : bool) (dt : R) (T T_n v_T : field) (m : mat_obj)
  : res form :=
  let! thermal_cond := value_at (m_thermal (attrs m)) in
  let! F0 := (if transient then
                let! cp := value_at (m_heat (attrs m)) in
                let! rho := value_at (m_rho (attrs m)) in
                Ok (map (fun vol => (Dx vol, fun p => rho (val (T p)) * cp (val (T p))
                                                      * (val (T p) - val (T_n p)) / dt * val (v_T p)))
                      (ids (m_id (attrs m))))
              else Ok []) in
  let k := fun p => thermal_cond (val (T p)) in
  let r := fun p => dcoord0 (q_x0 M p) in
  Ok (F0 ++
      map (fun vol =>
             match q_type M with
             | Cartesian => (Dx vol, fun p => dot (q_dim M) (fun i => k p * grd (T p) i) (grd (v_T p)))
             | Cylindrical =>
                 (Dx vol, fun p => val (r p) * dot (q_dim M) (fun i => k p * grd (T p) i)
                                                 (grd (ddiv (v_T p) (r p))))
             | Spherical =>
                 (Dx vol, fun p => k p * val (r p) * val (r p)
                                   * dot (q_dim M) (grd (T p)) (grd (ddiv (ddiv (v_T p) (r p)) (r p))))
             end) (ids (m_id (attrs m)))).

(** temperature_solver.py L206-224: sources and fluxes (the solute is None: fluxes reading it raise). *)
Definition heat_flux_form (f : flux) (T : field) : res scalar :=
  match f with
  | RecombinationFlux _ _ _ | MassFlux _ _ =>
      Err (TypeError "unsupported operand type(s): 'NoneType'")
  | _ => Ok (flux_form f T (fun _ => 0))
  end.

(** temperature_solver.py L150-224: define_variational_problem. CustomFlux gets solute=None; here its
    function must not depend on it.  [bcs]: (surfaces, flux) of the FluxBC conditions. *)
Definition heat_form (M : mesh) (transient : bool) (dt : R) (T T_n v_T : field) (ms : list mat_obj)
    (sources : list source) (bcs : list (list Z * flux)) : res form :=
  let! F := sum_forms (heat_material_form M transient dt T T_n v_T) ms in
  let G := flat_map (fun s => map (fun vol => (Dx vol, fun p => - s_value s p * val (v_T p)))
                                (ids (s_volume s))) sources in
  let! H := sum_forms (fun b => let! g := heat_flux_form (snd b) T in
                                Ok (map (fun surf => (Ds surf, fun p => - g p * val (v_T p))) (fst b))) bcs in
  Ok (F ++ G ++ H).
End Forms.

Arguments q_cells {P}. Arguments q_facets {P}. Arguments q_weight {P}. Arguments q_volume {P}.
Arguments q_surface {P}. Arguments q_x0 {P}. Arguments q_dim {P}. Arguments q_type {P}.
Arguments mkMesh {P}. Arguments neg {P}. Arguments points {P}. Arguments integral {P}.
Arguments assemble {P}. Arguments sum_forms {P A}. Arguments sum_forms_enum {P A}.
Arguments mkTemp {P}. Arguments T_T {P}. Arguments T_Tn {P}.
Arguments mkSource {P}. Arguments s_volume {P}. Arguments s_value {P}. Arguments s_decay {P}.
Arguments mkTrap {P}. Arguments t_k0 {P}. Arguments t_Ek {P}. Arguments t_p0 {P}. Arguments t_Ep {P}.
Arguments t_density {P}. Arguments t_materials {P}. Arguments t_solution {P}. Arguments t_previous {P}.
Arguments t_test {P}. Arguments t_sources {P}.
Arguments FluxBC {P}. Arguments RecombinationFlux {P}. Arguments DissociationFlux {P}.
Arguments MassFlux {P}. Arguments ConvectiveFlux {P}. Arguments CustomFlux {P}.
Arguments mkAds {P}. Arguments a_surface {P}. Arguments a_solution {P}. Arguments a_previous {P}.
Arguments a_test {P}. Arguments mkSK {P}. Arguments sk_k_sb {P}. Arguments sk_k_bs {P}.
Arguments sk_J_vs {P}. Arguments sk_lambda_IS {P}. Arguments sk_n_surf {P}. Arguments sk_n_IS {P}.
Arguments sk_adsorbed {P}. Arguments BFlux {P}. Arguments BSurf {P}.
Arguments ClassMobile {P}. Arguments ClassTheta {P}. Arguments mkMobile {P}. Arguments mb_class {P}.
Arguments mb_solution {P}. Arguments mb_previous {P}. Arguments mb_test {P}. Arguments mb_sources {P}.
Arguments mb_bcs {P}. Arguments check_concentration {P}. Arguments get_concentration {P}.
Arguments mobile_concentration {P}. Arguments diffusion_terms {P}. Arguments material_form {P}.
Arguments mobile_trapping_terms {P}. Arguments create_diffusion_form {P}.
Arguments mobile_source_terms {P}. Arguments create_mobile_source_form {P}. Arguments flux_form {P}.
Arguments surface_kinetics_terms {P}. Arguments flux_terms {P}. Arguments create_fluxes_form {P}.
Arguments mobile_create_form {P}. Arguments trapping_terms {P}. Arguments create_trapping_form {P}.
Arguments trap_source_terms {P}. Arguments trap_create_form {P}. Arguments define_variational_problem {P}.
Arguments extrinsic_form {P}. Arguments neutron_form {P}. Arguments heat_material_form {P}.
Arguments heat_flux_form {P}. Arguments heat_form {P}.
