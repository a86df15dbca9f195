(** Model of Simulation.initialise (festim/generic_simulation.py L320-445) with what it calls:
    HTransportProblem.initialise (festim/h_transport_problem.py L69-111), Trap.make_materials and the checks
    made while the forms are created (festim/concentration/traps/trap.py L68-85 and L125-211,
    festim/concentration/mobile.py L50-177), HeatTransferProblem.create_functions
    (festim/temperature/temperature_solver.py L95-148).

    A [sim] is what survives in the Python objects between two calls; initialise gives the [sim] after the
    call and the [problem] that run() works with, or the exception.  What the finite element library
    computes is left out; the pieces with a model of their own (sources, boundary conditions, materials,
    1D meshes, fields, stepsize, exports, rows of TXTExport) are used from there. *)
From Coq Require Import ZArith List Bool String.
From Verif Require Import Base.Exc Base.Num Base.Key Model.Stepsize Model.Materials Model.Mesh1D Model.Sources
  Model.Bcs Model.Fields Model.Exports Model.TxtTimes Model.TxtRows.
Import ListNotations.
Local Open Scope string_scope.

Section Simulation.
Context {A : Type} {N : Num A}.
(** [P]: values of material properties; [S]: sources; [V]: values of initial conditions; [F], [W], [C]: see
    Model/Exports.v. *)
Context {P S V F W C : Type}.
Local Notation material := (material (A:=A) P).
Local Notation exports := (exports (A:=A) F W C).
Local Notation export := (export (A:=A) F W C).

(** The parameters of the model: field and class of a source, whether its volume is a list; identity of Material objects; DOLFIN_EPS and
    1/2 (Model/Mesh1D.v); the x coordinates of the dofs of DG1 (true) or CG1 (false) and numpy.argsort
    (Model/TxtRows.v); [dx_list]: what UFL answers to dx(l) with a list l of subdomains. *)
Variable s_field : S -> key.
Variable s_decay : S -> bool.
Variable s_list : S -> bool.
Variable same : material -> material -> bool.
Variables eps half : A.
Variable dofs : bool -> list A.
Variable argsort : list A -> list nat.
Variable dx_list : res unit.

(** HeatTransferProblem.initial_condition: None, an .xdmf file, a value, or the f.Expression that
    create_functions puts in place of the value (temperature_solver.py L127). *)
Inductive heat_ini : Type :=
| NoIni
| IniFile
| IniValue (v : V)
| IniExpression (v : V).

(** The temperature. [steady]: what is_steady_state returns (temperature.py L55-56). *)
Inductive temp_spec : Type :=
| TGiven (steady : bool)
| TXdmf
| THeat (transient : bool) (ini : heat_ini).
Definition is_heat_problem (T : temp_spec) : bool := match T with THeat _ _ => true | _ => false end.
Definition temp_kind_of (T : temp_spec) : temp_kind :=
  match T with THeat transient _ => HeatTransfer transient | _ => Given end.

(** sp.printing.ccode and f.Expression applied to something that is already an f.Expression. *)
Variable reconvert : V -> res V.

(** A trap: id, materials (names or Material objects), and whether k_0, E_k, p_0, E_p and density have an
    i-th entry (always, if k_0 is not a list and there is a density). *)
Record trap : Type := mkTrap {
  tr_id        : option Z;
  tr_materials : list (tag (A:=A) P);
  tr_has       : nat -> bool
}.

(** The mesh: coordinate system, dimension, and the 1D mesh if it is a Mesh1D. *)
Record mesh_spec : Type := mkMeshSpec {
  ms_type : coords;
  ms_dim  : nat;
  ms_1d   : option (mesh (A:=A))
}.

Record sim : Type := mkSim {
  sm_transient : bool;                       (* settings.transient *)
  sm_final     : option A;                   (* settings.final_time *)
  sm_chem      : bool;                       (* settings.chemical_pot *)
  sm_soret     : bool;                       (* settings.soret *)
  sm_dg        : bool;                       (* settings.traps_element_type == "DG" *)
  sm_dt        : option (stepsize A);
  sm_T         : option temp_spec;
  sm_sources   : list S;
  sm_bcs       : list bc;
  sm_mesh      : mesh_spec;
  sm_materials : list material;
  sm_traps     : list trap;
  sm_inis      : list (key * V);             (* initial_conditions *)
  sm_exports   : exports;
  sm_filters   : nat -> bool;                (* the attribute filter of the i-th export, a TXTExport *)
  sm_attached  : species -> list S           (* the attributes sources of mobile, T and the traps *)
}.

(** What run() works with. *)
Record problem : Type := mkProblem {
  pb_sources     : species -> list S;
  pb_T_bcs       : list bc;
  pb_h_bcs       : list bc;
  pb_markers     : option (list Z * list Z);        (* None: given with the mesh *)
  pb_T_ini       : option V;                        (* initial temperature, if it is a value *)
  pb_ids         : list Z;
  pb_initial     : species -> option V;
  pb_materials   : list (list material);            (* of each trap *)
  pb_constraints : list term;
  pb_warnings    : list string
}.

(** generic_simulation.py L332-340. *)
Definition check_time (s : sim) : res unit :=
  if (negb (sm_transient s) && is_some (sm_dt s))%bool
  then Err (AttributeError "dt must be None in steady state simulations")
  else if (sm_transient s && negb (is_some (sm_final s)))%bool
  then Err (AttributeError "final_time argument must be provided to settings in transient simulations")
  else if (sm_transient s && negb (is_some (sm_dt s)))%bool
  then Err (AttributeError "dt must be provided in transient simulations")
  else Ok tt.

(** generic_simulation.py L341-342. *)
Definition get_T (s : sim) : res temp_spec :=
  match sm_T s with
  | None => Err (AttributeError "Temperature is not defined")
  | Some T => Ok T
  end.

(** generic_simulation.py L344-346: dt.initialise_value(). *)
Definition initial_dt (s : sim) : option (stepsize A) :=
  if sm_transient s then option_map initialise_value (sm_dt s) else sm_dt s.

(** generic_simulation.py L355-358. *)
Definition measures (m : mesh_spec) (ms : list material) : res (option (list Z * list Z)) :=
  match ms_1d m with
  | None => Ok None
  | Some m1 => let! r := define_measures eps half m1 ms in Ok (Some r)
  end.

(** temperature_solver.py L162-200, the exceptions of define_variational_problem: None multiplied by a UFL
    expression.  A property that is not None is a number or a callable. *)
Fixpoint heat_form (transient : bool) (ms : list material) : res unit :=
  match ms with
  | [] => Ok tt
  | m :: r =>
      if (transient && negb (is_some (m_rho m) && is_some (m_heat m)))%bool
      then Err (TypeError "unsupported operand type(s) for *: 'NoneType'")
      else if negb (is_some (m_thermal m))
      then Err (TypeError "unsupported operand type(s) for *: 'NoneType'")
      else heat_form transient r
  end.

(** temperature_solver.py L95-131: create_functions; gives the temperature with its initial
    condition and the initial value.  Simplifications: the solution of the stationary problem
    (L136-148) is not modelled; a material without subdomains is not considered. *)
Definition create_T (T : temp_spec) (ms : list material) : res (temp_spec * option V) :=
  match T with
  | THeat true NoIni =>
      Err (AttributeError "Initial condition is required for transient heat transfer simulations")
  | THeat true (IniValue v) => let! _ := heat_form true ms in Ok (THeat true (IniExpression v), Some v)
  | THeat true (IniExpression v) =>
      let! v' := reconvert v in
      let! _ := heat_form true ms in
      Ok (THeat true (IniExpression v'), Some v')
  | THeat transient _ => let! _ := heat_form transient ms in Ok (T, None)
  | _ => Ok (T, None)
  end.

(** "for m in l: f(m)", stopping at the first exception. *)
Fixpoint each {B : Type} (f : B -> res unit) (l : list B) : res unit :=
  match l with
  | [] => Ok tt
  | m :: r => let! _ := f m in each f r
  end.
(** dx(mat.id) *)
Definition dx_id (m : material) : res unit := match m_id m with IdOne _ => Ok tt | IdMany _ => dx_list end.
(** mat.S_0 * f.exp(-mat.E_S / ...) *)
Definition need_S (m : material) : res unit :=
  if (is_some (m_S0 m) && is_some (m_ES m))%bool then Ok tt
  else Err (TypeError "bad operand type for unary -: 'NoneType'").
(** materials.py L292-306: solubility_as_function. *)
Definition solubility_as_function (ms : list material) : res unit :=
  each (fun m => let! _ := dx_id m in need_S m) ms.
(** theta.py L33-39 (initialise) and L108-119 (create_form_post_processing, where self.S is None if the
    materials have no solubility). *)
Definition theta_form (chem : bool) (ms : list material) : res unit :=
  if chem then each (fun m => let! _ := need_S m in dx_id m) ms else Ok tt.
(** temperature.py L55-56, temperature_from_xdmf.py L50-52, temperature_solver.py L277-278. *)
Definition is_steady_state (T : temp_spec) : bool :=
  match T with TGiven steady => steady | TXdmf => true | THeat transient _ => negb transient end.
(** generic_simulation.py L379-384. *)
Definition project_solubility (chem : bool) (T : temp_spec) (ms : list material) : res unit :=
  if (chem && is_steady_state T)%bool then solubility_as_function ms else Ok tt.

(** materials.py L283: self[0]. *)
Definition create_properties (ms : list material) : res unit :=
  match ms with [] => Err (IndexError "list index out of range") | _ => Ok tt end.

(** mobile.py L81-139: with the Soret effect Q is multiplied. *)
Definition soret_form (soret : bool) (ms : list material) : res unit :=
  if (soret && negb (forallb (fun m => is_some (m_Q m)) ms))%bool
  then Err (TypeError "unsupported operand type(s) for *: 'NoneType'") else Ok tt.

(** trap.py L77-82: the materials of a trap; entries are names or Material objects, so find_material does
    not return None. *)
Fixpoint find_materials (ms : list material) (ts : list (tag (A:=A) P)) : res (list material) :=
  match ts with
  | [] => Ok []
  | t :: r =>
      let! o := find_material ms t in
      let! rest := find_materials ms r in
      match o with
      | Some m => Ok (m :: rest)
      | None => Err (TypeError "Accepted types for materials are str or festim.Material")
      end
  end.
(** trap.py L84: len(self.materials) != len(list(set(self.materials))). *)
Fixpoint duplicates (l : list material) : bool :=
  match l with [] => false | m :: r => (existsb (same m) r || duplicates r)%bool end.
(** trap.py L68-85: make_materials. *)
Definition make_materials (ms : list material) (t : trap) : res (list material) :=
  let! l := find_materials ms (tr_materials t) in
  if duplicates l then Err (ValueError "Duplicate materials in trap") else Ok l.
(** traps.py L43-45: make_traps_materials. *)
Fixpoint make_traps_materials (ms : list material) (ts : list trap) : res (list (list material)) :=
  match ts with
  | [] => Ok []
  | t :: r => let! l := make_materials ms t in let! rest := make_traps_materials ms r in Ok (l :: rest)
  end.

(** mobile.py L141-174: the trapping terms in the equation of the mobile species, for the materials of one
    trap; [i] is the index of the first. *)
Fixpoint mobile_trapping_one (chem : bool) (has : nat -> bool) (i : nat) (l : list material) : res unit :=
  match l with
  | [] => Ok tt
  | m :: r =>
      if has i then
        let! _ := (if chem then need_S m else Ok tt) in
        let! _ := dx_id m in
        mobile_trapping_one chem has (i + 1) r
      else Err (IndexError "list index out of range")
  end.
Fixpoint mobile_trapping (chem : bool) (ts : list trap) (mss : list (list material)) : res unit :=
  match ts, mss with
  | t :: r, l :: r' =>
      let! _ := mobile_trapping_one chem (tr_has t) 0 l in
      mobile_trapping chem r r'
  | _, _ => Ok tt
  end.
(** trap.py L125-197: create_trapping_form.  What mobile_trapping has already accepted is not repeated. *)
Definition is_henry (m : material) : bool := match m_law m with Henry => true | Sievert => false end.
Definition trapping_form (transient chem : bool) (ms l : list material) : res unit :=
  let! _ := (if transient then Ok tt else each (fun m => if existsb (same m) l then Ok tt else dx_id m) ms) in
  each (fun m => if (chem && is_henry m)%bool
                 then Err (NotImplementedError "Henry law of solubility is not implemented with traps")
                 else Ok tt) l.
(** trap.py L199-211: create_source_form. *)
Definition trap_source_form (sources : list S) : res unit :=
  each (fun s => if s_list s then dx_list else Ok tt) sources.
(** traps.py L52-57: create_forms; [i] is the position of the first trap (from 1). *)
Fixpoint trapping_forms (transient chem : bool) (ms : list material) (att : species -> list S) (i : nat)
  (mss : list (list material)) : res unit :=
  match mss with
  | [] => Ok tt
  | l :: r =>
      let! _ := trapping_form transient chem ms l in
      let! _ := trap_source_form (att (Trap i)) in
      trapping_forms transient chem ms att (i + 1) r
  end.

(** h_transport_problem.py L193-210: what the loop over the initial conditions calls before their values
    are used (Model/Fields.v gives the values). *)
Fixpoint check_initial (chem : bool) (ms : list material) (ids : list Z) (inis : list (key * V)) : res unit :=
  match inis with
  | [] => Ok tt
  | (k, _) :: r =>
      let! sp := initialised ids k in
      let! _ := (match sp with Mobile => theta_form chem ms | _ => Ok tt end) in
      check_initial chem ms ids r
  end.

(** h_transport_problem.py L69-111: initialise. Simplifications: the forms themselves are in Model/Forms.v,
    the values of the boundary conditions in Model/Expressions.v; here only the order of the checks and
    what they look at. *)
Definition initialise_h (s : sim) (att : species -> list S) (h : list bc)
  : res (list Z * (species -> option V) * list (list material) * list term) :=
  let ids := assign_traps_ids (map tr_id (sm_traps s)) in
  let! _ := check_initial (sm_chem s) (sm_materials s) ids (sm_inis s) in
  let! ini := initialise_concentrations ids (sm_inis s) in
  let! mss := make_traps_materials (sm_materials s) (sm_traps s) in
  let! _ := theta_form (sm_chem s) (sm_materials s) in
  let! _ := soret_form (sm_soret s) (sm_materials s) in
  let! _ := mobile_trapping (sm_chem s) (sm_traps s) mss in
  let! _ := trapping_forms (sm_transient s) (sm_chem s) (sm_materials s) att 1 mss in
  let! c := Bcs.create_dirichlet_bcs (num_sub_spaces (List.length (sm_traps s)) h) h in
  Ok (ids, ini, mss, c).

(** The attributes left in the traps: traps.py L47-50 and trap.py L82. *)
Fixpoint settle (ts : list trap) (ids : list Z) (mss : list (list material)) : list trap :=
  match ts, ids, mss with
  | t :: r, z :: r', l :: r'' => mkTrap (Some z) (map TagMaterial l) (tr_has t) :: settle r r' r''
  | _, _, _ => []
  end.

(** The allowed_meshes of the classes of derived quantities: surface_flux.py L41, L128, L224,
    average_surface.py L32, L86, average_volume.py L32, L85, L128, total_volume.py L35, L121, L203,
    total_surface.py L35, L122, L206, derived_quantity.py L45. *)
Definition allowed_meshes (k : qkind) : list coords :=
  match k with
  | SurfaceFlux | HydrogenFlux | ThermalFlux | AverageVolume | TotalVolume | TotalSurface => [Cartesian]
  | SurfaceFluxCylindrical | AverageVolumeCylindrical | AverageSurfaceCylindrical
  | TotalVolumeCylindrical | TotalSurfaceCylindrical => [Cylindrical]
  | SurfaceFluxSpherical | AverageVolumeSpherical | TotalVolumeSpherical | TotalSurfaceSpherical => [Spherical]
  | AverageSurface => [Cartesian; Spherical]
  | _ => [Cartesian; Cylindrical; Spherical]
  end.
Definition coords_eqb (a b : coords) : bool :=
  match a, b with
  | Cartesian, Cartesian | Cylindrical, Cylindrical | Spherical, Spherical => true
  | _, _ => false
  end.
Definition not_intended : string := "may not work as intended for this type of meshes".

(** generic_simulation.py L398-411: the SurfaceKinetics of an AdsorbedHydrogen. *)
Definition surf_kin_present (bcs : list bc) (surface : option Z) : bool :=
  existsb (fun b => is_surfkin (bc_kind_of b) &&
                    match surface with Some z => existsb (Z.eqb z) (bc_surfaces b) | None => false end)%bool bcs.
(** generic_simulation.py L391-416: the loop over the quantities of a DerivedQuantities; returns the
    warnings (soret and T given to the SurfaceFlux are part of the oracles of Model/Exports.v). *)
Fixpoint check_quantities (m : coords) (bcs : list bc) (st : store (A:=A) F W) (qs : list nat) : res (list string) :=
  match qs with
  | [] => Ok []
  | i :: r =>
      let q := st i in
      let w := if existsb (coords_eqb m) (allowed_meshes (q_kind q)) then [] else [not_intended] in
      if (is_adsorbed (q_kind q) && negb (surf_kin_present bcs (q_surface q)))%bool
      then Err (AttributeError "SurfaceKinetics boundary condition must be defined on surface")
      else let! rest := check_quantities m bcs st r in Ok (w ++ rest)%list
  end.
(** generic_simulation.py L388-441: the loop over the exports.  [i] is the position of the export. *)
Fixpoint export_loop (s : sim) (dt : option (stepsize A)) (i : nat) (l : list export)
  : res (option (stepsize A) * list string) :=
  match l with
  | [] => Ok (dt, [])
  | EDerived d :: r =>
      let! w := check_quantities (ms_type (sm_mesh s)) (sm_bcs s) (ex_store (sm_exports s)) (dq_list d) in
      let! (dt', w') := export_loop s dt (i + 1) r in
      Ok (dt', (w ++ w')%list)
  | EXdmf _ :: r => export_loop s dt (i + 1) r
  | ETxt x :: r =>
      let dg := (sm_chem s || sm_dg s)%bool in
      let! _ := unique_indices dg (sm_filters s i) (Some (sm_materials s)) (dofs dg) (argsort (dofs dg)) in
      let! dt1 := register_times (F:=F) (V:=W) dt [ETxt x] in
      export_loop s dt1 (i + 1) r
  end.

(** generic_simulation.py L320-445: initialise. *)
Definition initialise (s : sim) : res (sim * problem) :=
  let! _ := check_time s in
  let! T := get_T s in
  let n := List.length (sm_traps s) in
  let heat := is_heat_problem T in
  let dt := initial_dt s in
  let! att := attribute_source_terms s_field s_decay n heat (sm_sources s) (sm_attached s) in
  let! bcs := attribute_boundary_conditions n heat (ms_dim (sm_mesh s)) (sm_bcs s) in
  let! _ := check_mesh_dim_coords (ms_type (sm_mesh s)) (ms_dim (sm_mesh s)) in
  let! markers := measures (sm_mesh s) (sm_materials s) in
  let! T1 := create_T T (sm_materials s) in
  let! w1 := check_materials (sm_materials s) (temp_kind_of T) false in
  let! _ := create_properties (sm_materials s) in
  let! _ := project_solubility (sm_chem s) T (sm_materials s) in
  let! h := initialise_h s att (snd bcs) in
  let '(ids, ini, mss, c) := h in
  let! e := export_loop s dt 0 (ex_list (sm_exports s)) in
  Ok (mkSim (sm_transient s) (sm_final s) (sm_chem s) (sm_soret s) (sm_dg s) (fst e) (Some (fst T1))
        (sm_sources s) (sm_bcs s) (sm_mesh s) (sm_materials s) (settle (sm_traps s) ids mss) (sm_inis s)
        (initialise_exports (sm_exports s)) (sm_filters s) att,
      mkProblem att (fst bcs) (snd bcs) markers (snd T1) ids ini mss c (w1 ++ snd e)%list).

(** The simulation after run(): the stepsize and the exports have been used (Model/TimeLoop.v and
    Model/Exports.v). *)
Definition after_run (s : sim) (dt : option (stepsize A)) (ex : exports) : sim :=
  mkSim (sm_transient s) (sm_final s) (sm_chem s) (sm_soret s) (sm_dg s) dt (sm_T s) (sm_sources s) (sm_bcs s)
    (sm_mesh s) (sm_materials s) (sm_traps s) (sm_inis s) ex (sm_filters s) (sm_attached s).
End Simulation.
