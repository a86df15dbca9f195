{
 "claims": [
  {
   "property": "C01",
   "status": "proved",
   "theorems": [
    "C01_no_overshoot"
   ],
   "note": ""
  },
  {
   "property": "C02",
   "status": "proved",
   "theorems": [
    "C02_stops_at_final_time"
   ],
   "note": ""
  },
  {
   "property": "C03",
   "status": "partial",
   "theorems": [
    "C03_milestones_hit_partial",
    "C03_missed_partial",
    "C03_milestones_grid_partial",
    "C03_milestones_hit_refuted",
    "C03_milestones_hit_binary64_refuted"
   ],
   "note": "False in general: a time just below a milestone (relative 1e-5) suppresses the clamp and the following milestone can be jumped over; proved when there is no such near miss (C03_missed_partial: this is the only way to miss one), and from inputs only for fixed stepsizes on a grid."
  },
  {
   "property": "C04",
   "status": "proved",
   "theorems": [
    "C04_max_stepsize",
    "C04_first_step_refuted"
   ],
   "note": "The bound does not cover the very first step (refuted), which the claim excludes."
  },
  {
   "property": "C05",
   "status": "partial",
   "theorems": [
    "C05_dt_min_partial",
    "C05_floor_partial",
    "C05_dt_min_refuted"
   ],
   "note": "False: slow converged steps and retries go below dt_min without error. Proved: a failed attempt is only retried if its stepsize divided by the ratio is at least dt_min; if converged solves take fewer than five iterations, no stepsize is below dt_min / ratio (with milestones: nor below 1e-5 of the first one), except the step that lands on final_time."
  },
  {
   "property": "C06",
   "status": "partial",
   "theorems": [
    "C06_clock_partial",
    "C06_clock_refuted"
   ],
   "note": "False for steps with failed attempts (the clock keeps the first stepsize). Proved otherwise."
  },
  {
   "property": "C07",
   "status": "proved",
   "theorems": [
    "C07_failed_attempts_leave_no_trace"
   ],
   "note": ""
  },
  {
   "property": "C08",
   "status": "partial",
   "theorems": [
    "C08_accept_on_convergence",
    "C08_retries_terminate_partial",
    "C08_retries_terminate_refuted"
   ],
   "note": "Acceptance only on convergence proved. Termination of retries false when failures report fewer than five iterations or without change ratio; proved otherwise."
  },
  {
   "property": "C09",
   "status": "proved",
   "theorems": [
    "C09_time_increases"
   ],
   "note": ""
  },
  {
   "property": "C10",
   "status": "partial",
   "theorems": [
    "C10_step_count",
    "C10_fixed_stepsize_ends",
    "C10_fixed_stepsize_milestones_ends",
    "C10_quick_convergence_ends_partial",
    "C10_failures_end_partial",
    "C10_adaptive_ends_refuted"
   ],
   "note": "Fixed stepsizes (with or without milestones) always end; adaptive runs (with or without milestones) end if the solves converge in fewer than five iterations, and with failed attempts in between they end or raise; adaptive runs with slow but converged solves need not end (Zeno)."
  },
  {
   "property": "C11",
   "status": "partial",
   "theorems": [
    "C11_updated_partial",
    "C11_run_partial",
    "C11_heat",
    "C11_constant_parameters_partial",
    "C11_extrinsic_refuted",
    "C11_stationary_heat_refuted"
   ],
   "note": "False for the parameters of extrinsic traps, which are never registered for update, and for the sources and conditions of a stationary heat problem, which keep the value of time 0; proved for sources, fluxes, imposed values, trap densities and the transient heat problem."
  },
  {
   "property": "C12",
   "status": "partial",
   "theorems": [
    "C12_temperature_chronology_partial",
    "C12_heat_previous_is_current",
    "C12_previous_temperature_refuted"
   ],
   "note": "Proved for temperatures given as expressions; false for transient heat transfer, where the previous temperature always equals the current one."
  },
  {
   "property": "C13",
   "status": "partial",
   "theorems": [
    "C13_extrinsic_density_partial",
    "C13_extrinsic_density_refuted"
   ],
   "note": "False as soon as the stepsize is adapted (densities are advanced with the next stepsize); proved for non-adaptive stepsizes without milestones."
  },
  {
   "property": "C14",
   "status": "proved",
   "theorems": [
    "C14_every_nth_step"
   ],
   "note": ""
  },
  {
   "property": "C15",
   "status": "proved",
   "theorems": [
    "C15_last_written_once",
    "C15_table_written_once",
    "C15_overshoot_never_written",
    "C15_steady_mode_last_fails"
   ],
   "note": "Also: after an overshoot nothing is written, and mode 'last' makes a steady simulation fail."
  },
  {
   "property": "C16",
   "status": "proved",
   "theorems": [
    "C16_table_is_rectangular",
    "C16_times_increase",
    "C16_empty_list_refuted",
    "C16_repeated_object_refuted"
   ],
   "note": "The two conditions of the claim (non-empty list, distinct objects) are necessary (refutations)."
  },
  {
   "property": "C17",
   "status": "proved",
   "theorems": [
    "C17_csv_intervals",
    "C16_table_is_rectangular"
   ],
   "note": ""
  },
  {
   "property": "C18",
   "status": "partial",
   "theorems": [
    "C18_times_become_milestones",
    "C18_requested_time_exported_partial",
    "C18_requested_time_grid_partial",
    "C18_requested_time_refuted"
   ],
   "note": "Times become milestones: proved. Visited and exported once: proved without near misses (as C03), and from inputs for fixed stepsizes on a grid; false in general."
  },
  {
   "property": "C19",
   "status": "proved",
   "theorems": [
    "C19_header_matches_columns",
    "C19_comma_format_refuted"
   ],
   "note": "A header_format producing commas breaks it (refutation), the claim excludes it."
  },
  {
   "property": "C20",
   "status": "partial",
   "theorems": [
    "C20_written_at_the_end",
    "C20_written_at_last_time_partial",
    "C20_last_time_refuted"
   ],
   "note": "Without times proved; with times proved if the last one is visited; false if the last requested time is beyond final_time."
  },
  {
   "property": "C21",
   "status": "proved",
   "theorems": [
    "C21_sorted",
    "C21_complete",
    "C21_all_dofs",
    "C21_rows",
    "C21_repeats",
    "C21_interfaces",
    "C21_both_sides",
    "C21_succeeds",
    "C21_off_mesh_refuted",
    "C21_mixed_refuted"
   ],
   "note": "argsort is any sorting permutation. The refuted witnesses concern borders that are not vertices and borders given in two forms, both outside the claim."
  },
  {
   "property": "C22",
   "status": "partial",
   "theorems": [
    "C22_rerun_partial",
    "C22_rerun_after_run_partial",
    "C22_heat_initial",
    "C22_exports_refuted",
    "C22_final_time_refuted"
   ],
   "note": "Sources, boundary conditions, markers, initial values, trap ids, trap materials, milestones and stepsize are the same and the exports are emptied; false for the iteration counter, the append flag and final_time of the exports. An initial temperature that has become an f.Expression must convert to itself."
  },
  {
   "property": "C23",
   "status": "proved",
   "theorems": [
    "C23_filter",
    "C23_unique"
   ],
   "note": ""
  },
  {
   "property": "C24",
   "status": "proved",
   "theorems": [
    "C24_borders_cover",
    "C24_borders_accepted"
   ],
   "note": "check_borders accepts exactly the tilings (borders neither empty nor reversed)."
  },
  {
   "property": "C25",
   "status": "proved",
   "theorems": [
    "C25_cells_marked",
    "C25_single_material",
    "C25_few_ids_refuted",
    "C25_nested_border_refuted"
   ],
   "note": "The conditions on ids and nested borders are necessary (refutations)."
  },
  {
   "property": "C26",
   "status": "proved",
   "theorems": [
    "C26_lookup",
    "C26_unique_ids",
    "C26_lookup_by_name"
   ],
   "note": ""
  },
  {
   "property": "C27",
   "status": "proved",
   "theorems": [
    "C27_all_or_none"
   ],
   "note": ""
  },
  {
   "property": "C28",
   "status": "proved",
   "theorems": [
    "C28_tiling",
    "C28_surfaces",
    "C28_close_vertices_refuted"
   ],
   "note": "Vertices closer than DOLFIN_EPS to an end take its marker (refutation)."
  },
  {
   "property": "C29",
   "status": "proved",
   "theorems": [
    "C29_accepted",
    "C29_refused",
    "C29_spelling_refuted"
   ],
   "note": "The two spellings 0 and '0' of the mobile species are not recognised as the same field (refutation outside the claim)."
  },
  {
   "property": "C30",
   "status": "partial",
   "theorems": [
    "C30_applied_partial",
    "C30_contribution_unique",
    "C30_applied_success",
    "C30_dropped_refuted",
    "C30_string_field_refuted"
   ],
   "note": "False for flux conditions on '0' or on a trap (accepted, then dropped); proved for Dirichlet conditions on any field and fluxes on 0 or T."
  },
  {
   "property": "C31",
   "status": "proved",
   "theorems": [
    "C31_attached",
    "C31_unique",
    "C31_one_equation",
    "C31_accepted",
    "C31_refused"
   ],
   "note": ""
  },
  {
   "property": "C32",
   "status": "proved",
   "theorems": [
    "C32_step",
    "C32_sequence",
    "C32_content",
    "C32_index",
    "C32_iadd_refuted",
    "C32_extend_rollback_refuted"
   ],
   "note": "In-place addition (+=) is not among the operations of the claim and breaks the invariant (refutation)."
  },
  {
   "property": "C33",
   "status": "partial",
   "theorems": [
    "C33_ids_kept",
    "C33_ids_distinct_partial",
    "C33_default_ids",
    "C33_get_trap",
    "C33_get_trap_none",
    "C33_ids_stable",
    "C33_ids_distinct_refuted"
   ],
   "note": "Ids are kept; they are distinct and non-zero exactly under the stated condition on the given ids; false in general ([2, None] gives 2 twice)."
  },
  {
   "property": "C34",
   "status": "partial",
   "theorems": [
    "C34_initial_conditions_partial",
    "C34_unique",
    "C34_initial_conditions_exact",
    "C34_initial_conditions_refuted"
   ],
   "note": "Proved when ids are the positions; for other ids an initial condition reaches its trap exactly if id = position (so false in general)."
  },
  {
   "property": "C35",
   "status": "proved",
   "theorems": [
    "C35_layout",
    "C35_same_components",
    "C35_retention"
   ],
   "note": ""
  },
  {
   "property": "C36",
   "status": "proved",
   "theorems": [
    "C36_accepted",
    "C36_refused",
    "C36_exactly",
    "C36_complete"
   ],
   "note": "Accepted exactly if no documented defect; the exception of a refused simulation is one of the documented ones unless something else is wrong (list in Spec/SimSpec.v)."
  },
  {
   "property": "C37",
   "status": "proved",
   "theorems": [
    "C37_balance",
    "C37_steady",
    "C37_exchange",
    "C37_run"
   ],
   "note": "For test functions equal to 1 (the balance), any common test function (exchange), and any number of steps; solves are assumed exact."
  },
  {
   "property": "C38",
   "status": "partial",
   "theorems": [
    "C38_balance_partial",
    "C38_steady",
    "C38_balance_refuted"
   ],
   "note": "Proved for rho and heat_capacity independent of the temperature, in the three coordinate systems, and in steady state; false for temperature-dependent ones (the form uses rho(T) cp(T) (T - T_n))."
  },
  {
   "property": "C39",
   "status": "partial",
   "theorems": [
    "C39_balance_partial",
    "C39_exchange",
    "C39_balance_refuted"
   ],
   "note": "Proved when the unknown is the concentration; the exchange terms cancel in both formulations; with chemical_pot=True the near-surface term is given theta instead of the previous concentration and the balance does not close."
  },
  {
   "property": "C40",
   "status": "proved",
   "theorems": [
    "C40_bounds",
    "C40_outside",
    "C40_steady"
   ],
   "note": "At a point where the residual of the trap equation vanishes."
  },
  {
   "property": "C41",
   "status": "proved",
   "theorems": [
    "C41_extrinsic",
    "C41_neutron"
   ],
   "note": "At a point where the residual vanishes."
  },
  {
   "property": "C42",
   "status": "proved",
   "theorems": [
    "C42_decay",
    "C42_removes"
   ],
   "note": ""
  },
  {
   "property": "C43",
   "status": "partial",
   "theorems": [
    "C43_initial",
    "C43_boundary_partial",
    "C43_same_concentration",
    "C43_boundary_refuted"
   ],
   "note": "Initial conditions and the three concentrations (equations, fluxes, exports) agree exactly; a Dirichlet value in a Henry material is shifted by DOLFIN_EPS*S, so exact equality is refuted there."
  },
  {
   "property": "C44",
   "status": "proved",
   "theorems": [
    "C44_interface",
    "C44_jump"
   ],
   "note": ""
  },
  {
   "property": "C45",
   "status": "proved",
   "theorems": [
    "C45_sieverts",
    "C45_henry",
    "C45_implantation",
    "C45_implantation_monotone"
   ],
   "note": ""
  },
  {
   "property": "C46",
   "status": "proved",
   "theorems": [
    "C46_signs",
    "C46_equilibrium",
    "C46_sieverts"
   ],
   "note": ""
  },
  {
   "property": "C47",
   "status": "proved",
   "theorems": [
    "C47_balance",
    "C47_divergence"
   ],
   "note": "On quadrature points with r <> 0."
  },
  {
   "property": "C48",
   "status": "partial",
   "theorems": [
    "C48_solid_angle_partial",
    "C48_spherical_flux_partial",
    "C48_solid_angle_refuted",
    "C48_additive",
    "C48_additive_polar",
    "C48_full",
    "C48_bounds_partial",
    "C48_bounds_refuted"
   ],
   "note": "Proved for every class but SurfaceFluxSpherical, which exchanges the two angles of its documentation (proved with the angles exchanged; additivity and full range proved for all). Bounds proved for ordered ranges; reversed ranges out of the bounds are accepted."
  },
  {
   "property": "C49",
   "status": "proved",
   "theorems": [
    "C49_average",
    "C49_constant",
    "C49_extrema",
    "C49_between",
    "C49_total",
    "C49_additive",
    "C49_retention"
   ],
   "note": "Piecewise linear fields for the comparison with the nodal extrema."
  },
  {
   "property": "C50",
   "status": "partial",
   "theorems": [
    "C50_kinds_partial",
    "C50_kinds_refuted"
   ],
   "note": "False for MaximumSurface and MinimumSurface (compute needs an argument that is never given); proved for all other kinds."
  },
  {
   "property": "C51",
   "status": "partial",
   "theorems": [
    "C51_units_partial",
    "C51_plain_units",
    "C51_units_refuted"
   ],
   "note": "Proved except for TotalSurface of a concentration (one metre too many) and AdsorbedHydrogen in 2D/3D, where it is false."
  },
  {
   "property": "C52",
   "status": "partial",
   "theorems": [
    "C52_files_partial",
    "C52_folder_partial",
    "C52_filename",
    "C52_files_refuted"
   ],
   "note": "False for file names without directory part; proved for the others."
  },
  {
   "property": "C53",
   "status": "proved",
   "theorems": [
    "C53_adsorbed"
   ],
   "note": ""
  },
  {
   "property": "C54",
   "status": "proved",
   "theorems": [
    "C54_steady",
    "C54_run",
    "C54_run_frozen",
    "C54_complete"
   ],
   "note": "the converse fails for names with a t (sqrt): C54_converse_refuted, outside the claim; C54_complete gives the expressions for which it holds"
  },
  {
   "property": "C55",
   "status": "proved",
   "theorems": [
    "C55_kJmol"
   ],
   "note": ""
  },
  {
   "property": "C56",
   "status": "proved",
   "theorems": [
    "C56_profile"
   ],
   "note": ""
  },
  {
   "property": "C57",
   "status": "partial",
   "theorems": [
    "C57_same_species_partial",
    "C57_same_species_refuted"
   ],
   "note": "Proved when ids are the positions (default), except the name 'mobile' which only sources know; false for custom ids."
  },
  {
   "property": "C58",
   "status": "partial",
   "theorems": [
    "C58_flux_partial",
    "C58_inward",
    "C58_flux_refuted"
   ],
   "note": "Proved for the cartesian classes; all classes return the flux entering the domain, so the sign documented for the cylindrical and spherical classes is false."
  },
  {
   "property": "C59",
   "status": "partial",
   "theorems": [
    "C59_surface_partial",
    "C59_surface_refuted"
   ],
   "note": "The facet numbers are used as cell numbers; only an inequality is proved, when each facet belongs to the cell of its number."
  },
  {
   "property": "C60",
   "status": "partial",
   "theorems": [
    "C60_dirichlet_partial",
    "C60_custom_refuted"
   ],
   "note": "False for CustomDirichlet on the mobile species with chemical_pot=True (sub_expressions is a dict view without append); proved that this is the only failing case."
  },
  {
   "property": "C61",
   "status": "proved",
   "theorems": [
    "C61_written_once",
    "C61_ends",
    "C61_last_raises",
    "C61_times_raise",
    "C61_diverged_output_refuted",
    "C61_reused_exports_refuted"
   ],
   "note": "Exports reused from a transient run (stale final_time) are outside the claim, with a witness."
  },
  {
   "property": "C62",
   "status": "proved",
   "theorems": [
    "C62_mobile",
    "C62_trap",
    "C62_each",
    "C62_scalar_first",
    "C62_scalar_refuted"
   ],
   "note": "Traps with volumetric sources are outside the claim. Discrete residuals: any finite set of quadrature points."
  },
  {
   "property": "C63",
   "status": "proved",
   "theorems": [
    "C63_built_iff",
    "C63_heat_built_iff",
    "C63_checked_heat",
    "C63_heat_progress",
    "C63_checked_solubility",
    "C63_constructor",
    "C63_checked_refuted",
    "C63_long_lists_refuted"
   ],
   "note": "CustomFlux functions are total in the model; symbolic errors of FEniCS itself are not modelled."
  },
  {
   "property": "C64",
   "status": "proved",
   "theorems": [
    "C64_default_path",
    "C64_distinct",
    "C64_accepted_iff",
    "C64_density_refuted",
    "C64_unnamed_refuted"
   ],
   "note": "The files of TrapDensityXDMF are outside the claim, with a theorem showing the collision."
  },
  {
   "property": "C65",
   "status": "proved",
   "theorems": [
    "C65_file",
    "C65_last",
    "C65_run_restart",
    "C65_times",
    "C65_labels",
    "C65_initial_condition",
    "C65_restart",
    "C65_restart_missing",
    "C65_temperature",
    "C65_heat_string_refuted",
    "C65_second_label_refuted",
    "C65_shared_refuted"
   ],
   "note": "DOLFIN's write_checkpoint and read_checkpoint are modelled (a list of labelled functions); float(show t) = t is a hypothesis of C65_times."
  },
  {
   "property": "C66",
   "status": "proved",
   "theorems": [
    "C66_distinct",
    "C66_words",
    "C66_same_subject",
    "C66_same_values",
    "C66_fields",
    "C66_angles_refuted"
   ],
   "note": "Field names must have no space or comma and not be 'flux' or 'Heat'; C66_fields shows that this holds for every field that exists."
  },
  {
   "property": "C67",
   "status": "partial",
   "theorems": [
    "C67_file_partial",
    "C67_last_partial",
    "C67_lines",
    "C67_no_comma",
    "C67_points",
    "C67_point_refuted"
   ],
   "note": "False of the code for a PointValue with two or more coordinates (or given as a tuple): its title has a comma and numpy.savetxt does not quote. Proved for all titles without comma, which are all others (C67_no_comma, C67_points)."
  },
  {
   "property": "C68",
   "status": "proved",
   "theorems": [
    "C68_dependence",
    "C68_unique",
    "C68_contraction",
    "C68_steady",
    "C68_fluxes",
    "C68_heat",
    "C68_heat_fluxes",
    "C68_negative_refuted"
   ],
   "note": "Solutions are exact solutions of the assembled equations, the tolerance of Newton's method is not part of it. C68_fluxes and C68_heat_fluxes show which built-in flux conditions are dissipative."
  },
  {
   "property": "C69",
   "status": "proved",
   "theorems": [
    "C69_implicit_euler",
    "C69_builds",
    "C69_rest",
    "C69_fixed_point",
    "C69_stays",
    "C69_heat",
    "C69_outside_refuted",
    "C69_chemical_pot_refuted"
   ],
   "note": "The refutations show that the two exceptions of the claim are needed."
  },
  {
   "property": "C70",
   "status": "proved",
   "theorems": [
    "C70_equations",
    "C70_solutions",
    "C70_concentration",
    "C70_heat",
    "C70_extrinsic",
    "C70_neutron",
    "C70_quantities",
    "C70_printed",
    "C70_solution_laws",
    "C70_dc_imp",
    "C70_implantation",
    "C70_theta",
    "C70_chemical_pot_refuted",
    "C70_steady_trap_refuted",
    "C70_henry_dirichlet_refuted"
   ],
   "note": "The refutations show that the three exceptions of the claim are needed."
  },
  {
   "property": "C71",
   "status": "proved",
   "theorems": [
    "C71_adsorbed",
    "C71_coverage",
    "C71_steady",
    "C71_bulk",
    "C71_overfull_refuted"
   ],
   "note": "The refutation shows that the hypothesis on J_vs is needed."
  },
  {
   "property": "C72",
   "status": "proved",
   "theorems": [
    "C72_names",
    "C72_names_heat",
    "C72_names_quantities",
    "C72_order",
    "C72_order_heat",
    "C72_split",
    "C72_split_heat",
    "C72_trap_split_refuted",
    "C72_steady_split_refuted",
    "C72_trap_order_refuted"
   ],
   "note": "The refutations show why the traps are excepted and that their parameters must move with the materials."
  },
  {
   "property": "C73",
   "status": "proved",
   "theorems": [
    "C73_concentration",
    "C73_inventory",
    "C73_step",
    "C73_run",
    "C73_layer"
   ],
   "note": "The equations are assumed solved exactly for the test function 1, r or r^2, and the projection exactly for the same functions restricted to a volume (piecewise linear for 1 and r)."
  },
  {
   "property": "C74",
   "status": "proved",
   "theorems": [
    "C74_flux",
    "C74_heat"
   ],
   "note": "Without chemical potential; the interpolation of the fields of properties inside an element is not modelled."
  },
  {
   "property": "C75",
   "status": "proved",
   "theorems": [
    "C75_linear",
    "C75_heat",
    "C75_density",
    "C75_balance",
    "C75_steady",
    "C75_run",
    "C75_elements"
   ],
   "note": "The volume element is among the functions of P1 elements in Cartesian and cylindrical coordinates (C75_elements); in spherical coordinates it is not and conservation fails (C75_spherical_refuted, outside the claim)."
  },
  {
   "property": "C76",
   "status": "proved",
   "theorems": [
    "C76_solubility"
   ],
   "note": "Over real numbers; the projection on DG1 is taken as the identity."
  },
  {
   "property": "C77",
   "status": "partial",
   "theorems": [
    "C77_first_partial",
    "C77_chain_partial",
    "C77_heat_refuted",
    "C77_initial_heat_refuted"
   ],
   "note": "Proved for Temperature, TemperatureFromXDMF and stationary heat transfer; false with a transient HeatTransferProblem."
  },
  {
   "property": "C78",
   "status": "partial",
   "theorems": [
    "C78_coordinates",
    "C78_suited_average",
    "C78_suited_total",
    "C78_unsuited_average",
    "C78_ignored_partial",
    "C78_ignored_refuted"
   ],
   "note": "Coordinates: exact. Properties: rho, heat_capacity and thermal_cond are said to be ignored exactly if the temperature is not a heat problem; for thermal_cond this is false when a thermal flux is exported."
  },
  {
   "property": "C79",
   "status": "partial",
   "theorems": [
    "C79_finished",
    "C79_interrupted",
    "C79_extended_partial",
    "C79_extended_stuck",
    "C79_extended_refuted",
    "C79_after_failure_refuted"
   ],
   "note": "Finished and cut runs: proved. Raised final_time: false, the stepsize left behind is 0 (proved for every run that ended exactly at final_time); proved if the stepsize is given anew. Failed steps: false, the clock is not set back."
  },
  {
   "property": "C80",
   "status": "partial",
   "theorems": [
    "C80_independent_partial",
    "C80_others_do_not_matter",
    "C80_collection_kept",
    "C80_attributes_apart",
    "C80_default_refuted"
   ],
   "note": "False for sources, boundary_conditions and initial_conditions left to their default (one mutable list shared by all simulations); proved for traps and exports (also when the user gives one list of their own to several simulations: it is copied), and for the other lists when each simulation is given a list."
  },
  {
   "property": "C81",
   "status": "partial",
   "theorems": [
    "C81_hydrogen",
    "C81_extrinsic_trap_partial",
    "C81_heat_partial",
    "C81_types",
    "C81_heat_refuted",
    "C81_extrinsic_trap_refuted"
   ],
   "note": "Hydrogen: proved for solvers provided since initialise() (there is no problem before). Extrinsic traps: the same; false for a solver provided before. Heat: a provided solver is always used, but parameters changed after the first initialise() are ignored."
  },
  {
   "property": "C82",
   "status": "proved",
   "theorems": [
    "C82_soret",
    "C82_unit_solubility",
    "C82_empty_trap",
    "C82_null_source",
    "C82_null_flux",
    "C82_heat",
    "C82_unit_values",
    "C82_henry_refuted"
   ],
   "note": "C82_henry_refuted is outside the claim: with Henry's law the unknown is the square root of c/S."
  },
  {
   "property": "C83",
   "status": "proved",
   "theorems": [
    "C83_change_of_unknown",
    "C83_surface_kinetics_refuted"
   ],
   "note": "C83_surface_kinetics_refuted is outside the claim (cause: finding C39, the surface equation reads theta of the previous step)."
  },
  {
   "property": "C84",
   "status": "proved",
   "theorems": [
    "C84_together",
    "C84_fraction",
    "C84_divided",
    "C84_decay_needed"
   ],
   "note": "Two traps: without decay sources (C84_decay_needed: the merged trap would decay twice); sources of the merged trap are the sources of both. Fractions: with or without decay."
  },
  {
   "property": "C85",
   "status": "proved",
   "theorems": [
    "C85_rest",
    "C85_uniform_theta",
    "C85_soret_profile",
    "C85_occupancy",
    "C85_sieverts_surface",
    "C85_heat"
   ],
   "note": "Uniform theta: without SurfaceKinetics (see C39)."
  },
  {
   "property": "C86",
   "status": "proved",
   "theorems": [
    "C86_superposition",
    "C86_dirichlet",
    "C86_heat",
    "C86_quantities",
    "C86_henry_refuted"
   ],
   "note": "C86_henry_refuted is outside the claim: with Henry's law c = S theta^2 and the equations are not linear in the unknown."
  },
  {
   "property": "C87",
   "status": "proved",
   "theorems": [
    "C87_rotation",
    "C87_translation",
    "C87_heat",
    "C87_quantities"
   ],
   "note": ""
  },
  {
   "property": "C88",
   "status": "proved",
   "theorems": [
    "C88_binary64",
    "C88_no_overshoot",
    "C88_arrival",
    "C88_step_count",
    "C88_no_overshoot_binary64",
    "C88_arrival_binary64",
    "C88_step_count_binary64",
    "C88_exact_bound_refuted",
    "C88_increase_refuted"
   ],
   "note": "The two _refuted theorems are outside the claim: they show that C01 (never above final_time) and C09 (strictly increasing times) hold in exact arithmetic only."
  },
  {
   "property": "C89",
   "status": "proved",
   "theorems": [
    "C89_union_sum",
    "C89_union_mean",
    "C89_union_extremum",
    "C89_retention",
    "C89_same_flux",
    "C89_spherical_average",
    "C89_spherical_average_refuted"
   ],
   "note": "C89_spherical_average_refuted is outside the claim: AverageSurface on spherical meshes is weighted by int(1*ds), not by area."
  },
  {
   "property": "C90",
   "status": "proved",
   "theorems": [
    "C90_hydrogen",
    "C90_heat",
    "C90_density",
    "C90_one_iteration",
    "C90_reaches",
    "C90_run",
    "C90_no_error"
   ],
   "note": "The linear solves are exact (real numbers); C90_no_error assumes that a callable max_stepsize and the exports do not raise."
  },
  {
   "property": "C91",
   "status": "proved",
   "theorems": [
    "C91_T",
    "C91_dt",
    "C91_decay",
    "C91_filename",
    "C91_xdmf",
    "C91_quantity",
    "C91_range",
    "C91_coefficient",
    "C91_solute",
    "C91_law",
    "C91_as_constant_refuted"
   ],
   "note": "C91_as_constant_refuted is outside the claim: as_constant returns None for arguments it does not understand."
  },
  {
   "property": "C92",
   "status": "proved",
   "theorems": [
    "C92_hydrogen",
    "C92_heat",
    "C92_segment",
    "C92_run",
    "C92_heat_segment",
    "C92_small_step_refuted"
   ],
   "note": "The solves are exact. Steady problems, traps and RadioactiveDecay on the segment are not covered by the condition h^2 <= 6 D dt."
  },
  {
   "property": "C93",
   "status": "proved",
   "theorems": [
    "C93_value",
    "C93_condition",
    "C93_one_reading",
    "C93_only_value",
    "C93_only_condition",
    "C93_quotient_refuted",
    "C93_quotient_float"
   ],
   "note": "The printer of sympy is modelled, not festim's own code. Doubles are real numbers and integers of C do not overflow. Expressions are those that sympy builds: a negative number comes first in a product and 1/(1/x) is x."
  },
  {
   "property": "C94",
   "status": "proved",
   "theorems": [
    "C94_equations",
    "C94_heat",
    "C94_implantation"
   ],
   "note": "Together with C63 (which says exactly when the equations are built). The errors are those Python and FEniCS raise for the operations of the code as modelled; messages are not part of the claim."
  },
  {
   "property": "C95",
   "status": "proved",
   "theorems": [
    "C95_write",
    "C95_run",
    "C95_steady"
   ],
   "note": "fenics.project returns a fenics.Function (hypothesis). The integrals, the solvers and the disk do not fail (no permission problems). That each cause does raise is C15, C50, C52, C61 and the examples."
  },
  {
   "property": "C96",
   "status": "partial",
   "theorems": [
    "C96_equations",
    "C96_projection_partial",
    "C96_lists_refuted",
    "C96_bounds_refuted",
    "C96_field"
   ],
   "note": "Proved for traps with number parameters or one material; false for lists of densities (density[0] is written in every material). With continuous elements the written density can be negative and exceed the density. The field is always \"1\", so a trap of id 1 must be in the simulation."
  },
  {
   "property": "C97",
   "status": "proved",
   "theorems": [
    "C97_step",
    "C97_segment",
    "C97_run",
    "C97_monotone",
    "C97_unique",
    "C97_heat",
    "C97_heat_segment",
    "C97_heat_run"
   ],
   "note": "The proviso and the condition h^2 <= 6 D dt are part of the claim (C92_small_step_refuted shows that the order with the zero solution is lost without it)."
  },
  {
   "property": "C98",
   "status": "partial",
   "theorems": [
    "C98_materials",
    "C98_again",
    "C98_own",
    "C98_positions",
    "C98_density_partial",
    "C98_none_refuted",
    "C98_foreign_refuted"
   ],
   "note": "False when a density is None (the later ones move forward) and for Material objects which are not in the simulation (accepted)."
  },
  {
   "property": "C99",
   "status": "proved",
   "theorems": [
    "C99_series",
    "C99_solution",
    "C99_layers",
    "C99_reported",
    "C99_exchange"
   ],
   "note": ""
  },
  {
   "property": "C100",
   "status": "proved",
   "theorems": [
    "C100_density",
    "C100_approach",
    "C100_limit",
    "C100_equilibrium",
    "C100_forget",
    "C100_exists",
    "C100_steady",
    "C100_steady_refuted"
   ],
   "note": "Exact solver; parameters and temperature constant in time. The stepsizes are those the densities are solved with (C13 says which ones these are). C100_steady_refuted: a steady simulation does not use the equilibrium density."
  },
  {
   "property": "C101",
   "status": "proved",
   "theorems": [
    "C101_forget",
    "C101_steady",
    "C101_limit",
    "C101_heat",
    "C101_segment",
    "C101_heat_segment"
   ],
   "note": "Cartesian meshes; exact solver; the two solutions are nonnegative at the boundary (flux conditions like recombination are monotone only there)."
  },
  {
   "property": "C102",
   "status": "proved",
   "theorems": [
    "C102_series",
    "C102_solution",
    "C102_layers",
    "C102_reported"
   ],
   "note": "Fluxes of heat: FluxBC, ConvectiveFlux and CustomFlux (the others raise, C94, or are meant for hydrogen)."
  },
  {
   "property": "C103",
   "status": "proved",
   "theorems": [
    "C103_accurate",
    "C103_progress",
    "C103_end",
    "C103_overshoot_refuted",
    "C103_closest_refuted",
    "C103_early_refuted"
   ],
   "note": "Floats are rational numbers; the time and the elapsed time in the message are not modelled. The three refuted theorems are witnesses of what is not claimed."
  },
  {
   "property": "C104",
   "status": "proved",
   "theorems": [
    "C104_series",
    "C104_law",
    "C104_gas",
    "C104_mixed",
    "C104_reported",
    "C104_sign_refuted",
    "C104_negative_refuted"
   ],
   "note": "Linear elements on a segment with a quadrature exact for the degrees used; the projection is exact. The two refuted theorems are witnesses of what is not claimed."
  },
  {
   "property": "C105",
   "status": "proved",
   "theorems": [
    "C105_transparent",
    "C105_langmuir",
    "C105_unique",
    "C105_one_layer_refuted"
   ],
   "note": "The refuted theorem is a witness of what is not claimed."
  },
  {
   "property": "C106",
   "status": "proved",
   "theorems": [
    "C106_density",
    "C106_inventory",
    "C106_converges",
    "C106_solution",
    "C106_second_order_refuted"
   ],
   "note": "The refuted theorem is a witness of what is not claimed."
  },
  {
   "property": "C107",
   "status": "proved",
   "theorems": [
    "C107_hydrogen",
    "C107_heat",
    "C107_between",
    "C107_balance",
    "C107_reported",
    "C107_reported_heat",
    "C107_outflow_refuted"
   ],
   "note": "The refuted theorem is a witness of what is not claimed (that the reported fluxes balance the sources)."
  },
  {
   "property": "C108",
   "status": "proved",
   "theorems": [
    "C108_error",
    "C108_converges",
    "C108_no_traps",
    "C108_heat"
   ],
   "note": ""
  },
  {
   "property": "C109",
   "status": "proved",
   "theorems": [
    "C109_sources",
    "C109_bcs",
    "C109_cells",
    "C109_other_meshes",
    "C109_traps",
    "C109_initial",
    "C109_time",
    "C109_kept"
   ],
   "note": ""
  },
  {
   "property": "C110",
   "status": "proved",
   "theorems": [
    "C110_dispatch",
    "C110_times",
    "C110_asked",
    "C110_temperature",
    "C110_exports",
    "C110_steady"
   ],
   "note": ""
  },
  {
   "property": "C111",
   "status": "proved",
   "theorems": [
    "C111_sequence",
    "C111_exceptions",
    "C111_stop_without_t"
   ],
   "note": ""
  },
  {
   "property": "C112",
   "status": "proved",
   "theorems": [
    "C112_borders",
    "C112_thermal",
    "C112_vertices",
    "C112_filter",
    "C112_mode",
    "C112_densities",
    "C112_dirichlet",
    "C112_extremum",
    "C112_extremum_no_dofs",
    "C112_times",
    "C112_labels",
    "C112_initial",
    "C112_initial_built",
    "C112_initial_read",
    "C112_solver",
    "C112_first_silent"
   ],
   "note": ""
  },
  {
   "property": "C113",
   "status": "proved",
   "theorems": [
    "C113_dirichlet",
    "C113_finished",
    "C113_flux"
   ],
   "note": "The compiled code of an Expression is assumed to give what its text means in C (C93_one_reading: there is only one such meaning). Interpolation between nodes is left out for fluxes. That the time is that of the step is C11."
  },
  {
   "property": "C114",
   "status": "proved",
   "theorems": [
    "C114_sources",
    "C114_densities",
    "C114_temperature",
    "C114_initial",
    "C114_frozen"
   ],
   "note": "The compiled code of an Expression is assumed to give what its text means in C (C93_one_reading: there is only one such meaning); values are those at nodes of the mesh. Files as initial values are C65. That update is called with the time of the step is C11."
  }
 ]
}