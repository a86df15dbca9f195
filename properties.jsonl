{"id": "C01", "title": "A transient run never overshoots final_time", "statement": "When a transient Simulation is run with 0 < initial stepsize <= final_time, the simulation time t after every time step is at most final_time, whatever the nonlinear solver reports (number of iterations, failures and retries), whatever milestones, change ratio and max_stepsize are set.", "quantifier": "for all positive initial stepsizes not larger than final_time, all adaptive settings, all milestone lists and all finite sequences of Newton outcomes", "why_tests_cant": "The step that is taken depends on the whole history of Newton outcomes; a test runs one history.", "anchors": ["festim/generic_simulation.py:iterate", "festim/generic_simulation.py:run_transient", "festim/stepsize.py:Stepsize.adapt", "festim/h_transport_problem.py:HTransportProblem.update"]}
{"id": "C02", "title": "A finished transient run stops at final_time", "statement": "Whenever run() of a transient simulation returns without an exception, the last time reached is final_time up to the relative tolerance 1e-5 of numpy.isclose; with an initial stepsize <= final_time and no step landing within that tolerance below final_time it is exactly final_time (exact arithmetic).", "quantifier": "for all settings, schedules of Newton outcomes and step counts", "why_tests_cant": "A test checks one stepping sequence; the claim is about every history of Newton outcomes.", "anchors": ["festim/generic_simulation.py:run_transient", "festim/generic_simulation.py:iterate"]}
{"id": "C03", "title": "Every milestone is hit", "statement": "Every milestone m of the Stepsize with initial stepsize <= m <= final_time is one of the times visited by a completed run.", "quantifier": "for all milestone lists, adaptive settings and schedules of Newton outcomes", "why_tests_cant": "Whether a milestone is jumped over depends on the stepsize history; tests try one list with one history.", "anchors": ["festim/stepsize.py:Stepsize.adapt", "festim/stepsize.py:Stepsize.next_milestone", "festim/generic_simulation.py:iterate"]}
{"id": "C04", "title": "max_stepsize bounds every step after the first", "statement": "With adaptive stepping, once a step has converged at time t, the next step actually taken is at most max_stepsize (or max_stepsize(t) when it is a function and does not return None).", "quantifier": "for all stepsize settings, all functions max_stepsize, all times and all histories of Newton outcomes", "why_tests_cant": "max_stepsize is an arbitrary function and the bound must survive all interleavings of growth, shrinking, milestone and final-time clamping.", "anchors": ["festim/stepsize.py:Stepsize.adapt", "festim/generic_simulation.py:iterate"]}
{"id": "C05", "title": "No step is smaller than dt_min without an error", "statement": "With adaptive stepping and dt_min set, a run either raises 'stepsize reached minimal value' or never uses a stepsize smaller than dt_min (other than to land on a milestone or on final_time).", "quantifier": "for all stepsize settings and all histories of Newton outcomes", "why_tests_cant": "Requires looking at arbitrary long runs of slow or failed solves.", "anchors": ["festim/stepsize.py:Stepsize.adapt"]}
{"id": "C06", "title": "The clock advances by the stepsize that was integrated", "statement": "After every accepted time step the increase of the simulation time equals the stepsize used in the time derivative of the accepted nonlinear solve.", "quantifier": "for all stepsize settings and all histories of Newton outcomes including failed attempts followed by retries", "why_tests_cant": "Only wrong on histories with a failed attempt; tests would need every retry pattern.", "anchors": ["festim/generic_simulation.py:iterate", "festim/h_transport_problem.py:HTransportProblem.update", "festim/stepsize.py:Stepsize.adapt"]}
{"id": "C07", "title": "Failed Newton attempts leave no trace in the solution", "statement": "Within one time step every attempt starts from the same initial guess and the same previous solution, and the previous solution used in the next step is exactly the solution of the attempt that converged.", "quantifier": "for all solution spaces, all solvers and all numbers of failed attempts", "why_tests_cant": "Needs all retry histories, tests use solvers that converge.", "anchors": ["festim/h_transport_problem.py:HTransportProblem.update", "festim/h_transport_problem.py:HTransportProblem.solve_once", "festim/h_transport_problem.py:HTransportProblem.update_previous_solutions"]}
{"id": "C08", "title": "A time step is only accepted on convergence, and retries terminate", "statement": "HTransportProblem.update returns normally only after a converged solve. With stepsize_change_ratio > 1 and dt_min > 0, a sequence of solves that all fail ends with a ValueError after a number of attempts bounded by the settings.", "quantifier": "for all stepsizes, ratios > 1, positive dt_min and all sequences of Newton outcomes", "why_tests_cant": "Termination over unbounded failing sequences cannot be observed by running.", "anchors": ["festim/h_transport_problem.py:HTransportProblem.update", "festim/stepsize.py:Stepsize.adapt"]}
{"id": "C09", "title": "Time increases strictly and stepsizes stay positive", "statement": "With positive initial stepsize, positive change ratio and positive max_stepsize, every step taken during a transient run has a strictly positive stepsize and every time reached is strictly larger than the previous one.", "quantifier": "for all positive settings, milestone lists and histories", "why_tests_cant": "An invariant over all histories.", "anchors": ["festim/stepsize.py:Stepsize.adapt", "festim/generic_simulation.py:iterate"]}
{"id": "C10", "title": "A transient run ends", "statement": "A transient run in which every step is at least delta > 0 ends after at most ceil(final_time/delta) steps; in particular a run with a fixed positive stepsize and no milestones ends after ceil(final_time/stepsize) steps. An adaptive run with positive settings whose solves all converge always reaches final_time.", "quantifier": "for all final times, stepsizes, milestones and histories", "why_tests_cant": "Termination for all inputs; a never-ending run cannot be excluded by running.", "anchors": ["festim/generic_simulation.py:run_transient", "festim/stepsize.py:Stepsize.adapt"]}
{"id": "C11", "title": "Time-dependent inputs are evaluated at the time of the step", "statement": "In every nonlinear solve of a transient run each user-provided time-dependent value that enters the problem (sources, boundary conditions, fluxes, trap densities, extrinsic trap parameters, inputs of the heat problem) has been updated to the time of that step.", "quantifier": "for all lists of sources, boundary conditions and traps, all times and all retries", "why_tests_cant": "Tests check selected objects; the claim ranges over every combination of objects and steps.", "anchors": ["festim/h_transport_problem.py:HTransportProblem.update", "festim/helpers.py:update_expressions", "festim/concentration/mobile.py", "festim/concentration/traps/traps.py", "festim/concentration/traps/extrinsic_trap.py", "festim/temperature/temperature_solver.py:HeatTransferProblem.update"]}
{"id": "C12", "title": "Temperature and previous temperature are those of the current and previous step", "statement": "At every hydrogen solve of a transient run the temperature is that of the current time and the previous temperature (used to evaluate the previous concentration when chemical_pot=True) is that of the previous time step.", "quantifier": "for all temperature definitions, schedules and retries", "why_tests_cant": "Depends on the order of updates across two solvers and all steps.", "anchors": ["festim/temperature/temperature.py:Temperature.update", "festim/temperature/temperature_solver.py:HeatTransferProblem.update", "festim/concentration/theta.py", "festim/generic_simulation.py:iterate"]}
{"id": "C13", "title": "Extrinsic trap densities follow the same clock as the concentrations", "statement": "In every step the density of each ExtrinsicTrap/NeutronInducedTrap is advanced from its value at the previous step with the same stepsize as the concentrations, and at the time reported.", "quantifier": "for all stepsize histories", "why_tests_cant": "Visible only when the stepsize changes; depends on the whole history.", "anchors": ["festim/h_transport_problem.py:HTransportProblem.update", "festim/concentration/traps/traps.py:Traps.solve_extrinsic_traps", "festim/concentration/traps/traps.py:Traps.update_extrinsic_traps_density"]}
{"id": "C14", "title": "XDMFExport mode N writes exactly every N-th step", "statement": "In a run of a freshly built simulation an XDMFExport with mode=N >= 1 writes at the steps 0, N, 2N, ... (counting time steps from 0) and at no other step; with mode=1 it writes every step.", "quantifier": "for all N >= 1, all numbers of steps and all mixes of other exports", "why_tests_cant": "Every step index and every N.", "anchors": ["festim/exports/exports.py:Exports.write", "festim/exports/xdmf_export.py:XDMFExport.is_export", "festim/exports/xdmf_export.py:XDMFExport.mode"]}
{"id": "C15", "title": "Export mode 'last' writes exactly once, at the end", "statement": "In a completed transient run an XDMFExport with mode='last' (and a DerivedQuantities with default settings) is written exactly once, after the last step, provided the run did not overshoot; no intermediate step triggers it.", "quantifier": "for all runs that reach final_time, all stepsize histories", "why_tests_cant": "The end-of-run test uses a floating tolerance that must agree with the loop's stopping test on every history.", "anchors": ["festim/exports/xdmf_export.py:XDMFExport.is_export", "festim/exports/derived_quantities/derived_quantities.py:DerivedQuantities.is_export", "festim/generic_simulation.py:run_transient"]}
{"id": "C16", "title": "The derived quantities table is rectangular and ordered", "statement": "After any number of computations, DerivedQuantities.data is one header row followed by one row per computation, each row has one time plus one value per quantity in the order of the list, times appear in increasing order, and each quantity's own t and data lists have one entry per computation.", "quantifier": "for all non-empty lists of distinct quantity objects, compute intervals and run lengths", "why_tests_cant": "Invariant over all sequences of calls.", "anchors": ["festim/exports/derived_quantities/derived_quantities.py:DerivedQuantities.compute", "festim/exports/derived_quantities/derived_quantities.py:DerivedQuantities.make_header"]}
{"id": "C17", "title": "Compute and export intervals of DerivedQuantities", "statement": "With nb_iterations_between_compute=N quantities are computed exactly at steps 0, N, 2N, ...; with nb_iterations_between_exports=M the csv is written exactly at steps 0, M, 2M, ...; a written csv contains every row computed up to then.", "quantifier": "for all N, M >= 1 and all run lengths", "why_tests_cant": "All step indices and all pairs N, M.", "anchors": ["festim/exports/derived_quantities/derived_quantities.py:DerivedQuantities.is_compute", "festim/exports/derived_quantities/derived_quantities.py:DerivedQuantities.is_export", "festim/exports/exports.py:Exports.write"]}
{"id": "C18", "title": "TXTExport exports every requested time", "statement": "Every time requested in TXTExport.times that lies between the first step and final_time is turned into a milestone, is visited by the run and produces one exported column.", "quantifier": "for all lists of times, all stepsize settings and all histories", "why_tests_cant": "Composition of initialise, stepping and export filters over all histories.", "anchors": ["festim/generic_simulation.py:initialise", "festim/exports/txt_export.py:TXTExport.is_it_time_to_export", "festim/stepsize.py:Stepsize.adapt"]}
{"id": "C19", "title": "TXTExport file header matches its columns and keeps every export", "statement": "After any sequence of writes the header of a TXTExport has exactly one entry per data column, column k+1 holds the values exported at the k-th exported time, and a file that is written contains all columns exported so far.", "quantifier": "for all sequences of exported times and solutions, and every header_format that produces no comma", "why_tests_cant": "Invariant over all sequences of calls.", "anchors": ["festim/exports/txt_export.py:TXTExport.write", "festim/exports/txt_export.py:TXTExport.initialise"]}
{"id": "C20", "title": "TXTExport write_at_last writes the file", "statement": "With write_at_last=True the file is written exactly once, when the last requested (or final) time is reached, in every completed run.", "quantifier": "for all times lists and final times", "why_tests_cant": "Needs all relations between times and final_time.", "anchors": ["festim/exports/txt_export.py:TXTExport.is_last", "festim/exports/txt_export.py:TXTExport.write"]}
{"id": "C21", "title": "TXTExport rows are sorted, complete and duplicated only at material borders", "statement": "In the exported table the x column is non-decreasing, contains every coordinate of the mesh, and with filter=True repeats a coordinate only where it is an interface between materials.", "quantifier": "for all 1D meshes, dof orderings and material borders lying on mesh vertices (given in one form)", "why_tests_cant": "All orderings of dofs and all material layouts.", "anchors": ["festim/exports/txt_export.py:TXTExport.initialise", "festim/exports/txt_export.py:TXTExport.write"]}
{"id": "C22", "title": "Running initialise twice is the same as once", "statement": "Calling initialise() again on the same simulation object (to re-run it) leads to the same exports, milestones, sources, trap ids and boundary conditions as the first time.", "quantifier": "for all simulations", "why_tests_cant": "State left over from arbitrary earlier runs.", "anchors": ["festim/generic_simulation.py:initialise", "festim/exports/exports.py:Exports", "festim/exports/xdmf_export.py:XDMFExport.append", "festim/concentration/traps/traps.py:Traps.assign_traps_ids"]}
{"id": "C23", "title": "DerivedQuantities.filter selects exactly the matching quantities", "statement": "filter(surfaces, volumes, fields, instances) returns exactly the quantities satisfying all given criteria, in list order, unwrapped when there is exactly one.", "quantifier": "for all lists of quantities and all combinations of criteria", "why_tests_cant": "All subsets and combinations.", "anchors": ["festim/exports/derived_quantities/derived_quantities.py:DerivedQuantities.filter"]}
{"id": "C24", "title": "Accepted 1D borders cover the whole domain", "statement": "If define_measures accepts the borders of the materials, every x in [0, size] belongs to the borders of at least one material and, away from interfaces, of exactly one.", "quantifier": "for all lists of materials and borders, all sizes, all points", "why_tests_cant": "Universally quantified over real intervals.", "anchors": ["festim/materials/materials.py:Materials.check_borders", "festim/meshing/mesh_1d.py:Mesh1D.define_measures"]}
{"id": "C25", "title": "Every cell of an accepted 1D mesh gets a material", "statement": "If the borders are accepted and every border has an id (one id per material, or one per border; nested lists hold at least two borders) then every cell is marked with the id of a material whose borders contain its midpoint, and that material is found again from the marker. A single material without borders marks every cell.", "quantifier": "for all vertex lists with 0 <= min, materials, layouts of borders and cells", "why_tests_cant": "All meshes and layouts.", "anchors": ["festim/meshing/mesh_1d.py:Mesh1D.define_volume_markers", "festim/materials/materials.py:Materials.find_subdomain_from_x_coordinate", "festim/materials/materials.py:Materials.find_material_from_id"]}
{"id": "C26", "title": "Material lookup is well defined", "statement": "If check_unique_ids passes, looking up a material by any of its ids returns that material and only that one; looking up an unknown id raises; lookup by name returns the first material with that name.", "quantifier": "for all lists of materials", "why_tests_cant": "All lists and ids.", "anchors": ["festim/materials/materials.py:Materials.check_unique_ids", "festim/materials/materials.py:Materials.find_material_from_id", "festim/materials/materials.py:Materials.find_material_from_name"]}
{"id": "C27", "title": "Material properties are all-or-none", "statement": "check_materials accepts only if each optional property is given for all materials or for none, no id is repeated and the properties needed by the chosen temperature problem are present for all materials; otherwise it raises a ValueError. It warns exactly about the thermal properties that will not be used.", "quantifier": "for all lists of materials and option combinations", "why_tests_cant": "All combinations.", "anchors": ["festim/materials/materials.py:Materials.check_materials", "festim/materials/materials.py:Materials.check_consistency", "festim/materials/materials.py:Materials.check_missing_properties", "festim/materials/materials.py:Materials.check_for_unused_properties"]}
{"id": "C28", "title": "MeshFromVertices builds a tiling", "statement": "For any collection of vertices the mesh has strictly increasing vertex coordinates, exactly the given distinct coordinates, consecutive cells that tile [min, max], and, when distinct vertices are at least DOLFIN_EPS apart, surface 1 at the minimum, surface 2 at the maximum and marker 0 at every interior vertex.", "quantifier": "for all non-empty vertex lists (any order, with duplicates)", "why_tests_cant": "All vertex lists.", "anchors": ["festim/meshing/mesh_from_vertices.py", "festim/meshing/mesh_1d.py:Mesh1D.define_surface_markers"]}
{"id": "C29", "title": "Conflicting boundary conditions are rejected", "statement": "If initialise accepts the boundary conditions then no Dirichlet or SurfaceKinetics condition shares a surface with another condition whose field has the same value (0 and '0' being different values), every field names an existing species or 'T', SurfaceKinetics are used in 1D only and T conditions only with a HeatTransferProblem; conversely such lists are accepted, and when one is refused the exception names a reason that holds.", "quantifier": "for all lists of boundary conditions and traps", "why_tests_cant": "All pairs in all lists.", "anchors": ["festim/generic_simulation.py:check_boundary_conditions"]}
{"id": "C30", "title": "Every accepted boundary condition is applied, to its own field", "statement": "Every boundary condition accepted by initialise contributes either a Dirichlet constraint on its field's component or a flux term in its field's equation, exactly once.", "quantifier": "for all lists of boundary conditions", "why_tests_cant": "All lists, all field spellings.", "anchors": ["festim/generic_simulation.py:check_boundary_conditions", "festim/generic_simulation.py:attribute_boundary_conditions", "festim/h_transport_problem.py:HTransportProblem.attribute_flux_boundary_conditions", "festim/h_transport_problem.py:HTransportProblem.create_dirichlet_bcs"]}
{"id": "C31", "title": "Sources are attached to the right equation exactly once", "statement": "After initialise each source is attached to the equation of its field exactly once and in list order, a RadioactiveDecay on 'all' is attached exactly once to the mobile species and to each trap, nothing else is attached, and sources from an earlier initialise are gone.", "quantifier": "for all lists of sources and traps", "why_tests_cant": "All lists.", "anchors": ["festim/generic_simulation.py:attribute_source_terms"]}
{"id": "C32", "title": "Collections only ever contain the right kind of object", "statement": "Whatever sequence of append, insert, extend, item assignment and whole replacement is applied, Materials, Traps, Exports and DerivedQuantities contain only objects of the right type, and an operation that succeeds puts its objects at the place a list would, leaving the others as they were; an operation with a wrong object raises TypeError, append, insert, item assignment and replacement then leave the collection unchanged, and extend keeps exactly the items before the wrong one.", "quantifier": "for all sequences of operations", "why_tests_cant": "Invariant over operation histories.", "anchors": ["festim/materials/materials.py:Materials", "festim/concentration/traps/traps.py:Traps", "festim/exports/exports.py:Exports", "festim/exports/derived_quantities/derived_quantities.py:DerivedQuantities"]}
{"id": "C33", "title": "Trap ids identify traps", "statement": "After initialise all traps have distinct non-zero ids, ids given by the user are kept, and get_trap(id) returns the trap with this id.", "quantifier": "for all lists of traps with and without ids", "why_tests_cant": "All id patterns.", "anchors": ["festim/concentration/traps/traps.py:Traps.assign_traps_ids", "festim/concentration/traps/traps.py:Traps.get_trap"]}
{"id": "C34", "title": "Initial conditions reach the species they name", "statement": "An InitialCondition with field k initialises the concentration of the trap with id k (or the mobile species for 0/'0'/'solute') and no other.", "quantifier": "for all lists of traps (ids) and initial conditions", "why_tests_cant": "All id layouts.", "anchors": ["festim/h_transport_problem.py:HTransportProblem.initialise_concentrations"]}
{"id": "C35", "title": "Solution components are laid out consistently", "statement": "Mobile, trapped and adsorbed species are assigned pairwise distinct components covering exactly the solution space, and the same component is used when solving, initialising and post-processing each of them; retention is the sum of mobile and all trapped concentrations.", "quantifier": "for all numbers of traps and surface-kinetics conditions with any number of surfaces", "why_tests_cant": "All sizes.", "anchors": ["festim/h_transport_problem.py:HTransportProblem.define_function_space", "festim/h_transport_problem.py:HTransportProblem.initialise_concentrations", "festim/h_transport_problem.py:HTransportProblem.update_post_processing_solutions", "festim/generic_simulation.py:update_post_processing_solutions"]}
{"id": "C36", "title": "initialise rejects inconsistent settings with the documented error", "statement": "initialise succeeds only if the time settings (transient/steady, final_time, dt), boundary conditions, dimension/coordinate system, chemical potential/trap/solubility law and AdsorbedHydrogen surfaces are consistent; in each other case the documented exception is raised and the run does not start.", "quantifier": "for all combinations of settings in which nothing else is wrong (such as a missing material property)", "why_tests_cant": "All combinations.", "anchors": ["festim/generic_simulation.py:initialise", "festim/generic_simulation.py:check_mesh_dim_coords"]}
{"id": "C37", "title": "Trapping conserves hydrogen and the discrete balance closes", "statement": "For every mesh, set of materials, traps and state, the discrete problem tested with constant 1 says: rate of change of (mobile + trapped) inventory = sum of sources + sum of boundary fluxes. What traps gain the mobile species loses, exactly.", "quantifier": "for all meshes/quadratures, materials, traps, sources, fluxes, states, temperatures and stepsizes (Cartesian; analogous weights for cylindrical/spherical)", "why_tests_cant": "An algebraic identity over all states; tests compare single numbers with tolerances.", "anchors": ["festim/concentration/mobile.py:Mobile.create_diffusion_form", "festim/concentration/traps/trap.py:Trap.create_trapping_form", "festim/concentration/traps/trap.py:Trap.create_source_form", "festim/concentration/mobile.py:Mobile.create_source_form", "festim/concentration/mobile.py:Mobile.create_fluxes_form"]}
{"id": "C38", "title": "Heat transfer conserves energy", "statement": "For every mesh, materials and state, the discrete heat equation tested with constant 1 says: rate of change of thermal energy = sources + boundary heat fluxes.", "quantifier": "for all meshes, materials, states, stepsizes", "why_tests_cant": "Identity over all states.", "anchors": ["festim/temperature/temperature_solver.py:HeatTransferProblem.define_variational_problem"]}
{"id": "C39", "title": "Surface kinetics conserves hydrogen between bulk, surface and vacuum", "statement": "For a SurfaceKinetics condition the hydrogen lost by the surface to the bulk is exactly what the bulk receives, so that adsorbed + near-surface + bulk inventory changes only by the flux from the vacuum J_vs.", "quantifier": "for all rate functions, states and temperatures", "why_tests_cant": "Identity over all states.", "anchors": ["festim/boundary_conditions/fluxes/surface_kinetics.py", "festim/concentration/mobile.py:Mobile.create_fluxes_form"]}
{"id": "C40", "title": "Trapped concentrations stay between zero and the trap density", "statement": "Any pointwise solution of the discrete equation of a trap without source, with 0 <= previous trapped concentration <= density and non-negative mobile concentration satisfies 0 <= trapped <= density, for every stepsize; outside the materials of the trap nothing changes; in steady state the occupancy is k c/(k c + p) in the materials of the trap and 0 elsewhere.", "quantifier": "for all states, stepsizes, rates and temperatures", "why_tests_cant": "Holds for all real values, without stepsize restriction.", "anchors": ["festim/concentration/traps/trap.py:Trap.create_trapping_form"]}
{"id": "C41", "title": "Extrinsic and neutron-induced trap densities stay physical", "statement": "The density computed at a point for an ExtrinsicTrap or NeutronInducedTrap in one step from a density within [0, maximum] stays within [0, maximum] for every stepsize and non-negative parameters; the maximum is n_max for a NeutronInducedTrap and the larger of n_amax and n_bmax for an ExtrinsicTrap.", "quantifier": "for all parameters, stepsizes, temperatures and previous densities", "why_tests_cant": "All real parameter values.", "anchors": ["festim/concentration/traps/extrinsic_trap.py:ExtrinsicTrap.create_form_density", "festim/concentration/traps/neutron_induced_trap.py:NeutronInducedTrap.create_form_density"]}
{"id": "C42", "title": "Radioactive decay only removes, at its rate", "statement": "With a RadioactiveDecay on field 'all' in every volume and no other source or flux, the total inventory is multiplied by exactly 1/(1+decay_constant*dt) in each step; exactly the positive decay constants are accepted, so a positive inventory always decreases and stays positive.", "quantifier": "for all meshes, materials, traps, states and stepsizes", "why_tests_cant": "Identity over all states and step sizes.", "anchors": ["festim/sources/radioactive_decay.py", "festim/concentration/mobile.py:Mobile.create_source_form", "festim/concentration/traps/trap.py:Trap.create_source_form"]}
{"id": "C43", "title": "Chemical potential and concentration conversions are inverse", "statement": "With chemical_pot=True, converting an initial or boundary concentration to theta and back gives the concentration unchanged, for Sieverts and Henry materials, and the concentration used in the equations equals the exported one.", "quantifier": "for all non-negative concentrations, solubilities, temperatures and materials", "why_tests_cant": "Real-valued identity over all inputs.", "anchors": ["festim/concentration/theta.py", "festim/boundary_conditions/dirichlets/dirichlet_bc.py:BoundaryConditionTheta"]}
{"id": "C44", "title": "Chemical potential is continuous at interfaces", "statement": "With chemical_pot=True the concentrations on both sides of an interface satisfy c1/S1 = c2/S2 (Sieverts/Sieverts), c1/K1 = c2/K2 (Henry/Henry) and (c_S/S)^2 = c_H/K (Sieverts/Henry).", "quantifier": "for all temperatures, solubilities and theta", "why_tests_cant": "Real-valued identity over all inputs.", "anchors": ["festim/concentration/theta.py:Theta"]}
{"id": "C45", "title": "Dirichlet laws: Sieverts, Henry, implantation", "statement": "SievertsBC imposes S_0 exp(-E_S/kT) sqrt(P), HenrysBC H_0 exp(-E_H/kT) P, ImplantationDirichlet phi R_p/D plus the recombination/dissociation term; each is non-negative, monotone in pressure/flux, and the recombination form makes the recombination flux balance implantation plus dissociation.", "quantifier": "for all temperatures, pressures and parameters", "why_tests_cant": "Real-valued statements over all inputs.", "anchors": ["festim/boundary_conditions/dirichlets/sieverts_bc.py", "festim/boundary_conditions/dirichlets/henrys_bc.py", "festim/boundary_conditions/dirichlets/dc_imp.py"]}
{"id": "C46", "title": "Fluxes have the right sign and equilibrium", "statement": "Recombination removes hydrogen, dissociation adds it, convective flux heats iff T_ext > T, mass flux removes iff c > c_ext; recombination of order 2 and dissociation cancel exactly at the Sieverts concentration sqrt(Kd P/Kr).", "quantifier": "for all temperatures, concentrations and parameters", "why_tests_cant": "Real-valued statements over all inputs.", "anchors": ["festim/boundary_conditions/fluxes"]}
{"id": "C47", "title": "Curvilinear weak forms are conservative", "statement": "In cylindrical and spherical coordinates the diffusion form equals the Cartesian-like flux form with weight r (r^2): testing with the weight makes the diffusion and Soret terms vanish so that total inventory (per angle) is conserved.", "quantifier": "for all states and radii r > 0", "why_tests_cant": "Identity over all states.", "anchors": ["festim/concentration/mobile.py:Mobile.create_diffusion_form"]}
{"id": "C48", "title": "Angular factors are solid angles", "statement": "The azimuth/polar factors of cylindrical and spherical derived quantities equal the integral of the angular element over the requested range, are additive over adjacent ranges and give 2*pi / 4*pi for full ranges; accepted ranges lie within the documented bounds.", "quantifier": "for all ranges", "why_tests_cant": "Real-valued statements over all ranges.", "anchors": ["festim/exports/derived_quantities/surface_flux.py", "festim/exports/derived_quantities/total_volume.py", "festim/exports/derived_quantities/total_surface.py"]}
{"id": "C49", "title": "Averages lie between minimum and maximum", "statement": "For every mesh and field, the AverageVolume (AverageSurface) over a subdomain lies between the minimum and maximum of the field there, equals the value for constant fields, and TotalVolume is the average times the volume and is additive over volumes and fields (retention total = solute total + trap totals).", "quantifier": "for all meshes, fields, subdomains", "why_tests_cant": "All fields and meshes.", "anchors": ["festim/exports/derived_quantities/average_volume.py", "festim/exports/derived_quantities/average_surface.py", "festim/exports/derived_quantities/total_volume.py", "festim/exports/derived_quantities/maximum_volume.py", "festim/exports/derived_quantities/minimum_volume.py"]}
{"id": "C50", "title": "Every derived quantity can be used in DerivedQuantities", "statement": "Any of the provided derived quantities may be put in a DerivedQuantities list; computing the list never fails because of the kind of quantity.", "quantifier": "for all lists of quantities", "why_tests_cant": "All combinations of kinds.", "anchors": ["festim/exports/derived_quantities/derived_quantities.py:DerivedQuantities.compute", "festim/exports/derived_quantities/maximum_surface.py", "festim/exports/derived_quantities/minimum_surface.py"]}
{"id": "C51", "title": "Export units are dimensionally consistent", "statement": "The unit shown in the title of each derived quantity is the unit of the field times the unit of the measure it is integrated over, in every dimension.", "quantifier": "for all quantities, fields and mesh dimensions", "why_tests_cant": "All combinations.", "anchors": ["festim/exports/derived_quantities"]}
{"id": "C52", "title": "Files can be written for any valid filename", "statement": "An export whose filename has the right extension can be written, creating missing folders.", "quantifier": "for all filenames with the right extension", "why_tests_cant": "All strings.", "anchors": ["festim/exports/txt_export.py:TXTExport.write", "festim/exports/derived_quantities/derived_quantities.py:DerivedQuantities.write"]}
{"id": "C53", "title": "Adsorbed hydrogen exports read the surface they name", "statement": "An AdsorbedHydrogen quantity on surface s reads the adsorbed concentration of the SurfaceKinetics condition on s, for every layout of conditions and surfaces.", "quantifier": "for all accepted lists of boundary conditions in which no SurfaceKinetics lists a surface twice", "why_tests_cant": "All layouts.", "anchors": ["festim/exports/exports.py:Exports.initialise_derived_quantities", "festim/generic_simulation.py:initialise", "festim/h_transport_problem.py"]}
{"id": "C54", "title": "is_steady_state is safe", "statement": "If Temperature.is_steady_state() is true the temperature does not depend on time.", "quantifier": "for all temperature expressions", "why_tests_cant": "All expressions.", "anchors": ["festim/temperature/temperature.py:Temperature.is_steady_state"]}
{"id": "C55", "title": "Energies in kJ/mol and eV give the same Arrhenius factor", "statement": "exp(-kJmol_to_eV(E)/(k_B T)) = exp(-1000 E/(R T)) for every E and T; conversion is linear.", "quantifier": "for all E, T > 0", "why_tests_cant": "Real-valued identity.", "anchors": ["festim/helpers.py:kJmol_to_eV"]}
{"id": "C56", "title": "Implantation source profile", "statement": "ImplantationFlux is non-negative, symmetric about imp_depth, maximal there, and linear in the flux.", "quantifier": "for all parameters and positions", "why_tests_cant": "Real-valued statements over all inputs.", "anchors": ["festim/sources/source_implantation_flux.py"]}
{"id": "C57", "title": "A field name means the same species everywhere", "statement": "The same field name designates the same species in sources, boundary conditions, initial conditions and exports, and the spellings i and 'i' are equivalent.", "quantifier": "for all lists of traps (ids) and all field names", "why_tests_cant": "All id layouts and names at once.", "anchors": ["festim/generic_simulation.py:attribute_source_terms", "festim/generic_simulation.py:update_post_processing_solutions", "festim/h_transport_problem.py:HTransportProblem.initialise_concentrations", "festim/boundary_conditions/dirichlets/dirichlet_bc.py:DirichletBC.create_dirichletbc"]}
{"id": "C58", "title": "Flux quantities are the integral documented by their class", "statement": "Each SurfaceFlux class returns the integral given in its documentation (+prop grad(u).n for SurfaceFlux, -prop grad(u).n for SurfaceFluxCylindrical and SurfaceFluxSpherical) over the surface, with the thermodiffusion term when Soret is on; all classes have the same sign convention.", "quantifier": "for all meshes, fields, properties and surfaces", "why_tests_cant": "Sign and weights must hold for all fields and meshes.", "anchors": ["festim/exports/derived_quantities/surface_flux.py", "festim/exports/derived_quantities/hydrogen_flux.py", "festim/exports/derived_quantities/thermal_flux.py"]}
{"id": "C59", "title": "MaximumSurface and MinimumSurface are extrema over the surface", "statement": "MaximumSurface.compute (MinimumSurface.compute) returns the largest (smallest) nodal value of the field on the facets of the surface.", "quantifier": "for all meshes, markers and functions", "why_tests_cant": "All meshes and numberings.", "anchors": ["festim/exports/derived_quantities/maximum_surface.py", "festim/exports/derived_quantities/minimum_surface.py"]}
{"id": "C60", "title": "Every Dirichlet condition class works with conservation of chemical potential", "statement": "Every documented Dirichlet condition (DirichletBC, CustomDirichlet, ImplantationDirichlet, SievertsBC, HenrysBC) on any hydrogen field can be set up, with chemical_pot=True as well as with chemical_pot=False.", "quantifier": "for all lists of boundary conditions and both settings", "why_tests_cant": "Every combination of class, field and setting.", "anchors": ["festim/boundary_conditions/dirichlets/dirichlet_bc.py:DirichletBC.normalise_by_solubility", "festim/boundary_conditions/dirichlets/custom_dc.py:CustomDirichlet.create_expression"]}
{"id": "C61", "title": "A steady run writes every export exactly once", "statement": "run() of a steady simulation with new exports writes each XDMFExport with integer mode, each DerivedQuantities with a filename (header and one row) and each TXTExport without times (one column, header 'x,t=steady') exactly once, at time 0 and with the solution of the solve, whatever the intervals; it ends normally if the solver converged and raises a ValueError after writing otherwise; mode='last' and TXTExport.times raise.", "quantifier": "for all lists of exports, solutions and convergence outcomes", "why_tests_cant": "Every combination of exports, modes, intervals and outcomes.", "anchors": ["festim/generic_simulation.py:run_steady", "festim/exports/exports.py:Exports.write", "festim/exports/xdmf_export.py:XDMFExport.is_export", "festim/exports/txt_export.py:TXTExport.write", "festim/exports/derived_quantities/derived_quantities.py:DerivedQuantities.is_export"]}
{"id": "C62", "title": "A trap with lists of parameters acts as one trap per material", "statement": "A Trap given lists of k_0, E_k, p_0, E_p and densities, one entry per material, gives the same equation of the mobile species as one Trap with single values per material holding the content of the trap in that material. The equation of the trap tested in one material is the equation of the separate trap of that material, in transient and in steady simulations, and the equations of the separate traps add up to the equation of the trap if it is empty outside its materials.", "quantifier": "for all meshes, materials with single distinct ids, lists of parameters, densities, temperatures, concentrations, stepsizes and other traps", "why_tests_cant": "Equality of whole forms for every number of materials and every field, with the terms added in materials without the trap.", "anchors": ["festim/concentration/traps/trap.py:Trap.create_trapping_form", "festim/concentration/mobile.py:Mobile.create_diffusion_form", "festim/concentration/traps/trap.py:Trap.make_materials"]}
{"id": "C63", "title": "The equations are built exactly from complete inputs", "statement": "Building the transport equations succeeds if and only if: D_0 and E_D of every material are numbers; with chemical_pot S_0 and E_S are numbers; with soret Q is set; each trap has for each of its materials either an entry in each list or single numbers and a density, materials with one id and, with chemical_pot, no Henry law; trap sources have one volume; in steady state the materials without a trap have one id. The heat equation is built if and only if thermal_cond (and heat_capacity and rho when transient) are set everywhere and no flux on T reads the concentration. check_materials guarantees the properties of the heat equation, and with the Material constructor that S_0 and E_S are set together in all materials or none.", "quantifier": "for all materials, traps, sources, boundary conditions and options", "why_tests_cant": "An exact characterisation of the accepted inputs over all combinations.", "anchors": ["festim/h_transport_problem.py:define_variational_problem", "festim/concentration/mobile.py:Mobile.create_form", "festim/concentration/traps/trap.py:Trap.create_form", "festim/temperature/temperature_solver.py:define_variational_problem", "festim/materials/material.py:Material.check_properties", "festim/materials/materials.py:check_materials"]}
{"id": "C64", "title": "XDMF exports of different fields go to different files", "statement": "XDMFExport of 'solute', 'T', 'retention' or a trap number without label and filename writes data named mobile_concentration, temperature, retention or trap_<n>_concentration to <folder>/<name>.xdmf, so that exports of different fields in one folder never share a file or a label. The constructor accepts exactly: a filename ending in .xdmf or a field or label to name it after, a positive int (or 'last') as mode, a str or None as folder and a bool as checkpoint.", "quantifier": "for all arguments of the constructor (labels that are not strings and non-ASCII digits excepted)", "why_tests_cant": "Injectivity over all trap numbers and all folders.", "anchors": ["festim/exports/xdmf_export.py:XDMFExport.__init__", "festim/exports/xdmf_export.py:XDMFExport.label", "festim/exports/xdmf_export.py:XDMFExport.define_xdmf_file", "festim/exports/trap_density_xdmf.py:TrapDensityXDMF.__init__"]}
{"id": "C65", "title": "A checkpoint file holds exactly the exported steps, and a restart reads the one it names", "statement": "After a run, the file of an XDMFExport with mode=n and checkpoint=True holds, whatever it held before, one entry for each exported step 0, n, 2n, ..., in order, with its time and the field after that step; with mode='last' the final field only. extract_xdmf_times and extract_xdmf_labels of the file return these times and the label. An InitialCondition naming the file, its label and time_step=j starts from the field after step j*n (the last one for -1) and fails if there is none; it is refused exactly if it names an .xdmf file without label or time_step. TemperatureFromXDMF is accepted exactly for the label of the file, and T and T_n are the last field written.", "quantifier": "for all runs, schedules, exports, file names and positions", "why_tests_cant": "Relates the whole history of a run to what a later run reads.", "anchors": ["festim/exports/xdmf_export.py:XDMFExport.write", "festim/helpers.py:extract_xdmf_times", "festim/helpers.py:extract_xdmf_labels", "festim/initial_condition.py:InitialCondition", "festim/concentration/concentration.py:Concentration.get_comp", "festim/temperature/temperature_from_xdmf.py:TemperatureFromXDMF", "festim/temperature/temperature_solver.py:HeatTransferProblem.create_functions"]}
{"id": "C66", "title": "The title of a derived quantity tells which statistic of which field where", "statement": "Two derived quantities with the same title (and the same show_units) are the same statistic of the same field on the same volume, surface or point; without units the title depends on nothing else. If they are also of the same class with the same angles and point, they have the same value. Every name that label_to_function knows prints as a name that cannot be confused with another word of the title.", "quantifier": "for all pairs of quantities, fields, ids, dimensions, meshes and solutions", "why_tests_cant": "Pairs of titles over all ids and fields cannot be enumerated.", "anchors": ["festim/exports/derived_quantities/derived_quantity.py:DerivedQuantity", "festim/exports/derived_quantities/surface_flux.py:SurfaceFlux.title", "festim/exports/derived_quantities/point_value.py:PointValue.title", "festim/exports/derived_quantities/derived_quantities.py:DerivedQuantities.make_header"]}
{"id": "C67", "title": "Every line of the derived quantities file has as many fields as the header", "statement": "Splitting the lines of every derived quantities file that a run writes at the commas gives the titles in the first line and, in the following ones, the time and the values of each computed step in order; each line has one field more than there are quantities.", "quantifier": "for all runs, schedules, lists of quantities and points", "why_tests_cant": "The file is rectangular or not depending on the titles; tests use titles without commas.", "anchors": ["festim/exports/derived_quantities/derived_quantities.py:DerivedQuantities.write", "festim/exports/derived_quantities/derived_quantities.py:DerivedQuantities.make_header", "festim/exports/derived_quantities/point_value.py:PointValue"]}
{"id": "C68", "title": "A time step has at most one physical solution and depends continuously on the previous one", "statement": "Without Soret term and chemical potential, two solutions of the same hydrogen time step that are non-negative on the boundary satisfy (1 - dt*L/2)*|u-w|^2 <= |u_n-w_n|^2 when L bounds the trapping rates; if dt*L < 4 they coincide. Without traps two solutions never move apart, whatever the number of steps and the stepsizes. The steady mobile concentration is unique when each trap covers all materials. With constant thermal properties two temperature solutions never move apart either.", "quantifier": "for all Cartesian meshes of any dimension, materials, temperatures, traps, sources, dissipative fluxes, stepsizes, trial spaces and solutions", "why_tests_cant": "A test sees one discretised solution and cannot show that there is no other, nor bound the effect of all perturbations.", "anchors": ["festim/concentration/mobile.py:Mobile.create_diffusion_form", "festim/concentration/mobile.py:Mobile.create_fluxes_form", "festim/concentration/traps/trap.py:Trap.create_trapping_form", "festim/h_transport_problem.py:HTransportProblem.define_variational_problem", "festim/temperature/temperature_solver.py:HeatTransferProblem.define_variational_problem"]}
{"id": "C69", "title": "Steady states are the equilibria of time stepping", "statement": "The residual of a time step is the steady residual at the new fields plus the backward difference quotients of the mobile, trapped and adsorbed hydrogen times their test functions (implicit Euler); the same holds for the heat equation. Hence, unless SurfaceKinetics is used with chemical_pot, a state without trapped hydrogen outside the materials of its trap solves the steady equations exactly if it solves any time step starting from itself, and (with C68) the step has no other physical solution.", "quantifier": "for all meshes, coordinate systems, materials, temperatures, traps, sources, boundary conditions, stepsizes, test functions and fields, in both formulations", "why_tests_cant": "Tests compare a long transient run with a steady one for single cases and tolerances.", "anchors": ["festim/concentration/mobile.py:Mobile.create_diffusion_form", "festim/concentration/traps/trap.py:Trap.create_trapping_form", "festim/boundary_conditions/fluxes/surface_kinetics.py:SurfaceKinetics.create_form", "festim/temperature/temperature_solver.py:HeatTransferProblem.define_variational_problem", "festim/h_transport_problem.py:HTransportProblem.define_variational_problem"]}
{"id": "C70", "title": "The results do not depend on the system of units", "statement": "When all inputs are expressed in other units of length, time, concentration, pressure, energy and mass, every residual (hydrogen transport in all three coordinate systems, Soret, traps, sources, decay, fluxes and SurfaceKinetics; heat; extrinsic and neutron-induced trap densities) is multiplied by one common factor, the same exceptions are raised, so the same states solve the equations; the Dirichlet laws, the implantation source and the initial chemical potential give the same physical values; every derived quantity is multiplied by the factor of the unit its title should show, which is the printed one wherever C51 holds. Exceptions: SurfaceKinetics with chemical_pot, steady traps absent from some material, Dirichlet conditions on Henry materials.", "quantifier": "for all positive unit factors, meshes, coordinate systems, materials, temperatures, traps, sources, boundary conditions, stepsizes, test functions, fields and derived quantities; boundary concentrations non-negative if a recombination order is not an integer", "why_tests_cant": "Tests run in SI units only, with one set of values.", "anchors": ["festim/concentration/mobile.py:Mobile.create_form", "festim/concentration/traps/trap.py:Trap.create_form", "festim/concentration/theta.py", "festim/boundary_conditions", "festim/temperature/temperature_solver.py:HeatTransferProblem.define_variational_problem", "festim/concentration/traps/extrinsic_trap.py:ExtrinsicTrap.create_form_density", "festim/concentration/traps/neutron_induced_trap.py:NeutronInducedTrap.create_form_density", "festim/exports/derived_quantities", "festim/sources/source_implantation_flux.py"]}
{"id": "C71", "title": "The coverage of a surface with kinetics obeys its documented rate equation and stays between 0 and n_surf", "statement": "In the assembled problem the test function of an adsorbed species selects exactly (c_s - c_s,n)/dt = J_bs - J_sb + J_vs with J_bs = k_bs c (1 - c_s/n_surf) and J_sb = k_sb c_s (1 - c/n_IS), whatever the other conditions, traps, sources and surfaces; its solutions keep 0 <= c_s <= n_surf for every stepsize when the rates are not negative, 0 <= c <= n_IS and J_vs neither fills a full nor empties an empty surface; the steady coverage is the quotient the rates impose; and for all other species the condition is the flux J_sb - J_bs - lambda_IS dc/dt (concentration as unknown, or steady state).", "quantifier": "for all meshes whose surface is one vertex, rate functions, states, temperatures, stepsizes, materials, traps, sources and other boundary conditions", "why_tests_cant": "Tests compare one form for one set of constants; the bounds hold for all real values and stepsizes.", "anchors": ["festim/boundary_conditions/fluxes/surface_kinetics.py:SurfaceKinetics.create_form", "festim/concentration/mobile.py:Mobile.create_fluxes_form", "festim/h_transport_problem.py:HTransportProblem.define_variational_problem"]}
{"id": "C72", "title": "Volume and surface ids are only names, and the order and grouping of materials, traps, sources and boundary conditions do not matter", "statement": "Replacing the volume ids and the surface ids of the mesh and of all inputs by other ids, distinct for distinct ids, leaves the assembled transport and heat problems and every derived quantity unchanged, and raises the same exceptions. So does any other order of the materials, the traps, the materials of a trap together with their parameters, the sources, the boundary conditions and the surfaces of a condition, and giving one material, source or condition per id instead of one with a list of ids (materials with traps and sources of traps excepted).", "quantifier": "for all meshes, injective renamings of ids, permutations, materials, traps, sources, conditions, fields, test functions, stepsizes, coordinates, with and without Soret effect and chemical potential", "why_tests_cant": "Tests use ids 1, 2, ... in one order; the claim is about all renamings and permutations.", "anchors": ["festim/h_transport_problem.py:HTransportProblem.define_variational_problem", "festim/concentration/mobile.py:Mobile.create_diffusion_form", "festim/concentration/mobile.py:Mobile.create_source_form", "festim/concentration/mobile.py:Mobile.create_fluxes_form", "festim/concentration/traps/trap.py:Trap.create_trapping_form", "festim/temperature/temperature_solver.py:HeatTransferProblem.define_variational_problem", "festim/exports/derived_quantities/"]}
{"id": "C73", "title": "The hydrogen budget read from the exported totals closes", "statement": "The totals printed for the field 'retention' in volumes that cover the mesh add up to the mobile and trapped hydrogen of the equations, times the angle, also when the unknown is the chemical potential and the concentration is projected for the export. From one step to the next, and over a run of any length, the printed sum changes exactly by the stepsize times what the sources and the flux conditions bring, less what surfaces with kinetics take; the latter is the change of what AdsorbedHydrogen prints plus the change in the layer of thickness lambda_IS.", "quantifier": "for all meshes in the three coordinate systems, materials, traps, sources, flux conditions, angular ranges, runs of any length with any stepsizes; Mobile and Theta", "why_tests_cant": "A test compares numbers on a few problems up to the error of the solver; the claim is exact and about all problems and all lengths of runs.", "anchors": ["festim/concentration/theta.py:Theta.create_form_post_processing", "festim/concentration/theta.py:Theta.post_processing_solution_to_concentration", "festim/h_transport_problem.py:HTransportProblem.update_post_processing_solutions", "festim/generic_simulation.py:Simulation.update_post_processing_solutions", "festim/exports/derived_quantities/total_volume.py:TotalVolume.compute"]}
{"id": "C74", "title": "The reported fluxes are those of the flux vector of the equations", "statement": "There is one vector field J = D (grad c + Q c / (k_B T^2) grad T), made of the fields that the flux quantities are given, such that for every test function the diffusion equation assembled by festim is the weak form of dc/dt = div J in Cartesian, cylindrical and spherical coordinates, and such that every flux quantity of the solute prints the integral of J . n over its surface with the element of the coordinates. The same holds for heat with J = k grad T.", "quantifier": "for all meshes, materials, properties depending on temperature, fields, test functions, stepsizes, surfaces, with and without Soret effect", "why_tests_cant": "Tests compare a flux with a number for one field; the claim links two independent pieces of code (forms of the equations, fields of properties with the quantities) for all fields and test functions.", "anchors": ["festim/concentration/mobile.py:Mobile.create_diffusion_form", "festim/temperature/temperature_solver.py:HeatTransferProblem.define_variational_problem", "festim/materials/materials.py:Materials.create_properties", "festim/materials/materials.py:ArheniusCoeff", "festim/materials/materials.py:ThermalProp", "festim/exports/derived_quantities/surface_flux.py:SurfaceFlux.compute"]}
{"id": "C75", "title": "What the solver is asked to solve is conservation, up to its tolerance", "statement": "The assembled equations are linear in the test functions (mobile species, each trap, each adsorbed species; also the heat equation and the densities of extrinsic traps), and whether they can be built does not depend on them. So if every entry of the vector given to the Newton solver is at most eps, every constrained degree of freedom has its boundary value within eps (the last condition that mentions it), and for every element family that contains the volume element of the coordinates the change of the inventory in a step is the stepsize times what sources, fluxes and the reactions of the constrained degrees of freedom bring, within the stepsize times eps times the sum of the coefficients; over a run the errors at most add up.", "quantifier": "for all meshes, elements, numbers of degrees of freedom, materials, traps, sources, flux and Dirichlet conditions, tolerances, numbers of steps; Mobile and Theta, transient and stationary", "why_tests_cant": "Tests solve a few problems and compare to analytical solutions with large tolerances; that a small nodal residual bounds the drift of the inventory for all meshes and any number of steps is an algebraic fact about all the forms.", "anchors": ["festim/nonlinear_problem.py:Problem.F", "festim/h_transport_problem.py:HTransportProblem.define_variational_problem", "festim/h_transport_problem.py:HTransportProblem.solve_once", "festim/concentration/mobile.py:Mobile.create_form", "festim/concentration/traps/trap.py:Trap.create_form", "festim/temperature/temperature_solver.py:HeatTransferProblem.define_variational_problem"]}
{"id": "C76", "title": "With conservation of chemical potential the solubility follows the temperature throughout the run", "statement": "With chemical_pot=True the solubility used by the exports is, at every solve and every post-processing of a transient run, that of the current temperature, although it is computed only once at the start when the temperature says it is in steady state.", "quantifier": "for all temperatures (expressions of space and time, stationary and transient heat transfer, XDMF files), materials, stepsizes and sequences of Newton attempts", "why_tests_cant": "The shortcut is decided by a textual test on the expression; that it never freezes a solubility that should move is a statement about all expressions and all runs.", "anchors": ["festim/generic_simulation.py:Simulation.initialise", "festim/materials/materials.py:Materials.solubility_as_function", "festim/temperature/temperature.py:Temperature.is_steady_state", "festim/temperature/temperature_solver.py:HeatTransferProblem.is_steady_state"]}
{"id": "C77", "title": "Every time step starts from the concentration at the end of the previous one", "statement": "With chemical_pot=True the previous concentration in the equations of a step is the concentration of the accepted solution of the previous step, and in the first step it is the prescribed initial concentration.", "quantifier": "for all temperatures, materials (Sieverts and Henry), initial concentrations, stepsizes and sequences of Newton attempts", "why_tests_cant": "The unknown is the chemical potential; the concentration is rebuilt with two temperatures, so the statement is about all runs with a moving temperature.", "anchors": ["festim/concentration/theta.py:Theta.initialise", "festim/concentration/theta.py:Theta.get_concentration_for_a_given_material", "festim/temperature/temperature_solver.py:HeatTransferProblem.create_functions", "festim/temperature/temperature_solver.py:HeatTransferProblem.update"]}
{"id": "C78", "title": "The warnings of initialise are right", "statement": "initialise warns once for every derived quantity whose class is not made for the coordinates of the mesh and for no other (an average, total or flux without warning has the volume element of the mesh, an average with a warning is wrong on some mesh), and says that a material property will be ignored exactly if nothing uses it.", "quantifier": "for all simulations", "why_tests_cant": "All combinations of quantities, coordinates, temperatures and materials.", "anchors": ["festim/generic_simulation.py:Simulation.initialise", "festim/materials/materials.py:Materials.check_for_unused_properties"]}
{"id": "C79", "title": "A simulation can be run again from where it stands", "statement": "Calling run() again without initialise() continues the simulation: after a finished run nothing happens, a run cut between two steps goes on as if it had not been cut, after raising final_time the run goes on up to the new final time, and after a step that failed it goes on from the last finished step.", "quantifier": "for all stepsizes, temperatures, exports, final times and sequences of Newton attempts", "why_tests_cant": "The state left in the stepsize and the clock by a run matters only in the next one; all histories have to be considered.", "anchors": ["festim/generic_simulation.py:Simulation.run_transient", "festim/generic_simulation.py:Simulation.iterate", "festim/stepsize.py:Stepsize.adapt"]}
{"id": "C80", "title": "Simulations do not share their lists of inputs", "statement": "What is done to the sources, boundary conditions, initial conditions, traps or exports of one Simulation object does not show in another one, unless the user gives the list of one to the other. A list of the user given for traps or exports is copied: what is done to it later, or giving it to several simulations, has no effect; the collection of one simulation given to another is kept and shared.", "quantifier": "for all sequences of constructions, assignments and appends, any number of simulations", "why_tests_cant": "Sharing shows only in particular interleavings of operations on several objects in one process; the tests make one simulation at a time.", "anchors": ["festim/generic_simulation.py:Simulation.__init__", "festim/generic_simulation.py:Simulation.traps", "festim/generic_simulation.py:Simulation.exports"]}
{"id": "C81", "title": "The Newton solver in use is the one the user asked for", "statement": "A Newton solver provided by the user is the one used; otherwise the solver used has the tolerances, iterations, linear solver and preconditioner given at the last initialise(). Other objects are refused as solvers.", "quantifier": "for all sequences of parameter changes, assignments and initialisations, for the hydrogen problem, the heat problem and the extrinsic traps", "why_tests_cant": "Depends on the history of the objects over several initialisations.", "anchors": ["festim/h_transport_problem.py:HTransportProblem.define_newton_solver", "festim/h_transport_problem.py:HTransportProblem.newton_solver", "festim/temperature/temperature_solver.py:HeatTransferProblem.define_newton_solver", "festim/temperature/temperature_solver.py:HeatTransferProblem.create_functions", "festim/concentration/traps/extrinsic_trap.py:ExtrinsicTrapBase.define_newton_solver", "festim/concentration/traps/traps.py:Traps.define_newton_solver_extrinsic_traps"]}
{"id": "C82", "title": "Inputs that describe no physical effect do not change the equations", "statement": "Switching an effect on with data for which it vanishes leaves the equations as they are: Soret where the temperature is uniform or the heat of transport is 0, conservation of chemical potential with a solubility of 1 (Sieverts), a trap without sites and hydrogen, a source of value 0, a flux condition that lets nothing through (also in the heat problem).", "quantifier": "for all meshes, coordinates, materials, traps, sources, boundary conditions, fields, test functions and stepsizes", "why_tests_cant": "Equality of residuals for all test functions; a test compares a few numbers of one solution.", "anchors": ["festim/concentration/mobile.py:Mobile.create_diffusion_form", "festim/concentration/theta.py:Theta.get_concentration_for_a_given_material", "festim/concentration/traps/trap.py:Trap.create_trapping_form", "festim/concentration/mobile.py:Mobile.create_source_form", "festim/concentration/mobile.py:Mobile.create_fluxes_form", "festim/temperature/temperature_solver.py:HeatTransferProblem.define_variational_problem"]}
{"id": "C83", "title": "Conservation of chemical potential changes the unknown, not the equations of the concentration", "statement": "The residual of the problem in theta is the residual of the problem in the concentration c = S(T) theta (Sieverts) or S(T) theta^2 (Henry), in each material, without SurfaceKinetics.", "quantifier": "for all meshes, coordinates, mixes of Sieverts and Henry materials, temperature fields and gradients, traps, sources, fluxes, test functions, steady or transient, with or without Soret", "why_tests_cant": "Equality of two residuals for all fields and test functions.", "anchors": ["festim/concentration/theta.py:Theta.get_concentration_for_a_given_material", "festim/concentration/theta.py:Theta.mobile_concentration", "festim/concentration/mobile.py:Mobile.create_diffusion_form", "festim/concentration/traps/trap.py:Trap.create_trapping_form"]}
{"id": "C84", "title": "Traps of the same kind act as one trap with all their sites", "statement": "Two traps with the same energies, frequencies and materials act on the mobile hydrogen, and together evolve, as one trap with the sum of their densities; conversely a trap can be divided in any fractions.", "quantifier": "for all meshes, trap parameters (per material or not), densities, fields, temperatures, test functions, stepsizes; any fraction", "why_tests_cant": "A statement about all densities and fields; a test can only compare one merged trap with one pair.", "anchors": ["festim/concentration/traps/trap.py:Trap.create_trapping_form", "festim/concentration/traps/trap.py:Trap.create_trapping_form", "festim/concentration/traps/trap.py:Trap.create_source_form", "festim/concentration/mobile.py:Mobile.create_diffusion_form"]}
{"id": "C85", "title": "A state at equilibrium stays as it is", "statement": "A state in which nothing flows (uniform concentration, uniform theta with conservation of chemical potential, or c = C exp(Q/(k_B T)) with thermal diffusion), traps have their equilibrium occupancy n k c/(k c + p), surfaces are balanced (recombination against dissociation at c = sqrt(Kd P/Kr), surface kinetics in detailed balance) and there is no source solves the equations, steady or for a step of any size; a uniform temperature without net heat flux solves the heat problem.", "quantifier": "for all meshes, coordinates, materials, traps, flux conditions, test functions and stepsizes", "why_tests_cant": "Zero residual for all test functions and all equilibria.", "anchors": ["festim/h_transport_problem.py:HTransportProblem.define_variational_problem", "festim/concentration/mobile.py:Mobile.create_diffusion_form", "festim/concentration/traps/trap.py:Trap.create_trapping_form", "festim/boundary_conditions/fluxes/surface_kinetics.py:SurfaceKinetics.create_form", "festim/boundary_conditions/fluxes/recombination_flux.py:RecombinationFlux.create_form", "festim/temperature/temperature_solver.py:HeatTransferProblem.define_variational_problem"]}
{"id": "C86", "title": "Linear problems superpose", "statement": "Without traps and SurfaceKinetics, without conservation of chemical potential or with Sieverts materials only, and with FluxBC, RecombinationFlux of order 1, DissociationFlux and MassFlux: for any two states and their data (sources including decay, flux values, external concentrations, pressures, prescribed values) the residual of any linear combination of states and data is the same combination of the residuals, so that combinations of solutions solve the combined problem. Likewise for the heat problem with constant properties, FluxBC and ConvectiveFlux. Derived quantities other than extrema combine in the same way.", "quantifier": "for all meshes, coordinates, materials, temperature fields, coefficients, states, test functions, stepsizes, with or without Soret", "why_tests_cant": "Linearity over all combinations and test functions; a test checks one pair of loads.", "anchors": ["festim/h_transport_problem.py:HTransportProblem.define_variational_problem", "festim/concentration/mobile.py:Mobile.create_diffusion_form", "festim/concentration/mobile.py:Mobile.create_fluxes_form", "festim/nonlinear_problem.py:Problem.F", "festim/temperature/temperature_solver.py:HeatTransferProblem.define_variational_problem", "festim/exports/derived_quantities/surface_flux.py:SurfaceFlux.compute"]}
{"id": "C87", "title": "The equations do not depend on the position and orientation of the axes", "statement": "Turning or mirroring the axes (any orthogonal change in Cartesian coordinates, any that keeps r in cylindrical and spherical ones) changes neither the residuals of the hydrogen and heat problems nor the derived quantities; in Cartesian coordinates the origin plays no role either.", "quantifier": "for all meshes in any dimension, orthogonal changes of axes, materials, traps, sources, boundary conditions, states, test functions, stepsizes, with or without Soret and conservation of chemical potential", "why_tests_cant": "Invariance under a continuous group of transformations for all states and test functions.", "anchors": ["festim/concentration/mobile.py:Mobile.create_diffusion_form", "festim/concentration/theta.py:Theta.get_concentration_for_a_given_material", "festim/temperature/temperature_solver.py:HeatTransferProblem.define_variational_problem", "festim/exports/derived_quantities/surface_flux.py:SurfaceFlux.compute"]}
{"id": "C88", "title": "Rounding does not change the number of steps, nor the end of a run", "statement": "In double precision (and in any arithmetic whose sums and differences have a relative error of at most 1e-15): (1) whatever the stepsize settings and solver outcomes, no time exceeds final_time by more than three roundings, relative, and only the last time reaches final_time; (2) a run that ends has its last time within 1.00001e-5 of final_time, relative; (3) with a fixed stepsize that divides final_time into K <= 90000 steps up to 1e-10, relative, and no milestones, the run makes exactly K time steps, the i-th within 1e-9 * final_time of i times the stepsize.", "quantifier": "for all binary64 numbers final_time and stepsize (not close to overflow or underflow), all stepsize settings, all K up to 90000 and all outcomes of the solver", "why_tests_cant": "Whether the last step is taken, doubled or skipped depends on the last bits of each pair (stepsize, final_time); no finite set of pairs covers this.", "anchors": ["festim/generic_simulation.py:Simulation.run_transient", "festim/generic_simulation.py:Simulation.iterate", "festim/stepsize.py:Stepsize.adapt"]}
{"id": "C89", "title": "The derived quantities of the parts add up to those of the whole", "statement": "Giving two volumes (or two surfaces) the same id gives, for the new id: totals, fluxes and adsorbed amounts that are the sums of the two; averages that are the mean of the two weighted by the extents in the coordinates of the class (length, r dr, r^2 dr, ...); maxima and minima that are the larger and the smaller of the two. The average, total or point value of 'retention' is the sum of those of 'solute' and of each trap named by its id. HydrogenFlux and ThermalFlux return what SurfaceFlux returns for 'solute' (or 0, or '0') and 'T'.", "quantifier": "for all meshes, markers, fields, classes of derived quantities, angular ranges and lists of trap ids", "why_tests_cant": "The identity relates the results of two different models of the same object, for each class of quantity; the tests compare each class with a hand-made value on one mesh.", "anchors": ["festim/exports/derived_quantities/total_volume.py", "festim/exports/derived_quantities/average_volume.py", "festim/exports/derived_quantities/average_surface.py", "festim/exports/derived_quantities/surface_flux.py", "festim/exports/derived_quantities/maximum_volume.py", "festim/exports/derived_quantities/minimum_surface.py", "festim/exports/derived_quantities/hydrogen_flux.py", "festim/exports/derived_quantities/thermal_flux.py", "festim/generic_simulation.py:Simulation.update_post_processing_solutions"]}
{"id": "C90", "title": "Linear problems are solved in one Newton iteration, and their adaptive runs neither retry nor fail", "statement": "The residual is an affine function of the unknowns for hydrogen transport without traps and SurfaceKinetics (mobile concentration, or theta with Sieverts materials; FluxBC, RecombinationFlux of order 1, DissociationFlux, MassFlux), for heat transfer with constant properties (FluxBC, ConvectiveFlux), and always for the densities of ExtrinsicTrap and NeutronInducedTrap. For such a residual Newton's method with the residual and the Jacobian of festim.Problem, from any start and with any positive absolute tolerance and maximum_iterations, reports convergence after at most one iteration, and one iteration gives the exact solution; if there is a solution it has a step to it. Hence in an adaptive run whose problems are linear every step is accepted at the first attempt, the stepsize is multiplied by the ratio unless that exceeds max_stepsize or jumps over a milestone or final_time, and no error is raised.", "quantifier": "for all meshes, basis functions, materials, data, starts, tolerances, stepsize settings and histories", "why_tests_cant": "An iteration count over all problems of a class; a test observes the count of one solve.", "anchors": ["festim/nonlinear_problem.py:Problem.F", "festim/nonlinear_problem.py:Problem.J", "festim/h_transport_problem.py:HTransportProblem.solve_once", "festim/h_transport_problem.py:HTransportProblem.update", "festim/temperature/temperature_solver.py:HeatTransferProblem.define_variational_problem", "festim/concentration/traps/traps.py:Traps.solve_extrinsic_traps", "festim/concentration/traps/extrinsic_trap.py:ExtrinsicTrap.create_form_density", "festim/stepsize.py:Stepsize.adapt"]}
{"id": "C91", "title": "Arguments mean the same in every accepted form, and wrong ones are refused with the right class of error", "statement": "Simulation.T keeps a festim.Temperature, makes Temperature(value) from an int, float or sympy expression, keeps None, and raises TypeError for anything else. Simulation.dt keeps a Stepsize and None, turns a number into a Stepsize with which every step of a run is as long as the previous one unless it ends at final_time, and raises TypeError for anything else. decay_constant accepts the positive numbers only (TypeError for other kinds, ValueError for other numbers). The file names of TXTExport and DerivedQuantities are None or end with the extension (ValueError for other strings, TypeError for other kinds). XDMFExport refuses a wrong folder, file name kind or checkpoint with TypeError, a wrong ending or mode with ValueError, and a missing label or name with AttributeError. Derived quantities raise TypeError exactly when the volume or surface is not an int, and only ValueError otherwise. The parameters of extrinsic traps become constants from numbers and the C code of sympy expressions, and objects of fenics stay. A boundary condition of the field \"solute\" is one of the field 0 and other fields are kept. solubility_law is \"henry\" or \"sievert\", any other string a ValueError.", "quantifier": "for all arguments (None, bool, int, float, str, sympy and fenics objects, Temperature, Stepsize, anything else), final times and histories", "why_tests_cant": "The tests try a few wrong values of each argument; the theorem says what happens for every kind of value.", "anchors": ["festim/generic_simulation.py:Simulation.T", "festim/generic_simulation.py:Simulation.dt", "festim/sources/radioactive_decay.py:RadioactiveDecay.decay_constant", "festim/exports/txt_export.py:TXTExport.filename", "festim/exports/derived_quantities/derived_quantities.py:DerivedQuantities.filename", "festim/exports/xdmf_export.py:XDMFExport.__init__", "festim/exports/derived_quantities/derived_quantity.py:VolumeQuantity.volume", "festim/helpers.py:as_constant_or_expression", "festim/helpers.py:as_constant", "festim/helpers.py:as_expression"]}
{"id": "C92", "title": "Concentrations and temperatures keep the bounds of their data when the stepsize is not too small for the mesh", "statement": "In a transient step of hydrogen transport with the mobile concentration as unknown (no traps, Soret effect or SurfaceKinetics), if the previous concentration and the imposed values are all at least m, and sources and fluxes are not negative where the concentration is below m (an exchange with c_ext >= m, decay and dissociation for m = 0), then the solution is at least m, provided that raising one unknown never raises the residual of another; the same with at most m. The same holds for the temperature, whatever the thermal properties, with positive heat capacity and density. With linear elements on a segment, any materials and temperature, the proviso holds when h^2 <= 6 D dt in every element, so that along a run the initial bounds are kept by all unknowns and at all points. For the temperature with constant thermal properties it holds when h^2 rho cp <= 6 k dt. Below this limit it fails: with one element, 0 before the step and 1 imposed at an end, the solution at the other end is negative whenever 6 D dt < h^2.", "quantifier": "for all meshes, basis functions, materials, temperatures, sources, fluxes, stepsizes, numbers of elements and of steps", "why_tests_cant": "The bound is about all data and all meshes; a test sees the sign of one solution, and negative concentrations only appear for some pairs of mesh and stepsize.", "anchors": ["festim/concentration/mobile.py:Mobile.create_diffusion_form", "festim/concentration/mobile.py:Mobile.create_source_form", "festim/concentration/mobile.py:Mobile.create_fluxes_form", "festim/temperature/temperature_solver.py:HeatTransferProblem.define_variational_problem", "festim/nonlinear_problem.py:Problem.F", "festim/h_transport_problem.py:HTransportProblem.define_function_space"]}
{"id": "C93", "title": "The C code that stands for an expression of the user computes the value of the expression", "statement": "Values given as sympy expressions (temperatures, sources, boundary conditions and their parameters, trap densities, initial conditions) reach FEniCS as the C text sp.printing.ccode(value). For every expression built from numbers, symbols, sums, products, powers, functions, comparisons, && and ||, and Piecewise, this text is an expression of C under its grammar and precedences, and at every point and time where no division by zero is evaluated its value is the value of the expression; for a condition, the text is nonzero exactly when the condition holds. The text has only this one reading. The one exception is a quotient in which numerator and denominator are built from integers only: 3/Piecewise((1, x < 1), (2, True)) is a division of integers in C and gives 1 instead of 3/2; with 3.0 it is right.", "quantifier": "for all expressions, coordinates, times and interpretations of the functions", "why_tests_cant": "There are unboundedly many shapes of expressions, and a wrong pair of parentheses or a lost sign only shows for the shapes that need it; tests compare a few texts.", "anchors": ["festim/temperature/temperature.py:Temperature.create_functions", "festim/sources/source.py:Source.__init__", "festim/boundary_conditions/dirichlets/dirichlet_bc.py:DirichletBC.create_expression", "festim/boundary_conditions/fluxes/flux_bc.py:FluxBC.create_form", "festim/boundary_conditions/fluxes/flux_custom.py:CustomFlux.convert_prms", "festim/concentration/traps/trap.py:Trap.make_density", "festim/concentration/concentration.py:Concentration.get_comp", "festim/helpers.py:as_expression"]}
{"id": "C94", "title": "The class of an error raised while the equations are assembled tells its cause", "statement": "When HTransportProblem.define_variational_problem raises, the class of the error tells why: TypeError only because a material lacks a number it needs (diffusion, solubility with chemical potential, heat of transport with Soret) or a trap mixes lists and numbers among k_0, E_k, p_0, E_p; IndexError because a list of a trap is shorter than its materials, or its densities are (with lists) or are missing (with numbers); RuntimeError because a list of ids stands where one id is needed (traps, their sources); NotImplementedError because of a trap in a Henry material with chemical potential. No other class occurs. The heat equation only raises TypeError, because a thermal property is missing or a flux reads the concentration. ImplantationDirichlet needs E_Kr beside Kr_0, and E_Kd and P beside Kr_0 and Kd_0, exactly, and raises TypeError otherwise.", "quantifier": "for all meshes, materials, traps, temperatures, stepsizes and boundary conditions", "why_tests_cant": "The wrong inputs are unboundedly many (any number of materials and traps, any mixture of forms) and several can meet; a test triggers one error at a time.", "anchors": ["festim/h_transport_problem.py:HTransportProblem.define_variational_problem", "festim/concentration/mobile.py:Mobile.create_diffusion_form", "festim/concentration/traps/trap.py:Trap.create_trapping_form", "festim/concentration/theta.py:Theta.get_concentration_for_a_given_material", "festim/temperature/temperature_solver.py:HeatTransferProblem.define_variational_problem", "festim/boundary_conditions/dirichlets/dc_imp.py:dc_imp"]}
{"id": "C95", "title": "A simulation raises in its exports or its time loop only for the listed causes, and the class of the error tells which", "statement": "Exports.write raises only if: an interval or mode is 0 (ZeroDivisionError); an XDMFExport has mode 'last' in a steady simulation, a MaximumSurface or MinimumSurface is asked for, an AdsorbedHydrogen has another field, no surface or a surface where nothing is adsorbed, the list of adsorbed species is used as a function, or a TXTExport has no file name (TypeError); a field is not one of the simulation or a flux is asked of a field without one (KeyError); a curvilinear quantity is asked of a field that is an expression and not a function (AttributeError); a SurfaceKinetics has fewer solutions than surfaces (IndexError); a file name has no directory (FileNotFoundError). A transient run raises only for one of these causes, in the exports as the user gave them, or because of the stepsize: ValueError only after a diverged solve with an adaptive stepsize, ZeroDivisionError if the ratio is 0, or the error of the user's max_stepsize function. A steady run raises only for one of the causes of the exports, or ValueError because the solver diverged. So a run with none of these causes never raises.", "quantifier": "for all exports, derived quantities, fields, stepsizes, temperatures, final times and outcomes of the solver", "why_tests_cant": "An error in the exports appears after the solution of a time step, possibly at the end of a long run; tests run a few exports on small problems, the theorem says that nothing else can go wrong there.", "anchors": ["festim/exports/exports.py:Exports.write", "festim/exports/derived_quantities/derived_quantities.py:DerivedQuantities.compute", "festim/exports/derived_quantities/derived_quantities.py:DerivedQuantities.write", "festim/exports/xdmf_export.py:XDMFExport.is_export", "festim/exports/txt_export.py:TXTExport.write", "festim/generic_simulation.py:Simulation.run_transient", "festim/generic_simulation.py:Simulation.run_steady", "festim/generic_simulation.py:Simulation.iterate", "festim/stepsize.py:Stepsize.adapt"]}
{"id": "C96", "title": "A TrapDensityXDMF writes the density of the sites of its trap", "statement": "For every trap, the function written by TrapDensityXDMF is the L2 projection, on the function space of the traps, of the density of sites that the equations use: where the trapped concentration equals that density there is no trapping. So the written function has the same total as the density, is the closest to it in the space, and equals it if the density is in the space; it can be written if the simulation contains the trap.", "quantifier": "for all meshes, function spaces, materials, traps (with numbers or lists of parameters) and densities", "why_tests_cant": "The tests export one trap with one density on one mesh and compare within a tolerance; lists of densities, other ids and the values near material borders are never read back.", "anchors": ["festim/exports/trap_density_xdmf.py:TrapDensityXDMF.write", "festim/concentration/traps/trap.py:Trap.create_trapping_form", "festim/concentration/mobile.py:Mobile.create_diffusion_form", "festim/exports/exports.py:Exports.write"]}
{"id": "C97", "title": "More hydrogen supplied never gives less hydrogen anywhere", "statement": "Take two problems of hydrogen transport on the same mesh, with the same materials, temperature and stepsize and the mobile concentration as unknown (no traps, Soret effect or SurfaceKinetics). If in the second one the previous concentration, the imposed values, the sources and the fluxes are everywhere at least those of the first (comparing sources and fluxes also at smaller concentrations: decay, exchange with an external concentration and dissociation qualify, recombination where the concentration is nonnegative), then the solution of the second is at least that of the first at every unknown, provided that raising one unknown never raises the residual of another. With linear elements on a segment and no decay the proviso holds when h^2 <= 6 D dt in every element, so that the order of two runs is kept at every step, at all unknowns and at all points; a run whose data do not decrease and whose first step does not decrease the concentration never decreases it; and the solution of a step is unique. The same order holds for the temperature in a step of heat transfer with constant thermal properties, when previous temperature, imposed values, heat sources and heat fluxes are in order; on a segment this needs h^2 rho cp <= 6 k dt in every element, and the order of two runs is then kept at every step.", "quantifier": "for all meshes, basis functions, materials, temperatures, pairs of sources, fluxes, imposed values and initial concentrations, stepsizes, numbers of elements and of steps", "why_tests_cant": "The comparison is between all pairs of problems in order; a test compares two solutions at a few points.", "anchors": ["festim/concentration/mobile.py:Mobile.create_diffusion_form", "festim/concentration/mobile.py:Mobile.create_source_form", "festim/concentration/mobile.py:Mobile.create_fluxes_form", "festim/boundary_conditions/fluxes/recombination_flux.py:RecombinationFlux.create_form", "festim/boundary_conditions/fluxes/dissociation_flux.py:DissociationFlux.create_form", "festim/nonlinear_problem.py:Problem.F"]}
{"id": "C98", "title": "A trap is in the materials named by the user, each with the density given for it", "statement": "A trap is built exactly if each entry of its materials is the name of a material of the simulation or a Material object and no two entries stand for the same object; it is then in these materials, in the order given (a name stands for the first material with it), which are materials of the simulation, and initialising again finds the same. Any other type is refused by TypeError, unknown names and repeated materials by ValueError. The equations use the i-th density given in the i-th material.", "quantifier": "for all lists of materials, names, objects and densities", "why_tests_cant": "Tests build a few traps with one or two materials; the order, repeated names, None among the densities and objects from outside the simulation are not tried.", "anchors": ["festim/concentration/traps/trap.py:Trap.__init__", "festim/concentration/traps/trap.py:Trap.materials", "festim/concentration/traps/trap.py:Trap.make_materials", "festim/concentration/traps/trap.py:Trap.make_density", "festim/concentration/traps/trap.py:Trap.create_trapping_form", "festim/materials/materials.py:Materials.find_material", "festim/concentration/traps/traps.py:Traps.make_traps_materials"]}
{"id": "C99", "title": "Steady permeation through a slab of layers has the flux of resistances in series", "statement": "In a steady simulation on a segment with linear elements, any number of layers of materials, any temperature field and no volumetric sources, traps or Soret effect, the same flux J crosses every element, x_(e+1) - x_e = J R_e with the resistance R_e = h_e / (mean diffusivity in the element), and J (R_0 + ... + R_(K-1)) is the difference of the concentrations of the ends. At an end without imposed concentration J is what its flux conditions bring in or take away. With concentrations imposed at both ends there is exactly one solution, J = (c_K - c_0) / sum R_e, and the concentration goes monotonically from one to the other; an end with an exchange h (c_ext - c) (MassFlux) counts as c_ext imposed behind a film of resistance 1 / h. For diffusivities uniform in each element the sum is that of thickness / D over the layers, whatever the mesh, and SurfaceFlux or HydrogenFlux of either end report exactly J, counted as entering.", "quantifier": "for all meshes of a segment, materials, temperatures, imposed values, flux conditions and quadratures with nonnegative weights exact for degree 2", "why_tests_cant": "Tests compare one permeation flux with a tolerance on one mesh; the equality is exact and for all meshes and layers.", "anchors": ["festim/concentration/mobile.py:Mobile.create_diffusion_form", "festim/concentration/mobile.py:Mobile.create_fluxes_form", "festim/generic_simulation.py:Simulation.run_steady", "festim/nonlinear_problem.py:Problem.F", "festim/exports/derived_quantities/surface_flux.py:SurfaceFlux.compute", "festim/exports/derived_quantities/hydrogen_flux.py:HydrogenFlux"]}
{"id": "C100", "title": "Densities of extrinsic traps approach their equilibrium in transient simulations, and stay 0 in steady ones", "statement": "In a transient simulation with parameters that do not change, the density of an ExtrinsicTrap or NeutronInducedTrap starts from 0 and increases in every step towards the ratio of its rates of creation and loss without ever overshooting it; after a time t, however divided in steps, it misses at most the share 1/(1 + loss t) of it, and given enough time it is as close as wanted. For an ExtrinsicTrap this limit lies between n_amax and n_bmax; for a NeutronInducedTrap it balances creation and annealing. With parameters varying in space two simulations started from different densities come together at least as fast. In a steady simulation the density stays 0 and the trap holds nothing.", "quantifier": "for all meshes, function spaces containing the constants, parameters, temperatures and sequences of stepsizes", "why_tests_cant": "An unbounded number of steps of arbitrary sizes; all parameters.", "anchors": ["festim/concentration/traps/traps.py:Traps.initialise_extrinsic_traps", "festim/concentration/traps/traps.py:Traps.solve_extrinsic_traps", "festim/concentration/traps/extrinsic_trap.py:ExtrinsicTrap.create_form_density", "festim/concentration/traps/neutron_induced_trap.py:NeutronInducedTrap.create_form_density", "festim/h_transport_problem.py:HTransportProblem.initialise", "festim/generic_simulation.py:Simulation.run_steady"]}
{"id": "C101", "title": "A transient simulation forgets its initial state and approaches the steady one", "statement": "Without traps, Soret term, chemical potential and surface kinetics, two simulations with the same data that differ in their initial concentrations come together: after a time t, divided in steps of any sizes, the integral of the squared difference is at most its initial value divided by 1 + 2 lambda t, where lambda is any bound such that diffusion dissipates at least lambda times the squared size of the functions that vanish where the concentration is imposed. In particular a steady solution attracts every transient simulation with the same constant data. The same holds for the temperature with constant thermal properties. With linear elements on a segment of length L, any mesh, layers and temperature, with a value imposed at a node, lambda is at least D_min / L^2 (for heat k_min / (rho cp)_max / L^2).", "quantifier": "for all meshes, dimensions, materials, temperatures, boundary conditions, sources, stepsizes and numbers of steps", "why_tests_cant": "An unbounded number of steps of arbitrary sizes, and a bound that does not depend on the mesh.", "anchors": ["festim/concentration/mobile.py:Mobile.create_diffusion_form", "festim/concentration/mobile.py:Mobile.create_fluxes_form", "festim/temperature/temperature_solver.py:HeatTransferProblem.define_variational_problem", "festim/generic_simulation.py:Simulation.run_transient", "festim/generic_simulation.py:Simulation.run_steady"]}
{"id": "C102", "title": "Steady heat conduction through a wall of layers is that of resistances in series, exchanges at its ends included", "statement": "In a steady HeatTransferProblem on a segment with linear elements, any number of layers, conductivities that may depend on the temperature and no volumetric heat sources, the same heat flux J crosses every element: J = (mean conductivity of the element at the solution) (T_(e+1) - T_e) / h_e, and at an end without imposed temperature J is what its flux conditions bring in or take away. With conductivities independent of the temperature, and at each end an imposed temperature or a ConvectiveFlux h (T_ext - T), there is exactly one solution: J = (T_right - T_left) / (1/h_left + sum of R_e + 1/h_right), the overall coefficient of heat transfer, where an imposed temperature has no film; temperatures go monotonically from one outside temperature to the other. For conductivities uniform in each element the resistances are thickness / k whatever the mesh, and ThermalFlux (or SurfaceFlux of T) of either end reports exactly J, counted as entering.", "quantifier": "for all meshes of a segment, materials, conductivities, imposed temperatures, exchange coefficients, flux conditions and quadratures with nonnegative weights exact for degree 2", "why_tests_cant": "Tests compare one temperature profile with a tolerance on one mesh; the equality is exact and for all meshes, layers and coefficients.", "anchors": ["festim/temperature/temperature_solver.py:HeatTransferProblem.define_variational_problem", "festim/temperature/temperature_solver.py:HeatTransferProblem.create_dirichlet_bcs", "festim/boundary_conditions/fluxes/convective_flux.py:ConvectiveFlux.create_form", "festim/nonlinear_problem.py:Problem.F", "festim/exports/derived_quantities/thermal_flux.py:ThermalFlux", "festim/exports/derived_quantities/surface_flux.py:SurfaceFlux.compute"]}
{"id": "C103", "title": "The progress displayed during a run goes up from 0.0 % to 100.0 %, and only the last line stays on the screen", "statement": "display_time shows, with one decimal, a number within 0.055 of 100 t / final_time (it is rounded to two decimals, then to one), however ties are rounded. In a transient run with 0 < initial stepsize <= final_time and positive ratio and bounds, whatever the solver does, no display raises, the numbers shown never decrease and lie between 0.0 and 100.0. A finished run with initial stepsize <= final_time and 0 < final_time ends with the line '100.0 %' and a newline; at the default log level 40 every earlier line ends with a carriage return and is overwritten, at any other level each line ends with a newline. With a first step longer than final_time the display exceeds 100 %.", "quantifier": "for all runs, solver outcomes, stepsizes, final times, log levels and tie rules", "why_tests_cant": "Tests call display_time on no run, or look at no output; the statement is about every line of every run.", "anchors": ["festim/generic_simulation.py:Simulation.display_time", "festim/generic_simulation.py:Simulation.iterate", "festim/generic_simulation.py:Simulation.run_transient"]}
{"id": "C104", "title": "Steady permeation with conservation of chemical potential: the same flux crosses every layer, Sieverts or Henry, and gases at the two sides give Richardson's law", "statement": "Steady state, uniform temperature, no sources, traps or Soret effect, linear elements on a segment of any number of elements, each of its own material (diffusivity, solubility, law). With chemical potential as unknown, a solution has the same flux D S (activity difference) / length through every element, equal to what the flux conditions bring at an end without Dirichlet condition. If all layers follow one law, the solutions for imposed theta a and b are exactly those whose activities (theta, or theta^2 for Henry) are those of resistances length / (D S) in series. With SievertsBC (HenrysBC) pressures at both sides, flux times total resistance is the difference of the square roots of the pressures (of the pressures). For any mix of laws and a, b >= 0 there is exactly one nonnegative solution and it is monotone between a and b. The SurfaceFlux / HydrogenFlux of an end, which reads the projected concentration, is exactly the flux of its element. Not claimed: with Henry layers the solution is not unique (interior signs), and the concentration written can be negative although theta is not.", "quantifier": "for all numbers of elements, meshes, materials, laws, temperatures, boundary conditions, pressures and projected concentrations", "why_tests_cant": "Tests run a few meshes with one or two materials and compare with a tolerance.", "anchors": ["festim/concentration/theta.py:Theta.get_concentration_for_a_given_material", "festim/concentration/theta.py:Theta.create_form_post_processing", "festim/concentration/mobile.py:Mobile.create_diffusion_form", "festim/boundary_conditions/dirichlets/dirichlet_bc.py:BoundaryConditionTheta.eval_cell", "festim/boundary_conditions/dirichlets/sieverts_bc.py:sieverts_law", "festim/boundary_conditions/dirichlets/henrys_bc.py:henrys_law", "festim/exports/derived_quantities/surface_flux.py:SurfaceFlux.compute"]}
{"id": "C105", "title": "In steady state traps that are in all materials change neither the mobile concentration nor the fluxes, and hold the Langmuir isotherm", "statement": "Steady state, traps without sources and without surface kinetics, traps in the same finite element space as the mobile species. If every trap is in all the materials, the mobile nodal values of a solution of the whole system solve the problem without traps (so C99, C102 and C104 apply to them). With positive trapping or detrapping everywhere, what such a trap holds is the projection on its space, weighted by k c + p, of the isotherm n k c / (k c + p): no other function of the space is closer, it is unique, and it is the isotherm itself whenever the isotherm is in the space (uniform data). Not claimed: a trap in only one of the materials changes the mobile concentration; the fluxes of two layers then differ although nothing is created, and the trap can hold a negative amount outside its material.", "quantifier": "for all meshes, materials, traps (numbers, lists of parameters per material, densities), temperatures, boundary conditions and finite element spaces", "why_tests_cant": "Tests compare a few steady runs with expected values; traps in all materials and exact isotherms are not compared with runs without traps.", "anchors": ["festim/concentration/traps/trap.py:Trap.create_trapping_form", "festim/concentration/mobile.py:Mobile.create_diffusion_form", "festim/h_transport_problem.py:HTransportProblem.define_variational_problem"]}
{"id": "C106", "title": "The time steps follow the differential equations to first order, at all times and for any sequence of step sizes", "statement": "A quantity supplied at a constant rate g that disappears in proportion to its amount (y' = g - l y) is computed close to the solution of this equation, whose existence and uniqueness are proved. (1) The density of an extrinsic or neutron-induced trap with uniform parameters is, after any steps not longer than h, at most the solution, and behind it by at most l h / 2 of itself, hence by at most half of the traps created in one longest step, however long the run. (2) The inventory (mobile and trapped hydrogen) of a closed body in which every species decays and constant sources produce hydrogen is, after every step, within l h / 2 times its change since the start of the solution, hence within half of what the initial net rate supplies in one longest step. (3) So for every tolerance there is a step size below which the run is that close at all times. Order 2 is not claimed: one step of l h = 1 leaves 1/2 of the inventory where the solution keeps at most 4/9.", "quantifier": "for all meshes (Cartesian for the inventory), materials, temperatures, traps, solutions of the steps, decay constants, sources, sequences of step sizes", "why_tests_cant": "Tests compare a few runs with a tolerance; no finite set of runs bounds the error for all step sequences and times.", "anchors": ["festim/concentration/mobile.py:Mobile.create_diffusion_form", "festim/concentration/traps/trap.py:Trap.create_trapping_form", "festim/concentration/traps/extrinsic_trap.py:ExtrinsicTrap.create_form_density", "festim/concentration/traps/neutron_induced_trap.py:NeutronInducedTrap.create_form_density", "festim/radioactive_decay.py:RadioactiveDecay.form"]}
{"id": "C107", "title": "With linear elements on a segment the steady values at the nodes are those of the exact solution, sources included; the reported surface fluxes are not", "statement": "Steady state on a segment with linear elements, any number of layers, diffusivity (or thermal conductivity) and volumetric sources uniform in each element, any imposed values or flux conditions at the ends; no traps, Soret effect, decay or surface kinetics. Nodal values solve the discrete problem if and only if they are the values at the nodes of a solution of the differential equation: in each element a function with (d u')' = -s, u and d u' continuous where elements meet, imposed value or entering flux at the ends. Between the nodes the computed straight line differs from the exact solution by s (t - a) (b - t) / (2 d), at most |s| h^2 / (8 d), attained in the middle. The exact fluxes at the ends take away what the sources generate. SurfaceFlux, HydrogenFlux and ThermalFlux of an end differ from the exact flux by half of what is generated in the element next to this end, so the reported outflow is less than the generation (example: half of it).", "quantifier": "for all meshes of the segment, quadrature rules exact to degree 2, materials, temperatures, sources uniform in the elements, end conditions (nonlinear fluxes included)", "why_tests_cant": "Tests with manufactured solutions compare errors with a tolerance on some meshes; exactness at nodes for all meshes and the size of the error of the reported fluxes are not seen by a tolerance.", "anchors": ["festim/concentration/mobile.py:Mobile.create_diffusion_form", "festim/concentration/mobile.py:Mobile.create_source_form", "festim/temperature/temperature_solver.py:HeatTransferProblem.define_variational_problem", "festim/exports/derived_quantities/surface_flux.py:SurfaceFlux.compute"]}
{"id": "C108", "title": "Time steps converge to the evolution in continuous time, with first-order error bounds", "statement": "Hydrogen with traps (concentration formulation, Cartesian mesh of any dimension, physical data that may change in time) and heat transfer with constant thermal properties. The exact evolution in continuous time satisfies the same weak equations at every instant with the true rates of change instead of difference quotients. If its rates of change are Lipschitz with constant B, a run with stepsizes of at most h that starts at distance E_0 is after time t at an L2 distance of at most exp(Lambda t / 2) (E_0 + t h B sqrt((n+1) volume) / 2), where Lambda bounds the trapping and detrapping rates, n is the number of traps, provided h Lambda <= 2; without traps at most E_0 + t h B sqrt(volume) / 2 whatever the stepsizes. So for every end time and tolerance there is a stepsize below which all runs, with whatever sequence of stepsizes, stay within the tolerance. For temperatures: at most E_0 + t h B sqrt(energy of 1 K) / 2 in the norm weighted by rho cp.", "quantifier": "for all meshes, materials, traps, sources and boundary conditions with physical data, exact evolutions with Lipschitz rates, sequences of stepsizes, times", "why_tests_cant": "A test compares runs for a few stepsizes with an analytical solution within a tolerance; an error bound for all problems and adaptive sequences of stepsizes needs a proof, and depends on every term of the equations being evaluated at the new time.", "anchors": ["festim/concentration/mobile.py:Mobile.create_diffusion_form", "festim/concentration/traps/trap.py:Trap.create_trapping_form", "festim/h_transport_problem.py:HTransportProblem.define_variational_problem", "festim/temperature/temperature_solver.py:HeatTransferProblem.define_variational_problem"]}
{"id": "C109", "title": "An accepted simulation works with exactly what was specified", "statement": "If initialise() of a simulation succeeds: every equation has exactly the sources whose field names it, in their order (and none left from an earlier use); the boundary conditions with field T form the conditions of the heat equation and the others those of the hydrogen problem, none lost or repeated, and every Dirichlet condition of the latter constrains the component of its field on each of its surfaces; on a 1D mesh each cell carries the id of a material whose borders contain its midpoint (or the only material), which leads back to this material, and the vertices carry 1 at the left end, 2 at the right end, 0 elsewhere, while other meshes bring their own markers; a trap keeps its id or gets its position, and its materials are those its entries refer to, none twice; if the ids are the positions, each species starts with the value of the last initial condition that names it; the stepsize starts at its initial value and its milestones are those of the user and the times of the TXTExports, with no stepsize in steady state; the other settings are left as they are.", "quantifier": "for all simulations (settings, meshes, materials, traps, sources, boundary and initial conditions, exports) accepted by initialise()", "why_tests_cant": "The pieces are tested separately on small inputs; that initialise() hands each of them to the right part of the problem for every combination of inputs is only checked by a few complete simulations.", "anchors": ["festim/generic_simulation.py:Simulation.initialise", "festim/h_transport_problem.py:HTransportProblem.initialise", "festim/meshing/mesh_1d.py:Mesh1D.define_measures"]}
{"id": "C110", "title": "initialise() followed by run() does what the settings ask for", "statement": "After an accepted initialise(), run() finds everything it needs and is transient exactly if the settings say so. A transient simulation makes its first step with the initial stepsize, whatever an earlier run left there; no time beyond final_time is solved for or exported (initial stepsize not above final_time); a run that ends, ends at final_time (or just below it, within the relative tolerance); with positive settings the times increase. Every milestone and every time of a TXTExport between the first step and final_time is visited, and the TXTExport has exactly one column for it, provided no visited time falls just below such a time. Each solve sees the given temperature at its own time. XDMFExports with mode n are written at every n-th step and each DerivedQuantities has one row per computation. A steady simulation solves once and writes every export once, at time 0, whether or not the solve converged; TXTExports with times are refused.", "quantifier": "for all simulations accepted by initialise(), all outcomes of all solves, all exports", "why_tests_cant": "A test runs a handful of complete simulations; the claim joins initialise() and both drivers for every combination of settings, stepsizes, milestones, exports and solver outcomes.", "anchors": ["festim/generic_simulation.py:Simulation.run", "festim/generic_simulation.py:Simulation.run_transient", "festim/generic_simulation.py:Simulation.run_steady", "festim/generic_simulation.py:Simulation.initialise"]}
{"id": "C111", "title": "the stepsize of every solve is the least of the candidates given by the outcome of the one before", "statement": "In a transient run the first solve uses the initial stepsize. The stepsize of every later solve is the least of: the previous stepsize scaled for the number of iterations (times the change ratio for fewer than 5, divided by it otherwise, after one more division if the solve failed; unchanged without a change ratio), the bound in force at that time (max_stepsize, or stepsize_stop_max from t_stop on), the distance to the first milestone after the current time (unless it is within the relative tolerance) and, after a converged solve, the distance to final_time. The time moves on by the new stepsize after a converged solve and stays otherwise. The run ends with an exception of the stepsize exactly when a solve has one of the listed outcomes (failure without dt_min, stepsize below dt_min, change ratio 0, exception in the bound), and that solve is its last; every other exception comes from the post-processing of a converged solve.", "quantifier": "for all stepsize settings, final times, solver outcomes, temperatures and exports", "why_tests_cant": "Tests call adapt with single values; the claim fixes the whole sequence of stepsizes and the way the run ends, for every combination of the settings and every sequence of outcomes.", "anchors": ["festim/stepsize.py:Stepsize.adapt", "festim/stepsize.py:Stepsize.next_milestone", "festim/generic_simulation.py:Simulation.iterate", "festim/h_transport_problem.py:HTransportProblem.update"]}
{"id": "C112", "title": "what is missing or empty is refused, with a definite exception", "statement": "Borders: the first material without borders decides between TypeError (None) and IndexError (empty list), no materials at all is an IndexError, and with borders everywhere only the documented ValueErrors are left. Thermal properties of no material: IndexError, only for a heat transfer problem. No vertices: ValueError. A TXTExport that filters its rows without materials: TypeError, without filtering or projection all rows in order. mode of an XDMFExport: the positive integers and 'last', everything else a ValueError. A trap can be assembled exactly if its density has an entry for each of its materials (one if its coefficients are not lists), else IndexError. With chemical potentials a condition for the mobile species fails with AttributeError exactly if its expressions are kept in a dict view (CustomDirichlet), else it is built. The extremum over an id that marks nothing is a ValueError. Times and labels of a file: without a collection IndexError, without the attribute KeyError, and otherwise only what float raises. An initial condition that names an XDMF file is refused without a label and then without a step (ValueError); reading an accepted one fails only for a missing file or a missing function. newton_solver: everything but None and solvers is a TypeError, and nothing else in the use of a solver raises.", "quantifier": "for all lists of materials, vertices, modes, traps, conditions, marker arrays, files and sequences of assignments", "why_tests_cant": "The suite checks a few of these by example; which exception wins for which combination of inputs, and that there is no other, is only visible over all of them.", "anchors": ["festim/materials/materials.py:Materials.check_borders", "festim/materials/materials.py:Materials.check_missing_properties", "festim/meshing/mesh_from_vertices.py:MeshFromVertices.__init__", "festim/exports/txt_export.py:TXTExport.initialise", "festim/exports/xdmf_export.py:XDMFExport.mode", "festim/concentration/traps/trap.py:Trap.create_trapping_form", "festim/boundary_conditions/dirichlets/dirichlet_bc.py:DirichletBC.normalise_by_solubility", "festim/exports/derived_quantities/maximum_volume.py:MaximumVolume.compute", "festim/helpers.py:extract_xdmf_times", "festim/concentration/concentration.py:Concentration.get_comp", "festim/h_transport_problem.py:HTransportProblem.newton_solver"]}
{"id": "C113", "title": "the value of a boundary condition at a point and a time is the documented one", "statement": "Whatever expressions of x and t the user gives to a Dirichlet condition or a flux, the object that festim builds from them has at every point and time the value that the class stands for there, computed from the values of these expressions at this point and time and from the local temperature: the expression itself (DirichletBC, FluxBC), S_0 exp(-E_S/kT) sqrt(P), H_0 exp(-E_H/kT) P, phi R_p/D with the recombination and dissociation terms that have been given, the function of the user with its keyword arguments (each under its own name, numbers unchanged), -Kr c^order, Kd P, h (c_ext - c), h (T_ext - T). A Dirichlet condition fails exactly if an argument that its formula needs is missing. With chemical potentials the value for the mobile species (and for no other field) is that of the unknown of the material in which the point lies, and only functions of the user are refused.", "quantifier": "for all expressions that sympy builds (without quotients of integers), all points and times, all temperatures above 0, all functions and keyword arguments of the user, all lists of materials", "why_tests_cant": "The suite evaluates each class for one or two expressions; that the names of the keyword arguments, the printed C code and the evaluation fit together for every expression is a statement about infinitely many texts and values.", "anchors": ["festim/boundary_conditions/dirichlets/dirichlet_bc.py:BoundaryConditionExpression.eval", "festim/boundary_conditions/dirichlets/dirichlet_bc.py:DirichletBC.create_expression", "festim/boundary_conditions/dirichlets/custom_dc.py:CustomDirichlet.convert_prms", "festim/boundary_conditions/dirichlets/dc_imp.py:ImplantationDirichlet.create_expression", "festim/boundary_conditions/dirichlets/sieverts_bc.py:SievertsBC.create_expression", "festim/boundary_conditions/dirichlets/henrys_bc.py:HenrysBC.create_expression", "festim/boundary_conditions/fluxes/flux_custom.py:CustomFlux.convert_prms", "festim/boundary_conditions/fluxes/recombination_flux.py:RecombinationFlux.create_form"]}
{"id": "C114", "title": "sources, trap densities, temperatures and initial states have at every point and time of a run the value that the user gave", "statement": "A source of the hydrogen problem, of a trap or of the heat problem that is a number, a sympy expression of x and t, or a fenics expression or function has, after any sequence of time steps, the value of that input at the point and at the time of the last step (at t = 0 before the first one), each in its own place of the list; anything else is refused with an AttributeError when the equations are built. The entries of a trap's density likewise, None being left out. A Temperature has this value for T, and for T_n the one at the step before (both at t = 0 before the first step). Initial concentrations, and the initial temperature of a heat problem whether it is given as a value or as an InitialCondition, are the values at t = 0, and a transient heat problem is refused exactly without one. Parameters of extrinsic traps that are expressions of t keep their value at t = 0 throughout.", "quantifier": "for all inputs, all expressions that sympy builds (without quotients of integers), all points (nodes of the mesh) and all sequences of times", "why_tests_cant": "The suite checks the type of the objects and the value for one or two expressions at one time; here the printed C code, its reading, and the setting of the time of each object are combined for all expressions and all sequences of steps.", "anchors": ["festim/sources/source.py:Source", "festim/concentration/traps/trap.py:Trap.make_density", "festim/concentration/mobile.py:Mobile.create_source_form", "festim/temperature/temperature.py:Temperature.update", "festim/temperature/temperature_solver.py:HeatTransferProblem.initial_condition", "festim/concentration/concentration.py:Concentration.get_comp", "festim/helpers.py:update_expressions", "festim/concentration/traps/extrinsic_trap.py:ExtrinsicTrapBase"]}
