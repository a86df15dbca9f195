# Formal model of FESTIM in Rocq/Coq 8.16.1

Source of truth: `/repo/festim` (read as text, never run here). Properties: `properties.jsonl`.
Proof status per property: `MANIFEST.json`. Seeded-bug log: `seeded/LOG.jsonl`.

## 1. Shape of the development (`rocq/theories`, logical root `Verif`)

* `Model/*.v`: definitions only, one Gallina definition per Python function/method, branch by branch,
  each with a comment `(* festim/<file>.py L<a>-<b> *)`. Exceptions are values (`Base/Exc.v`).
* `Spec/*.v`: small specifications that do not mention the helpers of the model.
* `Proofs/*.v`: lemmas.
* `Properties/*.v`: the theorems named in `MANIFEST.json`, closed by `exact`, each followed by
  `Print Assumptions` and by an `Example` showing a concrete non-trivial case that meets the hypotheses.

### Arithmetic
* Time stepping, exports and mesh geometry are written once, generically over a class `Num` of numbers
  (`Base/Num.v`) with two instances: exact rationals `Q` (theorems; every float is a rational) and IEEE
  binary64 `PrimFloat` (witnesses of rounding behaviour, computed by the kernel; C88). So theorems over `Q` are
  about exact arithmetic; what rounding does to the times of a run is the subject of C88.
* Physics (Arrhenius laws, weak forms, angular factors) is over `R` (`Coq.Reals`).
* `numpy.isclose(a, b, atol=0)` is `|a-b| <= 1e-5*|b|` (finite arguments).

### Oracles (what is not modelled but universally quantified)
* The Newton solver: each attempt returns an arbitrary (solution, number of iterations, converged flag).
  A run is driven by a schedule: one list of attempts per time step. Theorems hold for all schedules.
* The heat solver, user functions (`max_stepsize`, custom fluxes, rate functions), meshes and finite element functions:
  arbitrary functions/values. A mesh is seen through its quadrature points (weight, marker, coordinates),
  which is how assembled integrals are evaluated.

### Not modelled
FEniCS/UFL/PETSc internals (Newton linear algebra, interpolation, projection, JIT), sympy beyond its C printer
(C54, C93), file formats beyond the decision when and what to write and the text of csv files, MPI, most messages
and warnings' text, mesh readers for XDMF files, plotting, timers and the completion tone, performance.

## 2. Plan per property

| id | modelled | how |
|----|----------|-----|
| C01 | `Model/Stepsize`, `Model/TimeLoop` | invariant `t + dt <= final` at loop head after clamp; induction on the schedule |
| C02 | same | loop exit condition + C01 |
| C03 | same | invariant on the next milestone; `_refuted` witnesses for near misses (exact and binary64); `C03_missed_partial`: the only way to miss a milestone (a visited time just below a milestone, or a run ended just below the final time) |
| C04 | same | case analysis of `adapt` + later clamps only decrease |
| C05 | same | false: `_refuted`; what is true: `C05_dt_min_partial` and, by an invariant of the stepsize through retries, milestones and the final clamp, `C05_floor_partial` |
| C06 | same, with trace of solves | expected false with retries: `_refuted`; true without failures |
| C07 | `Model/TimeLoop` with arbitrary solution type | induction on attempts, statement on the trace |
| C08 | same | strictly decreasing stepsize; refuted for `nb_it < 5` and for non-adaptive stepsizes |
| C09 | same | invariant |
| C10 | same | counting argument; for adaptive stepping with the lower bound of C05 (`C10_quick_convergence_ends_partial`, `C10_failures_end_partial`); Zeno witness `_refuted` |
| C11, C60 | `Model/Expressions` (objects with a time stamp, what is registered, what occurs) + `Model/TimeLoop` | values evaluated under arbitrary interpretations of the expressions; occurring expressions are registered |
| C12 | `Model/TimeLoop` with temperature state | trace invariant; refuted for HeatTransferProblem |
| C13 | same with density state | refuted when the stepsize changes; true for constant dt |
| C14, C15, C17, C50 | `Model/Exports` | arithmetic on iteration counter; composition with the time loop |
| C16 | `Model/Exports` | invariant on sequences of computes |
| C18-C20 | `Model/Exports`, `Model/TxtTimes` + time loop | composition |
| C21 | `Model/TxtRows` | `argsort` any sorting permutation; selection characterised index by index; interfaces through `check_borders` |
| C22 | `Model/Simulation` (+ `Model/TimeLoop`, `Model/Exports` for the run in between) | what a run can change (`used_dt`, `used_exports`); second initialise replayed step by step; refuted for export counters |
| C23 | `Model/Filter` | list filter spec |
| C24-C27 | `Model/Materials` | induction on sorted borders; acceptance = a permutation of the borders is a chain from 0 to size |
| C28 | `Model/Mesh1D` | sorted distinct lists |
| C29, C30 | `Model/Bcs` | decision procedure characterised by independent predicates; terms as a permutation of per-condition contributions |
| C31 | `Model/Sources` | order-preserving selection per species |
| C36 | `Model/Simulation` | inductive list of documented defects with their exceptions, independent of the order of the checks; every other exception is listed too (`other`); what is noticed without a dedicated check is in `Spec/NeedSpec` (`C36_complete`) |
| C32 | `Model/Lists` | invariant over operation sequences, content after each operation; `+=` refuted |
| C33-C35, C53, C57 | `Model/Fields` (+ `Model/Bcs`, `Model/Exports` for C53, `Model/Sources` for C57) | list lemmas; layouts as lists of (unknown, component) |
| C37-C39, C42, C47 | `Model/Forms` | forms as lists of (measure, integrand at a quadrature point), fields as values with gradient; evaluated on the volume element; one general `balance` lemma (double counting of points over materials, cancellation trap by trap) |
| C40, C41 | `Model/Forms` | pointwise consequences of residual = 0 |
| C43, C44 | `Model/Theta` (+ `Model/Materials` for the lookup) | real algebra; markers as counts of matching ids |
| C45, C46, C55, C56 | `Model/Laws` | real algebra; values characterised by the balances they solve |
| C48, C49, C51, C58, C59 | `Model/Quantities` | angular factors compared with Riemann integrals; averages as weighted sums; extrema over nodal values; units read back from the title |
| C52 | `Model/Paths` | string model of `os.path.dirname`/`os.makedirs` |
| C54 | `Model/SympyAst`, `Model/TimeLoop` | expressions as trees, sympy's C printer as a function to strings; a text without the letter `t` has no symbol `t`, hence one value for every meaning of the operations; transported to the temperature of all solves and posts of a run |
| C61 | `Model/Steady`, `Model/Exports` | one call of `write`; progress lemma for every export whose fields and folders exist |
| C62 | `Model/Forms` | in its i-th material the trap has the terms of the i-th separate trap; restricting the unknown to a material changes no term integrated over it |
| C63 | `Model/Forms`, `Model/Materials` | each builder succeeds iff its inputs are ready, by induction on the lists of materials and traps |
| C64 | `Model/XdmfInit` | the names differ by a prefix and suffix around the trap number |
| C65 | `Model/Checkpoint`, `Model/CheckpointFile` over the exports of a run; write_checkpoint, read_checkpoint and the XML are DOLFIN's behaviour | C14/C15 for the log, then the first write truncates and the others append |
| C66 | `Model/Quantities` (title), `Model/Fields`, own notion of subject in `Spec/TitleSpec` | the words of a title determine the statistic, the field and the place; decimal printing is injective |
| C67 | `Model/Csv` (numpy.savetxt with delimiter ',') on the tables of C15–C17; the printing of numbers is a parameter without commas | rows of C16, then splitting undoes joining |
| C68 | `Model/Forms` (all forms, unchanged), own notions of state, norm, solution and physical data in `Spec/StabilitySpec` | energy method on the assembled forms: test both equations with the difference; diffusion and dissipative fluxes have a sign, trapping terms are bounded by the rates |
| C69 | `Model/Forms` (unchanged), difference quotients in `Spec/EulerSpec` | the two formulations compared term by term; uniqueness from C68 |
| C70 | `Model/Forms`, `Model/Theta`, `Model/Laws`, `Model/Quantities` (unchanged); the same data in other units in `Spec/UnitSpec` | term by term: every integrand is multiplied by the same factor at every quadrature point (`Proofs/UnitProofs`); unit of the derived quantities from `Spec/QuantitySpec` |
| C71 | `Model/Forms.surface_kinetics_terms` inside `define_variational_problem` (unchanged); the two exchange fluxes and the selecting test functions in `Spec/SurfaceSpec` | all terms tested with a zero function vanish (`Proofs/SurfaceProofs`), the rest is the rate equation at the vertex; bounds by contradiction on its sign |
| C72 | `Model/Forms.define_variational_problem`, `heat_form` and `Model/Quantities.compute` (unchanged); renaming, reordering and splitting of inputs in `Spec/NameSpec` | the form of the renamed problem is the renamed form; forms of reordered inputs are permutations of each other; splitting gives the same list of integrals (a permutation of it for heat) |
| C73 | `Model/PostProcess` (form of the projection, choice of the exported mobile field), `Model/Fields.label_to_function`, `Model/Quantities.compute`, `Model/Forms.define_variational_problem` | the projection tested with the volume element of one volume gives equal totals (`Proofs/BudgetProofs.post_total`); retention is the sum of the fields; composed with the discrete balance (`FormProofs.balance`) and with the additivity of totals (C49); induction on the number of steps |
| C74 | `Model/Theta.arhenius_coeff`, `thermal_prop` (materials.D, Q, thermal_cond), `Model/Forms.create_diffusion_form`, `heat_form`, `Model/Quantities.compute`; the vector in `Spec/FluxSpec` | the material found for the marker of a cell is the one whose term is integrated there (ids are distinct), so the coefficient of the form is the value of the field; quotient rule for v/r and v/r/r; sum over materials = integral over the mesh |
| C75 | `Model/NonlinearProblem` (Problem.F: the residual, with x - g in the constrained rows), `Model/Forms`; test functions of the mixed space, combinations and reactions in `Spec/WeakSpec` | each form is a list of integrals whose integrands are linear in the values and gradients of the test functions, also after division by r (quotient rule); closure under all the loops and branches of the code (`Proofs/WeakProofs`); composed with `FormProofs.balance`; triangle inequality; induction on the steps |
| C76 | `Model/StartTemperature` (T and T_n after create_functions, the frozen or current solubility), `Model/TimeLoop`, `Model/SympyAst` | trace invariant of the time loop (`C54_run_frozen`, `run_temperature_expr`) and the fact that an expression without the symbol t does not depend on time (`C54_steady`) |
| C77 | `Model/StartTemperature` (created; theta_sievert in any arithmetic), `Model/Theta`, `Model/TimeLoop` | first solve and consecutive solves of a run (`run_first_solve`, `run_chain_start`), real algebra; refuted by a two-step run and by a binary64 computation |
| C78 | `Model/Simulation` (check_quantities, export_loop), `Model/Materials` (check_for_unused_properties), `Model/Quantities` | induction on the exports and quantities; C27 for the properties; a class without warning weighs with the volume element of the mesh (C48), the averages with a warning are wrong on a mesh of two radii |
| C79 | `Model/TimeLoop`, `Model/Stepsize` | run_transient is a fold over the schedule; invariants of the time loop (positive stepsizes, stepsize 0 is kept by adapt and by the clamp) |
| C80 | `Model/Sharing` (heap of list objects, variables of the user, the constructor, assignments and appends) | separation invariant (every list has one owner), by induction on the operations |
| C81 | `Model/Solvers` (setters, define_newton_solver, initialise) | induction on the history of operations |
| C82 | `Model/Forms`, `Model/Theta` (diffusion, trapping, source, flux and heat forms; theta) | the assembled residuals with and without the input are equal, term by term |
| C83 | `Model/Forms`, `Model/Theta` | chain rule for S(T(x)) theta(x), then term by term |
| C84 | `Model/Forms` (trapping terms of the mobile and of the trap, sources) | linearity of the residuals in (density, solution, previous, sources) |
| C85 | `Model/Forms`, `Model/Theta` | each term of the residual vanishes; the theta case through C83 |
| C86 | `Model/Forms`, `Model/Theta`, `Model/NonlinearProblem`, `Model/Quantities` | term by term, each integrand being linear in the state and the data |
| C87 | `Model/Forms`, `Model/Theta`, `Model/Quantities`, `Base/Dual` (gradients) | products of gradients are invariant under orthogonal matrices; the gradients of theta, c and v/r are turned as those of the fields |
| C88 | `Model/TimeLoop`, `Model/Stepsize`, over any `Num`; `Base/Num` (`NumF`) | `Spec/RoundSpec` states the standard model of floating-point arithmetic; `Proofs/FloatProofs` proves it of the kernel's binary64 numbers from `Coq.Floats.FloatAxioms` (rounding of sums, differences and products, exact comparisons); `Proofs/RoundProofs` bounds the drift of the times step by step |
| C89 | `Model/Quantities`, `Model/Fields` (labels) | `Spec/AgreeSpec` says when a marker stands for two others; the integrals over the two parts are split point by point, the extrema through the set of nodal values |
| C90 | `Model/NonlinearProblem` (F and J), `Model/Forms`, `Model/TimeLoop`, `Model/Stepsize` | `Spec/NewtonSpec` states Newton's method with the criterion 'residual'; the forms are shown affine with the superposition lemmas of C86; the directional derivative of an affine residual is its increment, so one step lands on the solution; runs by the chain of solver calls |
| C91 | `Model/Inputs`, `Model/Bcs` (mk_bc), `Model/Materials` (parse_law), `Model/XdmfInit`, `Model/Quantities` (constructors), `Model/Stepsize`, `Model/TimeLoop` | `Spec/InputSpec` says which Python values are numbers and temperatures, and lists the reasons for which an XDMFExport is refused; by cases on the kind of the argument, the run by the chain of solver calls |
| C92 | `Model/Forms` (mobile and heat forms), `Model/NonlinearProblem` (F) | `Spec/MaximumSpec` states the bounds, the sign of the coupling and linear elements on a segment with any quadrature of nonnegative weights that is exact for degree 2; the unknown furthest on the wrong side is compared with the constant field of its value, whose residual has the wrong sign; the coupling of two neighbours is computed in each element |
| C93 | `Model/SympyAst` (ccode) | `Spec/CcodeSpec` states the value of an expression over the reals, and a derivation relation for the expressions of C (levels of ISO/IEC 9899 6.5.1-6.5.15, integer and double types, decimal constants); induction on the expression with, for every precedence of sympy, the level of the grammar at which the text can be derived. `C93_one_reading`: the grammar is not ambiguous (`Proofs/GrammarProofs`: the first separator of a level outside parentheses splits a text in only one way), so the value is the only one the text can have |
| C94 | `Model/Forms`, `Model/Theta`, `Model/Laws` (dc_imp) | `Spec/ErrorSpec` lists the causes with their classes; a small calculus `fails r Q` (every error of r satisfies Q) is carried through the binds and the sums over materials and traps |
| C95 | `Model/Exports`, `Model/Paths`, `Model/Stepsize`, `Model/TimeLoop`, `Model/Steady` | `Spec/WriteSpec` lists the causes with their classes in terms of what the fields stand for; invariants of the loop (entries of label_to_function stay or are projected, quantities keep kind, field and surface), of the successive calls (exports keep what the user gave) and of the run |
| C96 | `Model/TrapDensity`, `Model/Forms`, `Model/Fields` | `Spec/TrapDensitySpec` says which density belongs to a point; sum over the materials of the trap as one integral over the domain, Galerkin orthogonality in an arbitrary space, hence total, best approximation and equality; witnesses for lists and for piecewise linear continuous elements |
| C97 | `Model/Forms` (mobile forms, heat form), `Model/NonlinearProblem` (F) | `Spec/OrderSpec` orders sources, fluxes and imposed values by what they bring at a concentration; the unknown where the first solution exceeds the second most is compared with the second solution raised by that excess, whose residual has the strict sign; runs by induction, heat on a segment by the coupling of two neighbours in an element (`Proofs/HeatSegment`), monotony by comparing a run with itself one step later |
| C98 | `Model/TrapInputs` (materials setter, make_materials, make_density, constructor), `Model/Forms` | `Spec/TrapInputSpec` says what an entry stands for and which density is given; equivalence of the search with the first match, of the set comparison with distinct identities, position of a density after the removal of None; witnesses on two materials |
| C99 | `Model/Forms` (steady mobile form, fluxes), `Model/NonlinearProblem` (F), `Model/Quantities` (compute) | `Spec/PermeationSpec` gives conductances and resistances of the elements; the residual of a node is computed as the difference of the fluxes of its two elements, materials summed once per point, boundary terms only at the ends; telescoping sums |
| C100 | `Model/ExtrinsicDensity.v`: initial density, the variational step of both classes (the forms of `Model/Forms.v`) over an abstract function space, the transient sequence of steps, and the steady run that never solves for the density. | The residual of both classes is (n - n_prev)/dt - creation + loss n. Tested with the difference to the uniform candidate it gives the exact density of each step; the product of the 1/(1 + loss dt) is bounded by Bernoulli's inequality. Varying parameters: energy estimate of the difference of two runs. The steady run: C40_steady with density 0. |
| C101 | `Model/Forms` (mobile form without traps, fluxes, heat form), with the spaces and problems of `Spec/StabilitySpec` | Each step tested with the difference of the two solutions (the energy estimate of C68, keeping the dissipation term); induction with Bernoulli's inequality; steady solutions are fixed points by C69. Segment: Poincare's inequality for linear elements by the variation between nodes and Cauchy-Schwarz. |
| C102 | `Model/Forms` (steady heat form, fluxes), `Model/NonlinearProblem` (F), `Model/Quantities` (compute) | `Spec/ConductionSpec` gives the conductivity at a point and the conditions at the ends as films of resistance 1/h; the residual of a node is the difference of the fluxes of its two elements, then a chain of conductances with any conditions at its two ends is solved once for C99 and C102 |
| C103 | `Model/Display` (display_time), `Model/TimeLoop` (run) | Rounding to the nearest with an arbitrary rule for ties is within 1/2, monotone, and fixes integers; then C01, C02 and C09 |
| C104 | `Model/Forms` (create_diffusion_form with Theta), `Model/Theta` (BoundaryConditionTheta), `Model/Laws` (sieverts_law, henrys_law), `Model/PostProcess` (create_form_post_processing), `Model/Quantities` (SurfaceFlux) | The residual of a node is the difference of the fluxes of its two elements (D times the derivative of S theta, or of S theta^2, is D S times the activity difference over the length, the quadrature being exact); a telescoping chain gives the common flux. Mixed laws: the flux is increasing in the right value, shooting from the left with the intermediate value theorem gives existence, monotonicity of activities uniqueness. Reported flux: the L2 projection on DG1 of a quadratic has the secant's slope |
| C105 | `Model/Forms` (create_diffusion_form, create_trapping_form, define_variational_problem without dt) | The equation of a node tested in all components is, by linearity in the test functions (C75), the sum of the rows of the mobile species and of the traps; what the traps take cancels what the mobile species loses. The row of one trap is isolated by comparison with null test functions; it is a weighted least squares condition |
| C106 | `Model/Forms`, `Model/ExtrinsicDensity` (as in C37, C42, C100) | Each step divides the distance to the equilibrium by 1 + l dt (C100, C37 with the supply of the sources); 0 <= 1/(1+x) - exp(-x) <= x^2/2 /(1+x) by the mean value theorem, and the errors of the steps sum up to l h / 2 times what has disappeared. The specification is the differential equation (`evolves`); its solution is found with the integrating factor |
| C107 | `Model/Forms` (steady hydrogen and heat forms with sources), `Model/Quantities` (fluxes) | The residual of a node is that of C99/C102 minus half of what the sources generate in its two elements (exactness of the quadrature rule to degree 1). In an element a function with constant second derivative is a parabola (mean value theorem), so the flux at its ends is the slope of the chord plus or minus s h / 2; the equations of the nodes are the continuity of the flux. Conversely the parabolas through the nodal values are an exact solution |
| C108 | `Model/Forms` (transient and steady hydrogen and heat forms) | By C69 the exact evolution solves each step started from w(t) - dt w'(t); by Taylor (mean value theorem) this is within dt^2 B / 2 of the previous exact values. The inequality of C68 and the inequality of Cauchy and Schwarz for the quadrature give (1 - dt Lambda / 4) E_{k+1} <= E_k + dt^2 C; the errors accumulate as in the proof of convergence of the implicit Euler method |
| C109 | `Model/Simulation.initialise` | Inversion of the sequence of steps of initialise; each part by the theorem about the function that computes it (C18, C25, C28, C31, C33, C34), the constraints by cases over the classes of conditions |
| C110 | `Model/Run.run`, `Model/Run.simulate`, on top of `Model/Simulation`, `Model/TimeLoop`, `Model/Steady`, `Model/Exports` | Inversion of initialise (C109) gives the stepsize with the registered times; the lemmas about runs from any stepsize (C01, C02, C03, C12, C14, C16, C18, C61) then apply to the run that follows |
| C111 | `Model/Stepsize.mk_stepsize`, `adapt`, `Model/TimeLoop.run_transient`; the candidates and the exceptions are listed in `Spec/AdaptSpec` | Each solve and the next are related by one call of adapt (chain lemma of C04-C07) and by clamp_final; for each of the two the result is characterised as a minimum; the exceptions by induction over the attempts and steps |
| C112 | `Model/Materials`, `Mesh1D`, `TxtRows`, `Exports.set_mode`, `Expressions`, `Quantities.compute`, `Checkpoint`, `Solvers` | Each function is inverted completely: every outcome is attributed to a condition on the input alone; lists by induction |
| C113 | `Model/Imposed` (convert_prms, create_expression of all classes with their keyword arguments, eval, eval_cell, create_form) | `Spec/ImposedSpec` states what each class stands for, from the values of the expressions (`Spec/CcodeSpec`); the code of each expression has exactly this value (C93_only_value), the rest by cases on the class; an iff, so that the exceptions are characterised too |
| C114 | `Model/TimedInputs` (Source, create_source_form, make_density, update_expressions, Temperature, initialise, initial_condition, parameters of extrinsic traps) | `Spec/TimedInputsSpec` states what an input means at a point and time; induction on the list of inputs and on the sequence of times, with C93_only_value for the code of each expression |

## 3. Trusted base
* Coq 8.16.1 kernel (and `coqchk`), its `vm_compute` machine, and for binary64 witnesses the kernel's primitive floats/ints.
* Per theorem, the axioms printed by `Print Assumptions` (recorded in section 5 as proofs land): theorems over `Q`, `nat`, `list`, `string` are
  expected to be closed; theorems over `R` use the standard library's real-number axioms
  (`ClassicalDedekindReals.sig_forall_dec`, `sig_not_dec`, `functional_extensionality_dep`).
* The reading of the Python text into Gallina, function by function, as commented.

### Modelled code (paths under `festim/`)
| file | modelled | not modelled |
|------|----------|--------------|
| `stepsize.py` | all | |
| `generic_simulation.py` | `attribute_source_terms`, `attribute_boundary_conditions`, `check_boundary_conditions`, `check_mesh_dim_coords`, `initialise`, `run_transient`, `run_steady`, `iterate`, `run_post_processing`, `update_post_processing_solutions` | timers, printing, `compute_jacobian`, `log_level` |
| `h_transport_problem.py` | function spaces as layouts, initial conditions, forms, Dirichlet conditions, choice of the Newton solver, update loop, post-processing solutions | Newton iterations, Jacobian, `project` (identity where a value is needed) |
| `concentration/*.py`, `concentration/traps/*.py` | forms, ids, lookups, extrinsic densities, conversion theta/concentration, restart from a checkpoint file | fenics functions |
| `boundary_conditions/**` | dispatch, values and registered expressions of every class | `MeshFunction` plumbing |
| `sources/*.py` | dispatch, terms, registered expressions | |
| `temperature/*.py` | form of the heat equation, initial condition, `create_functions`, updates, `is_steady_state` (with the C printer of sympy for the expression classes in `Model/SympyAst.v`), `TemperatureFromXDMF` and restarts from checkpoint files | solver |
| `materials/*.py` | borders, ids, checks, lookups, Arrhenius laws, solubility markers, `solubility_as_function` | UserExpression evaluation inside DOLFIN |
| `meshing/*.py` | 1D meshes: vertices, cells, volume and surface markers | `mesh_from_xdmf.py` |
| `exports/**` | when and what is written, headers, titles and units, derived quantities and the lines of their file, rows of `TXTExport`, folders | other file formats, HDF5 |
| `helpers.py` | `kJmol_to_eV`, conversions to expressions, `extract_xdmf_times`, `extract_xdmf_labels` | XML parser |
| `settings.py`, `initial_condition.py` | attributes used above | |
| `nonlinear_problem.py` | `Problem.F` (residual rows and constrained rows) | the symmetric lifting of SystemAssembler, `Problem.J` |

## 4. Findings (statements false of the faithful model)

| property | finding | witness |
|----------|---------|---------|
| C03 | a milestone can be jumped over when a visited time lies just below (relative 1e-5) the previous one; in binary64 already with `Stepsize(1.9, milestones=[5.7, 6])`, final time 10 | `C03_milestones_hit_refuted`, `C03_milestones_hit_binary64_refuted` |
| C04 | the first step ignores `max_stepsize` | `C04_first_step_refuted` |
| C05 | slow converged steps and retries use stepsizes below `dt_min` without an error | `C05_dt_min_refuted` |
| C06 | after a failed attempt the clock keeps the first stepsize while the solve used the reduced one | `C06_clock_refuted` |
| C08 | failures reporting fewer than five iterations *increase* the stepsize, and without change ratio nothing changes: infinitely many retries | `C08_retries_terminate_refuted` |
| C10 | slow convergence halves the stepsize at each step: the run never reaches its final time | `C10_adaptive_ends_refuted` |
| C11 | the parameters of extrinsic traps (`phi_0`, `K`, ...) are never registered: an expression of time keeps its value of time 0 | `C11_extrinsic_refuted` |
| C11 | a stationary heat problem (`transient=False`) in a transient simulation never updates its expressions: a time-dependent imposed temperature, flux or source keeps its value of time 0 | `C11_stationary_heat_refuted` |
| C60 | `CustomDirichlet` on the mobile species with `chemical_pot=True` raises an AttributeError (`dict_values` has no `append`) | `C60_custom_refuted` |
| C12 | with a transient heat problem the previous temperature given to the hydrogen problem is the current one | `C12_previous_temperature_refuted` |
| C13 | extrinsic trap densities are advanced with the *next* stepsize | `C13_extrinsic_density_refuted` |
| C15 | (outside the claim) `mode="last"` makes a steady simulation fail; after an overshoot nothing is written | `C15_steady_mode_last_fails`, `C15_overshoot_never_written` |
| C16 | (outside the claim) an empty list has no header; a quantity listed twice records two values per computation | `C16_empty_list_refuted`, `C16_repeated_object_refuted` |
| C18 | consequence of C03: a requested time can be jumped over | `C18_requested_time_refuted` |
| C19 | (outside the claim) a `header_format` with thousands separators adds header entries | `C19_comma_format_refuted` |
| C20 | `times[-1]` beyond the final time: the file is never written | `C20_last_time_refuted` |
| C21 | (outside the claim) a border that is not a mesh vertex makes the nearest vertex, inside a material, appear twice; borders given as a pair for one material and as a list of pairs for another pass `check_borders` and make `TXTExport.initialise` raise | `C21_off_mesh_refuted`, `C21_mixed_refuted` |
| C22 | a second run continues the iteration counter of the first (`XDMFExport(mode=2)` writes other steps, derived quantities are computed at other times) and appends to its files | `C22_exports_refuted` |
| C22 | `Exports.final_time` is not reset: after switching to a stationary simulation derived quantities are never written | `C22_final_time_refuted` |
| C36 | (outside the claim) a missing `thermal_cond`, `heat_capacity` or `rho` gives a TypeError from the heat equation instead of the ValueError of `check_materials`, which runs later | `C36_thermal_refuted` |
| C36 | (outside the claim) a missing solubility with `chemical_pot=True` is not checked: TypeError (None in an exponential) | `C36_solubility_refuted` |
| C50 | `MaximumSurface`/`MinimumSurface` cannot be computed in a `DerivedQuantities` | `C50_kinds_refuted` |
| C52 | `filename="out.csv"` (no directory): `os.makedirs("")` raises | `C52_files_refuted` |
| C25 | (outside the claim) a material with fewer ids than borders passes every check, its last cells get marker 0 and no material is found for them; `borders=[[0, 2]]` passes `check_borders` and raises a TypeError while marking | `C25_few_ids_refuted`, `C25_nested_border_refuted` |
| C28 | (outside the claim) interior vertices within 3e-16 of an end get its surface marker (absolute tolerance of `near`) | `C28_close_vertices_refuted` |
| C29 | (outside the claim) `field=0` and `field="0"` (also `1`/`"1"`) are not recognised as the same field: a fixed value and a flux on the same surface are both accepted and applied | `C29_spelling_refuted` |
| C30 | a flux condition with `field="0"` or on a trap is accepted and silently dropped; a Dirichlet condition with `field="1"` is accepted and fails later | `C30_dropped_refuted`, `C30_string_field_refuted` |
| C32 | (outside the claim) `+=` bypasses the type check; `extend` with a wrong object keeps the items before it | `C32_iadd_refuted`, `C32_extend_rollback_refuted` |
| C33 | ids `[2, None]` give two traps with id 2; id 0 (the mobile species) is accepted | `C33_ids_distinct_refuted` |
| C34 | ids `[2, 1]`: an initial condition on field 2 goes to the trap with id 1; a trap with id 5 cannot be initialised | `C34_initial_conditions_refuted` |
| C57 | with custom ids a field name means the n-th trap for sources and boundary conditions, the trap with this id for exports, and something else for initial conditions | `C57_same_species_refuted` |
| C38 | with temperature-dependent `rho` or `heat_capacity` the transient term `rho(T) cp(T) (T - T_n)` is not the change of thermal energy | `C38_balance_refuted` |
| C39 | with `chemical_pot=True` `SurfaceKinetics` receives theta instead of the concentration of the previous step: hydrogen is created or lost in the near-surface layer even at rest | `C39_balance_refuted` |
| C48 | `SurfaceFluxSpherical` uses its `azimuth_range` as the polar angle and conversely: over its default ranges the documented element integrates to 0, the code gives 4 pi | `C48_solid_angle_refuted` |
| C48 | the range setters check one side of each end: `azimuth_range=(10, 1)` is accepted and gives a negative volume | `C48_bounds_refuted` |
| C51 | `TotalSurface*` of a concentration shows one metre too many; `AdsorbedHydrogen` shows H m-2 in 2D and 3D | `C51_units_refuted` |
| C58 | `SurfaceFluxCylindrical`/`SurfaceFluxSpherical` document the outward flux and return the inward one | `C58_flux_refuted` |
| C59 | `MaximumSurface`/`MinimumSurface` use the number of a facet as the number of a cell | `C59_surface_refuted` |
| C43 | a Dirichlet value in a Henry material with `chemical_pot=True` is shifted by `DOLFIN_EPS*S` (imposing 0 does not impose 0) | `C43_boundary_refuted` |
| C61 | (outside the claim) the result of a diverged steady solve is written to every export before the ValueError | `C61_diverged_output_refuted` |
| C61 | (outside the claim) exports used before in a transient run keep its `final_time`: a steady run completes without writing the table | `C61_reused_exports_refuted` |
| C62 | (outside the claim) a trap with single numbers and a list of densities uses the first density in every material, without an error | `C62_scalar_first`, `C62_scalar_refuted` |
| C63 | (outside the claim) the checks do not look at S_0 with chemical_pot nor at Q with soret: a TypeError on None appears while building the equations | `C63_checked_refuted` |
| C63 | (outside the claim) parameter lists longer than the list of materials are accepted and the extra entries ignored | `C63_long_lists_refuted` |
| C64 | (outside the claim) TrapDensityXDMF has field '1': by default it is written to the file and under the label of the concentration of trap 1 | `C64_density_refuted` |
| C64 | (outside the claim) XDMFExport of an unknown field is accepted with a filename; its label attribute does not exist | `C64_unnamed_refuted` |
| C65 | (outside the claim) an initial temperature given as a string that is not a file name is silently ignored: T_n is zero | `C65_heat_string_refuted` |
| C65 | (outside the claim) `extract_xdmf_labels` looks at the first grid only: TemperatureFromXDMF refuses the second label of a shared file | `C65_second_label_refuted` |
| C65 | (outside the claim) two exports on one file: the first write of the second removes what the first wrote | `C65_shared_refuted` |
| C66 | (outside the claim) the title does not tell the angular range: two totals over different angles have the same title and different values | `C66_angles_refuted` |
| C67 | The title of a PointValue in 2D or 3D, or at a tuple, contains a comma: the header has more fields than the rows | `C67_point_refuted` |
| C68 | (outside the claim) with negative concentrations on a recombination surface the same step has two solutions (0 and -1): nothing in the equations excludes the unphysical one | `C68_negative_refuted` |
| C69 | (outside the claim) trapped hydrogen outside the materials of the trap stays for ever in a transient run and is removed by a steady one | `C69_outside_refuted` |
| C69 | (outside the claim) with chemical_pot and SurfaceKinetics a simulation at rest does not stay at rest (cause: see C39) | `C69_chemical_pot_refuted` |
| C70 | (outside the claim) chemical_pot with SurfaceKinetics subtracts theta from a concentration: the residual depends on the unit of pressure (cause: see C39) | `C70_chemical_pot_refuted` |
| C70 | (outside the claim) the steady formulation adds `c_t * v * dx` in the materials a trap is not attached to, whose unit is not the one of the trapping terms: at the nodes of an interface the trapped concentration depends on the unit of time | `C70_steady_trap_refuted` |
| C70 | (outside the claim) `DOLFIN_EPS` in BoundaryConditionTheta is added to a pressure: Dirichlet values on Henry materials depend on the unit of pressure | `C70_henry_dirichlet_refuted` |
| C71 | (outside the claim) a number given as `J_vs` is accepted and fills the surface beyond `n_surf`: the saturation of the vacuum flux is left to the user | `C71_overfull_refuted` |
| C72 | (outside the claim) a trap in a material with a list of ids raises, a source of a trap with a list of volumes raises, and in a steady problem a trap raises as soon as another material has a list of ids, although each of them works with one material or source per id | `C72_trap_split_refuted`, `C72_steady_split_refuted` |
| C73 | (outside the claim) with SurfaceKinetics the exported 'retention' and AdsorbedHydrogen together do not close the balance: the hydrogen that the equations store in the layer of thickness lambda_IS is in no quantity | `C73_layer` |
| C75 | (outside the claim) in spherical coordinates hydrogen is not conserved by the discretised equations: on one cell [1, 2] with P1 functions the equations of both nodes hold exactly, nothing enters or leaves and the inventory changes by -1/108 | `C75_spherical_refuted` |
| C77 | with a transient HeatTransferProblem T_n is already the new temperature when the hydrogen problem is solved: with the chemical potential unchanged the concentration jumps between the end of a step and the start of the next (hydrogen is created) | `C77_heat_refuted` |
| C77 | with a transient HeatTransferProblem an initial concentration is converted with the solubility at T = 0 (T is zero until the first step, only T_n holds the initial temperature): the chemical potential is infinite, or NaN where the concentration is zero | `C77_initial_heat_refuted` |
| C78 | thermal_cond is said to be ignored although a ThermalFlux uses it: check_materials is always called with an empty list of derived quantities | `C78_ignored_refuted` |
| C79 | after a run that ended exactly at final_time the stepsize is 0: with a larger final_time run() loops for ever at the old final time | `C79_extended_stuck`, `C79_extended_refuted` |
| C79 | after a failed step (exception) the clock stays at the end of the failed step: calling run() again skips that interval, the next solve starts from the previous solution at a wrong time | `C79_after_failure_refuted` |
| C80 | `Simulation()` without arguments: sources, boundary_conditions and initial_conditions are the mutable defaults of the constructor; `sim.sources.append(s)` adds s to every other simulation made without sources, also to later ones | `C80_default_refuted` |
| C81 | `HeatTransferProblem` keeps the solver of the first initialise(): tolerances changed before a second one are ignored | `C81_heat_refuted` |
| C81 | a Newton solver given to an ExtrinsicTrap before initialise() is replaced by the built-in one | `C81_extrinsic_trap_refuted` |
| C82 | (outside the claim) with Henry's law a solubility of 1 does not give the equations of the concentration: the unknown is its square root | `C82_henry_refuted` |
| C83 | (outside the claim) with SurfaceKinetics the two problems differ: the previous value in the near-surface layer is theta, not c (see C39) | `C83_surface_kinetics_refuted` |
| C86 | (outside the claim) with Henry's law the transient term is quadratic in the unknown | `C86_henry_refuted` |
| C88 | (outside the claim) `Stepsize(0.03, stepsize_change_ratio=10)` with final_time 0.3 ends at 0.30000000000000004: in binary64 `t + (final_time - t)` can exceed `final_time`, so that C01 is a fact of exact arithmetic | `C88_exact_bound_refuted` |
| C88 | (outside the claim) positive stepsizes below half the spacing of the numbers around t leave the time unchanged: C09 is a fact of exact arithmetic | `C88_increase_refuted` |
| C89 | (outside the claim) on spherical meshes AverageSurface does not weight by area: with the inner and the outer face of a hollow sphere (radii 1 and 2) under one id and a field of 0 and 1 it gives 1/2 where the mean by area is 4/5 | `C89_spherical_average_refuted` |
| C91 | (outside the claim) as_constant returns None, without an error, for a sympy expression or a string; bool values are numbers for T, dt and decay_constant (dt=True is a stepsize of 1) | `C91_as_constant_refuted` |
| C92 | nothing keeps concentrations nonnegative when the stepsize is small for the mesh: 6 D dt < h^2 gives a negative concentration next to an imposed one | `C92_small_step_refuted` |
| C93 | (outside the claim) a quotient of integer-valued parts, for example 3/Piecewise((1, x < 1), (2, True)), is a division of integers in the C code: 1 instead of 1.5 | `C93_quotient_refuted` |
| C96 | TrapDensityXDMF writes density[0] in every material of the trap, so for a trap with a list of densities the exported density is wrong in all materials but the first | `C96_lists_refuted` |
| C96 | With continuous elements (traps_element_type="CG", the default) the density of a trap present in one of two materials is exported with negative values in the other one and values above the density in its own | `C96_bounds_refuted` |
| C96 | TrapDensityXDMF reads the field "1" for its function space: it raises KeyError when no trap of the simulation has the id 1 | `C96_field` |
| C98 | None among the densities of a trap is dropped, so that the densities after it are used in the wrong materials and the equations raise IndexError | `C98_none_refuted` |
| C98 | A trap accepts a Material object that is not one of the simulation (a copy, say); in steady simulations the equation "no trapped hydrogen" is then added to that of the trap in the same volume | `C98_foreign_refuted` |
| C100 | A steady simulation never computes the density of ExtrinsicTrap and NeutronInducedTrap: it stays 0, so the trap is inactive and the result is not the limit of transient simulations. No error or warning is given. | `C100_steady`, `C100_steady_refuted` |
| C103 | Progress above 100 % when the first step is longer than final_time | `C103_overshoot_refuted` |
| C103 | The progress is rounded twice: 0.2549 % is shown as 0.2 % | `C103_closest_refuted` |
| C103 | 100.0 % is shown before the end | `C103_early_refuted` |
| C104 | With Henry materials and chemical potential, theta is not determined up to sign | `C104_sign_refuted` |
| C104 | The concentration written with Henry materials can be negative although theta >= 0 (projection of theta^2 on DG1) | `C104_negative_refuted` |
| C105 | A trap in some of the materials only changes the steady fluxes: in the other materials `c_t v dx` is added to the equation of the trap, but does not vanish at the nodes of the interface (traps in CG elements, the default); fluxes of two layers -2 and 5 instead of 3/2, and a negative trapped concentration | `C105_one_layer_refuted` |
| C106 | The time scheme (implicit Euler) is of first order only | `C106_second_order_refuted` |
| C107 | The reported surface fluxes do not balance the volumetric sources: each misses half of what is generated in the element next to the surface (they are computed from the gradient of the piecewise linear solution); in the example with one element per layer only 2 of 4 are seen leaving | `C107_outflow_refuted`, `C107_reported` |
| C111 | stepsize_stop_max without t_stop is accepted (with a change ratio), but no run with it finishes a time step: the first solve is followed by a TypeError (`t >= None`), after a converged one as well | `C111_stop_without_t` |
| C113 | (outside the claim) an ImplantationDirichlet with a dissociation coefficient and a pressure but no recombination coefficient ignores them silently | `C113_dirichlet` |
| C114 | parameters of extrinsic traps that depend on time are evaluated at t = 0 throughout (the list of their expressions stays empty, traps.py L83-88) | `C114_frozen` |
| C114 | (outside the claim) a Source whose value is a fenics.Constant, or of any other type that is not listed, is accepted by the constructor and left without the attribute value; the error comes when the equations are built | `C114_sources` |

* C54 (outside the claim): `is_steady_state` of `Temperature` looks for the letter t in the C text, so a stationary temperature such as
  `sqrt(x)` or `tanh(x)` is taken for a transient one (`C54_converse_refuted`); the only use
  (generic_simulation.py L382) is to freeze the solubility as a function, which is then left out.  `C54_complete` states for which expressions the answer is right in both directions.

## 5. Axioms per theorem
What `Print Assumptions` lists, theorem by theorem (all from the standard library: `Coq.Reals.ClassicalDedekindReals`,
`Coq.Logic.FunctionalExtensionality`, `Coq.Logic.Classical_Prop`, `Coq.Floats`, `Coq.Numbers`):

* nothing ("Closed under the global context"): `C01_no_overshoot`, `C02_stops_at_final_time`, `C03_milestones_grid_partial`, `C03_milestones_hit_partial`, `C03_milestones_hit_refuted`, `C03_missed_partial`, `C04_first_step_refuted`, `C04_max_stepsize`, `C05_dt_min_partial`, `C05_dt_min_refuted`, `C05_floor_partial`, `C06_clock_partial`, `C06_clock_refuted`, `C07_failed_attempts_leave_no_trace`, `C08_accept_on_convergence`, `C08_retries_terminate_partial`, `C08_retries_terminate_refuted`, `C09_time_increases`, `C10_adaptive_ends_refuted`, `C10_failures_end_partial`, `C10_fixed_stepsize_ends`, `C10_fixed_stepsize_milestones_ends`, `C10_quick_convergence_ends_partial`, `C10_step_count`, `C11_constant_parameters_partial`, `C11_extrinsic_refuted`, `C11_heat`, `C11_run_partial`, `C11_stationary_heat_refuted`, `C11_updated_partial`, `C12_heat_previous_is_current`, `C12_previous_temperature_refuted`, `C12_temperature_chronology_partial`, `C13_extrinsic_density_partial`, `C13_extrinsic_density_refuted`, `C14_every_nth_step`, `C15_last_written_once`, `C15_overshoot_never_written`, `C15_steady_mode_last_fails`, `C15_table_written_once`, `C16_empty_list_refuted`, `C16_repeated_object_refuted`, `C16_table_is_rectangular`, `C16_times_increase`, `C17_csv_intervals`, `C18_requested_time_exported_partial`, `C18_requested_time_grid_partial`, `C18_requested_time_refuted`, `C18_times_become_milestones`, `C19_comma_format_refuted`, `C19_header_matches_columns`, `C20_last_time_refuted`, `C20_written_at_last_time_partial`, `C20_written_at_the_end`, `C21_all_dofs`, `C21_both_sides`, `C21_complete`, `C21_interfaces`, `C21_mixed_refuted`, `C21_off_mesh_refuted`, `C21_repeats`, `C21_rows`, `C21_sorted`, `C21_succeeds`, `C22_exports_refuted`, `C22_final_time_refuted`, `C22_heat_initial`, `C22_rerun_after_run_partial`, `C22_rerun_partial`, `C23_filter`, `C23_unique`, `C24_borders_accepted`, `C24_borders_cover`, `C25_cells_marked`, `C25_few_ids_refuted`, `C25_nested_border_refuted`, `C25_single_material`, `C26_lookup`, `C26_lookup_by_name`, `C26_unique_ids`, `C27_all_or_none`, `C28_close_vertices_refuted`, `C28_surfaces`, `C28_tiling`, `C29_accepted`, `C29_refused`, `C29_spelling_refuted`, `C30_applied_partial`, `C30_applied_success`, `C30_contribution_unique`, `C30_dropped_refuted`, `C30_string_field_refuted`, `C31_accepted`, `C31_attached`, `C31_one_equation`, `C31_refused`, `C31_unique`, `C32_content`, `C32_extend_rollback_refuted`, `C32_iadd_refuted`, `C32_index`, `C32_sequence`, `C32_step`, `C33_default_ids`, `C33_get_trap`, `C33_get_trap_none`, `C33_ids_distinct_partial`, `C33_ids_distinct_refuted`, `C33_ids_kept`, `C33_ids_stable`, `C34_initial_conditions_exact`, `C34_initial_conditions_partial`, `C34_initial_conditions_refuted`, `C34_unique`, `C35_layout`, `C35_same_components`, `C36_accepted`, `C36_complete`, `C36_exactly`, `C36_refused`, `C50_kinds_partial`, `C50_kinds_refuted`, `C51_plain_units`, `C51_units_partial`, `C51_units_refuted`, `C52_filename`, `C52_files_partial`, `C52_files_refuted`, `C52_folder_partial`, `C53_adsorbed`, `C54_complete`, `C54_run`, `C54_run_frozen`, `C54_steady`, `C57_same_species_partial`, `C57_same_species_refuted`, `C60_custom_refuted`, `C60_dirichlet_partial`, `C61_diverged_output_refuted`, `C61_ends`, `C61_last_raises`, `C61_reused_exports_refuted`, `C61_times_raise`, `C61_written_once`, `C63_checked_heat`, `C63_checked_solubility`, `C63_constructor`, `C64_accepted_iff`, `C64_default_path`, `C64_density_refuted`, `C64_distinct`, `C64_unnamed_refuted`, `C65_file`, `C65_heat_string_refuted`, `C65_initial_condition`, `C65_labels`, `C65_last`, `C65_restart`, `C65_restart_missing`, `C65_run_restart`, `C65_second_label_refuted`, `C65_shared_refuted`, `C65_temperature`, `C65_times`, `C66_distinct`, `C66_fields`, `C66_same_subject`, `C66_words`, `C67_file_partial`, `C67_last_partial`, `C67_lines`, `C67_no_comma`, `C67_points`, `C78_coordinates`, `C78_ignored_partial`, `C78_ignored_refuted`, `C79_after_failure_refuted`, `C79_extended_partial`, `C79_extended_refuted`, `C79_extended_stuck`, `C79_finished`, `C79_interrupted`, `C80_attributes_apart`, `C80_collection_kept`, `C80_default_refuted`, `C80_independent_partial`, `C80_others_do_not_matter`, `C81_extrinsic_trap_partial`, `C81_extrinsic_trap_refuted`, `C81_heat_partial`, `C81_heat_refuted`, `C81_hydrogen`, `C81_types`, `C91_T`, `C91_as_constant_refuted`, `C91_coefficient`, `C91_decay`, `C91_dt`, `C91_filename`, `C91_law`, `C91_solute`, `C91_xdmf`, `C95_run`, `C95_steady`, `C95_write`, `C96_field`, `C98_again`, `C98_materials`, `C98_own`, `C98_positions`, `C103_accurate`, `C103_closest_refuted`, `C103_early_refuted`, `C103_end`, `C103_overshoot_refuted`, `C103_progress`, `C109_bcs`, `C109_cells`, `C109_initial`, `C109_kept`, `C109_other_meshes`, `C109_sources`, `C109_time`, `C109_traps`, `C110_asked`, `C110_dispatch`, `C110_exports`, `C110_steady`, `C110_temperature`, `C110_times`, `C111_exceptions`, `C111_sequence`, `C111_stop_without_t`, `C112_borders`, `C112_densities`, `C112_dirichlet`, `C112_filter`, `C112_first_silent`, `C112_initial`, `C112_initial_built`, `C112_initial_read`, `C112_labels`, `C112_mode`, `C112_solver`, `C112_thermal`, `C112_times`, `C112_vertices`.
* `ClassicalDedekindReals.sig_forall_dec`, `ClassicalDedekindReals.sig_not_dec`, `Classical_Prop.classic`, `FunctionalExtensionality.functional_extensionality_dep`: `C37_balance`, `C37_run`, `C37_steady`, `C38_balance_partial`, `C38_balance_refuted`, `C38_steady`, `C39_balance_partial`, `C39_balance_refuted`, `C42_decay`, `C42_removes`, `C46_equilibrium`, `C46_sieverts`, `C46_signs`, `C47_balance`, `C48_bounds_refuted`, `C48_solid_angle_partial`, `C48_solid_angle_refuted`, `C48_spherical_flux_partial`, `C49_additive`, `C56_profile`, `C63_built_iff`, `C63_checked_refuted`, `C63_heat_built_iff`, `C63_heat_progress`, `C63_long_lists_refuted`, `C68_contraction`, `C68_dependence`, `C68_fluxes`, `C68_heat`, `C68_heat_fluxes`, `C68_negative_refuted`, `C68_steady`, `C68_unique`, `C69_builds`, `C69_chemical_pot_refuted`, `C69_fixed_point`, `C69_heat`, `C69_implicit_euler`, `C69_outside_refuted`, `C69_rest`, `C69_stays`, `C70_chemical_pot_refuted`, `C70_concentration`, `C70_equations`, `C70_heat`, `C70_solutions`, `C70_steady_trap_refuted`, `C71_adsorbed`, `C71_bulk`, `C71_coverage`, `C71_overfull_refuted`, `C71_steady`, `C72_names`, `C72_names_heat`, `C72_order`, `C72_order_heat`, `C72_split`, `C72_split_heat`, `C72_steady_split_refuted`, `C72_trap_order_refuted`, `C72_trap_split_refuted`, `C73_inventory`, `C73_run`, `C73_step`, `C74_heat`, `C75_balance`, `C75_heat`, `C75_linear`, `C75_run`, `C75_steady`, `C77_heat_refuted`, `C78_suited_total`, `C82_empty_trap`, `C82_heat`, `C82_henry_refuted`, `C82_null_flux`, `C82_null_source`, `C82_soret`, `C82_unit_solubility`, `C83_change_of_unknown`, `C83_surface_kinetics_refuted`, `C84_divided`, `C84_together`, `C85_heat`, `C85_rest`, `C85_sieverts_surface`, `C85_uniform_theta`, `C86_heat`, `C86_henry_refuted`, `C86_superposition`, `C87_heat`, `C87_rotation`, `C87_translation`, `C90_heat`, `C90_hydrogen`, `C92_heat`, `C92_heat_segment`, `C92_hydrogen`, `C92_run`, `C92_segment`, `C92_small_step_refuted`, `C94_equations`, `C94_heat`, `C97_heat`, `C97_heat_run`, `C97_heat_segment`, `C97_monotone`, `C97_run`, `C97_segment`, `C97_step`, `C97_unique`, `C99_exchange`, `C99_reported`, `C99_series`, `C99_solution`, `C101_forget`, `C101_heat`, `C101_limit`, `C101_steady`, `C102_reported`, `C102_series`, `C102_solution`, `C104_gas`, `C104_law`, `C104_mixed`, `C104_negative_refuted`, `C104_series`, `C104_sign_refuted`, `C105_langmuir`, `C105_one_layer_refuted`, `C105_transparent`, `C105_unique`, `C106_converges`, `C106_density`, `C106_inventory`, `C106_second_order_refuted`, `C106_solution`, `C107_balance`, `C107_between`, `C107_heat`, `C107_hydrogen`, `C107_outflow_refuted`, `C107_reported`, `C107_reported_heat`, `C108_converges`, `C108_error`, `C108_heat`, `C108_no_traps`, `C113_flux`.
* `ClassicalDedekindReals.sig_forall_dec`, `ClassicalDedekindReals.sig_not_dec`, `FunctionalExtensionality.functional_extensionality_dep`: `C37_exchange`, `C40_bounds`, `C40_outside`, `C40_steady`, `C41_neutron`, `C43_boundary_partial`, `C43_boundary_refuted`, `C43_initial`, `C43_same_concentration`, `C44_interface`, `C44_jump`, `C45_henry`, `C45_implantation`, `C45_implantation_monotone`, `C45_sieverts`, `C47_divergence`, `C48_additive`, `C48_additive_polar`, `C48_bounds_partial`, `C48_full`, `C49_average`, `C49_between`, `C49_constant`, `C49_extrema`, `C49_retention`, `C49_total`, `C55_kJmol`, `C58_flux_partial`, `C58_flux_refuted`, `C58_inward`, `C59_surface_partial`, `C59_surface_refuted`, `C62_each`, `C62_mobile`, `C62_scalar_first`, `C62_scalar_refuted`, `C62_trap`, `C66_angles_refuted`, `C66_same_values`, `C70_dc_imp`, `C70_henry_dirichlet_refuted`, `C70_implantation`, `C70_neutron`, `C70_printed`, `C70_quantities`, `C70_solution_laws`, `C70_theta`, `C72_names_quantities`, `C73_concentration`, `C73_layer`, `C74_flux`, `C75_density`, `C76_solubility`, `C77_chain_partial`, `C77_first_partial`, `C78_suited_average`, `C78_unsuited_average`, `C82_unit_values`, `C84_decay_needed`, `C84_fraction`, `C85_soret_profile`, `C86_quantities`, `C87_quantities`, `C89_retention`, `C89_same_flux`, `C89_spherical_average`, `C89_spherical_average_refuted`, `C89_union_extremum`, `C89_union_mean`, `C89_union_sum`, `C90_density`, `C90_no_error`, `C90_one_iteration`, `C90_reaches`, `C90_run`, `C91_quantity`, `C91_range`, `C94_implantation`, `C96_equations`, `C98_foreign_refuted`, `C98_none_refuted`, `C99_layers`, `C100_approach`, `C100_density`, `C100_equilibrium`, `C100_exists`, `C100_forget`, `C100_limit`, `C100_steady`, `C100_steady_refuted`, `C104_reported`, `C112_extremum`, `C112_extremum_no_dofs`, `C113_dirichlet`, `C113_finished`.
* `ClassicalDedekindReals.sig_forall_dec`, `FunctionalExtensionality.functional_extensionality_dep`: `C35_retention`, `C39_exchange`, `C41_extrinsic`, `C70_extrinsic`, `C85_occupancy`, `C86_dirichlet`, `C88_arrival`, `C88_no_overshoot`, `C88_step_count`, `C93_condition`, `C93_one_reading`, `C93_only_condition`, `C93_only_value`, `C93_quotient_float`, `C93_quotient_refuted`, `C93_value`, `C96_bounds_refuted`, `C96_lists_refuted`, `C96_projection_partial`, `C101_heat_segment`, `C101_segment`, `C102_layers`, `C114_densities`, `C114_frozen`, `C114_initial`, `C114_sources`, `C114_temperature`.
* `ClassicalDedekindReals.sig_forall_dec`, `FunctionalExtensionality.functional_extensionality_dep`, axioms of `Coq.Floats.FloatAxioms` (`Prim2SF_valid`, `abs_spec`, `add_spec`, `leb_spec`, `ltb_spec`, `mul_spec`, `sub_spec`), primitives of `Coq.Floats.PrimFloat` (`abs`, `add`, `div`, `eqb`, `float`, `frshiftexp`, `leb`, `ltb`, `mul`, `normfr_mantissa`, `sub`), primitives of `Coq.Numbers...PrimInt63` (`eqb`, `int`, `land`, `lsr`): `C88_arrival_binary64`, `C88_binary64`, `C88_no_overshoot_binary64`, `C88_step_count_binary64`.
* `ClassicalDedekindReals.sig_forall_dec`: `C67_point_refuted`, `C75_elements`, `C98_density_partial`.
* `ClassicalDedekindReals.sig_forall_dec`, `FunctionalExtensionality.functional_extensionality_dep`, axioms of `Coq.Floats.FloatAxioms` (`Prim2SF_valid`, `leb_spec`, `ltb_spec`), primitives of `Coq.Floats.PrimFloat` (`abs`, `add`, `div`, `eqb`, `float`, `frshiftexp`, `leb`, `ltb`, `mul`, `normfr_mantissa`, `sub`), primitives of `Coq.Numbers...PrimInt63` (`eqb`, `int`, `land`, `lsr`): `C88_exact_bound_refuted`.
* `ClassicalDedekindReals.sig_forall_dec`, `FunctionalExtensionality.functional_extensionality_dep`, axioms of `Coq.Floats.FloatAxioms` (`Prim2SF_valid`, `ltb_spec`), primitives of `Coq.Floats.PrimFloat` (`abs`, `add`, `div`, `eqb`, `float`, `frshiftexp`, `leb`, `ltb`, `mul`, `normfr_mantissa`, `sub`), primitives of `Coq.Numbers...PrimInt63` (`eqb`, `int`, `land`, `lsr`): `C88_increase_refuted`.
* primitives of `Coq.Floats.PrimFloat` (`abs`, `add`, `div`, `eqb`, `float`, `leb`, `ltb`, `mul`, `opp`, `sub`): `C77_initial_heat_refuted`.
* primitives of `Coq.Floats.PrimFloat` (`abs`, `add`, `div`, `eqb`, `float`, `leb`, `ltb`, `mul`, `sub`): `C03_milestones_hit_binary64_refuted`.

## 6. Seeded bugs
`seeded/LOG.jsonl` has one line per wrong program: a definition of a Model file is edited in a scratch copy, the development is
rebuilt, and every proof that no longer compiles is replaced by an admitted statement until the rest compiles.
`theorems_failed` lists the theorems of MANIFEST.json whose own proof failed or which use (by name, transitively) a lemma whose
proof failed; `lemmas_failed` lists the proofs that failed themselves.  A failing proof script does not by itself show that the statement
is false.  An edit which no theorem notices is followed by a tightened theorem (`theorems_tightened`) and a second run of the same
edit.  In one round (lists, materials, sources, boundary conditions, mesh, filter) the files named *Quantity*, *Law*, *Theta*, *Form*, *Trap*
were not rechecked, so theorems of these files may be missing from `theorems_failed` there.
