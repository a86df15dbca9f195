(** Model of the transient driver:
    festim/generic_simulation.py (run_transient, iterate), festim/h_transport_problem.py
    (update, solve_once, update_previous_solutions), festim/temperature/*.py (update) and
    festim/concentration/traps/traps.py (solve/update of extrinsic traps).

    What the finite element library computes is an oracle: an *attempt* is the outcome of one
    call of the Newton solver (arbitrary solution, number of iterations, converged flag), and a
    run is driven by one list of attempts per time step. *)
From Coq Require Import ZArith List Bool String.
From Verif Require Import Base.Exc Base.Num Model.Stepsize.
Import ListNotations.

Section TimeLoop.
Context {A : Type} {N : Num A}.
(** [U]: concentrations (all components); [X]: temperature fields; [D]: densities of the
    extrinsic traps; [E]: everything the exports remember. *)
Variables U X D E : Type.

(** festim/temperature: the three kinds of temperature.
    - [TempExpr f]: Temperature(value), [f t] is the interpolation of the expression at time t;
    - [TempHeat transient solve]: HeatTransferProblem, [solve T_n T t dt] is the result of its
      Newton solver (previous temperature, initial guess, time, stepsize).
      Simplification: a heat solver that fails raises inside dolfin (error_on_nonconvergence=True,
      temperature_solver.py L229), this case is not modelled;
    - [TempXDMF]: TemperatureFromXDMF. *)
Inductive temperature : Type :=
| TempExpr (f : A -> X)
| TempHeat (transient : bool) (solve : X -> X -> A -> A -> X)
| TempXDMF.

(** One call of NewtonSolver.solve. festim/h_transport_problem.py L366 *)
Record attempt : Type := mkAttempt {
  at_u    : U;
  at_nb   : Z;
  at_conv : bool
}.

(** State of a running transient simulation. *)
Record state : Type := mkState {
  st_t     : A;            (* Simulation.t *)
  st_dt    : stepsize A;   (* Simulation.dt *)
  st_T     : X;            (* T.T *)
  st_Tn    : X;            (* T.T_n *)
  st_u     : U;            (* HTransportProblem.u *)
  st_un    : U;            (* HTransportProblem.u_n *)
  st_dens  : D;            (* trap.density of the extrinsic traps *)
  st_densn : D;            (* trap.density_previous_solution *)
  st_expr  : A;            (* the attribute t of the registered expressions *)
  st_exp   : E
}.

(** What one call of the Newton solver of the H transport problem works with: the initial guess
    (HTransportProblem.u), the previous solution (u_n), the time of the registered expressions, the
    stepsize in the form (dt.value), the temperatures and the trap densities; and its outcome. *)
Record solve_call : Type := mkSolve {
  sv_guess : U;
  sv_prev  : U;
  sv_t     : A;
  sv_dt    : A;
  sv_T     : X;
  sv_Tn    : X;
  sv_dens  : D;
  sv_out   : attempt
}.

(** What an observer of the solvers sees, in order: Newton solves of the H transport problem,
    solves of the extrinsic trap densities, post-processing of a finished time step. *)
Inductive event : Type :=
| EvSolve (c : solve_call)
| EvDensity (prev : D) (dt : A) (T : X) (result : D)
| EvPost (t : A) (u : U) (T : X).

(** How far a function got: [Done], an exception, or the list of attempts was exhausted while
    still looping. *)
Inductive status : Type :=
| Done
| Raised (e : exc)
| Pending.

Variable temp : temperature.
(** [dens_solve prev guess dt T]: result of the Newton solvers of the extrinsic traps. *)
Variable dens_solve : D -> D -> A -> X -> D.
(** [post t u T e]: Simulation.run_post_processing, see Model/Exports.v. *)
Variable post : A -> U -> X -> E -> res E.
(** settings.final_time *)
Variable final_time : A.

(** Temperature.update: temperature.py L45-53; HeatTransferProblem.update: temperature_solver.py
    L255-275; TemperatureFromXDMF.update: temperature_from_xdmf.py L44-48. Returns (T, T_n). *)
Definition temp_update (t dt : A) (T Tn : X) : X * X :=
  match temp with
  | TempExpr f => (f t, T)
  | TempHeat true solve => let T' := solve Tn T t dt in (T', T')
  | TempHeat false _ => (T, Tn)
  | TempXDMF => (T, Tn)
  end.

(** h_transport_problem.py L342: adapt is only called for adaptive stepsizes or milestones. *)
Definition calls_adapt (s : stepsize A) : bool :=
  match adaptive_stepsize s, milestones s with
  | None, None => false
  | _, _ => true
  end.

(** h_transport_problem.py L339-343: while converged is False.  [guess] is u_, the copy of u made
    before the loop, assigned to u before each solve.  Returns the solution and stepsize after the
    loop, the solver calls and the status. *)
Fixpoint update_loop (t : A) (expr_t : A) (T Tn : X) (dens : D) (guess prev : U)
  (s : stepsize A) (atts : list attempt) : U * stepsize A * list event * status :=
  match atts with
  | [] => (guess, s, [], Pending)
  | a :: rest =>
      let ev := EvSolve (mkSolve guess prev expr_t (value s) T Tn dens a) in
      let adapted := if calls_adapt s then adapt s t (at_nb a) (at_conv a) else Ok s in
      match adapted with
      | Err e => (at_u a, s, [ev], Raised e)
      | Ok s' =>
          if at_conv a then (at_u a, s', [ev], Done)
          else
            match update_loop t expr_t T Tn dens guess prev s' rest with
            | (u, s'', evs, st) => (u, s'', ev :: evs, st)
            end
      end
  end.

(** h_transport_problem.py L327-349: update, including update_previous_solutions (L371-373: u_n,
    then traps.update_extrinsic_traps_density, traps.py L108-111) and traps.solve_extrinsic_traps
    (traps.py L95-106), which runs after the loop, hence after dt has been adapted. *)
Definition update (st : state) (atts : list attempt) : state * list event * status :=
  let t := st_t st in
  match update_loop t t (st_T st) (st_Tn st) (st_dens st) (st_u st) (st_un st) (st_dt st) atts with
  | (u, s, evs, Done) =>
      let densn := st_dens st in
      let dens := dens_solve densn (st_dens st) (value s) (st_T st) in
      (mkState t s (st_T st) (st_Tn st) u u dens densn t (st_exp st),
       evs ++ [EvDensity densn (value s) (st_T st) dens], Done)
  | (u, s, evs, status) =>
      (mkState t s (st_T st) (st_Tn st) u (st_un st) (st_dens st) (st_densn st) t (st_exp st),
       evs, status)
  end.

(** generic_simulation.py L519-522: avoid t > final_time. *)
Definition clamp_final (t : A) (s : stepsize A) : stepsize A :=
  if nltb final_time (nadd t (value s)) then assign s (nsub final_time t) else s.

(** generic_simulation.py L504-522: iterate. *)
Definition iterate (st : state) (atts : list attempt) : state * list event * status :=
  let t := nadd (st_t st) (value (st_dt st)) in
  let (T, Tn) := temp_update t (value (st_dt st)) (st_T st) (st_Tn st) in
  let st1 := mkState t (st_dt st) T Tn (st_u st) (st_un st) (st_dens st) (st_densn st)
               (st_expr st) (st_exp st) in
  match update st1 atts with
  | (st2, evs, Done) =>
      match post t (st_u st2) (st_T st2) (st_exp st2) with
      | Ok e =>
          (mkState t (clamp_final t (st_dt st2)) (st_T st2) (st_Tn st2) (st_u st2) (st_un st2)
             (st_dens st2) (st_densn st2) (st_expr st2) e,
           evs ++ [EvPost t (st_u st2) (st_T st2)], Done)
      | Err e => (st2, evs, Raised e)
      end
  | other => other
  end.

(** generic_simulation.py L480-482: condition of the while loop. *)
Definition running (st : state) : bool :=
  nltb (st_t st) final_time && negb (isclose (st_t st) final_time).

(** generic_simulation.py L470-483: run_transient, driven by a schedule (one list of attempts per
    time step).  [Pending] means that the schedule ended while the loop was still running. *)
Fixpoint run_transient (st : state) (sched : list (list attempt)) : state * list event * status :=
  if running st then
    match sched with
    | [] => (st, [], Pending)
    | atts :: rest =>
        match iterate st atts with
        | (st', evs, Done) =>
            match run_transient st' rest with
            | (st'', evs', s) => (st'', evs ++ evs', s)
            end
        | other => other
        end
    end
  else (st, [], Done).

(** generic_simulation.py L326, L345-346 and h_transport_problem.py L152-154: the state of a
    simulation when run() starts after initialise(): time 0, stepsize reset to its initial value. *)
Definition start (s : stepsize A) (T Tn : X) (u un : U) (dens densn : D) (e : E) : state :=
  mkState n0 (initialise_value s) T Tn u un dens densn n0 e.

End TimeLoop.

Arguments TempExpr {A X} f.
Arguments TempHeat {A X} transient solve.
Arguments TempXDMF {A X}.
Arguments mkAttempt {U} at_u at_nb at_conv.
Arguments at_u {U} _.
Arguments at_nb {U} _.
Arguments at_conv {U} _.
Arguments mkState {A U X D E} _ _ _ _ _ _ _ _ _ _.
Arguments st_t {A U X D E} _.
Arguments st_dt {A U X D E} _.
Arguments st_T {A U X D E} _.
Arguments st_Tn {A U X D E} _.
Arguments st_u {A U X D E} _.
Arguments st_un {A U X D E} _.
Arguments st_dens {A U X D E} _.
Arguments st_densn {A U X D E} _.
Arguments st_expr {A U X D E} _.
Arguments st_exp {A U X D E} _.
Arguments mkSolve {A U X D} _ _ _ _ _ _ _ _.
Arguments sv_guess {A U X D} _.
Arguments sv_prev {A U X D} _.
Arguments sv_t {A U X D} _.
Arguments sv_dt {A U X D} _.
Arguments sv_T {A U X D} _.
Arguments sv_Tn {A U X D} _.
Arguments sv_dens {A U X D} _.
Arguments sv_out {A U X D} _.
Arguments EvSolve {A U X D} c.
Arguments EvDensity {A U X D} _ _ _ _.
Arguments EvPost {A U X D} _ _ _.
Arguments temp_update {A X} temp t dt T Tn.
Arguments update_loop {A N U X D} t expr_t T Tn dens guess prev s atts.
Arguments update {A N U X D E} dens_solve st atts.
Arguments clamp_final {A N} final_time t s.
Arguments iterate {A N U X D E} temp dens_solve post final_time st atts.
Arguments running {A N U X D E} final_time st.
Arguments run_transient {A N U X D E} temp dens_solve post final_time st sched.
Arguments start {A N U X D E} s T Tn u un dens densn e.
