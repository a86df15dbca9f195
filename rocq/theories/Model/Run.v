(** Model of Simulation.run (festim/generic_simulation.py L447-469): the simulation that initialise left is
    handed to the transient driver (Model/TimeLoop.v) or to the steady one (Model/Steady.v). *)
From Coq Require Import ZArith List Bool String.
From Verif Require Import Base.Exc Base.Num Base.Key Model.Exports Model.Steady Model.Materials Model.Simulation
  Model.Stepsize Model.TimeLoop.
Import ListNotations.
Local Open Scope string_scope.

Section Run.
Context {A : Type} {N : Num A} {P S V F W C U X D : Type}.
Local Notation sim := (@sim A P S V F W C).
(** What the finite element library computes: [field_at], the interpolation of a given temperature at a
    time; [heat_solve], [dens_solve], the solvers of the heat problem and of the extrinsic traps
    (Model/TimeLoop.v); [is_function], [project], [ltf]: Model/Exports.v. *)
Variable field_at : A -> X.
Variable heat_solve : X -> X -> A -> A -> X.
Variable dens_solve : D -> D -> A -> X -> D.
Variable is_function : F -> bool.
Variable project : F -> F.
Variable ltf : U -> X -> dict F.

(** The temperature object of the simulation as the time loop uses it: temperature.py L45-53,
    temperature_solver.py L255-275, temperature_from_xdmf.py L44-48. *)
Definition temperature_of (T : temp_spec (V:=V)) : temperature (A:=A) X :=
  match T with
  | TGiven _ => TempExpr field_at
  | TXdmf => TempXDMF
  | THeat transient _ => TempHeat transient heat_solve
  end.

(** How run() ends. *)
Inductive ended : Type :=
| EndTransient (st : state (A:=A) U X D (export_state (A:=A) F W C)) (evs : list (event (A:=A) U X D)) (stt : status)
| EndSteady (o : Steady.outcome (A:=A) (F:=F) (V:=W) (C:=C)).

(** The fields when run() is called (set by initialise). *)
Record fields : Type := mkFields { f_T : X; f_Tn : X; f_u : U; f_un : U; f_d : D; f_dn : D }.

(** generic_simulation.py L447-469: run, with L470-483 (run_transient: final_time is given to the exports,
    then the loop, from the time 0 that initialise has set, L326) or L485-502 (run_steady).  [sched]: the
    outcomes of the Newton solver in a transient run; [u], [converged]: its outcome in a steady one.
    Simplifications: the timer, the printed messages, the tone and the Jacobian computed beforehand are left
    out; without a stepsize the AttributeError is raised even if there is no time step to make. *)
Definition run (s : sim) (f : fields) (sched : list (list (attempt U))) (u : U) (converged : bool) : res ended :=
  if sm_transient s then
    match sm_final s, sm_dt s, sm_T s with
    | None, _, _ => Err (TypeError "'<' not supported between instances of 'float' and 'NoneType'")
    | Some _, None, _ => Err (AttributeError "'NoneType' object has no attribute 'value'")
    | Some _, _, None => Err (AttributeError "'NoneType' object has no attribute 'update'")
    | Some ft, Some dt, Some T =>
        match run_transient (temperature_of T) dens_solve (post_processing is_function project ltf) ft
                (mkState n0 dt (f_T f) (f_Tn f) (f_u f) (f_un f) (f_d f) (f_dn f) n0 (set_final (sm_exports s) ft, [])) sched with
        | (st, evs, stt) => Ok (EndTransient st evs stt)
        end
    end
  else Ok (EndSteady (run_steady is_function project ltf u converged (f_T f) (sm_exports s, []))).

(** initialise() and then run(); [init] is Simulation.initialise with its parameters (Model/Simulation.v). *)
Definition simulate {PB : Type} (init : sim -> res (sim * PB)) (s : sim) (f : fields) (sched : list (list (attempt U))) (u : U)
  (converged : bool) : res ended :=
  let! (s1, _) := init s in run s1 f sched u converged.
End Run.
