(** Model of Simulation.run_steady: one solve, one call of run_post_processing, then the error of a solve
    that did not converge. *)
From Coq Require Import List Bool String.
From Verif Require Import Base.Exc Base.Num Model.Exports.
Import ListNotations.
Local Open Scope string_scope.

Section Steady.
Context {A : Type} {N : Num A} {F V C U X : Type}.
Variable is_function : F -> bool.
Variable project : F -> F.
Variable label_to_function : U -> X -> dict F.

(** How run_steady ends.  [Diverged]: the ValueError raised at generic_simulation.py L499-502, with what
    was written before; [Raised]: an exception of run_post_processing (what earlier exports of the list
    wrote is not recorded). *)
Inductive outcome : Type :=
| Completed (e : export_state (A:=A) F V C)
| Diverged (x : exc) (e : export_state (A:=A) F V C)
| Raised (x : exc).

(** generic_simulation.py L485-502: run_steady, given the solution [u] and the flag [converged] returned by
    the Newton solver (h_transport_problem.py L351-369; error_on_nonconvergence is False) and the
    temperature [T].  self.t is 0 (generic_simulation.py L326) and exports.final_time has not been set by
    this run.  Simplification: the text of the message. *)
Definition run_steady (u : U) (converged : bool) (T : X) (e : export_state (A:=A) F V C) : outcome :=
  match post_processing is_function project label_to_function n0 u T e with
  | Err x => Raised x
  | Ok e' => if converged then Completed e' else Diverged (ValueError "The solver diverged in") e'
  end.

(** The part of initialise() concerned with the exports followed by run() of a steady simulation. *)
Definition steady (u : U) (converged : bool) (T : X) (ex : exports (A:=A) F V C) : outcome :=
  run_steady u converged T (initialise_exports ex, []).
End Steady.
