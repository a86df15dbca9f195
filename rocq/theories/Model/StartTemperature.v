(** Model of the temperature and the solubility that a simulation starts with: create_functions of the three
    temperatures and the solubility of the chemical potential (festim/generic_simulation.py L361-384). *)
From Coq Require Import Reals ZArith List Bool.
From Verif Require Import Base.Exc Base.Num Model.Materials Model.Theta Model.TimeLoop.
Import ListNotations.

Section Start.
Context {A X : Type} {N : Num A}.

(** T and T_n after create_functions: temperature.py L33-43 (Temperature), temperature_solver.py L95-148
    (HeatTransferProblem: [zero] is a new fenics.Function, [ini] the interpolated initial condition,
    [stationary] the solution of the stationary problem), temperature_from_xdmf.py L33-42 ([file]). *)
Definition created (temp : temperature (A:=A) X) (zero ini stationary file : X) : X * X :=
  match temp with
  | TempExpr f => (f n0, f n0)
  | TempHeat true _ => (zero, ini)
  | TempHeat false _ => (stationary, stationary)
  | TempXDMF => (file, file)
  end.
End Start.

(** materials.S with the chemical potential, in a cell of marker z at the point p: generic_simulation.py L379-384.
    [frozen]: is_steady_state() was true, and solubility_as_function (materials.py L292-306) has replaced the
    ArheniusCoeff of create_properties (materials.py L274-290) by a function computed with the temperature T0 of
    the start; [T] is the temperature when S is used.
    Simplification: the projection on DG1 is the identity. *)
Definition used_solubility {P} (frozen : bool) (T0 T : P -> R) (ms : @materials R prop) (z : Z) (p : P) : res R :=
  arhenius_coeff (@m_S0 R prop) (@m_ES R prop) ms z ((if frozen then T0 else T) p).

(** theta.py L34-37: comp / (S_0 * exp(-E_S / k_B / T)) of a Sievert material, for any numbers (theta_initialise
    of Model/Theta.v is over real numbers); [opp]: unary minus. *)
Definition theta_sievert {A} {N : Num A} (opp exp : A -> A) (k S_0 E_S T comp : A) : A :=
  ndiv comp (nmul S_0 (exp (ndiv (ndiv (opp E_S) k) T))).
