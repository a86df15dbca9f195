(** A temperature of the inputs and the same temperature in the time loop; previous concentration. *)
From Coq Require Import Reals ZArith QArith List Bool String.
From Verif Require Import Base.Exc Base.Num Base.Dual Model.SympyAst Model.TimeLoop Model.Simulation Model.Materials Model.Theta Spec.PhysSpec Spec.SympySpec.
Import ListNotations.

Section Start.
Context {P V : Type}.
(** [m]: meaning of the operations of an expression, [env p]: values of the other symbols at the point p,
    [time]: the time as a number of the expression. *)
Variable m : meaning R.
Variable env : P -> string -> R.
Variable time : Q -> R.
Inductive same_temperature : temp_spec (V:=V) -> temperature (A:=Q) (P -> R) -> Prop :=
| same_expr e : same_temperature (TGiven (SympyAst.is_steady_state e))
                                 (TempExpr (fun t p => SympySpec.value_at m (env p) (time t) e))
| same_heat transient ini solve : same_temperature (THeat transient ini) (TempHeat transient solve)
| same_xdmf : same_temperature TXdmf TempXDMF.
End Start.

(** The concentration c of hydrogen in the material m with chemical potential theta at temperature T. *)
Definition concentration_of (m : mat) (T theta c : R) : Prop :=
  exists S_0 E_S, m_S0 m = Some (Const S_0) /\ m_ES m = Some (Const E_S) /\ (0 < S_0)%R /\
  let S := arrhenius S_0 E_S T in
  c = match m_law m with Sievert => (theta * S)%R | Henry => (theta * theta * S)%R end.
(** The temperature is not that of a transient HeatTransferProblem. *)
Definition no_transient_heat {X} (temp : temperature (A:=Q) X) : Prop :=
  forall solve, temp <> TempHeat true solve.
