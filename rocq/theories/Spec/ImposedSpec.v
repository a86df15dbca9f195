(** C113: what a boundary condition means, from the values of the expressions of the user at the point and time. *)
From Coq Require Import Reals ZArith List String.
From Verif Require Import Model.SympyAst Model.Laws Model.Imposed Spec.CcodeSpec Spec.PhysSpec.
Import ListNotations.
Local Open Scope R_scope.

(** The expressions that the user gives. *)
Definition of_given (g : string * given) : list expr := match snd g with GivenNumber _ => [] | GivenExpr e => [e] end.
Definition inputs (c : condition) : list expr :=
  match c with
  | DirichletBC v => [v]
  | CustomDirichlet _ l => flat_map of_given l
  | ImplantationDirichlet phi R_p _ _ _ _ _ _ P => phi :: R_p :: match P with Some P => [P] | None => [] end
  | SievertsBC _ _ p | HenrysBC _ _ p => [p]
  end.
Definition flux_inputs (fl : flux) : list expr :=
  match fl with
  | FluxBC v => [v]
  | CustomFlux _ l => flat_map of_given l
  | RecombinationFlux a b _ | MassFlux a b | ConvectiveFlux a b => [a; b]
  | DissociationFlux a b c => [a; b; c]
  end.

(** The expressions are ones that sympy builds and whose quotients are not of integers, no division by zero is
    evaluated, and the compiled code of each gives what its text means in C. *)
Definition readable (w : world) (code : string -> R) (l : list expr) : Prop :=
  forall e, In e l -> regular false e /\ no_integer_quotient e /\ defined w e /\
    forall c, parses w Cond (ccode e) c -> code (ccode e) = real c.

(** The keyword arguments of a function of the user. *)
Definition at_point (w : world) (g : string * given) : string * option R :=
  (fst g, Some match snd g with GivenNumber x => x | GivenExpr e => value w e end).

(** The concentration (or temperature) that a condition stands for, if its arguments are complete. *)
Inductive stands_for (w : world) (T : R) : condition -> R -> Prop :=
| sf_value v : stands_for w T (DirichletBC v) (value w v)
| sf_custom f l r : f T (map (at_point w) l) = Base.Exc.Ok r -> stands_for w T (CustomDirichlet f l) r
| sf_sieverts S_0 E_S p : stands_for w T (SievertsBC S_0 E_S p) (arrhenius S_0 E_S T * sqrt (value w p))
| sf_henrys H_0 E_H p : stands_for w T (HenrysBC H_0 E_H p) (arrhenius H_0 E_H T * value w p)
| sf_implantation phi R_p D_0 E_D E_Kr Kd_0 E_Kd P :
    stands_for w T (ImplantationDirichlet phi R_p D_0 E_D None E_Kr Kd_0 E_Kd P)
      (value w phi * value w R_p / arrhenius D_0 E_D T)
| sf_recombination phi R_p D_0 E_D Kr_0 E_Kr E_Kd P :
    stands_for w T (ImplantationDirichlet phi R_p D_0 E_D (Some Kr_0) (Some E_Kr) None E_Kd P)
      (value w phi * value w R_p / arrhenius D_0 E_D T + sqrt (value w phi / arrhenius Kr_0 E_Kr T))
| sf_dissociation phi R_p D_0 E_D Kr_0 E_Kr Kd_0 E_Kd P :
    stands_for w T (ImplantationDirichlet phi R_p D_0 E_D (Some Kr_0) (Some E_Kr) (Some Kd_0) (Some E_Kd) (Some P))
      (value w phi * value w R_p / arrhenius D_0 E_D T
       + sqrt ((value w phi + arrhenius Kd_0 E_Kd T * value w P) / arrhenius Kr_0 E_Kr T)).

(** The flux into the domain that a flux condition stands for. *)
Definition flows_in (w : world) (T solute : R) (fl : flux) : R :=
  match fl with
  | FluxBC v => value w v
  | CustomFlux f l => f T solute (map (at_point w) l)
  | RecombinationFlux Kr_0 E_Kr order => - (arrhenius (value w Kr_0) (value w E_Kr) T * power solute order)
  | DissociationFlux Kd_0 E_Kd P => arrhenius (value w Kd_0) (value w E_Kd) T * value w P
  | MassFlux h c_ext => value w h * (value w c_ext - solute)
  | ConvectiveFlux h T_ext => value w h * (value w T_ext - T)
  end.
