(** The values of boundary conditions at a point and a time: the conversion of the parameters of the user, the
    expressions that are built from them and their evaluation (festim/boundary_conditions).
    [code s]: what fenics.Expression(s, t=0, degree=n) gives at the point, with its attribute t.  A Dirichlet
    condition is evaluated at nodes of the mesh, where the interpolation of any degree is exact.
    Numbers are real numbers.  Simplification: a number that is given to sp.printing.ccode is one of sympy. *)
From Coq Require Import Reals ZArith List Bool String.
From Verif Require Import Base.Exc Base.Key Model.SympyAst Model.Materials Model.Laws Model.Theta.
Import ListNotations.
Local Open Scope R_scope.
Local Open Scope string_scope.

(** A keyword argument of the user of CustomDirichlet, CustomFlux or SurfaceKinetics. *)
Inductive given : Type :=
| GivenNumber (x : R)          (* int or float *)
| GivenExpr (e : expr).        (* sympy.Expr *)

(** A parameter that is kept for the evaluation. *)
Inductive prm : Type :=
| Number (x : R)
| NoneValue
| Constant (x : R)             (* fenics.Constant *)
| Expression (code : string).  (* fenics.Expression *)

(** custom_dc.py L44-50, flux_custom.py L36-42, surface_kinetics.py L172-178: convert_prms. *)
Fixpoint convert_prms (prms : list (string * given)) : list (string * prm) :=
  match prms with
  | [] => []
  | (key, value) :: r =>
      (key, match value with
            | GivenNumber x => Constant x
            | GivenExpr e => Expression (ccode e)
            end) :: convert_prms r
  end.

(** A function that is called with the temperature and keyword arguments; [None] is Python's None. *)
Definition function : Type := R -> list (string * option R) -> res R.
(** A keyword argument of a function without defaults. *)
Fixpoint argument (prms : list (string * option R)) (key : string) : res (option R) :=
  match prms with
  | [] => Err (TypeError "missing required argument")
  | (k, v) :: r => if String.eqb k key then Ok v else argument r key
  end.
Definition numeric (prms : list (string * option R)) (key : string) : res R :=
  let! v := argument prms key in number v.

(** sieverts_bc.py L6-8, henrys_bc.py L6-8, dc_imp.py L6-17, called with keyword arguments. *)
Definition call_sieverts_law : function := fun T prms =>
  let! S_0 := numeric prms "S_0" in
  let! E_S := numeric prms "E_S" in
  let! pressure := numeric prms "pressure" in
  Ok (sieverts_law T S_0 E_S pressure).
Definition call_henrys_law : function := fun T prms =>
  let! H_0 := numeric prms "H_0" in
  let! E_H := numeric prms "E_H" in
  let! pressure := numeric prms "pressure" in
  Ok (henrys_law T H_0 E_H pressure).
Definition call_dc_imp : function := fun T prms =>
  let! phi := numeric prms "phi" in
  let! R_p := numeric prms "R_p" in
  let! D_0 := numeric prms "D_0" in
  let! E_D := numeric prms "E_D" in
  let! Kr_0 := argument prms "Kr_0" in
  let! E_Kr := argument prms "E_Kr" in
  let! Kd_0 := argument prms "Kd_0" in
  let! E_Kd := argument prms "E_Kd" in
  let! P := argument prms "P" in
  dc_imp T phi R_p D_0 E_D Kr_0 E_Kr Kd_0 E_Kd P.

(** What a Dirichlet condition evaluates: an Expression, a BoundaryConditionExpression or, around these, a
    BoundaryConditionTheta. *)
Inductive imposed : Type :=
| Plain (code : string)
| BcExpression (f : function) (prms : list (string * prm))
| BcTheta (bci : imposed).

(** The classes with their arguments. *)
Inductive condition : Type :=
| DirichletBC (value : expr)
| CustomDirichlet (f : function) (prms : list (string * given))
| ImplantationDirichlet (phi R_p : expr) (D_0 E_D : R) (Kr_0 E_Kr Kd_0 E_Kd : option R) (P : option expr)
| SievertsBC (S_0 E_S : R) (pressure : expr)
| HenrysBC (H_0 E_H : R) (pressure : expr).

Definition optional (v : option R) : prm := match v with Some x => Number x | None => NoneValue end.
(** create_expression: dirichlet_bc.py L25-35, custom_dc.py L33-40, dc_imp.py L71-95, sieverts_bc.py L28-37,
    henrys_bc.py L28-37; the parameters of CustomDirichlet are converted by the constructor, custom_dc.py L27-31. *)
Definition create_expression (c : condition) : imposed :=
  match c with
  | DirichletBC value => Plain (ccode value)
  | CustomDirichlet f prms => BcExpression f (convert_prms prms)
  | ImplantationDirichlet phi R_p D_0 E_D Kr_0 E_Kr Kd_0 E_Kd P =>
      BcExpression call_dc_imp
        [("phi", Expression (ccode phi)); ("R_p", Expression (ccode R_p)); ("D_0", Number D_0); ("E_D", Number E_D);
         ("Kr_0", optional Kr_0); ("E_Kr", optional E_Kr); ("Kd_0", optional Kd_0); ("E_Kd", optional E_Kd);
         ("P", match P with Some P => Expression (ccode P) | None => NoneValue end)]
  | SievertsBC S_0 E_S pressure =>
      BcExpression call_sieverts_law [("S_0", Number S_0); ("E_S", Number E_S); ("pressure", Expression (ccode pressure))]
  | HenrysBC H_0 E_H pressure =>
      BcExpression call_henrys_law [("H_0", Number H_0); ("E_H", Number E_H); ("pressure", Expression (ccode pressure))]
  end.

(** dirichlet_bc.py L79-84 with L35-52: the expression after create_dirichletbc; the sub_expressions of a
    CustomDirichlet are not a list (custom_dc.py L40). *)
Definition finished (chemical_pot : bool) (field : key) (c : condition) : res imposed :=
  let e := create_expression c in
  if (existsb (key_eqb field) [KI 0; KS "0"; KS "solute"] && chemical_pot)%bool
  then match c with
       | CustomDirichlet _ _ => Err (AttributeError "'dict_values' object has no attribute 'append'")
       | _ => Ok (BcTheta e)
       end
  else Ok e.

(** dirichlet_bc.py L146-157: the parameters in eval; a fenics object is callable. *)
Definition local_value (code : string -> R) (p : prm) : option R :=
  match p with
  | Number x => Some x
  | NoneValue => None
  | Constant x => Some x
  | Expression s => Some (code s)
  end.
Fixpoint new_prms (code : string -> R) (prms : list (string * prm)) : list (string * option R) :=
  match prms with
  | [] => []
  | (key, p) :: r => (key, local_value code p) :: new_prms code r
  end.
(** dirichlet_bc.py L115-126 (eval_cell of BoundaryConditionTheta, in a cell of marker z) and L146-160 (eval of
    BoundaryConditionExpression); [T]: the temperature at the point. *)
Fixpoint evaluate (ms : @materials R prop) (z : Z) (code : string -> R) (T : R) (e : imposed) : res R :=
  match e with
  | Plain s => Ok (code s)
  | BcExpression f prms => f T (new_prms code prms)
  | BcTheta bci => let! c := evaluate ms z code T bci in bc_theta ms z T c
  end.

(** ** Fluxes *)
Inductive flux : Type :=
| FluxBC (value : expr)
| CustomFlux (f : R -> R -> list (string * option R) -> R) (prms : list (string * given))
| RecombinationFlux (Kr_0 E_Kr : expr) (order : exponent)
| DissociationFlux (Kd_0 E_Kd P : expr)
| MassFlux (h_coeff c_ext : expr)
| ConvectiveFlux (h_coeff T_ext : expr).
(** create_form, at the point: flux_bc.py L23-32, flux_custom.py L32-34, recombination_flux.py L26-32,
    dissociation_flux.py L26-33, mass_flux.py L25-30, convective_flux.py L22-27.
    Simplification: the interpolation of the expressions (degree 1 or 2) between the nodes is left out. *)
Definition create_form (code : string -> R) (T solute : R) (fl : flux) : R :=
  match fl with
  | FluxBC value => code (ccode value)
  | CustomFlux f prms => f T solute (new_prms code (convert_prms prms))
  | RecombinationFlux Kr_0 E_Kr order => recombination_form (code (ccode Kr_0)) (code (ccode E_Kr)) order T solute
  | DissociationFlux Kd_0 E_Kd P => dissociation_form (code (ccode Kd_0)) (code (ccode E_Kd)) (code (ccode P)) T
  | MassFlux h_coeff c_ext => mass_form (code (ccode h_coeff)) (code (ccode c_ext)) solute
  | ConvectiveFlux h_coeff T_ext => convective_form (code (ccode h_coeff)) (code (ccode T_ext)) T
  end.
