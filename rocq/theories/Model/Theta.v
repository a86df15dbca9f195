(** Model of festim/concentration/theta.py, festim/materials/materials.py L274-388 (fields of properties
    and markers of the solubility laws) and BoundaryConditionTheta (dirichlet_bc.py L95-129), evaluated
    at a point.  Numbers are real numbers. *)
From Coq Require Import Reals ZArith List Bool String.
From Verif Require Import Base.Exc Base.Dual Model.Materials Model.Laws.
Import ListNotations.
Local Open Scope R_scope.
Local Open Scope string_scope.

(** A property of a material: a float or a callable of the temperature. *)
Inductive prop : Type :=
| Const (r : R)
| Fun (f : R -> R).

(** Materials with real borders and such properties. *)
Definition mat : Type := @material R prop.

(** A property used as a number (mat.D_0 * ...): None and callables raise TypeError. *)
Definition float_of (p : option prop) : res R :=
  match p with
  | Some (Const r) => Ok r
  | Some (Fun _) => Err (TypeError "unsupported operand type(s): 'function'")
  | None => Err (TypeError "unsupported operand type(s): 'NoneType'")
  end.
(** "if callable(p): p = p(T)", then used as a number. *)
Definition value_at (p : option prop) : res (R -> R) :=
  match p with
  | Some (Const r) => Ok (fun _ => r)
  | Some (Fun f) => Ok f
  | None => Err (TypeError "unsupported operand type(s): 'NoneType'")
  end.

(** "pre * exp(-E / k_B / T)" with its gradient. *)
Definition coefficient (pre E : R) (T : dual) : dual :=
  dmul (dconst pre) (dexp (ddiv (ddiv (dconst (- E)) (dconst k_B)) T)).

(** "dx(mat.id)": UFL accepts an int (or a tuple of ints), a list raises UFLException. *)
Definition dx_id (i : mat_id) : res Z :=
  match i with
  | IdOne z => Ok z
  | IdMany _ => Err (RuntimeError "Invalid subdomain_id.")
  end.

(** theta.py L27-42: the previous solution assigned by initialise, at a point of the material m.
    Simplification: the projection on the function space is the identity. *)
Definition theta_initialise (m : mat) (T comp : R) : res R :=
  let! _ := dx_id (m_id m) in
  let! S_0 := float_of (m_S0 m) in
  let! E_S := float_of (m_ES m) in
  let S := S_0 * exp (- E_S / k_B / T) in
  match m_law m with
  | Sievert => Ok (comp / S)
  | Henry => Ok (sqrt (comp / S))
  end.

(** theta.py L44-67: get_concentration_for_a_given_material, at a point. *)
Definition theta_concentration (m : mat) (T T_n solution previous_solution : dual)
  : res (dual * dual) :=
  let! E_S := float_of (m_ES m) in
  let! S_0 := float_of (m_S0 m) in
  let S := coefficient S_0 E_S T in
  let S_n := coefficient S_0 E_S T_n in
  match m_law m with
  | Sievert => Ok (dmul solution S, dmul previous_solution S_n)
  | Henry => Ok (dmul (dsquare solution) S, dmul (dsquare previous_solution) S_n)
  end.

(** materials.py L348-366: ArheniusCoeff.eval_cell in a cell of marker z; [pre] and [E] read the
    attributes.  Simplification: the interpolation between the nodes of the element (degree 2) is not
    modelled, the value is that of eval_cell at the point. *)
Definition arhenius_coeff (pre E : mat -> option prop) (ms : @materials R prop) (z : Z) (T : R) : res R :=
  let! m := find_material_from_id ms z in
  let! D_0 := float_of (pre m) in
  let! E_D := float_of (E m) in
  Ok (D_0 * exp (- E_D / k_B / T)).

(** materials.py L369-388: ThermalProp.eval_cell. *)
Definition thermal_prop (key : mat -> option prop) (ms : @materials R prop) (z : Z) (T : R) : res R :=
  let! m := find_material_from_id ms z in
  let! f := value_at (key m) in
  Ok (f T).

(** materials.py L308-345: the value of henry_marker / sievert_marker in a cell of marker z.  The
    problem is a projection on piecewise constants: in each cell the value is the number of terms
    "1 * test * dx(mat_id)" whose mat_id is the marker of the cell. *)
Definition law_eqb (a b : law) : bool :=
  match a, b with Sievert, Sievert => true | Henry, Henry => true | _, _ => false end.
Definition law_marker (l : law) (ms : @materials R prop) (z : Z) : R :=
  rsum (flat_map (fun m => if law_eqb (m_law m) l
                           then map (fun i => if Z.eqb i z then 1 else 0) (ids (m_id m))
                           else []) ms).

(** theta.py L69-82: mobile_concentration; [S] is the value of materials.S at the point. *)
Definition theta_mobile_concentration (ms : @materials R prop) (z : Z) (S solution : R) : R :=
  let henry_to_concentration := solution ^ 2 * S in
  let sieverts_to_concentration := solution * S in
  law_marker Henry ms z * henry_to_concentration + law_marker Sievert ms z * sieverts_to_concentration.

(** theta.py L84-122: the exported concentration at a point of a cell of marker z: the sum of the terms
    of form_post_processing that apply there (those with mat.id = z).
    Simplification: the projection on DG1 is the identity. *)
Fixpoint theta_post_processing (ms : @materials R prop) (z : Z) (S solution : R) : res R :=
  match ms with
  | [] => Ok 0
  | m :: r =>
      let! i := dx_id (m_id m) in
      let! rest := theta_post_processing r z S solution in
      Ok ((if Z.eqb i z
           then match m_law m with
                | Sievert => solution * S
                | Henry => solution ^ 2 * S
                end
           else 0) + rest)
  end.

(** dirichlet_bc.py L115-126: BoundaryConditionTheta.eval_cell in a cell of marker z. *)
Definition bc_theta (ms : @materials R prop) (z : Z) (T c : R) : res R :=
  let! m := find_material_from_id ms z in
  let! S_0 := float_of (m_S0 m) in
  let! E_S := float_of (m_ES m) in
  let S := S_0 * exp (- E_S / k_B / T) in
  match m_law m with
  | Sievert => Ok (c / S)
  | Henry => Ok (sqrt (c / S + DOLFIN_EPS))
  end.
