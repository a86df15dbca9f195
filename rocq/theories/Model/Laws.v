(** Model of the constitutive laws, evaluated at a point: festim/__init__.py (constants),
    festim/helpers.py:kJmol_to_eV, boundary_conditions/dirichlets/*.py (values of the Dirichlet
    conditions), boundary_conditions/fluxes/*.py (fluxes), sources/source_implantation_flux.py and
    sources/radioactive_decay.py.

    Numbers are real numbers: floating point rounding, overflow and nan are not modelled (trusted base).
    A user expression is represented by its value at the point and at the time of evaluation. *)
From Coq Require Import Reals String.
From Verif Require Import Base.Exc.
Local Open Scope R_scope.
Local Open Scope string_scope.

(** festim/__init__.py L19-20. *)
Definition R_gas : R := 8314462618 / 1000000000.
Definition k_B : R := 86173303 / 1000000000000.

(** helpers.py L47-58: kJmol_to_eV. *)
Definition kJmol_to_eV (energy : R) : R := k_B * energy * 1000 / R_gas.

(** fenics DOLFIN_EPS. *)
Definition DOLFIN_EPS : R := 3 / 10000000000000000.

(** An exponent: floats with an integral value give an integer power; other exponents are real powers
    (meant for a positive base, nan is not modelled). *)
Inductive exponent : Type :=
| EInt (n : nat)
| EReal (y : R).
Definition power (x : R) (e : exponent) : R :=
  match e with
  | EInt n => x ^ n
  | EReal y => if Req_EM_T x 0 then 0 else Rpower x y
  end.

(** sieverts_bc.py L6-8.  "pressure**0.5" is the square root. *)
Definition sieverts_law (T S_0 E_S pressure : R) : R :=
  let S := S_0 * exp (- E_S / k_B / T) in
  S * sqrt pressure.

(** henrys_bc.py L6-8. *)
Definition henrys_law (T H_0 E_H pressure : R) : R :=
  let H := H_0 * exp (- E_H / k_B / T) in
  H * pressure.

(** An optional argument used as a number: None raises TypeError. *)
Definition number (o : option R) : res R :=
  match o with
  | Some x => Ok x
  | None => Err (TypeError "unsupported operand type(s): 'NoneType'")
  end.

(** dc_imp.py L6-17. *)
Definition dc_imp (T phi R_p D_0 E_D : R) (Kr_0 E_Kr Kd_0 E_Kd P : option R) : res R :=
  let D := D_0 * exp (- E_D / k_B / T) in
  let value := phi * R_p / D in
  match Kr_0 with
  | None => Ok value
  | Some Kr_0 =>
      let! E_Kr := number E_Kr in
      let Kr := Kr_0 * exp (- E_Kr / k_B / T) in
      match Kd_0 with
      | Some Kd_0 =>
          let! E_Kd := number E_Kd in
          let Kd := Kd_0 * exp (- E_Kd / k_B / T) in
          let! P := number P in
          Ok (value + sqrt ((phi + Kd * P) / Kr))
      | None => Ok (value + sqrt (phi / Kr))
      end
  end.

(** recombination_flux.py L26-32. *)
Definition recombination_form (Kr_0 E_Kr : R) (order : exponent) (T solute : R) : R :=
  let Kr := Kr_0 * exp (- E_Kr / k_B / T) in
  - Kr * power solute order.

(** dissociation_flux.py L26-33. *)
Definition dissociation_form (Kd_0 E_Kd P T : R) : R :=
  let Kd := Kd_0 * exp (- E_Kd / k_B / T) in
  Kd * P.

(** convective_flux.py L22-27. *)
Definition convective_form (h_coeff T_ext T : R) : R := - h_coeff * (T - T_ext).

(** mass_flux.py L25-30. *)
Definition mass_form (h_coeff c_ext solute : R) : R := - h_coeff * (solute - c_ext).

(** source_implantation_flux.py L32-42; [x] is the first coordinate. *)
Definition implantation_value (flux imp_depth width x : R) : R :=
  let distribution := 1 / (width * sqrt (2 * PI)) * exp (- (1 / 2) * ((x - imp_depth) / width) ^ 2) in
  flux * distribution.

(** radioactive_decay.py L26-32: the setter of decay_constant (isinstance check: a number here). *)
Definition set_decay_constant (value : R) : res R :=
  if Rle_dec value 0 then Err (ValueError "decay_constant must be positive") else Ok value.

(** radioactive_decay.py L34-35: form. *)
Definition decay_form (decay_constant concentration : R) : R := - decay_constant * concentration.
