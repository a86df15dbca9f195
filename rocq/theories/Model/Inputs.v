(** Arguments given in several forms: the setters T and dt of Simulation (festim/generic_simulation.py), the setter decay_constant
    (festim/sources/radioactive_decay.py), the file names of text exports and the conversions of festim/helpers.py. *)
From Coq Require Import ZArith QArith List String Bool.
From Verif Require Import Base.Exc Base.Num Model.Stepsize Model.SympyAst Model.Paths.
Import ListNotations.
Local Open Scope string_scope.

(** A Python argument.  User objects are numbered.  [POther]: any other object (lists, arrays, functions, ...).
    Simplification: floats are rational numbers (no nan, no infinity). *)
Inductive input : Type :=
| PNone
| PBool (b : bool)
| PInt (z : Z)
| PFloat (x : Q)
| PStr (s : string)
| PExpr (e : expr)                  (* sympy.Expr *)
| PConstant (k : nat)               (* fenics.Constant *)
| PExpression (k : nat)             (* fenics.Expression *)
| PUserExpression (k : nat)         (* fenics.UserExpression *)
| PTemperature (k : nat)            (* festim.Temperature, HeatTransferProblem or TemperatureFromXDMF *)
| PStepsize (s : stepsize Q)        (* festim.Stepsize *)
| POther (k : nat).

(** The number that isinstance(v, (int, float)) sees: bool is a subclass of int. *)
Definition number (v : input) : option Q :=
  match v with
  | PBool b => Some (if b then 1%Q else 0%Q)
  | PInt z => Some (inject_Z z)
  | PFloat x => Some x
  | _ => None
  end.

(** The temperature of a simulation: the object of the user, or Temperature(value). *)
Inductive temperature_attr : Type :=
| OwnTemperature (k : nat)
| NewTemperature (value : input).
(** generic_simulation.py L173-184: the setter of T. *)
Definition set_T (v : input) : res (option temperature_attr) :=
  match v with
  | PTemperature k => Ok (Some (OwnTemperature k))
  | PNone => Ok None
  | PBool _ | PInt _ | PFloat _ | PExpr _ => Ok (Some (NewTemperature v))
  | _ => Err (TypeError "accepted types for T attribute are int, float, sympy.Expr or festim.Temperature")
  end.

(** generic_simulation.py L190-198: the setter of dt; festim.Stepsize(value) has the other arguments at None (stepsize.py L41-50). *)
Definition set_dt (v : input) : res (option (stepsize Q)) :=
  match v with
  | PNone => Ok None
  | PStepsize s => Ok (Some s)
  | _ => match number v with
         | Some x => Ok (Some (mk_stepsize x None None None MaxNone None None))
         | None => Err (TypeError "dt must be an int, float, or festim.Stepsize")
         end
  end.

(** radioactive_decay.py L26-32: the setter of decay_constant. *)
Definition set_decay_constant (v : input) : res Q :=
  match number v with
  | None => Err (TypeError "decay_constant must be a float or an int")
  | Some x => if Qle_bool x 0 then Err (ValueError "decay_constant must be positive") else Ok x
  end.

(** derived_quantities.py L91-98, txt_export.py L69-76: the setters of filename, with the extension. *)
Definition set_filename (ext : string) (v : input) : res (option string) :=
  match v with
  | PNone => Ok None
  | PStr s => if endswith s ext then Ok (Some s) else Err (ValueError ("filename must end with " ++ ext))
  | _ => Err (TypeError "filename must be a string")
  end.

(** A fenics object: of the user, Constant(value) or Expression(code, degree=2, t=0). *)
Inductive coefficient : Type :=
| UserObject (v : input)
| Constant (x : Q)
| Code (code : string).
(** sp.printing.ccode(v): numbers and strings are sympified.
    Simplification: only sympy expressions and ints are modelled; [None]: not modelled. *)
Definition ccode_of (v : input) : option string :=
  match v with
  | PExpr e => Some (ccode e)
  | PInt z => Some (ccode (EInt z))
  | _ => None
  end.
(** helpers.py L20-27 *)
Definition as_expression (v : input) : option coefficient :=
  match v with
  | PExpression _ | PUserExpression _ => Some (UserObject v)
  | _ => option_map Code (ccode_of v)
  end.
(** helpers.py L30-34: the result may be Python's None. *)
Definition as_constant (v : input) : option coefficient :=
  match v with
  | PConstant _ => Some (UserObject v)
  | _ => option_map Constant (number v)
  end.
(** helpers.py L37-44 *)
Definition as_constant_or_expression (v : input) : option coefficient :=
  match v with
  | PConstant _ | PExpression _ | PUserExpression _ => Some (UserObject v)
  | _ => match number v with
         | Some x => Some (Constant x)
         | None => option_map Code (ccode_of v)
         end
  end.
