(** The values, at a point, of the inputs of the user that are not boundary conditions: sources, densities and
    parameters of traps, temperatures and initial conditions, and how their time is set (festim/sources/source.py,
    concentration/traps/trap.py, temperature/temperature.py, temperature_solver.py, concentration/concentration.py,
    helpers.py).
    [code t s]: what the compiled code of fenics.Expression(s, t=t, degree=n) gives at the point, which is a node of
    the mesh, where interpolation is exact.  Numbers are real numbers.
    Simplification: a number that is given to sp.printing.ccode is one of sympy. *)
From Coq Require Import Reals List Bool String.
From Verif Require Import Base.Exc Model.SympyAst.
Import ListNotations.
Local Open Scope R_scope.
Local Open Scope string_scope.

(** A fenics object; [Own]: an Expression or UserExpression of the user, with its attribute t. *)
Inductive object : Type :=
| FConstant (x : R)
| FExpression (text : string) (t : R)
| Own (g : R -> R) (t : R)
| FFunction (x : R).
(** What the user gives. *)
Inductive arg : Type :=
| ANumber (x : R)        (* int or float *)
| ASympy (e : expr)      (* sympy.Expr *)
| AConstant (x : R)      (* fenics.Constant *)
| AOwn (g : R -> R) (t : R)  (* fenics.Expression or UserExpression *)
| AFunction (x : R)      (* fenics.Function *)
| AOther.                (* anything else: a str, None, ... *)

Section Code.
Variable code : R -> string -> R.

Definition value_at (o : object) : R :=
  match o with
  | FConstant x => x
  | FExpression s t => code t s
  | Own g t => g t
  | FFunction x => x
  end.
(** isinstance(o, (Expression, UserExpression)) *)
Definition is_expression (o : object) : bool :=
  match o with FExpression _ _ | Own _ _ => true | _ => false end.
(** expression.t = t; the value of a Constant or a Function does not depend on this attribute. *)
Definition set_t (t : R) (o : object) : object :=
  match o with
  | FExpression s _ => FExpression s t
  | Own g _ => Own g t
  | _ => o
  end.
(** helpers.py L7-17 *)
Fixpoint update_expressions (l : list object) (t : R) : list object :=
  match l with
  | [] => []
  | o :: r => set_t t o :: update_expressions r t
  end.

(** source.py L24-33: the attribute value; [None]: it is not set. *)
Definition source_value (a : arg) : option object :=
  match a with
  | ANumber x => Some (FConstant x)
  | ASympy e => Some (FExpression (ccode e) 0)
  | AOwn g t => Some (Own g t)
  | AFunction x => Some (FFunction x)
  | AConstant _ | AOther => None
  end.
Definition attribute (o : option object) : res object :=
  match o with Some o => Ok o | None => Err (AttributeError "'Source' object has no attribute 'value'") end.

(** mobile.py L188-202, trap.py L205-211, temperature_solver.py L206-207: the values in the forms and whether
    they are in sub_expressions; [heat]: the heat problem, which adds all. *)
Fixpoint create_source_form (heat : bool) (l : list arg) : res (list (object * bool)) :=
  match l with
  | [] => Ok []
  | a :: r =>
      let! o := attribute (source_value a) in
      let! rest := create_source_form heat r in
      Ok ((o, (heat || is_expression o)%bool) :: rest)
  end.
(** h_transport_problem.py L333-334, temperature_solver.py L262-263: the values of the terms after a call of update. *)
Fixpoint update (t : R) (l : list (object * bool)) : list (object * bool) :=
  match l with
  | [] => []
  | (o, true) :: r => (set_t t o, true) :: update t r
  | (o, false) :: r => (o, false) :: update t r
  end.
Definition run (times : list R) (l : list (object * bool)) : list (object * bool) :=
  fold_left (fun l t => update t l) times l.
Definition seen (l : list (object * bool)) : list R := map (fun p => value_at (fst p)) l.

(** trap.py L87-106: the entries of density, each of them in sub_expressions (L172-173, L197); a number is one of
    sympy here.  Simplification: what is neither (a str, which sympy may read) is refused. *)
Fixpoint make_density (l : list (option arg)) : res (list object) :=
  match l with
  | [] => Ok []
  | None :: r => make_density r
  | Some (AOwn g t) :: r => let! l := make_density r in Ok (Own g t :: l)
  | Some (ASympy e) :: r => let! l := make_density r in Ok (FExpression (ccode e) 0 :: l)
  | Some _ :: _ => Err (TypeError "SympifyError")
  end.
Definition run_density (times : list R) (l : list object) : list object :=
  fold_left (fun l t => update_expressions l t) times l.

(** extrinsic_trap.py L53-54 with helpers.py L37-44; [None]: not modelled (sympy is called). *)
Definition parameter (a : arg) : option object :=
  match a with
  | ANumber x => Some (FConstant x)
  | ASympy e => Some (FExpression (ccode e) 0)
  | AConstant x => Some (FConstant x)
  | AOwn g t => Some (Own g t)
  | AFunction _ | AOther => None
  end.
(** traps.py L83-88: nothing is put in expressions_extrinsic. *)
Definition parameter_form (o : object) : list (object * bool) := [(o, false)].

(** temperature.py L33-43: create_functions. *)
Record temperature : Type := mkTemperature { T_expression : object; T_now : R; T_previous : R }.
Definition create_functions (value : expr) : temperature :=
  let expression := FExpression (ccode value) 0 in
  let T := value_at expression in
  mkTemperature expression T T.
(** temperature.py L45-53: update. *)
Definition update_T (s : temperature) (t : R) : temperature :=
  let previous := T_now s in
  let expression := set_t t (T_expression s) in
  mkTemperature expression (value_at expression) previous.
Definition run_T (times : list R) (s : temperature) : temperature := fold_left update_T times s.

(** concentration.py L26-41 and L48-51: previous_solution after initialise, of a value that is not a file. *)
Definition initialise (value : expr) : R := value_at (FExpression (ccode value) 0).

(** temperature_solver.py L87-92: the setter of initial_condition; [inr]: an InitialCondition of the user. *)
Record initial_condition : Type := mkIni { i_field : string; i_value : expr }.
Definition set_initial_condition (v : expr + option initial_condition) : option initial_condition :=
  match v with inl e => Some (mkIni "T" e) | inr i => i end.
(** temperature_solver.py L111-127: T_n of a transient problem, of a value that is not a file. *)
Definition heat_start (i : option initial_condition) : res R :=
  match i with
  | None => Err (AttributeError "Initial condition is required for transient heat transfer simulations")
  | Some i => Ok (value_at (FExpression (ccode (i_value i)) 0))
  end.
End Code.
