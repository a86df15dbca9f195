(** Model of festim/stepsize.py. *)
From Coq Require Import ZArith List Bool String.
From Verif Require Import Base.Exc Base.Num.
Import ListNotations.

Section Stepsize.
Context {A : Type} {N : Num A}.

(** The argument [max_stepsize]: None, a number, or a callable (which may raise).
    festim/stepsize.py L18-19, L110-111 *)
Inductive maxspec : Type :=
| MaxNone
| MaxConst (m : A)
| MaxFun (f : A -> res (option A)).

(** The dictionary [adaptive_stepsize]. festim/stepsize.py L59-63 *)
Record adaptive : Type := mkAdaptive {
  change_ratio : A;
  max_stepsize : maxspec;
  dt_min       : option A
}.

(** festim/stepsize.py L41-67: the attributes of a Stepsize. *)
Record stepsize : Type := mkStepsize {
  initial_value     : A;
  value             : A;
  adaptive_stepsize : option adaptive;
  milestones        : option (list A)
}.

(** sorted(): insertion sort, stable; any stable sort gives the same list of numbers. *)
Fixpoint insert_sorted (x : A) (l : list A) : list A :=
  match l with
  | [] => [x]
  | y :: r => if nleb x y then x :: l else y :: insert_sorted x r
  end.

Fixpoint py_sorted (l : list A) : list A :=
  match l with
  | [] => []
  | x :: r => insert_sorted x (py_sorted r)
  end.

(** festim/stepsize.py L73-78: setter of [milestones] (None and [] are stored as they are). *)
Definition set_milestones (v : option (list A)) : option (list A) :=
  match v with
  | Some ((_ :: _) as l) => Some (py_sorted l)
  | other => other
  end.

(** Python truth value of an optional number. *)
Definition truthy (v : option A) : bool :=
  match v with Some x => negb (neqb x n0) | None => false end.

(** festim/stepsize.py L58: lambda t: stepsize_stop_max if t >= t_stop else None
    (comparing with None raises TypeError). *)
Definition stop_lambda (t_stop stepsize_stop_max : option A) (t : A) : res (option A) :=
  match t_stop with
  | None => Err (TypeError "'>=' not supported between instances of 'float' and 'NoneType'")
  | Some ts => Ok (if nleb ts t then stepsize_stop_max else None)
  end.

(** festim/stepsize.py L41-67: __init__. *)
Definition mk_stepsize (initial : A) (ratio t_stop stop_max : option A)
  (max : maxspec) (dtmin : option A) (miles : option (list A)) : stepsize :=
  let adaptive_ :=
    match ratio with
    | None => None
    | Some r =>
        let max' := if truthy t_stop || truthy stop_max
                    then MaxFun (stop_lambda t_stop stop_max) else max in
        Some (mkAdaptive r max' dtmin)
    end in
  mkStepsize initial initial adaptive_ (set_milestones miles).

(** self.value.assign(v) *)
Definition assign (s : stepsize) (v : A) : stepsize :=
  mkStepsize (initial_value s) v (adaptive_stepsize s) (milestones s).

(** festim/stepsize.py L80-83 *)
Definition initialise_value (s : stepsize) : stepsize := assign s (initial_value s).

(** festim/stepsize.py L136-139: the loop of next_milestone. *)
Fixpoint first_after (t : A) (l : list A) : option A :=
  match l with
  | [] => None
  | m :: r => if nltb t m then Some m else first_after t r
  end.

(** festim/stepsize.py L124-139 *)
Definition next_milestone (s : stepsize) (t : A) : option A :=
  match milestones s with
  | None => None
  | Some l => first_after t l
  end.

(** Python float division (raises when the divisor is zero). *)
Definition py_div (a b : A) : res A :=
  if neqb b n0 then Err ZeroDivisionError else Ok (ndiv a b).

(** festim/stepsize.py L98-104: the part of adapt executed when the solver diverged. *)
Definition adapt_diverged (a : adaptive) (v : A) : res A :=
  match dt_min a with
  | None => Err (ValueError "Solver diverged but dt_min is not set.")
  | Some dm =>
      let! v1 := py_div v (change_ratio a) in
      if nltb v1 dm then Err (ValueError "stepsize reached minimal value")
      else Ok v1
  end.

(** festim/stepsize.py L110-114: cap by max_stepsize. *)
Definition cap (m : maxspec) (t v : A) : res A :=
  let! bound := match m with
                | MaxNone => Ok None
                | MaxConst x => Ok (Some x)
                | MaxFun f => f t
                end in
  match bound with
  | None => Ok v
  | Some b => Ok (if nltb b v then b else v)
  end.

(** festim/stepsize.py L93-114: the adaptive part of adapt. *)
Definition adapt_value (a : adaptive) (t : A) (nb_it : Z) (converged : bool) (v : A) : res A :=
  let! v1 := if converged then Ok v else adapt_diverged a v in
  let! v2 := if (nb_it <? 5)%Z then Ok (nmul v1 (change_ratio a))
             else py_div v1 (change_ratio a) in
  cap (max_stepsize a) t v2.

(** festim/stepsize.py L117-122: clamp on the next milestone. *)
Definition clamp_milestone (s : stepsize) (t v : A) : A :=
  match next_milestone s t with
  | None => v
  | Some m => if nltb m (nadd t v) && negb (isclose t m) then nsub m t else v
  end.

(** festim/stepsize.py L85-122.
    Simplification: when an exception is raised the stepsize left behind is not recorded. *)
Definition adapt (s : stepsize) (t : A) (nb_it : Z) (converged : bool) : res stepsize :=
  let! v := match adaptive_stepsize s with
            | Some a => adapt_value a t nb_it converged (value s)
            | None => Ok (value s)
            end in
  Ok (assign s (clamp_milestone s t v)).

End Stepsize.

Arguments maxspec A : clear implicits.
Arguments adaptive A : clear implicits.
Arguments stepsize A : clear implicits.
