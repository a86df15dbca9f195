(** C114: the value of an input of the user at a point and a time. *)
From Coq Require Import Reals List String.
From Verif Require Import Model.SympyAst Model.TimedInputs Spec.CcodeSpec Spec.ImposedSpec.
Import ListNotations.
Local Open Scope R_scope.

(** [w t]: the point at the time t; the name t has this value, and nothing else depends on it. *)
Definition clock (w : R -> world) : Prop :=
  forall t, lawful (w t) /\ w_name (w t) "t"%string = t /\
    forall t', w_fun (w t') = w_fun (w t) /\ w_pow (w t') = w_pow (w t) /\
      forall n, n <> "t"%string -> w_name (w t') n = w_name (w t) n.

(** The last of some times; before them it is [t0]. *)
Fixpoint latest (t0 : R) (times : list R) : R := match times with [] => t0 | t :: r => latest t r end.

(** A number or an expression of the user is meant as it is at the time; an object of the user has its own time until
    the first step. *)
Inductive means (w : R -> world) (times : list R) : arg -> R -> Prop :=
| means_number x : means w times (ANumber x) x
| means_expr e : means w times (ASympy e) (value (w (latest 0 times)) e)
| means_own g t : means w times (AOwn g t) (g (latest t times))
| means_function x : means w times (AFunction x) x.
(** The expressions among the inputs. *)
Definition exprs (l : list arg) : list expr := flat_map (fun a => match a with ASympy e => [e] | _ => [] end) l.
Definition accepted (a : arg) : Prop :=
  match a with ANumber _ | ASympy _ | AOwn _ _ | AFunction _ => True | AConstant _ | AOther => False end.
