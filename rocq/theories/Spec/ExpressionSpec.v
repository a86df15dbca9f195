(** When a value is evaluated at the right time. *)
From Coq Require Import List.
From Verif Require Import Model.Expressions.
Import ListNotations.

Section Eval.
Context {A X : Type}.
(** [interp n t]: value of the expression number n at time t; [comb]: how UFL, the laws and the user's
    functions combine values; [const]: a value without time.  All arbitrary. *)
Variables (interp : nat -> A -> X) (comb : list X -> X) (const : X).

Fixpoint eval (ts : stamps A) (v : value) : X :=
  match v with
  | Const => const
  | Expr n => interp n (ts n)
  | Term l => comb (map (eval ts) l)
  | BcExpr _ prms => comb (map (eval ts) prms)
  | BcTheta _ w => comb [eval ts w]
  end.
End Eval.

(** The value is that of time t, whatever the expressions are. *)
Definition at_time {A} (ts : stamps A) (t : A) (v : value) : Prop :=
  forall (X : Type) interp comb (const : X), eval interp comb const ts v = eval interp comb const (fun _ => t) v.

(** The user's values: numbers, functions of space, expressions of time and space. *)
Definition plain (v : value) : Prop := v = Const \/ exists n, v = Expr n.

(** Inputs made of such values (what the constructors accept: floats and sympy expressions become
    Constant and Expression objects). *)
Definition flux_plain (f : flux) : Prop :=
  match f with CustomFlux p | SurfaceKinetics p => forall v, In v p -> plain v | _ => True end.
Definition dirichlet_plain (d : dirichlet) : Prop :=
  match d with CustomDirichlet p => forall v, In v p -> plain v | _ => True end.
Definition bc_plain (b : bc) : Prop :=
  match bc_cond b with Flux f _ => flux_plain f | Dirichlet d _ => dirichlet_plain d end.
Definition source_plain (s : source) : Prop := forall v, src_value s = Some v -> plain v.
Definition trap_plain (t : trap) : Prop :=
  (forall v, In v (tr_density t) -> plain v) /\ Forall source_plain (tr_sources t).
