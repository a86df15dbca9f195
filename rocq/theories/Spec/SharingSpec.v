(** Simulations as values: what the lists of one simulation should be, from the operations on it alone. *)
From Coq Require Import List Arith.
From Verif Require Import Model.Sharing.
Import ListNotations.

Section Spec.
Context {item : Type}.

(** The lists of the user, by variable. *)
Definition env : Type := nat -> list item.
Definition bind_var (e : env) (n : nat) (l : list item) : env := fun m => if Nat.eqb m n then l else e m.
Definition var_op (e : env) (o : op item) : env :=
  match o with Let n l => bind_var e n l | AppendVar n x => bind_var e n (e n ++ [x]) | _ => e end.

(** What has been given, as it was then. *)
Definition given (e : env) (v : arg item) : list item := match v with Literal l => l | Var n => e n | _ => [] end.

(** The list a of simulation k after an operation, if it was [c] before. *)
Definition after_op (e : env) (k : nat) (a : attr) (c : option (list item)) (o : op item) : option (list item) :=
  match o with
  | New j args => if Nat.eqb j k then Some (given e (args a)) else c
  | Assign j b v => if (Nat.eqb j k && attr_eqb b a)%bool then Some (given e v) else c
  | Append j b x =>
      if (Nat.eqb j k && attr_eqb b a)%bool then match c with Some l => Some (l ++ [x]) | None => None end else c
  | Let _ _ | AppendVar _ _ => c
  end.
Fixpoint history (e : env) (l : list (op item)) (k : nat) (a : attr) (c : option (list item)) : option (list item) :=
  match l with
  | [] => c
  | o :: r => history (var_op e o) r k a (after_op e k a c o)
  end.
Definition expected (l : list (op item)) (k : nat) (a : attr) : option (list item) := history (fun _ => []) l k a None.

(** The user never gives the list of one simulation to another, and gives lists of their own only for traps and
    exports. *)
Definition own_arg (a : attr) (v : arg item) : Prop :=
  match v with Of _ _ => False | Var _ => a = ATraps \/ a = AExports | _ => True end.
Definition own (o : op item) : Prop :=
  match o with New _ args => forall a, own_arg a (args a) | Assign _ a v => own_arg a v | _ => True end.

(** The constructor is given a list for a. *)
Definition given_at_construction (a : attr) (o : op item) : Prop :=
  match o with New _ args => args a <> Omitted | _ => True end.

(** The user gives the lists of other simulations only for the same attribute, and lists of their own only for traps
    and exports. *)
Definition tidy_arg (a : attr) (v : arg item) : Prop :=
  match v with Of _ b => b = a | Var _ => a = ATraps \/ a = AExports | _ => True end.
Definition tidy (o : op item) : Prop :=
  match o with New _ args => forall a, tidy_arg a (args a) | Assign _ a v => tidy_arg a v | _ => True end.
End Spec.
Arguments env : clear implicits.
