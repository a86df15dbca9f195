(** The stepsize of the next solve, as the documentation of Stepsize has it: the least of a few candidates. *)
From Coq Require Import ZArith QArith List String.
From Verif Require Import Base.Exc Model.Stepsize Spec.TimeSpec.
Local Open Scope string_scope.
Local Open Scope Q_scope.

(** Given and not 0: what counts as given for the deprecated arguments t_stop and stepsize_stop_max. *)
Definition nonzero (o : option Q) : Prop := exists x, o = Some x /\ ~ x == 0.

(** The bound in force at time [t]: from [t_stop] on [stop_max], if one of the two is given (and not 0), else
    [max_stepsize]. *)
Definition limit (t_stop stop_max : option Q) (mx : maxspec Q) (t b : Q) : Prop :=
  ((nonzero t_stop \/ nonzero stop_max) /\ exists ts, t_stop = Some ts /\ ts <= t /\ stop_max = Some b) \/
  (~ nonzero t_stop /\ ~ nonzero stop_max /\ bound_at mx t b).

(** The old stepsize after the change for the number of iterations, after a division for a failure. *)
Definition scaled (ratio : option Q) (converged : bool) (nb : Z) (v w : Q) : Prop :=
  match ratio with
  | None => w == v
  | Some r =>
      let v' := if converged then v else v / r in
      (nb < 5)%Z /\ w == v' * r \/ (5 <= nb)%Z /\ w == v' / r
  end.

(** [m] is the first milestone after [t]. *)
Definition upcoming (miles : option (list Q)) (t m : Q) : Prop :=
  exists l, miles = Some l /\ In m l /\ t < m /\ forall m', In m' l -> t < m' -> m <= m'.

(** The candidates after a solve at time [t] with stepsize [v]; [final]: final_time. *)
Inductive candidate (ratio t_stop stop_max : option Q) (mx : maxspec Q) (miles : option (list Q)) (final t v : Q)
  (nb : Z) (converged : bool) : Q -> Prop :=
| ByChange w : scaled ratio converged nb v w -> candidate ratio t_stop stop_max mx miles final t v nb converged w
| ByLimit b : ratio <> None -> limit t_stop stop_max mx t b -> candidate ratio t_stop stop_max mx miles final t v nb converged b
| ByMilestone m : upcoming miles t m -> ~ close t m -> candidate ratio t_stop stop_max mx miles final t v nb converged (m - t)
| ByFinal : converged = true -> candidate ratio t_stop stop_max mx miles final t v nb converged (final - t).

Definition least (S : Q -> Prop) (y : Q) : Prop := (exists x, S x /\ x == y) /\ forall x, S x -> y <= x.

(** The exceptions after a solve at time [t] with stepsize [v]. *)
Inductive raises (ratio t_stop stop_max : option Q) (mx : maxspec Q) (dtmin : option Q) (t v : Q) (nb : Z) (converged : bool) :
  exc -> Prop :=
| NoMinimum r : ratio = Some r -> converged = false -> dtmin = None ->
    raises ratio t_stop stop_max mx dtmin t v nb converged (ValueError "Solver diverged but dt_min is not set.")
| BelowMinimum r dm : ratio = Some r -> converged = false -> dtmin = Some dm -> ~ r == 0 -> v / r < dm ->
    raises ratio t_stop stop_max mx dtmin t v nb converged (ValueError "stepsize reached minimal value")
| ByZero r : ratio = Some r -> r == 0 -> (converged = false /\ dtmin <> None \/ converged = true /\ (5 <= nb)%Z) ->
    raises ratio t_stop stop_max mx dtmin t v nb converged ZeroDivisionError
| InLimit r e : ratio = Some r -> (~ r == 0 \/ (nb < 5)%Z) ->
    (converged = false -> exists dm, dtmin = Some dm /\ ~ r == 0 /\ dm <= v / r) ->
    (t_stop = None /\ nonzero stop_max /\ e = TypeError "'>=' not supported between instances of 'float' and 'NoneType'" \/
     ~ nonzero t_stop /\ ~ nonzero stop_max /\ exists f, mx = MaxFun f /\ f t = Err e) ->
    raises ratio t_stop stop_max mx dtmin t v nb converged e.
