(** Vocabulary for statements about a transient run, in terms of what can be observed: the calls
    of the Newton solver and the times at which results are post-processed.  Nothing here refers to
    how the stepsize is computed. *)
From Coq Require Import List ZArith QArith.
From Verif Require Import Base.Num Model.Stepsize Model.TimeLoop.
Import ListNotations.

Section Spec.
Context {A U X D : Type}.

(** The Newton solves of a trace, in order. *)
Fixpoint solves (evs : list (event (A:=A) U X D)) : list (solve_call (A:=A) U X D) :=
  match evs with
  | [] => []
  | EvSolve c :: r => c :: solves r
  | _ :: r => solves r
  end.

(** The times at which a finished step was post-processed, in order: the times visited. *)
Fixpoint visited (evs : list (event (A:=A) U X D)) : list A :=
  match evs with
  | [] => []
  | EvPost t _ _ :: r => t :: visited r
  | _ :: r => visited r
  end.

(** What was post-processed, in order: time, concentrations, temperature. *)
Fixpoint posts (evs : list (event (A:=A) U X D)) : list (A * U * X) :=
  match evs with
  | [] => []
  | EvPost t u T :: r => (t, u, T) :: posts r
  | _ :: r => posts r
  end.

(** Neighbours in a list are related. *)
Fixpoint chain {B} (R : B -> B -> Prop) (l : list B) : Prop :=
  match l with
  | a :: ((b :: _) as r) => R a b /\ chain R r
  | _ => True
  end.

(** The solve was accepted. *)
Definition accepted (c : solve_call (A:=A) U X D) : Prop := at_conv (sv_out c) = true.

(** The stepsizes with which the accepted steps of a trace were integrated. *)
Definition accepted_dts (evs : list (event (A:=A) U X D)) : list A :=
  map sv_dt (filter (fun c => at_conv (sv_out c)) (solves evs)).

(** The stepsizes with which the extrinsic trap densities were integrated. *)
Fixpoint density_dts (evs : list (event (A:=A) U X D)) : list A :=
  match evs with
  | [] => []
  | EvDensity _ dt _ _ :: r => dt :: density_dts r
  | _ :: r => density_dts r
  end.

End Spec.

(** [max_stepsize] as the user sees it: the bound in force at time t, if any. *)
Definition bound_at (m : maxspec Q) (t b : Q) : Prop :=
  match m with
  | MaxNone => False
  | MaxConst x => x = b
  | MaxFun f => f t = Exc.Ok (Some b)
  end.

(** Two numbers are close in the sense of the documentation of numpy.isclose (rtol=1e-5, atol=0),
    the second being the reference. *)
Definition close (a b : Q) : Prop := (Qabs.Qabs (a - b) <= (1 # 100000) * Qabs.Qabs b)%Q.

(** The sum of a list of numbers. *)
Definition Qsum (l : list Q) : Q := fold_right Qplus 0%Q l.

(** Positive settings: positive change ratio and every bound given by max_stepsize is positive. *)
Definition positive_settings (s : stepsize Q) : Prop :=
  match adaptive_stepsize s with
  | None => True
  | Some a => (0 < change_ratio a)%Q /\ forall t b, bound_at (max_stepsize a) t b -> (0 < b)%Q
  end.

(** max_stepsize, if it is a function, does not raise. *)
Definition total_max (m : maxspec Q) : Prop :=
  forall f t e, m = MaxFun f -> f t <> Exc.Err e.

(** The solver needed at least five iterations. *)
Definition hard (nb : Z) : bool := (5 <=? nb)%Z.
Definition hard_count {U} (atts : list (attempt U)) : nat :=
  length (filter (fun a => hard (at_nb a)) atts).

(** A schedule of Newton outcomes in which every step converges in the end. *)
Definition solvable {U} (sched : list (list (attempt U))) : Prop :=
  forall atts, In atts sched -> exists a, In a atts /\ at_conv a = true.

(** A schedule in which every first attempt converges in less than five iterations. *)
Definition quick {U} (sched : list (list (attempt U))) : Prop :=
  forall atts, In atts sched ->
    match atts with a :: _ => at_conv a = true /\ (at_nb a < 5)%Z | [] => False end.

(** x is a whole multiple of h. *)
Definition multiple (h x : Q) : Prop := exists k : Z, (x == inject_Z k * h)%Q.

(** The bound on the stepsize at time t that a user asked for through the arguments of Stepsize:
    t_stop together with stepsize_stop_max (deprecated form), or max_stepsize. *)
Definition user_bound (t_stop stop_max : option Q) (mx : maxspec Q) (t b : Q) : Prop :=
  match t_stop, stop_max with
  | None, None => bound_at mx t b
  | Some ts, Some sm => ~ (ts == 0 /\ sm == 0)%Q /\ (ts <= t)%Q /\ b = sm
  | _, _ => False
  end.
