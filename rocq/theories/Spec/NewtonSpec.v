(** Newton's method, as dolfin's NewtonSolver does it with the criterion "residual" and exact linear solves. *)
From Coq Require Import Reals ZArith List Lia.
From Verif Require Import Base.Exc Base.Dual Model.Materials Model.Laws Model.Theta Model.Forms Model.NonlinearProblem.
Import ListNotations.
Local Open Scope R_scope.

Section Newton.
(** Number of unknowns, Dirichlet conditions, residual as a function of the vector of unknowns; tolerances and maximum_iterations. *)
Variables (N : nat) (bcs : list (list (nat * R))) (r : (nat -> R) -> nat -> R) (atol rtol : R) (max : nat).

Definition norm (b : nat -> R) : R := sqrt (rsum (map (fun i => b i * b i) (seq 0 N))).
Definition size (x : nat -> R) : R := norm (problem_F bcs (r x) x).
(** Stop when the residual is small, or small relative to the first one. *)
Definition converged (first : R) (x : nat -> R) : Prop := size x < atol \/ (first <> 0 /\ size x / first < rtol).
(** d solves J(x) d = F(x). *)
Definition direction (x d : nat -> R) : Prop := forall i, (i < N)%nat -> problem_J bcs r x d i (problem_F bcs (r x) x i).

(** From the k-th iterate x: the vector, the number of iterations and the flag that are returned. *)
Inductive newton_from (first : R) : nat -> (nat -> R) -> (nat -> R) * nat * bool -> Prop :=
| Stop k x : converged first x -> newton_from first k x (x, k, true)
| GiveUp x : ~ converged first x -> newton_from first max x (x, max, false)
| Next k x d out : ~ converged first x -> (k < max)%nat -> direction x d ->
    newton_from first (S k) (fun i => x i - d i) out -> newton_from first k x out.
Definition newton (x : nat -> R) (out : (nat -> R) * nat * bool) : Prop := newton_from (size x) 0 x out.

(** The residual of a combination of two vectors with coefficients of sum 1 is the combination of the residuals. *)
Definition affine : Prop :=
  forall a x y z, (forall j, (j < N)%nat -> z j = a * x j + (1 - a) * y j) ->
  forall i, (i < N)%nat -> r z i = a * r x i + (1 - a) * r y i.
End Newton.

Section Problems.
Context {P : Type}.
(** The field of a vector of unknowns, on the basis functions phi. *)
Definition span (N : nat) (phi : nat -> field P) (x : nat -> R) : field P :=
  fun p => mkDual (rsum (map (fun i => x i * val (phi i p)) (seq 0 N)))
                  (fun j => rsum (map (fun i => x i * grd (phi i p) j) (seq 0 N))).

(** r is the residual of hydrogen transport without traps. *)
Definition hydrogen_residual (M : mesh P) (mb : mobile P) (ms : list mat_obj) (T : temperature P) (dt : option R) (soret : bool)
    (N : nat) (phi : nat -> field P) (r : (nat -> R) -> nat -> R) : Prop :=
  forall x i, (i < N)%nat -> exists F,
    define_variational_problem M
      (mkMobile (mb_class mb) (span N phi x) (mb_previous mb) (phi i) (mb_sources mb) (mb_bcs mb)) ms T dt [] soret = Ok F /\
    assemble M F = r x i.
Definition heat_residual (M : mesh P) (transient : bool) (dt : R) (T_n : field P) (ms : list mat_obj) (sources : list (source P))
    (bcs : list (list Z * flux P)) (N : nat) (phi : nat -> field P) (r : (nat -> R) -> nat -> R) : Prop :=
  forall x i, (i < N)%nat -> exists F, heat_form M transient dt (span N phi x) T_n (phi i) ms sources bcs = Ok F /\ assemble M F = r x i.

(** Fluxes that are linear functions of the concentration or temperature. *)
Definition linear_bc (b : bc P) : Prop :=
  match b with
  | BFlux true _ _ => True
  | BFlux false _ f =>
      match f with
      | FluxBC _ | DissociationFlux _ _ _ | MassFlux _ _ => True
      | RecombinationFlux _ _ n => n = EInt 1
      | _ => False
      end
  | BSurf _ => False
  end.
Definition linear_heat_bc (b : list Z * flux P) : Prop :=
  match snd b with FluxBC _ | ConvectiveFlux _ _ => True | _ => False end.
End Problems.
