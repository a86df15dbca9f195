(** Distances between solutions, and when the data of a step are physical. *)
From Coq Require Import Reals ZArith List Bool.
From Verif Require Import Base.Exc Base.Dual Model.Materials Model.Laws Model.Theta Model.Forms Spec.PhysSpec Spec.BalanceSpec.
Import ListNotations.
Local Open Scope R_scope.

Section Stability.
Context {P : Type}.
Implicit Types (M : mesh P).

(** The mixed function: component 0 is the mobile species, component i the i-th trap. *)
Definition state : Type := nat -> field P.
Definition diff (u w : state) : state := fun i p => dsub (u i p) (w i p).
(** Squared L2 norm of the first n+1 components. *)
Definition norm2 M (n : nat) (d : state) : R :=
  total M (fun p => sum_over (seq 0 (S n)) (fun i => val (d i p) ^ 2)).

(** The equations of one step of conservation of the concentration, with the unknowns u, the previous
    solution u_n and the test functions v. *)
Fixpoint put (i : nat) (traps : list (trap P)) (u un v : state) : list (trap P) :=
  match traps with
  | [] => []
  | t :: r => mkTrap (t_k0 t) (t_Ek t) (t_p0 t) (t_Ep t) (t_density t) (t_materials t) (u i) (un i) (v i) (t_sources t)
              :: put (S i) r u un v
  end.
Record problem : Type := mkProblem {
  pb_materials : list mat_obj;
  pb_T         : temperature P;
  pb_sources   : list (source P);
  pb_bcs       : list (bc P);
  pb_traps     : list (trap P)
}.
Definition species (pb : problem) (u un v : state) : mobile P :=
  mkMobile ClassMobile (u 0%nat) (un 0%nat) (v 0%nat) (pb_sources pb) (pb_bcs pb).
Definition equations M (pb : problem) (dt : option R) (u un v : state) : res (form P) :=
  define_variational_problem M (species pb u un v) (pb_materials pb) (pb_T pb) dt
    (put 1 (pb_traps pb) u un v) false.
(** u solves the equations tested with every v in V. *)
Definition solves M (pb : problem) (dt : option R) (V : state -> Prop) (u un : state) : Prop :=
  forall v, V v -> exists F, equations M pb dt u un v = Ok F /\ assemble M F = 0.

(** Diffusion coefficient at a point. *)
Definition diffusivity M (ms : list mat_obj) (T : temperature P) (D : P -> R) : Prop :=
  forall p, In p (q_cells M) -> forall m, In m ms -> In (q_volume M p) (ids (m_id (attrs m))) ->
  exists D_0 E_D, m_D0 (attrs m) = Const D_0 /\ m_ED (attrs m) = Const E_D /\ D p = arrhenius D_0 E_D (val (T_T T p)).

(** More hydrogen at the surface, less flux into it. *)
Definition dissipative (f : flux P) (T : R) (p : P) : Prop :=
  forall c c', 0 <= c -> 0 <= c' -> (flux_into f T c p - flux_into f T c' p) * (c - c') <= 0.
Definition physical_flux M (T : temperature P) (b : bc P) : Prop :=
  match b with
  | BSurf _ => False
  | BFlux true _ _ => True
  | BFlux false surfaces f => forall p, In p (q_facets M) -> In (q_surface M p) surfaces -> dissipative f (val (T_T T p)) p
  end.
Definition physical_source (s : source P) : Prop := match s_decay s with Some l => 0 <= l | None => True end.

(** Hypotheses on the data. *)
Definition positive_weights M : Prop :=
  (forall p, In p (q_cells M) -> 0 < q_weight M p) /\ (forall p, In p (q_facets M) -> 0 <= q_weight M p).
Definition physical M (pb : problem) (D : P -> R) : Prop :=
  q_type M = Cartesian /\ covered M (pb_materials pb) /\ positive_weights M /\
  positive_temperature M (pb_T pb) /\
  diffusivity M (pb_materials pb) (pb_T pb) D /\ (forall p, In p (q_cells M) -> 0 <= D p) /\
  (forall s, In s (pb_sources pb) -> physical_source s) /\
  (forall t s, In t (pb_traps pb) -> In s (t_sources t) -> physical_source s) /\
  (forall b, In b (pb_bcs pb) -> physical_flux M (pb_T pb) b).
Definition nonnegative_at_boundary M (u : state) : Prop := forall p, In p (q_facets M) -> 0 <= val (u 0%nat p).

(** The trapping and detrapping rates (1/s) of a trap at a point where it is attached to a material:
    k (n - c_t), k c and p. *)
Definition rates_at M (T : temperature P) (t : trap P) (ct c : P -> R) (p : P) (bound : R) : Prop :=
  forall i m k_0 E_k p_0 E_p n, nth_error (t_materials t) i = Some m -> In (q_volume M p) (ids (m_id (attrs m))) ->
  trap_params t i k_0 E_k p_0 E_p n ->
  let k := arrhenius k_0 E_k (val (T_T T p)) in
  let d := arrhenius p_0 E_p (val (T_T T p)) in
  0 <= k * (n p - ct p) /\ 0 <= k * c p + d /\ k * (n p - ct p) + (k * c p + d) <= bound.
(** How many materials of traps contain the point. *)
Definition here M (p : P) (m : mat_obj) : bool := existsb (Z.eqb (q_volume M p)) (ids (m_id (attrs m))).
Definition attached M (traps : list (trap P)) (p : P) : nat :=
  fold_right (fun t n => (length (filter (here M p) (t_materials t)) + n)%nat) 0%nat traps.
(** The rates of all traps between the two solutions are bounded by L. *)
Definition bounded_rates M (pb : problem) (u w : state) (L Lambda : R) : Prop :=
  0 <= L /\ 0 <= Lambda /\
  (forall i t, nth_error (pb_traps pb) i = Some t -> forall p, In p (q_cells M) ->
     rates_at M (pb_T pb) t (fun p => val (u (S i) p)) (fun p => val (w 0%nat p)) p L) /\
  (forall p, In p (q_cells M) -> L * INR (attached M (pb_traps pb) p) <= Lambda).

(** Heat: constant thermal properties; the warmer the surface, the less heat flows in. *)
Definition constant_conductivity (k : mat_obj -> R) (ms : list mat_obj) : Prop :=
  forall m, In m ms -> m_thermal (attrs m) = Some (Const (k m)).
Definition cooling (f : flux P) (p : P) : Prop :=
  forall T T', 0 < T -> 0 < T' -> (flux_into f T 0 p - flux_into f T' 0 p) * (T - T') <= 0.
Definition heat_solves M (ms : list mat_obj) (sources : list (source P)) (bcs : list (list Z * flux P)) (transient : bool) (dt : R)
    (V : field P -> Prop) (T T_n : field P) : Prop :=
  forall v, V v -> exists F, heat_form M transient dt T T_n v ms sources bcs = Ok F /\ assemble M F = 0.
End Stability.
Arguments state P : clear implicits.
Arguments problem P : clear implicits.
