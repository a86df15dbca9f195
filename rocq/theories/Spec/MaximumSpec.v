(** Bounds on the solution of one step; linear elements on a segment. *)
From Coq Require Import Reals ZArith List Arith.
From Verif Require Import Base.Exc Base.Dual Model.Materials Model.Laws Model.Theta Model.Forms Model.NonlinearProblem
  Spec.PhysSpec Spec.BalanceSpec Spec.NewtonSpec.
Import ListNotations.
Local Open Scope R_scope.

(** Which side of the bound. *)
Inductive side : Type := Above | Below.
Definition within (s : side) (m c : R) : Prop := match s with Above => m <= c | Below => c <= m end.
(** q moves a value towards that side. *)
Definition pushes (s : side) (q : R) : Prop := match s with Above => 0 <= q | Below => q <= 0 end.

(** Raising other unknowns does not raise the residual of an unknown. *)
Definition cooperative (N : nat) (r : (nat -> R) -> nat -> R) : Prop :=
  forall x y i, (i < N)%nat -> y i = x i -> (forall j, (j < N)%nat -> x j <= y j) -> r y i <= r x i.
(** x is the solution: imposed values, zero residuals elsewhere. *)
Definition solves (N : nat) (bcs : list (list (nat * R))) (r : (nat -> R) -> nat -> R) (x : nat -> R) : Prop :=
  forall i, (i < N)%nat -> problem_F bcs (r x) x i = 0.
Definition imposed_within (s : side) (m : R) (bcs : list (list (nat * R))) : Prop :=
  forall b q, In b bcs -> In q b -> within s m (snd q).

Section Basis.
Context {P : Type}.
Definition point (M : mesh P) (p : P) : Prop := In p (q_cells M) \/ In p (q_facets M).
(** Basis functions and weights are nonnegative, the functions add up to 1. *)
Definition nonnegative_basis (M : mesh P) (N : nat) (phi : nat -> field P) : Prop :=
  (forall p, point M p -> 0 <= q_weight M p) /\
  (forall i p, point M p -> 0 <= val (phi i p)) /\
  (forall p, point M p -> rsum (map (fun i => val (phi i p)) (seq 0 N)) = 1) /\
  (forall p k, In p (q_cells M) -> rsum (map (fun i => grd (phi i p) k) (seq 0 N)) = 0).
(** Every basis function is seen by a point of a material. *)
Definition seen (M : mesh P) (ms : list mat_obj) (N : nat) (phi : nat -> field P) : Prop :=
  forall i, (i < N)%nat -> exists m p, In m ms /\ In (q_volume M p) (ids (m_id (attrs m))) /\ In p (q_cells M) /\
    0 < q_weight M p /\ 0 < val (phi i p).

(** What feeds a concentration c beyond the bound brings it back. *)
Definition source_within (s : side) (m : R) (M : mesh P) (src : source P) : Prop :=
  forall p c, In p (q_cells M) -> In (q_volume M p) (ids (s_volume src)) -> ~ within s m c ->
  pushes s (match s_decay src with Some l => - (l * c) | None => s_value src p end).
Definition bc_within (s : side) (m : R) (M : mesh P) (T : temperature P) (b : bc P) : Prop :=
  match b with
  | BFlux true _ _ => True
  | BFlux false surfaces f =>
      forall p c, In p (q_facets M) -> In (q_surface M p) surfaces -> ~ within s m c -> pushes s (flux_into f (val (T_T T p)) c p)
  | BSurf _ => False
  end.
Definition field_within (s : side) (m : R) (M : mesh P) (u : field P) : Prop :=
  forall p, In p (q_cells M) -> within s m (val (u p)).

(** Heat: the same, and the heat capacity per volume is positive. *)
Definition heat_bc_within (s : side) (m : R) (M : mesh P) (b : list Z * flux P) : Prop :=
  forall p c, In p (q_facets M) -> In (q_surface M p) (fst b) -> ~ within s m c ->
  match snd b with
  | FluxBC g => pushes s (g p)
  | ConvectiveFlux h T_ext => pushes s (h p * (T_ext p - c))
  | CustomFlux f => pushes s (f c 0 p)
  | _ => False
  end.
Definition heat_source_within (s : side) (m : R) (M : mesh P) (src : source P) : Prop :=
  forall p, In p (q_cells M) -> In (q_volume M p) (ids (s_volume src)) -> pushes s (s_value src p).
Definition positive_prop (p : option prop) : Prop :=
  match p with Some (Const k) => 0 < k | Some (Fun f) => forall T, 0 < f T | None => False end.
End Basis.

(** A segment cut in K elements of nodes X 0 < ... < X K, with linear elements.  Quadrature points: point s of [0, 1] of
    element e with weight w for each (s, w) of the rule; the two ends. *)
Inductive pt : Type := Cell (e : nat) (s w : R) | LeftEnd | RightEnd.
Section Segment.
Variables (K : nat) (X : nat -> R) (rule : list (R * R)) (vol : nat -> Z) (left right : Z).
Definition element (p : pt) : nat := match p with Cell e _ _ => e | LeftEnd => 0 | RightEnd => K - 1 end.
Definition length_of (e : nat) : R := X (S e) - X e.
Definition local (p : pt) : R := match p with Cell _ s _ => s | LeftEnd => 0 | RightEnd => 1 end.
Definition segment : mesh pt :=
  mkMesh (flat_map (fun e => map (fun q => Cell e (fst q) (snd q)) rule) (seq 0 K)) [LeftEnd; RightEnd]
    (fun p => match p with Cell e _ w => length_of e * w | _ => 1 end)
    (fun p => vol (element p)) (fun p => match p with LeftEnd => left | _ => right end)
    (fun p => X (element p) + local p * length_of (element p)) 1 Cartesian.
Definition linear (i : nat) : field pt := fun p =>
  let e := element p in
  mkDual (if Nat.eqb i e then 1 - local p else if Nat.eqb i (S e) then local p else 0)
         (fun _ => if Nat.eqb i e then - / length_of e else if Nat.eqb i (S e) then / length_of e else 0).
(** Nonnegative weights, exact for polynomials of degree 2. *)
Definition exact_2 : Prop :=
  (forall q, In q rule -> 0 <= fst q <= 1 /\ 0 <= snd q) /\
  rsum (map snd rule) = 1 /\ rsum (map (fun q => snd q * fst q) rule) = 1 / 2 /\
  rsum (map (fun q => snd q * fst q ^ 2) rule) = 1 / 3.
(** h^2 <= 6 D dt in every element, for every material there. *)
Definition step_large_enough (ms : list mat_obj) (T : temperature pt) (dt : R) : Prop :=
  forall m D_0 E_D p, In m ms -> m_D0 (attrs m) = Const D_0 -> m_ED (attrs m) = Const E_D ->
  In p (q_cells segment) -> In (q_volume segment p) (ids (m_id (attrs m))) ->
  length_of (element p) ^ 2 <= 6 * arrhenius D_0 E_D (val (T_T T p)) * dt.
End Segment.
