(** Steady permeation through layers of different solubilities, with conservation of chemical potential; linear elements on a
    segment at a uniform temperature. *)
From Coq Require Import Reals ZArith List Arith.
From Verif Require Import Base.Exc Base.Dual Model.Materials Model.Laws Model.Theta Model.Forms Model.NonlinearProblem
  Spec.PhysSpec Spec.BalanceSpec Spec.NewtonSpec Spec.MaximumSpec Spec.PermeationSpec.
Import ListNotations.
Local Open Scope R_scope.

(** What an element is made of. *)
Record composition : Type := mkComposition { k_law : law; k_D0 : R; k_ED : R; k_S0 : R; k_ES : R }.
Definition made_of (ms : list mat_obj) (z : Z) (k : composition) : Prop :=
  forall m, In m ms -> In z (ids (m_id (attrs m))) ->
  m_law (attrs m) = k_law k /\ m_D0 (attrs m) = Const (k_D0 k) /\ m_ED (attrs m) = Const (k_ED k) /\
  m_S0 (attrs m) = Some (Const (k_S0 k)) /\ m_ES (attrs m) = Some (Const (k_ES k)).
Definition solubility (k : composition) (t : R) : R := arrhenius (k_S0 k) (k_ES k) t.
(** Permeability: diffusivity times solubility. *)
Definition permeability (k : composition) (t : R) : R := arrhenius (k_D0 k) (k_ED k) t * solubility k t.
(** The concentration is the solubility times this: the square root of the pressure (Sieverts) or the pressure (Henry). *)
Definition activity (l : law) (theta : R) : R := match l with Sievert => theta | Henry => theta ^ 2 end.
(** Imposed by a gas at pressure p: SievertsBC or HenrysBC with the solubility of the layer. *)
Definition gas_concentration (k : composition) (t p : R) : R :=
  match k_law k with
  | Sievert => sieverts_law t (k_S0 k) (k_ES k) p
  | Henry => henrys_law t (k_S0 k) (k_ES k) p
  end.
Definition gas_activity (l : law) (p : R) : R := match l with Sievert => sqrt p | Henry => p end.

Section Composite.
Variables (K : nat) (X : nat -> R) (rule : list (R * R)) (vol : nat -> Z) (left right : Z).
Local Notation M := (segment K X rule vol left right).

Definition isothermal (T : temperature pt) (t : R) : Prop :=
  forall p, point M p -> val (T_T T p) = t /\ forall i, grd (T_T T p) i = 0.
(** Layers without volumetric sources, traps, Soret effect and surface kinetics; element e is made of L e. *)
Definition composite (mb : mobile pt) (ms : list mat_obj) (T : temperature pt) (t : R) (L : nat -> composition) : Prop :=
  (0 < K)%nat /\ (forall e, (e < K)%nat -> X e < X (S e)) /\ exact_2 rule /\ covered M ms /\ positive_temperature M T /\
  isothermal T t /\ (forall e, (e < K)%nat -> made_of ms (vol e) (L e) /\ 0 < k_D0 (L e) /\ 0 < k_S0 (L e)) /\
  mb_class mb <> ClassMobile /\ solubility_field M mb T ms /\ mb_sources mb = [] /\ no_surface_kinetics mb.
(** Flux through element e (towards the left if positive) of the nodal values theta. *)
Definition through (L : nat -> composition) (t : R) (theta : nat -> R) (e : nat) : R :=
  permeability (L e) t / length_of X e * (activity (k_law (L e)) (theta (S e)) - activity (k_law (L e)) (theta e)).
(** Resistances of the first n elements in series: lengths over permeabilities. *)
Definition permeation_resistance (L : nat -> composition) (t : R) (n : nat) : R :=
  rsum (map (fun e => length_of X e / permeability (L e) t) (seq 0 n)).
(** What the flux conditions bring at the ends. *)
Definition entering_left (mb : mobile pt) (T : temperature pt) (t : R) (L : nat -> composition) (theta : nat -> R) : R :=
  entering K X rule vol left right (mb_bcs mb) T (solubility (L 0%nat) t * activity (k_law (L 0%nat)) (theta 0%nat)) LeftEnd.
Definition entering_right (mb : mobile pt) (T : temperature pt) (t : R) (L : nat -> composition) (theta : nat -> R) : R :=
  entering K X rule vol left right (mb_bcs mb) T (solubility (L (K - 1)%nat) t * activity (k_law (L (K - 1)%nat)) (theta K)) RightEnd.

(** The concentration written by the simulation is linear in each element (DG1), with values a and b at the ends of the element;
    the test functions of its projection contain the two of each element. *)
Definition piecewise_linear (c : field pt) (a b : nat -> R) : Prop :=
  forall p, point M p -> val (c p) = a (element K p) * (1 - local p) + b (element K p) * local p /\
    forall i, grd (c p) i = (b (element K p) - a (element K p)) / length_of X (element K p).
Definition dg1_tests (W : (pt -> R) -> Prop) : Prop :=
  forall e, (e < K)%nat -> W (fun p => if Nat.eqb (element K p) e then 1 - local p else 0) /\
                           W (fun p => if Nat.eqb (element K p) e then local p else 0).
(** The quadrature is also exact for polynomials of degree 3. *)
Definition exact_3 : Prop := exact_2 rule /\ rsum (map (fun q => snd q * fst q ^ 3) rule) = 1 / 4.
End Composite.
