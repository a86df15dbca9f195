(** Values with a gradient: how UFL evaluates an expression and its grad at a point (sum, product,
    quotient and chain rules). *)
From Coq Require Import Reals List.
Import ListNotations.
Local Open Scope R_scope.

Record dual : Type := mkDual { val : R; grd : nat -> R }.

Definition dconst (c : R) : dual := mkDual c (fun _ => 0).
Definition dadd (a b : dual) : dual := mkDual (val a + val b) (fun i => grd a i + grd b i).
Definition dsub (a b : dual) : dual := mkDual (val a - val b) (fun i => grd a i - grd b i).
Definition dmul (a b : dual) : dual :=
  mkDual (val a * val b) (fun i => grd a i * val b + val a * grd b i).
Definition ddiv (a b : dual) : dual :=
  mkDual (val a / val b) (fun i => (grd a i * val b - val a * grd b i) / (val b * val b)).
Definition dexp (a : dual) : dual := mkDual (exp (val a)) (fun i => exp (val a) * grd a i).
(** a**2 *)
Definition dsquare (a : dual) : dual := mkDual (val a ^ 2) (fun i => 2 * val a * grd a i).
(** SpatialCoordinate(mesh)[0] at a point of first coordinate x. *)
Definition dcoord0 (x : R) : dual := mkDual x (fun i => match i with O => 1 | S _ => 0 end).

(** Sum of a list of reals. *)
Definition rsum (l : list R) : R := fold_right Rplus 0 l.

(** dot(a, b) in dimension d. *)
Definition dot (d : nat) (a b : nat -> R) : R := rsum (map (fun i => a i * b i) (seq 0 d)).
