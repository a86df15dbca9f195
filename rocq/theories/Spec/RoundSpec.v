(** Arithmetic with rounding: what is asked of it, and the values of binary64 numbers. *)
From Coq Require Import ZArith Reals List Floats SpecFloat FloatOps.
From Verif Require Import Base.Num.
Local Open Scope R_scope.

(** The standard model of floating-point arithmetic for the operations used by the time stepping: [v x] is the real
    number represented by [x], [ok] holds of the finite ones.  Additions and subtractions have a relative error of at
    most [eps] as long as the exact result is at most [big]; comparisons and absolute values are exact; the product
    with numpy's tolerance is that tolerance up to 1e-9 of it, between [small] and [big]. *)
Record rounded {A} (N : Num A) (v : A -> R) (ok : A -> Prop) (eps small big : R) : Prop := mkRounded {
  r_eps   : 0 <= eps <= / 1000000000000000;
  r_small : 0 < small;
  r_zero  : ok n0 /\ v n0 = 0;
  r_add   : forall a b, ok a -> ok b -> Rabs (v a + v b) <= big ->
              ok (nadd a b) /\ Rabs (v (nadd a b) - (v a + v b)) <= eps * Rabs (v a + v b);
  r_sub   : forall a b, ok a -> ok b -> Rabs (v a - v b) <= big ->
              ok (nsub a b) /\ Rabs (v (nsub a b) - (v a - v b)) <= eps * Rabs (v a - v b);
  r_abs   : forall a, ok a -> ok (nabs a) /\ v (nabs a) = Rabs (v a);
  r_ltb   : forall a b, ok a -> ok b -> nltb a b = true <-> v a < v b;
  r_leb   : forall a b, ok a -> ok b -> nleb a b = true <-> v a <= v b;
  r_tol   : forall b, ok b -> small <= Rabs (v b) <= big ->
              ok (nmul nrtol b) /\ Rabs (v (nmul nrtol b) - v b / 100000) <= Rabs (v b) / 100000000000000
}.

(** The real number represented by a binary64 number: sign * mantissa * 2^exponent. *)
Definition value64 (x : float) : R :=
  match Prim2SF x with
  | S754_finite s m e => (if s then - IZR (Zpos m) else IZR (Zpos m)) * powerRZ 2 e
  | _ => 0
  end.
(** Neither infinite nor NaN. *)
Definition finite64 (x : float) : Prop :=
  match Prim2SF x with S754_zero _ | S754_finite _ _ _ => True | _ => False end.
(** The spacing of the numbers in [1, 2]. *)
Definition ulp64 : R := powerRZ 2 (-52).
Definition tiny64 : R := powerRZ 2 (-900).
Definition huge64 : R := powerRZ 2 900.
