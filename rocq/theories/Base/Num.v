(** The numbers the time stepping and export code computes with.
    The model is written once over the class [Num] and used at two instances:
    exact rationals [Q] (the theorems) and IEEE binary64 floats (witnesses of
    rounding behaviour).  Every finite float is a rational, so [Q] covers every
    input; what it idealises is the rounding of the operations. *)
From Coq Require Import ZArith QArith Qabs Floats Uint63.

Class Num (A : Type) : Type := {
  n0    : A;
  nadd  : A -> A -> A;
  nsub  : A -> A -> A;
  nmul  : A -> A -> A;
  ndiv  : A -> A -> A;
  nabs  : A -> A;
  nltb  : A -> A -> bool;
  nleb  : A -> A -> bool;
  neqb  : A -> A -> bool;
  nrtol : A                 (* numpy's default rtol, 1e-05 *)
}.

Definition Qltb (a b : Q) : bool := negb (Qle_bool b a).

#[export] Instance NumQ : Num Q := {
  n0 := 0;
  nadd := Qplus; nsub := Qminus; nmul := Qmult; ndiv := Qdiv;
  nabs := Qabs;
  nltb := Qltb; nleb := Qle_bool; neqb := Qeq_bool;
  nrtol := 1 # 100000
}.

#[export] Instance NumF : Num float := {
  n0 := 0%float;
  nadd := PrimFloat.add; nsub := PrimFloat.sub; nmul := PrimFloat.mul; ndiv := PrimFloat.div;
  nabs := PrimFloat.abs;
  nltb := PrimFloat.ltb; nleb := PrimFloat.leb; neqb := PrimFloat.eqb;
  nrtol := 1e-05%float
}.

(** numpy.isclose(a, b, atol=0) for finite arguments: |a - b| <= rtol * |b|
    (documented formula of numpy; note that it is not symmetric). *)
Definition isclose {A} {N : Num A} (a b : A) : bool :=
  nleb (nabs (nsub a b)) (nmul nrtol (nabs b)).
