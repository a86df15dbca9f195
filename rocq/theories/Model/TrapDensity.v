(** Model of festim/exports/trap_density_xdmf.py: the function written by a TrapDensityXDMF. *)
From Coq Require Import Reals ZArith List.
From Verif Require Import Base.Exc Base.Dual Model.Materials Model.Theta Model.Forms.
Import ListNotations.
Local Open Scope R_scope.

Section TrapDensity.
Context {P : Type}.

(** trap_density_xdmf.py L29-32: the form F, u being the unknown and v the test function.  density[0] is the
    same entry in every turn of the loop. *)
Definition density_terms (t : trap P) (v : P -> R) (m : mat_obj) : res (form P) :=
  let! d := index (t_density t) 0 in
  let! id := dx_id (m_id (attrs m)) in
  Ok [(Dx id, fun p => d p * v p)].
Definition density_form (t : trap P) (u v : P -> R) : res (form P) :=
  let! F := sum_forms (density_terms t v) (t_materials t) in
  Ok ((DxAll, fun p => u p * v p) :: neg F).

(** trap_density_xdmf.py L26-28, L34-35: f.solve(F == 0, u), u and v in the function space [V] of the exported
    component.  Simplification: the linear solver is exact. *)
Definition solved (M : mesh P) (V : (P -> R) -> Prop) (t : trap P) (u : P -> R) : Prop :=
  V u /\ forall v, V v -> exists F, density_form t u v = Ok F /\ assemble M F = 0.
End TrapDensity.
