(** Model of the post-processing of the mobile concentration: theta.py L84-122 and
    h_transport_problem.py L390-393. *)
From Coq Require Import Reals ZArith List String.
From Verif Require Import Base.Exc Base.Dual Model.Materials Model.Laws Model.Theta Model.Forms.
Import ListNotations.
Local Open Scope R_scope.
Local Open Scope list_scope.

Section Post.
Context {P : Type}.

(** theta.py L100-122: create_form_post_processing, with the trial function [c], the test function [v]
    and self.S = [S_]. *)
Definition post_term (S_ : P -> R) (solution : field P) (v : P -> R) (m : mat) : res (form P) :=
  let! id := dx_id (m_id m) in
  match m_law m with
  | Sievert => Ok [(Dx id, fun p => val (solution p) * S_ p * v p)]
  | Henry => Ok [(Dx id, fun p => val (solution p) ^ 2 * S_ p * v p)]
  end.
Definition form_post_processing (ms : @materials R prop) (S_ : P -> R) (solution : field P) (c v : P -> R)
  : res (form P) :=
  let! G := sum_forms (post_term S_ solution v) ms in
  Ok ((DxAll, fun p => - c p * v p) :: G).

(** h_transport_problem.py L390-393 with theta.py L84-98: [c] is mobile.post_processing_solution.  Without
    the chemical potential it is component 0 of the solution; with it, it is what LinearVariationalSolver
    returns: the form is zero on the test functions of the space [W] (DG1, theta.py L109 and h_transport_problem.py L101).
    Simplification: the solver is exact, all forms use the same quadrature. *)
Definition mobile_post_processing (M : mesh P) (W : (P -> R) -> Prop) (mb : mobile P) (c : field P) : Prop :=
  match mb_class mb with
  | ClassMobile => c = mb_solution mb
  | ClassTheta S_ ms =>
      forall v, W v -> exists F, form_post_processing ms S_ (mb_solution mb) (fun p => val (c p)) v = Ok F /\
                                 assemble M F = 0
  end.
End Post.
