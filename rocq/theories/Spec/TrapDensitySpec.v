(** The density of the sites of a trap at a point, as the equations use it, and the distance of two functions. *)
From Coq Require Import Reals ZArith List.
From Verif Require Import Base.Exc Base.Dual Model.Materials Model.Theta Model.Forms.
Import ListNotations.
Local Open Scope R_scope.

Section TrapDensity.
Context {P : Type}.

(** In a material of the trap the density is the one given for this material (the only one when the parameters are
    numbers); in the other materials there is none. *)
Definition sites (M : mesh P) (t : trap P) (p : P) (n : R) : Prop :=
  (exists i m d, nth_error (t_materials t) i = Some m /\ m_id (attrs m) = IdOne (q_volume M p) /\
     nth_error (t_density t) (match t_k0 t with Scalar _ => O | PerMat _ => i end) = Some d /\ n = d p) \/
  ((forall m, In m (t_materials t) -> m_id (attrs m) <> IdOne (q_volume M p)) /\ n = 0).

(** The trap has one density: its parameters are numbers, or it is in one material. *)
Definition one_density (t : trap P) : Prop :=
  (exists k, t_k0 t = Scalar k) \/ length (t_materials t) = 1%nat.

Fixpoint add (l : list R) : R := match l with [] => 0 | x :: r => x + add r end.
(** Integral over the domain, and square of the distance of two functions. *)
Definition amount (M : mesh P) (u : P -> R) : R := add (map (fun p => q_weight M p * u p) (q_cells M)).
Definition distance2 (M : mesh P) (u d : P -> R) : R :=
  add (map (fun p => q_weight M p * ((u p - d p) * (u p - d p))) (q_cells M)).
End TrapDensity.
