(** The differential equation of steady diffusion or conduction through layers with sources, on a segment. *)
From Coq Require Import Reals ZArith List Arith.
From Verif Require Import Base.Exc Base.Dual Model.Materials Model.Laws Model.Theta Model.Forms Model.NonlinearProblem
  Spec.PhysSpec Spec.BalanceSpec Spec.NewtonSpec Spec.MaximumSpec Spec.PermeationSpec Spec.ConductionSpec.
Import ListNotations.
Local Open Scope R_scope.

Section Exact.
Variables (K : nat) (X : nat -> R).

(** In each element u_e, with derivative u'_e: (d_e u'_e)' = - s_e.  Where elements meet, u and the flux are continuous.  At
    each end u has the imposed value or the flux is what enters. *)
Definition exact_solution (d s : nat -> R) (bcs : list (list (nat * R))) (enter_l enter_r : R -> R) (u u' : nat -> R -> R) : Prop :=
  (forall e t, (e < K)%nat -> X e <= t <= X (S e) ->
     derivable_pt_lim (u e) t (u' e t) /\ derivable_pt_lim (fun t => d e * u' e t) t (- s e)) /\
  (forall e, (S e < K)%nat -> u e (X (S e)) = u (S e) (X (S e)) /\ d e * u' e (X (S e)) = d (S e) * u' (S e) (X (S e))) /\
  match boundary_value bcs 0 with
  | Some c => u 0%nat (X 0%nat) = c
  | None => - (d 0%nat * u' 0%nat (X 0%nat)) = enter_l (u 0%nat (X 0%nat))
  end /\
  match boundary_value bcs K with
  | Some c => u (K - 1)%nat (X K) = c
  | None => d (K - 1)%nat * u' (K - 1)%nat (X K) = enter_r (u (K - 1)%nat (X K))
  end.
(** Its value at node i. *)
Definition at_node (u : nat -> R -> R) (i : nat) : R :=
  match i with O => u 0%nat (X 0%nat) | S j => u j (X (S j)) end.

Variables (rule : list (R * R)) (vol : nat -> Z).
(** The sources together generate s_e in element e. *)
Definition generation (ss : list (source pt)) (s : nat -> R) : Prop :=
  forall e q, (e < K)%nat -> In q rule ->
  rsum (map (fun src => rsum (map (fun z => if Z.eqb (vol e) z then s_value src (Cell e (fst q) (snd q)) else 0) (ids (s_volume src)))) ss) = s e.
(** The coefficient is uniform in each element. *)
Definition by_element (D : pt -> R) (d : nat -> R) : Prop :=
  forall e q, (e < K)%nat -> In q rule -> D (Cell e (fst q) (snd q)) = d e.
(** A slab of layers (PermeationSpec), and a wall of layers with conductivities independent of the temperature
    (ConductionSpec), in which the sources generate s_e. *)
Variables (left right : Z).
Definition fed_slab (mb : mobile pt) (ms : list mat_obj) (T : temperature pt) (D : pt -> R) (d s : nat -> R) : Prop :=
  slab K X rule vol left right (mkMobile (mb_class mb) (mb_solution mb) (mb_previous mb) (mb_test mb) [] (mb_bcs mb)) ms T D /\
  by_element D d /\ (forall src, In src (mb_sources mb) -> s_decay src = None) /\ generation (mb_sources mb) s.
Definition heated_wall (ms : list mat_obj) (bcs : list (list Z * flux pt)) (ss : list (source pt)) (k : pt -> R) (d s : nat -> R) : Prop :=
  wall K X rule vol left right ms bcs (fun _ => k) /\ by_element k d /\ generation ss s.
End Exact.
