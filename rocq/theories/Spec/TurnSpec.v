(** Change of the orientation of the axes. *)
From Coq Require Import Reals ZArith List.
From Verif Require Import Base.Exc Base.Dual Model.Materials Model.Laws Model.Theta Model.Exports Model.Forms Model.Quantities.
Import ListNotations.
Local Open Scope R_scope.

(** Rotations and mirrors: O^T O = 1 in dimension d. *)
Definition orthogonal (d : nat) (O : nat -> nat -> R) : Prop :=
  forall i j, (i < d)%nat -> (j < d)%nat -> rsum (map (fun k => O k i * O k j) (seq 0 d)) = if Nat.eqb i j then 1 else 0.
(** The components of a vector in the new axes. *)
Definition turned (d : nat) (O : nat -> nat -> R) (g g' : nat -> R) : Prop :=
  forall k, (k < d)%nat -> g' k = dot d (O k) g.
(** The first axis (r) is kept. *)
Definition keeps_axis (d : nat) (O : nat -> nat -> R) : Prop :=
  forall k, (k < d)%nat -> O k 0%nat = if Nat.eqb k 0 then 1 else 0.
(** Allowed changes of axes: any in Cartesian coordinates, along r else. *)
Definition change_of_axes (ty : mesh_type) (d : nat) (O : nat -> nat -> R) : Prop :=
  orthogonal d O /\ (ty <> Cartesian -> keeps_axis d O).

Section Turn.
Context {P : Type}.
Variables (d : nat) (O : nat -> nat -> R).

Definition turned_field (u u' : field P) : Prop := forall p, val (u' p) = val (u p) /\ turned d O (grd (u p)) (grd (u' p)).
Definition turned_temperature (T T' : temperature P) : Prop := turned_field (T_T T) (T_T T') /\ turned_field (T_Tn T) (T_Tn T').
Definition turned_mobile (mb mb' : mobile P) : Prop :=
  mb_class mb' = mb_class mb /\ turned_field (mb_solution mb) (mb_solution mb') /\ turned_field (mb_previous mb) (mb_previous mb') /\
  turned_field (mb_test mb) (mb_test mb') /\ mb_sources mb' = mb_sources mb /\ mb_bcs mb' = mb_bcs mb.
(** Derived quantities: the fields, the temperature and the normals. *)
Definition turned_context (x x' : context P) : Prop :=
  turned_field (x_function x) (x_function x') /\ turned_field (x_T x) (x_T x') /\ (forall p, turned d O (x_n x p) (x_n x' p)) /\
  x_D x' = x_D x /\ x_cond x' = x_cond x /\ x_Q x' = x_Q x /\ x_soret x' = x_soret x.
(** The same mesh with another origin of the coordinates. *)
Definition moved (M : mesh P) (x0 : P -> R) : mesh P :=
  mkMesh (q_cells M) (q_facets M) (q_weight M) (q_volume M) (q_surface M) x0 (q_dim M) (q_type M).
End Turn.
(** The quantities of Cartesian meshes that are integrals, values or extrema. *)
Definition cartesian_kinds : list qkind :=
  [AverageVolume; AverageSurface; TotalVolume; TotalSurface; SurfaceFlux; HydrogenFlux; ThermalFlux; AdsorbedHydrogen;
   MaximumVolume; MinimumVolume; MaximumSurface; MinimumSurface; PointValue].
