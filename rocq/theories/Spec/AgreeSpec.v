(** What it means to give two markers of a mesh the same id, and for quantities to be combined. *)
From Coq Require Import Reals ZArith List Bool String.
From Verif Require Import Base.Exc Base.Dual Model.Exports Model.Laws Model.Forms Model.Quantities.
Import ListNotations.
Local Open Scope R_scope.

Section Agree.
Context {P : Type}.

(** A marker z that stands for the two markers z1 and z2. *)
Definition stands (z1 z2 z m m' : Z) : Prop := m' = z <-> m = z1 \/ m = z2.
(** The same mesh, where the volumes (surfaces) z1 and z2 are the volume (surface) z. *)
Record united (z1 z2 z : Z) (M M' : mesh P) : Prop := {
  un_ids : z1 <> z2;
  un_cells : q_cells M' = q_cells M;
  un_facets : q_facets M' = q_facets M;
  un_weight : q_weight M' = q_weight M;
  un_x0 : q_x0 M' = q_x0 M;
  un_dim : q_dim M' = q_dim M;
  un_volume : forall p, In p (q_cells M) -> stands z1 z2 z (q_volume M p) (q_volume M' p);
  un_surface : forall p, In p (q_facets M) -> stands z1 z2 z (q_surface M p) (q_surface M' p)
}.
Record united_space (z1 z2 z : Z) (V V' : fespace) : Prop := {
  us_cells : Forall2 (stands z1 z2 z) (fe_cell_markers V) (fe_cell_markers V');
  us_facets : Forall2 (stands z1 z2 z) (fe_facet_markers V) (fe_facet_markers V');
  us_dofs : fe_cell_dofs V' = fe_cell_dofs V;
  us_vector : fe_vector V' = fe_vector V
}.

(** The same quantity on another volume or surface. *)
Definition on (z : Z) (q : dquantity P) : dquantity P :=
  mkDq (d_kind q) (d_field q) z (d_azimuth q) (d_polar q) (d_show q) (d_point q).
(** The same inputs with another function. *)
Definition reading (f : P -> dual) (x : context P) : context P :=
  mkCtx f (x_D x) (x_cond x) (x_Q x) (x_T x) (x_n x) (x_soret x).

Inductive sort : Type := Sum | Mean | Largest | Smallest | Local.
Definition sort_of (k : qkind) : sort :=
  match k with
  | TotalVolume | TotalVolumeCylindrical | TotalVolumeSpherical
  | TotalSurface | TotalSurfaceCylindrical | TotalSurfaceSpherical
  | SurfaceFlux | SurfaceFluxCylindrical | SurfaceFluxSpherical | HydrogenFlux | ThermalFlux | AdsorbedHydrogen => Sum
  | AverageVolume | AverageVolumeCylindrical | AverageVolumeSpherical
  | AverageSurface | AverageSurfaceCylindrical => Mean
  | MaximumVolume | MaximumSurface => Largest
  | MinimumVolume | MinimumSurface => Smallest
  | PointValue => Local
  end.
(** The Total class with the weight (1, r, r^2) of an Average class. *)
Definition total_of (k : qkind) : qkind :=
  match k with
  | AverageVolume => TotalVolume
  | AverageVolumeCylindrical => TotalVolumeCylindrical
  | AverageVolumeSpherical => TotalVolumeSpherical
  | AverageSurface => TotalSurface
  | AverageSurfaceCylindrical => TotalSurfaceCylindrical
  | k => k
  end.
Definition as_kind (k : qkind) (q : dquantity P) : dquantity P :=
  mkDq k (d_field q) (d_id q) (d_azimuth q) (d_polar q) (d_show q) (d_point q).
End Agree.

(** Two functions with the same values and gradients; sums of functions. *)
Definition fzero {P} : P -> dual := fun _ => dconst 0.
Definition fplus {P} (f g : P -> dual) : P -> dual := fun p => dadd (f p) (g p).
