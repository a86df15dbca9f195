(** What derived quantities should return: angular integrals, averages and extrema, units. *)
From Coq Require Import Reals ZArith List Bool String Ascii.
From Verif Require Import Base.Exc Base.Dual Model.Exports Model.Laws Model.Forms Model.Quantities Spec.BalanceSpec.
Import ListNotations.
Local Open Scope R_scope.

(** * Angles *)

(** v is the integral of f over [a, b]. *)
Definition is_integral (f : R -> R) (a b v : R) : Prop :=
  exists pr : Riemann_integrable f a b, RiemannInt pr = v.

Inductive coordinates : Type := Plane | Cyl | Sph.
Definition coordinates_of (k : qkind) : coordinates :=
  match k with
  | AverageVolumeCylindrical | AverageSurfaceCylindrical | TotalVolumeCylindrical
  | TotalSurfaceCylindrical | SurfaceFluxCylindrical => Cyl
  | AverageVolumeSpherical | TotalVolumeSpherical | TotalSurfaceSpherical | SurfaceFluxSpherical => Sph
  | _ => Plane
  end.
(** Integral of the angular element dtheta, or sin(theta) dtheta dphi with theta the polar angle. *)
Definition angular (k : qkind) (azimuth polar : R * R) (v : R) : Prop :=
  match coordinates_of k with
  | Plane => v = 1
  | Cyl => is_integral (fun _ => 1) (fst azimuth) (snd azimuth) v
  | Sph => exists a b, v = a * b /\
             is_integral (fun _ => 1) (fst azimuth) (snd azimuth) a /\
             is_integral sin (fst polar) (snd polar) b
  end.
(** Bounds given in the documentation of the classes. *)
Definition documented_azimuth (k : qkind) : R * R :=
  match k with SurfaceFluxSpherical => (0, PI) | _ => (0, 2 * PI) end.
Definition documented_polar (k : qkind) : R * R :=
  match k with SurfaceFluxSpherical => (- PI, PI) | _ => (0, PI) end.
Definition within (r bounds : R * R) : Prop := fst bounds <= fst r /\ snd r <= snd bounds.
(** Both ends are in the bounds. *)
Definition inside (r bounds : R * R) : Prop :=
  fst bounds <= fst r <= snd bounds /\ fst bounds <= snd r <= snd bounds.
Definition requested (r : option (R * R)) (default : R * R) : R * R :=
  match r with Some r => r | None => default end.
Definition ordered (r : R * R) : Prop := fst r <= snd r.
Definition full_angle (k : qkind) : R :=
  match coordinates_of k with Plane => 1 | Cyl => 2 * PI | Sph => 4 * PI end.

Definition is_total (k : qkind) : bool :=
  match k with
  | TotalVolume | TotalVolumeCylindrical | TotalVolumeSpherical
  | TotalSurface | TotalSurfaceCylindrical | TotalSurfaceSpherical => true
  | _ => false
  end.
Definition is_average (k : qkind) : bool :=
  match k with
  | AverageVolume | AverageVolumeCylindrical | AverageVolumeSpherical
  | AverageSurface | AverageSurfaceCylindrical => true
  | _ => false
  end.
Definition over_volume (k : qkind) : bool :=
  match k with
  | AverageVolume | AverageVolumeCylindrical | AverageVolumeSpherical
  | TotalVolume | TotalVolumeCylindrical | TotalVolumeSpherical => true
  | _ => false
  end.

Section Spec.
Context {P : Type}.
Implicit Types (M : mesh P) (x : context P).

(** Integral over the volume or surface of the quantity, with the element of the mesh type
    (without the angles). *)
Definition measure_of M (k : qkind) (z : Z) (f : P -> R) : R :=
  if over_volume k then total_in M z f else total_on M z f.
(** Points of the volume or surface. *)
Definition located M (k : qkind) (z : Z) (p : P) : Prop :=
  if over_volume k then In p (q_cells M) /\ q_volume M p = z
  else In p (q_facets M) /\ q_surface M p = z.
(** Quadrature with non-negative weights, on the right side of the axis. *)
Definition proper M : Prop := (forall p, 0 <= q_weight M p) /\ (forall p, 0 <= q_x0 M p).

(** Flux density D (grad c + Q c / (k_B T^2) grad T) . n, or k grad T . n. *)
Definition solute_label (l : label) : Prop := l = LInt 0 \/ l = LStr "0" \/ l = LStr "solute".
Definition flux_density M x (l : label) (p : P) : R :=
  match l with
  | LStr "T" => x_cond x p * dot (q_dim M) (grd (x_function x p)) (x_n x p)
  | _ => x_D x p * dot (q_dim M)
           (fun i => grd (x_function x p) i +
                     (if x_soret x
                      then x_Q x p * val (x_function x p) / (k_B * val (x_T x p) ^ 2) * grd (x_T x p) i
                      else 0))
           (x_n x p)
  end.
(** What is integrated by the Total and Flux classes. *)
Definition integrand M x (q : dquantity P) (p : P) : R :=
  if is_flux (d_kind q) then flux_density M x (d_field q) p else val (x_function x p).

(** * Extrema *)

(** v is the largest (smallest) of the values in S. *)
Definition is_largest (S : R -> Prop) (v : R) : Prop := S v /\ forall w, S w -> w <= v.
Definition is_smallest (S : R -> Prop) (v : R) : Prop := S v /\ forall w, S w -> v <= w.
(** Nodal values of the cells with marker z. *)
Definition nodal_value (V : fespace) (z : Z) (v : R) : Prop :=
  exists c dofs d, nth_error (fe_cell_markers V) c = Some z /\ nth_error (fe_cell_dofs V) c = Some dofs /\
    In d dofs /\ nth_error (fe_vector V) d = Some v.
(** u is piecewise linear (or constant): in its cell a point is a convex combination of the nodes. *)
Definition convex (V : fespace) (dofs : list nat) (v : R) : Prop :=
  exists ls, List.length ls = List.length dofs /\ (forall l, In l ls -> 0 <= l) /\ rsum ls = 1 /\
    v = rsum (map (fun ld => fst ld * nth (snd ld) (fe_vector V) 0) (combine ls dofs)).
Definition linear_on M (V : fespace) (u : P -> R) : Prop :=
  forall p, In p (q_cells M) -> exists c dofs,
    nth_error (fe_cell_markers V) c = Some (q_volume M p) /\ nth_error (fe_cell_dofs V) c = Some dofs /\
    (forall d, In d dofs -> (d < List.length (fe_vector V))%nat) /\ convex V dofs (u p).
(** Nodal values of the facets with marker z; [facet_dofs i]: nodes of facet i. *)
Definition facet_value (V : fespace) (facet_dofs : nat -> list nat) (z : Z) (v : R) : Prop :=
  exists f d, nth_error (fe_facet_markers V) f = Some z /\ In d (facet_dofs f) /\
    nth_error (fe_vector V) d = Some v.
End Spec.

(** * Units *)

Inductive base : Type := Kelvin | Watt | Atoms.
(** base m^metres s^seconds *)
Record phys_unit : Type := mkUnit { u_base : base; u_metres : Z; u_seconds : Z }.

(** Reading a unit: "H m-3 s-1". *)
Definition digit (c : ascii) : option Z :=
  let n := nat_of_ascii c in
  if (Nat.leb 48 n && Nat.leb n 57)%bool then Some (Z.of_nat (n - 48)) else None.
(** Optional exponent, then the rest after a space. *)
Definition read_exponent (s : string) : option (Z * string) :=
  let finish (z : Z) (r : string) :=
    match r with
    | EmptyString => Some (z, EmptyString)
    | String " " r => Some (z, r)
    | _ => None
    end in
  match s with
  | EmptyString => Some (1%Z, EmptyString)
  | String " " r => Some (1%Z, r)
  | String "-" (String c r) => match digit c with Some d => finish (- d)%Z r | None => None end
  | String c r => match digit c with Some d => finish d r | None => None end
  end.
Definition read_factors (s : string) : option (Z * Z) :=
  match s with
  | EmptyString => Some (0, 0)%Z
  | String "m" r =>
      match read_exponent r with
      | Some (m, EmptyString) => Some (m, 0%Z)
      | Some (m, String "s" r') =>
          match read_exponent r' with Some (e, EmptyString) => Some (m, e) | _ => None end
      | _ => None
      end
  | String "s" r => match read_exponent r with Some (e, EmptyString) => Some (0%Z, e) | _ => None end
  | _ => None
  end.
Definition read_unit (s : string) : option phys_unit :=
  let make (b : base) (r : string) :=
    match r with
    | EmptyString => Some (mkUnit b 0 0)
    | String " " r => match read_factors r with Some (m, e) => Some (mkUnit b m e) | None => None end
    | _ => None
    end in
  match s with
  | String "K" r => make Kelvin r
  | String "W" r => make Watt r
  | String "H" r => make Atoms r
  | _ => None
  end.

(** Unit of a field: K, H m-2 for adsorbed hydrogen, else H m-3. *)
Definition field_unit (l : label) : phys_unit :=
  match l with
  | LStr "T" => mkUnit Kelvin 0 0
  | LStr "adsorbed" => mkUnit Atoms (-2) 0
  | _ => mkUnit Atoms (-3) 0
  end.
(** Unit of a flux density: W m-2 or H m-2 s-1. *)
Definition flux_unit (l : label) : phys_unit :=
  match l with
  | LStr "T" => mkUnit Watt (-2) 0
  | _ => mkUnit Atoms (-2) (-1)
  end.
Definition times_metres (u : phys_unit) (n : Z) : phys_unit :=
  mkUnit (u_base u) (u_metres u + n) (u_seconds u).
(** Metres in the element of volume or surface the quantity is integrated over; nothing for averages,
    extrema and point values. *)
Definition extra_metres (k : qkind) : Z :=
  match coordinates_of k with Plane => 0 | Cyl => 1 | Sph => 2 end.
Definition expected_unit (k : qkind) (l : label) (dim : Z) : phys_unit :=
  match k with
  | SurfaceFlux | HydrogenFlux | ThermalFlux | SurfaceFluxCylindrical | SurfaceFluxSpherical =>
      times_metres (flux_unit l) (dim - 1 + extra_metres k)
  | TotalVolume | TotalVolumeCylindrical | TotalVolumeSpherical =>
      times_metres (field_unit l) (dim + extra_metres k)
  | TotalSurface | TotalSurfaceCylindrical | TotalSurfaceSpherical =>
      times_metres (field_unit l) (dim - 1 + extra_metres k)
  | AdsorbedHydrogen => times_metres (field_unit l) (dim - 1)
  | _ => field_unit l
  end.
(** Dimensions of the meshes: 1 to 3, 1 or 2 in cylindrical and 1 in spherical coordinates. *)
Definition possible_dim (k : qkind) (dim : Z) : Prop :=
  match coordinates_of k with
  | Plane => (dim = 1 \/ dim = 2 \/ dim = 3)%Z
  | Cyl => (dim = 1 \/ dim = 2)%Z
  | Sph => dim = 1%Z
  end.
(** The fields of these classes. *)
Definition field_of_class (k : qkind) (l : label) : Prop :=
  match k with
  | AdsorbedHydrogen => l = LStr "adsorbed"
  | ThermalFlux => l = LStr "T"
  | HydrogenFlux => l = LStr "solute"
  | _ => l <> LStr "adsorbed"
  end.
