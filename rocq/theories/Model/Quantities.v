(** Model of the classes of festim/exports/derived_quantities: arguments, titles and units, and what
    compute() returns, over the quadrature of Forms.v.  Numbers are real numbers; a Python float
    division by zero is ZeroDivisionError. *)
From Coq Require Import Reals ZArith List Bool String.
From Verif Require Import Base.Exc Base.Key Base.Dual Model.Exports Model.Laws Model.Forms.
Import ListNotations.
Local Open Scope R_scope.
Local Open Scope string_scope.
Local Open Scope list_scope.

(** * Arguments *)

(** Python values given as surface or volume ids. *)
Inductive id_arg : Type :=
| IdInt (z : Z)
| IdBool (b : bool)
| IdOther.
(** derived_quantity.py L67-73: VolumeQuantity.volume, L94-98: SurfaceQuantity.surface. *)
Definition set_id (what : string) (a : id_arg) : res Z :=
  match a with
  | IdInt z => Ok z
  | IdBool _ | IdOther => Err (TypeError (what ++ " should be an int"))
  end.

(** Bounds of azimuth_range: surface_flux.py L147-151, L253-257, total_volume.py L114-118, L186-190,
    total_surface.py L115-119, L189-193. [None]: the class has no such attribute. *)
Definition azimuth_bounds (k : qkind) : option (R * R) :=
  match k with
  | SurfaceFluxCylindrical => Some (0, 2 * PI)
  | SurfaceFluxSpherical => Some (0, PI)
  | TotalVolumeCylindrical | TotalVolumeSpherical => Some (0, 2 * PI)
  | TotalSurfaceCylindrical | TotalSurfaceSpherical => Some (0, 2 * PI)
  | _ => None
  end.
(** Bounds of polar_range: surface_flux.py L243-247, total_volume.py L196-200, total_surface.py L199-203. *)
Definition polar_bounds (k : qkind) : option (R * R) :=
  match k with
  | SurfaceFluxSpherical => Some (- PI, PI)
  | TotalVolumeSpherical | TotalSurfaceSpherical => Some (0, PI)
  | _ => None
  end.
(** The setters: "if value[0] < lo or value[1] > hi: raise ValueError". *)
Definition set_range (bounds : R * R) (value : R * R) : res (R * R) :=
  if Rlt_dec (fst value) (fst bounds) then Err (ValueError "range")
  else if Rgt_dec (snd value) (snd bounds) then Err (ValueError "range")
  else Ok value.
(** An angular argument; the defaults are the whole range (surface_flux.py L112, L208-210; total_volume.py L91,
    L167-169; total_surface.py L92, L170-172).  A class without the attribute gets (0, 0), never read. *)
Definition range_arg (bounds : option (R * R)) (value : option (R * R)) : res (R * R) :=
  match bounds with
  | None => Ok (0, 0)
  | Some b => set_range b (match value with Some v => v | None => b end)
  end.

Section Quantities.
Variable P : Type.

(** A derived quantity: class, field, surface or volume, angular ranges, show_units; for PointValue
    the point and how it is printed. *)
Record dquantity : Type := mkDq {
  d_kind    : qkind;
  d_field   : label;
  d_id      : Z;
  d_azimuth : R * R;
  d_polar   : R * R;
  d_show    : bool;
  d_point   : option (P * string)
}.

(** The field of each class: thermal_flux.py L26, hydrogen_flux.py L26, adsorbed_hydrogen.py L28, else
    the argument. *)
Definition class_field (k : qkind) (field : label) : label :=
  match k with
  | ThermalFlux => LStr "T"
  | HydrogenFlux => LStr "solute"
  | AdsorbedHydrogen => LStr "adsorbed"
  | _ => field
  end.
Definition is_volume (k : qkind) : bool :=
  match k with
  | AverageVolume | AverageVolumeCylindrical | AverageVolumeSpherical
  | TotalVolume | TotalVolumeCylindrical | TotalVolumeSpherical | MaximumVolume | MinimumVolume => true
  | _ => false
  end.

(** The constructors (PointValue aside): DerivedQuantity.__init__ L30-42 and the ones of the classes. *)
Definition make_quantity (k : qkind) (field : label) (id : id_arg) (azimuth polar : option (R * R))
  : res dquantity :=
  let! z := set_id (if is_volume k then "volume" else "surface") id in
  let! a := range_arg (azimuth_bounds k) azimuth in
  let! p := range_arg (polar_bounds k) polar in
  Ok (mkDq k (class_field k field) z a p true None).

(** allowed_meshes: derived_quantity.py L44-48, overridden by the Average*, Total* and *Flux classes. *)
Definition allowed_mesh (k : qkind) (ty : mesh_type) : bool :=
  match k, ty with
  | (AverageVolume | TotalVolume | TotalSurface | SurfaceFlux | HydrogenFlux | ThermalFlux), Cartesian => true
  | AverageSurface, (Cartesian | Spherical) => true
  | (AverageVolumeCylindrical | AverageSurfaceCylindrical | TotalVolumeCylindrical
    | TotalSurfaceCylindrical | SurfaceFluxCylindrical), Cylindrical => true
  | (AverageVolumeSpherical | TotalVolumeSpherical | TotalSurfaceSpherical | SurfaceFluxSpherical), Spherical => true
  | (MaximumVolume | MinimumVolume | MaximumSurface | MinimumSurface | PointValue | AdsorbedHydrogen), _ => true
  | _, _ => false
  end.

(** * Units and titles *)

(** s.replace(old, new) *)
Fixpoint drop (n : nat) (s : string) : string :=
  match n, s with
  | O, _ => s
  | S n, String _ r => drop n r
  | S _, EmptyString => EmptyString
  end.
Fixpoint replace_from (fuel : nat) (s old new : string) : string :=
  match fuel, s with
  | S fuel, String a r =>
      if String.prefix old s then new ++ replace_from fuel (drop (String.length old) s) old new
      else String a (replace_from fuel r old new)
  | _, _ => s
  end.
Definition replace (s old new : string) : string := replace_from (String.length s) s old new.

(** self.field == "T" *)
Definition is_T (l : label) : bool := label_eqb l (LStr "T").

(** export_unit of each class; [dim]: topological dimension of the mesh.
    surface_flux.py L44-52, L117-125, L216-221; average_volume.py L35-40; average_surface.py L35-40;
    total_volume.py L38-50, L96-108, L175-180; total_surface.py L38-50, L97-109, L178-183;
    maximum_volume.py L31-36 (and the three others); point_value.py L33-38; adsorbed_hydrogen.py L30-32. *)
Definition export_unit (k : qkind) (field : label) (dim : Z) : string :=
  match k with
  | SurfaceFlux | HydrogenFlux | ThermalFlux =>
      if is_T field then replace ("W m" ++ str (dim - 3)) " m0" ""
      else replace ("H m" ++ str (dim - 3) ++ " s-1") " m0" ""
  | SurfaceFluxCylindrical =>
      if is_T field then replace ("W m" ++ str (dim - 2)) " m0" ""
      else replace ("H m" ++ str (dim - 2) ++ " s-1") " m0" ""
  | SurfaceFluxSpherical => if is_T field then "W" else "H s-1"
  | TotalVolume =>
      if is_T field then replace ("K m" ++ str dim) "1" ""
      else replace ("H m" ++ str (dim - 3)) " m0" ""
  | TotalVolumeCylindrical =>
      if is_T field then "K m" ++ str (dim + 1)
      else replace ("H m" ++ str (dim - 2)) " m0" ""
  | TotalVolumeSpherical => if is_T field then "K m3" else "H"
  | TotalSurface =>
      if is_T field then replace (replace ("K m" ++ str (dim - 1)) " m0" "") " m1" " m"
      else replace ("H m" ++ str (dim - 3)) " m0" ""
  | TotalSurfaceCylindrical =>
      if is_T field then replace ("K m" ++ str dim) " m1" " m"
      else replace ("H m" ++ str (dim - 2)) " m0" ""
  | TotalSurfaceSpherical => if is_T field then "K m2" else "H"
  | AdsorbedHydrogen => "H m-2"
  | _ => if is_T field then "K" else "H m-3"
  end%string.

(** f"{self.field}" *)
Definition str_label (l : label) : string := match l with LStr s => s | LInt z => str z end.

(** title: the part before the unit. surface_flux.py L54-64, L131-141, L227-237; average_*.py L42-48;
    total_*.py L52-58; maximum_*.py, minimum_*.py L38-44; point_value.py L40-46; adsorbed_hydrogen.py L34-40. *)
Definition quantity_title (q : dquantity) : string :=
  let f := str_label (d_field q) in
  let z := str (d_id q) in
  match d_kind q with
  | SurfaceFlux | SurfaceFluxCylindrical | SurfaceFluxSpherical | HydrogenFlux | ThermalFlux =>
      if is_T (d_field q) then "Heat flux surface " ++ z else f ++ " flux surface " ++ z
  | AverageVolume | AverageVolumeCylindrical | AverageVolumeSpherical => "Average " ++ f ++ " volume " ++ z
  | AverageSurface | AverageSurfaceCylindrical => "Average " ++ f ++ " surface " ++ z
  | TotalVolume | TotalVolumeCylindrical | TotalVolumeSpherical => "Total " ++ f ++ " volume " ++ z
  | TotalSurface | TotalSurfaceCylindrical | TotalSurfaceSpherical => "Total " ++ f ++ " surface " ++ z
  | MaximumVolume => "Maximum " ++ f ++ " volume " ++ z
  | MinimumVolume => "Minimum " ++ f ++ " volume " ++ z
  | MaximumSurface => "Maximum " ++ f ++ " surface " ++ z
  | MinimumSurface => "Minimum " ++ f ++ " surface " ++ z
  | PointValue => f ++ " value at " ++ match d_point q with Some (_, s) => s | None => "" end
  | AdsorbedHydrogen => "Adsorbed H on surface " ++ z
  end%string.
Definition title (q : dquantity) (dim : Z) : string :=
  (if d_show q then quantity_title q ++ " (" ++ export_unit (d_kind q) (d_field q) dim ++ ")"
   else quantity_title q)%string.

(** * compute *)

(** What is assigned to a quantity: function, D, thermal_cond, Q, T, n, soret
    (exports.py L73-79, derived_quantities.py L104-125, generic_simulation.py L412-415). *)
Record context : Type := mkCtx {
  x_function : field P;
  x_D        : P -> R;
  x_cond     : P -> R;
  x_Q        : P -> R;
  x_T        : field P;
  x_n        : P -> nat -> R;
  x_soret    : bool
}.

(** surface_flux.py L66-74: prop. *)
Definition prop_of (x : context) (l : label) : res (P -> R) :=
  if label_eqb l (LStr "0") then Ok (x_D x)
  else if label_eqb l (LStr "solute") then Ok (x_D x)
  else if label_eqb l (LInt 0) then Ok (x_D x)
  else if label_eqb l (LStr "T") then Ok (x_cond x)
  else Err (KeyError (str_label l)).
(** self.field in [0, "0", "solute"] *)
Definition is_solute (l : label) : bool :=
  (label_eqb l (LInt 0) || label_eqb l (LStr "0") || label_eqb l (LStr "solute"))%bool.

(** surface_flux.py L76-90, and with the factor r or r**2 L165-182, L271-286: the integrals of compute. *)
Definition flux_integral (M : mesh P) (x : context) (prop : P -> R) (w : P -> R) (l : label) (z : Z) : R :=
  let flux := integral M (Ds z) (fun p =>
      prop p * w p * dot (q_dim M) (grd (x_function x p)) (x_n x p)) in
  if (x_soret x && is_solute l)%bool
  then flux + integral M (Ds z) (fun p =>
      prop p * w p * val (x_function x p) * x_Q x p / (k_B * val (x_T x p) ^ 2)
      * dot (q_dim M) (grd (x_T x p)) (x_n x p))
  else flux.

(** a / b *)
Definition rdiv (a b : R) : res R := if Req_EM_T b 0 then Err ZeroDivisionError else Ok (a / b).

(** The factor 1, r or r**2 of the integrands. *)
Definition one_r_r2 (M : mesh P) (k : qkind) (p : P) : R :=
  match k with
  | AverageVolumeCylindrical | AverageSurfaceCylindrical | TotalVolumeCylindrical
  | TotalSurfaceCylindrical | SurfaceFluxCylindrical => q_x0 M p
  | AverageVolumeSpherical | TotalVolumeSpherical | TotalSurfaceSpherical | SurfaceFluxSpherical => q_x0 M p ^ 2
  | _ => 1
  end.
(** The factor multiplying the integrals: surface_flux.py L183, L287-289, total_volume.py L134, L217-219,
    total_surface.py L135, L220-222. *)
Definition angle (q : dquantity) : R :=
  match d_kind q with
  | SurfaceFluxCylindrical | TotalVolumeCylindrical | TotalSurfaceCylindrical =>
      snd (d_azimuth q) - fst (d_azimuth q)
  | SurfaceFluxSpherical =>
      (snd (d_polar q) - fst (d_polar q)) * (- cos (snd (d_azimuth q)) + cos (fst (d_azimuth q)))
  | TotalVolumeSpherical | TotalSurfaceSpherical =>
      (snd (d_azimuth q) - fst (d_azimuth q)) * (cos (fst (d_polar q)) - cos (snd (d_polar q)))
  | _ => 1
  end.

(** The function space and the mesh functions: volume markers by cell, surface markers by facet,
    dofmap().cell_dofs and vector().get_local(). *)
Record fespace : Type := mkFe {
  fe_cell_markers  : list Z;
  fe_facet_markers : list Z;
  fe_cell_dofs     : list (list nat);
  fe_vector        : list R
}.
(** [c.index() for c in f.SubsetIterator(markers, z)] *)
Fixpoint subset_from (i : nat) (markers : list Z) (z : Z) : list nat :=
  match markers with
  | [] => []
  | m :: r => if Z.eqb m z then i :: subset_from (S i) r z else subset_from (S i) r z
  end.
Definition subset (markers : list Z) (z : Z) : list nat := subset_from 0 markers z.
Fixpoint map_res {A B} (f : A -> res B) (l : list A) : res (list B) :=
  match l with
  | [] => Ok []
  | a :: r => let! b := f a in let! bs := map_res f r in Ok (b :: bs)
  end.
(** dm.cell_dofs(i): dolfin does not check i; a read out of the table is modelled as an error. *)
Definition cell_dofs (V : fespace) (i : nat) : res (list nat) :=
  match nth_error (fe_cell_dofs V) i with
  | Some l => Ok l
  | None => Err (RuntimeError "cell_dofs")
  end.
(** np.hstack(...) of the dofs of the entities: a ValueError if there are none.  np.unique only sorts and
    removes duplicates. *)
Definition subd_dofs (V : fespace) (entities : list nat) : res (list nat) :=
  let! l := map_res (cell_dofs V) entities in
  match l with
  | [] => Err (ValueError "need at least one array to concatenate")
  | _ => Ok (List.concat l)
  end.
Definition values_at (V : fespace) (dofs : list nat) : res (list R) :=
  map_res (fun d => match nth_error (fe_vector V) d with
                    | Some v => Ok v
                    | None => Err (IndexError "index out of bounds")
                    end) dofs.
(** np.max, np.min *)
Definition np_extremum (op : R -> R -> R) (l : list R) : res R :=
  match l with
  | [] => Err (ValueError "zero-size array to reduction operation")
  | v :: r => Ok (fold_left op r v)
  end.
(** maximum_volume.py L46-61, minimum_volume.py, maximum_surface.py, minimum_surface.py L46-61:
    [entities] are the indices of the cells, or of the facets, with the marker. *)
Definition extremum (op : R -> R -> R) (V : fespace) (entities : list nat) : res R :=
  let! dofs := subd_dofs V entities in
  let! vals := values_at V dofs in
  np_extremum op vals.

(** compute() of each class (with the volume or surface markers for the extrema).
    average_volume.py L50-53, L88-101, L131-144; average_surface.py L50-53, L89-106; total_volume.py L60-61,
    L124-138, L206-221; total_surface.py L60-61, L125-139, L209-224; surface_flux.py L76-90, L153-184,
    L259-290; adsorbed_hydrogen.py L42-43; point_value.py L48-50. *)
Definition compute (M : mesh P) (V : fespace) (x : context) (q : dquantity) : res R :=
  let k := d_kind q in
  let w := one_r_r2 M k in
  let z := d_id q in
  let u := fun p => val (x_function x p) in
  match k with
  | AverageVolume | AverageVolumeCylindrical | AverageVolumeSpherical =>
      rdiv (integral M (Dx z) (fun p => u p * w p)) (integral M (Dx z) (fun p => 1 * w p))
  | AverageSurface | AverageSurfaceCylindrical =>
      rdiv (integral M (Ds z) (fun p => u p * w p)) (integral M (Ds z) (fun p => 1 * w p))
  | TotalVolume | TotalVolumeCylindrical | TotalVolumeSpherical =>
      Ok (integral M (Dx z) (fun p => u p * w p) * angle q)
  | TotalSurface | TotalSurfaceCylindrical | TotalSurfaceSpherical =>
      Ok (integral M (Ds z) (fun p => u p * w p) * angle q)
  | SurfaceFlux | HydrogenFlux | ThermalFlux | SurfaceFluxCylindrical | SurfaceFluxSpherical =>
      let! prop := prop_of x (d_field q) in
      Ok (flux_integral M x prop w (d_field q) z * angle q)
  | AdsorbedHydrogen => Ok (integral M (Ds z) u)
  | MaximumVolume => extremum Rmax V (subset (fe_cell_markers V) z)
  | MinimumVolume => extremum Rmin V (subset (fe_cell_markers V) z)
  | MaximumSurface => extremum Rmax V (subset (fe_facet_markers V) z)
  | MinimumSurface => extremum Rmin V (subset (fe_facet_markers V) z)
  | PointValue =>
      match d_point q with
      | Some (p, _) => Ok (u p)
      | None => Err (AttributeError "x")
      end
  end.
End Quantities.

Arguments mkDq {P}. Arguments d_kind {P}. Arguments d_field {P}. Arguments d_id {P}.
Arguments d_azimuth {P}. Arguments d_polar {P}. Arguments d_show {P}. Arguments d_point {P}.
Arguments make_quantity {P}. Arguments quantity_title {P}. Arguments title {P}.
Arguments mkCtx {P}. Arguments x_function {P}. Arguments x_D {P}. Arguments x_cond {P}.
Arguments x_Q {P}. Arguments x_T {P}. Arguments x_n {P}. Arguments x_soret {P}. Arguments prop_of {P}.
Arguments flux_integral {P}. Arguments one_r_r2 {P}. Arguments angle {P}. Arguments compute {P}.
