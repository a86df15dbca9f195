(** What the title of a column of derived quantities has to tell. *)
From Coq Require Import Reals ZArith List Bool String Ascii.
From Verif Require Import Base.Key Model.Exports Model.Quantities.
Import ListNotations.
Local Open Scope string_scope.

Inductive statistic : Type := Flux | Average | Total | Maximum | Minimum | Adsorbed | Point.
Inductive region : Type := Volume (z : Z) | Surface (z : Z) | At (s : string).

Definition statistic_of (k : qkind) : statistic :=
  match k with
  | SurfaceFlux | SurfaceFluxCylindrical | SurfaceFluxSpherical | HydrogenFlux | ThermalFlux => Flux
  | AverageVolume | AverageVolumeCylindrical | AverageVolumeSpherical
  | AverageSurface | AverageSurfaceCylindrical => Average
  | TotalVolume | TotalVolumeCylindrical | TotalVolumeSpherical
  | TotalSurface | TotalSurfaceCylindrical | TotalSurfaceSpherical => Total
  | MaximumVolume | MaximumSurface => Maximum
  | MinimumVolume | MinimumSurface => Minimum
  | AdsorbedHydrogen => Adsorbed
  | PointValue => Point
  end.
Definition on_volume (k : qkind) : bool :=
  match k with
  | AverageVolume | AverageVolumeCylindrical | AverageVolumeSpherical
  | TotalVolume | TotalVolumeCylindrical | TotalVolumeSpherical | MaximumVolume | MinimumVolume => true
  | _ => false
  end.

(** Which statistic of which field where. *)
Definition subject {P} (q : dquantity P) : statistic * string * region :=
  (statistic_of (d_kind q),
   match d_field q with LStr s => s | LInt z => str z end,
   match d_kind q with
   | PointValue => At (match d_point q with Some (_, s) => s | None => "" end)
   | k => if on_volume k then Volume (d_id q) else Surface (d_id q)
   end).

(** The subject in words. *)
Definition sentence (x : statistic * string * region) : string :=
  let '(s, f, w) := x in
  let place := match w with
               | Volume z => " volume " ++ str z
               | Surface z => " surface " ++ str z
               | At p => " value at " ++ p
               end in
  match s with
  | Flux => (if String.eqb f "T" then "Heat" else f) ++ " flux" ++ place
  | Average => "Average " ++ f ++ place
  | Total => "Total " ++ f ++ place
  | Maximum => "Maximum " ++ f ++ place
  | Minimum => "Minimum " ++ f ++ place
  | Adsorbed => "Adsorbed H on" ++ place
  | Point => f ++ place
  end.

(** A field name that cannot be mistaken for another word of the title. *)
Fixpoint without (c : ascii) (s : string) : Prop :=
  match s with
  | "" => True
  | String a r => a <> c /\ without c r
  end.
Definition plain (s : string) : Prop :=
  without " "%char s /\ without ","%char s /\ s <> "flux" /\ s <> "Heat".
Definition plain_field (l : label) : Prop := plain (match l with LStr s => s | LInt z => str z end).
