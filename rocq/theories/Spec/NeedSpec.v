(** Defects of a simulation that are always noticed by initialise although no check is dedicated to them (C36), and
    the quantities made for a system of coordinates (C78). *)
From Coq Require Import ZArith QArith List Bool String.
From Verif Require Import Base.Exc Base.Num Base.Key Model.Stepsize Model.Materials Model.Mesh1D Model.Sources
  Model.Bcs Model.Fields Model.Exports Model.Simulation Spec.MeshSpec Spec.FieldSpec Spec.SimSpec.
Import ListNotations.
Local Open Scope string_scope.

Section Spec.
Context {P S V F W C : Type}.
Local Notation material := (material (A:=Q) P).
Local Notation sim := (@sim Q P S V F W C).
Variable s_field : S -> key.
Variable s_decay : S -> bool.
Variable s_list : S -> bool.
Variable same : material -> material -> bool.
Variable reconvert : V -> res V.
Variable dx_list : res unit.

(** dx refuses a list of subdomains. *)
Definition refuses_lists : Prop := exists e, dx_list = Err e.
Definition several (m : material) : Prop := exists l, m_id m = IdMany l.

Inductive missing (s : sim) : Prop :=
| mis_material : sm_materials s = [] -> missing s
(* heat transfer *)
| mis_thermal transient ini m : sm_T s = Some (THeat transient ini) -> In m (sm_materials s) ->
    lacks_thermal transient m -> missing s
| mis_reconvert v e : sm_T s = Some (THeat true (IniExpression v)) -> reconvert v = Err e -> missing s
(* chemical potential and Soret effect *)
| mis_solubility m : sm_chem s = true -> in_use s m -> m_S0 m = None \/ m_ES m = None -> missing s
| mis_heat_of_transport m : sm_soret s = true -> In m (sm_materials s) -> m_Q m = None -> missing s
| mis_one_id m : sm_chem s = true -> refuses_lists -> In m (sm_materials s) -> several m -> missing s
(* traps *)
| mis_trap_parameter t i : In t (sm_traps s) -> (i < List.length (tr_materials t))%nat -> tr_has t i = false -> missing s
| mis_trap_tag t : In t (sm_traps s) -> In TagOther (tr_materials t) -> missing s
| mis_trap_id t m : refuses_lists -> In t (sm_traps s) -> lives_in (sm_materials s) t m -> several m -> missing s
| mis_steady_id t m : sm_transient s = false -> refuses_lists -> In t (sm_traps s) -> In m (sm_materials s) ->
    (forall m', lives_in (sm_materials s) t m' -> same m m' = false) -> several m -> missing s
| mis_trap_source i src : refuses_lists -> (1 <= i <= nb_traps s)%nat -> In src (sm_sources s) ->
    belongs (nb_traps s) (s_field src) (s_decay src) (Trap i) -> s_list src = true -> missing s
(* an initial condition on a trap that is not in the place of its id *)
| mis_initial k v i z : In (k, v) (sm_inis s) -> nth_error (trap_ids s) i = Some z ->
    (forall j z', nth_error (trap_ids s) j = Some z' -> k = KI z' \/ k = KS (str z') -> j = i) ->
    ~ In k [KS "solute"; KS "0"; KI 0] ->
    k = KI z \/ k = KS (str z) -> ~ In (Z.of_nat (1 + i)) (trap_ids s) -> missing s
(* times to export without a stepsize *)
| mis_times x t l : sm_transient s = false -> In (ETxt x) (ex_list (sm_exports s)) -> tx_times x = Some (t :: l) ->
    missing s.
End Spec.

(** The class is made for the coordinates: integrals over volumes and surfaces have the element of one system,
    AverageSurface is also right on the sphere r = constant, values at points and extrema need no element. *)
Definition made_for (k : qkind) (c : coords) : Prop :=
  match k with
  | SurfaceFlux | HydrogenFlux | ThermalFlux | AverageVolume | TotalVolume | TotalSurface => c = Cartesian
  | SurfaceFluxCylindrical | AverageVolumeCylindrical | AverageSurfaceCylindrical
  | TotalVolumeCylindrical | TotalSurfaceCylindrical => c = Cylindrical
  | SurfaceFluxSpherical | AverageVolumeSpherical | TotalVolumeSpherical | TotalSurfaceSpherical => c = Spherical
  | AverageSurface => c <> Cylindrical
  | _ => True
  end.
(** The quantities of the exports, in order. *)
Definition all_quantities {P S V F W C} (s : @sim Q P S V F W C) : list (quantity (A:=Q) F W) :=
  flat_map (fun e => match e with EDerived d => map (ex_store (sm_exports s)) (dq_list d) | _ => [] end)
    (ex_list (sm_exports s)).
