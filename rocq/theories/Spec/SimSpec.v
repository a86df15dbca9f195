(** When initialise should complain, and with which exception (C36), and what a run leaves alone (C22). *)
From Coq Require Import ZArith QArith List Bool String.
From Verif Require Import Base.Exc Base.Num Base.Key Model.Stepsize Model.Materials Model.Mesh1D Model.Sources
  Model.Bcs Model.Fields Model.Exports Model.Simulation Spec.MeshSpec Spec.FieldSpec.
Import ListNotations.
Local Open Scope string_scope.

Section Spec.
Context {P S V F W C : Type}.
Local Notation material := (material (A:=Q) P).
Local Notation sim := (@sim Q P S V F W C).
Variable s_field : S -> key.
Variable s_decay : S -> bool.
Variable s_list : S -> bool.
Variable same : material -> material -> bool.
Variable dofs : bool -> list Q.
Variable reconvert : V -> res V.
Variable dx_list : res unit.

Definition heat_sim (s : sim) : Prop := exists transient ini, sm_T s = Some (THeat transient ini).
Definition nb_traps (s : sim) : nat := List.length (sm_traps s).
Definition bc_dimension (s : sim) : nat := ms_dim (sm_mesh s).

(** What an entry of Trap.materials refers to: the first material with this id or name, or the object. *)
Definition first_such (p : material -> Prop) (ms : list material) (m : material) : Prop :=
  exists k, nth_error ms k = Some m /\ p m /\ forall j m', (j < k)%nat -> nth_error ms j = Some m' -> ~ p m'.
Definition refers (ms : list material) (t : tag (A:=Q) P) (m : material) : Prop :=
  match t with
  | TagId z => first_such (fun m => has_id m z) ms m
  | TagName n => first_such (fun m => m_name m = Some n) ms m
  | TagMaterial m' => m = m'
  | TagOther => False
  end.
(** Material m is one of the materials of trap t. *)
Definition lives_in (ms : list material) (t : trap (A:=Q) (P:=P)) (m : material) : Prop :=
  exists tg, In tg (tr_materials t) /\ refers ms tg m.

(** The requirements of Materials.check_materials on the properties and ids (C27). *)
Definition materials_fit (T : temp_kind) (ms : list material) : Prop :=
  all_or_none m_S0 ms /\ all_or_none m_ES ms /\ all_or_none m_thermal ms /\ all_or_none m_heat ms /\
  all_or_none m_rho ms /\ all_or_none m_Q ms /\
  ((forall m, In m ms -> m_borders m <> BNone) \/ (forall m, In m ms -> m_borders m = BNone)) /\
  (forall m, In m ms -> forall l, m_id m = IdMany l -> NoDup l) /\
  (forall k k' m m' z, nth_error ms k = Some m -> nth_error ms k' = Some m' ->
     has_id m z -> has_id m' z -> k = k') /\
  needed T ms.

(** A quantity of one of the DerivedQuantities. *)
Definition has_quantity (s : sim) (q : quantity (A:=Q) F W) : Prop :=
  exists d i, In (EDerived d) (ex_list (sm_exports s)) /\ In i (dq_list d) /\ q = ex_store (sm_exports s) i.
Definition kinetics_on (s : sim) (z : Z) : Prop :=
  exists b, In b (sm_bcs s) /\ bc_kind_of b = SurfKin /\ In z (bc_surfaces b).

(** The documented reasons to refuse a simulation, with the exception. *)
Inductive documented (s : sim) : exc -> Prop :=
(* time *)
| doc_steady_dt : sm_transient s = false -> sm_dt s <> None ->
    documented s (AttributeError "dt must be None in steady state simulations")
| doc_final_time : sm_transient s = true -> sm_final s = None ->
    documented s (AttributeError "final_time argument must be provided to settings in transient simulations")
| doc_dt : sm_transient s = true -> sm_dt s = None ->
    documented s (AttributeError "dt must be provided in transient simulations")
(* temperature *)
| doc_T : sm_T s = None -> documented s (AttributeError "Temperature is not defined")
| doc_T_ini : sm_T s = Some (THeat true NoIni) ->
    documented s (AttributeError "Initial condition is required for transient heat transfer simulations")
(* sources *)
| doc_source_T src msg : In src (sm_sources s) -> s_field src = KS "T" -> ~ heat_sim s ->
    documented s (TypeError msg)
| doc_source_field src msg : In src (sm_sources s) ->
    (forall sp, ~ belongs (nb_traps s) (s_field src) (s_decay src) sp) -> documented s (KeyError msg)
(* boundary conditions *)
| doc_bc_field b : In b (sm_bcs s) -> ~ bc_field_ok (nb_traps s) (bc_field b) ->
    documented s (ValueError "not a valid field for BC")
| doc_bc_kinetics b : In b (sm_bcs s) -> bc_kind_of b = SurfKin -> bc_dimension s <> 1%nat ->
    documented s (ValueError "SurfaceKinetics can only be used in 1D simulations")
| doc_bc_T b : In b (sm_bcs s) -> bc_field b = KS "T" -> ~ heat_sim s ->
    documented s (TypeError "Heat transfer boundary conditions can only be used with HeatTransferProblem")
| doc_bc_conflict a b t : In a (sm_bcs s) -> In b (sm_bcs s) -> conflict a b ->
    documented s (ValueError (t ++ " is simultaneously set with another boundary condition"))
(* coordinates *)
| doc_spherical : ms_type (sm_mesh s) = Spherical -> ms_dim (sm_mesh s) <> 1%nat ->
    documented s (AttributeError "spherical coordinates can be used for one-dimensional domains only")
| doc_cylindrical : ms_type (sm_mesh s) = Cylindrical -> (2 < ms_dim (sm_mesh s))%nat ->
    documented s (AttributeError "cylindrical coordinates cannot be used for 3D domains")
(* materials *)
| doc_no_borders m m1 : ms_1d (sm_mesh s) = Some m1 -> (1 < List.length (sm_materials s))%nat ->
    In m (sm_materials s) -> m_borders m = BNone ->
    documented s (ValueError "borders attributes need to be set for multiple 1D domains")
| doc_borders m1 msg : ms_1d (sm_mesh s) = Some m1 -> (exists m, In m (sm_materials s) /\ m_borders m <> BNone) ->
    ~ tiled (sm_materials s) (size m1) -> documented s (ValueError msg)
| doc_materials T msg : sm_T s = Some T -> ~ materials_fit (temp_kind_of T) (sm_materials s) ->
    documented s (ValueError msg)
(* initial conditions *)
| doc_ini k v : In (k, v) (sm_inis s) -> (forall z, In z (assign_traps_ids (map tr_id (sm_traps s))) ->
      k <> KI z /\ k <> KS (str z)) -> ~ In k [KS "solute"; KS "0"; KI 0] ->
    documented s (KeyError "field")
(* traps *)
| doc_trap_material t tg msg : In t (sm_traps s) -> In tg (tr_materials t) ->
    (forall m, ~ refers (sm_materials s) tg m) -> tg <> TagOther -> documented s (ValueError msg)
| doc_trap_duplicate t i j tg tg' m m' : In t (sm_traps s) -> (i < j)%nat ->
    nth_error (tr_materials t) i = Some tg -> nth_error (tr_materials t) j = Some tg' ->
    refers (sm_materials s) tg m -> refers (sm_materials s) tg' m' -> same m m' = true ->
    documented s (ValueError "Duplicate materials in trap")
| doc_trap_henry t m : sm_chem s = true -> In t (sm_traps s) -> lives_in (sm_materials s) t m -> m_law m = Henry ->
    documented s (NotImplementedError "Henry law of solubility is not implemented with traps")
(* exports *)
| doc_adsorbed q : has_quantity s q -> q_kind q = AdsorbedHydrogen ->
    (forall z, q_surface q = Some z -> ~ kinetics_on s z) ->
    documented s (AttributeError "SurfaceKinetics boundary condition must be defined on surface").

(** A material the hydrogen problem uses: one of the simulation or of a trap. *)
Definition in_use (s : sim) (m : material) : Prop :=
  In m (sm_materials s) \/ exists t, In t (sm_traps s) /\ lives_in (sm_materials s) t m.
(** m lacks a property that the heat equation uses. *)
Definition lacks_thermal (transient : bool) (m : material) : Prop :=
  m_thermal m = None \/ (transient = true /\ (m_rho m = None \/ m_heat m = None)).
Definition trap_ids (s : sim) : list Z := assign_traps_ids (map tr_id (sm_traps s)).

(** Other exceptions: what is wrong is only noticed when something fails later. *)
Inductive other (s : sim) : exc -> Prop :=
(* a property that the heat equation needs is missing: None is multiplied *)
| oth_thermal transient ini m msg : sm_T s = Some (THeat transient ini) -> In m (sm_materials s) ->
    lacks_thermal transient m -> other s (TypeError msg)
(* a border is empty or reversed *)
| oth_degenerate m1 msg : ms_1d (sm_mesh s) = Some m1 -> ~ proper_borders (sm_materials s) -> other s (ValueError msg)
(* the ids of a material do not fit its borders (C25) *)
| oth_shape m1 m e msg : ms_1d (sm_mesh s) = Some m1 -> In m (sm_materials s) -> ~ well_shaped m ->
    e = IndexError msg \/ e = TypeError msg -> other s e
(* no solubility with the chemical potential *)
| oth_solubility m msg : sm_chem s = true -> in_use s m -> m_S0 m = None \/ m_ES m = None -> other s (TypeError msg)
(* no heat of transport with the Soret effect *)
| oth_soret m msg : sm_soret s = true -> In m (sm_materials s) -> m_Q m = None -> other s (TypeError msg)
(* dx(l) with a list l: the subdomains of a material or of a source of a trap *)
| oth_list_material m l e : dx_list = Err e -> in_use s m -> m_id m = IdMany l -> other s e
| oth_list_source src e : dx_list = Err e -> In src (sm_sources s) -> s_list src = true -> other s e
(* too few parameters for the materials of a trap *)
| oth_trap_index t i msg : In t (sm_traps s) -> (i < List.length (tr_materials t))%nat -> tr_has t i = false ->
    other s (IndexError msg)
(* not a name nor a Material, which the setter of Trap.materials refuses *)
| oth_trap_tag t msg : In t (sm_traps s) -> In TagOther (tr_materials t) -> other s (TypeError msg)
| oth_no_material msg : sm_materials s = [] -> other s (IndexError msg)
(* the initial temperature is already an f.Expression, see C22 *)
| oth_reconvert v e : sm_T s = Some (THeat true (IniExpression v)) -> reconvert v = Err e -> other s e
(* an initial condition on the i-th trap, if no trap has the id i (C34) *)
| oth_ini_position k v i z msg : In (k, v) (sm_inis s) -> nth_error (trap_ids s) i = Some z ->
    k = KI z \/ k = KS (str z) -> ~ In (Z.of_nat (1 + i)) (trap_ids s) -> other s (ValueError msg)
(* a Dirichlet condition whose field is written as a string, with traps or SurfaceKinetics (C30) *)
| oth_dirichlet b f msg : In b (sm_bcs s) -> bc_kind_of b = Dirichlet -> bc_field b = KS f -> f <> "T" ->
    other s (TypeError msg)
(* TXTExport: single and nested borders are mixed (C21), or there is no dof at all *)
| oth_txt_borders m m' a b msg : In m (sm_materials s) -> In m' (sm_materials s) -> m_borders m = BOne a ->
    m_borders m' = BMany b -> other s (ValueError msg)
| oth_txt_dofs dg msg : dofs dg = [] -> other s (ValueError msg)
(* TXTExport.times in a steady simulation: None.milestones *)
| oth_txt_times x t l msg : sm_transient s = false -> In (ETxt x) (ex_list (sm_exports s)) ->
    tx_times x = Some (t :: l) -> other s (AttributeError msg).
End Spec.

(** * Running a simulation again (C22) *)
Section Rerun.
Context {P S V F W C : Type}.
Local Notation sim := (@sim Q P S V F W C).
Local Notation problem := (@problem Q P S V).
Local Notation export := (export (A:=Q) F W C).
Local Notation exports := (exports (A:=Q) F W C).

(** The same Stepsize after it has been used: only its value can differ. *)
Definition used_dt (dt dt' : option (stepsize Q)) : Prop :=
  match dt, dt' with
  | Some s, Some s' => initial_value s' = initial_value s /\ adaptive_stepsize s' = adaptive_stepsize s /\
                       milestones s' = milestones s
  | None, None => True
  | _, _ => False
  end.
(** The same export after it has been used: its data, header and append flag can differ. *)
Definition used_export (e e' : export) : Prop :=
  match e, e' with
  | EDerived d, EDerived d' =>
      dq_list d' = dq_list d /\ dq_filename d' = dq_filename d /\ dq_compute d' = dq_compute d /\
      dq_exports d' = dq_exports d /\ dq_units d' = dq_units d
  | EXdmf x, EXdmf x' =>
      xd_field x' = xd_field x /\ xd_mode x' = xd_mode x /\ xd_checkpoint x' = xd_checkpoint x /\
      xd_trap x' = xd_trap x
  | ETxt x, ETxt x' =>
      tx_field x' = tx_field x /\ tx_filename x' = tx_filename x /\ tx_times x' = tx_times x /\
      tx_last x' = tx_last x /\ tx_format x' = tx_format x /\ tx_x x' = tx_x x /\
      tx_sample x' = tx_sample x
  | _, _ => False
  end.
Definition used_quantity (q q' : quantity (A:=Q) F W) : Prop :=
  q_kind q' = q_kind q /\ q_field q' = q_field q /\ q_surface q' = q_surface q /\
  q_volume q' = q_volume q /\ q_title q' = q_title q /\ q_assemble q' = q_assemble q.
Definition used_exports (ex ex' : exports) : Prop :=
  Forall2 used_export (ex_list ex) (ex_list ex') /\
  forall i, used_quantity (ex_store ex i) (ex_store ex' i).

(** The same problem is solved. *)
Definition same_problem (p p' : problem) : Prop :=
  (forall sp, pb_sources p' sp = pb_sources p sp) /\ pb_T_bcs p' = pb_T_bcs p /\ pb_h_bcs p' = pb_h_bcs p /\
  pb_markers p' = pb_markers p /\ pb_T_ini p' = pb_T_ini p /\ pb_ids p' = pb_ids p /\
  pb_initial p' = pb_initial p /\ pb_materials p' = pb_materials p /\ pb_constraints p' = pb_constraints p /\
  pb_warnings p' = pb_warnings p.
(** The same simulation, apart from the exports. *)
Definition same_sim (s s' : sim) : Prop :=
  sm_transient s' = sm_transient s /\ sm_final s' = sm_final s /\ sm_chem s' = sm_chem s /\
  sm_soret s' = sm_soret s /\ sm_dg s' = sm_dg s /\ sm_dt s' = sm_dt s /\ sm_T s' = sm_T s /\
  sm_sources s' = sm_sources s /\ sm_bcs s' = sm_bcs s /\ sm_mesh s' = sm_mesh s /\
  sm_materials s' = sm_materials s /\ sm_traps s' = sm_traps s /\ sm_inis s' = sm_inis s /\
  sm_filters s' = sm_filters s /\ (forall sp, sm_attached s' sp = sm_attached s sp).
(** The exports are as new: tables and columns are empty; the append flag of an XDMFExport is not
    mentioned. *)
Definition as_new (e e' : export) : Prop :=
  match e with
  | EXdmf _ => used_export e e'
  | _ => e' = e
  end.
Definition exports_as_new (ex ex' : exports) : Prop :=
  Forall2 as_new (ex_list ex) (ex_list ex') /\
  (forall i, used_quantity (ex_store ex i) (ex_store ex' i)) /\
  (forall d i, In (EDerived d) (ex_list ex') -> In i (dq_list d) ->
     dq_data d = [] /\ dq_t d = [] /\ q_t (ex_store ex' i) = [] /\ q_data (ex_store ex' i) = []).
End Rerun.
