(** Why Exports.write can fail, and the class of the error that tells it. *)
From Coq Require Import ZArith List String.
From Verif Require Import Base.Exc Base.Num Model.Exports Spec.SteadySpec Model.Stepsize Model.TimeLoop.
Import ListNotations.
Local Open Scope string_scope.

Section Write.
Context {A F V C : Type}.
Variable is_function : F -> bool.

(** What the fields stand for (D), the quantities (S), and the final time of the simulation (None: steady). *)
Variable D : dict F.
Variable S : nat -> quantity (A:=A) F V.
Variable final : option A.

Definition stands_for (k : label) (v : fval F) : Prop := exists d d', D = (d ++ (k, v) :: d')%list /\ forall w, ~ In (k, w) d.
Definition unknown (k : label) : Prop := forall v, ~ In (k, v) D.
Definition a_function (v : fval F) : Prop := exists f, v = FFun f /\ is_function f = true.
Definition a_list (v : fval F) : Prop := exists l, v = FAds l.

(** Quantity i is asked for by the DerivedQuantities d. *)
Definition asked (d : derived (A:=A) V) (i : nat) : Prop := In i (dq_list d).
Definition in_volume (k : qkind) : Prop := k = MaximumVolume \/ k = MinimumVolume.
Definition on_surface (k : qkind) : Prop := k = MaximumSurface \/ k = MinimumSurface.
Definition a_flux (k : qkind) : Prop :=
  In k [SurfaceFlux; SurfaceFluxCylindrical; SurfaceFluxSpherical; HydrogenFlux; ThermalFlux].
Definition curvilinear (k : qkind) : Prop :=
  In k [AverageVolumeCylindrical; AverageVolumeSpherical; AverageSurfaceCylindrical; SurfaceFluxCylindrical;
        SurfaceFluxSpherical; TotalVolumeCylindrical; TotalVolumeSpherical; TotalSurfaceCylindrical; TotalSurfaceSpherical].
Definition with_flux (k : label) : Prop := In k [LStr "0"; LStr "solute"; LInt 0; LStr "T"].

Inductive write_cause : export (A:=A) F V C -> exc -> Prop :=
(* an interval is 0 *)
| IntervalZero d : dq_compute d = 0%Z \/ dq_exports d = Some 0%Z -> write_cause (EDerived d) ZeroDivisionError
| ModeZero x : xd_mode x = Every 0 -> write_cause (EXdmf x) ZeroDivisionError
(* mode "last" in a steady simulation *)
| LastSteady x m : xd_mode x = Last -> final = None -> write_cause (EXdmf x) (TypeError m)
(* a field that is not one of the simulation *)
| UnknownXdmf x m : unknown (xd_field x) -> write_cause (EXdmf x) (KeyError m)
| UnknownTxt x m : unknown (tx_field x) -> write_cause (ETxt x) (KeyError m)
| UnknownQuantity d i m : asked d i -> unknown (q_field (S i)) -> write_cause (EDerived d) (KeyError m)
(* the flux of something that has none *)
| NoFlux d i m : asked d i -> a_flux (q_kind (S i)) -> ~ with_flux (q_field (S i)) -> write_cause (EDerived d) (KeyError m)
(* MaximumSurface, MinimumSurface *)
| SurfaceExtremum d i m : asked d i -> on_surface (q_kind (S i)) -> write_cause (EDerived d) (TypeError m)
(* AdsorbedHydrogen of another field, or where nothing is adsorbed *)
| NotAdsorbed d i m : asked d i -> q_kind (S i) = AdsorbedHydrogen ->
    q_surface (S i) = None \/ (forall l, ~ stands_for (q_field (S i)) (FAds l)) -> write_cause (EDerived d) (TypeError m)
| NowhereAdsorbed d i l z m : asked d i -> q_kind (S i) = AdsorbedHydrogen -> q_surface (S i) = Some z ->
    stands_for (q_field (S i)) (FAds l) -> (forall a, In a l -> ~ In z (snd a)) -> write_cause (EDerived d) (TypeError m)
| FewSolutions d i l a m : asked d i -> q_kind (S i) = AdsorbedHydrogen -> stands_for (q_field (S i)) (FAds l) ->
    In a l -> (List.length (fst a) < List.length (snd a))%nat -> write_cause (EDerived d) (IndexError m)
(* "adsorbed" where a function is needed *)
| ListXdmf x v m : xd_field x = LStr "retention" -> stands_for (xd_field x) v -> a_list v -> write_cause (EXdmf x) (TypeError m)
| ListTxt x v m : stands_for (tx_field x) v -> a_list v -> write_cause (ETxt x) (TypeError m)
| ListVolume d i v m : asked d i -> in_volume (q_kind (S i)) -> stands_for (q_field (S i)) v -> a_list v ->
    write_cause (EDerived d) (TypeError m)
(* a curvilinear quantity whose field is an expression, not a function *)
| NotFunction d i v m : asked d i -> curvilinear (q_kind (S i)) -> q_r (S i) = false -> stands_for (q_field (S i)) v ->
    ~ a_function v -> write_cause (EDerived d) (AttributeError m)
(* files: no directory in the name, no name, not initialised *)
| NoFolderCsv d n m : dq_filename d = Some n -> ~ has_folder n -> write_cause (EDerived d) (FileNotFoundError m)
| NoFolderTxt x n m : tx_filename x = Some n -> ~ has_folder n -> write_cause (ETxt x) (FileNotFoundError m)
| NoName x m : tx_filename x = None -> write_cause (ETxt x) (TypeError m)
| NotInitialised x m : tx_data x = None \/ tx_header x = None -> write_cause (ETxt x) (TypeError m).
End Write.

(** Why a time step can fail: the solver diverged with an adaptive stepsize, its ratio is 0, or the user's function
    giving the maximum stepsize fails. *)
Inductive step_cause {A} {N : Num A} {U} (s : stepsize A) (sched : list (list (attempt U))) : exc -> Prop :=
| Diverged a atts at_ m : adaptive_stepsize s = Some a -> In atts sched -> In at_ atts -> at_conv at_ = false ->
    step_cause s sched (ValueError m)
| ZeroRatio a : adaptive_stepsize s = Some a -> neqb (change_ratio a) n0 = true -> step_cause s sched ZeroDivisionError
| UserFunction a f t e : adaptive_stepsize s = Some a -> max_stepsize a = MaxFun f -> f t = Err e -> step_cause s sched e.
