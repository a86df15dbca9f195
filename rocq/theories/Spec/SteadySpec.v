(** Vocabulary for steady runs: what an export needs in order to be written. *)
From Coq Require Import ZArith List Bool String.
From Verif Require Import Base.Num Model.Paths Model.Exports Model.Steady.
Import ListNotations.

Section Spec.
Context {A F V C : Type}.
Variable is_function : F -> bool.

(** The file can be created: it is named with a directory. *)
Definition has_folder (filename : string) : Prop := dirname filename <> EmptyString.

(** The field of the quantity exists and has the type the quantity expects. *)
Definition readable (d : dict F) (q : quantity (A:=A) F V) : Prop :=
  match q_kind q with
  | MaximumSurface | MinimumSurface => False
  | AdsorbedHydrogen =>
      exists l surf, lookup d (q_field q) = Some (FAds l) /\ q_surface q = Some surf /\
        (exists sols surfs, In (sols, surfs) l /\ In surf surfs) /\
        (forall sols surfs, In (sols, surfs) l -> List.length sols = List.length surfs)
  | SurfaceFlux | HydrogenFlux | ThermalFlux =>
      exists f, lookup d (q_field q) = Some (FFun f) /\
        In (q_field q) [LStr "0"; LStr "solute"; LInt 0; LStr "T"]
  | SurfaceFluxCylindrical | SurfaceFluxSpherical =>
      exists f, lookup d (q_field q) = Some (FFun f) /\ is_function f = true /\
        In (q_field q) [LStr "0"; LStr "solute"; LInt 0; LStr "T"]
  | AverageVolume | AverageSurface | TotalVolume | TotalSurface | MaximumVolume | MinimumVolume | PointValue =>
      exists f, lookup d (q_field q) = Some (FFun f)
  | _ => exists f, lookup d (q_field q) = Some (FFun f) /\ is_function f = true
  end.

(** The export can be written in a steady run with the fields d. *)
Definition ready (s : store (A:=A) F V) (d : dict F) (e : export (A:=A) F V C) : Prop :=
  match e with
  | EXdmf x => (exists n, xd_mode x = Every n /\ (0 < n)%Z) /\ exists f, lookup d (xd_field x) = Some (FFun f)
  | ETxt x =>
      (tx_times x = None \/ tx_times x = Some []) /\ (exists f, lookup d (tx_field x) = Some (FFun f)) /\
      exists name, tx_filename x = Some name /\ has_folder name
  | EDerived dq =>
      (0 < dq_compute dq)%Z /\ (forall fn, dq_filename dq = Some fn -> has_folder fn) /\
      forall q, In q (dq_list dq) -> readable d (s q)
  end.

(** What was written, if the exports were. *)
Definition output (o : outcome (A:=A) (F:=F) (V:=V) (C:=C)) : option (export_state (A:=A) F V C) :=
  match o with Completed e | Diverged _ e => Some e | Raised _ => None end.
End Spec.
