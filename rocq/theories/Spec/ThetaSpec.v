(** Solubilities and chemical potentials, stated on the attributes of the materials. *)
From Coq Require Import Reals ZArith List.
From Verif Require Import Model.Materials Model.Theta Spec.PhysSpec.
Import ListNotations.
Local Open Scope R_scope.

(** The material has solubility S > 0 at temperature T. *)
Definition has_solubility (m : mat) (T S : R) : Prop :=
  exists S_0 E_S, m_S0 m = Some (Const S_0) /\ m_ES m = Some (Const E_S) /\ 0 < S_0 /\
                  S = arrhenius S_0 E_S T.

(** Cells of marker z belong to m, and no id is used twice in the list. *)
Definition owner (ms : list mat) (m : mat) (z : Z) : Prop :=
  NoDup (flat_map (fun m => ids (m_id m)) ms) /\ In m ms /\ In z (ids (m_id m)).
