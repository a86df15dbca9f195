(** What the equations need from their inputs. *)
From Coq Require Import Reals ZArith List.
From Verif Require Import Base.Exc Base.Dual Model.Materials Model.Theta Model.Forms.
Import ListNotations.

Section Build.
Context {P : Type}.

(** A number; a number or a function. *)
Definition constant (p : option prop) : Prop := exists r, p = Some (Const r).
Definition present {A} (p : option A) : Prop := p <> None.
Definition one_id (i : mat_id) : Prop := exists z, i = IdOne z.

Definition with_potential (mb : mobile P) : Prop := mb_class mb <> ClassMobile.
Definition has_solubility (m : mat) : Prop := constant (m_S0 m) /\ constant (m_ES m).

(** A material of the simulation. *)
Definition material_ready (mb : mobile P) (soret : bool) (m : mat) : Prop :=
  constant (Some (m_D0 m)) /\ constant (Some (m_ED m)) /\
  (with_potential mb -> has_solubility m) /\ (soret = true -> present (m_Q m)).

(** The parameters of a trap in its material number i: all lists, or all numbers. *)
Definition has_entry (a : arg) (i : nat) : Prop := match a with PerMat l => (i < length l)%nat | Scalar _ => False end.
Definition is_number (a : arg) : Prop := match a with Scalar _ => True | PerMat _ => False end.
Definition entry_ready (t : trap P) (i : nat) : Prop :=
  (has_entry (t_k0 t) i /\ has_entry (t_Ek t) i /\ has_entry (t_p0 t) i /\ has_entry (t_Ep t) i /\
   (i < length (t_density t))%nat) \/
  (is_number (t_k0 t) /\ is_number (t_Ek t) /\ is_number (t_p0 t) /\ is_number (t_Ep t) /\ t_density t <> []).
Definition trap_ready (mb : mobile P) (ms : list mat_obj) (dt : option R) (t : trap P) : Prop :=
  (forall i m, nth_error (t_materials t) i = Some m ->
     entry_ready t i /\ one_id (m_id (attrs m)) /\
     (with_potential mb -> has_solubility (attrs m) /\ m_law (attrs m) <> Henry)) /\
  (forall s, In s (t_sources t) -> one_id (s_volume s)) /\
  (dt = None -> forall m, In m ms -> (forall x, In x (t_materials t) -> uid x <> uid m) -> one_id (m_id (attrs m))).

Definition ready (mb : mobile P) (ms : list mat_obj) (dt : option R) (traps : list (trap P)) (soret : bool) : Prop :=
  (forall m, In m ms -> material_ready mb soret (attrs m)) /\ (forall t, In t traps -> trap_ready mb ms dt t).

(** The heat equation. *)
Definition heat_ready (transient : bool) (m : mat) : Prop :=
  present (m_thermal m) /\ (transient = true -> present (m_heat m) /\ present (m_rho m)).
Definition reads_solute (f : flux P) : bool :=
  match f with RecombinationFlux _ _ _ | MassFlux _ _ => true | _ => false end.
End Build.
