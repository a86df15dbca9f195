(** Inputs that describe no physical effect. *)
From Coq Require Import Reals ZArith List.
From Verif Require Import Base.Exc Base.Dual Model.Materials Model.Laws Model.Theta Model.Forms Spec.PhysSpec Spec.BalanceSpec.
Import ListNotations.
Local Open Scope R_scope.

Section Neutral.
Context {P : Type}.
Implicit Types (M : mesh P).

(** No thermal diffusion: at each point the temperature is uniform or the heat of transport is zero. *)
Definition no_soret M (T : temperature P) (ms : list mat_obj) : Prop :=
  forall p, In p (q_cells M) ->
  (forall i, (i < q_dim M)%nat -> grd (T_T T p) i = 0) \/
  (forall m, In m ms -> In (q_volume M p) (ids (m_id (attrs m))) ->
   m_Q (attrs m) = Some (Const 0) \/ exists f, m_Q (attrs m) = Some (Fun f) /\ f (val (T_T T p)) = 0).

(** Unit solubility: concentration and chemical potential are the same number. *)
Definition unit_solubility (m : mat) : Prop :=
  m_S0 m = Some (Const 1) /\ m_ES m = Some (Const 0) /\ m_law m = Sievert.

(** The same mobile species without conservation of chemical potential. *)
Definition plain (mb : mobile P) : mobile P :=
  mkMobile ClassMobile (mb_solution mb) (mb_previous mb) (mb_test mb) (mb_sources mb) (mb_bcs mb).

(** A trap that holds nothing: no sites, no hydrogen now and before, nothing produced. *)
Definition empty_trap (t : trap P) : Prop :=
  (forall n, In n (t_density t) -> forall p, n p = 0) /\
  (forall p, val (t_solution t p) = 0) /\ (forall p, val (t_previous t p) = 0) /\
  (forall s, In s (t_sources t) -> s_decay s <> None \/ forall p, s_value s p = 0).

(** A source that produces nothing and a flux condition that lets nothing through, for the concentration c. *)
Definition null_source M (s : source P) : Prop :=
  s_decay s = None /\ forall p, In p (q_cells M) -> In (q_volume M p) (ids (s_volume s)) -> s_value s p = 0.
Definition null_flux M (T : temperature P) (c : P -> R) (surfaces : list Z) (f : flux P) : Prop :=
  forall p, In p (q_facets M) -> In (q_surface M p) surfaces -> flux_into f (val (T_T T p)) (c p) p = 0.

(** The same species with one more source or flux condition, anywhere in the list. *)
Definition with_sources (mb : mobile P) (l : list (source P)) : mobile P :=
  mkMobile (mb_class mb) (mb_solution mb) (mb_previous mb) (mb_test mb) l (mb_bcs mb).
Definition with_bcs (mb : mobile P) (l : list (bc P)) : mobile P :=
  mkMobile (mb_class mb) (mb_solution mb) (mb_previous mb) (mb_test mb) (mb_sources mb) l.
End Neutral.
