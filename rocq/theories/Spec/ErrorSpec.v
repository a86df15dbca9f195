(** Why the equations cannot be built, and the class of the error that tells it. *)
From Coq Require Import Reals ZArith List.
From Verif Require Import Base.Exc Base.Dual Model.Materials Model.Theta Model.Forms Spec.BuildSpec.
Import ListNotations.

Section Error.
Context {P : Type}.

Definition params (t : trap P) : list arg := [t_k0 t; t_Ek t; t_p0 t; t_Ep t].

(** Some parameters of the trap are lists, others are numbers. *)
Definition mixed (t : trap P) : Prop :=
  exists a b, In a (params t) /\ In b (params t) /\ is_number a /\ ~ is_number b.
(** A list of the trap has fewer entries than the trap has materials; with lists the same for its densities, with
    numbers there is no density. *)
Definition too_short (t : trap P) : Prop :=
  (exists l, In (PerMat l) (params t) /\ (length l < length (t_materials t))%nat) \/
  ((forall a, In a (params t) -> ~ is_number a) /\ (length (t_density t) < length (t_materials t))%nat) \/
  ((forall a, In a (params t) -> is_number a) /\ t_density t = []).
(** An id which is a list is used as one number. *)
Definition many_ids (i : mat_id) : Prop := exists l, i = IdMany l.

Inductive cause (mb : mobile P) (ms : list mat_obj) (traps : list (trap P)) (soret : bool) : exc -> Prop :=
| Missing x m : In m ms -> ~ material_ready mb soret (attrs m) -> cause mb ms traps soret (TypeError x)
| MissingTrap x t m : In t traps -> In m (t_materials t) -> with_potential mb -> ~ has_solubility (attrs m) ->
    cause mb ms traps soret (TypeError x)
| Mixed x t : In t traps -> mixed t -> cause mb ms traps soret (TypeError x)
| Short x t : In t traps -> too_short t -> cause mb ms traps soret (IndexError x)
| ManyIds x m : In m ms \/ (exists t, In t traps /\ In m (t_materials t)) -> many_ids (m_id (attrs m)) ->
    cause mb ms traps soret (RuntimeError x)
| ManySource x t s : In t traps -> In s (t_sources t) -> many_ids (s_volume s) -> cause mb ms traps soret (RuntimeError x)
| HenryTrap x t m : In t traps -> In m (t_materials t) -> with_potential mb -> m_law (attrs m) = Henry ->
    cause mb ms traps soret (NotImplementedError x).

Inductive heat_cause (transient : bool) (ms : list mat_obj) (bcs : list (list Z * flux P)) : exc -> Prop :=
| HeatMissing x m : In m ms -> ~ heat_ready transient (attrs m) -> heat_cause transient ms bcs (TypeError x)
| HeatSolute x b : In b bcs -> reads_solute (snd b) = true -> heat_cause transient ms bcs (TypeError x).
End Error.
