(** Traps of the same kind taken together, and a trap divided in parts. *)
From Coq Require Import Reals ZArith List.
From Verif Require Import Base.Exc Base.Dual Model.Materials Model.Theta Model.Forms.
Import ListNotations.
Local Open Scope R_scope.

Section Merge.
Context {P : Type}.

(** Same energies, frequencies and materials, same test function; no decay. *)
Definition same_kind (t u : trap P) : Prop :=
  t_k0 u = t_k0 t /\ t_Ek u = t_Ek t /\ t_p0 u = t_p0 t /\ t_Ep u = t_Ep t /\ t_materials u = t_materials t /\
  t_test u = t_test t /\ List.length (t_density u) = List.length (t_density t) /\
  forall s, In s (t_sources t) \/ In s (t_sources u) -> s_decay s = None.

(** One trap with the sites, the hydrogen and the sources of both. *)
Definition together (t u : trap P) : trap P :=
  mkTrap (t_k0 t) (t_Ek t) (t_p0 t) (t_Ep t)
    (map (fun nn p => fst nn p + snd nn p) (combine (t_density t) (t_density u))) (t_materials t)
    (fun p => dadd (t_solution t p) (t_solution u p)) (fun p => dadd (t_previous t p) (t_previous u p))
    (t_test t) (t_sources t ++ t_sources u).

(** A trap with the fraction a of the sites, hydrogen and sources (decay keeps its constant). *)
Definition part_source (a : R) (s : source P) : source P := mkSource (s_volume s) (fun p => a * s_value s p) (s_decay s).
Definition fraction (a : R) (t : trap P) : trap P :=
  mkTrap (t_k0 t) (t_Ek t) (t_p0 t) (t_Ep t) (map (fun n p => a * n p) (t_density t)) (t_materials t)
    (fun p => dmul (dconst a) (t_solution t p)) (fun p => dmul (dconst a) (t_previous t p)) (t_test t)
    (map (part_source a) (t_sources t)).
End Merge.
