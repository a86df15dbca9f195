(** Conglomerated traps: one Trap object with lists of parameters, against one Trap per material. *)
From Coq Require Import Reals ZArith List Bool.
From Verif Require Import Base.Exc Base.Dual Model.Materials Model.Theta Model.Forms.
Import ListNotations.
Local Open Scope R_scope.

Section Split.
Context {P : Type}.

(** The parameters in one material. *)
Record entry : Type := mkEntry {
  e_k0 : R; e_Ek : R; e_p0 : R; e_Ep : R;
  e_density : P -> R;
  e_mat : mat_obj
}.

(** Trap(k_0=[...], E_k=[...], p_0=[...], E_p=[...], materials=[...], density=[...]) *)
Definition conglomerated (es : list entry) (sol prev test : field P) : trap P :=
  mkTrap (PerMat (map e_k0 es)) (PerMat (map e_Ek es)) (PerMat (map e_p0 es)) (PerMat (map e_Ep es))
    (map e_density es) (map e_mat es) sol prev test [].

(** The part of a field in a material. *)
Definition inside (M : mesh P) (m : mat_obj) (p : P) : bool :=
  existsb (Z.eqb (q_volume M p)) (ids (m_id (attrs m))).
Definition part (M : mesh P) (m : mat_obj) (f : field P) : field P :=
  fun p => if inside M m p then f p else dconst 0.

(** Trap(k_0, E_k, p_0, E_p, material, density) *)
Definition single (e : entry) (sol prev test : field P) : trap P :=
  mkTrap (Scalar (e_k0 e)) (Scalar (e_Ek e)) (Scalar (e_p0 e)) (Scalar (e_Ep e))
    [e_density e] [e_mat e] sol prev test [].
Definition separate (M : mesh P) (es : list entry) (sol prev test : field P) : list (trap P) :=
  map (fun e => single e (part M (e_mat e) sol) (part M (e_mat e) prev) test) es.

(** Materials are told apart by their identity as well as by their ids. *)
Definition identified (ms : list mat_obj) (es : list entry) : Prop :=
  NoDup (flat_map (fun e => ids (m_id (attrs (e_mat e)))) es) /\
  forall m e, In m ms -> In e es ->
    (uid m = uid (e_mat e) -> m = e_mat e) /\
    (forall z, In z (ids (m_id (attrs m))) -> In z (ids (m_id (attrs (e_mat e)))) -> m = e_mat e).

(** The trap is empty outside its materials. *)
Definition empty_outside (M : mesh P) (es : list entry) (f : field P) : Prop :=
  forall p, In p (q_cells M) -> (forall e, In e es -> inside M (e_mat e) p = false) -> val (f p) = 0.
End Split.
Arguments entry P : clear implicits.
