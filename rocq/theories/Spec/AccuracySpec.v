(** What something should do that is supplied at the constant rate [g] and disappears in proportion to its amount. *)
From Coq Require Import Reals ZArith List.
From Verif Require Import Base.Dual Model.Materials Model.Laws Model.Theta Model.Forms Spec.PhysSpec Spec.BalanceSpec.
Import ListNotations.
Local Open Scope R_scope.

(** y' = g - l y from the time 0, starting with [y0]. *)
Definition evolves (g l y0 : R) (y : R -> R) : Prop :=
  y 0 = y0 /\ forall t, 0 <= t -> derivable_pt_lim y t (g - l * y t).
(** The time after [n] steps of a run. *)
Fixpoint clock (dt : nat -> R) (n : nat) : R :=
  match n with O => 0 | S n => clock dt n + dt n end.

Section Accuracy.
Context {P : Type}.

(** Sources of constant values: what they supply in all. *)
Definition production (M : mesh P) (ss : list (source P)) : R :=
  sum_over ss (fun s => sum_over (ids (s_volume s)) (fun z => total_in M z (s_value s))).
(** A list of sources that produces hydrogen at the total rate [g], and makes that of every volume decay. *)
Definition produces_and_decays (M : mesh P) (g l : R) (ss : list (source P)) : Prop :=
  exists steady decays, ss = steady ++ decays /\
    (forall s, In s steady -> s_decay s = None) /\ production M steady = g /\
    (forall s, In s decays -> s_decay s = Some l) /\
    NoDup (flat_map (fun s => ids (s_volume s)) decays) /\
    (forall p, In p (q_cells M) -> In (q_volume M p) (flat_map (fun s => ids (s_volume s)) decays)).
(** Every species decays with the constant [l]; the sources of all of them together produce [g]. *)
Definition closed_and_radioactive (M : mesh P) (g l : R) (mb : mobile P) (traps : list (trap P)) : Prop :=
  mb_bcs mb = nil /\
  exists g0 gs, produces_and_decays M g0 l (mb_sources mb) /\
    Forall2 (fun t g => produces_and_decays M g l (t_sources t)) traps gs /\ g = g0 + fold_right Rplus 0 gs.
End Accuracy.
