(** The hydrogen budget as it is read from the exported totals. *)
From Coq Require Import Reals ZArith List String.
From Verif Require Import Base.Exc Base.Key Base.Dual Model.Materials Model.Exports Model.Laws Model.Theta Model.Forms
  Model.Quantities Model.Fields Model.PostProcess Spec.BalanceSpec.
Import ListNotations.
Local Open Scope R_scope.

Section Budget.
Context {P : Type}.
Implicit Types (M : mesh P) (s : step_state P).

(** The sum of two fields, the zero field (generic_simulation.py L563-566: sum of a list of functions). *)
Definition plus_field (u v : field P) : field P := fun p => dadd (u p) (v p).
Definition no_field : field P := fun _ => dconst 0.
(** A context that computes quantities of the field u. *)
Definition about (x : context P) (u : field P) : context P :=
  mkCtx u (x_D x) (x_cond x) (x_Q x) (x_T x) (x_n x) (x_soret x).

(** Volume element restricted to one volume.  The space of the exported concentration contains them (piecewise
    linear functions do, in Cartesian and cylindrical coordinates). *)
Definition weight_in M (z : Z) (p : P) : R := if Z.eqb (q_volume M p) z then weight M p else 0.
Definition has_weights M (W : (P -> R) -> Prop) : Prop := forall z, W (weight_in M z).

(** The residual of the step is zero on the volume element (as [solved], surface kinetics allowed). *)
Definition solved_step M (ms : list mat_obj) (soret : bool) s : Prop :=
  concentrations M (st_mb s) (st_T s) ms (st_c s) (st_cn s) /\ solubility_field M (st_mb s) (st_T s) ms /\
  positive_temperature M (st_T s) /\ tests M (st_mb s) (st_traps s) /\ 0 < st_dt s /\
  define_variational_problem M (st_mb s) ms (st_T s) (Some (st_dt s)) (st_traps s) soret = Ok (st_form s) /\
  assemble M (st_form s) = 0.

(** vs: what the quantities "total retention" of class k of the volumes l print after the step s. *)
Definition prints_retention M (W : (P -> R) -> Prop) (k : qkind) (az pol : option (R * R)) (ids l : list Z) s
    (vs : list R) : Prop :=
  exists V (x : context P) cm u (qs : list (dquantity P)),
    mobile_post_processing M W (st_mb s) cm /\ NoDup ids /\ List.length ids = List.length (st_traps s) /\
    dict_get (label_to_function no_field plus_field cm (fun i => nth (pred i) (map t_solution (st_traps s)) no_field) ids)
      (KS "retention") = Some u /\
    Forall2 (fun z q => make_quantity k (LStr "retention") (IdInt z) az pol = Ok q) l qs /\
    Forall2 (fun q v => compute M V (about x u) q = Ok v) qs vs.
End Budget.
