(** Test functions of the whole system, their linear combinations, and the nodal equations. *)
From Coq Require Import Reals ZArith List.
From Verif Require Import Base.Exc Base.Dual Model.Materials Model.Laws Model.Theta Model.Forms
  Model.NonlinearProblem Spec.BalanceSpec.
Import ListNotations.
Local Open Scope R_scope.

Fixpoint mapi_from {A B} (f : nat -> A -> B) (i : nat) (l : list A) : list B :=
  match l with
  | [] => []
  | a :: r => f i a :: mapi_from f (S i) r
  end.

Section Weak.
Context {P : Type}.

(** A test function of the mixed space: one component for the mobile species, one for each trap, one for each
    adsorbed species (condition, surface). *)
Record test_functions : Type := mkTests {
  v_mobile : field P;
  v_trap   : nat -> field P;
  v_ads    : nat -> nat -> field P
}.

(** The same problem with other test functions. *)
Definition retest_bc (v : test_functions) (j : nat) (b : bc P) : bc P :=
  match b with
  | BFlux t l f => BFlux t l f
  | BSurf s => BSurf (mkSK (sk_k_sb s) (sk_k_bs s) (sk_J_vs s) (sk_lambda_IS s) (sk_n_surf s) (sk_n_IS s)
      (mapi_from (fun i a => mkAds (a_surface a) (a_solution a) (a_previous a) (v_ads v j i)) 0 (sk_adsorbed s)))
  end.
Definition retest_mobile (mb : mobile P) (v : test_functions) : mobile P :=
  mkMobile (mb_class mb) (mb_solution mb) (mb_previous mb) (v_mobile v) (mb_sources mb)
    (mapi_from (retest_bc v) 0 (mb_bcs mb)).
Definition retest_trap (v : test_functions) (i : nat) (t : trap P) : trap P :=
  mkTrap (t_k0 t) (t_Ek t) (t_p0 t) (t_Ep t) (t_density t) (t_materials t) (t_solution t) (t_previous t)
    (v_trap v i) (t_sources t).
Definition retest_traps (traps : list (trap P)) (v : test_functions) : list (trap P) :=
  mapi_from (retest_trap v) 0 traps.

(** u is the linear combination l of fields, with its gradient. *)
Definition combination_field (l : list (R * field P)) (u : field P) : Prop :=
  forall p, val (u p) = rsum (map (fun q => fst q * val (snd q p)) l) /\
    forall i, grd (u p) i = rsum (map (fun q => fst q * grd (snd q p) i) l).
Definition component (f : test_functions -> field P) (l : list (R * test_functions)) : list (R * field P) :=
  map (fun q => (fst q, f (snd q))) l.
Definition combination (l : list (R * test_functions)) (v : test_functions) : Prop :=
  combination_field (component v_mobile l) (v_mobile v) /\
  (forall i, combination_field (component (fun w => v_trap w i) l) (v_trap v i)) /\
  (forall j i, combination_field (component (fun w => v_ads w j i) l) (v_ads v j i)).
(** The same field in all the components. *)
Definition everywhere (u : field P) : test_functions := mkTests u (fun _ => u) (fun _ _ => u).
(** Every component of v is the volume element. *)
Definition whole (M : mesh P) (v : test_functions) : Prop :=
  is_weight M (v_mobile v) /\ (forall i p, val (v_trap v i p) = weight M p) /\
  (forall j i p, val (v_ads v j i p) = weight M p).
(** r is the residual of the problem tested with v. *)
Definition weak_residual (M : mesh P) (mb : mobile P) (ms : list mat_obj) (T : temperature P) (dt : option R)
    (traps : list (trap P)) (soret : bool) (v : test_functions) (r : R) : Prop :=
  exists F, define_variational_problem M (retest_mobile mb v) ms T dt (retest_traps traps v) soret = Ok F /\
            assemble M F = r.
(** One test function for each degree of freedom, and v = sum of a i * basis i. *)
Definition spanned (N : nat) (a : nat -> R) (basis : nat -> test_functions) (v : test_functions) : Prop :=
  combination (map (fun i => (a i, basis i)) (seq 0 N)) v.
End Weak.
Arguments test_functions : clear implicits.

(** Degree of freedom i has a Dirichlet condition. *)
Definition mentioned (bcs : list (list (nat * R))) (i : nat) : bool :=
  existsb (fun b => existsb (fun q => Nat.eqb (fst q) i) b) bcs.
(** g is its value in the last condition of the list that mentions it. *)
Definition imposed (bcs : list (list (nat * R))) (i : nat) (g : R) : Prop :=
  exists l1 b l2, bcs = l1 ++ b :: l2 /\ In (i, g) b /\ (forall g', In (i, g') b -> g' = g) /\ mentioned l2 i = false.
(** What enters at the constrained degrees of freedom: the sum of a i * r i over them. *)
Definition reactions (bcs : list (list (nat * R))) (N : nat) (a r : nat -> R) : R :=
  rsum (map (fun i => if mentioned bcs i then a i * r i else 0) (seq 0 N)).

(** One step of a run with its vector of unknowns, the Dirichlet conditions, the residuals and the tolerance. *)
Record nodal_step (P : Type) : Type := mkNodal {
  ns_state : step_state P;
  ns_bcs   : list (list (nat * R));
  ns_r     : nat -> R;
  ns_x     : nat -> R;
  ns_eps   : R
}.
Arguments mkNodal {P}. Arguments ns_state {P}. Arguments ns_bcs {P}. Arguments ns_r {P}. Arguments ns_x {P}.
Arguments ns_eps {P}.
Definition nodal_solved {P} (M : mesh P) (ms : list mat_obj) (soret : bool) (N : nat)
    (basis : nat -> test_functions P) (s : nodal_step P) : Prop :=
  let st := ns_state s in
  concentrations M (st_mb st) (st_T st) ms (st_c st) (st_cn st) /\ solubility_field M (st_mb st) (st_T st) ms /\
  positive_temperature M (st_T st) /\ no_surface_kinetics (st_mb st) /\ 0 < st_dt st /\
  (forall i, (i < N)%nat ->
     weak_residual M (st_mb st) ms (st_T st) (Some (st_dt st)) (st_traps st) soret (basis i) (ns_r s i)) /\
  (forall i, (i < N)%nat -> Rabs (problem_F (ns_bcs s) (ns_r s) (ns_x s) i) <= ns_eps s).
