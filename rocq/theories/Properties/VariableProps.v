(** C83: conservation of chemical potential changes the unknown, not the equations of the concentration. *)
From Coq Require Import Reals ZArith List Bool Lra Lia.
From Verif Require Import Base.Exc Base.Dual Model.Materials Model.Laws Model.Theta Model.Forms
  Spec.PhysSpec Spec.BalanceSpec Spec.NeutralSpec Spec.VariableSpec Proofs.LawProofs Proofs.ThetaProofs Proofs.FormProofs
  Proofs.VariableProofs Properties.FormProps Properties.TrapProps.
Import ListNotations.
Local Open Scope R_scope.
Local Open Scope list_scope.

(** The residual of the problem in theta is the residual of the problem in c = S theta (Sieverts) or
    c = S theta^2 (Henry), for all test functions (they are arguments of the forms); any mix of materials,
    traps, sources, fluxes, coordinates, steady or transient, with or without Soret. *)
Theorem C83_change_of_unknown {P} (M : mesh P) mb ms T dt traps soret c c_n S_ ms' F :
  mb_class mb = ClassTheta S_ ms' -> covered M ms -> solubility_field M mb T ms ->
  concentration_fields M mb T ms c c_n -> positive_temperature M T ->
  no_surface_kinetics mb -> (forall t m, In t traps -> In m (t_materials t) -> In m ms) ->
  define_variational_problem M mb ms T dt traps soret = Ok F ->
  exists G, define_variational_problem M (of_concentration mb c c_n) ms T dt traps soret = Ok G /\
    assemble M G = assemble M F.
Proof. intros Hcl Hcov HS Hc HT Hsk Htm. exact (variable_problem M mb T ms c c_n S_ ms' Hcl Hcov HS Hc HT dt traps soret F Hsk Htm). Qed.
Print Assumptions C83_change_of_unknown.

(** Outside the claim: SurfaceKinetics is given theta of the previous step (see C39). *)
Theorem C83_surface_kinetics_refuted : exists (M : mesh nat) mb ms T dt c c_n S_ ms' F G,
  mb_class mb = ClassTheta S_ ms' /\ covered M ms /\ solubility_field M mb T ms /\
  concentration_fields M mb T ms c c_n /\ positive_temperature M T /\
  define_variational_problem M mb ms T dt [] false = Ok F /\
  define_variational_problem M (of_concentration mb c c_n) ms T dt [] false = Ok G /\
  assemble M F <> assemble M G.
Proof.
  exists (mesh_ty Cartesian), still_mobile, two_mats, T_rest, (Some 1), (fun p => dconst (theta_c 1 p)), (fun p => dconst (theta_c 1 p)),
    S_field, [mat_1; mat_2].
  do 2 eexists. split; [reflexivity|]. split; [apply covered_ty|].
  assert (Hm : forall p m, In p (q_cells (mesh_ty Cartesian)) \/ In p (q_facets (mesh_ty Cartesian)) -> In m two_mats ->
    In (q_volume (mesh_ty Cartesian) p) (ids (m_id (attrs m))) ->
    m_law (attrs m) = Sievert /\ m_S0 (attrs m) = Some (Const (S_field p)) /\ m_ES (attrs m) = Some (Const 0)).
  { intros p m Hp Hm Hz. apply mats_of; auto. cbn in Hp |- *; lia. }
  split; [split; [reflexivity|]|split; [|split; [|split; [reflexivity|split; [reflexivity|]]]]].
  - intros p Hp m Hin Hz. destruct (Hm p m Hp Hin Hz) as (Hl & H0 & HE). exists (S_field p), 0. rewrite arrhenius_0. auto.
  - intros p Hp m Hin Hz. destruct (Hm p m Hp Hin Hz) as (Hl & H0 & HE). exists (S_field p), 0.
    split; [exact H0|]. split; [exact HE|]. rewrite Hl. split; (split; [cbn; rewrite arrhenius_0; reflexivity|intros i; cbn; ring]).
  - intros p _. cbn. lra.
  - unfold assemble, integral, points. cbn. rewrite !exp_zero. unfold theta_c, S_field. unfold theta_mobile_concentration, law_marker, rsum. cbn. lra.
Qed.
Print Assumptions C83_surface_kinetics_refuted.

(** ** Example: a Sieverts material and a Henry material, temperature and unknown with gradients. *)
Definition mixed : list mat_obj :=
  [mkMatObj 0 (mkMaterial (IdOne 1) None (Const 1) (Const (1/10)) (Some (Const 2)) (Some (Const 1)) None None None BNone (Some (Const 3)) Sievert);
   mkMatObj 1 (mkMaterial (IdOne 2) None (Const 4) (Const (2/10)) (Some (Const 3)) (Some (Const (1/2))) None None None BNone (Some (Const 2)) Henry)].
Definition T_grad : temperature nat := mkTemp (fun p => mkDual (400 + INR p) (fun _ => 1)) (fun p => mkDual (300 + INR p) (fun _ => 2)).
Definition S_mixed (T : field nat) (p : nat) : R :=
  match p with 1%nat | 3%nat => arrhenius 2 1 (val (T p)) | _ => arrhenius 3 (1/2) (val (T p)) end.
Definition theta_mixed : mobile nat :=
  mobile_1 (ClassTheta (S_mixed (T_T T_grad)) (map attrs mixed)) ones sources_1 bcs_1.
Definition c_mixed (T u : field nat) (p : nat) : dual :=
  let S := S_mixed T p in
  match p with
  | 1%nat | 3%nat => mkDual (val (u p) * S) (fun i => S * 1 * grd (u p) i + val (u p) * S * (1 / (boltzmann * val (T p) ^ 2)) * grd (T p) i)
  | _ => mkDual (val (u p) ^ 2 * S)
           (fun i => S * (2 * val (u p)) * grd (u p) i + val (u p) ^ 2 * S * (1/2 / (boltzmann * val (T p) ^ 2)) * grd (T p) i)
  end.
Example C83_example : let M := mesh_ty Spherical in
  let c := c_mixed (T_T T_grad) (mb_solution theta_mixed) in let c_n := c_mixed (T_Tn T_grad) (mb_previous theta_mixed) in
  covered M mixed /\ solubility_field M theta_mixed T_grad mixed /\ concentration_fields M theta_mixed T_grad mixed c c_n /\
  positive_temperature M T_grad /\ no_surface_kinetics theta_mixed /\
  exists F, define_variational_problem M theta_mixed mixed T_grad (Some 2)
    [mkTrap (Scalar 6) (Scalar 1) (Scalar 2) (Scalar 1) [fun _ => 9] [hd (mkMatObj 0 mat_1) mixed] ones ones ones []] true = Ok F.
Proof.
  intros M c c_n. split; [exact (covered_ty Spherical)|].
  assert (Hp4 : forall p, In p (q_cells M) \/ In p (q_facets M) -> p = 1%nat \/ p = 2%nat \/ p = 3%nat \/ p = 4%nat) by (intros p H; cbn in H; lia).
  split; [split; [reflexivity|]|split; [|split; [|split]]].
  - intros p Hp m Hm Hz. apply Hp4 in Hp as [ -> | [ -> | [ -> | -> ] ] ]; destruct Hm as [<-|[<-|[]]]; cbn in Hz; destruct Hz as [Hz|[]]; try discriminate;
      eexists _, _; (split; [reflexivity|]); (split; [reflexivity|]); reflexivity.
  - intros p Hp m Hm Hz. apply Hp4 in Hp as [ -> | [ -> | [ -> | -> ] ] ]; destruct Hm as [<-|[<-|[]]]; cbn in Hz; destruct Hz as [Hz|[]]; try discriminate;
      eexists _, _; (split; [reflexivity|]); (split; [reflexivity|]); split; (split; [reflexivity|intros i; reflexivity]).
  - intros p Hp. cbn [T_grad T_T T_Tn val]. pose proof (pos_INR p). lra.
  - intros s [H|[H|[H|[]]]]; discriminate.
  - eexists. reflexivity.
Qed.
