(** C82: inputs that describe no physical effect do not change the equations. *)
From Coq Require Import Reals ZArith List Bool Lra Lia.
From Verif Require Import Base.Exc Base.Dual Model.Materials Model.Laws Model.Theta Model.Forms
  Spec.PhysSpec Spec.BalanceSpec Spec.NeutralSpec Proofs.LawProofs Proofs.ThetaProofs Proofs.FormProofs Proofs.SplitProofs
  Proofs.NeutralProofs Properties.FormProps Properties.TrapProps.
Import ListNotations.
Local Open Scope R_scope.
Local Open Scope list_scope.

Section Props.
Context {P : Type}.
Implicit Types (M : mesh P).

(** soret=True where the temperature is uniform or the heat of transport is zero. *)
Theorem C82_soret M mb ms T dt traps F :
  no_soret M T ms -> define_variational_problem M mb ms T dt traps true = Ok F ->
  exists G, define_variational_problem M mb ms T dt traps false = Ok G /\ assemble M G = assemble M F.
Proof. exact (soret_neutral M mb ms T dt traps F). Qed.

(** chemical_pot=True with a solubility of 1 everywhere (Sieverts). *)
Theorem C82_unit_solubility M mb ms T dt traps soret S_ ms' F :
  mb_class mb = ClassTheta S_ ms' -> covered M ms -> solubility_field M mb T ms ->
  (forall m, In m ms -> unit_solubility (attrs m)) ->
  (forall t m, In t traps -> In m (t_materials t) -> unit_solubility (attrs m)) ->
  define_variational_problem M (plain mb) ms T dt traps soret = Ok F ->
  exists G, define_variational_problem M mb ms T dt traps soret = Ok G /\ assemble M G = assemble M F.
Proof. exact (unit_neutral M mb ms T dt traps soret S_ ms' F). Qed.

(** A trap without sites and without hydrogen. *)
Theorem C82_empty_trap M mb ms T dt l1 t l2 soret F :
  empty_trap t -> define_variational_problem M mb ms T dt (l1 ++ t :: l2) soret = Ok F ->
  exists G, define_variational_problem M mb ms T dt (l1 ++ l2) soret = Ok G /\ assemble M G = assemble M F.
Proof. exact (empty_trap_neutral M mb ms T dt l1 t l2 soret F). Qed.

(** A source of value 0. *)
Theorem C82_null_source M mb ms T dt traps soret l1 s l2 F :
  null_source M s -> define_variational_problem M (with_sources mb (l1 ++ s :: l2)) ms T dt traps soret = Ok F ->
  exists G, define_variational_problem M (with_sources mb (l1 ++ l2)) ms T dt traps soret = Ok G /\ assemble M G = assemble M F.
Proof.
  intros Hs. set (a := with_sources mb (l1 ++ s :: l2)). set (b := with_sources mb (l1 ++ l2)).
  unfold define_variational_problem, mobile_create_form.
  change (create_diffusion_form M b ms T dt traps soret) with (create_diffusion_form M a ms T dt traps soret).
  destruct (create_diffusion_form M a ms T dt traps soret) as [F1|e]; cbn [bind]; [|discriminate].
  change (sum_forms (trap_create_form b ms T dt) traps) with (sum_forms (trap_create_form a ms T dt) traps).
  destruct (sum_forms (trap_create_form a ms T dt) traps) as [F2|e]; cbn [bind]; [|discriminate].
  intros H. apply Ok_inj in H. subst F. eexists. split; [reflexivity|]. rewrite !assemble_app. f_equal. f_equal. f_equal.
  unfold create_mobile_source_form. cbn [mb_sources a b with_sources]. rewrite !flat_map_app, !assemble_app. cbn [flat_map].
  rewrite assemble_app, (null_source_terms M a s Hs), Rplus_0_l. reflexivity.
Qed.

(** A flux condition that lets nothing through. *)
Theorem C82_null_flux M mb ms T dt traps soret l1 surfaces f l2 c c_n F :
  covered M ms -> concentrations M mb T ms c c_n -> solubility_field M mb T ms -> positive_temperature M T ->
  null_flux M T c surfaces f ->
  define_variational_problem M (with_bcs mb (l1 ++ BFlux false surfaces f :: l2)) ms T dt traps soret = Ok F ->
  exists G, define_variational_problem M (with_bcs mb (l1 ++ l2)) ms T dt traps soret = Ok G /\ assemble M G = assemble M F.
Proof.
  intros Hcov Hc HS HT Hn. set (a := with_bcs mb (l1 ++ BFlux false surfaces f :: l2)). set (b := with_bcs mb (l1 ++ l2)).
  unfold define_variational_problem, mobile_create_form.
  change (create_diffusion_form M b ms T dt traps soret) with (create_diffusion_form M a ms T dt traps soret).
  destruct (create_diffusion_form M a ms T dt traps soret) as [F1|e]; cbn [bind]; [|discriminate].
  change (sum_forms (trap_create_form b ms T dt) traps) with (sum_forms (trap_create_form a ms T dt) traps).
  destruct (sum_forms (trap_create_form a ms T dt) traps) as [F2|e]; cbn [bind]; [|discriminate].
  intros H. apply Ok_inj in H. subst F. eexists. split; [reflexivity|]. rewrite !assemble_app. f_equal. f_equal. f_equal.
  unfold create_fluxes_form. cbn [mb_bcs a b with_bcs]. rewrite !flat_map_app, !assemble_app. cbn [flat_map].
  rewrite assemble_app, (null_flux_terms M a T dt c surfaces f HT); [rewrite Rplus_0_l; reflexivity| |exact Hn].
  intros p Hp. apply (mobile_concentration_val M mb T ms c c_n p Hcov Hc HS). now right.
Qed.

(** Heat problem: a source of value 0 and a flux condition that lets nothing through. *)
Theorem C82_heat M transient dt T T_n v ms s1 s s2 b1 surfaces f b2 F :
  (forall p, In p (q_facets M) -> 0 < val (T p)) -> null_source M s -> null_flux M (mkTemp T T_n) (fun _ => 0) surfaces f ->
  heat_form M transient dt T T_n v ms (s1 ++ s :: s2) (b1 ++ (surfaces, f) :: b2) = Ok F ->
  exists G, heat_form M transient dt T T_n v ms (s1 ++ s2) (b1 ++ b2) = Ok G /\ assemble M G = assemble M F.
Proof.
  intros HT [_ Hs] Hf. unfold heat_form. cbv zeta.
  destruct (sum_forms (heat_material_form M transient dt T T_n v) ms) as [F1|e]; cbn [bind]; [|discriminate].
  match goal with |- bind ?x _ = _ -> _ => destruct x as [F2|e] eqn:H2; cbn [bind]; [|discriminate] end.
  destruct (sum_forms_insert M _ _ _ _ _ H2) as (G2 & -> & HA2).
  { intros K. cbn [fst snd]. unfold heat_flux_form.
    assert (Hk : forall g, g = flux_form f T (fun _ => 0) ->
      assemble M (map (fun surf => (Ds surf, fun p => - g p * val (v p))) surfaces) = 0).
    { intros g ->. rewrite assemble_map. unfold sum_over. apply rsum_map_zero. intros z Hz. cbn [fst snd].
      apply integral_zero. intros p Hp. apply in_points_facets in Hp as [Hp E].
      rewrite (flux_form_into f T (fun _ => 0)) by (auto || reflexivity).
      pose proof (Hf p Hp) as Hf0. rewrite E in Hf0. cbn [T_T] in Hf0. rewrite (Hf0 Hz). ring. }
    destruct f; cbn [bind]; intros HK; try discriminate; apply Ok_inj in HK; subst K; apply Hk; reflexivity. }
  cbn [bind]. intros H. apply Ok_inj in H. subst F. eexists. split; [reflexivity|].
  rewrite !assemble_app, HA2. f_equal. f_equal. rewrite !flat_map_app, !assemble_app. cbn [flat_map]. rewrite assemble_app.
  match goal with |- _ = _ + (?x + _) => assert (E : x = 0); [|rewrite E, Rplus_0_l; reflexivity] end.
  rewrite assemble_map. unfold sum_over. apply rsum_map_zero. intros z Hz. cbn [fst snd]. apply integral_zero.
  intros p Hp. apply in_points_cells in Hp as [Hp E]. rewrite Hs; [ring|exact Hp|now rewrite E].
Qed.
End Props.

(** With a unit solubility, values imposed, initial values and exports are the concentrations themselves. *)
Theorem C82_unit_values : forall ms m z T u S,
  NoDup (flat_map (fun m => ids (m_id m)) ms) -> In m ms -> m_id m = IdOne z -> unit_solubility m -> S = 1 ->
  bc_theta ms z T u = Ok u /\ theta_initialise m T u = Ok u /\ theta_mobile_concentration ms z S u = u /\
  forall c, theta_post_processing ms z S u = Ok c -> c = u.
Proof.
  intros ms m z T u S Hnd Hm Hz (H0 & HE & Hl) ->.
  assert (Hin : In z (ids (m_id m))) by (rewrite Hz; now left).
  assert (E1 : u / (1 * exp (- 0 / k_B / T)) = u).
  { replace (- 0 / k_B / T) with 0 by (unfold Rdiv; ring). rewrite exp_0. field. }
  repeat split.
  - unfold bc_theta. rewrite (find_unique ms m z) by assumption. cbn [bind]. rewrite H0, HE, Hl. cbn [float_of bind].
    now rewrite E1.
  - unfold theta_initialise. rewrite Hz, H0, HE, Hl. cbn [dx_id float_of bind]. now rewrite E1.
  - rewrite (mobile_concentration_owner ms m z) by assumption. rewrite Hl. cbn. ring.
  - intros c Hc. rewrite (post_processing_owner ms m z 1 u c) by assumption. rewrite Hl. cbn. ring.
Qed.
Print Assumptions C82_soret.
Print Assumptions C82_unit_solubility.
Print Assumptions C82_empty_trap.
Print Assumptions C82_null_source.
Print Assumptions C82_null_flux.
Print Assumptions C82_heat.
Print Assumptions C82_unit_values.

(** ** Examples: two materials with heats of transport, a temperature gradient in the first only. *)
Definition with_Q (m : mat) (Q : option prop) (S0 : option prop) : mat :=
  mkMaterial (m_id m) (m_name m) (m_D0 m) (m_ED m) S0 (m_ES m) (m_thermal m) (m_heat m) (m_rho m) (m_borders m) Q (m_law m).
Definition Q_mats : list mat_obj :=
  [mkMatObj 0 (with_Q mat_1 (Some (Fun (fun T => T - 400))) (Some (Const 1))); mkMatObj 1 (with_Q mat_2 (Some (Const 5)) (Some (Const 1)))].
Definition T_slope : temperature nat :=
  mkTemp (fun p => mkDual 400 (fun _ => match p with 1%nat => 3 | _ => 0 end)) (fun _ => dconst 300).
Definition hollow (sol : field nat) : trap nat :=
  mkTrap (PerMat [6; 7]) (PerMat [1; 1]) (PerMat [8; 9]) (PerMat [1; 1]) [fun _ => 0; fun _ => 0] Q_mats
    sol sol ones [mkSource (IdOne 1) (fun _ => 0) None].
Example C82_example : let M := mesh_ty Cylindrical in
  no_soret M T_slope Q_mats /\ (forall m, In m Q_mats -> unit_solubility (attrs m)) /\
  covered M Q_mats /\ empty_trap (hollow (fun _ => dconst 0)) /\
  solubility_field M (mobile_1 (ClassTheta (fun _ => 1) (map attrs Q_mats)) ones [] []) T_slope Q_mats /\
  (exists F, define_variational_problem M (mobile_1 ClassMobile ones sources_1 bcs_1) Q_mats T_slope (Some 2)
     ([trap_1 ones []] ++ hollow (fun _ => dconst 0) :: []) true = Ok F) /\
  null_source M (mkSource (IdOne 2) (fun p => match p with 1%nat => 8 | _ => 0 end) None) /\
  null_flux M T_slope (fun p => INR p) [2%Z] (MassFlux (fun _ => 3) (fun _ => 4)) /\
  exists F, heat_form M true 2 (T_T T_slope) (T_Tn T_slope) ones Q_mats
    ([] ++ mkSource (IdOne 2) (fun p => match p with 1%nat => 8 | _ => 0 end) None :: [])
    ([] ++ ([2%Z], ConvectiveFlux (fun _ => 3) (fun _ => 400)) :: []) = Ok F.
Proof.
  intros M. split.
  { intros p [<-|[<-|[]]].
    - right. intros m [<-|[<-|[]]]; cbn; [|intros [H|[]]; discriminate]. intros _. right. eexists. split; [reflexivity|]. lra.
    - left. intros i _. reflexivity. }
  assert (Hu : forall m, In m Q_mats -> unit_solubility (attrs m)) by (intros m [<-|[<-|[]]]; repeat split).
  assert (Hcov : covered M Q_mats) by exact (covered_ty Cylindrical).
  split; [exact Hu|]. split; [exact Hcov|]. split.
  { split; [intros n [<-|[<-|[]]] p; reflexivity|]. split; [reflexivity|]. split; [reflexivity|]. intros s [<-|[]]. right. reflexivity. }
  split.
  { split; [reflexivity|]. intros p _ m Hm _. destruct (Hu m Hm) as (H0 & HE & _). exists 1, 0. split; [exact H0|]. split; [exact HE|].
    unfold arrhenius. replace (0 / (boltzmann * val (T_T T_slope p))) with 0 by (unfold Rdiv; ring). rewrite exp_0. lra. }
  split; [eexists; reflexivity|]. split.
  { split; [reflexivity|]. intros p [<-|[<-|[]]]; cbn; [intros [H|[]]; discriminate|reflexivity]. }
  split; [|eexists; reflexivity].
  intros p [<-|[<-|[]]]; cbn; [intros [H|[]]; discriminate|]. intros _. ring.
Qed.

(** Outside the claim: with Henry's law the unknown is the square root of the concentration; the equations are
    not those of the concentration even if the solubility is 1. *)
Definition henry_mats : list mat_obj :=
  [mkMatObj 0 (mkMaterial (IdOne 1) None (Const 1) (Const 0) (Some (Const 1)) (Some (Const 0)) None None None BNone None Henry);
   mkMatObj 1 (mkMaterial (IdOne 2) None (Const 1) (Const 0) (Some (Const 1)) (Some (Const 0)) None None None BNone None Henry)].
Theorem C82_henry_refuted : exists (M : mesh nat) mb ms T dt F G,
  (forall m, In m ms -> m_S0 (attrs m) = Some (Const 1) /\ m_ES (attrs m) = Some (Const 0)) /\
  covered M ms /\ solubility_field M mb T ms /\
  define_variational_problem M (plain mb) ms T dt [] false = Ok F /\
  define_variational_problem M mb ms T dt [] false = Ok G /\ assemble M F <> assemble M G.
Proof.
  exists (mesh_ty Cartesian), (mobile_1 (ClassTheta (fun _ => 1) (map attrs henry_mats)) ones [] []), henry_mats, T400, (Some 1).
  do 2 eexists. split; [intros m [<-|[<-|[]]]; split; reflexivity|]. split; [exact (covered_ty Cartesian)|]. split.
  { split; [reflexivity|]. intros p _ m [<-|[<-|[]]] _; exists 1, 0; (split; [reflexivity|]); (split; [reflexivity|]);
      unfold arrhenius; replace (0 / (boltzmann * val (T_T T400 p))) with 0 by (unfold Rdiv; ring); rewrite exp_0; lra. }
  split; [reflexivity|]. split; [reflexivity|].
  unfold assemble, integral, points. cbn. rewrite !exp_zero. lra.
Qed.
Print Assumptions C82_henry_refuted.
