(** C70: the equations and the derived quantities do not depend on the system of units. *)
From Coq Require Import Reals ZArith List Bool String Lra Lia.
From Verif Require Import Base.Exc Base.Dual Model.Materials Model.Exports Model.Laws Model.Theta Model.Forms Model.Quantities
  Spec.PhysSpec Spec.BalanceSpec Spec.EulerSpec Spec.QuantitySpec Spec.UnitSpec Proofs.FormProofs Proofs.UnitProofs
  Properties.FormProps Properties.QuantityProps.
Import ListNotations.
Local Open Scope string_scope.
Local Open Scope R_scope.
Local Open Scope list_scope.

Section Props.
Context {P : Type}.
Implicit Types (M : mesh P) (u : units).

(** The residual of the hydrogen problem is a concentration per time; the same exceptions are raised. *)
Theorem C70_equations u w M M' S' mb ms T dt traps soret :
  positive_units u -> rescaled_mesh u w M M' -> rescaled_solubility u M mb S' ->
  near_surface_ok mb -> powers_defined M mb (mobile_concentration M mb) ->
  (dt = None -> forall t, In t traps -> empty_outside M ms t) ->
  proportional M M' (w * u_x u * (u_c u / u_t u)) (define_variational_problem M mb ms T dt traps soret)
    (define_variational_problem M' (scale_mobile u S' mb) (map (scale_obj u) ms) (scale_temp u T) (option_map (Rmult (u_t u)) dt)
       (map (scale_trap u) traps) soret).
Proof.
  intros Hu HM HS H1 H2 H3. apply (rsc_proportional u w M M' HM). now apply (define_scale u Hu w M M' HM S' mb HS).
Qed.
(** So the same states solve it. *)
Theorem C70_solutions u w M M' S' mb ms T dt traps soret F F' :
  positive_units u -> 0 < w -> rescaled_mesh u w M M' -> rescaled_solubility u M mb S' ->
  near_surface_ok mb -> powers_defined M mb (mobile_concentration M mb) ->
  (dt = None -> forall t, In t traps -> empty_outside M ms t) ->
  define_variational_problem M mb ms T dt traps soret = Ok F ->
  define_variational_problem M' (scale_mobile u S' mb) (map (scale_obj u) ms) (scale_temp u T) (option_map (Rmult (u_t u)) dt)
       (map (scale_trap u) traps) soret = Ok F' ->
  (assemble M' F' = 0 <-> assemble M F = 0).
Proof.
  intros Hu Hw HM HS H1 H2 H3 E E'. assert (G := C70_equations u w M M' S' mb ms T dt traps soret Hu HM HS H1 H2 H3).
  rewrite E, E' in G. cbn in G. rewrite G. destruct Hu as (Hc & Hx & Ht & _).
  assert (K : 0 < w * u_x u * (u_c u / u_t u)) by (apply Rmult_lt_0_compat; [now apply Rmult_lt_0_compat|now apply Rdiv_lt_0_compat]).
  split; intros H; [|rewrite H; ring]. apply Rmult_integral in H. destruct H; [lra|assumption].
Qed.
(** The concentration is the one of the old units. *)
Theorem C70_concentration u w M M' S' mb p : positive_units u -> rescaled_mesh u w M M' -> rescaled_solubility u M mb S' ->
  mobile_concentration M' (scale_mobile u S' mb) p = u_c u * mobile_concentration M mb p.
Proof. intros Hu HM HS. now apply (mobile_concentration_scale u Hu w M M' HM). Qed.

(** The heat problem: power per volume. *)
Theorem C70_heat u w M M' tr dt T Tn v ms sources bcs :
  positive_units u -> rescaled_mesh u w M M' ->
  proportional M M' (w * u_x u * (u_e u / (u_t u * u_x u ^ 3))) (heat_form M tr dt T Tn v ms sources bcs)
    (heat_form M' tr (u_t u * dt) (rescale u 1 T) (rescale u 1 Tn) (rescale u 1 v) (map (scale_obj u) ms)
       (map (scale_source u (u_e u / u_x u ^ 3)) sources) (map (fun b => (fst b, scale_flux u (heat_flux u) (snd b))) bcs)).
Proof.
  intros Hu HM. apply (rsc_proportional u w M M' HM). now apply (heat_form_scale u Hu w M M' HM).
Qed.

(** Trap densities created by a flux of ions or neutrons. *)
Theorem C70_extrinsic u w M M' dt phi n_amax n_bmax eta_a eta_b f_a f_b n n_prev v :
  positive_units u -> rescaled_mesh u w M M' ->
  assemble M' (extrinsic_form (u_t u * dt) (times (hydrogen_flux u) phi) (times (u_c u) n_amax) (times (u_c u) n_bmax) eta_a eta_b
     (times (/ u_x u) f_a) (times (/ u_x u) f_b) (rescale u (u_c u) n) (rescale u (u_c u) n_prev) (rescale u 1 v))
  = w * u_x u * (u_c u / u_t u) * assemble M (extrinsic_form dt phi n_amax n_bmax eta_a eta_b f_a f_b n n_prev v).
Proof. intros Hu HM. apply (scf_assemble u w M M' HM). now apply extrinsic_scale. Qed.
Theorem C70_neutron u w M M' dt phi K n_max A_0 E_A T n n_prev v :
  positive_units u -> rescaled_mesh u w M M' ->
  assemble M' (neutron_form (u_t u * dt) (times (/ u_t u) phi) (times (u_c u) K) (times (u_c u) n_max) (times (/ u_t u) A_0) E_A (rescale u 1 T)
     (rescale u (u_c u) n) (rescale u (u_c u) n_prev) (rescale u 1 v))
  = w * u_x u * (u_c u / u_t u) * assemble M (neutron_form dt phi K n_max A_0 E_A T n n_prev v).
Proof. intros Hu HM. apply (scf_assemble u w M M' HM). now apply neutron_scale. Qed.

(** Derived quantities: the value changes by the factor of the expected unit. *)
Theorem C70_quantities u M M' V (x : context P) q :
  positive_units u -> rescaled_mesh u (powerRZ (u_x u) (Z.of_nat (q_dim M) - 1)) M M' -> field_of_class (d_kind q) (d_field q) ->
  compute M' (scale_space u (d_field q) V) (scale_context u (d_field q) x) q
  = let! v := compute M V x q in Ok (factor u (expected_unit (d_kind q) (d_field q) (Z.of_nat (q_dim M))) * v).
Proof. intros Hu HM. now apply compute_scale. Qed.
(** Where C51 holds it is the unit printed in the title. *)
Theorem C70_printed u M M' V (x : context P) q :
  positive_units u -> rescaled_mesh u (powerRZ (u_x u) (Z.of_nat (q_dim M) - 1)) M M' ->
  field_of_class (d_kind q) (d_field q) -> possible_dim (d_kind q) (Z.of_nat (q_dim M)) ->
  (is_total_surface (d_kind q) = true -> d_field q = LStr "T") -> (d_kind q = AdsorbedHydrogen -> q_dim M = 1%nat) -> d_show q = true ->
  exists s v, title q (Z.of_nat (q_dim M)) = (quantity_title q ++ " (" ++ s ++ ")")%string /\ read_unit s = Some v /\
    compute M' (scale_space u (d_field q) V) (scale_context u (d_field q) x) q = let! r := compute M V x q in Ok (factor u v * r).
Proof.
  intros Hu HM Hf Hd Hs Ha Hsh.
  destruct (C51_units_partial q (Z.of_nat (q_dim M)) Hf Hd Hs) as (s & v & H1 & H2 & H3); [|assumption|].
  { intros E. rewrite (Ha E). reflexivity. }
  exists s, v. split; [assumption|]. split; [assumption|]. subst v. now apply C70_quantities.
Qed.
End Props.
Print Assumptions C70_equations.
Print Assumptions C70_solutions.
Print Assumptions C70_concentration.
Print Assumptions C70_heat.
Print Assumptions C70_extrinsic.
Print Assumptions C70_neutron.
Print Assumptions C70_quantities.
Print Assumptions C70_printed.

(** * Values at a point *)
Lemma sqrt_square_scale k a : 0 < k -> sqrt (k ^ 2 * a) = k * sqrt a.
Proof.
  intros Hk. destruct (Rle_dec 0 a) as [Ha|Ha].
  - rewrite sqrt_mult by (assumption || apply pow2_ge_0). rewrite sqrt_pow2 by lra. reflexivity.
  - rewrite (sqrt_neg_0 a) by lra. rewrite sqrt_neg_0; [ring|]. assert (0 < k ^ 2) by now apply pow_lt.
    assert (k ^ 2 * a <= k ^ 2 * 0) by (apply Rmult_le_compat_l; lra). lra.
Qed.

(** Solution laws. *)
Theorem C70_solution_laws u T S_0 E p : positive_units u ->
  sieverts_law T (solubility u Sievert * S_0) E (pressure u * p) = u_c u * sieverts_law T S_0 E p /\
  henrys_law T (solubility u Henry * S_0) E (pressure u * p) = u_c u * henrys_law T S_0 E p.
Proof.
  intros (Hc & Hx & Ht & Hth & _). unfold sieverts_law, henrys_law, solubility, pressure. split.
  - rewrite sqrt_square_scale by assumption. generalize (exp (- E / k_B / T)). intros. field. lra.
  - generalize (exp (- E / k_B / T)). intros. field. lra.
Qed.
(** ImplantationDirichlet. *)
Theorem C70_dc_imp u T phi R_p D_0 E_D Kr_0 E_Kr Kd_0 E_Kd P : positive_units u ->
  dc_imp T (hydrogen_flux u * phi) (u_x u * R_p) (u_x u ^ 2 / u_t u * D_0) E_D
    (option_map (Rmult (hydrogen_flux u / u_c u ^ 2)) Kr_0) E_Kr (option_map (Rmult (hydrogen_flux u / pressure u)) Kd_0) E_Kd
    (option_map (Rmult (pressure u)) P)
  = let! c := dc_imp T phi R_p D_0 E_D Kr_0 E_Kr Kd_0 E_Kd P in Ok (u_c u * c).
Proof.
  intros (Hc & Hx & Ht & Hth & _). unfold dc_imp.
  assert (A : hydrogen_flux u * phi * (u_x u * R_p) / (u_x u ^ 2 / u_t u * D_0 * exp (- E_D / k_B / T)) = u_c u * (phi * R_p / (D_0 * exp (- E_D / k_B / T)))).
  { generalize (exp (- E_D / k_B / T)). intros. unfold hydrogen_flux, Rdiv. rewrite !Rinv_mult. generalize (/ D_0) (/ r). intros. field. lra. }
  rewrite A. destruct Kr_0 as [Kr|]; cbn [option_map]; [|reflexivity].
  assert (B : forall a b, sqrt (hydrogen_flux u * a / (hydrogen_flux u / u_c u ^ 2 * Kr * b)) = u_c u * sqrt (a / (Kr * b))).
  { intros a b. rewrite <- sqrt_square_scale by assumption. f_equal. unfold hydrogen_flux, Rdiv. rewrite !Rinv_mult. generalize (/ Kr) (/ b). intros. field. lra. }
  destruct E_Kr as [EK|]; cbn [number bind]; [|reflexivity]. destruct Kd_0 as [Kd|]; cbn [option_map].
  - destruct E_Kd as [Ed|]; cbn [number bind]; [|reflexivity]. destruct P as [P|]; cbn [option_map number bind]; [|reflexivity].
    f_equal. replace (hydrogen_flux u * phi + hydrogen_flux u / pressure u * Kd * exp (- Ed / k_B / T) * (pressure u * P))
      with (hydrogen_flux u * (phi + Kd * exp (- Ed / k_B / T) * P)).
    + rewrite B. ring.
    + generalize (exp (- Ed / k_B / T)). intros. unfold pressure. field. lra.
  - cbn [bind]. f_equal. rewrite B. ring.
Qed.
(** ImplantationFlux: amount per volume and time. *)
Theorem C70_implantation u flux depth width x : positive_units u ->
  implantation_value (hydrogen_flux u * flux) (u_x u * depth) (u_x u * width) (u_x u * x) = u_c u / u_t u * implantation_value flux depth width x.
Proof.
  intros (Hc & Hx & Ht & _). unfold implantation_value.
  replace ((u_x u * x - u_x u * depth) / (u_x u * width)) with ((x - depth) / width)
    by (unfold Rdiv; rewrite Rinv_mult; generalize (/ width); intros; field; lra).
  generalize (exp (- (1 / 2) * ((x - depth) / width) ^ 2)) (sqrt (2 * PI)). intros a b.
  unfold hydrogen_flux, Rdiv. rewrite !Rinv_mult. generalize (/ width) (/ b). intros. field. lra.
Qed.
(** theta at the start and on Sieverts Dirichlet conditions. *)
Theorem C70_theta u m T c : positive_units u ->
  theta_initialise (scale_mat u m) T (u_c u * c) = (let! v := theta_initialise m T c in Ok (u_th u * v)) /\
  forall ms z, (forall m, In m ms -> m_law m = Sievert) ->
    bc_theta (map (scale_mat u) ms) z T (u_c u * c) = let! v := bc_theta ms z T c in Ok (u_th u * v).
Proof.
  intros (Hc & Hx & Ht & Hth & _). split.
  - unfold theta_initialise. cbn [m_id m_S0 m_ES m_law scale_mat]. destruct (dx_id (m_id m)); cbn [bind]; [|reflexivity].
    rewrite float_of_scale. destruct (float_of (m_S0 m)) as [S0|]; cbn [bind]; [|reflexivity]. destruct (float_of (m_ES m)) as [ES|]; cbn [bind]; [|reflexivity].
    destruct (m_law m); cbn [bind]; f_equal; generalize (exp (- ES / k_B / T)); intros e; unfold solubility, pressure.
    + unfold Rdiv. rewrite !Rinv_mult. generalize (/ S0) (/ e). intros. field. lra.
    + rewrite <- sqrt_square_scale by assumption. f_equal. unfold Rdiv. rewrite !Rinv_mult. generalize (/ S0) (/ e). intros. field. nra.
  - intros ms z Hs. unfold bc_theta.
    assert (K : find_material_from_id (map (scale_mat u) ms) z = let! m := find_material_from_id ms z in Ok (scale_mat u m)).
    { clear Hs. induction ms as [|a ms IH]; [reflexivity|]. cbn [map find_material_from_id m_id scale_mat].
      match goal with |- (if ?b then _ else _) = _ => destruct b end; [reflexivity|exact IH]. }
    rewrite K. destruct (find_material_from_id ms z) as [a|e] eqn:E; cbn [bind]; [|reflexivity].
    assert (Ha : In a ms).
    { clear K Hs. induction ms as [|b ms IH]; [discriminate|]. cbn [find_material_from_id] in E.
      match type of E with (if ?b then _ else _) = _ => destruct b end; [left; congruence|right; now apply IH]. }
    cbn [m_S0 m_ES m_law scale_mat]. rewrite float_of_scale, (Hs a Ha). destruct (float_of (m_S0 a)) as [S0|]; cbn [bind]; [|reflexivity].
    destruct (float_of (m_ES a)) as [ES|]; cbn [bind]; [|reflexivity]. f_equal. generalize (exp (- ES / k_B / T)). intros b. unfold solubility.
    unfold Rdiv. rewrite !Rinv_mult. generalize (/ S0) (/ b). intros. field. lra.
Qed.
Print Assumptions C70_solution_laws.
Print Assumptions C70_dc_imp.
Print Assumptions C70_implantation.
Print Assumptions C70_theta.

(** ** Examples: minutes, millimetres, and other factors. *)
Definition mm_min : units := mkUnits (1 / 1000) 1000 (1 / 60) (1 / 2) 3 5.
Lemma mm_min_pos : positive_units mm_min.
Proof. unfold positive_units. cbn. lra. Qed.
Definition on_facet (p : nat) : bool := (3 <=? p)%nat.
Lemma rescaled_ty u w ty : rescaled_mesh u w (mesh_ty ty) (scale_mesh u w on_facet (mesh_ty ty)).
Proof.
  repeat split; intros p Hp; cbn in Hp.
  - destruct Hp as [<-|[<-|[]]]; reflexivity.
  - destruct Hp as [<-|[<-|[]]]; reflexivity.
Qed.
Definition S_new (p : nat) : R := 1 / 500 * S_field p.
Example C70_example ty :
  let M := mesh_ty ty in
  let mb := mobile_1 ClassMobile ones sources_1 (BSurf (sk_1 ones) :: BFlux false [1%Z] (RecombinationFlux (fun _ => 2) (fun _ => 1/10) (EReal (3 / 2))) :: bcs_1) in
  rescaled_mesh mm_min 1 M (scale_mesh mm_min 1 on_facet M) /\ rescaled_solubility mm_min M mb S_new /\ near_surface_ok mb /\
  powers_defined M mb (mobile_concentration M mb) /\
  (exists F, define_variational_problem M mb two_mats T400 (Some 2) [trap_1 ones sources_1] false = Err F) /\
  (exists F, define_variational_problem M mb two_mats T400 (Some 2) [trap_1 ones []] false = Ok F) /\
  rescaled_solubility mm_min M (mobile_1 theta_class ones sources_1 bcs_1) S_new /\ near_surface_ok (mobile_1 theta_class ones sources_1 bcs_1).
Proof.
  cbv zeta. split; [apply rescaled_ty|]. split; [exact I|]. split; [now left|]. split; [intros _ p _; apply pos_INR|].
  split; [eexists; reflexivity|]. split; [destruct ty; eexists; reflexivity|]. split.
  - intros p m [<-|[<-|[]]] _; unfold S_new; cbn; lra.
  - right. intros s [H|[H|[H|[]]]]; discriminate H.
Qed.
(** With the Soret effect. *)
Example C70_soret_example ty :
  let m := mkMatObj 0 (mkMaterial (IdMany [1; 2]%Z) None (Const 1) (Const (1/10)) None None None None None BNone (Some (Fun (fun T => T))) Sievert) in
  exists F, define_variational_problem (mesh_ty ty) (mobile_1 ClassMobile ones sources_1 bcs_1) [m] T400 None [] true = Ok F.
Proof. destruct ty; eexists; reflexivity. Qed.
Example C70_heat_example ty : exists F,
  heat_form (mesh_ty ty) true 2 (T_T T400) (T_Tn T400) ones two_mats [mkSource (IdOne 1) (fun _ => 3) None] [([2%Z], ConvectiveFlux (fun _ => 4) (fun _ => 300))] = Ok F.
Proof. destruct ty; eexists; reflexivity. Qed.
Example C70_quantity_example :
  let M := mesh_ty Cylindrical in
  let q : dquantity nat := mkDq SurfaceFluxCylindrical (LStr "solute") 2 (0, 2 * PI) (0, 0) true None in
  rescaled_mesh mm_min (powerRZ (u_x mm_min) (Z.of_nat (q_dim M) - 1)) M (scale_mesh mm_min (powerRZ (u_x mm_min) (Z.of_nat (q_dim M) - 1)) on_facet M) /\
  field_of_class (d_kind q) (d_field q) /\ possible_dim (d_kind q) (Z.of_nat (q_dim M)) /\
  (exists s, title q (Z.of_nat (q_dim M)) = (quantity_title q ++ " (" ++ s ++ ")")%string /\ s = "H m-1 s-1"%string) /\
  factor mm_min (mkUnit Atoms (-1) (-1)) = 1 / 1000 * 1000 ^ 3 / 1000 * 60.
Proof.
  cbv zeta. split; [apply rescaled_ty|]. split; [discriminate|]. split; [now left|]. split; [eexists; split; reflexivity|].
  unfold factor. cbn. change (Pos.to_nat 1) with 1%nat. field.
Qed.

(** ** Exceptions *)
(** With chemical_pot the near-surface term subtracts theta from a concentration. *)
Theorem C70_chemical_pot_refuted : exists u (M M' : mesh nat) S' mb ms T F F',
  positive_units u /\ rescaled_mesh u 1 M M' /\ rescaled_solubility u M mb S' /\ powers_defined M mb (mobile_concentration M mb) /\
  define_variational_problem M mb ms T (Some 1) [] false = Ok F /\
  define_variational_problem M' (scale_mobile u S' mb) (map (scale_obj u) ms) (scale_temp u T) (Some (u_t u * 1)) [] false = Ok F' /\
  assemble M F <> 0 /\ assemble M' F' = 0.
Proof.
  pose (u := mkUnits 1 1 1 2 1 1).
  exists u, (mesh_ty Cartesian), (scale_mesh u 1 on_facet (mesh_ty Cartesian)), (fun p => 1 / 2 * S_field p), still_mobile, two_mats, T_rest. eexists _, _.
  split; [unfold positive_units; cbn; lra|]. split; [apply rescaled_ty|].
  split; [intros p m [<-|[<-|[]]] _; cbn; lra|]. split; [intros (b & [<-|[]] & []) |].
  split; [reflexivity|]. split; [reflexivity|]. split; unfold assemble, integral, rsum, dot, S_field; cbn.
  - assert (E : theta_mobile_concentration [mat_1; mat_2] 1 2 1 = 2) by (unfold theta_mobile_concentration, law_marker; cbn; ring).
    rewrite E. intros H. apply (Rmult_eq_compat_l 2) in H. match type of H with ?l = _ => assert (E' : l = 1); [|lra] end. unfold Rdiv. field. unfold k_B. lra.
  - assert (E : theta_mobile_concentration [scale_mat u mat_1; scale_mat u mat_2] 1 (1 / 2 * 2) (2 * 1) = 2) by (unfold theta_mobile_concentration, law_marker; cbn; field).
    fold u. rewrite E. unfold Rdiv. field. unfold k_B. lra.
Qed.
Print Assumptions C70_chemical_pot_refuted.
(** In steady state a trap gets the term c_t * v in the materials it is not attached to, which has not the
    unit of the others: the two are added at the nodes of the interface. *)
Theorem C70_steady_trap_refuted : exists u (M M' : mesh nat) S' mb ms T t F F',
  positive_units u /\ rescaled_mesh u 1 M M' /\ rescaled_solubility u M mb S' /\ near_surface_ok mb /\ powers_defined M mb (mobile_concentration M mb) /\
  define_variational_problem M mb ms T None [t] false = Ok F /\
  define_variational_problem M' (scale_mobile u S' mb) (map (scale_obj u) ms) (scale_temp u T) None [scale_trap u t] false = Ok F' /\
  assemble M F = 0 /\ assemble M' F' <> 0.
Proof.
  pose (u := mkUnits 1 1 2 1 1 1).
  pose (t := mkTrap (Scalar 1) (Scalar 0) (Scalar 0) (Scalar 0) [fun _ : nat => 2] [mkMatObj 0 mat_1] ones ones ones []).
  pose (mb := mkMobile (@ClassMobile nat) ones ones (fun _ => dconst 0) [] []).
  exists u, (mesh_ty Cartesian), (scale_mesh u 1 on_facet (mesh_ty Cartesian)), (fun _ => 0), mb, two_mats, T_rest, t. eexists _, _.
  split; [unfold positive_units; cbn; lra|]. split; [apply rescaled_ty|]. split; [exact I|]. split; [now left|].
  split; [intros (b & [] & _)|]. split; [reflexivity|]. split; [reflexivity|].
  assert (E : forall T, exp (- 0 / k_B / T) = 1) by (intros T; replace (- 0 / k_B / T) with 0 by (unfold Rdiv; ring); apply exp_0).
  split; unfold assemble, integral, rsum, dot; cbn; rewrite !E; unfold Rdiv.
  - rewrite ?Rmult_0_r, ?Rmult_0_l. lra.
  - rewrite ?Rmult_0_r, ?Rmult_0_l, ?Rinv_mult. replace (/ 1) with 1 by field. unfold times. lra.
Qed.
Print Assumptions C70_steady_trap_refuted.
(** On Henry materials a Dirichlet value is regularised with DOLFIN_EPS, whatever the unit of pressure. *)
Theorem C70_henry_dirichlet_refuted : exists u ms z T v v', positive_units u /\
  bc_theta ms z T 0 = Ok v /\ bc_theta (map (scale_mat u) ms) z T (u_c u * 0) = Ok v' /\ v' <> u_th u * v.
Proof.
  pose (m := mkMaterial (IdOne 1) None (Const 1) (Const 0) (Some (Const 1)) (Some (Const 0)) None None None BNone None Henry : mat).
  exists (mkUnits 1 1 1 2 1 1), [m], 1%Z, 300. eexists _, _. split; [unfold positive_units; cbn; lra|]. split; [reflexivity|]. split; [reflexivity|].
  cbn [u_c u_th]. unfold Rdiv at 1. rewrite !Rmult_0_r, Rmult_0_l. unfold Rdiv at 1. rewrite Rmult_0_l. rewrite !Rplus_0_l.
  assert (0 < sqrt DOLFIN_EPS) by (apply sqrt_lt_R0; unfold DOLFIN_EPS; lra). lra.
Qed.
Print Assumptions C70_henry_dirichlet_refuted.
