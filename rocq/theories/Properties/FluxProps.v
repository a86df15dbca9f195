(** C74: the reported fluxes are those of the flux vector of the equations. *)
From Coq Require Import Reals ZArith List Bool String Lra Lia.
From Verif Require Import Base.Exc Base.Dual Model.Materials Model.Exports Model.Laws Model.Theta Model.Forms
  Model.Quantities Spec.PhysSpec Spec.BalanceSpec Spec.QuantitySpec Spec.FluxSpec
  Proofs.LawProofs Proofs.ThetaProofs Proofs.FormProofs Proofs.QuantityProofs Properties.FormProps Properties.QuantityProps.
Import ListNotations.
Local Open Scope R_scope.
Local Open Scope list_scope.

Section Flux.
Context {P : Type}.
Implicit Types (M : mesh P).

Lemma find_owner (ms : list mat_obj) m z :
  NoDup (BalanceSpec.all_ids ms) -> In m ms -> In z (ids (m_id (attrs m))) ->
  find_material_from_id (map attrs ms) z = Ok (attrs m).
Proof.
  intros Hn Hm Hz. apply find_unique; [|now apply in_map|exact Hz].
  unfold all_ids. rewrite flat_map_concat_map, map_map, <- flat_map_concat_map. exact Hn.
Qed.
Lemma dot_scale d a (f g : nat -> R) : dot d (fun i => a * f i) g = a * dot d f g.
Proof. unfold dot. rewrite <- rsum_map_scale. apply rsum_map_ext. intros. ring. Qed.
Lemma dot_ext d (f f' g g' : nat -> R) : (forall i, f i = f' i) -> (forall i, g i = g' i) -> dot d f g = dot d f' g'.
Proof. intros H H'. unfold dot. apply rsum_map_ext. intros i _. now rewrite H, H'. Qed.
Lemma grad_over (r : R) (w : dual) i : r <> 0 -> grd (ddiv (dmul (dcoord0 r) w) (dcoord0 r)) i = grd w i.
Proof. intros H. cbn. destruct i; cbn; field; exact H. Qed.
Lemma grad_over2 (r : R) (w : dual) i : r <> 0 ->
  grd (ddiv (ddiv (dmul (dmul (dcoord0 r) (dcoord0 r)) w) (dcoord0 r)) (dcoord0 r)) i = grd w i.
Proof. intros H. cbn. destruct i; cbn; field; exact H. Qed.

(** The materials of the transport problem, one by one. *)
Lemma diffusion_flux M mb ms T dt soret x w F :
  mb_class mb = ClassMobile -> off_axis M -> positive_temperature M T -> covered M ms ->
  x_function x = mb_solution mb -> x_T x = T_T T -> x_soret x = soret ->
  given_D M ms (T_T T) x -> (soret = true -> given_prop M ms (T_T T) (@m_Q R prop) (x_Q x)) ->
  (forall p, mb_test mb p = dmul (element_of M p) (w p)) ->
  sum_forms (material_form M mb T (Some dt) soret) ms = Ok F ->
  assemble M F = total M (fun p => (val (mb_solution mb p) - val (mb_previous mb p)) / dt * val (w p)
                                   + dot (q_dim M) (flux_vector x p) (grd (w p))).
Proof.
  intros Hcl Hoff HT [Hn Hcov] Hx HxT Hxs HD HQ Hw HF.
  set (G := fun p => (val (mb_solution mb p) - val (mb_previous mb p)) / dt * val (w p)
                     + dot (q_dim M) (flux_vector x p) (grd (w p))).
  rewrite (sum_forms_assemble M _ (fun m => sum_over (ids (m_id (attrs m))) (fun z => total_in M z G)) ms F HF).
  - rewrite <- (sum_over_flat_map (fun m => ids (m_id (attrs m))) ms (fun z => total_in M z G)).
    apply sum_materials_total; [exact Hn|]. intros p Hp. apply Hcov. now left.
  - intros m K Hm HK. unfold material_form, get_concentration, check_concentration in HK. rewrite Hcl in HK. cbn [bind] in HK.
    destruct (float_of (Some (m_D0 (attrs m)))) as [D_0|e] eqn:HD0; cbn [bind] in HK; [|discriminate].
    destruct (float_of (Some (m_ED (attrs m)))) as [E_D|e] eqn:HED; cbn [bind] in HK; [|discriminate].
    destruct (if soret then value_at (m_Q (attrs m)) else Ok (fun _ => 0)) as [Q|e] eqn:HQ0; cbn [bind] in HK; [|discriminate].
    injection HK as <-. rewrite assemble_flat_map. apply sum_over_ext. intros z Hz. cbn [fst snd].
    rewrite (C47_divergence M soret D_0 E_D Q (mb_solution mb) (mb_previous mb) w (mb_test mb) (T_T T) dt z Hoff).
    + apply wsum_ext. intros p Hp. apply filter_In in Hp. destruct Hp as [Hp Ez]. apply Z.eqb_eq in Ez. subst z.
      unfold G. f_equal. apply dot_ext; [|reflexivity]. intros i. unfold flux_vector. rewrite Hx, HxT, Hxs.
      assert (Hfind := find_owner ms m (q_volume M p) Hn Hm Hz).
      assert (H1 := HD p (or_introl Hp)). unfold arhenius_coeff in H1. rewrite Hfind in H1. cbn [bind] in H1.
      rewrite HD0, HED in H1. cbn [bind] in H1. injection H1 as H1. rewrite <- H1, arrhenius_model by (apply HT; now left).
      f_equal. f_equal. destruct soret; [|reflexivity].
      assert (H2 := HQ eq_refl p (or_introl Hp)). unfold thermal_prop in H2. rewrite Hfind in H2. cbn [bind] in H2.
      rewrite HQ0 in H2. cbn [bind] in H2. injection H2 as H2. now rewrite H2.
    + intros p Hp. apply HT. now left.
    + exact Hw.
Qed.

(** The materials of the heat problem. *)
Lemma conduction_flux M ms (T T_n v_T w : field P) dt x rho cp F :
  off_axis M -> covered M ms -> x_function x = T ->
  given_prop M ms T (@m_thermal R prop) (x_cond x) -> given_prop M ms T (@m_rho R prop) rho ->
  given_prop M ms T (@m_heat R prop) cp ->
  (forall p, v_T p = dmul (element_of M p) (w p)) ->
  sum_forms (heat_material_form M true dt T T_n v_T) ms = Ok F ->
  assemble M F = total M (fun p => rho p * cp p * (val (T p) - val (T_n p)) / dt * val (w p)
                                   + dot (q_dim M) (heat_vector x p) (grd (w p))).
Proof.
  intros Hoff [Hn Hcov] Hx Hk Hrho Hcp Hw HF.
  set (G := fun p => rho p * cp p * (val (T p) - val (T_n p)) / dt * val (w p)
                     + dot (q_dim M) (heat_vector x p) (grd (w p))).
  rewrite (sum_forms_assemble M _ (fun m => sum_over (ids (m_id (attrs m))) (fun z => total_in M z G)) ms F HF).
  - rewrite <- (sum_over_flat_map (fun m => ids (m_id (attrs m))) ms (fun z => total_in M z G)).
    apply sum_materials_total; [exact Hn|]. intros p Hp. apply Hcov. now left.
  - intros m K Hm HK. unfold heat_material_form in HK.
    destruct (value_at (m_thermal (attrs m))) as [k|e] eqn:H1; cbn [bind] in HK; [|discriminate].
    destruct (value_at (m_heat (attrs m))) as [c|e] eqn:H2; cbn [bind] in HK; [|discriminate].
    destruct (value_at (m_rho (attrs m))) as [r|e] eqn:H3; cbn [bind] in HK; [|discriminate].
    injection HK as <-. rewrite assemble_app, !assemble_map. rewrite <- sum_over_plus. apply sum_over_ext. intros z Hz.
    cbn [fst snd].
    assert (E : forall p, In p (q_cells M) -> q_volume M p = z ->
       x_cond x p = k (val (T p)) /\ rho p = r (val (T p)) /\ cp p = c (val (T p))).
    { intros p Hp Ez. assert (Hfind := find_owner ms m (q_volume M p) Hn Hm ltac:(now rewrite Ez)).
      assert (A1 := Hk p (or_introl Hp)). assert (A2 := Hrho p (or_introl Hp)). assert (A3 := Hcp p (or_introl Hp)).
      unfold thermal_prop in A1, A2, A3. rewrite Hfind in A1, A2, A3. cbn [bind] in A1, A2, A3.
      rewrite H1 in A1. rewrite H3 in A2. rewrite H2 in A3. cbn [bind] in A1, A2, A3.
      injection A1 as A1. injection A2 as A2. injection A3 as A3. auto. }
    assert (Hv : forall p, val (v_T p) = weight M p * val (w p)).
    { intros p. rewrite Hw. unfold element_of, weight. destruct (q_type M); cbn [dmul val dcoord0 dconst]; ring. }
    unfold Rminus at 1. unfold total_in, G.
    rewrite (wsum_plus M _ (fun p => rho p * cp p * (val (T p) - val (T_n p)) / dt * val (w p))).
    f_equal.
    + unfold integral, wsum, points. apply rsum_map_ext. intros p Hp. apply filter_In in Hp. destruct Hp as [Hp Ez]. apply Z.eqb_eq in Ez.
      destruct (E p Hp Ez) as (_ & -> & ->). rewrite Hv. unfold Rdiv. ring.
    + assert (Hr : q_type M <> Cartesian -> forall p, In p (q_cells M) -> q_x0 M p <> 0).
      { intros Hc. destruct Hoff as [Ho|Ho]; [congruence|exact Ho]. }
      destruct (q_type M) eqn:Hty; cbn [fst snd]; unfold integral, wsum, points; apply rsum_map_ext; intros p Hp;
        apply filter_In in Hp; destruct Hp as [Hp Ez]; apply Z.eqb_eq in Ez; destruct (E p Hp Ez) as (E1 & _);
        unfold weight, heat_vector; rewrite Hty, Hx, !dot_scale, E1;
        rewrite (dot_ext (q_dim M) _ (grd (T p)) _ (grd (w p)) (fun _ => eq_refl)).
      * ring.
      * intros i. rewrite Hw. unfold element_of. rewrite Hty. cbn. ring.
      * cbn [val dcoord0]. ring.
      * intros i. rewrite Hw. unfold element_of. rewrite Hty. apply grad_over. apply Hr; [discriminate|exact Hp].
      * cbn [val dcoord0]. ring.
      * intros i. rewrite Hw. unfold element_of. rewrite Hty. apply grad_over2. apply Hr; [discriminate|exact Hp].
Qed.
End Flux.

(** The fields whose flux is reported: the mobile species for the solute, the temperature for "T". *)
Lemma printed_solute {P} (M : mesh P) V x k field id q v :
  is_flux k = true -> solute_label (class_field k field) -> allowed_mesh k (q_type M) = true ->
  make_quantity k field id None None = Ok q -> compute M V x q = Ok v ->
  v = full_angle k * total_on M (d_id q) (fun p => dot (q_dim M) (flux_vector x p) (x_n x p)).
Proof.
  intros Hk Hl Ha Hq Hv.
  assert (G := C48_full M V x k field id q v ltac:(rewrite Hk; apply orb_true_r) Ha Hq Hv).
  destruct (make_quantity_fields _ _ _ _ _ _ Hq) as (K & F & _). rewrite G. f_equal. unfold measure_of, integrand. rewrite K, Hk, F.
  assert (E : over_volume k = false) by (destruct k; cbn in *; congruence). rewrite E. cbv iota.
  apply wsum_ext. intros p _.
  assert (D : flux_density M x (class_field k field) p = x_D x p * dot (q_dim M)
           (fun i => grd (x_function x p) i + (if x_soret x
                      then x_Q x p * val (x_function x p) / (k_B * val (x_T x p) ^ 2) * grd (x_T x p) i else 0)) (x_n x p)).
  { destruct Hl as [->|[->| ->]]; reflexivity. }
  rewrite D, <- dot_scale. apply dot_ext; [|reflexivity]. intros i. unfold flux_vector. rewrite k_B_boltzmann. reflexivity.
Qed.
Lemma printed_heat {P} (M : mesh P) V x k field id q v :
  is_flux k = true -> class_field k field = LStr "T" -> allowed_mesh k (q_type M) = true ->
  make_quantity k field id None None = Ok q -> compute M V x q = Ok v ->
  v = full_angle k * total_on M (d_id q) (fun p => dot (q_dim M) (heat_vector x p) (x_n x p)).
Proof.
  intros Hk Hl Ha Hq Hv.
  assert (G := C48_full M V x k field id q v ltac:(rewrite Hk; apply orb_true_r) Ha Hq Hv).
  destruct (make_quantity_fields _ _ _ _ _ _ Hq) as (K & F & _). rewrite G. f_equal. unfold measure_of, integrand. rewrite K, Hk, F, Hl.
  assert (E : over_volume k = false) by (destruct k; cbn in *; congruence). rewrite E. cbv iota.
  apply wsum_ext. intros p _. unfold heat_vector. rewrite dot_scale. reflexivity.
Qed.

(** One flux vector J, made of what the quantities are given, is both the one of the diffusion equation
    dc/dt = div J, whatever the test function, and the one whose normal component the flux quantities integrate. *)
Theorem C74_flux {P} (M : mesh P) mb ms T dt soret x :
  mb_class mb = ClassMobile -> off_axis M -> positive_temperature M T -> covered M ms ->
  x_function x = mb_solution mb -> x_T x = T_T T -> x_soret x = soret ->
  given_D M ms (T_T T) x -> (soret = true -> given_prop M ms (T_T T) (@m_Q R prop) (x_Q x)) ->
  exists J : P -> nat -> R,
    (forall w F, (forall p, mb_test mb p = dmul (element_of M p) (w p)) ->
       create_diffusion_form M mb ms T (Some dt) [] soret = Ok F ->
       assemble M F = total M (fun p => (val (mb_solution mb p) - val (mb_previous mb p)) / dt * val (w p)
                                        + dot (q_dim M) (J p) (grd (w p)))) /\
    (forall V k field id q v, is_flux k = true -> solute_label (class_field k field) -> allowed_mesh k (q_type M) = true ->
       make_quantity k field id None None = Ok q -> compute M V x q = Ok v ->
       v = full_angle k * total_on M (d_id q) (fun p => dot (q_dim M) (J p) (x_n x p))) /\
    (forall p i, J p i = flux_vector x p i).
Proof.
  intros Hcl Hoff HT Hcov Hx HxT Hxs HD HQ. exists (flux_vector x). split; [|split; [|reflexivity]].
  - intros w F Hw HF. unfold create_diffusion_form in HF.
    destruct (sum_forms (material_form M mb T (Some dt) soret) ms) as [G|e] eqn:HG; cbn [bind sum_forms] in HF; [|discriminate].
    injection HF as <-. rewrite assemble_app, assemble_nil.
    rewrite (diffusion_flux M mb ms T dt soret x w G Hcl Hoff HT Hcov Hx HxT Hxs HD HQ Hw HG). ring.
  - intros V k field id q v. apply printed_solute.
Qed.
Print Assumptions C74_flux.

(** The same for the heat equation rho cp dT/dt = div J and the fluxes of the field "T". *)
Theorem C74_heat {P} (M : mesh P) ms (T T_n v_T : field P) dt x rho cp :
  off_axis M -> covered M ms -> x_function x = T ->
  given_prop M ms T (@m_thermal R prop) (x_cond x) -> given_prop M ms T (@m_rho R prop) rho ->
  given_prop M ms T (@m_heat R prop) cp ->
  exists J : P -> nat -> R,
    (forall w F, (forall p, v_T p = dmul (element_of M p) (w p)) ->
       heat_form M true dt T T_n v_T ms [] [] = Ok F ->
       assemble M F = total M (fun p => rho p * cp p * (val (T p) - val (T_n p)) / dt * val (w p)
                                        + dot (q_dim M) (J p) (grd (w p)))) /\
    (forall V k field id q v, is_flux k = true -> class_field k field = LStr "T" -> allowed_mesh k (q_type M) = true ->
       make_quantity k field id None None = Ok q -> compute M V x q = Ok v ->
       v = full_angle k * total_on M (d_id q) (fun p => dot (q_dim M) (J p) (x_n x p))) /\
    (forall p i, J p i = heat_vector x p i).
Proof.
  intros Hoff Hcov Hx Hk Hr Hc. exists (heat_vector x). split; [|split; [|reflexivity]].
  - intros w F Hw HF. unfold heat_form in HF.
    destruct (sum_forms (heat_material_form M true dt T T_n v_T) ms) as [G|e] eqn:HG; cbn [bind sum_forms flat_map] in HF; [|discriminate].
    injection HF as <-. rewrite !assemble_app, !assemble_nil.
    rewrite (conduction_flux M ms T T_n v_T w dt x rho cp G Hoff Hcov Hx Hk Hr Hc Hw HG). ring.
  - intros V k field id q v. apply printed_heat.
Qed.
Print Assumptions C74_heat.

(** An example in every kind of coordinates, with the Soret effect: two materials, T = 400, D_0 = 1 and 4. *)
Definition soret_mat (z : Z) (D Q : R) : mat :=
  mkMaterial (IdOne z) None (Const D) (Const 0) (Some (Const 2)) (Some (Const 0)) (Some (Const 3))
    (Some (Const 5)) (Some (Const 7)) BNone (Some (Const Q)) Sievert.
Definition soret_mats : list mat_obj := [mkMatObj 0 (soret_mat 1 1 6); mkMatObj 1 (soret_mat 2 4 8)].
Definition slope_T : temperature nat := mkTemp (fun _ => mkDual 400 (fun _ => 10)) (fun _ => dconst 300).
Definition flux_ctx : context nat :=
  mkCtx (fun p => mkDual (INR p) (fun _ => 1)) (fun p => match p with 1%nat | 3%nat => 1 | _ => 4 end) (fun _ => 3)
    (fun p => match p with 1%nat | 3%nat => 6 | _ => 8 end) (T_T slope_T) (fun _ _ => 1) true.
Definition flux_test (ty : mesh_type) (w : field nat) : field nat := fun p => dmul (element_of (mesh_ty ty) p) (w p).
Lemma covered_soret ty : covered (mesh_ty ty) soret_mats.
Proof.
  split.
  - cbn. constructor; [intros [H|[]]; discriminate|]. constructor; [intros []|constructor].
  - intros p H. assert (Hp : p = 1%nat \/ p = 2%nat \/ p = 3%nat \/ p = 4%nat) by (cbn in H; lia).
    destruct Hp as [ -> | [ -> | [ -> | -> ] ] ]; cbn; auto.
Qed.
Example C74_example : forall ty,
  let M := mesh_ty ty in
  let mb := mobile_1 ClassMobile (flux_test ty (fun p => mkDual (INR p) (fun _ => 1))) [] [] in
  off_axis M /\ positive_temperature M slope_T /\ covered M soret_mats /\ given_D M soret_mats (T_T slope_T) flux_ctx /\
  given_prop M soret_mats (T_T slope_T) (@m_Q R prop) (x_Q flux_ctx) /\
  given_prop M soret_mats (T_T slope_T) (@m_thermal R prop) (x_cond flux_ctx) /\
  given_prop M soret_mats (T_T slope_T) (@m_heat R prop) (fun _ => 5) /\
  given_prop M soret_mats (T_T slope_T) (@m_rho R prop) (fun _ => 7) /\
  (exists F, create_diffusion_form M mb soret_mats slope_T (Some 2) [] true = Ok F) /\
  (exists F, heat_form M true 2 (T_T slope_T) (T_Tn slope_T) (mb_test mb) soret_mats [] [] = Ok F) /\
  (exists q v, make_quantity HydrogenFlux (LStr "solute") (IdInt 2) None None = Ok q /\
     compute M (mkFe [] [] [] []) flux_ctx q = Ok v).
Proof.
  assert (HP : forall p : nat, In p [1; 2]%nat \/ In p [3; 4]%nat -> p = 1%nat \/ p = 2%nat \/ p = 3%nat \/ p = 4%nat).
  { intros p H. cbn in H. lia. }
  intros ty M mb. split; [right; intros p [<-|[<-|[]]]; cbn; lra|]. split; [intros p _; cbn; lra|].
  split; [apply covered_soret|].
  assert (E0 : exp (- 0 / k_B / 400) = 1).
  { replace (- 0 / k_B / 400) with 0 by (unfold Rdiv; ring). apply exp_0. }
  split. { intros p H. destruct (HP p H) as [ -> | [ -> | [ -> | -> ] ] ]; unfold arhenius_coeff; cbn; rewrite E0; f_equal; ring. }
  split. { intros p H. destruct (HP p H) as [ -> | [ -> | [ -> | -> ] ] ]; reflexivity. }
  split. { intros p H. destruct (HP p H) as [ -> | [ -> | [ -> | -> ] ] ]; reflexivity. }
  split. { intros p H. destruct (HP p H) as [ -> | [ -> | [ -> | -> ] ] ]; reflexivity. }
  split. { intros p H. destruct (HP p H) as [ -> | [ -> | [ -> | -> ] ] ]; reflexivity. }
  split; [eexists; reflexivity|]. split; [eexists; reflexivity|]. eexists. eexists. split; reflexivity.
Qed.
