(** C38, C40-C42: heat balance, bounds on trapped concentrations and trap densities, decay. *)
From Coq Require Import Reals ZArith List Bool Lra Lia Psatz.
From Verif Require Import Base.Exc Base.Dual Model.Materials Model.Laws Model.Theta Model.Forms
  Spec.PhysSpec Spec.BalanceSpec Proofs.LawProofs Proofs.ThetaProofs Proofs.FormProofs Proofs.TrapProofs
  Properties.FormProps.
Import ListNotations.
Local Open Scope R_scope.
Local Open Scope list_scope.

(** * C38 *)

(** Properties that do not depend on the temperature: the thermal energy changes by the heat sources and
    the heat fluxes; all three coordinate systems. *)
Theorem C38_balance_partial {P} (M : mesh P) dt T T_n v ms sources bcs rho cp F :
  is_weight M v -> off_axis M -> (forall p, In p (q_facets M) -> 0 < val (T p)) ->
  constant_heat rho cp ms ->
  heat_form M true dt T T_n v ms sources bcs = Ok F ->
  assemble M F = (energy M rho cp ms (fun p => val (T p)) - energy M rho cp ms (fun p => val (T_n p))) / dt
                 - heat_supply M T sources bcs.
Proof.
  intros Hv Hr HT Hk HF. destruct (heat_balance M true dt T T_n v ms sources bcs F Hv Hr HT HF) as [F1 [HF1 ->]].
  f_equal.
  rewrite (sum_forms_assemble M _ (fun m => sum_over (ids (m_id (attrs m))) (fun z => total_in M z (fun p =>
             rho m * cp m * (val (T p) - val (T_n p)) / dt))) ms F1 HF1).
  - unfold energy. rewrite sum_over_minus. unfold Rdiv. rewrite Rmult_comm, <- sum_over_scale.
    apply sum_over_ext. intros m _. rewrite sum_over_minus, <- sum_over_scale. apply sum_over_ext. intros z _.
    unfold total_in. rewrite wsum_minus, <- wsum_scale. apply wsum_ext. intros. ring.
  - intros m G Hm HG. destruct (heat_material M true dt T T_n v m G Hv Hr HG) as [H _].
    destruct (H eq_refl) as [r [c [Hrho [Hcp ->]]]]. destruct (Hk m Hm) as [H1 H2].
    rewrite H1 in Hrho. rewrite H2 in Hcp. cbn [value_at] in Hrho, Hcp. apply Ok_inj in Hrho, Hcp. now subst.
Qed.
Print Assumptions C38_balance_partial.

(** Steady state: sources and fluxes cancel, whatever the conductivities. *)
Theorem C38_steady {P} (M : mesh P) dt T T_n v ms sources bcs F :
  is_weight M v -> off_axis M -> (forall p, In p (q_facets M) -> 0 < val (T p)) ->
  heat_form M false dt T T_n v ms sources bcs = Ok F ->
  assemble M F = - heat_supply M T sources bcs.
Proof.
  intros Hv Hr HT HF. destruct (heat_balance M false dt T T_n v ms sources bcs F Hv Hr HT HF) as [F1 [HF1 ->]].
  rewrite (sum_forms_assemble M _ (fun _ => 0) ms F1 HF1).
  - unfold sum_over. rewrite rsum_map_zero by auto. ring.
  - intros m G _ HG. now apply (heat_material M false dt T T_n v m G Hv Hr HG).
Qed.
Print Assumptions C38_steady.

Definition T_new : field nat := fun p => mkDual (400 + INR p) (fun _ => 1).
Definition T_old : field nat := fun _ => dconst 400.
Definition heat_bcs : list (list Z * flux nat) :=
  [([1%Z], ConvectiveFlux (fun _ => 2) (fun _ => 300)); ([2%Z], FluxBC (fun _ => 5))].
Example C38_example : forall ty, let M := mesh_ty ty in
  is_weight M (radius ty) /\ off_axis M /\ (forall p, In p (q_facets M) -> 0 < val (T_new p)) /\
  constant_heat (fun m => match uid m with O => 7 | _ => 13 end) (fun m => match uid m with O => 5 | _ => 11 end) two_mats /\
  (exists F, heat_form M true 2 T_new T_old (radius ty) two_mats [mkSource (IdOne 1) (fun _ => 3) None] heat_bcs = Ok F) /\
  (exists F, heat_form M false 2 T_new T_old (radius ty) two_mats [mkSource (IdOne 1) (fun _ => 3) None] heat_bcs = Ok F).
Proof.
  intros ty M. split; [|split; [|split; [|split; [|split]]]].
  - intros p. unfold weight. destruct ty; cbn; (split; [ring|]); intros i; destruct i; cbn; ring.
  - right. intros p [<-|[<-|[]]]; cbn; lra.
  - intros p _. cbn. pose proof (pos_INR p). lra.
  - intros m [<-|[<-|[]]]; split; reflexivity.
  - destruct ty; eexists; reflexivity.
  - destruct ty; eexists; reflexivity.
Qed.

(** False when a property depends on the temperature: with rho cp = T, of which T^2 / 2 is the energy, the
    residual is not the rate of change of the energy. *)
Definition hot_mat : mat :=
  mkMaterial (IdOne 1) None (Const 1) (Const 0) None None (Some (Const 3)) (Some (Fun (fun T => T))) (Some (Const 1))
    BNone None Sievert.
Definition one_point : mesh nat := mkMesh [1%nat] [] (fun _ => 1) (fun _ => 1%Z) (fun _ => 0%Z) INR 1 Cartesian.
Theorem C38_balance_refuted :
  exists (M : mesh nat) dt T T_n v ms (h : R -> R) F,
    is_weight M v /\ off_axis M /\ 0 < dt /\ covered M ms /\
    (forall m rho cp, In m ms -> value_at (m_rho (attrs m)) = Ok rho -> value_at (m_heat (attrs m)) = Ok cp ->
       forall x, derivable_pt_lim h x (rho x * cp x)) /\
    heat_form M true dt T T_n v ms [] [] = Ok F /\
    assemble M F <> (total M (fun p => h (val (T p))) - total M (fun p => h (val (T_n p)))) / dt.
Proof.
  assert (HF : exists F, heat_form one_point true 1 (fun _ => dconst 2) (fun _ => dconst 1) ones [mkMatObj 0 hot_mat] [] [] = Ok F)
    by (eexists; reflexivity).
  destruct HF as [F HF].
  exists one_point, 1, (fun _ => dconst 2), (fun _ => dconst 1), ones, [mkMatObj 0 hot_mat], (fun x => x ^ 2 / 2), F.
  split; [now apply cart_ones|]. split; [now left|]. split; [lra|]. split; [|split; [|split; [exact HF|]]].
  - split.
    + cbn. constructor; [intros []|constructor].
    + intros p _. cbn. auto.
  - intros m rho cp [<-|[]] Hrho Hcp x. cbn [value_at m_rho m_heat hot_mat attrs] in Hrho, Hcp.
    apply Ok_inj in Hrho, Hcp. subst rho cp.
    replace (1 * x) with (INR 2 * x ^ pred 2 * / 2 + x ^ 2 * 0) by (cbn; field).
    apply (derivable_pt_lim_mult (fun x => x ^ 2) (fun _ => / 2)).
    + apply derivable_pt_lim_pow.
    + apply derivable_pt_lim_const.
  - destruct (heat_balance one_point true 1 (fun _ => dconst 2) (fun _ => dconst 1) ones [mkMatObj 0 hot_mat] [] [] F
                (cart_ones one_point eq_refl) (or_introl eq_refl) ltac:(intros p []) HF) as [F1 [HF1 ->]].
    cbn [sum_forms] in HF1.
    destruct (heat_material_form one_point true 1 (fun _ => dconst 2) (fun _ => dconst 1) ones (mkMatObj 0 hot_mat)) as [G|e] eqn:HG;
      cbn [bind] in HF1; [|discriminate].
    apply Ok_inj in HF1. subst F1. rewrite app_nil_r.
    destruct (heat_material one_point true 1 _ _ ones _ G (cart_ones one_point eq_refl) (or_introl eq_refl) HG) as [H _].
    destruct (H eq_refl) as [rho [cp [Hrho [Hcp ->]]]]. cbn [value_at m_rho m_heat hot_mat attrs] in Hrho, Hcp.
    apply Ok_inj in Hrho, Hcp. subst rho cp. unfold heat_supply. sums.
Qed.
Print Assumptions C38_balance_refuted.

(** * C40 *)

(** At a point of the i-th material of the trap, whatever the stepsize. *)
Theorem C40_bounds {P} (M : mesh P) mb ms T dt t F p i m k_0 E_k p_0 E_p n c c_n :
  0 < dt -> t_sources t = [] -> trap_create_form mb ms T (Some dt) t = Ok F ->
  residual M p F 0 -> val (t_test t p) = 1 ->
  NoDup (BalanceSpec.all_ids (t_materials t)) -> nth_error (t_materials t) i = Some m ->
  In (q_volume M p) (ids (m_id (attrs m))) ->
  trap_params t i k_0 E_k p_0 E_p n -> concentration_at mb T (attrs m) p c c_n ->
  0 < val (T_T T p) -> 0 < val (T_Tn T p) -> 0 <= k_0 -> 0 <= p_0 -> 0 <= c ->
  0 <= val (t_previous t p) <= n p ->
  0 <= val (t_solution t p) <= n p.
Proof.
  intros Hdt Hs HF Hr Ht Hnd Hi Hz Hpar Hc HT HTn Hk Hp Hcpos Hprev.
  unfold trap_create_form, create_trapping_form in HF. rewrite Hs in HF. cbn [bind sum_forms] in HF.
  destruct (sum_forms_enum (trapping_terms mb T t) 0 (t_materials t)) as [F1|e] eqn:HF1; cbn [bind] in HF; [|discriminate].
  apply Ok_inj in HF. subst F. rewrite app_nil_r in Hr. apply residual_app in Hr.
  destruct Hr as [a [b [Ha [Hb E]]]]. apply residual_one in Ha; [|exact I].
  destruct (trapping_one mb T M t 0 i (t_materials t) F1 p b m c c_n HF1 Hb Hnd Hi Hz Hc HT HTn)
    as [k' [Ek' [p' [Ep' [n' [Hpar' ->]]]]]].
  destruct (trap_params_fun t i _ _ _ _ _ _ _ _ _ _ Hpar Hpar') as [<- [<- [<- [<- <-]]]].
  rewrite Ha, Ht in E.
  apply (implicit_bounds dt (arrhenius k_0 E_k (val (T_T T p))) c (n p) (arrhenius p_0 E_p (val (T_T T p)))
           (val (t_previous t p))); try assumption; try (now apply arrhenius_nonneg). lra.
Qed.
Print Assumptions C40_bounds.

(** Away from its materials a trap keeps its content. *)
Theorem C40_outside {P} (M : mesh P) mb ms T dt t F p :
  0 < dt -> t_sources t = [] -> trap_create_form mb ms T (Some dt) t = Ok F ->
  residual M p F 0 -> val (t_test t p) = 1 ->
  ~ In (q_volume M p) (BalanceSpec.all_ids (t_materials t)) ->
  val (t_solution t p) = val (t_previous t p).
Proof.
  intros Hdt Hs HF Hr Ht Hz.
  unfold trap_create_form, create_trapping_form in HF. rewrite Hs in HF. cbn [bind sum_forms] in HF.
  destruct (sum_forms_enum (trapping_terms mb T t) 0 (t_materials t)) as [F1|e] eqn:HF1; cbn [bind] in HF; [|discriminate].
  apply Ok_inj in HF. subst F. rewrite app_nil_r in Hr. apply residual_app in Hr.
  destruct Hr as [a [b [Ha [Hb E]]]]. apply residual_one in Ha; [|exact I].
  rewrite (trapping_none mb T M t 0 (t_materials t) F1 p b HF1 Hb Hz), Ha, Ht in E.
  assert (H : (val (t_solution t p) - val (t_previous t p)) / dt = 0) by lra.
  apply (Rmult_eq_compat_r dt) in H. unfold Rdiv in H. rewrite Rmult_assoc, Rinv_l in H by lra. lra.
Qed.
Print Assumptions C40_outside.

(** Steady state: occupancy k c / (k c + p) in the materials of the trap, nothing elsewhere. *)
Theorem C40_steady {P} (M : mesh P) mb ms T t F p m c c_n :
  t_sources t = [] -> trap_create_form mb ms T None t = Ok F ->
  residual M p F 0 -> val (t_test t p) = 1 ->
  NoDup (BalanceSpec.all_ids ms) -> NoDup (BalanceSpec.all_ids (t_materials t)) -> (forall x, In x (t_materials t) -> In x ms) ->
  In m ms -> In (q_volume M p) (ids (m_id (attrs m))) ->
  concentration_at mb T (attrs m) p c c_n -> 0 < val (T_T T p) -> 0 < val (T_Tn T p) ->
  (forall i k_0 E_k p_0 E_p n,
     nth_error (t_materials t) i = Some m -> trap_params t i k_0 E_k p_0 E_p n ->
     let k := arrhenius k_0 E_k (val (T_T T p)) in
     let w := arrhenius p_0 E_p (val (T_T T p)) in
     k * c + w <> 0 -> val (t_solution t p) = n p * (k * c / (k * c + w))) /\
  ((forall x, In x (t_materials t) -> uid x <> uid m) -> ~ In m (t_materials t) ->
   val (t_solution t p) = 0).
Proof.
  intros Hs HF Hr Ht Hnd Hndt Hsub Hm Hz Hc HT HTn.
  unfold trap_create_form, create_trapping_form in HF. rewrite Hs in HF. cbn [sum_forms] in HF.
  match type of HF with bind (bind ?x _) _ = _ => destruct x as [F0|e] eqn:HF0 end; cbn [bind] in HF; [|discriminate].
  destruct (sum_forms_enum (trapping_terms mb T t) 0 (t_materials t)) as [F1|e] eqn:HF1; cbn [bind] in HF; [|discriminate].
  apply Ok_inj in HF. subst F. rewrite app_nil_r in Hr. apply residual_app in Hr.
  destruct Hr as [a [b [Ha [Hb E]]]].
  assert (Huniq : forall x, In x ms -> In (q_volume M p) (ids (m_id (attrs x))) -> x = m).
  { clear - Hnd Hm Hz. induction ms as [|y ms IH]; [destruct Hm|]. intros x Hx Hzx.
    cbn [BalanceSpec.all_ids flat_map] in Hnd. apply NoDup_app_split in Hnd. destruct Hnd as [_ [Hnd Hdis]].
    destruct Hm as [->|Hm], Hx as [->|Hx]; auto.
    - exfalso. apply (Hdis _ Hz). apply in_flat_map. eauto.
    - exfalso. apply (Hdis _ Hzx). apply in_flat_map. eauto. }
  split.
  - intros i k_0 E_k p_0 E_p n Hi Hpar k w Hkw.
    rewrite (outside_residual M t ms (t_materials t) F0 p a HF0 Ha) in E.
    2:{ intros x Hx Hxm Hxz. rewrite (Huniq x Hx Hxz) in Hxm.
        unfold mat_in in Hxm. apply nth_error_In in Hi.
        assert (H : existsb (fun y => Nat.eqb (uid m) (uid y)) (t_materials t) = true).
        { apply existsb_exists. exists m. split; [exact Hi|apply Nat.eqb_refl]. }
        congruence. }
    destruct (trapping_one mb T M t 0 i (t_materials t) F1 p b m c c_n HF1 Hb Hndt Hi Hz Hc HT HTn)
      as [k' [Ek' [p' [Ep' [n' [Hpar' ->]]]]]].
    destruct (trap_params_fun t i _ _ _ _ _ _ _ _ _ _ Hpar Hpar') as [<- [<- [<- [<- <-]]]].
    fold k w in E. rewrite Ht in E. apply (Rmult_eq_reg_r (k * c + w)); [|exact Hkw].
    replace (n p * (k * c / (k * c + w)) * (k * c + w)) with (n p * (k * c)) by (field; exact Hkw). lra.
  - intros Huid Hnot.
    rewrite (outside_residual_one M t ms (t_materials t) F0 p a m HF0 Ha Hnd Hm) in E.
    + rewrite (trapping_none mb T M t 0 (t_materials t) F1 p b HF1 Hb) in E.
      * rewrite Ht in E. lra.
      * intros K. apply in_flat_map in K. destruct K as [x [Hx Hxz]]. apply Hnot.
        rewrite <- (Huniq x (Hsub x Hx) Hxz). exact Hx.
    + unfold mat_in. apply not_true_iff_false. intros K. apply existsb_exists in K. destruct K as [x [Hx Hu]].
      apply Nat.eqb_eq in Hu. apply (Huid x Hx). auto.
    + exact Hz.
Qed.
Print Assumptions C40_steady.

(** A trap at equilibrium with c = 1 in material 1: E = 0, k = 6, p = 2, n = 8, so 6 of 8 are filled. *)
Definition eq_trap (sol : R) : trap nat :=
  mkTrap (Scalar 6) (Scalar 0) (Scalar 2) (Scalar 0) [fun _ => 8] [mkMatObj 0 mat_1]
    (fun p => dconst (match p with 1%nat => sol | _ => 0 end)) (fun p => dconst (match p with 1%nat => 6 | _ => 0 end)) ones [].
Lemma exp_zero T : exp (- 0 / k_B / T) = 1.
Proof. replace (- 0 / k_B / T) with 0 by (unfold Rdiv; ring). apply exp_0. Qed.
Lemma residual_eq {P} (M : mesh P) p F r r' : residual M p F r -> r = r' -> residual M p F r'.
Proof. congruence. Qed.
Example C40_example : exists F,
  trap_create_form rest_mobile two_mats T_rest (Some 3) (eq_trap 6) = Ok F /\ residual one_point 1%nat F 0 /\
  NoDup (BalanceSpec.all_ids (t_materials (eq_trap 6))) /\ nth_error (t_materials (eq_trap 6)) 0 = Some (mkMatObj 0 mat_1) /\
  trap_params (eq_trap 6) 0 6 0 2 0 (fun _ => 8) /\ concentration_at rest_mobile T_rest mat_1 1%nat 1 1 /\
  0 <= val (t_previous (eq_trap 6) 1%nat) <= 8 /\
  exists F', trap_create_form rest_mobile two_mats T_rest None (eq_trap 6) = Ok F' /\ residual one_point 1%nat F' 0.
Proof.
  eexists. split; [reflexivity|]. split; [|split; [|split; [reflexivity|split; [|split; [|split]]]]].
  - cbn [app]. eapply residual_eq.
    + constructor; [exact I|]. constructor; [reflexivity|]. constructor; [reflexivity|]. constructor.
    + cbn. rewrite exp_zero. field.
  - cbn. constructor; [intros []|constructor].
  - left. repeat split; reflexivity.
  - split; reflexivity.
  - cbn. lra.
  - eexists. split; [reflexivity|]. cbn [app mat_in t_materials eq_trap existsb uid Nat.eqb orb].
    eapply residual_eq.
    + apply residual_out; [discriminate|]. constructor; [reflexivity|]. constructor; [reflexivity|]. constructor.
    + cbn. rewrite exp_zero. ring.
Qed.

(** * C41 *)

(** The density of an extrinsic trap stays below the larger of its two maxima. *)
Theorem C41_extrinsic {P} (M : mesh P) dt phi_0 n_amax n_bmax eta_a eta_b f_a f_b n n_prev test p :
  0 < dt -> 0 <= phi_0 p -> 0 < n_amax p -> 0 < n_bmax p -> 0 <= eta_a p -> 0 <= eta_b p -> 0 <= f_a p -> 0 <= f_b p ->
  residual M p (extrinsic_form dt phi_0 n_amax n_bmax eta_a eta_b f_a f_b n n_prev test) 0 ->
  val (test p) = 1 -> 0 <= val (n_prev p) <= Rmax (n_amax p) (n_bmax p) ->
  0 <= val (n p) <= Rmax (n_amax p) (n_bmax p).
Proof.
  intros Hdt Hphi Ha Hb Hea Heb Hfa Hfb Hr Ht Hprev. unfold extrinsic_form in Hr.
  apply residual_two in Hr. destruct Hr as [[_ Hr]|[H _]]; [|now destruct H]. rewrite Ht in Hr.
  apply (extrinsic_bounds dt (phi_0 p) (n_amax p) (n_bmax p) (eta_a p * f_a p) (eta_b p * f_b p) (val (n_prev p)));
    try assumption; try (apply Rmult_le_pos; assumption).
  rewrite Hr. unfold Rdiv. ring.
Qed.
Print Assumptions C41_extrinsic.

(** The density of a neutron-induced trap stays below n_max. *)
Theorem C41_neutron {P} (M : mesh P) dt phi K n_max A_0 E_A T n n_prev test p :
  0 < dt -> 0 <= phi p -> 0 <= K p -> 0 < n_max p -> 0 <= A_0 p ->
  residual M p (neutron_form dt phi K n_max A_0 E_A T n n_prev test) 0 ->
  val (test p) = 1 -> 0 <= val (n_prev p) <= n_max p ->
  0 <= val (n p) <= n_max p.
Proof.
  intros Hdt Hphi HK Hn HA Hr Ht Hprev. unfold neutron_form in Hr.
  change [?a; ?b; ?c] with ([a; b] ++ [c]) in Hr. apply residual_app in Hr. destruct Hr as [a [b [Ha [Hb E]]]].
  apply residual_two in Ha. destruct Ha as [[_ Ha]|[H _]]; [|now destruct H].
  apply residual_one in Hb; [|exact I]. rewrite Ha, Hb, Ht in E.
  apply (neutron_bounds dt (phi p * K p) (n_max p) (A_0 p * exp (- E_A p / (k_B * val (T p)))) (val (n_prev p)));
    try assumption.
  - now apply Rmult_le_pos.
  - apply Rmult_le_pos; [exact HA|]. left. apply exp_pos.
  - rewrite E. unfold Rdiv. ring.
Qed.
Print Assumptions C41_neutron.

(** One step of length 1 from 0 to 1 towards a maximum of 2 (source 2, twice 1). *)
Example C41_example :
  residual one_point 1%nat
    (extrinsic_form 1 (fun _ => 1) (fun _ => 2) (fun _ => 2) (fun _ => 1) (fun _ => 1) (fun _ => 1) (fun _ => 1)
       (fun _ => dconst 1) (fun _ => dconst 0) ones) 0 /\
  residual one_point 1%nat
    (neutron_form 1 (fun _ => 2) (fun _ => 2) (fun _ => 2) (fun _ => 1) (fun _ => 0) (fun _ => dconst 300)
       (fun _ => dconst 1) (fun _ => dconst 0) ones) 0.
Proof.
  split.
  - eapply residual_eq; [unfold extrinsic_form; repeat (constructor; [exact I|]); constructor|]. cbn. field.
  - eapply residual_eq; [unfold neutron_form; repeat (constructor; [exact I|]); constructor|].
    cbn. replace (- 0 / (k_B * 300)) with 0 by (unfold Rdiv; ring). rewrite exp_0. field.
Qed.

(** * C42 *)

(** Decay of every species in every volume, and nothing else. *)
Definition decays_everywhere {P} (M : mesh P) (l : R) (ss : list (source P)) : Prop :=
  (forall s, In s ss -> s_decay s = Some l) /\
  NoDup (flat_map (fun s => ids (s_volume s)) ss) /\
  (forall p, In p (q_cells M) -> In (q_volume M p) (flat_map (fun s => ids (s_volume s)) ss)).
Theorem C42_decay {P} (M : mesh P) mb ms T dt traps soret c c_n F l :
  covered M ms -> concentrations M mb T ms c c_n -> solubility_field M mb T ms ->
  positive_temperature M T -> tests M mb traps -> off_axis M -> 0 < dt -> 0 < l ->
  mb_bcs mb = [] -> decays_everywhere M l (mb_sources mb) ->
  (forall t, In t traps -> decays_everywhere M l (t_sources t)) ->
  define_variational_problem M mb ms T (Some dt) traps soret = Ok F ->
  (assemble M F = 0 <-> inventory M c traps = inventory_before M c_n traps * (1 / (1 + l * dt))).
Proof.
  intros Hcov Hc HS HT Ht Hr Hdt Hl Hb [Hd1 [Hd2 Hd3]] Htr HF.
  assert (E := balance M mb ms T (Some dt) traps soret c c_n F Hcov Hc HS HT Ht Hr HF). cbv beta iota in E.
  assert (Hsup : supply M T c mb traps = - l * inventory M c traps).
  { unfold supply, inventory. rewrite Hb, (decay_total M l (mb_sources mb) c Hd1 Hd2 Hd3).
    rewrite (sum_over_ext traps _ (fun t => - l * total M (fun p => val (t_solution t p)))).
    - rewrite sum_over_scale. unfold sum_over at 2. cbn [map]. rewrite rsum_nil. ring.
    - intros t Hin. destruct (Htr t Hin) as [H1 [H2 H3]]. now apply decay_total. }
  rewrite Hsup, Hb in E. unfold sum_over in E. cbn [map] in E. rewrite rsum_nil in E. rewrite E. clear E Hsup.
  set (I := inventory M c traps). set (J := inventory_before M c_n traps).
  assert (Hpos : 0 < 1 + l * dt) by nra.
  split; intros H.
  - apply (Rmult_eq_reg_r (1 + l * dt)); [|lra].
    replace (J * (1 / (1 + l * dt)) * (1 + l * dt)) with J by (field; lra).
    assert (K : (I - J) / dt = - (l * I)) by lra.
    assert (K' : I - J = - (l * I) * dt) by (rewrite <- K; field; lra). lra.
  - rewrite H. field. lra.
Qed.
Print Assumptions C42_decay.
(** Every constant that can be given removes hydrogen; zero and negative ones are refused. *)
Theorem C42_removes {P} (M : mesh P) mb ms T dt traps soret c c_n F v :
  (forall l, set_decay_constant v = Ok l -> l = v) /\ ((exists l, set_decay_constant v = Ok l) <-> 0 < v) /\
  forall l, set_decay_constant v = Ok l ->
  covered M ms -> concentrations M mb T ms c c_n -> solubility_field M mb T ms ->
  positive_temperature M T -> tests M mb traps -> off_axis M -> 0 < dt ->
  mb_bcs mb = [] -> decays_everywhere M l (mb_sources mb) ->
  (forall t, In t traps -> decays_everywhere M l (t_sources t)) ->
  define_variational_problem M mb ms T (Some dt) traps soret = Ok F -> assemble M F = 0 ->
  0 < inventory_before M c_n traps -> 0 < inventory M c traps < inventory_before M c_n traps.
Proof.
  assert (A : (forall l, set_decay_constant v = Ok l -> l = v) /\ ((exists l, set_decay_constant v = Ok l) <-> 0 < v)).
  { unfold set_decay_constant. destruct (Rle_dec v 0) as [H|H]; split; [discriminate| |now intros l [= <-]|].
    - split; [intros [l [=]]|lra].
    - split; [lra|]. intros _. now exists v. }
  destruct A as [A1 A2]. split; [exact A1|]. split; [exact A2|].
  intros l Hl Hcov Hc HS HT Ht Hr Hdt Hb Hd Htr HF HA Hpos.
  assert (Hv : 0 < l) by (rewrite (A1 l Hl); apply A2; now exists l).
  apply (C42_decay M mb ms T dt traps soret c c_n F l) in HA; try assumption. rewrite HA.
  assert (K : 0 < l * dt) by now apply Rmult_lt_0_compat.
  assert (Hq : 0 < 1 / (1 + l * dt) < 1).
  { split; [apply Rdiv_lt_0_compat; lra|]. apply (Rmult_lt_reg_r (1 + l * dt)); [lra|]. unfold Rdiv. rewrite Rmult_assoc, Rinv_l by lra. lra. }
  split; [now apply Rmult_lt_0_compat|]. rewrite <- (Rmult_1_r (inventory_before M c_n traps)) at 2. apply Rmult_lt_compat_l; lra.
Qed.
Print Assumptions C42_removes.

(** The condition on an inventory of 13/2 with sources on both volumes for the mobile species and the trap. *)
Example C42_example :
  let M := mesh_ty Cartesian in
  let mb := mobile_1 ClassMobile ones [mkSource (IdMany [1; 2]%Z) (fun _ => 0) (Some 3)] [] in
  let traps := [trap_1 ones [mkSource (IdOne 1) (fun _ => 0) (Some 3); mkSource (IdOne 2) (fun _ => 0) (Some 3)]] in
  tests M mb traps /\ decays_everywhere M 3 (mb_sources mb) /\
  (forall t, In t traps -> decays_everywhere M 3 (t_sources t)) /\
  (exists F, define_variational_problem M mb two_mats T400 (Some 2) traps false = Ok F).
Proof.
  intros M mb traps.
  assert (Hnd : NoDup [1; 2]%Z).
  { constructor; [intros [H|[]]; discriminate|]. constructor; [intros []|constructor]. }
  assert (Hin : forall p, In p (q_cells M) -> In (q_volume M p) [1; 2]%Z) by (intros p [<-|[<-|[]]]; cbn; auto).
  split; [|split; [|split]].
  - split; [now apply cart_ones|split].
    + intros t [<-|[]] p _. reflexivity.
    + intros s a [].
  - split; [|split; [exact Hnd|exact Hin]]. intros s [<-|[]]. reflexivity.
  - intros t [<-|[]]. split; [|split; [exact Hnd|exact Hin]]. intros s [<-|[<-|[]]]; reflexivity.
  - eexists. reflexivity.
Qed.
