(** C45 (Dirichlet laws), C46 (fluxes), C55 (units of energies), C56 (implantation source). *)
From Coq Require Import Reals Lra Psatz String.
From Verif Require Import Base.Exc Model.Laws Spec.PhysSpec Proofs.LawProofs.
Local Open Scope R_scope.

(** * C45 *)

(** Sieverts: the square of the imposed concentration is the square of the solubility times the
    pressure; it is non-negative and increases strictly with the pressure. *)
Theorem C45_sieverts (T S_0 E_S P P' : R) :
  0 < T -> 0 < S_0 -> 0 <= P < P' ->
  0 <= sieverts_law T S_0 E_S P /\
  sieverts_law T S_0 E_S P ^ 2 = arrhenius S_0 E_S T ^ 2 * P /\
  sieverts_law T S_0 E_S P < sieverts_law T S_0 E_S P'.
Proof.
  intros HT HS HP. split; [|split].
  - apply sieverts_nonneg; lra.
  - replace (sieverts_law T S_0 E_S P ^ 2) with (sieverts_law T S_0 E_S P * sieverts_law T S_0 E_S P) by ring.
    apply sieverts_square; lra.
  - now apply sieverts_strict.
Qed.
Print Assumptions C45_sieverts.

(** Henry: proportional to the pressure, the ratio being the Arrhenius coefficient. *)
Theorem C45_henry (T H_0 E_H P P' : R) :
  0 < T -> 0 < H_0 -> 0 <= P < P' ->
  0 <= henrys_law T H_0 E_H P /\
  henrys_law T H_0 E_H P' / arrhenius H_0 E_H T = P' /\
  henrys_law T H_0 E_H P < henrys_law T H_0 E_H P'.
Proof.
  intros HT HH HP. rewrite !henry_model by exact HT.
  pose proof (arrhenius_pos H_0 E_H T HH). split; [|split].
  - nra.
  - field. lra.
  - nra.
Qed.
Print Assumptions C45_henry.

(** Implantation: the condition can be evaluated exactly when the parameters it needs are given; then
    the imposed concentration c is the only one for which the implanted flux is carried back to the
    surface and balanced there by recombination minus dissociation. *)
Theorem C45_implantation (T phi R_p D_0 E_D : R) (Kr_0 E_Kr Kd_0 E_Kd P : option R) :
  0 < T -> 0 <= phi -> 0 < R_p -> 0 < D_0 ->
  (forall k, Kr_0 = Some k -> 0 < k) -> (forall k, Kd_0 = Some k -> 0 <= k) ->
  (forall p, P = Some p -> 0 <= p) ->
  ((exists c, dc_imp T phi R_p D_0 E_D Kr_0 E_Kr Kd_0 E_Kd P = Ok c) <->
   (Kr_0 <> None -> E_Kr <> None /\ (Kd_0 <> None -> E_Kd <> None /\ P <> None))) /\
  (forall c, dc_imp T phi R_p D_0 E_D Kr_0 E_Kr Kd_0 E_Kd P = Ok c ->
     0 <= c /\
     forall c',
       (c' = c <->
        exists c_R,
          surface_balance phi (dissociated Kd_0 E_Kd P T) (coefficient Kr_0 E_Kr T) c_R /\
          carries_flux phi R_p (arrhenius D_0 E_D T) c' c_R)).
Proof.
  intros HT Hphi HR HD HKr HKd HP. split; [apply dc_imp_ok|].
  intros c Hc.
  destruct (implantation T phi R_p D_0 E_D Kr_0 E_Kr Kd_0 E_Kd P c) as [cR [Hs Hf]]; try assumption.
  pose proof (arrhenius_pos D_0 E_D T HD) as HDp.
  assert (Hex : forall x y, carries_flux phi R_p (arrhenius D_0 E_D T) x y ->
                            x = phi * R_p / arrhenius D_0 E_D T + y).
  { intros x y H. unfold carries_flux in H.
    assert (Hm : arrhenius D_0 E_D T * (x - y) = phi * R_p).
    { rewrite <- H. field. lra. }
    apply (Rmult_eq_reg_l (arrhenius D_0 E_D T)); [|lra].
    replace (arrhenius D_0 E_D T * (phi * R_p / arrhenius D_0 E_D T + y))
      with (phi * R_p + arrhenius D_0 E_D T * y) by (field; lra).
    lra. }
  split.
  - rewrite (Hex c cR Hf). destruct Hs as [HcR _].
    assert (0 <= phi * R_p / arrhenius D_0 E_D T); [|lra].
    apply Rmult_le_pos; [nra|]. left. now apply Rinv_0_lt_compat.
  - intros c'. split.
    + intros ->. exists cR. auto.
    + intros [cR' [Hs' Hf']]. rewrite (Hex c' cR' Hf'), (Hex c cR Hf). f_equal.
      eapply surface_unique; [|exact Hs'|exact Hs].
      intros k. unfold coefficient. destruct Kr_0 as [k0|]; [|discriminate].
      destruct E_Kr; [|discriminate]. intros H.
      apply (f_equal (fun o => match o with Some x => x | None => 1 end)) in H. cbv beta iota in H.
      subst k. apply arrhenius_pos. auto.
Qed.
Print Assumptions C45_implantation.

(** It grows with the flux and with the pressure. *)
Theorem C45_implantation_monotone T phi phi' R_p D_0 E_D Kr_0 E_Kr Kd_0 E_Kd P P' c c' :
  0 < T -> 0 <= phi <= phi' -> 0 < R_p -> 0 < D_0 ->
  (forall k, Kr_0 = Some k -> 0 < k) -> (forall k, Kd_0 = Some k -> 0 <= k) -> 0 <= P <= P' ->
  dc_imp T phi R_p D_0 E_D Kr_0 E_Kr Kd_0 E_Kd (Some P) = Ok c ->
  dc_imp T phi' R_p D_0 E_D Kr_0 E_Kr Kd_0 E_Kd (Some P') = Ok c' -> c <= c'.
Proof. apply dc_imp_monotone. Qed.
Print Assumptions C45_implantation_monotone.

(** With E = 0 everything can be computed: D = 2, Kr = 4, Kd = 3, phi = 4, P = 4 at R_p = 1. *)
Example C45_example :
  sieverts_law 300 2 0 9 = 6 /\ henrys_law 300 2 0 9 = 18 /\
  dc_imp 300 4 1 2 0 (Some 4) (Some 0) (Some 3) (Some 0) (Some 4) = Ok 4 /\
  dc_imp 300 4 1 2 0 (Some 4) (Some 0) None None None = Ok 3 /\
  dc_imp 300 4 1 2 0 None None (Some 3) (Some 0) (Some 4) = Ok 2 /\
  dc_imp 300 4 1 2 0 (Some 4) (Some 0) (Some 3) (Some 0) None
    = Err (TypeError "unsupported operand type(s): 'NoneType'").
Proof.
  unfold sieverts_law, henrys_law, dc_imp. cbn [number bind]. cbv zeta.
  replace (-0 / k_B / 300) with 0 by (pose proof k_B_pos; field; lra). rewrite exp_0, !Rmult_1_r.
  replace ((4 + 3 * 4) / 4) with (2 * 2) by lra. replace (4 / 4) with 1 by lra.
  replace 9 with (3 * 3) by lra. rewrite sqrt_1, !sqrt_square by lra.
  repeat split; try lra; f_equal; lra.
Qed.

(** * C46 *)

(** Signs: the flux is what enters the domain (mobile.py L232 subtracts form * v). *)
Theorem C46_signs :
  (forall Kr_0 E_Kr order T c,
     0 < T -> 0 <= Kr_0 -> 0 <= c ->
     recombination_form Kr_0 E_Kr order T c <= 0 /\
     (0 < Kr_0 -> 0 < c -> recombination_form Kr_0 E_Kr order T c < 0)) /\
  (forall Kd_0 E_Kd P T,
     0 < T -> 0 <= Kd_0 -> 0 <= P ->
     0 <= dissociation_form Kd_0 E_Kd P T /\
     (0 < Kd_0 -> 0 < P -> 0 < dissociation_form Kd_0 E_Kd P T)) /\
  (forall h T_ext T, 0 < h ->
     (0 < convective_form h T_ext T <-> T < T_ext) /\
     (convective_form h T_ext T = 0 <-> T = T_ext)) /\
  (forall h c_ext c, 0 < h ->
     (mass_form h c_ext c < 0 <-> c_ext < c) /\ (mass_form h c_ext c = 0 <-> c = c_ext)).
Proof.
  split; [|split; [|split]].
  - intros Kr E o T c HT HK Hc. rewrite recombination_model by exact HT. split.
    + pose proof (arrhenius_nonneg Kr E T HK). pose proof (power_nonneg c o Hc). nra.
    + intros HK' Hc'. pose proof (arrhenius_pos Kr E T HK'). pose proof (power_pos c o Hc'). nra.
  - intros Kd E P T HT HK HP. rewrite dissociation_model by exact HT. split.
    + pose proof (arrhenius_nonneg Kd E T HK). nra.
    + intros HK' HP'. pose proof (arrhenius_pos Kd E T HK'). nra.
  - intros h Te T Hh. unfold convective_form. split; split; intros H; nra.
  - intros h ce c Hh. unfold mass_form. split; split; intros H; nra.
Qed.
Print Assumptions C46_signs.

(** Second order recombination and dissociation cancel at one concentration only: sqrt(Kd P / Kr). *)
Theorem C46_equilibrium Kr_0 E_Kr Kd_0 E_Kd P T c :
  0 < T -> 0 < Kr_0 -> 0 <= Kd_0 -> 0 <= P -> 0 <= c ->
  (recombination_form Kr_0 E_Kr (EInt 2) T c + dissociation_form Kd_0 E_Kd P T = 0 <->
   c = sqrt (arrhenius Kd_0 E_Kd T * P / arrhenius Kr_0 E_Kr T)).
Proof. apply flux_equilibrium. Qed.
Print Assumptions C46_equilibrium.

(** It is the concentration SievertsBC imposes when the rates are those of the solubility. *)
Theorem C46_sieverts Kr_0 E_Kr S_0 E_S P T c :
  0 < T -> 0 < Kr_0 -> 0 <= S_0 -> 0 <= P -> 0 <= c ->
  (recombination_form Kr_0 E_Kr (EInt 2) T c
   + dissociation_form (S_0 ^ 2 * Kr_0) (E_Kr + 2 * E_S) P T = 0 <->
   c = sieverts_law T S_0 E_S P).
Proof.
  intros HT HK HS HP Hc.
  assert (HKd : 0 <= S_0 ^ 2 * Kr_0) by (pose proof (pow_le S_0 2 HS); nra).
  rewrite flux_equilibrium by assumption.
  now rewrite (sieverts_from_rates Kr_0 E_Kr (S_0 ^ 2 * Kr_0) (E_Kr + 2 * E_S) S_0 E_S P T).
Qed.
Print Assumptions C46_sieverts.

Example C46_example :
  recombination_form 2 0 (EInt 2) 300 6 = - 72 /\
  recombination_form 2 0 (EInt 2) 300 6 + dissociation_form 8 0 9 300 = 0 /\
  convective_form 5 400 300 = 500 /\ mass_form 2 1 3 = - 4.
Proof.
  unfold recombination_form, dissociation_form, convective_form, mass_form. cbn [power]. cbv zeta.
  replace (-0 / k_B / 300) with 0 by (pose proof k_B_pos; field; lra). rewrite exp_0.
  repeat split; lra.
Qed.

(** * C55 *)
Theorem C55_kJmol :
  (forall E T, 0 < T -> exp (- kJmol_to_eV E / k_B / T) = exp (- (1000 * E / (gas_constant * T)))) /\
  (forall a E E', kJmol_to_eV (a * E + E') = a * kJmol_to_eV E + kJmol_to_eV E') /\
  (forall E E', kJmol_to_eV E < kJmol_to_eV E' <-> E < E') /\
  Rabs (kJmol_to_eV 96.4853321 - 1) < 1e-6.
Proof.
  split; [|split; [|split]].
  - intros E T HT. f_equal. rewrite <- kJmol_exponent by exact HT. pose proof k_B_pos. field. lra.
  - intros a E E'. unfold kJmol_to_eV. pose proof R_gas_pos. field. lra.
  - intros E E'. unfold kJmol_to_eV, k_B, R_gas. lra.
  - unfold kJmol_to_eV, k_B, R_gas. apply Rabs_def1; lra.
Qed.
Print Assumptions C55_kJmol.
Example C55_example : 0.0103 < kJmol_to_eV 1 < 0.0104.
Proof. unfold kJmol_to_eV, k_B, R_gas. lra. Qed.

(** * C56 *)
Theorem C56_profile (flux imp_depth width : R) :
  0 < width ->
  (forall x, 0 <= flux -> 0 <= implantation_value flux imp_depth width x) /\
  (forall d, implantation_value flux imp_depth width (imp_depth + d)
             = implantation_value flux imp_depth width (imp_depth - d)) /\
  (forall x y, 0 < flux -> Rabs (x - imp_depth) < Rabs (y - imp_depth) ->
     implantation_value flux imp_depth width y < implantation_value flux imp_depth width x) /\
  (forall x, 0 < flux -> x <> imp_depth ->
     implantation_value flux imp_depth width x < implantation_value flux imp_depth width imp_depth) /\
  (implantation_value flux imp_depth width imp_depth * (width * sqrt (2 * PI)) = flux) /\
  (forall a b x, implantation_value (a * flux + b) imp_depth width x
     = a * implantation_value flux imp_depth width x + implantation_value b imp_depth width x) /\
  (implantation_value flux imp_depth width (imp_depth + width)
   = exp (- 0.5) * implantation_value flux imp_depth width imp_depth).
Proof.
  intros Hw. pose proof (norm_pos width Hw) as Hn.
  assert (Hs : 0 < sqrt (2 * PI)) by (apply sqrt_lt_R0; pose proof PI_RGT_0; lra).
  assert (Hdec : forall x y, 0 < flux -> Rabs (x - imp_depth) < Rabs (y - imp_depth) ->
     implantation_value flux imp_depth width y < implantation_value flux imp_depth width x).
  { intros x y Hf H. unfold implantation_value. cbv zeta.
    apply Rmult_lt_compat_l; [exact Hf|]. apply Rmult_lt_compat_l; [exact Hn|].
    apply half_square_exp. unfold Rdiv. rewrite !Rabs_mult.
    apply Rmult_lt_compat_r; [|exact H]. apply Rabs_pos_lt.
    pose proof (Rinv_0_lt_compat width Hw). lra. }
  split; [|split; [|split; [|split; [|split; [|split]]]]].
  - intros x Hf. unfold implantation_value. cbv zeta. apply Rmult_le_pos; [exact Hf|].
    apply Rmult_le_pos; [lra|]. left. apply exp_pos.
  - intros d. unfold implantation_value. cbv zeta. do 3 f_equal. field. lra.
  - exact Hdec.
  - intros x Hf Hx. apply Hdec; [exact Hf|]. rewrite Rminus_diag_eq by reflexivity. rewrite Rabs_R0.
    apply Rabs_pos_lt. lra.
  - unfold implantation_value. cbv zeta.
    replace (- (1 / 2) * ((imp_depth - imp_depth) / width) ^ 2) with 0 by (field; lra).
    rewrite exp_0. field. lra.
  - intros a b x. unfold implantation_value. cbv zeta. ring.
  - unfold implantation_value. cbv zeta.
    replace ((imp_depth + width - imp_depth) / width) with 1 by (field; lra).
    replace (- (1 / 2) * 1 ^ 2) with (- 0.5) by lra.
    replace (- (1 / 2) * ((imp_depth - imp_depth) / width) ^ 2) with 0 by (field; lra).
    rewrite exp_0. ring.
Qed.
Print Assumptions C56_profile.
Example C56_example :
  0 < implantation_value 3 5 2 6 < implantation_value 3 5 2 5.
Proof.
  destruct (C56_profile 3 5 2 ltac:(lra)) as [_ [_ [_ [H _]]]]. split.
  - unfold implantation_value. cbv zeta. apply Rmult_lt_0_compat; [lra|].
    apply Rmult_lt_0_compat; [apply norm_pos; lra|apply exp_pos].
  - apply H; lra.
Qed.
