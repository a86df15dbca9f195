(** Proofs about the constitutive laws (Model/Laws.v). *)
From Coq Require Import Reals Lra Psatz String.
From Verif Require Import Base.Exc Model.Laws Spec.PhysSpec.
Local Open Scope R_scope.

Lemma k_B_boltzmann : k_B = boltzmann.
Proof. unfold k_B, boltzmann. lra. Qed.
Lemma R_gas_constant : R_gas = gas_constant.
Proof. unfold R_gas, gas_constant. lra. Qed.
Lemma k_B_pos : 0 < k_B.
Proof. unfold k_B. lra. Qed.
Lemma R_gas_pos : 0 < R_gas.
Proof. unfold R_gas. lra. Qed.
Lemma boltzmann_pos : 0 < boltzmann.
Proof. rewrite <- k_B_boltzmann. apply k_B_pos. Qed.

Lemma arrhenius_model A E T : 0 < T -> A * exp (- E / k_B / T) = arrhenius A E T.
Proof.
  intros HT. unfold arrhenius, Rdiv at 3. rewrite <- exp_Ropp. do 2 f_equal.
  rewrite k_B_boltzmann. pose proof boltzmann_pos. field. lra.
Qed.

Lemma arrhenius_pos A E T : 0 < A -> 0 < arrhenius A E T.
Proof. intros HA. unfold arrhenius. apply Rdiv_lt_0_compat; [exact HA|apply exp_pos]. Qed.
Lemma arrhenius_nonneg A E T : 0 <= A -> 0 <= arrhenius A E T.
Proof.
  intros HA. unfold arrhenius. apply Rmult_le_pos; [exact HA|].
  left. apply Rinv_0_lt_compat, exp_pos.
Qed.

(** Sieverts. *)
Lemma sieverts_sqrt T S E P : 0 < T -> sieverts_law T S E P = arrhenius S E T * sqrt P.
Proof. intros HT. unfold sieverts_law. cbv zeta. now rewrite arrhenius_model. Qed.
Lemma sieverts_square T S E P :
  0 < T -> 0 <= P -> sieverts_law T S E P * sieverts_law T S E P = arrhenius S E T ^ 2 * P.
Proof.
  intros HT HP. rewrite sieverts_sqrt by exact HT.
  replace (arrhenius S E T * sqrt P * (arrhenius S E T * sqrt P))
    with (arrhenius S E T ^ 2 * (sqrt P * sqrt P)) by ring.
  now rewrite sqrt_sqrt.
Qed.
Lemma sieverts_nonneg T S E P : 0 < T -> 0 <= S -> 0 <= sieverts_law T S E P.
Proof.
  intros HT HS. rewrite sieverts_sqrt by exact HT.
  apply Rmult_le_pos; [now apply arrhenius_nonneg|apply sqrt_pos].
Qed.
Lemma sieverts_strict T S E P P' :
  0 < T -> 0 < S -> 0 <= P < P' -> sieverts_law T S E P < sieverts_law T S E P'.
Proof.
  intros HT HS [HP HPP]. rewrite !sieverts_sqrt by exact HT.
  apply Rmult_lt_compat_l; [now apply arrhenius_pos|]. apply sqrt_lt_1; lra.
Qed.

Lemma henry_model T H E P : 0 < T -> henrys_law T H E P = arrhenius H E T * P.
Proof. intros HT. unfold henrys_law. cbv zeta. now rewrite arrhenius_model. Qed.

(** Implantation. *)
Lemma sqrt_div_balance x Kr : 0 <= x -> 0 < Kr -> Kr * sqrt (x / Kr) ^ 2 = x.
Proof.
  intros Hx HK. replace (sqrt (x / Kr) ^ 2) with (sqrt (x / Kr) * sqrt (x / Kr)) by ring.
  rewrite sqrt_sqrt.
  - field. lra.
  - apply Rmult_le_pos; [exact Hx|]. left. now apply Rinv_0_lt_compat.
Qed.

Lemma implantation_flux phi Rp D cR :
  D > 0 -> Rp > 0 -> D * (phi * Rp / D + cR - cR) / Rp = phi.
Proof. intros HD HR. field. lra. Qed.

Lemma implantation T phi Rp D0 ED Kr EKr Kd EKd P c :
  0 < T -> 0 <= phi -> 0 < Rp -> 0 < D0 ->
  (forall k, Kr = Some k -> 0 < k) -> (forall k, Kd = Some k -> 0 <= k) ->
  (forall p, P = Some p -> 0 <= p) ->
  dc_imp T phi Rp D0 ED Kr EKr Kd EKd P = Ok c ->
  exists cR,
    surface_balance phi (dissociated Kd EKd P T) (coefficient Kr EKr T) cR /\
    carries_flux phi Rp (arrhenius D0 ED T) c cR.
Proof.
  intros HT Hphi HR HD HKr HKd HP. unfold dc_imp. cbv zeta.
  rewrite arrhenius_model by exact HT.
  assert (HD' : arrhenius D0 ED T > 0) by now apply arrhenius_pos.
  destruct Kr as [Kr|].
  2: { intros H. assert (Hc : c = phi * Rp / arrhenius D0 ED T) by congruence. exists 0. split.
       - split; [lra|reflexivity].
       - unfold carries_flux. rewrite Hc.
         replace (phi * Rp / arrhenius D0 ED T - 0) with (phi * Rp / arrhenius D0 ED T + 0 - 0) by ring.
         apply implantation_flux; lra. }
  destruct EKr as [EKr|]; cbn [number bind]; [|discriminate].
  assert (HK : 0 < arrhenius Kr EKr T) by (apply arrhenius_pos; auto).
  rewrite (arrhenius_model Kr) by exact HT.
  destruct Kd as [Kd|].
  - destruct EKd as [EKd|]; cbn [number bind]; [|discriminate].
    destruct P as [P|]; cbn [number bind]; [|discriminate].
    rewrite (arrhenius_model Kd) by exact HT. intros H. apply (f_equal (fun r => match r with Ok x => x | Err _ => 0 end)) in H.
    cbv beta iota in H. subst c.
    exists (sqrt ((phi + arrhenius Kd EKd T * P) / arrhenius Kr EKr T)). split.
    + split; [apply sqrt_pos|]. cbn [coefficient dissociated]. apply sqrt_div_balance; [|exact HK].
      assert (0 <= arrhenius Kd EKd T) by (apply arrhenius_nonneg; auto).
      assert (0 <= P) by auto. nra.
    + apply implantation_flux; lra.
  - intros H. apply (f_equal (fun r => match r with Ok x => x | Err _ => 0 end)) in H.
    cbv beta iota in H. subst c. exists (sqrt (phi / arrhenius Kr EKr T)). split.
    + split; [apply sqrt_pos|]. cbn [coefficient dissociated]. rewrite Rplus_0_r.
      apply sqrt_div_balance; [exact Hphi|exact HK].
    + apply implantation_flux; lra.
Qed.

Lemma surface_unique phi d Kr x y :
  (forall k, Kr = Some k -> 0 < k) ->
  surface_balance phi d Kr x -> surface_balance phi d Kr y -> x = y.
Proof.
  intros HK [Hx Ex] [Hy Ey]. destruct Kr as [k|]; [|congruence].
  specialize (HK k eq_refl). assert (Hsq : x ^ 2 = y ^ 2).
  { apply (Rmult_eq_reg_l k); [congruence|lra]. }
  apply Rle_antisym; nra.
Qed.

Lemma dc_imp_ok T phi Rp D0 ED Kr EKr Kd EKd P :
  (exists c, dc_imp T phi Rp D0 ED Kr EKr Kd EKd P = Ok c) <->
  (Kr <> None -> EKr <> None /\ (Kd <> None -> EKd <> None /\ P <> None)).
Proof.
  unfold dc_imp. cbv zeta.
  destruct Kr as [Kr|]; [|split; [congruence|eauto]].
  destruct EKr as [EKr|]; cbn [number bind].
  2: { split; [intros [c Hc]; discriminate|]. intros H. destruct H; congruence. }
  destruct Kd as [Kd|].
  2: { split; [|eauto]. intros _ _. split; congruence. }
  destruct EKd as [EKd|]; cbn [number bind].
  2: { split; [intros [c Hc]; discriminate|]. intros H. destruct H as [_ H]; [congruence|].
       destruct H; congruence. }
  destruct P as [P|]; cbn [number bind].
  - split; [|eauto]. intros _ _. repeat split; congruence.
  - split; [intros [c Hc]; discriminate|]. intros H. destruct H as [_ H]; [congruence|].
    destruct H; congruence.
Qed.

(** Monotonicity of the implantation condition in the flux and the pressure. *)
Lemma dc_imp_monotone T phi phi' Rp D0 ED Kr EKr Kd EKd P P' c c' :
  0 < T -> 0 <= phi <= phi' -> 0 < Rp -> 0 < D0 ->
  (forall k, Kr = Some k -> 0 < k) -> (forall k, Kd = Some k -> 0 <= k) -> 0 <= P <= P' ->
  dc_imp T phi Rp D0 ED Kr EKr Kd EKd (Some P) = Ok c ->
  dc_imp T phi' Rp D0 ED Kr EKr Kd EKd (Some P') = Ok c' -> c <= c'.
Proof.
  intros HT Hphi HR HD HKr HKd HP. unfold dc_imp. cbv zeta.
  rewrite arrhenius_model by exact HT.
  assert (HD' : arrhenius D0 ED T > 0) by now apply arrhenius_pos.
  assert (Hv : phi * Rp / arrhenius D0 ED T <= phi' * Rp / arrhenius D0 ED T).
  { unfold Rdiv. apply Rmult_le_compat_r; [left; now apply Rinv_0_lt_compat|]. nra. }
  destruct Kr as [Kr|].
  2: { intros H H'. assert (c = phi * Rp / arrhenius D0 ED T) by congruence.
       assert (c' = phi' * Rp / arrhenius D0 ED T) by congruence. lra. }
  destruct EKr as [EKr|]; cbn [number bind]; [|discriminate].
  rewrite (arrhenius_model Kr) by exact HT.
  assert (HK : 0 < arrhenius Kr EKr T) by (apply arrhenius_pos; auto).
  assert (HKi : 0 <= / arrhenius Kr EKr T) by (left; now apply Rinv_0_lt_compat).
  destruct Kd as [Kd|].
  - destruct EKd as [EKd|]; cbn [number bind]; [|discriminate].
    rewrite (arrhenius_model Kd) by exact HT.
    assert (Hd : 0 <= arrhenius Kd EKd T) by (apply arrhenius_nonneg; auto).
    intros H H'. apply (f_equal (fun r => match r with Ok x => x | Err _ => 0 end)) in H, H'.
    cbv beta iota in H, H'. subst c c'. apply Rplus_le_compat; [exact Hv|].
    apply sqrt_le_1_alt. unfold Rdiv. apply Rmult_le_compat_r; [exact HKi|]. nra.
  - intros H H'. apply (f_equal (fun r => match r with Ok x => x | Err _ => 0 end)) in H, H'.
    cbv beta iota in H, H'. subst c c'. apply Rplus_le_compat; [exact Hv|].
    apply sqrt_le_1_alt. unfold Rdiv. apply Rmult_le_compat_r; [exact HKi|]. lra.
Qed.

(** Powers. *)
Lemma power_nonneg x e : 0 <= x -> 0 <= power x e.
Proof.
  intros Hx. destruct e as [n|y]; cbn [power]; [now apply pow_le|].
  destruct (Req_EM_T x 0); [lra|]. unfold Rpower. left. apply exp_pos.
Qed.
Lemma power_pos x e : 0 < x -> 0 < power x e.
Proof.
  intros Hx. destruct e as [n|y]; cbn [power]; [now apply pow_lt|].
  destruct (Req_EM_T x 0); [lra|]. unfold Rpower. apply exp_pos.
Qed.

Lemma recombination_model Kr E o T c :
  0 < T -> recombination_form Kr E o T c = - (arrhenius Kr E T * power c o).
Proof. intros HT. unfold recombination_form. cbv zeta. rewrite arrhenius_model by exact HT. ring. Qed.
Lemma dissociation_model Kd E P T : 0 < T -> dissociation_form Kd E P T = arrhenius Kd E T * P.
Proof. intros HT. unfold dissociation_form. cbv zeta. now rewrite arrhenius_model. Qed.

Lemma flux_equilibrium Kr EKr Kd EKd P T c :
  0 < T -> 0 < Kr -> 0 <= Kd -> 0 <= P -> 0 <= c ->
  recombination_form Kr EKr (EInt 2) T c + dissociation_form Kd EKd P T = 0 <->
  c = sqrt (arrhenius Kd EKd T * P / arrhenius Kr EKr T).
Proof.
  intros HT HKr HKd HP Hc. rewrite recombination_model, dissociation_model by exact HT.
  cbn [power]. pose proof (arrhenius_pos Kr EKr T HKr) as HK.
  pose proof (arrhenius_nonneg Kd EKd T HKd) as Hd. split.
  - intros H. replace (arrhenius Kd EKd T * P / arrhenius Kr EKr T) with (c * c).
    + now rewrite sqrt_square.
    + apply (Rmult_eq_reg_l (arrhenius Kr EKr T)); [|lra].
      replace (arrhenius Kr EKr T * (arrhenius Kd EKd T * P / arrhenius Kr EKr T))
        with (arrhenius Kd EKd T * P) by (field; lra).
      lra.
  - intros ->. rewrite (sqrt_div_balance (arrhenius Kd EKd T * P)); [ring|nra|exact HK].
Qed.

Lemma sieverts_from_rates Kr EKr Kd EKd S E P T :
  0 < T -> 0 < Kr -> 0 <= Kd -> 0 <= S -> 0 <= P -> Kd = S ^ 2 * Kr -> EKd = EKr + 2 * E ->
  sieverts_law T S E P = sqrt (arrhenius Kd EKd T * P / arrhenius Kr EKr T).
Proof.
  intros HT HKr HKd HS HP HK HE.
  replace (arrhenius Kd EKd T * P / arrhenius Kr EKr T)
    with (sieverts_law T S E P * sieverts_law T S E P).
  { now rewrite sqrt_square by now apply sieverts_nonneg. }
  rewrite sieverts_square by assumption. unfold arrhenius. subst Kd EKd.
  pose proof boltzmann_pos.
  replace ((EKr + 2 * E) / (boltzmann * T))
    with (EKr / (boltzmann * T) + (E / (boltzmann * T) + E / (boltzmann * T))) by (field; lra).
  rewrite !exp_plus.
  pose proof (exp_pos (EKr / (boltzmann * T))). pose proof (exp_pos (E / (boltzmann * T))).
  field. repeat split; lra.
Qed.

(** kJ/mol. *)
Lemma kJmol_exponent E T : 0 < T -> kJmol_to_eV E / k_B / T = 1000 * E / (gas_constant * T).
Proof.
  intros HT. unfold kJmol_to_eV. rewrite <- R_gas_constant. pose proof k_B_pos. pose proof R_gas_pos.
  field. lra.
Qed.

(** Implantation source. *)
Lemma half_square_exp z z' :
  Rabs z < Rabs z' -> exp (- (1 / 2) * z' ^ 2) < exp (- (1 / 2) * z ^ 2).
Proof.
  intros H. apply exp_increasing. assert (z ^ 2 < z' ^ 2).
  { rewrite <- !Rsqr_pow2. now apply Rsqr_lt_abs_1. }
  lra.
Qed.
Lemma norm_pos width : 0 < width -> 0 < 1 / (width * sqrt (2 * PI)).
Proof.
  intros H. apply Rdiv_lt_0_compat; [lra|]. apply Rmult_lt_0_compat; [exact H|].
  apply sqrt_lt_R0. pose proof PI_RGT_0. lra.
Qed.
