(** C100: in a transient simulation the density of an extrinsic or neutron-induced trap approaches its equilibrium; in
    a steady simulation it stays 0. *)
From Coq Require Import Reals ZArith List Lra Lia.
From Verif Require Import Base.Exc Base.Dual Model.Materials Model.Laws Model.Theta Model.Forms Model.ExtrinsicDensity
  Spec.PhysSpec Spec.BalanceSpec Spec.ExtrinsicSpec Proofs.FormProofs Proofs.ExtrinsicProofs
  Properties.FormProps Properties.TrapProps.
Import ListNotations.
Local Open Scope R_scope.

(** Uniform parameters: the density after steps of any sizes. *)
Theorem C100_density {P} (M : mesh P) V k T c l dts n : weights M -> space V -> uniform M k T c l -> 0 < l ->
  Forall (fun dt => 0 < dt) dts -> simulated_density M V k T true dts n ->
  forall p, In p (q_cells M) -> 0 < q_weight M p -> n p = c / l * (1 - missing l dts).
Proof.
  intros Hw HV Hu Hl Hd Hn p Hp Hwp.
  rewrite (run_uniform M V k T c l dts initial_density n Hw HV Hu Hl Hd Hn 0 (fun q _ _ => eq_refl) p Hp Hwp). ring.
Qed.
Print Assumptions C100_density.

(** It never overshoots, increases in every step, and misses the equilibrium by at most the share 1 / (1 + l t) after a
    time t, however the time was divided in steps. *)
Theorem C100_approach {P} (M : mesh P) V k T c l dts dt n n' : weights M -> space V -> uniform M k T c l -> 0 < l -> 0 < c ->
  Forall (fun dt => 0 < dt) (dts ++ [dt]) ->
  simulated_density M V k T true dts n -> simulated_density M V k T true (dts ++ [dt]) n' ->
  forall p, In p (q_cells M) -> 0 < q_weight M p ->
    0 <= n p /\ n p < n' p /\ n' p < c / l /\ c / l - n p <= c / l / (1 + l * elapsed dts).
Proof.
  intros Hw HV Hu Hl Hc Hd Hn Hn' p Hp Hwp.
  assert (Hd0 := Hd). apply Forall_app in Hd0. destruct Hd0 as [Hd0 Hdt]. inversion_clear Hdt as [|? ? Hdt' _].
  rewrite (C100_density M V k T c l dts n Hw HV Hu Hl Hd0 Hn p Hp Hwp).
  rewrite (C100_density M V k T c l _ n' Hw HV Hu Hl Hd Hn' p Hp Hwp).
  assert (Hm := missing_pos l dts (Rlt_le _ _ Hl) Hd0). assert (He := elapsed_pos dts Hd0).
  assert (Hb := missing_elapsed l dts (Rlt_le _ _ Hl) Hd0).
  assert (Heq : 0 < c / l) by now apply Rdiv_lt_0_compat.
  assert (Hle : 0 <= l * elapsed dts) by (apply Rmult_le_pos; lra).
  assert (Hld : 0 < l * dt) by now apply Rmult_lt_0_compat.
  assert (H1 : missing l dts <= 1).
  { assert (0 <= missing l dts * (l * elapsed dts)) by (apply Rmult_le_pos; lra). lra. }
  rewrite missing_app. cbn [missing]. rewrite Rmult_1_r.
  assert (Hi : 0 < / (1 + l * dt) < 1).
  { split; [apply Rinv_0_lt_compat; lra|]. rewrite <- Rinv_1. apply Rinv_lt_contravar; lra. }
  assert (Hmi : 0 < missing l dts * / (1 + l * dt)) by (apply Rmult_lt_0_compat; lra).
  assert (Hmm : missing l dts * / (1 + l * dt) < missing l dts).
  { rewrite <- (Rmult_1_r (missing l dts)) at 2. apply Rmult_lt_compat_l; lra. }
  split; [apply Rmult_le_pos; lra|]. split; [apply Rmult_lt_compat_l; lra|]. split.
  - rewrite <- (Rmult_1_r (c / l)) at 2. apply Rmult_lt_compat_l; lra.
  - replace (c / l - c / l * (1 - missing l dts)) with (c / l * missing l dts) by ring.
    unfold Rdiv at 2. apply Rmult_le_compat_l; [lra|]. apply (Rmult_le_reg_r (1 + l * elapsed dts)); [lra|].
    rewrite Rinv_l by lra. exact Hb.
Qed.
Print Assumptions C100_approach.

(** Hence, given enough time, the density is as close to the equilibrium as wanted. *)
Theorem C100_limit {P} (M : mesh P) V k T c l eps : weights M -> space V -> uniform M k T c l -> 0 < l -> 0 <= c -> 0 < eps ->
  exists t, forall dts n, Forall (fun dt => 0 < dt) dts -> t <= elapsed dts -> simulated_density M V k T true dts n ->
    forall p, In p (q_cells M) -> 0 < q_weight M p -> Rabs (n p - c / l) < eps.
Proof.
  intros Hw HV Hu Hl Hc Heps. exists (c / l / eps / l). intros dts n Hd Ht Hn p Hp Hwp.
  rewrite (C100_density M V k T c l dts n Hw HV Hu Hl Hd Hn p Hp Hwp).
  assert (Hm := missing_pos l dts (Rlt_le _ _ Hl) Hd). assert (Hb := missing_elapsed l dts (Rlt_le _ _ Hl) Hd).
  assert (He := elapsed_pos dts Hd).
  assert (Heq : 0 <= c / l). { apply Rmult_le_pos; [exact Hc|]. left. now apply Rinv_0_lt_compat. }
  replace (c / l * (1 - missing l dts) - c / l) with (- (c / l * missing l dts)) by ring.
  rewrite Rabs_Ropp, Rabs_pos_eq by (apply Rmult_le_pos; lra).
  assert (Hq : c / l / eps <= l * elapsed dts).
  { apply (Rmult_le_compat_l l) in Ht; [|lra]. replace (l * (c / l / eps / l)) with (c / l / eps) in Ht by (field; lra). exact Ht. }
  assert (Hc' : c / l <= eps * (l * elapsed dts)).
  { apply (Rmult_le_compat_l eps) in Hq; [|lra]. replace (eps * (c / l / eps)) with (c / l) in Hq by (field; lra). exact Hq. }
  apply Rle_lt_trans with (eps * (l * elapsed dts) * missing l dts); [apply Rmult_le_compat_r; lra|].
  assert (eps * (missing l dts * (1 + l * elapsed dts)) <= eps * 1) by (apply Rmult_le_compat_l; lra).
  assert (0 < eps * missing l dts) by now apply Rmult_lt_0_compat. lra.
Qed.
Print Assumptions C100_limit.

(** The equilibrium: that of the neutron-induced trap balances creation and annealing; that of the extrinsic trap lies
    between its two maxima. *)
Theorem C100_equilibrium {P} (k : extrinsic P) (T : P -> R) (p : P) : 0 < creation k p ->
  match k with
  | ExtrinsicTrap phi_0 n_amax n_bmax eta_a eta_b f_a f_b =>
      0 < phi_0 p -> 0 <= eta_a p * f_a p -> 0 <= eta_b p * f_b p -> 0 < n_amax p -> 0 < n_bmax p ->
      Rmin (n_amax p) (n_bmax p) <= creation k p / loss k T p <= Rmax (n_amax p) (n_bmax p)
  | NeutronInducedTrap phi K n_max A_0 E_A =>
      0 < n_max p -> 0 <= A_0 p ->
      phi p * K p * (1 - creation k p / loss k T p / n_max p)
      = A_0 p * exp (- E_A p / (k_B * T p)) * (creation k p / loss k T p)
  end.
Proof.
  destruct k as [phi_0 n_amax n_bmax eta_a eta_b f_a f_b|phi K n_max A_0 E_A]; cbn [creation loss]; intros Hc.
  - intros Hphi Ha Hb Hna Hnb.
    set (x := eta_a p * f_a p) in *. set (y := eta_b p * f_b p) in *.
    assert (Hxy : 0 < x + y). { apply (Rmult_lt_reg_l (phi_0 p)); lra. }
    set (u := x / n_amax p). set (v := y / n_bmax p).
    assert (Hx : x = u * n_amax p) by (unfold u; field; lra). assert (Hy : y = v * n_bmax p) by (unfold v; field; lra).
    assert (Hu : 0 <= u) by (apply Rmult_le_pos; [exact Ha|left; now apply Rinv_0_lt_compat]).
    assert (Hv : 0 <= v) by (apply Rmult_le_pos; [exact Hb|left; now apply Rinv_0_lt_compat]).
    assert (Huv : 0 < u + v).
    { destruct Hu as [Hu|Hu], Hv as [Hv|Hv]; try lra. rewrite Hx, Hy, <- Hu, <- Hv in Hxy. lra. }
    replace (phi_0 p * (x + y) / (phi_0 p * (u + v))) with ((u * n_amax p + v * n_bmax p) / (u + v))
      by (rewrite Hx, Hy; field; split; lra).
    assert (Hl1 := Rmin_l (n_amax p) (n_bmax p)). assert (Hl2 := Rmin_r (n_amax p) (n_bmax p)).
    assert (Hr1 := Rmax_l (n_amax p) (n_bmax p)). assert (Hr2 := Rmax_r (n_amax p) (n_bmax p)).
    split; apply (Rmult_le_reg_r (u + v)); try exact Huv; unfold Rdiv; rewrite (Rmult_assoc (_ + _)), Rinv_l, Rmult_1_r by lra;
      rewrite Rmult_plus_distr_l, 2 (Rmult_comm (_ (n_amax p) (n_bmax p))); apply Rplus_le_compat; apply Rmult_le_compat_l; lra.
  - intros Hn HA. set (a := A_0 p * exp (- E_A p / (k_B * T p))).
    assert (Ha : 0 <= a) by (apply Rmult_le_pos; [exact HA|left; apply exp_pos]).
    assert (0 < phi p * K p / n_max p) by now apply Rdiv_lt_0_compat.
    assert (0 <= n_max p * a) by (apply Rmult_le_pos; lra).
    field. split; lra.
Qed.
Print Assumptions C100_equilibrium.

(** Parameters varying in space: whatever the densities two simulations start from, they forget them. *)
Theorem C100_forget {P} (M : mesh P) V k T l dts n n' m m' : weights M -> space V -> 0 <= l ->
  (forall p, In p (q_cells M) -> l <= loss k T p) -> Forall (fun dt => 0 < dt) dts ->
  solve_densities M V k T dts n n' -> solve_densities M V k T dts m m' ->
  (1 + 2 * l * elapsed dts) * distance2 M n' m' <= distance2 M n m.
Proof.
  intros Hw HV Hl Hloss Hd Hn Hm.
  assert (H := run_contraction M V k T l dts n n' Hw HV Hl Hloss Hd Hn m m' Hm).
  assert (Hb := missing_elapsed (2 * l) dts ltac:(lra) Hd). assert (He := elapsed_pos dts Hd).
  assert (H2 : 0 <= 2 * l * elapsed dts) by (apply Rmult_le_pos; lra).
  assert (H0 : 0 <= distance2 M n m).
  { apply TrapDensityProofs.integral_nonneg; [exact Hw|]. intros p _. apply Rle_0_sqr. }
  apply Rle_trans with ((1 + 2 * l * elapsed dts) * (missing (2 * l) dts * distance2 M n m)); [apply Rmult_le_compat_l; lra|].
  rewrite <- Rmult_assoc, (Rmult_comm (1 + _)). rewrite <- (Rmult_1_l (distance2 M n m)) at 2.
  apply Rmult_le_compat_r; assumption.
Qed.
Print Assumptions C100_forget.

(** Such simulations exist. *)
Theorem C100_exists {P} (M : mesh P) V k T c l dts : space V -> uniform M k T c l -> 0 < l -> Forall (fun dt => 0 < dt) dts ->
  exists n, simulated_density M V k T true dts n.
Proof. intros HV Hu Hl Hd. exact (run_exists M V k T c l dts HV Hu Hl Hd 0). Qed.
Print Assumptions C100_exists.

(** In a steady simulation the trap holds nothing, in its materials and elsewhere. *)
Theorem C100_steady {P} (M : mesh P) V k T dts n mb ms Tp (t : trap P) F p m c c_n k_0 E_k p_0 E_p :
  simulated_density M V k T false dts n -> t_density t = [n] ->
  t_k0 t = Scalar k_0 -> t_Ek t = Scalar E_k -> t_p0 t = Scalar p_0 -> t_Ep t = Scalar E_p -> 0 <= k_0 -> 0 < p_0 ->
  t_sources t = [] -> trap_create_form mb ms Tp None t = Ok F -> residual M p F 0 -> val (t_test t p) = 1 ->
  NoDup (BalanceSpec.all_ids ms) -> NoDup (BalanceSpec.all_ids (t_materials t)) -> In m (t_materials t) ->
  (forall x, In x (t_materials t) -> In x ms) -> In (q_volume M p) (ids (m_id (attrs m))) ->
  concentration_at mb Tp (attrs m) p c c_n -> 0 <= c -> 0 < val (T_T Tp p) -> 0 < val (T_Tn Tp p) ->
  val (t_solution t p) = 0.
Proof.
  intros Hn Hdens Hk HEk Hp0 HEp Hk0 Hp0' Hs HF Hr Ht Hnd Hndt Hm Hsub Hz Hc Hc0 HT HTn.
  cbn in Hn. subst n. destruct (In_nth_error _ _ Hm) as [i Hi].
  destruct (C40_steady M mb ms Tp t F p m c c_n Hs HF Hr Ht Hnd Hndt Hsub (Hsub m Hm) Hz Hc HT HTn) as [H _].
  assert (Hpar : trap_params t i k_0 E_k p_0 E_p initial_density).
  { left. rewrite Hdens. repeat split; try assumption. }
  rewrite (H i k_0 E_k p_0 E_p initial_density Hi Hpar); [unfold initial_density; ring|].
  unfold arrhenius.
  apply Rgt_not_eq, Rplus_le_lt_0_compat.
  - apply Rmult_le_pos; [apply Rmult_le_pos; [exact Hk0|left; apply Rinv_0_lt_compat, exp_pos]|exact Hc0].
  - apply Rmult_lt_0_compat; [exact Hp0'|apply Rinv_0_lt_compat, exp_pos].
Qed.
Print Assumptions C100_steady.

(** So the state reached is not that of a transient simulation, however long. *)
Theorem C100_steady_refuted : exists (M : mesh nat) V k T c l n p,
  weights M /\ space V /\ uniform M k T c l /\ 0 < l /\ 0 < c /\ In p (q_cells M) /\ 0 < q_weight M p /\
  simulated_density M V k T false [] n /\ n p <> c / l.
Proof.
  exists one_point, (fun _ => True), (NeutronInducedTrap (fun _ => 1) (fun _ => 2) (fun _ => 4) (fun _ => 0) (fun _ => 0)),
    (fun _ => 300), 2, (/ 2), initial_density, 1%nat.
  split; [intros p _; cbn; lra|]. split; [split; auto|].
  split; [intros p _; cbn; rewrite Rmult_0_l; split; field|]. split; [lra|]. split; [lra|]. split; [now left|].
  split; [cbn; lra|]. split; [reflexivity|]. unfold initial_density. lra.
Qed.
Print Assumptions C100_steady_refuted.

(** A neutron-induced trap: 2 traps per second, half of the traps lost per second: 4 at equilibrium; after steps of 2
    and 6 seconds one half, then seven eighths of it. *)
Definition neutron_x : extrinsic nat :=
  NeutronInducedTrap (fun _ => 1) (fun _ => 2) (fun _ => 8) (fun _ => / 4) (fun _ => 0).
Definition extrinsic_x : extrinsic nat :=
  ExtrinsicTrap (fun _ => 2) (fun _ => 4) (fun _ => 4) (fun _ => 1) (fun _ => / 2) (fun _ => / 2) (fun _ => 1).
Example C100_example :
  weights one_point /\ space (fun _ : nat -> R => True) /\
  uniform one_point neutron_x (fun _ => 300) 2 (/ 2) /\ uniform one_point extrinsic_x (fun _ => 300) 2 (/ 2) /\
  (2 / / 2 = 4 /\ 2 / / 2 * (1 - missing (/ 2) [2]) = 2 /\ 2 / / 2 * (1 - missing (/ 2) [2; 6]) = 7 / 2) /\
  simulated_density one_point (fun _ => True) neutron_x (fun _ => 300) true [2; 6] (fun _ => 7 / 2).
Proof.
  assert (Hu : uniform one_point neutron_x (fun _ => 300) 2 (/ 2)).
  { intros p _. cbn. replace (- 0 / (k_B * 300)) with 0 by (unfold Rdiv; ring). rewrite exp_0. split; field. }
  split; [intros p _; cbn; lra|]. split; [split; auto|]. split; [exact Hu|].
  split; [intros p _; cbn; split; field|]. split; [cbn; repeat split; field|].
  apply (OneStep _ _ _ _ _ _ _ (fun _ => 2)); [|apply (OneStep _ _ _ _ _ _ _ (fun _ => 7 / 2)); [|constructor]];
    (split; [exact I|]); intros v _; rewrite density_residual; apply integral_zero; intros p Hp; cbn [points] in Hp;
    destruct (Hu p Hp) as [-> ->]; unfold initial_density; field.
Qed.
(** A steady simulation with this trap: it is empty although half of its equilibrium sites would be filled. *)
Definition steady_trap : trap nat :=
  mkTrap (Scalar 6) (Scalar 0) (Scalar 6) (Scalar 0) [initial_density] [mkMatObj 0 mat_1] (fun _ => dconst 0)
    (fun _ => dconst 0) ones [].
Example C100_steady_example : exists F,
  trap_create_form rest_mobile two_mats T_rest None steady_trap = Ok F /\ residual one_point 1%nat F 0 /\
  concentration_at rest_mobile T_rest mat_1 1%nat 1 1.
Proof.
  eexists. split; [reflexivity|]. split; [|split; reflexivity].
  cbn [app mat_in t_materials steady_trap existsb uid Nat.eqb orb]. eapply residual_eq.
  - apply residual_out; [discriminate|]. constructor; [reflexivity|]. constructor; [reflexivity|]. constructor.
  - cbn. unfold initial_density. ring.
Qed.
