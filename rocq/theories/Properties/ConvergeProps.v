(** C108: time steps converge to the evolution in continuous time, with first-order error bounds. *)
From Coq Require Import Reals ZArith List Arith Bool Lra Lia Psatz.
From Verif Require Import Base.Exc Base.Dual Model.Materials Model.Laws Model.Theta Model.Forms
  Spec.PhysSpec Spec.BalanceSpec Spec.NewtonSpec Spec.StabilitySpec Spec.EulerSpec Spec.MaximumSpec Spec.RelaxSpec Spec.ConvergeSpec
  Proofs.LawProofs Proofs.ThetaProofs Proofs.FormProofs Proofs.StabilityProofs Proofs.MaximumProofs Proofs.RelaxProofs Proofs.AccuracyProofs Proofs.ConvergeProofs
  Properties.FormProps Properties.StabilityProps Properties.EulerProps Properties.MaximumProps Properties.RelaxProps.
Import ListNotations.
Local Open Scope R_scope.
Local Open Scope list_scope.

Section Props.
Context {P : Type}.
Implicit Types (M : mesh P).

(** Mobile hydrogen and traps, sources and data that change in time, any mesh, any stepsizes up to h. *)
Theorem C108_error M (pb : R -> problem P) D n (V : state P -> Prop) L Lambda w w' B dt h u : good_data M pb D n -> 0 <= B -> smooth_state M n w w' B ->
  evolution M pb V w w' -> (forall k, 0 < dt k <= h) -> h * Lambda <= 2 -> run M pb V L Lambda dt u w ->
  forall k, let t := time_after dt k in
  distance M n (u k) (w t) <= exp (Lambda * t / 2) * (distance M n (u 0%nat) (w 0) + t * h * (B / 2 * sqrt (INR (S n) * total M (fun _ => 1)))).
Proof.
  intros Hg HB Hsm Hev Hdt Hh Hrun k. cbv zeta.
  assert (Hpos : forall k, 0 < time_after dt (S k)).
  { intros j. rewrite time_after_S. assert (0 <= time_after dt j) by (apply time_after_nonneg; intros i; apply Hdt). specialize (Hdt j). lra. }
  destruct (Hg _ (Hpos 0%nat)) as ((Hty & _ & Hpw & _) & _).
  assert (HL : 0 <= Lambda). { destruct (Hrun 0%nat) as (_ & _ & _ & _ & Hb). apply Hb. }
  set (E := fun k => distance M n (u k) (w (time_after dt k))).
  set (C := B / 2 * sqrt (INR (S n) * total M (fun _ => 1))).
  assert (H := accumulate E dt Lambda h C HL ltac:(apply Rmult_le_pos; [lra|apply sqrt_pos]) Hh Hdt ltac:(intros j; apply sqrt_pos)).
  assert (E0 : E 0%nat = distance M n (u 0%nat) (w 0)).
  { unfold E, time_after. cbn [seq map]. now rewrite rsum_nil. }
  rewrite E0 in H. apply H. clear H E0 k. intros k. unfold E.
  set (t := time_after dt (S k)). destruct (Hrun k) as (Hs & HV & Hu & Hw & Hb). fold t in Hs, HV, Hw, Hb.
  destruct (Hg t (Hpos k)) as (Hph & Hn & Hids). destruct (Hdt k) as [Hd _].
  assert (Hws := evolution_step M (pb t) (D t) V (w t) (w' t) (dt k) Hph Hd Hids (fun v Hv => Hev t v (Hpos k) Hv)).
  assert (Hst := step_inequality M (pb t) (D t) L Lambda (dt k) V (u (S k)) (u k) (w t) (before (dt k) (w t) (w' t)) Hph Hb Hd Hu Hw Hs Hws HV).
  cbv zeta in Hst. rewrite Hn in Hst. assert (HD := diffusion_nonneg M (pb t) (D t) (diff (u (S k)) (w t) 0%nat) Hph).
  assert (HdD : 0 <= dt k * integral M DxAll (fun p => D t p * dot (q_dim M) (grd (diff (u (S k)) (w t) 0%nat p)) (grd (diff (u (S k)) (w t) 0%nat p)))) by (apply Rmult_le_pos; lra).
  unfold distance. rewrite !(components_norm M n) in * by exact Hty.
  assert (Jl := components_lin M n). assert (Jp := fun f => components_pos M n f Hpw).
  assert (Hq : dt k * Lambda / 4 <= 1). { assert (dt k * Lambda <= h * Lambda) by (apply Rmult_le_compat_r; [exact HL|apply Hdt]). lra. }
  assert (S1 := J_step (components M n) Jl Jp (dt k * Lambda / 4)
    (fun x => val (diff (u (S k)) (w t) (fst x) (snd x))) (fun x => val (diff (u k) (before (dt k) (w t) (w' t)) (fst x) (snd x))) Hq).
  cbv beta in S1. eapply Rle_trans; [apply S1; unfold components at 1; cbn [fst snd]; lra|].
  set (tau := fun x : nat * P => val (w (time_after dt k) (fst x) (snd x)) - (val (w t (fst x) (snd x)) - dt k * w' t (fst x) (snd x))).
  eapply Rle_trans; [|apply Rplus_le_compat_l].
  - assert (Tr := J_triangle (components M n) Jl Jp (fun x => val (diff (u k) (w (time_after dt k)) (fst x) (snd x))) tau). cbv beta in Tr.
    eapply Rle_trans; [|exact Tr]. right. f_equal. unfold components. apply integral_ext. intros p _. apply sum_over_ext. intros j _.
    unfold tau, before. cbn [fst snd diff dsub val]. f_equal. ring.
  - replace (dt k * dt k * C) with (dt k * dt k * B / 2 * sqrt (INR (S n) * total M (fun _ => 1))) by (unfold C; field).
    rewrite integral_total by exact Hty. apply components_small; [exact Hpw| |].
    + intros j p Hj Hp. unfold tau. cbn [fst snd]. unfold t. rewrite time_after_S.
      apply (backwards (fun t => val (w t j p)) (fun t => w' t j p)); [now apply Hsm|apply time_after_nonneg; intros i; apply Hdt|exact Hd].
    + assert (0 <= dt k * dt k * B) by (apply Rmult_le_pos; [apply Rmult_le_pos; lra|exact HB]). lra.
Qed.
Print Assumptions C108_error.

(** Halving the steps at will, the run comes as close as wanted, at all times up to t_end. *)
Theorem C108_converges M (pb : R -> problem P) D n (V : state P -> Prop) L Lambda w w' B : good_data M pb D n -> 0 <= B -> smooth_state M n w w' B ->
  evolution M pb V w w' -> 0 <= Lambda ->
  forall t_end eps, 0 <= t_end -> 0 < eps -> exists h, 0 < h /\ forall dt u, (forall k, 0 < dt k <= h) -> run M pb V L Lambda dt u w ->
    distance M n (u 0%nat) (w 0) <= h -> forall k, time_after dt k <= t_end -> distance M n (u k) (w (time_after dt k)) <= eps.
Proof.
  intros Hg HB Hsm Hev HL t_end eps Ht He. set (C := B / 2 * sqrt (INR (S n) * total M (fun _ => 1))).
  assert (HC : 0 <= C) by (apply Rmult_le_pos; [lra|apply sqrt_pos]).
  set (G := exp (Lambda * t_end / 2) * (1 + t_end * C)).
  assert (HG : 0 < G). { apply Rmult_lt_0_compat; [apply exp_pos|]. assert (0 <= t_end * C) by (now apply Rmult_le_pos). lra. }
  exists (Rmin (2 / (Lambda + 1)) (eps / G)).
  assert (H1 : 0 < 2 / (Lambda + 1)) by (apply Rdiv_lt_0_compat; lra). assert (H2 : 0 < eps / G) by (now apply Rdiv_lt_0_compat).
  split; [now apply Rmin_pos|]. set (h := Rmin _ _). assert (Hha : h <= 2 / (Lambda + 1)) by apply Rmin_l. assert (Hhb : h <= eps / G) by apply Rmin_r.
  intros dt u Hdt Hrun H0 k Hk.
  assert (Hh : 0 <= h). { destruct (Hdt 0%nat). lra. }
  assert (HhL : h * Lambda <= 2).
  { apply Rle_trans with (2 / (Lambda + 1) * Lambda); [now apply Rmult_le_compat_r|]. apply (Rmult_le_reg_r (Lambda + 1)); [lra|].
    replace (2 / (Lambda + 1) * Lambda * (Lambda + 1)) with (2 * Lambda) by (field; lra). lra. }
  eapply Rle_trans; [exact (C108_error M pb D n V L Lambda w w' B dt h u Hg HB Hsm Hev Hdt HhL Hrun k)|]. fold C.
  set (t := time_after dt k) in *. assert (Htn : 0 <= t) by (apply time_after_nonneg; intros j; apply Hdt).
  apply Rle_trans with (exp (Lambda * t_end / 2) * (h * (1 + t_end * C))).
  - apply Rmult_le_compat; [left; apply exp_pos| | |].
    + apply Rplus_le_le_0_compat; [apply sqrt_pos|]. apply Rmult_le_pos; [now apply Rmult_le_pos|exact HC].
    + assert (Lambda * t <= Lambda * t_end) by (now apply Rmult_le_compat_l).
      destruct (Req_dec (Lambda * t / 2) (Lambda * t_end / 2)) as [->|Hne]; [lra|]. left. apply exp_increasing. lra.
    + assert (t * h * C <= t_end * h * C) by (apply Rmult_le_compat_r; [exact HC|now apply Rmult_le_compat_r]). lra.
  - replace (exp (Lambda * t_end / 2) * (h * (1 + t_end * C))) with (h * G) by (unfold G; ring).
    apply Rle_trans with (eps / G * G); [apply Rmult_le_compat_r; lra|]. right. field. lra.
Qed.
Print Assumptions C108_converges.

(** Without traps the error grows at most linearly in time, whatever the stepsizes. *)
Theorem C108_no_traps M (pb : R -> problem P) D (V : state P -> Prop) w w' B dt h u : good_data M pb D 0 -> 0 <= B -> smooth_state M 0 w w' B ->
  evolution M pb V w w' -> (forall k, 0 < dt k <= h) ->
  (forall k, let t := time_after dt (S k) in StabilitySpec.solves M (pb t) (Some (dt k)) V (u (S k)) (u k) /\ V (diff (u (S k)) (w t)) /\
     nonnegative_at_boundary M (u (S k)) /\ nonnegative_at_boundary M (w t)) ->
  forall k, let t := time_after dt k in
  distance M 0 (u k) (w t) <= distance M 0 (u 0%nat) (w 0) + t * h * (B / 2 * sqrt (total M (fun _ => 1))).
Proof.
  intros Hg HB Hsm Hev Hdt Hrun k.
  assert (Hpos : forall k, 0 < time_after dt (S k)).
  { intros j. rewrite time_after_S. assert (0 <= time_after dt j) by (apply time_after_nonneg; intros i; apply Hdt). specialize (Hdt j). lra. }
  assert (Hr : run M pb V 0 0 dt u w).
  { intros j. cbv zeta. destruct (Hrun j) as (A1 & A2 & A3 & A4). do 4 (split; [assumption|]). apply no_traps_rates.
    destruct (Hg _ (Hpos j)) as (_ & Hn & _). now apply length_zero_iff_nil in Hn. }
  assert (H := C108_error M pb D 0 V 0 0 w w' B dt h u Hg HB Hsm Hev Hdt ltac:(lra) Hr k). cbv zeta in H |- *.
  replace (0 * time_after dt k / 2) with 0 in H by field. rewrite exp_0 in H. cbn [INR] in H.
  replace (1 * total M (fun _ => 1)) with (total M (fun _ => 1)) in H by ring. lra.
Qed.
Print Assumptions C108_no_traps.

(** Temperatures, with constant thermal properties and sources and exchanges that change in time. *)
Theorem C108_heat M ms rho cp k sources bcs (V : field P -> Prop) S S' B dt h T : q_type M = Cartesian -> positive_weights M ->
  constant_heat rho cp ms -> constant_conductivity k ms -> (forall m, In m ms -> 0 <= rho m * cp m /\ 0 <= k m) ->
  0 <= B -> (forall p, In p (q_cells M) -> smooth (fun t => val (S t p)) (fun t => S' t p) B) ->
  heat_evolution M ms rho cp sources bcs V S S' -> (forall k, 0 < dt k <= h) -> heat_run M ms sources bcs V dt T S ->
  forall j, let t := time_after dt j in
  heat_distance M ms rho cp (T j) (S t) <= heat_distance M ms rho cp (T 0%nat) (S 0) + t * h * (B / 2 * sqrt (energy M rho cp ms (fun _ => 1))).
Proof.
  intros Hty Hpw Hh Hk Hm HB Hsm Hev Hdt Hrun j. cbv zeta.
  assert (Hpos : forall k, 0 < time_after dt (Datatypes.S k)).
  { intros i. rewrite time_after_S. assert (0 <= time_after dt i) by (apply time_after_nonneg; intros i'; apply Hdt). specialize (Hdt i). lra. }
  set (E := fun i => heat_distance M ms rho cp (T i) (S (time_after dt i))).
  set (C := B / 2 * sqrt (energy M rho cp ms (fun _ => 1))).
  assert (H := accumulate E dt 0 h C (Rle_refl 0) ltac:(apply Rmult_le_pos; [lra|apply sqrt_pos]) ltac:(lra) Hdt ltac:(intros i; apply sqrt_pos)).
  assert (E0 : E 0%nat = heat_distance M ms rho cp (T 0%nat) (S 0)).
  { unfold E, time_after. cbn [seq map]. now rewrite rsum_nil. }
  rewrite E0 in H. cut (forall i, (1 - dt i * 0 / 4) * E (Datatypes.S i) <= E i + dt i * dt i * C).
  { intros Hc. specialize (H Hc j). replace (0 * time_after dt j / 2) with 0 in H by field. rewrite exp_0 in H. unfold E in H. lra. }
  clear H E0 j. intros i. replace (1 - dt i * 0 / 4) with (1 - 0) by field. unfold E.
  set (t := time_after dt (Datatypes.S i)). destruct (Hrun i) as (Hs & HV & Hu & Hb). fold t in Hs, HV, Hu, Hb.
  destruct (Hdt i) as [Hd _].
  assert (Hws := heat_evolution_step M ms rho cp (sources t) (bcs t) V (S t) (S' t) (dt i) Hty Hd Hh (fun v Hv => Hev t v (Hpos i) Hv)).
  assert (Hst := heat_step M ms rho cp k (sources t) (bcs t) (dt i) V (T (Datatypes.S i)) (T i) (S t) (heat_before (dt i) (S t) (S' t)) Hty Hpw Hh Hk
    (fun m Hin => proj2 (Hm m Hin)) Hd Hu Hb Hs Hws HV).
  assert (Jl := fun a b f g e => energy_lin M ms rho cp a b f g e Hty). assert (Jp := fun f => energy_pos M ms rho cp f Hty Hpw (fun m Hin => proj1 (Hm m Hin))).
  assert (S1 := J_step (energy M rho cp ms) Jl Jp 0 (fun p => val (T (Datatypes.S i) p) - val (S t p))
    (fun p => val (T i p) - val (heat_before (dt i) (S t) (S' t) p)) Rle_0_1). cbv beta in S1.
  unfold heat_distance. eapply Rle_trans; [apply S1; lra|].
  set (tau := fun p : P => val (S (time_after dt i) p) - (val (S t p) - dt i * S' t p)).
  eapply Rle_trans; [|apply Rplus_le_compat_l].
  - assert (Tr := J_triangle (energy M rho cp ms) Jl Jp (fun p => val (T i p) - val (S (time_after dt i) p)) tau). cbv beta in Tr.
    eapply Rle_trans; [|exact Tr]. right. f_equal. rewrite !energy_integral by exact Hty. apply sum_over_ext. intros m _. apply sum_over_ext. intros z _.
    apply integral_ext. intros p _. unfold tau, heat_before. cbn [val]. f_equal. f_equal. ring.
  - replace (dt i * dt i * C) with (dt i * dt i * B / 2 * sqrt (energy M rho cp ms (fun _ => 1))) by (unfold C; field).
    apply energy_small; [exact Hty|exact Hpw|intros m Hin; now apply Hm| |].
    + intros p Hp. unfold tau, t. rewrite time_after_S.
      apply (backwards (fun t => val (S t p)) (fun t => S' t p)); [now apply Hsm|apply time_after_nonneg; intros i'; apply Hdt|exact Hd].
    + assert (0 <= dt i * dt i * B) by (apply Rmult_le_pos; [apply Rmult_le_pos; lra|exact HB]). lra.
Qed.
Print Assumptions C108_heat.
End Props.

(** ** Examples. *)
Lemma exp_change l s t : 0 <= l -> 0 <= s -> 0 <= t -> Rabs (exp (- (l * s)) - exp (- (l * t))) <= l * Rabs (s - t).
Proof.
  intros Hl Hs Ht.
  assert (G : forall a b, 0 <= a -> a <= b -> 0 <= exp (- (l * a)) - exp (- (l * b)) <= l * (b - a)).
  { intros a b Ha Hab. assert (Hd : 0 <= l * (b - a)) by (apply Rmult_le_pos; lra). assert (Hx := exp_ineq1_le (- (l * (b - a)))).
    assert (H1 : exp (- (l * a)) <= 1). { rewrite <- exp_0. assert (0 <= l * a) by (now apply Rmult_le_pos). destruct (Req_dec (l * a) 0) as [->|]; [rewrite Ropp_0; lra|left; apply exp_increasing; lra]. }
    assert (H2 : exp (- (l * (b - a))) <= 1). { rewrite <- exp_0. destruct (Req_dec (l * (b - a)) 0) as [->|]; [rewrite Ropp_0; lra|left; apply exp_increasing; lra]. }
    replace (- (l * b)) with (- (l * a) + - (l * (b - a))) by ring. rewrite exp_plus. pose proof (exp_pos (- (l * a))). nra. }
  destruct (Rle_lt_dec s t) as [H|H].
  - specialize (G s t Hs H). rewrite Rabs_pos_eq by lra. rewrite (Rabs_left1 (s - t)) by lra. lra.
  - specialize (G t s Ht (Rlt_le _ _ H)). rewrite Rabs_left1 by lra. rewrite (Rabs_pos_eq (s - t)) by lra. lra.
Qed.
Lemma pow_between x k : 0 <= x <= 1 -> 0 <= x ^ k <= 1.
Proof. intros Hx. split; [now apply pow_le|]. assert (H := pow_incr x 1 k Hx). now rewrite pow1 in H. Qed.
Lemma exp_below_1 x : 0 <= x -> exp (- x) <= 1.
Proof. intros Hx. rewrite <- exp_0. destruct Hx as [Hx|<-]; [left; apply exp_increasing; lra|rewrite Ropp_0; lra]. Qed.
Lemma smooth_exp a b l : 0 <= l -> smooth (fun t => a + b * exp (- (l * t))) (fun t => - (l * b) * exp (- (l * t))) (l * l * Rabs b).
Proof.
  intros Hl t Ht. split.
  - replace (- (l * b) * exp (- (l * t))) with (0 + b * (- l * exp (- (l * t)))) by ring.
    apply (derivable_pt_lim_plus (fun _ => a) (fun t => b * exp (- (l * t)))); [apply derivable_pt_lim_const|].
    apply derivable_pt_lim_scal, exp_scaled_lim.
  - intros s Hs. replace (- (l * b) * exp (- (l * s)) - - (l * b) * exp (- (l * t))) with (- (l * b) * (exp (- (l * s)) - exp (- (l * t)))) by ring.
    rewrite Rabs_mult, Rabs_Ropp, Rabs_mult, (Rabs_pos_eq l Hl). assert (H := exp_change l s t Hl Hs Ht).
    apply Rle_trans with (l * Rabs b * (l * Rabs (s - t))); [|right; ring]. apply Rmult_le_compat_l; [apply Rmult_le_pos; [exact Hl|apply Rabs_pos]|exact H].
Qed.

(** Hydrogen leaves a trap: p = 1/s, no trapping; steps of 1 s. *)
Definition leaving : trap nat := mkTrap (Scalar 0) (Scalar 0) (Scalar 1) (Scalar 0) [fun _ => 2] two_mats ones ones ones [].
Definition pb_leaving : problem nat := mkProblem two_mats T400 [] [] [leaving].
Definition released (t : R) : state nat := level (1 + -1 * exp (- (1 * t))) (0 + 1 * exp (- (1 * t))).
Definition release_rate (t : R) (j : nat) (_ : nat) : R := match j with O => - (1 * -1) * exp (- (1 * t)) | _ => - (1 * 1) * exp (- (1 * t)) end.
Definition release_steps (k : nat) : state nat := level (1 - (1 / 2) ^ k) ((1 / 2) ^ k).
Lemma pb_leaving_physical : physical (mesh_ty Cartesian) pb_leaving D_two.
Proof.
  split; [reflexivity|]. split; [apply covered_ty|]. split; [apply weights_two|]. split; [apply T400_pos|]. split; [apply D_two_ok|].
  split; [intros p _; left; apply D_two_pos|]. split; [intros s []|]. split; [intros t s [<-|[]] []|intros b []].
Qed.
Lemma leaving_rates (u w : state nat) : bounded_rates (mesh_ty Cartesian) pb_leaving u w 1 1.
Proof.
  split; [lra|]. split; [lra|]. split.
  - intros [|[|i]] t H; [|discriminate|discriminate]. injection H as <-. intros p Hp i m k_0 E_k p_0 E_p n Hm Hv Hpar.
    destruct Hpar as [(E1 & E2 & E3 & E4 & E5)|(lk & lE & lp & lF & E1 & _)]; [|discriminate].
    injection E1 as <-. injection E2 as <-. injection E3 as <-. injection E4 as <-. injection E5 as <-.
    assert (EA : forall a T, arrhenius a 0 T = a).
    { intros a T. unfold arrhenius. replace (0 / (boltzmann * T)) with 0 by (unfold Rdiv; ring). rewrite exp_0. field. }
    rewrite !EA. lra.
  - intros p Hp. cbn in Hp. destruct Hp as [<-|[<-|[]]]; cbn; lra.
Qed.
Example C108_example :
  good_data (mesh_ty Cartesian) (fun _ => pb_leaving) (fun _ => D_two) 1 /\ smooth_state (mesh_ty Cartesian) 1 released release_rate 1 /\
  evolution (mesh_ty Cartesian) (fun _ => pb_leaving) flat released release_rate /\
  run (mesh_ty Cartesian) (fun _ => pb_leaving) flat 1 1 (fun _ => 1) release_steps released /\
  distance (mesh_ty Cartesian) 1 (release_steps 0) (released 0) = 0.
Proof.
  split; [|split; [|split; [|split]]].
  - intros t _. split; [apply pb_leaving_physical|]. split; [reflexivity|]. intros tr [<-|[]] m [<-|[<-|[]]] Hin; discriminate Hin.
  - assert (E1 : 1 * 1 * Rabs 1 = 1) by (rewrite Rabs_R1; ring). assert (E2 : 1 * 1 * Rabs (-1) = 1) by (rewrite Rabs_left1; lra).
    intros j p Hj _. destruct j as [|[|j]]; [| |lia].
    + exact (eq_ind _ (fun B => smooth _ _ B) (smooth_exp 1 (-1) 1 Rle_0_1) 1 E2).
    + exact (eq_ind _ (fun B => smooth _ _ B) (smooth_exp 0 1 1 Rle_0_1) 1 E1).
  - intros t v _ (a & b & Hv). eexists. split; [reflexivity|].
    unfold assemble, integral, rsum, total, wsum, weight, sum_over, empty_terms. cbn. rewrite !exp_zero_energy. unfold rsum, dot. cbn.
    destruct (Hv 1%nat) as (-> & -> & G1). destruct (Hv 2%nat) as (-> & -> & G2). rewrite ?G1, ?G2. field.
  - intros k. cbv zeta. split; [|split; [apply flat_diff|split; [|split; [|apply leaving_rates]]]].
    + intros v (a & b & Hv). eexists. split; [reflexivity|].
      unfold assemble, integral, rsum. cbn. rewrite !exp_zero_energy. unfold rsum, dot. cbn.
      destruct (Hv 1%nat) as (-> & -> & G1). destruct (Hv 2%nat) as (-> & -> & G2). rewrite ?G1, ?G2. field.
    + intros p _. unfold release_steps, level. cbn [dconst val]. assert (H := pow_between (1 / 2) (S k) ltac:(lra)). lra.
    + intros p _. unfold released, level. cbn [dconst val]. assert (Ht : 0 <= time_after (fun _ => 1) (S k)) by (apply time_after_nonneg; intros; lra).
      assert (H := exp_below_1 (1 * time_after (fun _ => 1) (S k)) ltac:(lra)). lra.
  - unfold distance. replace (norm2 _ _ _) with 0; [apply sqrt_0|]. unfold norm2, total, wsum, weight, sum_over, rsum, released. cbn.
    rewrite Rmult_0_r, Ropp_0, exp_0. ring.
Qed.

(** Diffusion into one element (C101): the right end follows 1 - exp(-3t). *)
Definition filled (t : R) : state pt := between 1 (1 + -1 * exp (- (3 * t))).
Definition filling_rate (t : R) (_ : nat) (p : pt) : R := local p * (- (3 * -1) * exp (- (3 * t))).
Definition filling_steps (k : nat) : state pt := between 1 (1 - (1 / 4) ^ k).
Lemma filled_residual a b d v : pinned_state 1 unit_nodes unit_mesh 0 v -> exists F y,
  equations unit_mesh pb_filling None (between a b) (between a b) v = Ok F /\ assemble unit_mesh F = y * (b - a) /\
  total unit_mesh (fun p => sum_over (seq 0 1) (fun j => local p * d * val (v j p))) = y * d / 3.
Proof.
  intros (y & Hy & Hv).
  assert (Hpts : In (Cell 0 0 (1 / 6)) (q_cells unit_mesh) /\ In (Cell 0 (1 / 2) (4 / 6)) (q_cells unit_mesh) /\ In (Cell 0 1 (1 / 6)) (q_cells unit_mesh)).
  { cbn. split; [|split]; intuition. }
  destruct Hpts as (P1 & P2 & P3).
  assert (HK : (0 < 1)%nat) by lia.
  assert (Hval : forall p, In p (q_cells unit_mesh) -> val (v 0%nat p) = y 1%nat * local p /\ grd (v 0%nat p) 0%nat = y 1%nat).
  { intros p Hp. destruct (Hv p (or_introl Hp)) as [-> Hg]. rewrite Hg.
    destruct (span_segment 1 unit_nodes simpson (fun _ => 1%Z) 1%Z 2%Z HK simpson_exact y p (or_introl Hp)) as [-> Hgs]. rewrite Hgs.
    assert (He : element 1 p = 0%nat). { destruct (segment_point 1 unit_nodes simpson (fun _ => 1%Z) 1%Z 2%Z HK simpson_exact p (or_introl Hp)). lia. }
    rewrite He, Hy. unfold length_of, unit_nodes. cbn. split; [ring|field]. }
  eexists _, (y 1%nat). split; [reflexivity|].
  destruct (Hval _ P1) as [V1 G1]. destruct (Hval _ P2) as [V2 G2]. destruct (Hval _ P3) as [V3 G3].
  assert (L1 : length_of (fun i => INR i * 1) 0 = 1) by (unfold length_of; cbn; ring).
  split.
  - unfold assemble, integral, dot; cbn; rewrite !exp_zero_energy; unfold rsum; cbn; rewrite ?V1, ?V2, ?V3, ?G1, ?G2, ?G3, L1; cbn [local]; field.
  - unfold total, wsum, weight, sum_over, rsum. cbn. rewrite ?V1, ?V2, ?V3, L1. cbn [local]. field.
Qed.
Example C108_diffusion_example :
  good_data unit_mesh (fun _ => pb_filling) (fun _ _ => 1) 0 /\ smooth_state unit_mesh 0 filled filling_rate 9 /\
  evolution unit_mesh (fun _ => pb_filling) (pinned_state 1 unit_nodes unit_mesh 0) filled filling_rate /\
  (forall k, StabilitySpec.solves unit_mesh pb_filling (Some 1) (pinned_state 1 unit_nodes unit_mesh 0) (filling_steps (S k)) (filling_steps k)) /\
  (forall k t, pinned_state 1 unit_nodes unit_mesh 0 (diff (filling_steps k) (filled t))) /\
  (forall k, nonnegative_at_boundary unit_mesh (filling_steps k)) /\ (forall t, 0 <= t -> nonnegative_at_boundary unit_mesh (filled t)) /\
  distance unit_mesh 0 (filling_steps 0) (filled 0) = 0.
Proof.
  assert (L1 : length_of (fun i => INR i * 1) 0 = 1) by (unfold length_of; cbn; ring).
  split; [|split; [|split; [|split; [|split; [|split; [|split]]]]]].
  - intros t _. split; [apply C101_example|]. split; [reflexivity|intros tr []].
  - intros j p _ Hp. assert (Hl : 0 <= local p <= 1).
    { cbn in Hp. destruct Hp as [<-|[<-|[<-|[]]]]; cbn; lra. }
    intros t Ht. destruct (smooth_exp 1 (-1) 3 ltac:(lra) t Ht) as [H1 H2]. split.
    + unfold filled, between, filling_rate. cbn [val].
      assert (H3 := derivable_pt_lim_scal _ (local p) t _ H1).
      assert (H4 := derivable_pt_lim_plus (fun _ => 1 * (1 - local p)) _ t _ _ (derivable_pt_lim_const _ _) H3).
      refine (eq_ind _ (fun l => derivable_pt_lim _ t l) _ _ (Rplus_0_l _)).
      intros eps He. destruct (H4 eps He) as [dl Hdl]. exists dl. intros x Hx Hxd. specialize (Hdl x Hx Hxd).
      unfold plus_fct, mult_real_fct in Hdl. match type of Hdl with Rabs ?d < _ => match goal with |- Rabs ?e < _ => replace e with d by (unfold Rdiv; ring) end end. exact Hdl.
    + intros s Hs. specialize (H2 s Hs). unfold filling_rate. rewrite <- Rmult_minus_distr_l, Rabs_mult, (Rabs_pos_eq (local p)) by lra.
      rewrite (Rabs_left1 (-1)) in H2 by lra. set (A := Rabs (_ - _)) in *. assert (0 <= A) by apply Rabs_pos.
      apply Rle_trans with (1 * A); [apply Rmult_le_compat_r; lra|lra].
  - intros t v _ Hv. destruct (filled_residual 1 (1 + -1 * exp (- (3 * t))) (- (3 * -1) * exp (- (3 * t))) v Hv) as (F & y & HF & HA & HT).
    exists F. split; [exact HF|]. unfold filling_rate. cbn [pb_filling pb_traps length put]. rewrite HT, HA. unfold sum_over. cbn [map]. rewrite rsum_nil. field.
  - intros k v Hv. destruct (filling_residual (Some 1) 1 (1 - (1 / 4) ^ S k) 1 (1 - (1 / 4) ^ k) v Hv) as (F & y & HF & Ha). exists F. split; [exact HF|].
    rewrite Ha. cbn. field.
  - intros k t. apply pinned_diff.
  - intros k p Hp. assert (H := pow_between (1 / 4) k ltac:(lra)).
    cbn in Hp. destruct Hp as [<-|[<-|[]]]; cbn; lra.
  - intros t Ht p Hp. assert (H := exp_below_1 (3 * t) ltac:(lra)).
    cbn in Hp. destruct Hp as [<-|[<-|[]]]; cbn; lra.
  - unfold distance. replace (norm2 _ _ _) with 0; [apply sqrt_0|]. unfold norm2, total, wsum, weight, sum_over, rsum, filled. cbn.
    assert (E : exp (- (3 * 0)) = 1) by (rewrite Rmult_0_r, Ropp_0; apply exp_0). rewrite E. ring.
Qed.

(** A wall cooled by a fluid at 400 K (C68): 400 + 200 exp(-t). *)
Example C108_heat_example : let rho := fun m => match uid m with O => 7 | _ => 13 end in let cp := fun m => match uid m with O => 5 | _ => 11 end in
  let exact := fun t (_ : nat) => dconst (400 + 200 * exp (- (1 * t))) in let steps := fun k (_ : nat) => dconst (400 + 200 * (1 / 2) ^ k) in
  constant_heat rho cp two_mats /\ constant_conductivity (fun _ => 3) two_mats /\
  (forall p, smooth (fun t => val (exact t p)) (fun t => - (1 * 200) * exp (- (1 * t))) 200) /\
  heat_evolution (mesh_ty Cartesian) two_mats rho cp (fun _ => []) (fun _ => cooled) uniform exact (fun t _ => - (1 * 200) * exp (- (1 * t))) /\
  heat_run (mesh_ty Cartesian) two_mats (fun _ => []) (fun _ => cooled) uniform (fun _ => 1) steps exact.
Proof.
  cbv zeta. split; [intros m [<-|[<-|[]]]; split; reflexivity|]. split; [intros m [<-|[<-|[]]]; reflexivity|]. split; [|split].
  - intros p. cbn [dconst val]. assert (E : 1 * 1 * Rabs 200 = 200) by (rewrite Rabs_pos_eq; lra). exact (eq_ind _ (fun B => smooth _ _ B) (smooth_exp 400 200 1 Rle_0_1) 200 E).
  - intros t v _ (a & Hv). eexists. split; [reflexivity|]. unfold energy, total_in, wsum, weight, sum_over, assemble, integral. cbn.
    unfold convective_form, rsum, dot. cbn. destruct (Hv 1%nat) as (-> & G1). destruct (Hv 2%nat) as (-> & G2). destruct (Hv 4%nat) as (-> & _). rewrite ?G1, ?G2. field.
  - intros k. cbv zeta. split; [|split; [|split]].
    + intros v (a & Hv). eexists. split; [reflexivity|]. unfold assemble, integral. cbn. unfold convective_form, rsum, dot. cbn.
      destruct (Hv 1%nat) as (-> & G1). destruct (Hv 2%nat) as (-> & G2). destruct (Hv 4%nat) as (-> & _). rewrite ?G1, ?G2. field.
    + eexists. intros p. cbn. split; [reflexivity|intros; lra].
    + intros p _. cbn [dconst val]. assert (0 <= (1 / 2) ^ S k) by (apply pow_le; lra). assert (Hexp := exp_pos (- (1 * time_after (fun _ => 1) (S k)))). lra.
    + intros b [<-|[]] p _ _. apply C68_heat_fluxes. cbn. lra.
Qed.
