(** C68: solutions of a step are unique and depend continuously on the previous solution. *)
From Coq Require Import Reals ZArith List Bool Lra Lia Psatz.
From Verif Require Import Base.Exc Base.Dual Model.Materials Model.Laws Model.Theta Model.Forms
  Spec.PhysSpec Spec.BalanceSpec Spec.StabilitySpec Proofs.LawProofs Proofs.ThetaProofs Proofs.FormProofs Proofs.TrapProofs
  Proofs.StabilityProofs Properties.FormProps.
Import ListNotations.
Local Open Scope R_scope.
Local Open Scope list_scope.

Section Props.
Context {P : Type}.
Implicit Types (M : mesh P).

Lemma norm2_nonneg M n (d : state P) : q_type M = Cartesian -> positive_weights M -> 0 <= norm2 M n d.
Proof.
  intros Hty Hw. unfold norm2. rewrite integral_total by exact Hty. apply integral_nonneg; [exact Hw|].
  intros p _. apply rsum_map_nonneg. intros. apply pow2_ge_0.
Qed.
Lemma diffusion_nonneg M pb D (v : field P) : physical M pb D -> 0 <= integral M DxAll (fun p => D p * dot (q_dim M) (grd (v p)) (grd (v p))).
Proof.
  intros (_ & _ & Hw & _ & _ & HD & _). apply integral_nonneg; [exact Hw|]. intros p Hp. apply Rmult_le_pos; [now apply HD|apply dot_sq_nonneg].
Qed.

(** Two solutions of the same step from different previous solutions. *)
Lemma step_inequality M pb D L Lambda dt V u un w wn : physical M pb D -> bounded_rates M pb u w L Lambda -> 0 < dt ->
  nonnegative_at_boundary M u -> nonnegative_at_boundary M w ->
  solves M pb (Some dt) V u un -> solves M pb (Some dt) V w wn -> V (diff u w) ->
  let n := length (pb_traps pb) in
  integral M DxAll (fun p => sum_over (seq 0 (S n)) (fun j => (val (diff u w j p) - val (diff un wn j p)) * val (diff u w j p)))
  + dt * integral M DxAll (fun p => D p * dot (q_dim M) (grd (diff u w 0%nat p)) (grd (diff u w 0%nat p)))
  <= dt * Lambda / 4 * norm2 M n (diff u w).
Proof.
  intros Hph Hb Hdt Hu Hw Hsu Hsw HV n.
  destruct (Hsu _ HV) as (F1 & HF1 & Z1). destruct (Hsw _ HV) as (F2 & HF2 & Z2).
  assert (H := step_difference M pb D L Lambda dt u un w wn F1 F2 Hph Hb Hu Hw HF1 HF2). cbv zeta in H. fold n in H.
  rewrite Z1, Z2 in H.
  assert (E : integral M DxAll (fun p => sum_over (seq 0 (S n)) (fun j => (val (diff u w j p) - val (diff un wn j p)) / dt * val (diff u w j p)))
    = / dt * integral M DxAll (fun p => sum_over (seq 0 (S n)) (fun j => (val (diff u w j p) - val (diff un wn j p)) * val (diff u w j p)))).
  { rewrite <- integral_scale. apply integral_ext. intros p _. rewrite <- sum_over_scale. apply sum_over_ext. intros j _. unfold Rdiv. ring. }
  rewrite E in H. clear E.
  match type of H with / dt * ?a + ?b - ?c <= 0 - 0 => set (A := a) in *; set (B := b) in *; set (N := norm2 M n (diff u w)) in * end.
  apply (Rmult_le_reg_l (/ dt)); [now apply Rinv_0_lt_compat|].
  replace (/ dt * (A + dt * B)) with (/ dt * A + B) by (field; lra).
  replace (/ dt * (dt * Lambda / 4 * N)) with (Lambda / 4 * N) by (field; lra). lra.
Qed.

Theorem C68_dependence M pb D L Lambda dt V u un w wn : physical M pb D -> bounded_rates M pb u w L Lambda -> 0 < dt ->
  nonnegative_at_boundary M u -> nonnegative_at_boundary M w ->
  solves M pb (Some dt) V u un -> solves M pb (Some dt) V w wn -> V (diff u w) ->
  let n := length (pb_traps pb) in
  (1 - dt * Lambda / 2) * norm2 M n (diff u w) <= norm2 M n (diff un wn).
Proof.
  intros Hph Hb Hdt Hu Hw Hsu Hsw HV n.
  assert (H := step_inequality M pb D L Lambda dt V u un w wn Hph Hb Hdt Hu Hw Hsu Hsw HV). cbv zeta in H. fold n in H.
  assert (HD := diffusion_nonneg M pb D (diff u w 0%nat) Hph).
  pose proof Hph as (Hty & _ & Hpw & _).
  assert (Y : / 2 * (norm2 M n (diff u w) - norm2 M n (diff un wn)) <=
    integral M DxAll (fun p => sum_over (seq 0 (S n)) (fun j => (val (diff u w j p) - val (diff un wn j p)) * val (diff u w j p)))).
  { unfold norm2. rewrite !integral_total, integral_minus, <- integral_scale by exact Hty. apply integral_le; [exact Hpw|].
    intros p _. rewrite sum_over_minus, <- sum_over_scale. apply rsum_map_le. intros j _.
    set (a := val (diff u w j p)). set (b := val (diff un wn j p)). assert (0 <= (a - b) ^ 2) by apply pow2_ge_0. lra. }
  assert (0 <= dt * integral M DxAll (fun p => D p * dot (q_dim M) (grd (diff u w 0%nat p)) (grd (diff u w 0%nat p)))) by (apply Rmult_le_pos; lra).
  lra.
Qed.

(** From the same previous solution there is one solution. *)
Theorem C68_unique M pb D L Lambda dt V u w un : physical M pb D -> bounded_rates M pb u w L Lambda -> 0 < dt -> dt * Lambda < 4 ->
  nonnegative_at_boundary M u -> nonnegative_at_boundary M w ->
  solves M pb (Some dt) V u un -> solves M pb (Some dt) V w un -> V (diff u w) ->
  forall p, In p (q_cells M) ->
    (forall j, (j <= length (pb_traps pb))%nat -> val (u j p) = val (w j p)) /\
    (0 < D p -> forall i, (i < q_dim M)%nat -> grd (u 0%nat p) i = grd (w 0%nat p) i).
Proof.
  intros Hph Hb Hdt Hlim Hu Hw Hsu Hsw HV. set (n := length (pb_traps pb)).
  assert (H := step_inequality M pb D L Lambda dt V u un w un Hph Hb Hdt Hu Hw Hsu Hsw HV). cbv zeta in H. fold n in H.
  assert (HD := diffusion_nonneg M pb D (diff u w 0%nat) Hph).
  pose proof Hph as (Hty & _ & Hpw & _ & _ & HDp & _).
  assert (Hn := norm2_nonneg M n (diff u w) Hty Hpw).
  assert (E : integral M DxAll (fun p => sum_over (seq 0 (S n)) (fun j => (val (diff u w j p) - val (diff un un j p)) * val (diff u w j p))) = norm2 M n (diff u w)).
  { unfold norm2. rewrite integral_total by exact Hty. apply integral_ext. intros p _. apply sum_over_ext. intros j _. cbn [diff dsub val]. ring. }
  rewrite E in H. clear E.
  set (B := integral M DxAll (fun p => D p * dot (q_dim M) (grd (diff u w 0%nat p)) (grd (diff u w 0%nat p)))) in *.
  assert (HB : 0 <= dt * B) by (apply Rmult_le_pos; lra).
  assert (HN : norm2 M n (diff u w) <= 0).
  { destruct (Rle_lt_dec (norm2 M n (diff u w)) 0) as [Hz|Hz]; [exact Hz|]. exfalso.
    assert (0 < (1 - dt * Lambda / 4) * norm2 M n (diff u w)) by (apply Rmult_lt_0_compat; lra). lra. }
  assert (HB0 : B <= 0).
  { assert (HN0 : norm2 M n (diff u w) = 0) by lra. rewrite HN0 in H. assert (dt * B <= 0) by lra.
    destruct (Rle_lt_dec B 0) as [Hz|Hz]; [exact Hz|]. assert (0 < dt * B) by (apply Rmult_lt_0_compat; assumption). lra. }
  intros p Hp. destruct Hpw as [Hpw _]. split.
  - intros j Hj. unfold norm2 in HN. rewrite integral_total in HN by exact Hty.
    assert (Hz := rsum_map_nonneg_zero (fun p => q_weight M p * sum_over (seq 0 (S n)) (fun i => val (diff u w i p) ^ 2)) (q_cells M)
      ltac:(intros x Hx; apply Rmult_le_pos; [left; now apply Hpw|apply rsum_map_nonneg; intros; apply pow2_ge_0]) HN p Hp).
    cbv beta in Hz. specialize (Hpw p Hp). apply Rmult_integral in Hz as [Hz|Hz]; [lra|].
    assert (Hj' := rsum_map_nonneg_zero (fun i => val (diff u w i p) ^ 2) (seq 0 (S n)) ltac:(intros; apply pow2_ge_0) ltac:(apply Req_le; exact Hz) j
      ltac:(apply in_seq; lia)). cbv beta in Hj'. cbn [diff dsub val] in Hj'. nra.
  - intros HDpos i Hi.
    assert (Hz := rsum_map_nonneg_zero (fun p => q_weight M p * (D p * dot (q_dim M) (grd (diff u w 0%nat p)) (grd (diff u w 0%nat p)))) (q_cells M)
      ltac:(intros x Hx; apply Rmult_le_pos; [left; now apply Hpw|apply Rmult_le_pos; [now apply HDp|apply dot_sq_nonneg]]) HB0 p Hp).
    cbv beta in Hz. specialize (Hpw p Hp). apply Rmult_integral in Hz as [Hz|Hz]; [lra|]. apply Rmult_integral in Hz as [Hz|Hz]; [lra|].
    assert (Hg := dot_sq_zero (q_dim M) (grd (diff u w 0%nat p)) ltac:(lra) i Hi). cbn [diff dsub grd] in Hg. lra.
Qed.

(** Without traps two solutions never move apart, whatever the stepsizes. *)
Lemma no_traps_rates M pb (u w : state P) : pb_traps pb = [] -> bounded_rates M pb u w 0 0.
Proof.
  intros E. unfold bounded_rates. rewrite E. split; [lra|]. split; [lra|]. split.
  - intros [|i] t H; discriminate.
  - intros p _. cbn. lra.
Qed.
Theorem C68_contraction M (pb : nat -> problem P) (D : nat -> P -> R) (dt : nat -> R) V (u w : nat -> state P) :
  (forall k, physical M (pb k) (D k)) -> (forall k, pb_traps (pb k) = []) -> (forall k, 0 < dt k) ->
  (forall k, nonnegative_at_boundary M (u (S k)) /\ nonnegative_at_boundary M (w (S k))) ->
  (forall k, solves M (pb k) (Some (dt k)) V (u (S k)) (u k)) -> (forall k, solves M (pb k) (Some (dt k)) V (w (S k)) (w k)) ->
  (forall k, V (diff (u (S k)) (w (S k)))) ->
  forall j k, (j <= k)%nat -> norm2 M 0 (diff (u k) (w k)) <= norm2 M 0 (diff (u j) (w j)).
Proof.
  intros Hph Ht Hdt Hnn Hu Hw HV j k Hjk. induction Hjk as [|k Hjk IH]; [lra|]. eapply Rle_trans; [|exact IH].
  assert (H := C68_dependence M (pb k) (D k) 0 0 (dt k) V (u (S k)) (u k) (w (S k)) (w k) (Hph k) (no_traps_rates M (pb k) _ _ (Ht k)) (Hdt k)
    (proj1 (Hnn k)) (proj2 (Hnn k)) (Hu k) (Hw k) (HV k)). cbv zeta in H. rewrite Ht in H. cbn [length] in H.
  replace (dt k * 0 / 2) with 0 in H by field. lra.
Qed.

(** Steady state with traps in all materials: one mobile concentration, if the functions of V with zero
    gradient vanish (the value is imposed somewhere). *)
Theorem C68_steady M pb D V u w un wn : physical M pb D -> (forall p, In p (q_cells M) -> 0 < D p) ->
  (forall t, In t (pb_traps pb) -> (forall m, In m (pb_materials pb) -> mat_in m (t_materials t) = true) /\ (forall s, In s (t_sources t) -> s_decay s = None)) ->
  nonnegative_at_boundary M u -> nonnegative_at_boundary M w ->
  solves M pb None V u un -> solves M pb None V w wn -> V (everywhere (diff u w 0%nat)) ->
  (forall v, V v -> (forall p i, In p (q_cells M) -> (i < q_dim M)%nat -> grd (v 0%nat p) i = 0) -> forall p, In p (q_cells M) -> val (v 0%nat p) = 0) ->
  forall p, In p (q_cells M) -> val (u 0%nat p) = val (w 0%nat p) /\ (forall i, (i < q_dim M)%nat -> grd (u 0%nat p) i = grd (w 0%nat p) i).
Proof.
  intros Hph HDp Ht Hu Hw Hsu Hsw HV Hgr.
  destruct (Hsu _ HV) as (F1 & HF1 & Z1). destruct (Hsw _ HV) as (F2 & HF2 & Z2).
  assert (H := steady_difference M pb D u un w wn F1 F2 Hph Ht Hu Hw HF1 HF2). rewrite Z1, Z2 in H.
  pose proof Hph as (_ & _ & [Hpw _] & _).
  assert (HG : forall p i, In p (q_cells M) -> (i < q_dim M)%nat -> grd (diff u w 0%nat p) i = 0).
  { intros p i Hp Hi.
    assert (Hz := rsum_map_nonneg_zero (fun p => q_weight M p * (D p * dot (q_dim M) (grd (diff u w 0%nat p)) (grd (diff u w 0%nat p)))) (q_cells M)
      ltac:(intros x Hx; apply Rmult_le_pos; [left; now apply Hpw|apply Rmult_le_pos; [left; now apply HDp|apply dot_sq_nonneg]])
      ltac:(unfold integral in H; cbn [points] in H; lra) p Hp).
    cbv beta in Hz. specialize (Hpw p Hp). specialize (HDp p Hp).
    apply Rmult_integral in Hz as [Hz|Hz]; [lra|]. apply Rmult_integral in Hz as [Hz|Hz]; [lra|].
    apply (dot_sq_zero (q_dim M) (grd (diff u w 0%nat p))); [lra|exact Hi]. }
  intros p Hp. split.
  - assert (Hv := Hgr _ HV HG p Hp). unfold everywhere in Hv. cbn [diff dsub val] in Hv. lra.
  - intros i Hi. specialize (HG p i Hp Hi). cbn [diff dsub grd] in HG. lra.
Qed.

(** The flux conditions of FESTIM with non-negative coefficients. *)
Lemma power_monotone x y e : 0 <= x -> 0 <= y -> match e with EInt _ => True | EReal r => 0 < r end -> 0 <= (power x e - power y e) * (x - y).
Proof.
  intros Hx Hy He.
  assert (HM : forall a b, 0 <= a -> a <= b -> power a e <= power b e).
  { clear x y Hx Hy. intros a b Ha Hab. destruct e as [n|r]; cbn [power].
    - apply pow_incr. lra.
    - destruct (Req_EM_T a 0) as [->|Na], (Req_EM_T b 0) as [->|Nb]; try lra.
      + unfold Rpower. left. apply exp_pos.
      + destruct (Req_dec a b) as [->|Nab]; [lra|]. left. unfold Rpower. apply exp_increasing. apply Rmult_lt_compat_l; [exact He|]. apply ln_increasing; lra. }
  destruct (Rle_lt_dec x y) as [H|H].
  - specialize (HM x y Hx H). nra.
  - specialize (HM y x Hy (Rlt_le _ _ H)). nra.
Qed.
Theorem C68_fluxes (f : flux P) T p :
  match f with
  | RecombinationFlux Kr_0 _ order => 0 <= Kr_0 p /\ match order with EInt _ => True | EReal r => 0 < r end
  | MassFlux h _ => 0 <= h p
  | CustomFlux g => forall c c', 0 <= c <= c' -> g T c' p <= g T c p
  | FluxBC _ | DissociationFlux _ _ _ | ConvectiveFlux _ _ => True
  end -> dissipative f T p.
Proof.
  intros H c c' Hc Hc'. destruct f; cbn [flux_into].
  - right. ring.
  - destruct H as [Hk He]. assert (Ha : 0 <= arrhenius (Kr_0 p) (E_Kr p) T).
    { unfold arrhenius, Rdiv. apply Rmult_le_pos; [exact Hk|]. left. apply Rinv_0_lt_compat, exp_pos. }
    assert (Hm := power_monotone c c' order Hc Hc' He).
    assert (0 <= arrhenius (Kr_0 p) (E_Kr p) T * ((power c order - power c' order) * (c - c'))) by (now apply Rmult_le_pos). lra.
  - right. ring.
  - assert (0 <= h_coeff p * (c - c') ^ 2) by (apply Rmult_le_pos; [exact H|apply pow2_ge_0]). lra.
  - right. ring.
  - destruct (Rle_lt_dec c c') as [Hl|Hl].
    + specialize (H c c' (conj Hc Hl)). nra.
    + specialize (H c' c (conj Hc' (Rlt_le _ _ Hl))). nra.
Qed.

(** Heat: with constant thermal properties two temperatures never move apart. *)
Theorem C68_heat M ms rho cp k sources bcs dt V (T Tn S Sn : field P) : q_type M = Cartesian -> positive_weights M ->
  constant_heat rho cp ms -> constant_conductivity k ms ->
  (forall m, In m ms -> 0 <= rho m * cp m /\ 0 <= k m) -> 0 < dt ->
  (forall p, In p (q_facets M) -> 0 < val (T p) /\ 0 < val (S p)) ->
  (forall b, In b bcs -> forall p, In p (q_facets M) -> In (q_surface M p) (fst b) -> cooling (snd b) p) ->
  heat_solves M ms sources bcs true dt V T Tn -> heat_solves M ms sources bcs true dt V S Sn -> V (fun p => dsub (T p) (S p)) ->
  energy M rho cp ms (fun p => (val (T p) - val (S p)) ^ 2) <= energy M rho cp ms (fun p => (val (Tn p) - val (Sn p)) ^ 2).
Proof.
  intros Hty Hw Hh Hk Hpos Hdt HT Hb H1 H2 HV. destruct (H1 _ HV) as (F1 & HF1 & Z1). destruct (H2 _ HV) as (F2 & HF2 & Z2).
  assert (H := heat_difference M ms rho cp k sources bcs true dt T Tn S Sn F1 F2 Hty Hw Hh Hk HT Hb HF1 HF2). rewrite Z1, Z2 in H. cbv zeta in H.
  assert (E : forall e, energy M rho cp ms e = sum_over ms (fun m => sum_over (ids (m_id (attrs m))) (fun z => integral M (Dx z) (fun p => rho m * cp m * e p)))).
  { intros e. unfold energy. apply sum_over_ext. intros m _. apply sum_over_ext. intros z _. unfold total_in, wsum, integral, weight. rewrite Hty.
    cbn [points]. apply rsum_map_ext. intros. ring. }
  rewrite !E. enough (G : / (2 * dt) * (sum_over ms (fun m => sum_over (ids (m_id (attrs m))) (fun z => integral M (Dx z) (fun p => rho m * cp m * (val (T p) - val (S p)) ^ 2)))
     - sum_over ms (fun m => sum_over (ids (m_id (attrs m))) (fun z => integral M (Dx z) (fun p => rho m * cp m * (val (Tn p) - val (Sn p)) ^ 2)))) <= 0).
  { match type of G with ?c * (?a - ?b) <= 0 => destruct (Rle_lt_dec a b) as [Hab|Hab]; [exact Hab|] end. exfalso.
    assert (0 < / (2 * dt)) by (apply Rinv_0_lt_compat; lra).
    match type of G with ?c * (?a - ?b) <= 0 => assert (0 < c * (a - b)) by (apply Rmult_lt_0_compat; lra) end. lra. }
  eapply Rle_trans; [|eapply Rle_trans; [exact H|lra]]. rewrite sum_over_minus, <- sum_over_scale. apply rsum_map_le. intros m Hm.
  rewrite sum_over_minus, <- sum_over_scale. apply rsum_map_le. intros z _. rewrite integral_minus, <- integral_scale. apply integral_le; [exact Hw|].
  intros p _. destruct (Hpos m Hm) as [Hrc Hkm]. cbn [dsub val grd].
  assert (Hd := dot_sq_nonneg (q_dim M) (fun i => grd (T p) i - grd (S p) i)).
  assert (0 <= k m * dot (q_dim M) (fun i => grd (T p) i - grd (S p) i) (fun i => grd (T p) i - grd (S p) i)) by (now apply Rmult_le_pos).
  set (a := val (T p) - val (S p)) in *. set (b := val (Tn p) - val (Sn p)) in *.
  assert (0 <= / (2 * dt) * (rho m * cp m * (a - b) ^ 2)).
  { apply Rmult_le_pos; [left; apply Rinv_0_lt_compat; lra|]. apply Rmult_le_pos; [exact Hrc|apply pow2_ge_0]. }
  assert (EQ : rho m * cp m * ((a - b) / dt * a) - / (2 * dt) * (rho m * cp m * a ^ 2 - rho m * cp m * b ^ 2) = / (2 * dt) * (rho m * cp m * (a - b) ^ 2)) by (field; lra).
  lra.
Qed.
Theorem C68_heat_fluxes (f : flux P) p :
  match f with FluxBC _ => True | ConvectiveFlux h _ => 0 <= h p | CustomFlux g => forall T T', 0 < T <= T' -> g T' 0 p <= g T 0 p | _ => False end ->
  cooling f p.
Proof.
  intros H T T' HT HT'. destruct f; cbn [flux_into]; try (destruct H; fail).
  - right. ring.
  - assert (0 <= h_coeff p * (T - T') ^ 2) by (apply Rmult_le_pos; [exact H|apply pow2_ge_0]). lra.
  - destruct (Rle_lt_dec T T') as [Hl|Hl].
    + specialize (H T T' (conj HT Hl)). nra.
    + specialize (H T' T (conj HT' (Rlt_le _ _ Hl))). nra.
Qed.
End Props.

(** ** Examples: two cells in two materials, fields that are constant in space. *)
Definition level (a b : R) : state nat := fun i _ => dconst (match i with O => a | _ => b end).
Definition flat : state nat -> Prop := fun v => exists a b, forall p, val (v 0%nat p) = a /\ val (v 1%nat p) = b /\ forall i, grd (v 0%nat p) i = 0.
Lemma flat_diff a b c d : flat (diff (level a b) (level c d)).
Proof. exists (a - c), (b - d). intros p. cbn. split; [reflexivity|]. split; [reflexivity|]. intros. ring. Qed.
Definition trap_both : trap nat :=
  mkTrap (Scalar 1) (Scalar 0) (Scalar 1) (Scalar 0) [fun _ => 2] two_mats ones ones ones [].
Definition pb_trap : problem nat := mkProblem two_mats T400 [] [] [trap_both].
Definition pb_recombination : problem nat :=
  mkProblem two_mats T400 [] [BFlux false [1%Z] (RecombinationFlux (fun _ => 2) (fun _ => 0) (EInt 2))] [].
Definition D_two (p : nat) : R := match p with 1%nat => arrhenius 1 (1 / 10) 400 | _ => arrhenius 4 (2 / 10) 400 end.
Lemma exp_zero_energy T : exp (- 0 / k_B / T) = 1.
Proof. replace (- 0 / k_B / T) with 0 by (unfold Rdiv; ring). apply exp_0. Qed.
Lemma weights_two : positive_weights (mesh_ty Cartesian).
Proof. split; intros p _; cbn; lra. Qed.
Lemma D_two_ok : diffusivity (mesh_ty Cartesian) two_mats T400 D_two.
Proof.
  intros p Hp m Hm Hv. cbn in Hp. destruct Hp as [<-|[<-|[]]]; destruct Hm as [<-|[<-|[]]]; cbn in Hv; destruct Hv as [Hv|[]]; try discriminate Hv;
    cbn [attrs mat_1 mat_2 m_D0 m_ED]; do 2 eexists; repeat split.
Qed.
Lemma D_two_pos p : 0 < D_two p.
Proof. unfold D_two. destruct p as [|[|p]]; apply arrhenius_pos; lra. Qed.
Lemma pb_trap_physical : physical (mesh_ty Cartesian) pb_trap D_two.
Proof.
  split; [reflexivity|]. split; [apply covered_ty|]. split; [apply weights_two|]. split; [apply T400_pos|]. split; [apply D_two_ok|].
  split; [intros p _; left; apply D_two_pos|]. split; [intros s []|]. split; [intros t s [<-|[]] []|intros b []].
Qed.
Lemma pb_recombination_physical : physical (mesh_ty Cartesian) pb_recombination D_two.
Proof.
  split; [reflexivity|]. split; [apply covered_ty|]. split; [apply weights_two|]. split; [apply T400_pos|]. split; [apply D_two_ok|].
  split; [intros p _; left; apply D_two_pos|]. split; [intros s []|]. split; [intros t s []|]. intros b [<-|[]] p _ _.
  apply C68_fluxes. split; [lra|exact I].
Qed.
(** Equilibrium between the mobile species and the trap. *)
Lemma pb_trap_solves c t : c * (2 - t) = t -> solves (mesh_ty Cartesian) pb_trap (Some (1 / 4)) flat (level c t) (level c t).
Proof.
  intros Heq v (a & b & Hv). eexists. split; [reflexivity|].
  unfold assemble, integral, rsum. cbn. rewrite !exp_zero_energy. unfold rsum, dot. cbn.
  destruct (Hv 1%nat) as (-> & -> & G1). destruct (Hv 2%nat) as (-> & -> & G2). rewrite ?G1, ?G2.
  transitivity ((c * (2 - t) - t) * (a - b)); [field|rewrite Heq; ring].
Qed.
Lemma pb_recombination_solves c cn : c + c ^ 2 = cn -> solves (mesh_ty Cartesian) pb_recombination (Some 1) flat (level c 0) (level cn 0).
Proof.
  intros Heq v (a & b & Hv). eexists. split; [reflexivity|].
  unfold assemble, integral. cbn. unfold recombination_form. rewrite !exp_zero_energy. unfold rsum, dot. cbn.
  destruct (Hv 1%nat) as (-> & _ & G1). destruct (Hv 2%nat) as (-> & _ & G2). destruct (Hv 3%nat) as (-> & _ & _). rewrite ?G1, ?G2. subst cn. cbn. field.
Qed.

Lemma rates_ok : bounded_rates (mesh_ty Cartesian) pb_trap (level 1 1) (level 2 (4 / 3)) 4 4.
Proof.
  split; [lra|]. split; [lra|]. split.
  - intros [|[|i]] t H; [|discriminate|discriminate]. injection H as <-. intros p Hp i m k_0 E_k p_0 E_p n Hm Hv Hpar.
    destruct Hpar as [(E1 & E2 & E3 & E4 & E5)|(lk & lE & lp & lF & E1 & _)]; [|discriminate].
    injection E1 as <-. injection E2 as <-. injection E3 as <-. injection E4 as <-. injection E5 as <-.
    assert (EA : forall T, arrhenius 1 0 T = 1).
    { intros T. unfold arrhenius. replace (0 / (boltzmann * T)) with 0 by (unfold Rdiv; ring). rewrite exp_0. field. }
    rewrite !EA. cbn. lra.
  - intros p Hp. cbn in Hp. destruct Hp as [<-|[<-|[]]]; cbn; lra.
Qed.
Example C68_example :
  solves (mesh_ty Cartesian) pb_trap (Some (1 / 4)) flat (level 1 1) (level 1 1) /\
  solves (mesh_ty Cartesian) pb_trap (Some (1 / 4)) flat (level 2 (4 / 3)) (level 2 (4 / 3)) /\
  flat (diff (level 1 1) (level 2 (4 / 3))) /\ physical (mesh_ty Cartesian) pb_trap D_two /\
  bounded_rates (mesh_ty Cartesian) pb_trap (level 1 1) (level 2 (4 / 3)) 4 4 /\
  nonnegative_at_boundary (mesh_ty Cartesian) (level 1 1) /\ nonnegative_at_boundary (mesh_ty Cartesian) (level 2 (4 / 3)).
Proof.
  split; [apply pb_trap_solves; lra|]. split; [apply pb_trap_solves; lra|]. split; [apply flat_diff|]. split; [apply pb_trap_physical|].
  split; [apply rates_ok|]. split; intros p _; cbn; lra.
Qed.
(** Recombination: from 2 and 6 to 1 and 2. *)
Example C68_recombination_example :
  solves (mesh_ty Cartesian) pb_recombination (Some 1) flat (level 1 0) (level 2 0) /\
  solves (mesh_ty Cartesian) pb_recombination (Some 1) flat (level 2 0) (level 6 0) /\
  physical (mesh_ty Cartesian) pb_recombination D_two /\ pb_traps pb_recombination = [] /\
  norm2 (mesh_ty Cartesian) 0 (diff (level 1 0) (level 2 0)) = 1 /\ norm2 (mesh_ty Cartesian) 0 (diff (level 2 0) (level 6 0)) = 16.
Proof.
  split; [apply pb_recombination_solves; lra|]. split; [apply pb_recombination_solves; lra|]. split; [apply pb_recombination_physical|]. split; [reflexivity|].
  unfold norm2, total, wsum, weight, sum_over, rsum. cbn. lra.
Qed.
(** Steady state with a source, concentration 1 imposed at x = 0. *)
Definition pinned : state nat -> Prop := fun v => exists g, forall p, val (v 0%nat p) = g * INR p /\ grd (v 0%nat p) 0%nat = g.
Definition slope : R := 3 / (1 * exp (- (1 / 10) / k_B / 400) + 4 * exp (- (2 / 10) / k_B / 400)).
Definition ramp : state nat := fun _ p => mkDual (1 + slope * INR p) (fun _ => slope).
Definition pb_source : problem nat := mkProblem two_mats T400 [mkSource (IdMany [1; 2]%Z) (fun _ => 1) None] [] [].
Example C68_steady_example :
  physical (mesh_ty Cartesian) pb_source D_two /\ (forall p, In p (q_cells (mesh_ty Cartesian)) -> 0 < D_two p) /\
  solves (mesh_ty Cartesian) pb_source None pinned ramp ramp /\ nonnegative_at_boundary (mesh_ty Cartesian) ramp /\
  pinned (everywhere (diff ramp ramp 0%nat)) /\
  (forall v, pinned v -> (forall p i, In p (q_cells (mesh_ty Cartesian)) -> (i < q_dim (mesh_ty Cartesian))%nat -> grd (v 0%nat p) i = 0) ->
     forall p, In p (q_cells (mesh_ty Cartesian)) -> val (v 0%nat p) = 0).
Proof.
  assert (Hs : 0 < slope).
  { unfold slope. apply Rdiv_lt_0_compat; [lra|]. pose proof (exp_pos (- (1 / 10) / k_B / 400)). pose proof (exp_pos (- (2 / 10) / k_B / 400)). lra. }
  split.
  { split; [reflexivity|]. split; [apply covered_ty|]. split; [apply weights_two|]. split; [apply T400_pos|]. split; [apply D_two_ok|].
    split; [intros p _; left; apply D_two_pos|]. split; [intros s [<-|[]]; exact I|]. split; [intros t s []|intros b []]. }
  split; [intros p _; apply D_two_pos|]. split.
  { intros v (g & Hv). eexists. split; [reflexivity|]. unfold assemble, integral. cbn. unfold rsum, dot. cbn.
    destruct (Hv 1%nat) as (-> & ->). destruct (Hv 2%nat) as (-> & ->). unfold slope. cbn.
    pose proof (exp_pos (- (1 / 10) / k_B / 400)) as H1. pose proof (exp_pos (- (2 / 10) / k_B / 400)) as H2.
    set (e1 := exp (- (1 / 10) / k_B / 400)) in *. set (e2 := exp (- (2 / 10) / k_B / 400)) in *. clearbody e1 e2. field. lra. }
  split; [intros p _; cbn; pose proof (pos_INR p); nra|]. split.
  - exists 0. intros p. cbn. split; ring.
  - intros v (g & Hv) Hg p Hp. destruct (Hv p) as [-> Eg]. rewrite (Hg p 0%nat Hp) in Eg by (cbn; lia). rewrite <- Eg. ring.
Qed.
(** Heat with convective cooling: from 600 to 500, and 400 kept. *)
Definition uniform : field nat -> Prop := fun v => exists a, forall p, val (v p) = a /\ forall i, grd (v p) i = 0.
Definition cooled : list (list Z * flux nat) := [([2%Z], ConvectiveFlux (fun _ => 178) (fun _ => 400))].
Example C68_heat_example : let h := heat_solves (mesh_ty Cartesian) two_mats [] cooled true 1 uniform in
  h (fun _ => dconst 500) (fun _ => dconst 600) /\ h (fun _ => dconst 400) (fun _ => dconst 400) /\
  uniform (fun p => dsub (dconst 500) (dconst 400)) /\
  constant_heat (fun m => match uid m with O => 7 | _ => 13 end) (fun m => match uid m with O => 5 | _ => 11 end) two_mats /\
  constant_conductivity (fun _ => 3) two_mats /\
  (forall b, In b cooled -> forall p, In p (q_facets (mesh_ty Cartesian)) -> In (q_surface (mesh_ty Cartesian) p) (fst b) -> cooling (snd b) p).
Proof.
  assert (H : forall T Tn, 89 * (T - Tn) + 89 * (T - 400) = 0 -> heat_solves (mesh_ty Cartesian) two_mats [] cooled true 1 uniform (fun _ => dconst T) (fun _ => dconst Tn)).
  { intros T Tn E v (a & Hv). eexists. split; [reflexivity|]. unfold assemble, integral. cbn. unfold convective_form, rsum, dot. cbn.
    destruct (Hv 1%nat) as (-> & G1). destruct (Hv 2%nat) as (-> & G2). destruct (Hv 4%nat) as (-> & _). rewrite ?G1, ?G2.
    transitivity ((89 * (T - Tn) + 89 * (T - 400)) * a); [field|rewrite E; ring]. }
  split; [apply H; lra|]. split; [apply H; lra|]. split; [exists 100; intros p; cbn; split; [lra|intros; lra]|].
  split; [intros m [<-|[<-|[]]]; split; reflexivity|]. split; [intros m [<-|[<-|[]]]; reflexivity|].
  intros b [<-|[]] p _ _. apply C68_heat_fluxes. cbn. lra.
Qed.
(** With negative concentrations the step has two solutions. *)
Theorem C68_negative_refuted : exists (M : mesh nat) pb D V u w un, physical M pb D /\ pb_traps pb = [] /\
  solves M pb (Some 1) V u un /\ solves M pb (Some 1) V w un /\ V (diff u w) /\
  (forall p, val (u 0%nat p) = 0) /\ (forall p, val (w 0%nat p) = -1).
Proof.
  exists (mesh_ty Cartesian), pb_recombination, D_two, flat, (level 0 0), (level (-1) 0), (level 0 0).
  split; [apply pb_recombination_physical|]. split; [reflexivity|]. split; [apply pb_recombination_solves; lra|]. split; [apply pb_recombination_solves; lra|].
  split; [apply flat_diff|]. split; reflexivity.
Qed.

Print Assumptions C68_dependence.
Print Assumptions C68_unique.
Print Assumptions C68_contraction.
Print Assumptions C68_steady.
Print Assumptions C68_fluxes.
Print Assumptions C68_heat.
Print Assumptions C68_heat_fluxes.
Print Assumptions C68_negative_refuted.
