(** C101: differences die out; a transient simulation with constant data approaches the steady state. *)
From Coq Require Import Reals ZArith List Arith Bool Lra Lia Psatz.
From Verif Require Import Base.Exc Base.Dual Model.Materials Model.Laws Model.Theta Model.Forms
  Spec.PhysSpec Spec.BalanceSpec Spec.NewtonSpec Spec.StabilitySpec Spec.MaximumSpec Spec.RelaxSpec
  Proofs.LawProofs Proofs.ThetaProofs Proofs.FormProofs Proofs.TrapProofs Proofs.StabilityProofs Proofs.MaximumProofs Proofs.RelaxProofs
  Properties.FormProps Properties.StabilityProps Properties.EulerProps Properties.MaximumProps.
Import ListNotations.
Local Open Scope R_scope.
Local Open Scope list_scope.

Section Props.
Context {P : Type}.
Implicit Types (M : mesh P).

(** Two runs with the same data from different initial concentrations, in any dimension. *)
Theorem C101_forget M (pb : nat -> problem P) (D : nat -> P -> R) (dt : nat -> R) V lambda (u w : nat -> state P) :
  (forall k, physical M (pb k) (D k)) -> (forall k, pb_traps (pb k) = []) -> (forall k, 0 < dt k) -> 0 <= lambda ->
  (forall k, dissipates M (D k) V lambda) ->
  (forall k, nonnegative_at_boundary M (u (S k)) /\ nonnegative_at_boundary M (w (S k))) ->
  (forall k, StabilitySpec.solves M (pb k) (Some (dt k)) V (u (S k)) (u k)) ->
  (forall k, StabilitySpec.solves M (pb k) (Some (dt k)) V (w (S k)) (w k)) ->
  (forall k, V (diff (u (S k)) (w (S k)))) ->
  forall k, (1 + 2 * lambda * time_after dt k) * norm2 M 0 (diff (u k) (w k)) <= norm2 M 0 (diff (u 0%nat) (w 0%nat)).
Proof.
  intros Hph Ht Hdt Hl Hgap Hnn Hu Hw HV. destruct (Hph 0%nat) as (Hty & _ & Hpw & _).
  apply (decay_steps (fun k => norm2 M 0 (diff (u k) (w k)))); [lra|exact Hdt|intros k; now apply norm2_nonneg|]. intros k.
  assert (H := step_inequality M (pb k) (D k) 0 0 (dt k) V (u (S k)) (u k) (w (S k)) (w k) (Hph k) (no_traps_rates M (pb k) _ _ (Ht k)) (Hdt k)
    (proj1 (Hnn k)) (proj2 (Hnn k)) (Hu k) (Hw k) (HV k)). cbv zeta in H. rewrite Ht in H. cbn [length] in H.
  assert (Hg := Hgap k _ (HV k)). unfold dissipation in Hg.
  assert (Y : / 2 * (norm2 M 0 (diff (u (S k)) (w (S k))) - norm2 M 0 (diff (u k) (w k))) <=
    integral M DxAll (fun p => sum_over (seq 0 1) (fun j => (val (diff (u (S k)) (w (S k)) j p) - val (diff (u k) (w k) j p)) * val (diff (u (S k)) (w (S k)) j p)))).
  { unfold norm2. rewrite !integral_total, integral_minus, <- integral_scale by exact Hty. apply integral_le; [exact Hpw|].
    intros p _. rewrite sum_over_minus, <- sum_over_scale. apply rsum_map_le. intros j _.
    set (a := val (diff (u (S k)) (w (S k)) j p)). set (b := val (diff (u k) (w k) j p)). assert (0 <= (a - b) ^ 2) by apply pow2_ge_0. lra. }
  apply (Rmult_le_compat_l (dt k)) in Hg; [|left; apply Hdt]. lra.
Qed.
Print Assumptions C101_forget.

(** Hence the steady solution attracts the transient ones, whatever the stepsizes. *)
Theorem C101_steady M (pb : problem P) D dt V lambda (u : nat -> state P) w :
  physical M pb D -> pb_traps pb = [] -> (forall k, 0 < dt k) -> 0 <= lambda -> dissipates M D V lambda ->
  (forall k, nonnegative_at_boundary M (u (S k))) -> nonnegative_at_boundary M w ->
  (forall k, StabilitySpec.solves M pb (Some (dt k)) V (u (S k)) (u k)) -> StabilitySpec.solves M pb None V w w ->
  (forall k, V (diff (u (S k)) w)) ->
  forall k, (1 + 2 * lambda * time_after dt k) * norm2 M 0 (diff (u k) w) <= norm2 M 0 (diff (u 0%nat) w).
Proof.
  intros Hph Ht Hdt Hl Hgap Hu Hw Hsu Hsw HV k.
  assert (Hst : forall k, StabilitySpec.solves M pb (Some (dt k)) V w w).
  { intros j. apply (proj1 (C69_fixed_point M pb (dt j) V w (proj1 (proj2 Hph)) (proj1 (proj2 (proj2 (proj2 Hph))))
      ltac:(rewrite Ht; intros v t []) ltac:(intros s a Hs; destruct Hph as (_ & _ & _ & _ & _ & _ & _ & _ & Hbc); destruct (Hbc _ Hs)))). exact Hsw. }
  exact (C101_forget M (fun _ => pb) (fun _ => D) dt V lambda u (fun _ => w) (fun _ => Hph) (fun _ => Ht) Hdt Hl (fun _ => Hgap)
    (fun j => conj (Hu j) Hw) Hsu Hst HV k).
Qed.
Print Assumptions C101_steady.
Theorem C101_limit M (pb : problem P) D V lambda w : physical M pb D -> pb_traps pb = [] -> 0 < lambda -> dissipates M D V lambda ->
  nonnegative_at_boundary M w -> StabilitySpec.solves M pb None V w w ->
  forall size eps, 0 <= size -> 0 < eps -> exists t, forall dt (u : nat -> state P) k, (forall k, 0 < dt k) ->
    (forall k, nonnegative_at_boundary M (u (S k))) -> (forall k, StabilitySpec.solves M pb (Some (dt k)) V (u (S k)) (u k)) ->
    (forall k, V (diff (u (S k)) w)) -> norm2 M 0 (diff (u 0%nat) w) <= size -> t <= time_after dt k -> norm2 M 0 (diff (u k) w) <= eps.
Proof.
  intros Hph Ht Hl Hgap Hw Hsw size eps Hs He. exists (size / eps / (2 * lambda)). intros dt u k Hdt Hu Hsu HV H0 Hk.
  assert (H := C101_steady M pb D dt V lambda u w Hph Ht Hdt (Rlt_le _ _ Hl) Hgap Hu Hw Hsu Hsw HV k).
  destruct Hph as (Hty & _ & Hpw & _). assert (Hn := norm2_nonneg M 0 (diff (u k) w) Hty Hpw).
  apply (Rmult_le_compat_l (2 * lambda)) in Hk; [|lra]. replace (2 * lambda * (size / eps / (2 * lambda))) with (size / eps) in Hk by (field; lra).
  assert (Hx : (size / eps + 1) * norm2 M 0 (diff (u k) w) <= size).
  { eapply Rle_trans; [|eapply Rle_trans; [exact H|exact H0]]. apply Rmult_le_compat_r; lra. }
  assert (Hq : 0 <= size / eps) by (apply Rmult_le_pos; [exact Hs|left; now apply Rinv_0_lt_compat]).
  apply (Rmult_le_reg_l (size / eps + 1)); [lra|]. eapply Rle_trans; [exact Hx|].
  replace ((size / eps + 1) * eps) with (size + eps) by (field; lra). lra.
Qed.
Print Assumptions C101_limit.

(** Temperatures, with constant thermal properties. *)
Theorem C101_heat M ms rho cp k sources bcs dt V lambda (T S : nat -> field P) : q_type M = Cartesian -> positive_weights M ->
  constant_heat rho cp ms -> constant_conductivity k ms -> (forall m, In m ms -> 0 <= rho m * cp m /\ 0 <= k m) ->
  (forall j, 0 < dt j) -> 0 <= lambda -> conducts M ms rho cp k V lambda ->
  (forall j p, In p (q_facets M) -> 0 < val (T (Datatypes.S j) p) /\ 0 < val (S (Datatypes.S j) p)) ->
  (forall b, In b bcs -> forall p, In p (q_facets M) -> In (q_surface M p) (fst b) -> cooling (snd b) p) ->
  (forall j, heat_solves M ms (sources j) bcs true (dt j) V (T (Datatypes.S j)) (T j)) ->
  (forall j, heat_solves M ms (sources j) bcs true (dt j) V (S (Datatypes.S j)) (S j)) ->
  (forall j, V (fun p => dsub (T (Datatypes.S j) p) (S (Datatypes.S j) p))) ->
  forall j, (1 + 2 * lambda * time_after dt j) * energy M rho cp ms (fun p => (val (T j p) - val (S j p)) ^ 2)
    <= energy M rho cp ms (fun p => (val (T 0%nat p) - val (S 0%nat p)) ^ 2).
Proof.
  intros Hty Hw Hh Hk Hpos Hdt Hl Hgap Hb Hcool HT HS HV.
  assert (E : forall e, energy M rho cp ms e = sum_over ms (fun m => sum_over (ids (m_id (attrs m))) (fun z => integral M (Dx z) (fun p => rho m * cp m * e p)))).
  { intros e. unfold energy. apply sum_over_ext. intros m _. apply sum_over_ext. intros z _. unfold total_in, wsum, integral, weight. rewrite Hty.
    cbn [points]. apply rsum_map_ext. intros. ring. }
  apply (decay_steps (fun j => energy M rho cp ms (fun p => (val (T j p) - val (S j p)) ^ 2))); [lra|exact Hdt| |].
  { intros j. rewrite E. apply rsum_map_nonneg. intros m Hm. apply rsum_map_nonneg. intros z _. apply integral_nonneg; [exact Hw|].
    intros p _. apply Rmult_le_pos; [now apply Hpos|apply pow2_ge_0]. }
  intros j. destruct (HT j _ (HV j)) as (F1 & HF1 & Z1). destruct (HS j _ (HV j)) as (F2 & HF2 & Z2).
  assert (H := heat_difference M ms rho cp k (sources j) bcs true (dt j) (T (Datatypes.S j)) (T j) (S (Datatypes.S j)) (S j) F1 F2 Hty Hw Hh Hk (Hb j) Hcool HF1 HF2).
  rewrite Z1, Z2 in H. cbv zeta in H. assert (Hg := Hgap _ (HV j)). unfold conduction in Hg. cbn [dsub val] in Hg.
  specialize (Hdt j).
  set (A := energy M rho cp ms (fun p => (val (T (Datatypes.S j) p) - val (S (Datatypes.S j) p)) ^ 2)) in *.
  set (B := energy M rho cp ms (fun p => (val (T j p) - val (S j p)) ^ 2)) in *.
  set (G := sum_over ms _) in Hg.
  enough (Y : / (2 * dt j) * (A - B) + G <= 0).
  { apply (Rmult_le_compat_l (2 * dt j)) in Y; [|lra]. replace (2 * dt j * (/ (2 * dt j) * (A - B) + G)) with (A - B + 2 * dt j * G) in Y by (field; lra).
    apply (Rmult_le_compat_l (2 * dt j)) in Hg; [|lra]. lra. }
  eapply Rle_trans; [|eapply Rle_trans; [exact H|lra]]. unfold A, B, G. rewrite !E.
  rewrite sum_over_minus, <- sum_over_scale. unfold sum_over at 1 4. rewrite <- rsum_map_plus. apply rsum_map_le. intros m Hm.
  rewrite sum_over_minus, <- sum_over_scale. unfold sum_over at 1 2. rewrite <- rsum_map_plus. apply rsum_map_le. intros z _.
  rewrite integral_minus, <- integral_scale, <- integral_plus. apply integral_le; [exact Hw|].
  intros p _. destruct (Hpos m Hm) as [Hrc _]. cbn [dsub val grd].
  set (a := val (T (Datatypes.S j) p) - val (S (Datatypes.S j) p)) in *. set (b := val (T j p) - val (S j p)) in *.
  assert (0 <= / (2 * dt j) * (rho m * cp m * (a - b) ^ 2)).
  { apply Rmult_le_pos; [left; apply Rinv_0_lt_compat; lra|]. apply Rmult_le_pos; [exact Hrc|apply pow2_ge_0]. }
  assert (EQ : rho m * cp m * ((a - b) / dt j * a) - / (2 * dt j) * (rho m * cp m * a ^ 2 - rho m * cp m * b ^ 2) = / (2 * dt j) * (rho m * cp m * (a - b) ^ 2)) by (field; lra).
  lra.
Qed.
Print Assumptions C101_heat.
End Props.

(** Linear elements on a segment of length L, value imposed at some node: the diffusion time is at most L^2 / D. *)
Theorem C101_segment K X rule vol left right D Dmin i : (0 < K)%nat -> (forall e, (e < K)%nat -> X e < X (S e)) -> exact_2 rule ->
  (i <= K)%nat -> 0 <= Dmin -> let M := segment K X rule vol left right in (forall p, In p (q_cells M) -> Dmin <= D p) ->
  dissipates M D (pinned_state K X M i) (Dmin / (X K - X 0%nat) ^ 2).
Proof.
  intros HK HX Hrule Hi HD M HDp v Hv. unfold dissipation. change (q_dim M) with 1%nat.
  assert (Hw : forall p, In p (q_cells M) -> 0 <= q_weight M p).
  { intros p Hp. apply (proj1 (segment_basis K X rule vol left right HK HX Hrule)). now left. }
  assert (HL : 0 < X K - X 0%nat).
  { rewrite <- (lengths K X). unfold sum_over. destruct K as [|n]; [lia|]. cbn [seq map]. rewrite rsum_cons.
    assert (0 <= rsum (map (length_of X) (seq 1 n))); [apply rsum_map_nonneg; intros e He; apply in_seq in He; unfold length_of; specialize (HX e ltac:(lia)); lra|].
    unfold length_of at 1. specialize (HX 0%nat ltac:(lia)). lra. }
  assert (H := poincare K X rule vol left right HK HX Hrule (v 0%nat) i Hw Hi Hv). fold M in H.
  assert (En : norm2 M 0 v = integral M DxAll (fun p => val (v 0%nat p) ^ 2)).
  { unfold norm2. rewrite integral_total by reflexivity. apply integral_ext. intros p _. unfold sum_over. cbn [seq map]. rewrite rsum_cons, rsum_nil. ring. }
  rewrite En. set (N := integral M DxAll (fun p => val (v 0%nat p) ^ 2)) in *.
  set (G := integral M DxAll (fun p => dot 1 (grd (v 0%nat p)) (grd (v 0%nat p)))) in *.
  assert (HL2 : 0 < (X K - X 0%nat) ^ 2) by now apply pow_lt.
  apply Rle_trans with (Dmin * G).
  - unfold Rdiv. rewrite Rmult_assoc. apply Rmult_le_compat_l; [exact HD|]. apply (Rmult_le_reg_l ((X K - X 0%nat) ^ 2)); [exact HL2|].
    rewrite <- Rmult_assoc, Rinv_r by lra. lra.
  - unfold G. rewrite <- integral_scale. unfold integral. apply rsum_map_le. intros p Hp. cbn [points] in Hp.
    apply Rmult_le_compat_l; [now apply Hw|]. apply Rmult_le_compat_r; [|now apply HDp]. apply dot_sq_nonneg.
Qed.
Print Assumptions C101_segment.

(** Heat: at most L^2 (rho cp) / k. *)
Theorem C101_heat_segment K X rule vol left right ms rho cp k kmin cmax i : (0 < K)%nat -> (forall e, (e < K)%nat -> X e < X (S e)) -> exact_2 rule ->
  (i <= K)%nat -> 0 <= kmin -> 0 < cmax -> let M := segment K X rule vol left right in covered M ms ->
  (forall m, In m ms -> kmin <= k m /\ rho m * cp m <= cmax) ->
  conducts M ms rho cp k (pinned_field K X M i) (kmin / (cmax * (X K - X 0%nat) ^ 2)).
Proof.
  intros HK HX Hrule Hi Hk Hc M [Hnd Hcov] Hmat v Hv.
  assert (Hw : forall p, point M p -> 0 <= q_weight M p) by apply (segment_basis K X rule vol left right HK HX Hrule).
  assert (HG := C101_segment K X rule vol left right (fun _ => kmin) kmin i HK HX Hrule Hi Hk (fun p _ => Rle_refl _)). cbv zeta in HG. fold M in HG.
  specialize (HG (fun _ => v) Hv). unfold dissipation in HG.
  assert (Hall : forall f : pt -> R, sum_over ms (fun m => sum_over (ids (m_id (attrs m))) (fun z => integral M (Dx z) f)) = integral M DxAll f).
  { intros f. rewrite <- sum_over_flat_map. fold (BalanceSpec.all_ids ms). rewrite <- integral_total by reflexivity.
    rewrite <- (sum_materials_total M (BalanceSpec.all_ids ms) f Hnd); [|intros p Hp; apply Hcov; now left].
    apply sum_over_ext. intros z _. unfold total_in, wsum, integral, weight. cbn [q_type segment M points]. apply rsum_map_ext. intros. ring. }
  assert (Hle : forall z (e e' : pt -> R), (forall p, e p <= e' p) -> integral M (Dx z) e <= integral M (Dx z) e').
  { intros z e e' He. unfold integral. apply rsum_map_le. intros p Hp. apply Rmult_le_compat_l; [|apply He].
    apply Hw. exact (points_point M (Dx z) p Hp). }
  assert (H1 : energy M rho cp ms (fun p => val (v p) ^ 2) <= cmax * norm2 M 0 (fun _ => v)).
  { unfold norm2. rewrite integral_total by reflexivity. rewrite <- Hall, <- sum_over_scale. unfold energy. apply rsum_map_le. intros m Hm.
    rewrite <- sum_over_scale. apply rsum_map_le. intros z _. rewrite <- integral_scale.
    replace (total_in M z (fun p => rho m * cp m * val (v p) ^ 2)) with (integral M (Dx z) (fun p => rho m * cp m * val (v p) ^ 2))
      by (unfold total_in, wsum, integral, weight; cbn [q_type segment M points]; apply rsum_map_ext; intros; ring).
    apply Hle. intros p. unfold sum_over. cbn [seq map]. rewrite rsum_cons, rsum_nil, Rplus_0_r.
    apply Rmult_le_compat_r; [apply pow2_ge_0|now apply Hmat]. }
  assert (H2 : integral M DxAll (fun p => kmin * dot (q_dim M) (grd (v p)) (grd (v p))) <= conduction M ms k v).
  { rewrite <- Hall. unfold conduction. apply rsum_map_le. intros m Hm. apply rsum_map_le. intros z _. apply Hle. intros p.
    apply Rmult_le_compat_r; [apply dot_sq_nonneg|now apply Hmat]. }
  eapply Rle_trans; [|exact H2]. eapply Rle_trans; [|exact HG].
  assert (HL : 0 < X K - X 0%nat).
  { rewrite <- (lengths K X). unfold sum_over. destruct K as [|n]; [lia|]. cbn [seq map]. rewrite rsum_cons.
    assert (0 <= rsum (map (length_of X) (seq 1 n))); [apply rsum_map_nonneg; intros e He; apply in_seq in He; unfold length_of; specialize (HX e ltac:(lia)); lra|].
    unfold length_of at 1. specialize (HX 0%nat ltac:(lia)). lra. }
  assert (HL2 : 0 < (X K - X 0%nat) ^ 2) by now apply pow_lt.
  replace (kmin / (X K - X 0%nat) ^ 2 * norm2 M 0 (fun _ => v)) with (kmin / (cmax * (X K - X 0%nat) ^ 2) * (cmax * norm2 M 0 (fun _ => v))) by (field; lra).
  apply Rmult_le_compat_l; [|exact H1]. apply Rmult_le_pos; [exact Hk|]. left. apply Rinv_0_lt_compat. now apply Rmult_lt_0_compat.
Qed.
Print Assumptions C101_heat_segment.

(** One element of length 1, D = 1, steps of 1 s, concentration 1 imposed at the left: from 0, the right end goes through
    5/8, 29/32, ... to the steady value 1. *)
Fixpoint right_end (k : nat) : R := match k with O => 5 / 8 | S k => (right_end k + 3) / 4 end.
Definition unit_nodes (i : nat) : R := INR i * 1.
Definition unit_mesh : mesh pt := one_element 1 simpson.
Definition between (a b : R) : state pt := fun _ p => mkDual (a * (1 - local p) + b * local p) (fun _ => b - a).
Definition filling (k : nat) : state pt := match k with O => between 0 0 | S k => between 1 (right_end k) end.
Definition pb_filling : problem pt := mkProblem [D_mat 1] T300 [] [] [].
Lemma between_span a b p : point unit_mesh p ->
  val (between a b 0%nat p) = val (span 2 (linear 1 unit_nodes) (fun i => match i with O => a | _ => b end) p) /\
  forall j, grd (between a b 0%nat p) j = grd (span 2 (linear 1 unit_nodes) (fun i => match i with O => a | _ => b end) p) j.
Proof.
  intros Hp. assert (HK : (0 < 1)%nat) by lia.
  destruct (span_segment 1 unit_nodes simpson (fun _ => 1%Z) 1%Z 2%Z HK simpson_exact (fun i => match i with O => a | _ => b end) p Hp) as [Hv Hg].
  assert (He : element 1 p = 0%nat). { destruct (segment_point 1 unit_nodes simpson (fun _ => 1%Z) 1%Z 2%Z HK simpson_exact p Hp). lia. }
  rewrite Hv, He. split; [reflexivity|]. intros j. rewrite Hg, He. unfold length_of, unit_nodes. cbn. field.
Qed.
Lemma pinned_diff b c : pinned_state 1 unit_nodes unit_mesh 0 (diff (between 1 b) (between 1 c)).
Proof.
  exists (fun i => match i with O => 0 | _ => b - c end). split; [reflexivity|]. intros p Hp.
  destruct (between_span 0 (b - c) p Hp) as [<- H]. split; [cbn; ring|]. intros j. rewrite <- H. cbn. ring.
Qed.
(** The three quadrature points. *)
Lemma filling_residual dt a b an bn v : pinned_state 1 unit_nodes unit_mesh 0 v -> exists F y,
  equations unit_mesh pb_filling dt (between a b) (between an bn) v = Ok F /\
  assemble unit_mesh F = y * (match dt with Some d => ((a - an) / 6 + (b - bn) / 3) / d | None => 0 end + (b - a)).
Proof.
  intros (y & Hy & Hv).
  assert (Hpts : In (Cell 0 0 (1 / 6)) (q_cells unit_mesh) /\ In (Cell 0 (1 / 2) (4 / 6)) (q_cells unit_mesh) /\ In (Cell 0 1 (1 / 6)) (q_cells unit_mesh)).
  { cbn. split; [|split]; intuition. }
  destruct Hpts as (P1 & P2 & P3).
  assert (HK : (0 < 1)%nat) by lia.
  assert (Hval : forall p, In p (q_cells unit_mesh) -> val (v 0%nat p) = y 1%nat * local p /\ grd (v 0%nat p) 0%nat = y 1%nat).
  { intros p Hp. destruct (Hv p (or_introl Hp)) as [-> Hg]. rewrite Hg.
    destruct (span_segment 1 unit_nodes simpson (fun _ => 1%Z) 1%Z 2%Z HK simpson_exact y p (or_introl Hp)) as [-> Hgs]. rewrite Hgs.
    assert (He : element 1 p = 0%nat). { destruct (segment_point 1 unit_nodes simpson (fun _ => 1%Z) 1%Z 2%Z HK simpson_exact p (or_introl Hp)). lia. }
    rewrite He, Hy. unfold length_of, unit_nodes. cbn. split; [ring|field]. }
  eexists _, (y 1%nat). split; [destruct dt; reflexivity|].
  destruct (Hval _ P1) as [V1 G1]. destruct (Hval _ P2) as [V2 G2]. destruct (Hval _ P3) as [V3 G3].
  assert (L1 : length_of (fun i => INR i * 1) 0 = 1) by (unfold length_of; cbn; ring).
  destruct dt as [d|]; unfold assemble, integral, dot; cbn; rewrite !exp_zero_energy; unfold rsum; cbn; rewrite ?V1, ?V2, ?V3, ?G1, ?G2, ?G3, L1;
    cbn [local]; unfold Rdiv; [generalize (/ d); intros r|]; field.
Qed.
Example C101_example :
  physical unit_mesh pb_filling (fun _ => 1) /\ dissipates unit_mesh (fun _ => 1) (pinned_state 1 unit_nodes unit_mesh 0) 1 /\
  (forall k, StabilitySpec.solves unit_mesh pb_filling (Some 1) (pinned_state 1 unit_nodes unit_mesh 0) (filling (S k)) (filling k)) /\
  StabilitySpec.solves unit_mesh pb_filling None (pinned_state 1 unit_nodes unit_mesh 0) (between 1 1) (between 1 1) /\
  (forall k, pinned_state 1 unit_nodes unit_mesh 0 (diff (filling (S k)) (between 1 1))) /\
  (forall k, nonnegative_at_boundary unit_mesh (filling (S k))) /\
  norm2 unit_mesh 0 (diff (filling 0) (between 1 1)) = 1 /\ norm2 unit_mesh 0 (diff (filling 1) (between 1 1)) = 3 / 64.
Proof.
  assert (Hnn : forall k, 0 <= right_end k) by (induction k as [|k IH]; cbn; lra).
  assert (L1 : length_of (fun i => INR i * 1) 0 = 1) by (unfold length_of; cbn; ring).
  split; [|split; [|split; [|split; [|split; [|split; [|split]]]]]].
  - split; [reflexivity|]. split. { split; [cbn; constructor; [intros []|constructor]|]. intros p _. cbn. auto. }
    split. { split; intros p Hp; cbn in Hp; intuition (subst; cbn; rewrite ?L1; lra). }
    split; [intros p _; cbn; lra|]. split.
    { intros p _ m [<-|[]] _. exists 1, 0. repeat split. unfold arrhenius. cbn. replace (0 / (boltzmann * 300)) with 0 by (unfold Rdiv; ring). rewrite exp_0. field. }
    split; [intros; lra|]. split; [intros s []|]. split; [intros t s []|intros b []].
  - assert (E : 1 / (unit_nodes 1 - unit_nodes 0) ^ 2 = 1) by (unfold unit_nodes; cbn; field).
    assert (HX : forall e, (e < 1)%nat -> unit_nodes e < unit_nodes (S e)) by (intros e He; unfold unit_nodes; rewrite S_INR; lra).
    assert (H := C101_segment 1 unit_nodes simpson (fun _ => 1%Z) 1 2 (fun _ => 1) 1 0 (le_n _) HX simpson_exact (le_S _ _ (le_n _)) Rle_0_1 (fun _ _ => Rle_refl 1)).
    cbv zeta in H. rewrite E in H. exact H.
  - intros k v Hv. destruct k as [|k]; cbn [filling].
    + destruct (filling_residual (Some 1) 1 (right_end 0) 0 0 v Hv) as (F & y & HF & Ha). exists F. split; [exact HF|]. rewrite Ha. cbn. field.
    + destruct (filling_residual (Some 1) 1 (right_end (S k)) 1 (right_end k) v Hv) as (F & y & HF & Ha). exists F. split; [exact HF|]. rewrite Ha. cbn. field.
  - intros v Hv. destruct (filling_residual None 1 1 1 1 v Hv) as (F & y & HF & Ha). exists F. split; [exact HF|]. rewrite Ha. ring.
  - intros k. apply pinned_diff.
  - intros k p Hp. cbn in Hp. specialize (Hnn k). destruct Hp as [<-|[<-|[]]]; cbn; lra.
  - unfold norm2, total, wsum, weight, sum_over, rsum. cbn. rewrite L1. field.
  - unfold norm2, total, wsum, weight, sum_over, rsum. cbn. rewrite L1. field.
Qed.
(** The same values as temperatures, with rho = cp = k = 1. *)
Definition heat_mat : mat_obj :=
  mkMatObj 0 (mkMaterial (IdOne 1) None (Const 1) (Const 0) None None (Some (Const 1)) (Some (Const 1)) (Some (Const 1)) BNone None Sievert).
Lemma warming_residual dt a b an bn v : pinned_field 1 unit_nodes unit_mesh 0 v -> exists F y,
  heat_form unit_mesh true dt (between a b 0%nat) (between an bn 0%nat) v [heat_mat] [] [] = Ok F /\
  assemble unit_mesh F = y * (((a - an) / 6 + (b - bn) / 3) / dt + (b - a)).
Proof.
  intros (y & Hy & Hv).
  assert (Hpts : In (Cell 0 0 (1 / 6)) (q_cells unit_mesh) /\ In (Cell 0 (1 / 2) (4 / 6)) (q_cells unit_mesh) /\ In (Cell 0 1 (1 / 6)) (q_cells unit_mesh)).
  { cbn. split; [|split]; intuition. }
  destruct Hpts as (P1 & P2 & P3).
  assert (HK : (0 < 1)%nat) by lia.
  assert (Hval : forall p, In p (q_cells unit_mesh) -> val (v p) = y 1%nat * local p /\ grd (v p) 0%nat = y 1%nat).
  { intros p Hp. destruct (Hv p (or_introl Hp)) as [-> Hg]. rewrite Hg.
    destruct (span_segment 1 unit_nodes simpson (fun _ => 1%Z) 1%Z 2%Z HK simpson_exact y p (or_introl Hp)) as [-> Hgs]. rewrite Hgs.
    assert (He : element 1 p = 0%nat). { destruct (segment_point 1 unit_nodes simpson (fun _ => 1%Z) 1%Z 2%Z HK simpson_exact p (or_introl Hp)). lia. }
    rewrite He, Hy. unfold length_of, unit_nodes. cbn. split; [ring|field]. }
  eexists _, (y 1%nat). split; [reflexivity|].
  destruct (Hval _ P1) as [V1 G1]. destruct (Hval _ P2) as [V2 G2]. destruct (Hval _ P3) as [V3 G3].
  assert (L1 : length_of (fun i => INR i * 1) 0 = 1) by (unfold length_of; cbn; ring).
  unfold assemble, integral, dot; cbn; unfold rsum; cbn; rewrite ?V1, ?V2, ?V3, ?G1, ?G2, ?G3, L1; cbn [local]; unfold Rdiv; generalize (/ dt); intros r; field.
Qed.
Example C101_heat_example :
  constant_heat (fun _ => 1) (fun _ => 1) [heat_mat] /\ constant_conductivity (fun _ => 1) [heat_mat] /\ covered unit_mesh [heat_mat] /\
  (forall j, heat_solves unit_mesh [heat_mat] [] [] true 1 (pinned_field 1 unit_nodes unit_mesh 0) (filling (S j) 0%nat) (filling j 0%nat)) /\
  heat_solves unit_mesh [heat_mat] [] [] true 1 (pinned_field 1 unit_nodes unit_mesh 0) (between 1 1 0%nat) (between 1 1 0%nat) /\
  (forall j p, In p (q_facets unit_mesh) -> 0 < val (filling (S j) 0%nat p)) /\
  (forall j, pinned_field 1 unit_nodes unit_mesh 0 (fun p => dsub (filling (S j) 0%nat p) (between 1 1 0%nat p))).
Proof.
  assert (Hnn : forall k, 0 < right_end k) by (induction k as [|k IH]; cbn; lra).
  split; [intros m [<-|[]]; split; reflexivity|]. split; [intros m [<-|[]]; reflexivity|].
  split. { split; [cbn; constructor; [intros []|constructor]|]. intros p _. cbn. auto. }
  split; [|split; [|split]].
  - intros k v Hv. destruct k as [|k]; cbn [filling].
    + destruct (warming_residual 1 1 (right_end 0) 0 0 v Hv) as (F & y & HF & Ha). exists F. split; [exact HF|]. rewrite Ha. cbn. field.
    + destruct (warming_residual 1 1 (right_end (S k)) 1 (right_end k) v Hv) as (F & y & HF & Ha). exists F. split; [exact HF|]. rewrite Ha. cbn. field.
  - intros v Hv. destruct (warming_residual 1 1 1 1 1 v Hv) as (F & y & HF & Ha). exists F. split; [exact HF|]. rewrite Ha. field.
  - intros k p Hp. cbn in Hp. specialize (Hnn k). destruct Hp as [<-|[<-|[]]]; cbn; lra.
  - intros k. exact (pinned_diff (right_end k) 1).
Qed.
