(** The steady equations on a segment: fluxes between neighbours. *)
From Coq Require Import Reals ZArith List Bool Arith Lra Lia.
From Verif Require Import Base.Exc Base.Dual Model.Materials Model.Laws Model.Theta Model.Forms Model.NonlinearProblem
  Spec.PhysSpec Spec.BalanceSpec Spec.NewtonSpec Spec.MaximumSpec Spec.PermeationSpec Proofs.LawProofs Proofs.ThetaProofs Proofs.FormProofs Proofs.MaximumProofs.
Import ListNotations.
Local Open Scope R_scope.

Section Permeation.
Variables (K : nat) (X : nat -> R) (rule : list (R * R)) (vol : nat -> Z) (left right : Z).
Hypotheses (HK : (0 < K)%nat) (HX : forall e, (e < K)%nat -> X e < X (S e)) (Hrule : exact_2 rule).
Local Notation M := (segment K X rule vol left right).
Local Notation phi := (linear K X).
Local Notation N := (S K).

Lemma all_elements (f : pt -> R) : integral M DxAll f
  = sum_over (seq 0 K) (fun e => sum_over rule (fun q => length_of X e * snd q * f (Cell e (fst q) (snd q)))).
Proof using Type.
  unfold integral, points. cbn [q_cells segment]. unfold sum_over. generalize (seq 0 K) as l. induction l as [|e l IH]; [reflexivity|].
  cbn [flat_map map]. rewrite map_app, rsum_app, rsum_cons, IH. f_equal. rewrite map_map. reflexivity.
Qed.
Lemma total_cartesian (f : pt -> R) : total M f = integral M DxAll f.
Proof using Type.
  unfold total, wsum, integral. cbn [points]. apply rsum_map_ext. intros p _. unfold weight. cbn [q_type segment]. ring.
Qed.
Lemma total_in_cartesian z (f : pt -> R) : total_in M z f = integral M (Dx z) f.
Proof using Type.
  unfold total_in, wsum, integral. cbn [points]. apply rsum_map_ext. intros p _. unfold weight. cbn [q_type segment]. ring.
Qed.

Lemma diffusion_all ms T D (u un v : field pt) : covered M ms -> positive_temperature M T -> diffusivity K X rule vol left right ms T D ->
  (forall m, In m ms -> m_D0 (attrs m) = Const (D0_of m) /\ m_ED (attrs m) = Const (ED_of m)) ->
  sum_over ms (fun m => sum_over (ids (m_id (attrs m)))
      (fun z => assemble M (diffusion_terms M false (D0_of m) (ED_of m) (fun _ => 0) u un v (T_T T) None z)))
  = integral M DxAll (fun p => D p * grd (u p) 0 * grd (v p) 0).
Proof using Type.
  intros [Hnd Hc] HT HD Hnum.
  rewrite <- total_cartesian, <- (sum_materials_total M (BalanceSpec.all_ids ms)) by auto.
  unfold BalanceSpec.all_ids. rewrite sum_over_flat_map. apply sum_over_ext. intros m Hm. apply sum_over_ext. intros z Hz.
  rewrite total_in_cartesian. unfold diffusion_terms. cbv zeta. cbn [q_type segment app]. rewrite assemble_cons, assemble_nil, Rplus_0_r.
  cbn [fst snd]. apply integral_ext. intros p Hp. cbn [q_dim segment]. rewrite dot1. apply in_points_cells in Hp as [Hp Ez].
  destruct (Hnum m Hm) as [H0 H1]. rewrite (HD m _ _ p Hm H0 H1); [|now left|now rewrite Ez].
  rewrite arrhenius_model by (apply HT; now left). reflexivity.
Qed.

(** One element: its flux enters the equations of its two nodes. *)
Lemma element_flux D x i e : (e < K)%nat ->
  sum_over rule (fun q => length_of X e * snd q * (D (Cell e (fst q) (snd q)) * grd (span N phi x (Cell e (fst q) (snd q))) 0
                                                   * grd (phi i (Cell e (fst q) (snd q))) 0))
  = (if Nat.eqb i (S e) then conductance X rule D e * (x (S e) - x e) else 0)
    - (if Nat.eqb i e then conductance X rule D e * (x (S e) - x e) else 0).
Proof using All.
  intros He. pose proof (length_pos K X HX e He) as Hh.
  rewrite (sum_over_ext _ _ (fun q => (if Nat.eqb i e then -1 else if Nat.eqb i (S e) then 1 else 0) * (x (S e) - x e) / length_of X e
     * (snd q * D (Cell e (fst q) (snd q))))).
  - rewrite sum_over_scale. unfold conductance, sum_over.
    destruct (Nat.eqb_spec i e) as [E|E]; destruct (Nat.eqb_spec i (S e)) as [E'|E']; try lia; field; lra.
  - intros q Hq.
    assert (Hp : point M (Cell e (fst q) (snd q))) by (left; apply segment_cells; eauto).
    destruct (span_segment K X rule vol left right HK Hrule x _ Hp) as [_ Hg]. rewrite Hg. cbn [element linear grd].
    destruct (Nat.eqb i e); destruct (Nat.eqb i (S e)); field; lra.
Qed.

Lemma seq_up (f : nat -> R) i : (i < S K)%nat ->
  rsum (map (fun e => if Nat.eqb i (S e) then f e else 0) (seq 0 K)) = match i with O => 0 | S j => f j end.
Proof using HK.
  intros Hi. destruct i as [|j]; [apply rsum_map_zero; reflexivity|].
  rewrite (rsum_map_ext _ (fun e => if Nat.eqb e j then f e else 0)); [apply rsum_delta; lia|].
  intros e _. cbn [Nat.eqb]. now rewrite Nat.eqb_sym.
Qed.
Lemma seq_down (f : nat -> R) i : (i < S K)%nat ->
  rsum (map (fun e => if Nat.eqb i e then f e else 0) (seq 0 K)) = if Nat.eqb i K then 0 else f i.
Proof using HK.
  intros Hi. destruct (Nat.eqb_spec i K) as [->|Hne].
  - apply rsum_map_zero. intros e He. apply in_seq in He. destruct (Nat.eqb_spec K e); [lia|reflexivity].
  - rewrite (rsum_map_ext _ (fun e => if Nat.eqb e i then f e else 0)); [apply rsum_delta; lia|]. intros e _. now rewrite Nat.eqb_sym.
Qed.

(** Flux conditions act on the equations of the two ends. *)
Lemma fluxes_ends mb T x i : mb_class mb = ClassMobile -> positive_temperature M T ->
  (forall b, In b (mb_bcs mb) -> match b with BSurf _ => False | _ => True end) -> (i < S K)%nat ->
  assemble M (create_fluxes_form M (mkMobile (mb_class mb) (span N phi x) (mb_previous mb) (phi i) (mb_sources mb) (mb_bcs mb)) T None)
  = - (if Nat.eqb i 0 then entering K X rule vol left right (mb_bcs mb) T (x 0%nat) LeftEnd else 0)
    - (if Nat.eqb i K then entering K X rule vol left right (mb_bcs mb) T (x K) RightEnd else 0).
Proof using All.
  intros Hcl HT Hb Hi. unfold create_fluxes_form. rewrite assemble_flat_map. cbn [mb_bcs]. unfold entering.
  assert (Hone : forall b, In b (mb_bcs mb) ->
    assemble M (flux_terms M (mkMobile (mb_class mb) (span N phi x) (mb_previous mb) (phi i) (mb_sources mb) (mb_bcs mb)) T None b)
    = - (if Nat.eqb i 0 then 1 else 0) * match b with BFlux false surfaces f =>
          rsum (map (fun z => if Z.eqb (q_surface M LeftEnd) z then flux_into f (val (T_T T LeftEnd)) (x 0%nat) LeftEnd else 0) surfaces) | _ => 0 end
      + - (if Nat.eqb i K then 1 else 0) * match b with BFlux false surfaces f =>
          rsum (map (fun z => if Z.eqb (q_surface M RightEnd) z then flux_into f (val (T_T T RightEnd)) (x K) RightEnd else 0) surfaces) | _ => 0 end).
  { intros b Hin. specialize (Hb b Hin). destruct b as [[|] l f|s]; cbn [flux_terms]; [rewrite assemble_nil; ring| |contradiction].
    rewrite assemble_map. unfold sum_over. cbn [fst snd].
    rewrite <- !rsum_map_scale, <- rsum_map_plus. apply rsum_map_ext. intros z _.
    assert (HL : point M LeftEnd) by (right; now left). assert (HR : point M RightEnd) by (right; right; now left).
    assert (FL : flux_form f (T_T T) (mobile_concentration M (mkMobile (mb_class mb) (span N phi x) (mb_previous mb) (phi i) (mb_sources mb) (mb_bcs mb))) LeftEnd
      = flux_into f (val (T_T T LeftEnd)) (x 0%nat) LeftEnd).
    { apply (flux_form_into f (T_T T) (fun _ => x 0%nat)); [now apply HT|]. unfold mobile_concentration. cbn [mb_class mb_solution].
      rewrite Hcl, (proj1 (span_segment K X rule vol left right HK Hrule x _ HL)). cbn [element local]. ring. }
    assert (FR : flux_form f (T_T T) (mobile_concentration M (mkMobile (mb_class mb) (span N phi x) (mb_previous mb) (phi i) (mb_sources mb) (mb_bcs mb))) RightEnd
      = flux_into f (val (T_T T RightEnd)) (x K) RightEnd).
    { apply (flux_form_into f (T_T T) (fun _ => x K)); [now apply HT|]. unfold mobile_concentration. cbn [mb_class mb_solution].
      rewrite Hcl, (proj1 (span_segment K X rule vol left right HK Hrule x _ HR)). cbn [element local].
      replace (S (K - 1)) with K by lia. ring. }
    assert (PL : val (phi i LeftEnd) = if Nat.eqb i 0 then 1 else 0).
    { cbn [linear val element local]. destruct (Nat.eqb i 0); [ring|]. destruct (Nat.eqb i 1); reflexivity. }
    assert (PR : val (phi i RightEnd) = if Nat.eqb i K then 1 else 0).
    { cbn [linear val element local]. replace (S (K - 1)) with K by lia.
      destruct (Nat.eqb_spec i (K - 1)) as [->|]; [destruct (Nat.eqb_spec (K - 1) K); [lia|ring]|]. destruct (Nat.eqb i K); reflexivity. }
    unfold integral, points. cbn [q_facets segment filter mb_test]. cbn [q_surface segment].
    destruct (Z.eqb left z); destruct (Z.eqb right z); cbn [map]; rewrite ?rsum_cons, ?rsum_nil; cbn [q_weight segment];
      rewrite ?FL, ?FR, ?PL, ?PR; ring. }
  rewrite (sum_over_ext _ _ _ Hone), sum_over_plus, !sum_over_scale. unfold sum_over.
  destruct (Nat.eqb i 0); destruct (Nat.eqb i K); ring.
Qed.

(** The residual of node i: flux from the left minus flux to the right minus what enters. *)
Lemma steady_residual mb ms T D r x i : mb_class mb = ClassMobile -> mb_sources mb = [] ->
  (forall b, In b (mb_bcs mb) -> match b with BSurf _ => False | _ => True end) ->
  covered M ms -> positive_temperature M T -> diffusivity K X rule vol left right ms T D ->
  hydrogen_residual M mb ms T None false N phi r -> (i < S K)%nat ->
  r x i = match i with O => 0 | S j => conductance X rule D j * (x i - x j) end
          - (if Nat.eqb i K then 0 else conductance X rule D i * (x (S i) - x i))
          - (if Nat.eqb i 0 then entering K X rule vol left right (mb_bcs mb) T (x 0%nat) LeftEnd else 0)
          - (if Nat.eqb i K then entering K X rule vol left right (mb_bcs mb) T (x K) RightEnd else 0).
Proof using All.
  intros Hcl Hsrc Hb Hcov HT HD Hr Hi. destruct (Hr x i Hi) as (F & HF & <-).
  destruct (hydrogen_split M (mkMobile (mb_class mb) (span N phi x) (mb_previous mb) (phi i) (mb_sources mb) (mb_bcs mb)) ms T None F Hcl HF) as [Hnum ->].
  rewrite fluxes_ends by assumption. cbn [mb_solution mb_previous mb_test]. rewrite (diffusion_all ms T D) by assumption.
  unfold create_mobile_source_form. cbn [mb_sources]. rewrite Hsrc. cbn [flat_map]. rewrite assemble_nil, all_elements.
  rewrite (sum_over_ext _ _ (fun e => (if Nat.eqb i (S e) then conductance X rule D e * (x (S e) - x e) else 0)
    - (if Nat.eqb i e then conductance X rule D e * (x (S e) - x e) else 0))).
  - rewrite <- sum_over_minus. unfold sum_over. rewrite seq_up, seq_down by exact Hi.
    destruct i as [|j]; ring.
  - intros e He. apply in_seq in He. apply element_flux. lia.
Qed.

Lemma conductance_pos D e : (e < K)%nat -> (forall p, In p (q_cells M) -> 0 < D p) -> 0 < conductance X rule D e.
Proof using All.
  intros He HD. unfold conductance. apply Rdiv_lt_0_compat; [|now apply (length_pos K X HX)].
  destruct (rule_inner rule Hrule) as (q0 & Hq0 & Hw & _).
  assert (Hc : forall q, In q rule -> 0 < D (Cell e (fst q) (snd q))) by (intros q Hq; apply HD, segment_cells; eauto).
  assert (-1 * rsum (map (fun q => snd q * D (Cell e (fst q) (snd q))) rule) < 0); [|lra].
  apply (rsum_sign_strict (-1) _ rule q0); [|exact Hq0|].
  - intros q Hq. destruct Hrule as [Hr _]. specialize (Hr q Hq). specialize (Hc q Hq). nra.
  - specialize (Hc q0 Hq0). nra.
Qed.
End Permeation.
