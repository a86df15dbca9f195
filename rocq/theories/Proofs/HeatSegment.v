(** Heat transfer with linear elements on a segment: raising one temperature does not raise the residual of another (C97). *)
From Coq Require Import Reals ZArith List Bool Arith Lra Lia.
From Verif Require Import Base.Exc Base.Dual Model.Materials Model.Laws Model.Theta Model.Forms Model.NonlinearProblem
  Spec.PhysSpec Spec.BalanceSpec Spec.NewtonSpec Spec.MaximumSpec Spec.OrderSpec Proofs.LawProofs Proofs.ThetaProofs Proofs.FormProofs
  Proofs.MergeProofs Proofs.NewtonProofs Proofs.MaximumProofs Proofs.OrderProofs.
Import ListNotations.
Local Open Scope R_scope.
Local Open Scope list_scope.

Section Segment.
Variables (K : nat) (X : nat -> R) (rule : list (R * R)) (vol : nat -> Z) (left right : Z).
Hypotheses (HK : (0 < K)%nat) (HX : forall e, (e < K)%nat -> X e < X (S e)) (Hrule : exact_2 rule).
Local Notation M := (segment K X rule vol left right).
Local Notation phi := (linear K X).
Local Notation N := (S K).

Lemma element_raise e dt D C (un : field pt) x y i : (e < K)%nat -> 0 < dt -> 0 < C -> length_of X e ^ 2 <= 6 * D * dt ->
  (i < N)%nat -> y i = x i -> (forall j, (j < N)%nat -> x j <= y j) ->
  sum_over rule (fun q => length_of X e * snd q * (C * ((val (span N phi y (Cell e (fst q) (snd q))) - val (un (Cell e (fst q) (snd q)))) / dt * val (phi i (Cell e (fst q) (snd q)))
        + D * grd (span N phi y (Cell e (fst q) (snd q))) 0 * grd (phi i (Cell e (fst q) (snd q))) 0)))
  <= sum_over rule (fun q => length_of X e * snd q * (C * ((val (span N phi x (Cell e (fst q) (snd q))) - val (un (Cell e (fst q) (snd q)))) / dt * val (phi i (Cell e (fst q) (snd q)))
        + D * grd (span N phi x (Cell e (fst q) (snd q))) 0 * grd (phi i (Cell e (fst q) (snd q))) 0))).
Proof.
  intros HeK Hdt HC HD Hi Hxy Hle. pose proof (length_pos K X HX e HeK) as Hh.
  assert (Hpt : forall q, In q rule -> point M (Cell e (fst q) (snd q))).
  { intros q Hq. left. apply segment_cells; eauto. }
  set (g := fun z q => length_of X e * snd q * (C * ((val (span N phi z (Cell e (fst q) (snd q))) - val (un (Cell e (fst q) (snd q)))) / dt * val (phi i (Cell e (fst q) (snd q)))
        + D * grd (span N phi z (Cell e (fst q) (snd q))) 0 * grd (phi i (Cell e (fst q) (snd q))) 0))).
  change (sum_over rule (g y) <= sum_over rule (g x)). apply Rminus_le. rewrite sum_over_minus.
  assert (Hall : forall d, 0 <= d ->
    (forall q, In q rule -> g y q - g x q = C * (length_of X e * snd q * (d * (fst q * (1 - fst q)) / dt - D * d / length_of X e ^ 2))) ->
    sum_over rule (fun q => g y q - g x q) <= 0).
  { intros d Hd Heq. rewrite (sum_over_ext _ _ _ Heq).
    pose proof (element_coupling K X rule HX Hrule e dt d (fun _ => D) HeK Hdt Hd (fun _ _ => HD)) as Hc.
    unfold sum_over in *. rewrite rsum_map_scale. nra. }
  destruct (Nat.eq_dec i e) as [->|Hne]; [|destruct (Nat.eq_dec i (S e)) as [->|Hne2]].
  - apply (Hall (y (S e) - x (S e))). { specialize (Hle (S e) ltac:(lia)). lra. }
    intros q Hq. unfold g. destruct (span_segment K X rule vol left right HK Hrule x _ (Hpt q Hq)) as [-> Hgx].
    destruct (span_segment K X rule vol left right HK Hrule y _ (Hpt q Hq)) as [-> Hgy]. rewrite Hgx, Hgy.
    cbn [element local linear val grd]. rewrite Nat.eqb_refl, Hxy. field. split; lra.
  - apply (Hall (y e - x e)). { specialize (Hle e ltac:(lia)). lra. }
    intros q Hq. unfold g. destruct (span_segment K X rule vol left right HK Hrule x _ (Hpt q Hq)) as [-> Hgx].
    destruct (span_segment K X rule vol left right HK Hrule y _ (Hpt q Hq)) as [-> Hgy]. rewrite Hgx, Hgy.
    cbn [element local linear val grd]. destruct (Nat.eqb_spec (S e) e); [lia|]. rewrite Nat.eqb_refl, Hxy. field. split; lra.
  - apply (Hall 0); [lra|]. intros q Hq. unfold g. cbn [element linear val grd].
    destruct (Nat.eqb_spec i e); [lia|]. destruct (Nat.eqb_spec i (S e)); [lia|]. unfold Rdiv. ring.
Qed.

Lemma heat_cooperative dt T_n ms sources bcs r : 0 < dt -> fixed_thermal ms -> heat_step_large_enough K X vol ms dt ->
  heat_residual M true dt T_n ms sources bcs N phi r -> cooperative N r.
Proof.
  intros Hdt Hmat Hstep Hr x y i Hi Hxy Hle.
  destruct (Hr x i Hi) as (F & HF & <-). destruct (Hr y i Hi) as (G & HG & <-).
  unfold heat_form in HF, HG. cbv zeta in HF, HG.
  match type of HF with bind ?x _ = _ => destruct x as [F1|] eqn:EF1; cbn [bind] in HF; [|discriminate] end.
  match type of HF with bind ?x _ = _ => destruct x as [F2|] eqn:EF2; cbn [bind] in HF; [|discriminate] end.
  match type of HG with bind ?x _ = _ => destruct x as [G1|] eqn:EG1; cbn [bind] in HG; [|discriminate] end.
  match type of HG with bind ?x _ = _ => destruct x as [G2|] eqn:EG2; cbn [bind] in HG; [|discriminate] end.
  apply Ok_inj in HF. apply Ok_inj in HG. subst F G. rewrite !assemble_app.
  assert (HB : assemble M G2 = assemble M F2).
  { set (term := fun (v : field pt) (b : list Z * flux pt) => sum_over (fst b) (fun z => integral M (Ds z) (fun p => - match heat_flux_form (snd b) v with Ok g => g p | _ => 0 end * val (phi i p)))).
    assert (Hform : forall (v : field pt) L, sum_forms (fun b => bind (heat_flux_form (snd b) v) (fun g => Ok (map (fun surf => (Ds surf, fun p => - g p * val (phi i p))) (fst b)))) bcs = Ok L ->
      assemble M L = sum_over bcs (term v)).
    { intros v L E. apply (sum_forms_assemble M _ (term v) bcs L E). intros b L' _. unfold term.
      destruct (heat_flux_form (snd b) v) as [g|e]; cbn [bind]; [|discriminate]. intros E'. apply Ok_inj in E'. subst L'. now rewrite assemble_map. }
    rewrite (Hform _ _ EG2), (Hform _ _ EF2). apply sum_over_ext. intros b _. unfold term. apply sum_over_ext. intros z _. apply integral_ext. intros p Hp.
    destruct (Req_dec (val (phi i p)) 0) as [E|E]; [rewrite E; ring|]. f_equal. f_equal.
    assert (Hv : forall z0, val (span N phi z0 p) = z0 i).
    { intros z0. rewrite (proj1 (span_segment K X rule vol left right HK Hrule z0 p (points_point _ _ _ Hp))).
      clear - Hp E HK. cbn [points q_facets segment] in Hp. apply filter_In in Hp. destruct Hp as [[<-|[<-|[]]] _]; cbn [linear val element local] in *.
      + destruct (Nat.eqb_spec i 0) as [->|]; [ring|]. destruct (Nat.eqb i 1); lra.
      + destruct (Nat.eqb_spec i (K - 1)) as [->|]; [lra|]. destruct (Nat.eqb_spec i (S (K - 1))) as [->|]; [ring|lra]. }
    assert (Hs : val (span N phi y p) = val (span N phi x p)) by now rewrite !Hv.
    destruct (snd b); cbn [heat_flux_form flux_form]; try reflexivity; now rewrite Hs. }
  rewrite HB. apply Rplus_le_compat_r.
  set (term := fun (v : field pt) (m : mat_obj) => match heat_material_form M true dt v T_n (phi i) m with Ok L => assemble M L | _ => 0 end).
  assert (Hform : forall (v : field pt) L, sum_forms (heat_material_form M true dt v T_n (phi i)) ms = Ok L -> assemble M L = sum_over ms (term v)).
  { intros v L E. apply (sum_forms_assemble M _ (term v) ms L E). intros m L' _ E'. unfold term. now rewrite E'. }
  rewrite (Hform _ _ EG1), (Hform _ _ EF1). clear Hform.
  apply Rminus_le. rewrite sum_over_minus. rewrite <- (Rmult_1_l (sum_over _ _)). apply rsum_sign. intros m Hm. rewrite Rmult_1_l.
  destruct (Hmat m Hm) as (k & cp & rho & Ek & Ec & Er & Pc & Pr).
  assert (PC : 0 < rho * cp) by now apply Rmult_lt_0_compat.
  assert (Ht : forall v : field pt, term v m = sum_over (ids (m_id (attrs m))) (fun z => integral M (Dx z)
    (fun p => rho * cp * ((val (v p) - val (T_n p)) / dt * val (phi i p) + k / (rho * cp) * grd (v p) 0 * grd (phi i p) 0)))).
  { intros v. unfold term, heat_material_form. rewrite Ek, Ec, Er. cbn [value_at bind q_type segment]. rewrite assemble_app, !assemble_map.
    unfold sum_over. rewrite <- rsum_map_plus. apply rsum_map_ext. intros z _. cbn [fst snd]. rewrite <- integral_plus. apply integral_ext. intros p _.
    cbn [q_dim segment]. rewrite dot1. field. split; [lra|]. split; lra. }
  rewrite !Ht, sum_over_minus, <- (Rmult_1_l (sum_over _ _)). apply rsum_sign. intros z Hz.
  rewrite Rmult_1_l, !integral_elements, sum_over_minus, <- (Rmult_1_l (sum_over _ _)). apply rsum_sign. intros e He. apply in_seq in He.
  rewrite Rmult_1_l. destruct (Z.eqb_spec (vol e) z) as [Ez|]; [|lra]. apply Rle_minus.
  apply element_raise; auto; [lia|].
  assert (Hs := Hstep m k cp rho e Hm Ek Ec Er ltac:(lia) ltac:(now rewrite Ez)).
  apply (Rmult_le_reg_r (rho * cp)); [exact PC|]. replace (6 * (k / (rho * cp)) * dt * (rho * cp)) with (6 * k * dt) by (field; lra). exact Hs.
Qed.
End Segment.
