(** Ordered data give ordered solutions (C97). *)
From Coq Require Import Reals ZArith List Bool Arith Lra Lia.
From Verif Require Import Base.Exc Base.Dual Model.Materials Model.Laws Model.Theta Model.Forms Model.NonlinearProblem
  Spec.PhysSpec Spec.BalanceSpec Spec.NewtonSpec Spec.MaximumSpec Spec.OrderSpec Proofs.LawProofs Proofs.ThetaProofs Proofs.FormProofs
  Proofs.MergeProofs Proofs.NewtonProofs Proofs.MaximumProofs.
Import ListNotations.
Local Open Scope R_scope.
Local Open Scope list_scope.

(** The unknown where the first solution exceeds the second most. *)
Lemma order_principle N bcs1 bcs2 r1 r2 x1 x2 : cooperative N r1 -> imposed_order N bcs1 bcs2 ->
  solves N bcs1 r1 x1 -> solves N bcs2 r2 x2 ->
  (forall i d, (i < N)%nat -> 0 < d -> r2 x2 i < r1 (fun j => x2 j + d) i) ->
  forall i, (i < N)%nat -> x1 i <= x2 i.
Proof.
  intros Hc Hb H1 H2 Hs i0 Hi0. destruct (extreme Below (fun j => x1 j - x2 j) N) as (i & Hi & Hmax); [lia|]. cbn [sg] in Hmax.
  destruct (Rle_dec (x1 i - x2 i) 0) as [Hle|Hgt]; [specialize (Hmax i0 Hi0); lra|]. exfalso.
  pose proof (H1 i Hi) as E1. pose proof (H2 i Hi) as E2. specialize (Hb i Hi). unfold problem_F in E1, E2.
  destruct (boundary_value bcs1 i) as [g1|], (boundary_value bcs2 i) as [g2|]; try contradiction; [lra|].
  specialize (Hs i (x1 i - x2 i) Hi ltac:(lra)).
  pose proof (Hc x1 (fun j => x2 j + (x1 i - x2 i)) i Hi ltac:(lra)) as Hle.
  specialize (Hle (fun j Hj => ltac:(specialize (Hmax j Hj); lra))). lra.
Qed.

Lemma sum_over_order {A} (R' : A -> A -> Prop) (f g : A -> R) l1 l2 :
  Forall2 R' l1 l2 -> (forall a b, In b l2 -> R' a b -> g b <= f a) -> sum_over l2 g <= sum_over l1 f.
Proof.
  intros H Hfg. induction H as [|a b l1 l2 Hab H IH]; [unfold sum_over; cbn; lra|]. rewrite !sum_over_cons.
  pose proof (Hfg a b (or_introl eq_refl) Hab). specialize (IH (fun a b Hb => Hfg a b (or_intror Hb))). lra.
Qed.

Lemma sum_over_add {A} (l : list A) f g : sum_over l (fun a => f a + g a) = sum_over l f + sum_over l g.
Proof. apply rsum_map_plus. Qed.

Section General.
Context {P : Type}.
Implicit Types (M : mesh P).

Lemma integral_le M mm (e f : P -> R) : (forall p, point M p -> 0 <= q_weight M p) ->
  (forall p, In p (points M mm) -> e p <= f p) -> integral M mm e <= integral M mm f.
Proof.
  intros Hw H. assert (1 * integral M mm (fun p => e p + - f p) <= 0).
  { apply integral_sign; [exact Hw|]. intros p Hp. specialize (H p Hp). lra. }
  rewrite integral_plus, integral_opp in *. lra.
Qed.

Lemma dot_ext d f f' g : (forall i, (i < d)%nat -> f i = f' i) -> dot d f g = dot d f' g.
Proof. intros H. unfold dot. apply rsum_map_ext. intros i Hi. apply in_seq in Hi. rewrite H by lia. reflexivity. Qed.

Lemma span_shift M N phi x d p : nonnegative_basis M N phi ->
  (point M p -> val (span N phi (fun j => x j + d) p) = val (span N phi x p) + d) /\
  (In p (q_cells M) -> forall k, grd (span N phi (fun j => x j + d) p) k = grd (span N phi x p) k).
Proof.
  intros (_ & _ & H1 & H0). cbn [span val grd]. split.
  - intros Hp. rewrite (rsum_map_ext _ (fun i => x i * val (phi i p) + d * val (phi i p))) by (intros; ring).
    rewrite rsum_map_plus, rsum_map_scale, (H1 p Hp). ring.
  - intros Hp k. rewrite (rsum_map_ext _ (fun i => x i * grd (phi i p) k + d * grd (phi i p) k)) by (intros; ring).
    rewrite rsum_map_plus, rsum_map_scale, (H0 p k Hp). ring.
Qed.

(** Diffusion only sees the gradients; the rate of change sees the difference. *)
Lemma diffusion_shift M D0 ED (u w un1 un2 v T : field P) dt z d :
  (forall p, In p (points M (Dx z)) -> val (u p) = val (w p) + d /\ forall k, grd (u p) k = grd (w p) k) ->
  assemble M (diffusion_terms M false D0 ED (fun _ => 0) u un1 v T (Some dt) z)
  = assemble M (diffusion_terms M false D0 ED (fun _ => 0) w un2 v T (Some dt) z)
    + integral M (Dx z) (fun p => (d + (val (un2 p) - val (un1 p))) / dt * val (v p)).
Proof.
  intros H. unfold diffusion_terms. cbv zeta. rewrite !assemble_app, !assemble_cons, !assemble_nil. cbn [fst snd].
  rewrite (integral_ext M (Dx z) (fun p => (val (u p) - val (un1 p)) / dt * val (v p))
    (fun p => (val (w p) - val (un2 p)) / dt * val (v p) + (d + (val (un2 p) - val (un1 p))) / dt * val (v p))).
  2:{ intros p Hp. destruct (H p Hp) as [-> _]. unfold Rdiv. ring. }
  rewrite integral_plus.
  match goal with |- _ + ?y = _ + ?y' + _ => assert (Hy : y = y'); [|rewrite Hy; ring] end.
  destruct (q_type M); rewrite !assemble_cons, !assemble_nil; cbn [fst snd]; f_equal; apply integral_ext; intros p Hp; cbv beta; destruct (H p Hp) as [_ Hg].
  - apply dot_ext. intros i _. now rewrite Hg.
  - f_equal. apply dot_ext. intros i _. now rewrite Hg.
  - f_equal. apply dot_ext. intros i _. apply Hg.
Qed.

Lemma hydrogen_shift lo M mb1 mb2 ms T dt N phi r1 r2 x d i :
  nonnegative_basis M N phi -> seen M ms N phi -> positive_temperature M T -> 0 < dt -> data_order lo M T mb1 mb2 ->
  hydrogen_residual M mb1 ms T (Some dt) false N phi r1 -> hydrogen_residual M mb2 ms T (Some dt) false N phi r2 ->
  (forall j, (j < N)%nat -> lo <= x j) -> (i < N)%nat -> 0 < d -> r2 x i < r1 (fun j => x j + d) i.
Proof.
  intros HB Hseen HT Hdt (Hc1 & Hc2 & Hprev & Hsrc & Hbc) Hr1 Hr2 Hlo Hi Hd.
  destruct (Hr1 (fun j => x j + d) i Hi) as (F1 & HF1 & <-). destruct (Hr2 x i Hi) as (F2 & HF2 & <-).
  destruct (hydrogen_split M (mkMobile (mb_class mb1) (span N phi (fun j => x j + d)) (mb_previous mb1) (phi i) (mb_sources mb1) (mb_bcs mb1)) ms T (Some dt) F1 Hc1 HF1) as [_ ->].
  destruct (hydrogen_split M (mkMobile (mb_class mb2) (span N phi x) (mb_previous mb2) (phi i) (mb_sources mb2) (mb_bcs mb2)) ms T (Some dt) F2 Hc2 HF2) as [_ ->].
  cbn [mb_solution mb_previous mb_test].
  assert (Hsp : forall p, point M p -> lo <= val (span N phi x p)).
  { intros p Hp. destruct HB as (_ & Hphi & H1 & _). cbn [span val].
    rewrite <- (Rmult_1_r lo), <- (H1 p Hp), <- rsum_map_scale.
    assert (1 * rsum (map (fun i => lo * val (phi i p) + - (x i * val (phi i p))) (seq 0 N)) <= 0).
    { apply rsum_sign. intros j Hj. apply in_seq in Hj. specialize (Hlo j ltac:(lia)). pose proof (Hphi j p Hp). nra. }
    rewrite rsum_map_plus, rsum_map_opp in *. lra. }
  pose proof (fun p => span_shift M N phi x d p HB) as Hsh. destruct HB as (Hw & Hphi & H1 & H0).
  assert (Hinv : 0 < / dt) by now apply Rinv_0_lt_compat.
  set (u := span N phi (fun j => x j + d)) in *. set (w := span N phi x) in *.
  assert (Hpt : forall z p, In p (points M (Dx z)) ->
    (-1) * ((d + (val (mb_previous mb2 p) - val (mb_previous mb1 p))) / dt * val (phi i p)) <= 0 /\
    (0 < val (phi i p) -> (-1) * ((d + (val (mb_previous mb2 p) - val (mb_previous mb1 p))) / dt * val (phi i p)) < 0)).
  { intros z p Hp. pose proof (Hphi i p (points_point _ _ _ Hp)). cbn [points] in Hp. apply filter_In in Hp. destruct Hp as [Hp _].
    specialize (Hprev p Hp). assert (0 < (d + (val (mb_previous mb2 p) - val (mb_previous mb1 p))) / dt) by (unfold Rdiv; nra).
    split; [nra|intros; nra]. }
  assert (Hdz : forall m z, assemble M (diffusion_terms M false (D0_of m) (ED_of m) (fun _ => 0) u (mb_previous mb1) (phi i) (T_T T) (Some dt) z)
    = assemble M (diffusion_terms M false (D0_of m) (ED_of m) (fun _ => 0) w (mb_previous mb2) (phi i) (T_T T) (Some dt) z)
      + integral M (Dx z) (fun p => (d + (val (mb_previous mb2 p) - val (mb_previous mb1 p))) / dt * val (phi i p))).
  { intros m z. apply diffusion_shift. intros p Hp. destruct (Hsh p) as [Hv Hg]. split; [apply Hv; eapply points_point; exact Hp|].
    apply Hg. cbn [points] in Hp. now apply filter_In in Hp. }
  assert (Hvol : sum_over ms (fun m => sum_over (ids (m_id (attrs m))) (fun z =>
      assemble M (diffusion_terms M false (D0_of m) (ED_of m) (fun _ => 0) w (mb_previous mb2) (phi i) (T_T T) (Some dt) z)))
    < sum_over ms (fun m => sum_over (ids (m_id (attrs m))) (fun z =>
      assemble M (diffusion_terms M false (D0_of m) (ED_of m) (fun _ => 0) u (mb_previous mb1) (phi i) (T_T T) (Some dt) z)))).
  { rewrite (sum_over_ext ms (fun m => sum_over (ids (m_id (attrs m))) (fun z =>
        assemble M (diffusion_terms M false (D0_of m) (ED_of m) (fun _ => 0) u (mb_previous mb1) (phi i) (T_T T) (Some dt) z)))
      (fun m => sum_over (ids (m_id (attrs m))) (fun z =>
        assemble M (diffusion_terms M false (D0_of m) (ED_of m) (fun _ => 0) w (mb_previous mb2) (phi i) (T_T T) (Some dt) z))
      + sum_over (ids (m_id (attrs m))) (fun z => integral M (Dx z) (fun p => (d + (val (mb_previous mb2 p) - val (mb_previous mb1 p))) / dt * val (phi i p))))).
    2:{ intros m _. unfold sum_over. rewrite <- rsum_map_plus. apply rsum_map_ext. intros z _. apply Hdz. }
    rewrite sum_over_add.
    assert ((-1) * sum_over ms (fun m => sum_over (ids (m_id (attrs m))) (fun z => integral M (Dx z) (fun p => (d + (val (mb_previous mb2 p) - val (mb_previous mb1 p))) / dt * val (phi i p)))) < 0).
    2:{ lra. }
    destruct (Hseen i Hi) as (m0 & p & Hm0 & Hz & Hp & Hwp & Hpp).
    apply (rsum_sign_strict _ _ _ m0); [|exact Hm0|].
    - intros m1 _. apply rsum_sign. intros z _. apply integral_sign; [exact Hw|]. intros q Hq. now apply (Hpt z).
    - apply (rsum_sign_strict _ _ _ (q_volume M p)); [|exact Hz|].
      + intros z _. apply integral_sign; [exact Hw|]. intros q Hq. now apply (Hpt z).
      + assert (Hin : In p (points M (Dx (q_volume M p)))) by (cbn [points]; apply filter_In; split; [exact Hp|apply Z.eqb_refl]).
        apply (integral_sign_strict M _ _ _ p); [exact Hw| |exact Hin|exact Hwp|].
        * intros q Hq. now apply (Hpt (q_volume M p)).
        * now apply (Hpt (q_volume M p)). }
  assert (HS : assemble M (create_mobile_source_form M (mkMobile (mb_class mb2) w (mb_previous mb2) (phi i) (mb_sources mb2) (mb_bcs mb2)))
    <= assemble M (create_mobile_source_form M (mkMobile (mb_class mb1) u (mb_previous mb1) (phi i) (mb_sources mb1) (mb_bcs mb1)))).
  { unfold create_mobile_source_form. rewrite !assemble_flat_map. cbn [mb_sources].
    apply (sum_over_order (source_order lo M)); [exact Hsrc|]. intros s1 s2 _ [Hv Ho].
    unfold mobile_source_terms. cbv zeta. rewrite !assemble_map, <- Hv.
    apply Rminus_le. rewrite sum_over_minus, <- (Rmult_1_l (sum_over _ _)). apply rsum_sign. intros z Hz. rewrite Rmult_1_l. cbn [fst snd mb_test].
    apply Rle_minus. apply integral_le; [exact Hw|]. intros p Hp.
    pose proof (Hphi i p (points_point _ _ _ Hp)) as Hpp. pose proof (points_point _ _ _ Hp) as Hpo. destruct (Hsh p) as [Hvp _]. specialize (Hvp Hpo).
    cbn [points] in Hp. apply filter_In in Hp. destruct Hp as [Hp Hpz]. apply Z.eqb_eq in Hpz.
    specialize (Ho p (val (w p)) d Hp ltac:(now rewrite Hpz) (Hsp p Hpo) ltac:(lra)). unfold brings in Ho.
    unfold decay_form, mobile_concentration. cbn [mb_class mb_solution]. rewrite Hc1, Hc2.
    destruct (s_decay s1), (s_decay s2); cbv beta; rewrite ?Hvp; nra. }
  assert (HF : assemble M (create_fluxes_form M (mkMobile (mb_class mb2) w (mb_previous mb2) (phi i) (mb_sources mb2) (mb_bcs mb2)) T (Some dt))
    <= assemble M (create_fluxes_form M (mkMobile (mb_class mb1) u (mb_previous mb1) (phi i) (mb_sources mb1) (mb_bcs mb1)) T (Some dt))).
  { unfold create_fluxes_form. rewrite !assemble_flat_map. cbn [mb_bcs].
    apply (sum_over_order (bc_order lo M T)); [exact Hbc|]. intros b1 b2 _ Ho.
    destruct b1 as [[|] l1 f1|k1], b2 as [[|] l2 f2|k2]; cbn [bc_order flux_terms] in *; try contradiction; [rewrite assemble_nil; lra|].
    destruct Ho as [<- Ho]. rewrite !assemble_map.
    apply Rminus_le. rewrite sum_over_minus, <- (Rmult_1_l (sum_over _ _)). apply rsum_sign. intros z Hz. rewrite Rmult_1_l. cbn [fst snd mb_test].
    apply Rle_minus. apply integral_le; [exact Hw|]. intros p Hp.
    pose proof (Hphi i p (points_point _ _ _ Hp)) as Hpp. pose proof (points_point _ _ _ Hp) as Hpo. destruct (Hsh p) as [Hvp _]. specialize (Hvp Hpo).
    destruct (HT p Hpo) as [HTp _].
    cbn [points] in Hp. apply filter_In in Hp. destruct Hp as [Hp Hpz]. apply Z.eqb_eq in Hpz.
    specialize (Ho p (val (w p)) d Hp ltac:(now rewrite Hpz) (Hsp p Hpo) ltac:(lra)).
    rewrite (flux_form_into f1 (T_T T) (fun _ => val (w p) + d) _ p HTp), (flux_form_into f2 (T_T T) (fun _ => val (w p)) _ p HTp);
      [nra| |]; unfold mobile_concentration; cbn [mb_class mb_solution]; [now rewrite Hc2|now rewrite Hc1]. }
  lra.
Qed.

Lemma span_lower M N phi x lo p : nonnegative_basis M N phi -> (forall j, (j < N)%nat -> lo <= x j) -> point M p ->
  lo <= val (span N phi x p).
Proof.
  intros (_ & Hphi & H1 & _) Hlo Hp. cbn [span val].
  rewrite <- (Rmult_1_r lo), <- (H1 p Hp), <- rsum_map_scale.
  assert (1 * rsum (map (fun i => lo * val (phi i p) + - (x i * val (phi i p))) (seq 0 N)) <= 0).
  { apply rsum_sign. intros j Hj. apply in_seq in Hj. specialize (Hlo j ltac:(lia)). pose proof (Hphi j p Hp). nra. }
  rewrite rsum_map_plus, rsum_map_opp in *. lra.
Qed.

(** Heat, with constant properties. *)
Lemma heat_shift lo M dt T1 T2 ms src1 src2 b1 b2 N phi r1 r2 x d i :
  nonnegative_basis M N phi -> seen M ms N phi -> 0 < dt -> fixed_thermal ms ->
  (forall p, In p (q_cells M) -> val (T1 p) <= val (T2 p)) ->
  Forall2 (heat_source_order M) src1 src2 -> Forall2 (heat_bc_order lo M) b1 b2 ->
  heat_residual M true dt T1 ms src1 b1 N phi r1 -> heat_residual M true dt T2 ms src2 b2 N phi r2 ->
  (forall j, (j < N)%nat -> lo <= x j) -> (i < N)%nat -> 0 < d -> r2 x i < r1 (fun j => x j + d) i.
Proof.
  intros HB Hseen Hdt Hmat Hprev Hsrc Hbc Hr1 Hr2 Hlo Hi Hd.
  destruct (Hr1 (fun j => x j + d) i Hi) as (F1 & HF1 & <-). destruct (Hr2 x i Hi) as (F2 & HF2 & <-).
  pose proof (fun p => span_lower M N phi x lo p HB Hlo) as Hsp.
  pose proof (fun p => span_shift M N phi x d p HB) as Hsh. destruct HB as (Hw & Hphi & H1 & H0).
  assert (Hinv : 0 < / dt) by now apply Rinv_0_lt_compat.
  set (u := span N phi (fun j => x j + d)) in *. set (w := span N phi x) in *.
  unfold heat_form in HF1, HF2. cbv zeta in HF1, HF2.
  match type of HF1 with bind ?x _ = _ => destruct x as [G1|e] eqn:EG1; cbn [bind] in HF1; [|discriminate] end.
  match type of HF1 with bind ?x _ = _ => destruct x as [K1|e] eqn:EK1; cbn [bind] in HF1; [|discriminate] end.
  match type of HF2 with bind ?x _ = _ => destruct x as [G2|e] eqn:EG2; cbn [bind] in HF2; [|discriminate] end.
  match type of HF2 with bind ?x _ = _ => destruct x as [K2|e] eqn:EK2; cbn [bind] in HF2; [|discriminate] end.
  apply Ok_inj in HF1. apply Ok_inj in HF2. subst F1 F2. rewrite !assemble_app.
  assert (HS : assemble M (flat_map (fun s0 => map (fun vol => (Dx vol, fun p => - s_value s0 p * val (phi i p))) (ids (s_volume s0))) src2)
    <= assemble M (flat_map (fun s0 => map (fun vol => (Dx vol, fun p => - s_value s0 p * val (phi i p))) (ids (s_volume s0))) src1)).
  { rewrite !assemble_flat_map. apply (sum_over_order (heat_source_order M)); [exact Hsrc|]. intros s1 s2 _ [Hv Ho].
    rewrite !assemble_map, <- Hv.
    apply Rminus_le. rewrite sum_over_minus, <- (Rmult_1_l (sum_over _ _)). apply rsum_sign. intros z Hz. rewrite Rmult_1_l. cbn [fst snd].
    apply Rle_minus. apply integral_le; [exact Hw|]. intros p Hp. pose proof (Hphi i p (points_point _ _ _ Hp)) as Hpp.
    cbn [points] in Hp. apply filter_In in Hp. destruct Hp as [Hp Hpz]. apply Z.eqb_eq in Hpz.
    specialize (Ho p Hp ltac:(now rewrite Hpz)). nra. }
  assert (HK : assemble M K2 <= assemble M K1).
  { set (term := fun (v : field P) (b : list Z * flux P) => sum_over (fst b) (fun z => integral M (Ds z) (fun p => - match heat_flux_form (snd b) v with Ok g => g p | _ => 0 end * val (phi i p)))).
    assert (Hform : forall (v : field P) bs K, sum_forms (fun b => bind (heat_flux_form (snd b) v) (fun g => Ok (map (fun surf => (Ds surf, fun p => - g p * val (phi i p))) (fst b)))) bs = Ok K ->
      assemble M K = sum_over bs (term v)).
    { intros v bs K E. apply (sum_forms_assemble M _ (term v) bs K E). intros b K' _. unfold term.
      destruct (heat_flux_form (snd b) v) as [g|e]; cbn [bind]; [|discriminate]. intros E'. apply Ok_inj in E'. subst K'. now rewrite assemble_map. }
    rewrite (Hform u b1 K1 EK1), (Hform w b2 K2 EK2). apply (sum_over_order (heat_bc_order lo M)); [exact Hbc|].
    intros a b _ [Hv Ho]. unfold term. rewrite <- Hv.
    apply Rminus_le. rewrite sum_over_minus, <- (Rmult_1_l (sum_over _ _)). apply rsum_sign. intros z Hz. rewrite Rmult_1_l.
    apply Rle_minus. apply integral_le; [exact Hw|]. intros p Hp.
    pose proof (Hphi i p (points_point _ _ _ Hp)) as Hpp. pose proof (points_point _ _ _ Hp) as Hpo. destruct (Hsh p) as [Hvp _]. specialize (Hvp Hpo).
    cbn [points] in Hp. apply filter_In in Hp. destruct Hp as [Hp Hpz]. apply Z.eqb_eq in Hpz.
    destruct (Ho p (val (w p)) d Hp ltac:(now rewrite Hpz) (Hsp p Hpo) ltac:(lra)) as (q1 & q2 & E1 & E2 & Hq).
    assert (C : forall (f : flux P) (v : field P) q, heat_in f (val (v p)) p = Some q -> match heat_flux_form f v with Ok g => g p | _ => 0 end = q).
    { intros f v q. destruct f; cbn [heat_in heat_flux_form flux_form]; try discriminate; intros [= <-]; try reflexivity. unfold convective_form. ring. }
    rewrite <- Hvp in E1. rewrite (C _ _ _ E1), (C _ _ _ E2). nra. }
  assert (HG : assemble M G2 < assemble M G1).
  { set (term := fun (v Tn : field P) (y : mat_obj) => match heat_material_form M true dt v Tn (phi i) y with Ok K => assemble M K | _ => 0 end).
    assert (Hform : forall (v Tn : field P) K, sum_forms (heat_material_form M true dt v Tn (phi i)) ms = Ok K -> assemble M K = sum_over ms (term v Tn)).
    { intros v Tn K E. apply (sum_forms_assemble M _ (term v Tn) ms K E). intros y K' _ E'. unfold term. now rewrite E'. }
    rewrite (Hform _ _ _ EG1), (Hform _ _ _ EG2). clear Hform.
    set (C := fun y => match m_rho (attrs y), m_heat (attrs y) with Some (Const a), Some (Const b) => a * b | _, _ => 0 end).
    set (extra := fun y z => integral M (Dx z) (fun p => C y * (d + (val (T2 p) - val (T1 p))) / dt * val (phi i p))).
    rewrite (sum_over_ext ms (term u T1) (fun y => term w T2 y + sum_over (ids (m_id (attrs y))) (extra y))).
    2:{ intros y Hy. destruct (Hmat y Hy) as (k & cp & rho & Ek & Ec & Er & _ & _).
        unfold term, extra, C, heat_material_form. rewrite Ek, Ec, Er. cbn [value_at bind]. rewrite !assemble_app, !assemble_map.
        match goal with |- ?a + ?b = ?c + ?e + ?f => assert (Hb : b = e); [|rewrite Hb; assert (Ha : a = c + f); [|rewrite Ha; ring]] end.
        - apply sum_over_ext. intros z _. assert (Hg : forall p, In p (points M (Dx z)) -> forall j, grd (u p) j = grd (w p) j).
          { intros p Hp. apply (proj2 (Hsh p)). cbn [points] in Hp. now apply filter_In in Hp. }
          destruct (q_type M); cbn [fst snd]; apply integral_ext; intros p Hp.
          + apply dot_ext. intros j _. now rewrite (Hg p Hp).
          + f_equal. apply dot_ext. intros j _. now rewrite (Hg p Hp).
          + f_equal. apply dot_ext. intros j _. apply (Hg p Hp).
        - unfold sum_over. rewrite <- rsum_map_plus. apply rsum_map_ext. intros z _. cbn [fst snd]. rewrite <- integral_plus.
          apply integral_ext. intros p Hp. rewrite (proj1 (Hsh p) (points_point _ _ _ Hp)). unfold Rdiv. ring. }
    rewrite sum_over_add. clear HS HK.
    assert (Hneg : (-1) * sum_over ms (fun y => sum_over (ids (m_id (attrs y))) (extra y)) < 0); [|lra].
    assert (Hpt : forall y z p, In y ms -> In p (points M (Dx z)) ->
      (-1) * (C y * (d + (val (T2 p) - val (T1 p))) / dt * val (phi i p)) <= 0 /\
      (0 < val (phi i p) -> (-1) * (C y * (d + (val (T2 p) - val (T1 p))) / dt * val (phi i p)) < 0)).
    { intros y z p Hy Hp. pose proof (Hphi i p (points_point _ _ _ Hp)). cbn [points] in Hp. apply filter_In in Hp. destruct Hp as [Hp _].
      destruct (Hmat y Hy) as (k & cp & rho & Ek & Ec & Er & Pc & Pr). unfold C. rewrite Ec, Er.
      specialize (Hprev p Hp). assert (0 < rho * cp * (d + (val (T2 p) - val (T1 p))) / dt).
      { unfold Rdiv. apply Rmult_lt_0_compat; [|exact Hinv]. apply Rmult_lt_0_compat; [now apply Rmult_lt_0_compat|lra]. }
      split; [nra|intros; nra]. }
    destruct (Hseen i Hi) as (m0 & p & Hm0 & Hz & Hp & Hwp & Hpp).
    apply (rsum_sign_strict _ _ _ m0); [|exact Hm0|].
    - intros y Hy. apply rsum_sign. intros z _. apply integral_sign; [exact Hw|]. intros q Hq. now apply (Hpt y z).
    - apply (rsum_sign_strict _ _ _ (q_volume M p)); [|exact Hz|].
      + intros z _. apply integral_sign; [exact Hw|]. intros q Hq. now apply (Hpt m0 z).
      + assert (Hin : In p (points M (Dx (q_volume M p)))) by (cbn [points]; apply filter_In; split; [exact Hp|apply Z.eqb_refl]).
        apply (integral_sign_strict M _ _ _ p); [exact Hw| |exact Hin|exact Hwp|].
        * intros q Hq. now apply (Hpt m0 (q_volume M p)).
        * now apply (Hpt m0 (q_volume M p)). }
  lra.
Qed.
End General.
