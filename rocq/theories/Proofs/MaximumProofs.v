(** Bounds on the solution of a step (C92). *)
From Coq Require Import Reals ZArith List Bool Arith Lra Lia.
From Verif Require Import Base.Exc Base.Dual Model.Materials Model.Laws Model.Theta Model.Forms Model.NonlinearProblem
  Spec.PhysSpec Spec.BalanceSpec Spec.NewtonSpec Spec.MaximumSpec Proofs.LawProofs Proofs.ThetaProofs Proofs.FormProofs Proofs.MergeProofs Proofs.NewtonProofs.
Import ListNotations.
Local Open Scope R_scope.
Local Open Scope list_scope.

(** 1 above, -1 below. *)
Definition sg (s : side) : R := match s with Above => 1 | Below => -1 end.
Lemma within_sg s m c : within s m c <-> 0 <= sg s * (c - m).
Proof. destruct s; cbn; split; intros; lra. Qed.
Lemma not_within_sg s m c : ~ within s m c -> sg s * (c - m) < 0.
Proof. rewrite within_sg. lra. Qed.
Lemma pushes_sg s q : pushes s q -> 0 <= sg s * q.
Proof. destruct s; cbn; intros; lra. Qed.

Lemma boundary_in bcs i g : boundary_value bcs i = Some g -> exists b q, In b bcs /\ In q b /\ snd q = g.
Proof.
  induction bcs as [|b r IH]; cbn [boundary_value]; [discriminate|]. destruct (boundary_value r i) as [h|] eqn:E.
  - intros H. injection H as <-. destruct (IH eq_refl) as (b' & q & Hb & Hq & He). exists b', q. split; [now right|auto].
  - intros H. destruct (find _ b) as [q|] eqn:Ef; [|discriminate]. injection H as <-. apply find_some in Ef.
    exists b, q. split; [now left|]. split; [apply Ef|reflexivity].
Qed.
(** The unknown furthest on the wrong side. *)
Lemma extreme s (x : nat -> R) N : (0 < N)%nat -> exists i, (i < N)%nat /\ forall j, (j < N)%nat -> 0 <= sg s * (x j - x i).
Proof.
  induction N as [|N IH]; [lia|]. intros _. destruct N as [|N].
  - exists O. split; [lia|]. intros j Hj. replace j with O by lia. lra.
  - destruct IH as (i & Hi & H); [lia|]. destruct (Rle_dec 0 (sg s * (x (S N) - x i))) as [Hl|Hl].
    + exists i. split; [lia|]. intros j Hj. destruct (Nat.eq_dec j (S N)) as [->|]; [exact Hl|]. apply H. lia.
    + exists (S N). split; [lia|]. intros j Hj. destruct (Nat.eq_dec j (S N)) as [->|]; [lra|].
      specialize (H j ltac:(lia)). lra.
Qed.

Lemma comparison s m N bcs r x : cooperative N r ->
  (forall i c, (i < N)%nat -> ~ within s m c -> sg s * r (fun _ => c) i < 0) ->
  imposed_within s m bcs -> solves N bcs r x -> forall i, (i < N)%nat -> within s m (x i).
Proof.
  intros Hc Hr Hb Hx i0 Hi0. destruct (extreme s x N) as (i & Hi & Hmin); [lia|].
  assert (Hw : within s m (x i)).
  { destruct (Rle_dec 0 (sg s * (x i - m))) as [H|H]; [now apply within_sg|]. exfalso.
    assert (Hn : ~ within s m (x i)) by (rewrite within_sg; exact H).
    pose proof (Hx i Hi) as HF. unfold problem_F in HF. destruct (boundary_value bcs i) as [g|] eqn:E.
    - destruct (boundary_in _ _ _ E) as (b & q & Hb' & Hq & Hg). specialize (Hb b q Hb' Hq). rewrite Hg in Hb.
      apply Hn. replace (x i) with g by lra. exact Hb.
    - specialize (Hr i (x i) Hi Hn). destruct s; cbn [sg] in Hmin, Hr.
      + pose proof (Hc (fun _ => x i) x i Hi eq_refl) as Hle. specialize (Hle (fun j Hj => ltac:(specialize (Hmin j Hj); lra))). lra.
      + pose proof (Hc x (fun _ => x i) i Hi eq_refl) as Hle. specialize (Hle (fun j Hj => ltac:(specialize (Hmin j Hj); lra))). lra. }
  apply within_sg. apply within_sg in Hw. specialize (Hmin i0 Hi0). lra.
Qed.

(** Signs of sums. *)
Lemma rsum_sign {A} k (f : A -> R) l : (forall x, In x l -> k * f x <= 0) -> k * rsum (map f l) <= 0.
Proof.
  induction l as [|x l IH]; intros H; cbn [map]; rewrite ?rsum_nil, ?rsum_cons; [lra|].
  pose proof (H x (or_introl eq_refl)). specialize (IH (fun y Hy => H y (or_intror Hy))). lra.
Qed.
Lemma rsum_sign_strict {A} k (f : A -> R) l x : (forall x, In x l -> k * f x <= 0) -> In x l -> k * f x < 0 -> k * rsum (map f l) < 0.
Proof.
  intros H Hx Hs. induction l as [|y l IH]; [destruct Hx|]. cbn [map]. rewrite rsum_cons.
  pose proof (rsum_sign k f l (fun y Hy => H y (or_intror Hy))). destruct Hx as [->|Hx]; [lra|].
  pose proof (H y (or_introl eq_refl)). specialize (IH (fun y Hy => H y (or_intror Hy)) Hx). lra.
Qed.

Section General.
Context {P : Type}.
Implicit Types (M : mesh P).

Lemma points_point M mm p : In p (points M mm) -> point M p.
Proof. destruct mm; cbn [points]; rewrite ?filter_In; unfold point; tauto. Qed.
Lemma integral_sign M mm (e : P -> R) k : (forall p, point M p -> 0 <= q_weight M p) ->
  (forall p, In p (points M mm) -> k * e p <= 0) -> k * integral M mm e <= 0.
Proof.
  intros Hw He. apply rsum_sign. intros p Hp. replace (k * (q_weight M p * e p)) with (q_weight M p * (k * e p)) by ring.
  pose proof (Hw p (points_point M mm p Hp)). specialize (He p Hp). nra.
Qed.
Lemma integral_sign_strict M mm (e : P -> R) k p : (forall p, point M p -> 0 <= q_weight M p) ->
  (forall p, In p (points M mm) -> k * e p <= 0) -> In p (points M mm) -> 0 < q_weight M p -> k * e p < 0 -> k * integral M mm e < 0.
Proof.
  intros Hw He Hp Hpos Hs. apply (rsum_sign_strict k _ _ p); [|exact Hp|nra]. intros q Hq.
  replace (k * (q_weight M q * e q)) with (q_weight M q * (k * e q)) by ring.
  pose proof (Hw q (points_point M mm q Hq)). specialize (He q Hq). nra.
Qed.

(** Numbers of a material. *)
Definition D0_of (m : mat_obj) : R := match m_D0 (attrs m) with Const d => d | _ => 0 end.
Definition ED_of (m : mat_obj) : R := match m_ED (attrs m) with Const d => d | _ => 0 end.
Lemma hydrogen_split M mb ms T dt F : mb_class mb = ClassMobile ->
  define_variational_problem M mb ms T dt [] false = Ok F ->
  (forall m, In m ms -> m_D0 (attrs m) = Const (D0_of m) /\ m_ED (attrs m) = Const (ED_of m)) /\
  assemble M F = sum_over ms (fun m => sum_over (ids (m_id (attrs m)))
      (fun z => assemble M (diffusion_terms M false (D0_of m) (ED_of m) (fun _ => 0) (mb_solution mb) (mb_previous mb) (mb_test mb) (T_T T) dt z)))
    + assemble M (create_mobile_source_form M mb) + assemble M (create_fluxes_form M mb T dt).
Proof.
  intros Hc. unfold define_variational_problem, mobile_create_form, create_diffusion_form. cbn [sum_forms bind].
  destruct (sum_forms (material_form M mb T dt false) ms) as [G|e] eqn:E; cbn [bind]; [|discriminate].
  intros H. apply Ok_inj in H. subst F.
  assert (Hm : forall m K, In m ms -> material_form M mb T dt false m = Ok K ->
    m_D0 (attrs m) = Const (D0_of m) /\ m_ED (attrs m) = Const (ED_of m) /\
    K = flat_map (diffusion_terms M false (D0_of m) (ED_of m) (fun _ => 0) (mb_solution mb) (mb_previous mb) (mb_test mb) (T_T T) dt) (ids (m_id (attrs m)))).
  { intros m K _. unfold material_form, get_concentration, check_concentration, D0_of, ED_of. rewrite Hc. cbn [bind].
    destruct (m_D0 (attrs m)) as [d|f]; cbn [float_of bind]; [|discriminate].
    destruct (m_ED (attrs m)) as [d'|f]; cbn [float_of bind]; [|discriminate].
    intros H. apply Ok_inj in H. subst K. auto. }
  split.
  - intros m Hin. destruct (sum_forms_ok _ _ _ E m Hin) as [K HK]. destruct (Hm m K Hin HK) as (H1 & H2 & _). auto.
  - rewrite !assemble_app, assemble_neg, !assemble_nil.
    rewrite (sum_forms_assemble M (material_form M mb T dt false) (fun m => sum_over (ids (m_id (attrs m)))
      (fun z => assemble M (diffusion_terms M false (D0_of m) (ED_of m) (fun _ => 0) (mb_solution mb) (mb_previous mb) (mb_test mb) (T_T T) dt z))) ms G E).
    + ring.
    + intros m K Hin HK. destruct (Hm m K Hin HK) as (_ & _ & ->). apply assemble_flat_map.
Qed.

(** A constant field. *)
Definition flat M (c : R) (u : field P) : Prop :=
  (forall p, point M p -> val (u p) = c) /\ (forall p k, In p (q_cells M) -> grd (u p) k = 0).
Lemma span_flat M N phi c : nonnegative_basis M N phi -> flat M c (span N phi (fun _ => c)).
Proof.
  intros (_ & _ & H1 & H0). split; intros p; cbn [span val grd].
  - intros Hp. rewrite rsum_map_scale, (H1 p Hp). ring.
  - intros k Hp. rewrite rsum_map_scale, (H0 p k Hp). ring.
Qed.
Lemma diffusion_flat M D0 ED (u un v T : field P) dt z c : flat M c u ->
  assemble M (diffusion_terms M false D0 ED (fun _ => 0) u un v T (Some dt) z)
  = integral M (Dx z) (fun p => (c - val (un p)) / dt * val (v p)).
Proof.
  intros [Hv Hg]. unfold diffusion_terms. cbv zeta. rewrite assemble_app, assemble_cons, assemble_nil. cbn [fst snd].
  rewrite (integral_ext M (Dx z) (fun p => (val (u p) - val (un p)) / dt * val (v p)) (fun p => (c - val (un p)) / dt * val (v p))).
  2:{ intros p Hp. rewrite Hv; [reflexivity|]. eapply points_point; exact Hp. }
  assert (Hz : forall p, In p (points M (Dx z)) -> forall k, grd (u p) k = 0).
  { intros p Hp k. apply Hg. cbn [points] in Hp. now apply filter_In in Hp. }
  match goal with |- _ + 0 + ?y = _ => assert (Hy : y = 0); [|rewrite Hy; ring] end.
  destruct (q_type M); rewrite assemble_cons, assemble_nil; cbn [fst snd]; rewrite Rplus_0_r; apply integral_zero; intros p Hp; cbv beta.
  - apply dot_zero. intros i _. left. rewrite (Hz p Hp). ring.
  - rewrite dot_zero; [ring|]. intros i _. left. rewrite (Hz p Hp). ring.
  - rewrite dot_zero; [ring|]. intros i _. left. apply (Hz p Hp).
Qed.

Lemma hydrogen_flat s m M mb ms T dt N phi r c i :
  nonnegative_basis M N phi -> seen M ms N phi -> mb_class mb = ClassMobile -> positive_temperature M T -> 0 < dt ->
  field_within s m M (mb_previous mb) -> (forall src, In src (mb_sources mb) -> source_within s m M src) ->
  (forall b, In b (mb_bcs mb) -> bc_within s m M T b) ->
  hydrogen_residual M mb ms T (Some dt) false N phi r -> (i < N)%nat -> ~ within s m c -> sg s * r (fun _ => c) i < 0.
Proof.
  intros HB Hseen Hcl HT Hdt Hprev Hsrc Hbc Hr Hi Hc. destruct (Hr (fun _ => c) i Hi) as (F & HF & <-).
  pose proof (span_flat M N phi c HB) as Hflat. destruct HB as (Hw & Hphi & H1 & H0).
  destruct (hydrogen_split M (mkMobile (mb_class mb) (span N phi (fun _ => c)) (mb_previous mb) (phi i) (mb_sources mb) (mb_bcs mb)) ms T (Some dt) F Hcl HF) as [_ ->]. cbn [mb_solution mb_previous mb_test].
  pose proof (not_within_sg _ _ _ Hc) as Hcm.
  assert (Hinv : 0 < / dt) by now apply Rinv_0_lt_compat.
  assert (Hvol : sg s * sum_over ms (fun m0 => sum_over (ids (m_id (attrs m0)))
      (fun z => assemble M (diffusion_terms M false (D0_of m0) (ED_of m0) (fun _ => 0) (span N phi (fun _ => c)) (mb_previous mb) (phi i) (T_T T) (Some dt) z))) < 0).
  { destruct (Hseen i Hi) as (m0 & p & Hm0 & Hz & Hp & Hwp & Hpp).
    assert (Hpt : forall z q, In q (points M (Dx z)) -> sg s * ((c - val (mb_previous mb q)) / dt * val (phi i q)) <= 0).
    { intros z q Hq. pose proof (Hphi i q (points_point _ _ _ Hq)). cbn [points] in Hq. apply filter_In in Hq. destruct Hq as [Hq _].
      pose proof (proj1 (within_sg _ _ _) (Hprev q Hq)).
      replace (sg s * ((c - val (mb_previous mb q)) / dt * val (phi i q)))
        with (- ((sg s * (val (mb_previous mb q) - m) - sg s * (c - m)) * (/ dt * val (phi i q)))) by (unfold Rdiv; ring).
      assert (0 <= / dt * val (phi i q)) by nra. nra. }
    apply (rsum_sign_strict _ _ _ m0); [|exact Hm0|].
    - intros m1 _. apply rsum_sign. intros z _. rewrite (diffusion_flat M _ _ _ _ _ _ _ _ c Hflat). apply integral_sign; [exact Hw|]. apply Hpt.
    - apply (rsum_sign_strict _ _ _ (q_volume M p)); [|exact Hz|].
      + intros z _. rewrite (diffusion_flat M _ _ _ _ _ _ _ _ c Hflat). apply integral_sign; [exact Hw|]. apply Hpt.
      + rewrite (diffusion_flat M _ _ _ _ _ _ _ _ c Hflat). apply (integral_sign_strict M _ _ _ p); [exact Hw|apply Hpt| |exact Hwp|].
        * cbn [points]. apply filter_In. split; [exact Hp|]. apply Z.eqb_refl.
        * pose proof (proj1 (within_sg _ _ _) (Hprev p Hp)).
          replace (sg s * ((c - val (mb_previous mb p)) / dt * val (phi i p)))
            with (- ((sg s * (val (mb_previous mb p) - m) - sg s * (c - m)) * (/ dt * val (phi i p)))) by (unfold Rdiv; ring).
          assert (0 < / dt * val (phi i p)) by nra. nra. }
  assert (Hcst : forall p, point M p -> mobile_concentration M (mkMobile (mb_class mb) (span N phi (fun _ => c)) (mb_previous mb) (phi i) (mb_sources mb) (mb_bcs mb)) p = c).
  { intros p Hp. unfold mobile_concentration. cbn [mb_class mb_solution]. rewrite Hcl. now apply Hflat. }
  assert (HS : sg s * assemble M (create_mobile_source_form M (mkMobile (mb_class mb) (span N phi (fun _ => c)) (mb_previous mb) (phi i) (mb_sources mb) (mb_bcs mb))) <= 0).
  { unfold create_mobile_source_form. rewrite assemble_flat_map. apply rsum_sign. intros src Hin. cbn [mb_sources] in Hin.
    unfold mobile_source_terms. cbv zeta. rewrite assemble_map. apply rsum_sign. intros z Hz. cbn [fst snd]. apply integral_sign; [exact Hw|].
    intros p Hp. cbn [mb_test]. pose proof (Hphi i p (points_point _ _ _ Hp)) as Hpp. pose proof (Hcst p (points_point _ _ _ Hp)) as Hcp.
    cbn [points] in Hp. apply filter_In in Hp. destruct Hp as [Hp Hpz]. apply Z.eqb_eq in Hpz.
    pose proof (Hsrc src Hin p c Hp ltac:(now rewrite Hpz) Hc) as Hpush. apply pushes_sg in Hpush.
    destruct (s_decay src) as [l|]; [unfold decay_form; rewrite Hcp|]; nra. }
  assert (HFl : sg s * assemble M (create_fluxes_form M (mkMobile (mb_class mb) (span N phi (fun _ => c)) (mb_previous mb) (phi i) (mb_sources mb) (mb_bcs mb)) T (Some dt)) <= 0).
  { unfold create_fluxes_form. rewrite assemble_flat_map. apply rsum_sign. intros b Hin. cbn [mb_bcs] in Hin. specialize (Hbc b Hin).
    destruct b as [[|] surf f|k]; cbn [flux_terms bc_within] in *; [rewrite assemble_nil; lra| |contradiction].
    rewrite assemble_map. apply rsum_sign. intros z Hz. cbn [fst snd]. apply integral_sign; [exact Hw|]. intros p Hp. cbn [mb_test].
    pose proof (Hphi i p (points_point _ _ _ Hp)) as Hpp. pose proof (Hcst p (points_point _ _ _ Hp)) as Hcp.
    destruct (HT p (points_point _ _ _ Hp)) as [HTp _].
    cbn [points] in Hp. apply filter_In in Hp. destruct Hp as [Hp Hpz]. apply Z.eqb_eq in Hpz.
    pose proof (Hbc p c Hp ltac:(now rewrite Hpz) Hc) as Hpush. apply pushes_sg in Hpush.
    rewrite (flux_form_into f (T_T T) (fun _ => c) _ p HTp Hcp). nra. }
  lra.
Qed.

(** Temperature. *)
Lemma heat_flat s m M dt T_n ms sources bcs N phi r c i :
  nonnegative_basis M N phi -> seen M ms N phi -> 0 < dt ->
  (forall x, In x ms -> positive_prop (m_heat (attrs x)) /\ positive_prop (m_rho (attrs x))) ->
  field_within s m M T_n -> (forall src, In src sources -> heat_source_within s m M src) ->
  (forall b, In b bcs -> heat_bc_within s m M b) ->
  heat_residual M true dt T_n ms sources bcs N phi r -> (i < N)%nat -> ~ within s m c -> sg s * r (fun _ => c) i < 0.
Proof.
  intros HB Hseen Hdt Hmat Hprev Hsrc Hbc Hr Hi Hc. destruct (Hr (fun _ => c) i Hi) as (F & HF & <-).
  pose proof (span_flat M N phi c HB) as [Hfl Hfg]. destruct HB as (Hw & Hphi & H1 & H0).
  pose proof (not_within_sg _ _ _ Hc) as Hcm.
  assert (Hinv : 0 < / dt) by now apply Rinv_0_lt_compat.
  unfold heat_form in HF. cbv zeta in HF. set (u := span N phi (fun _ => c)) in *.
  match type of HF with bind ?x _ = _ => destruct x as [G|e] eqn:EG; cbn [bind] in HF; [|discriminate] end.
  match type of HF with bind ?x _ = _ => destruct x as [H|e] eqn:EH; cbn [bind] in HF; [|discriminate] end.
  apply Ok_inj in HF. subst F. rewrite !assemble_app.
  assert (HS : sg s * assemble M (flat_map (fun s0 => map (fun vol => (Dx vol, fun p => - s_value s0 p * val (phi i p))) (ids (s_volume s0))) sources) <= 0).
  { rewrite assemble_flat_map. apply rsum_sign. intros src Hin. rewrite assemble_map. apply rsum_sign. intros z Hz. cbn [fst snd].
    apply integral_sign; [exact Hw|]. intros p Hp. pose proof (Hphi i p (points_point _ _ _ Hp)) as Hpp.
    cbn [points] in Hp. apply filter_In in Hp. destruct Hp as [Hp Hpz]. apply Z.eqb_eq in Hpz.
    pose proof (Hsrc src Hin p Hp ltac:(now rewrite Hpz)) as Hpush. apply pushes_sg in Hpush. nra. }
  assert (HH : sg s * assemble M H <= 0).
  { rewrite (sum_forms_assemble M _ (fun b => sum_over (fst b) (fun z => integral M (Ds z) (fun p => - match heat_flux_form (snd b) u with Ok g => g p | _ => 0 end * val (phi i p)))) bcs H EH).
    - apply rsum_sign. intros b Hin. apply rsum_sign. intros z Hz. apply integral_sign; [exact Hw|]. intros p Hp.
      pose proof (Hphi i p (points_point _ _ _ Hp)) as Hpp. pose proof (Hfl p (points_point _ _ _ Hp)) as Hv.
      cbn [points] in Hp. apply filter_In in Hp. destruct Hp as [Hp Hpz]. apply Z.eqb_eq in Hpz.
      pose proof (Hbc b Hin p c Hp ltac:(now rewrite Hpz) Hc) as Hpush.
      destruct (snd b) as [g|K E o|K E q|h ce|h Te|fn]; try contradiction; cbn [heat_flux_form flux_form]; apply pushes_sg in Hpush;
        unfold convective_form; rewrite ?Hv; nra.
    - intros b K Hin. destruct (heat_flux_form (snd b) u) as [g|e]; cbn [bind]; [|discriminate]. intros E. apply Ok_inj in E. subst K. now rewrite assemble_map. }
  assert (Hpos : forall p0 f, positive_prop p0 -> value_at p0 = Ok f -> forall t, 0 < f t).
  { intros [[k|g]|] f; cbn; try tauto; intros Hp E; apply Ok_inj in E; subst f; auto. }
  assert (HG : sg s * assemble M G < 0).
  { set (val_of := fun (p0 : option prop) t => match value_at p0 with Ok f => f t | _ => 0 end).
    rewrite (sum_forms_assemble M _ (fun x => sum_over (ids (m_id (attrs x))) (fun z => integral M (Dx z)
      (fun p => val_of (m_rho (attrs x)) c * val_of (m_heat (attrs x)) c * (c - val (T_n p)) / dt * val (phi i p)))) ms G EG).
    - assert (Hp0 : forall x, In x ms -> 0 < val_of (m_rho (attrs x)) c * val_of (m_heat (attrs x)) c).
      { intros x Hx. destruct (Hmat x Hx) as [Hh Hro]. apply Rmult_lt_0_compat; unfold val_of.
        - destruct (m_rho (attrs x)) as [[k|g]|]; cbn in *; [exact Hro|apply Hro|contradiction].
        - destruct (m_heat (attrs x)) as [[k|g]|]; cbn in *; [exact Hh|apply Hh|contradiction]. }
      assert (Hpt : forall x z q, In x ms -> In q (points M (Dx z)) ->
        sg s * (val_of (m_rho (attrs x)) c * val_of (m_heat (attrs x)) c * (c - val (T_n q)) / dt * val (phi i q)) <= 0 /\
        (0 < val (phi i q) -> sg s * (val_of (m_rho (attrs x)) c * val_of (m_heat (attrs x)) c * (c - val (T_n q)) / dt * val (phi i q)) < 0)).
      { intros x z q Hx Hq. specialize (Hp0 x Hx). pose proof (Hphi i q (points_point _ _ _ Hq)). cbn [points] in Hq. apply filter_In in Hq. destruct Hq as [Hq _].
        pose proof (proj1 (within_sg _ _ _) (Hprev q Hq)). set (k := val_of (m_rho (attrs x)) c * val_of (m_heat (attrs x)) c) in *.
        replace (sg s * (k * (c - val (T_n q)) / dt * val (phi i q)))
          with (- ((sg s * (val (T_n q) - m) - sg s * (c - m)) * (k * / dt) * val (phi i q))) by (unfold Rdiv; ring).
        assert (0 < k * / dt) by nra. assert (0 < (sg s * (val (T_n q) - m) - sg s * (c - m)) * (k * / dt)) by nra. split; [nra|intros; nra]. }
      destruct (Hseen i Hi) as (m0 & p & Hm0 & Hz & Hp & Hwp & Hpp).
      apply (rsum_sign_strict _ _ _ m0); [|exact Hm0|].
      + intros m1 Hm1. apply rsum_sign. intros z _. apply integral_sign; [exact Hw|]. intros q Hq. now apply (Hpt m1 z).
      + apply (rsum_sign_strict _ _ _ (q_volume M p)); [|exact Hz|].
        * intros z _. apply integral_sign; [exact Hw|]. intros q Hq. now apply (Hpt m0 z).
        * assert (Hin : In p (points M (Dx (q_volume M p)))) by (cbn [points]; apply filter_In; split; [exact Hp|apply Z.eqb_refl]).
          apply (integral_sign_strict M _ _ _ p); [exact Hw| |exact Hin|exact Hwp|].
          -- intros q Hq. now apply (Hpt m0 (q_volume M p)).
          -- now apply (Hpt m0 (q_volume M p)).
    - intros x K Hx. unfold heat_material_form.
      destruct (value_at (m_thermal (attrs x))) as [k|e]; cbn [bind]; [|discriminate].
      destruct (value_at (m_heat (attrs x))) as [cp|e] eqn:Ecp; cbn [bind]; [|discriminate].
      destruct (value_at (m_rho (attrs x))) as [rho|e] eqn:Erho; cbn [bind]; [|discriminate].
      intros E. apply Ok_inj in E. subst K. rewrite assemble_app, !assemble_map.
      assert (Hz : forall z p, In p (points M (Dx z)) -> forall k0, grd (u p) k0 = 0).
      { intros z p Hp k0. apply Hfg. cbn [points] in Hp. now apply filter_In in Hp. }
      match goal with |- _ + ?y = _ => assert (Hy : y = 0); [|rewrite Hy, Rplus_0_r] end.
      { apply rsum_map_zero. intros z _. destruct (q_type M); cbn [fst snd]; apply integral_zero; intros p Hp.
        - apply dot_zero. intros j _. left. rewrite (Hz z p Hp). ring.
        - rewrite dot_zero; [ring|]. intros j _. left. rewrite (Hz z p Hp). ring.
        - rewrite dot_zero; [ring|]. intros j _. left. apply (Hz z p Hp). }
      apply sum_over_ext. intros z _. cbn [fst snd]. apply integral_ext. intros p Hp. unfold val_of. rewrite Ecp, Erho.
      rewrite (Hfl p (points_point _ _ _ Hp)). reflexivity. }
  lra.
Qed.

(** The field of unknowns within the bound is within the bound. *)
Lemma span_within s m M N phi x : nonnegative_basis M N phi -> (forall i, (i < N)%nat -> within s m (x i)) -> field_within s m M (span N phi x).
Proof.
  intros (_ & Hphi & H1 & _) Hx p Hp. apply within_sg. cbn [span val].
  rewrite <- (Rmult_1_r m), <- (H1 p (or_introl Hp)), <- rsum_map_scale.
  replace (rsum (map (fun i => x i * val (phi i p)) (seq 0 N)) - rsum (map (fun i => m * val (phi i p)) (seq 0 N)))
    with (rsum (map (fun i => (x i - m) * val (phi i p)) (seq 0 N))).
  - enough ((- sg s) * rsum (map (fun i => (x i - m) * val (phi i p)) (seq 0 N)) <= 0) by lra. apply rsum_sign. intros i Hi. apply in_seq in Hi.
    pose proof (proj1 (within_sg _ _ _) (Hx i ltac:(lia))). pose proof (Hphi i p (or_introl Hp)). nra.
  - unfold Rminus. rewrite <- rsum_map_opp, <- rsum_map_plus. apply rsum_map_ext. intros i _. ring.
Qed.
End General.

(** Linear elements on a segment. *)
Lemma rsum_delta (f : nat -> R) e n : forall a, (a <= e < a + n)%nat -> rsum (map (fun i => if Nat.eqb i e then f i else 0) (seq a n)) = f e.
Proof.
  induction n as [|n IH]; intros a H; [lia|]. cbn [seq map]. rewrite rsum_cons. destruct (Nat.eqb_spec a e) as [->|Hne].
  - rewrite (rsum_map_zero (fun i => if Nat.eqb i e then f i else 0)); [ring|]. intros i Hi. apply in_seq in Hi. destruct (Nat.eqb_spec i e); [lia|reflexivity].
  - rewrite IH by lia. ring.
Qed.
Lemma rsum_two (x : nat -> R) a b e K : (e < K)%nat ->
  rsum (map (fun i => x i * (if Nat.eqb i e then a else if Nat.eqb i (S e) then b else 0)) (seq 0 (S K))) = x e * a + x (S e) * b.
Proof.
  intros He. rewrite <- (rsum_delta (fun i => x i * a) e (S K) 0) by lia. rewrite <- (rsum_delta (fun i => x i * b) (S e) (S K) 0) by lia.
  rewrite <- rsum_map_plus. apply rsum_map_ext. intros i _. destruct (Nat.eqb_spec i e) as [->|Hne].
  - destruct (Nat.eqb_spec e (S e)); [lia|]. ring.
  - destruct (Nat.eqb i (S e)); ring.
Qed.

Section Segment.
Variables (K : nat) (X : nat -> R) (rule : list (R * R)) (vol : nat -> Z) (left right : Z).
Hypotheses (HK : (0 < K)%nat) (HX : forall e, (e < K)%nat -> X e < X (S e)) (Hrule : exact_2 rule).
Local Notation M := (segment K X rule vol left right).
Local Notation phi := (linear K X).
Local Notation N := (S K).

Lemma segment_cells p : In p (q_cells M) <-> exists e q, (e < K)%nat /\ In q rule /\ p = Cell e (fst q) (snd q).
Proof.
  cbn [segment q_cells]. rewrite in_flat_map. split.
  - intros (e & He & Hp). apply in_seq in He. apply in_map_iff in Hp. destruct Hp as (q & <- & Hq). exists e, q. repeat split; auto; lia.
  - intros (e & q & He & Hq & ->). exists e. split; [apply in_seq; lia|]. apply in_map_iff. eauto.
Qed.
Lemma segment_point p : point M p -> (element K p < K)%nat /\ 0 <= local p <= 1.
Proof.
  intros [Hp|[<-|[<-|[]]]]; cbn [element local]; [|split; [exact HK|lra]|split; [lia|lra]].
  apply segment_cells in Hp. destruct Hp as (e & q & He & Hq & ->). cbn [element local]. split; [exact He|]. now apply Hrule.
Qed.
Lemma length_pos e : (e < K)%nat -> 0 < length_of X e.
Proof. intros He. unfold length_of. specialize (HX e He). lra. Qed.
Lemma span_segment x p : point M p -> let e := element K p in
  val (span N phi x p) = x e * (1 - local p) + x (S e) * local p /\
  forall k, grd (span N phi x p) k = (x (S e) - x e) / length_of X e.
Proof.
  intros Hp e. destruct (segment_point p Hp) as [He _]. cbn [span val grd linear]. fold e. split.
  - now apply rsum_two.
  - intros k. rewrite rsum_two by exact He. unfold Rdiv. ring.
Qed.
Lemma segment_basis : nonnegative_basis M N phi.
Proof.
  split; [|split; [|split]].
  - intros p [Hp|[<-|[<-|[]]]]; cbn [segment q_weight]; try lra. apply segment_cells in Hp. destruct Hp as (e & q & He & Hq & ->). cbn [segment q_weight].
    pose proof (length_pos e He). destruct (proj1 Hrule q Hq). nra.
  - intros i p Hp. destruct (segment_point p Hp) as [_ Hl]. cbn [linear val]. destruct (Nat.eqb i _); [lra|]. destruct (Nat.eqb i _); lra.
  - intros p Hp. destruct (span_segment (fun _ => 1) p Hp) as [H _]. cbn [span val] in H.
    rewrite (rsum_map_ext (fun i => val (phi i p)) (fun i => 1 * val (phi i p))) by (intros; ring). rewrite H. ring.
  - intros p k Hp. destruct (span_segment (fun _ => 1) p (or_introl Hp)) as [_ H]. specialize (H k). cbn [span grd] in H.
    rewrite (rsum_map_ext (fun i => grd (phi i p) k) (fun i => 1 * grd (phi i p) k)) by (intros; ring). rewrite H. unfold Rdiv. ring.
Qed.
(** Moment of s (1 - s). *)
Lemma rule_moment : rsum (map (fun q => snd q * (fst q * (1 - fst q))) rule) = 1 / 6.
Proof.
  destruct Hrule as (_ & _ & H1 & H2). rewrite (rsum_map_ext _ (fun q => snd q * fst q + - (snd q * fst q ^ 2))) by (intros; ring).
  rewrite rsum_map_plus, rsum_map_opp, H1, H2. field.
Qed.
Lemma rule_inner : exists q, In q rule /\ 0 < snd q /\ 0 < fst q < 1.
Proof.
  destruct (Exists_dec (fun q : R * R => 0 < snd q * (fst q * (1 - fst q))) rule) as [H|H].
  { intros q. destruct (Rlt_dec 0 (snd q * (fst q * (1 - fst q)))); auto. }
  - apply Exists_exists in H. destruct H as (q & Hq & H). exists q. split; [exact Hq|]. destruct (proj1 Hrule q Hq) as [Hs Hw].
    assert (snd q <> 0) by (intros E; rewrite E in H; lra). assert (fst q <> 0) by (intros E; rewrite E in H; lra).
    assert (fst q <> 1) by (intros E; rewrite E in H; lra). lra.
  - exfalso. pose proof rule_moment as Hm.
    assert (1 * rsum (map (fun q => snd q * (fst q * (1 - fst q))) rule) <= 0); [|lra].
    apply rsum_sign. intros q Hq. destruct (Rlt_dec 0 (snd q * (fst q * (1 - fst q)))) as [Hl|Hl]; [|lra].
    exfalso. apply H. apply Exists_exists. eauto.
Qed.
Lemma segment_seen ms : (forall e, (e < K)%nat -> exists m, In m ms /\ In (vol e) (ids (m_id (attrs m)))) -> seen M ms N phi.
Proof.
  intros Hcov i Hi. destruct rule_inner as (q & Hq & Hw & Hs).
  set (e := if Nat.eqb i K then (K - 1)%nat else i). assert (He : (e < K)%nat) by (unfold e; destruct (Nat.eqb_spec i K); lia).
  destruct (Hcov e He) as (m & Hm & Hv). exists m, (Cell e (fst q) (snd q)). split; [exact Hm|]. split; [exact Hv|].
  split; [apply segment_cells; eauto|]. cbn [segment q_weight linear val element local]. split; [pose proof (length_pos e He); nra|].
  destruct (Nat.eqb_spec i e); [lra|]. destruct (Nat.eqb_spec i (S e)); [lra|]. unfold e in *. destruct (Nat.eqb_spec i K); lia.
Qed.

Lemma dot1 (f g : nat -> R) : dot 1 f g = f 0%nat * g 0%nat.
Proof. unfold dot. cbn [seq map]. rewrite rsum_cons, rsum_nil. ring. Qed.
Lemma diffusion_segment D0 ED (u un v T : field pt) dt z :
  assemble M (diffusion_terms M false D0 ED (fun _ => 0) u un v T (Some dt) z)
  = integral M (Dx z) (fun p => (val (u p) - val (un p)) / dt * val (v p) + D0 * exp (- ED / k_B / val (T p)) * grd (u p) 0 * grd (v p) 0).
Proof.
  unfold diffusion_terms. cbv zeta. cbn [q_type segment]. rewrite assemble_app, !assemble_cons, !assemble_nil. cbn [fst snd].
  rewrite integral_plus, !Rplus_0_r. f_equal. apply integral_ext. intros p _. cbn [q_dim segment]. rewrite dot1. reflexivity.
Qed.
Lemma integral_elements z (f : pt -> R) : integral M (Dx z) f
  = sum_over (seq 0 K) (fun e => if Z.eqb (vol e) z then sum_over rule (fun q => length_of X e * snd q * f (Cell e (fst q) (snd q))) else 0).
Proof.
  unfold integral, points. cbn [q_cells segment]. unfold sum_over. generalize (seq 0 K) as l. induction l as [|e l IH]; [reflexivity|].
  cbn [flat_map map]. rewrite filter_app, map_app, rsum_app, rsum_cons, IH. f_equal. clear IH.
  assert (H : forall r : list (R * R), filter (fun p => Z.eqb (q_volume M p) z) (map (fun q => Cell e (fst q) (snd q)) r)
    = if Z.eqb (vol e) z then map (fun q => Cell e (fst q) (snd q)) r else []).
  { induction r as [|q r IH]; cbn [map filter]; [now destruct (Z.eqb (vol e) z)|]. rewrite IH. cbn [q_volume segment element]. destruct (Z.eqb (vol e) z); reflexivity. }
  rewrite H. destruct (Z.eqb (vol e) z); [|reflexivity]. rewrite map_map. reflexivity.
Qed.

(** The coupling of two neighbours in an element. *)
Lemma element_coupling e dt d (D : R * R -> R) : (e < K)%nat -> 0 < dt -> 0 <= d ->
  (forall q, In q rule -> length_of X e ^ 2 <= 6 * D q * dt) ->
  sum_over rule (fun q => length_of X e * snd q * (d * (fst q * (1 - fst q)) / dt - D q * d / length_of X e ^ 2)) <= 0.
Proof.
  intros He Hdt Hd HD. pose proof (length_pos e He) as Hh. set (h := length_of X e) in *.
  assert (Hq : forall q, In q rule -> 1 * (h * snd q * (d * (fst q * (1 - fst q)) / dt - D q * d / h ^ 2) - h * d / dt * (snd q * (fst q * (1 - fst q)) + - (1 / 6 * snd q))) <= 0).
  { intros q Hq. specialize (HD q Hq). destruct (proj1 Hrule q Hq) as [_ Hw].
    replace (1 * (h * snd q * (d * (fst q * (1 - fst q)) / dt - D q * d / h ^ 2) - h * d / dt * (snd q * (fst q * (1 - fst q)) + - (1 / 6 * snd q))))
      with (- (snd q * d * ((6 * D q * dt - h ^ 2) * / (6 * dt * h)))) by (field; lra).
    assert (0 <= (6 * D q * dt - h ^ 2) * / (6 * dt * h)).
    { apply Rmult_le_pos; [lra|]. left. apply Rinv_0_lt_compat. nra. }
    assert (0 <= snd q * d) by nra. nra. }
  pose proof (rsum_sign 1 _ rule Hq) as Hs. unfold Rminus in Hs. rewrite rsum_map_plus, rsum_map_opp, rsum_map_scale, rsum_map_plus, rsum_map_opp, rsum_map_scale in Hs.
  pose proof rule_moment as Hm. unfold Rminus in Hm. rewrite Hm in Hs. destruct Hrule as (_ & H1 & _). change (map (fun x : R * R => snd x) rule) with (map snd rule) in Hs. rewrite H1 in Hs.
  unfold sum_over, Rminus. nra.
Qed.

Lemma segment_cooperative mb ms T dt r : mb_class mb = ClassMobile -> positive_temperature M T -> 0 < dt ->
  (forall src, In src (mb_sources mb) -> s_decay src = None) -> (forall b, In b (mb_bcs mb) -> match b with BSurf _ => False | _ => True end) ->
  step_large_enough K X rule vol left right ms T dt ->
  hydrogen_residual M mb ms T (Some dt) false N phi r -> cooperative N r.
Proof.
  intros Hcl HT Hdt Hsrc Hbc Hstep Hr x y i Hi Hxy Hle.
  destruct (Hr x i Hi) as (F & HF & <-). destruct (Hr y i Hi) as (G & HG & <-).
  destruct (hydrogen_split M (mkMobile (mb_class mb) (span N phi x) (mb_previous mb) (phi i) (mb_sources mb) (mb_bcs mb)) ms T (Some dt) F Hcl HF) as [Hnum ->].
  destruct (hydrogen_split M (mkMobile (mb_class mb) (span N phi y) (mb_previous mb) (phi i) (mb_sources mb) (mb_bcs mb)) ms T (Some dt) G Hcl HG) as [_ ->].
  cbn [mb_solution mb_previous mb_test].
  assert (HS : assemble M (create_mobile_source_form M (mkMobile (mb_class mb) (span N phi y) (mb_previous mb) (phi i) (mb_sources mb) (mb_bcs mb)))
    = assemble M (create_mobile_source_form M (mkMobile (mb_class mb) (span N phi x) (mb_previous mb) (phi i) (mb_sources mb) (mb_bcs mb)))).
  { unfold create_mobile_source_form. rewrite !assemble_flat_map. apply sum_over_ext. intros s Hs. cbn [mb_sources] in Hs. unfold mobile_source_terms.
    rewrite (Hsrc s Hs). reflexivity. }
  assert (HB : assemble M (create_fluxes_form M (mkMobile (mb_class mb) (span N phi y) (mb_previous mb) (phi i) (mb_sources mb) (mb_bcs mb)) T (Some dt))
    = assemble M (create_fluxes_form M (mkMobile (mb_class mb) (span N phi x) (mb_previous mb) (phi i) (mb_sources mb) (mb_bcs mb)) T (Some dt))).
  { unfold create_fluxes_form. rewrite !assemble_flat_map. apply sum_over_ext. intros b Hb. cbn [mb_bcs] in Hb. specialize (Hbc b Hb).
    destruct b as [[|] l f|k]; cbn [flux_terms]; [reflexivity| |contradiction]. rewrite !assemble_map. apply sum_over_ext. intros z _. cbn [fst snd mb_test].
    apply integral_ext. intros p Hp. pose proof (points_point _ _ _ Hp) as Hpp. destruct (HT p Hpp) as [HTp _].
    destruct (Req_dec (val (phi i p)) 0) as [E|E]; [rewrite E; ring|]. f_equal.
    rewrite (flux_form_into f (T_T T) (fun _ => x i) _ p HTp), (flux_form_into f (T_T T) (fun _ => x i) _ p HTp); [reflexivity| |];
      unfold mobile_concentration; cbn [mb_class mb_solution]; rewrite Hcl; rewrite (proj1 (span_segment _ p Hpp)).
    - clear - Hp E HK. cbn [points q_facets segment] in Hp. apply filter_In in Hp. destruct Hp as [[<-|[<-|[]]] _]; cbn [linear val element local] in *.
      + destruct (Nat.eqb_spec i 0) as [->|]; [ring|]. destruct (Nat.eqb i 1); lra.
      + destruct (Nat.eqb_spec i (K - 1)) as [->|]; [lra|]. destruct (Nat.eqb_spec i (S (K - 1))) as [->|]; [ring|lra].
    - rewrite <- Hxy. clear - Hp E HK. cbn [points q_facets segment] in Hp. apply filter_In in Hp. destruct Hp as [[<-|[<-|[]]] _]; cbn [linear val element local] in *.
      + destruct (Nat.eqb_spec i 0) as [->|]; [ring|]. destruct (Nat.eqb i 1); lra.
      + destruct (Nat.eqb_spec i (K - 1)) as [->|]; [lra|]. destruct (Nat.eqb_spec i (S (K - 1))) as [->|]; [ring|lra]. }
  rewrite HS, HB. apply Rplus_le_compat_r, Rplus_le_compat_r.
  apply Rminus_le. rewrite sum_over_minus. rewrite <- (Rmult_1_l (sum_over _ _)). apply rsum_sign. intros m Hm.
  rewrite Rmult_1_l, sum_over_minus, <- (Rmult_1_l (sum_over _ _)). apply rsum_sign. intros z Hz.
  rewrite Rmult_1_l, !diffusion_segment, !integral_elements, sum_over_minus, <- (Rmult_1_l (sum_over _ _)). apply rsum_sign. intros e He. apply in_seq in He.
  rewrite Rmult_1_l. destruct (Z.eqb_spec (vol e) z) as [Ez|]; [|lra]. rewrite sum_over_minus.
  assert (HeK : (e < K)%nat) by lia. pose proof (length_pos e HeK) as Hh.
  destruct (Hnum m Hm) as [HD0 HED].
  assert (HD : forall q, In q rule -> length_of X e ^ 2 <= 6 * (D0_of m * exp (- ED_of m / k_B / val (T_T T (Cell e (fst q) (snd q))))) * dt).
  { intros q Hq. assert (Hc : In (Cell e (fst q) (snd q)) (q_cells M)) by (apply segment_cells; eauto).
    rewrite arrhenius_model by now apply HT; left.
    apply (Hstep m _ _ (Cell e (fst q) (snd q)) Hm HD0 HED Hc). cbn [q_volume segment element]. now rewrite Ez. }
  assert (Hpt : forall q, In q rule -> point M (Cell e (fst q) (snd q))) by (intros q Hq; left; apply segment_cells; eauto).
  set (D := fun q : R * R => D0_of m * exp (- ED_of m / k_B / val (T_T T (Cell e (fst q) (snd q))))) in *.
  assert (Hall : forall d, 0 <= d ->
    (forall q, In q rule -> length_of X e * snd q * ((val (span N phi y (Cell e (fst q) (snd q))) - val (mb_previous mb (Cell e (fst q) (snd q)))) / dt * val (phi i (Cell e (fst q) (snd q)))
        + D q * grd (span N phi y (Cell e (fst q) (snd q))) 0 * grd (phi i (Cell e (fst q) (snd q))) 0)
      - length_of X e * snd q * ((val (span N phi x (Cell e (fst q) (snd q))) - val (mb_previous mb (Cell e (fst q) (snd q)))) / dt * val (phi i (Cell e (fst q) (snd q)))
        + D q * grd (span N phi x (Cell e (fst q) (snd q))) 0 * grd (phi i (Cell e (fst q) (snd q))) 0)
      = length_of X e * snd q * (d * (fst q * (1 - fst q)) / dt - D q * d / length_of X e ^ 2)) ->
    sum_over rule (fun q => length_of X e * snd q * ((val (span N phi y (Cell e (fst q) (snd q))) - val (mb_previous mb (Cell e (fst q) (snd q)))) / dt * val (phi i (Cell e (fst q) (snd q)))
        + D q * grd (span N phi y (Cell e (fst q) (snd q))) 0 * grd (phi i (Cell e (fst q) (snd q))) 0)
      - length_of X e * snd q * ((val (span N phi x (Cell e (fst q) (snd q))) - val (mb_previous mb (Cell e (fst q) (snd q)))) / dt * val (phi i (Cell e (fst q) (snd q)))
        + D q * grd (span N phi x (Cell e (fst q) (snd q))) 0 * grd (phi i (Cell e (fst q) (snd q))) 0)) <= 0).
  { intros d Hd Heq. rewrite (sum_over_ext _ _ _ Heq). now apply element_coupling. }
  destruct (Nat.eq_dec i e) as [->|Hne]; [|destruct (Nat.eq_dec i (S e)) as [->|Hne2]].
  - apply (Hall (y (S e) - x (S e))). { specialize (Hle (S e) ltac:(lia)). lra. }
    intros q Hq. destruct (span_segment x _ (Hpt q Hq)) as [-> Hgx]. destruct (span_segment y _ (Hpt q Hq)) as [-> Hgy]. rewrite Hgx, Hgy.
    cbn [element local linear val grd]. rewrite Nat.eqb_refl, Hxy. field. split; lra.
  - apply (Hall (y e - x e)). { specialize (Hle e ltac:(lia)). lra. }
    intros q Hq. destruct (span_segment x _ (Hpt q Hq)) as [-> Hgx]. destruct (span_segment y _ (Hpt q Hq)) as [-> Hgy]. rewrite Hgx, Hgy.
    cbn [element local linear val grd]. destruct (Nat.eqb_spec (S e) e); [lia|]. rewrite Nat.eqb_refl, Hxy. field. split; lra.
  - apply (Hall 0); [lra|]. intros q Hq. cbn [element linear val grd].
    destruct (Nat.eqb_spec i e); [lia|]. destruct (Nat.eqb_spec i (S e)); [lia|]. unfold Rdiv. ring.
Qed.
End Segment.
