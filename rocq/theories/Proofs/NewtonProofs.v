(** Newton's method on affine residuals; which residuals are affine. *)
From Coq Require Import Reals ZArith List Lra Lia.
From Verif Require Import Base.Exc Base.Dual Model.Materials Model.Laws Model.Theta Model.Forms Model.NonlinearProblem
  Spec.BalanceSpec Spec.SuperposeSpec Spec.NewtonSpec Proofs.ThetaProofs Proofs.FormProofs Proofs.SuperposeProofs.
Import ListNotations.
Local Open Scope R_scope.

Section Newton.
Variables (N : nat) (bcs : list (list (nat * R))) (r : (nat -> R) -> nat -> R).
Hypothesis Hr : affine N r.

(** The derivative of an affine residual is its difference. *)
Lemma affine_derivative x d i y : (i < N)%nat ->
  derivable_pt_lim (fun e => r (fun j => x j + e * d j) i) 0 y ->
  forall x', (forall j, (j < N)%nat -> x' j = x j - d j) -> r x' i = r x i - y.
Proof.
  intros Hi Hy x' Hx'.
  assert (E : forall e, r (fun j => x j + e * d j) i = r x i + e * (r x i - r x' i)).
  { intros e. rewrite (Hr (- e) x' x (fun j => x j + e * d j)); [ring| |exact Hi]. intros j Hj. rewrite (Hx' j Hj). ring. }
  assert (Hd : derivable_pt_lim (fun e => r (fun j => x j + e * d j) i) 0 (r x i - r x' i)).
  { intros eps He. exists (mkposreal 1 Rlt_0_1). intros h Hh _. rewrite !E.
    replace ((r x i + (0 + h) * (r x i - r x' i) - (r x i + 0 * (r x i - r x' i))) / h - (r x i - r x' i)) with 0 by (field; exact Hh).
    now rewrite Rabs_R0. }
  pose proof (uniqueness_limite _ _ _ _ Hy Hd). lra.
Qed.

Lemma one_step x d : direction N bcs r x d ->
  forall x', (forall j, x' j = x j - d j) -> forall i, (i < N)%nat -> problem_F bcs (r x') x' i = 0.
Proof.
  intros Hd x' Hx' i Hi. specialize (Hd i Hi). unfold problem_J, problem_F in *.
  destruct (boundary_value bcs i) as [g|]; [rewrite Hx'; lra|].
  rewrite (affine_derivative x d i _ Hi Hd x' (fun j _ => Hx' j)). ring.
Qed.
Lemma norm_zero b : (forall i, (i < N)%nat -> b i = 0) -> norm N b = 0.
Proof.
  intros H. unfold norm. replace (rsum _) with 0; [apply sqrt_0|]. symmetry. apply rsum_map_zero. intros i Hi. apply in_seq in Hi.
  rewrite H by lia. ring.
Qed.
Lemma newton_once atol rtol max x y k c : 0 < atol -> (0 < max)%nat -> newton N bcs r atol rtol max x (y, k, c) ->
  c = true /\ (k <= 1)%nat /\ (k = 1%nat -> forall i, (i < N)%nat -> problem_F bcs (r y) y i = 0).
Proof.
  intros Ha Hm H. unfold newton in H. inversion H as [k0 x0 Hc E1 E2 E3 | x0 Hc E1 | k0 x0 d out Hc Hk Hd Hn]; subst.
  - split; [reflexivity|]. split; [lia|]. discriminate.
  - lia.
  - pose proof (one_step x d Hd (fun i => x i - d i) (fun j => eq_refl)) as HF.
    assert (Hs : converged N bcs r atol rtol (size N bcs r x) (fun i => x i - d i)).
    { left. unfold size. now rewrite (norm_zero _ HF). }
    inversion Hn as [k1 x1 Hc' | x1 Hc' | k1 x1 d' out' Hc' Hk' Hd' Hn']; subst; try contradiction.
    split; [reflexivity|]. split; [lia|]. intros _. exact HF.
Qed.
(** Conversely a solution is one Newton step away from anywhere. *)
Lemma step_to x y : (forall i, (i < N)%nat -> problem_F bcs (r y) y i = 0) -> direction N bcs r x (fun i => x i - y i).
Proof.
  intros HF i Hi. specialize (HF i Hi). unfold problem_J, problem_F in *. destruct (boundary_value bcs i) as [g|]; [lra|].
  assert (E : forall e, r (fun j => x j + e * (x j - y j)) i = r x i + e * r x i).
  { intros e. rewrite (Hr (- e) y x (fun j => x j + e * (x j - y j))); [rewrite HF; ring| |exact Hi]. intros j Hj. ring. }
  intros eps He. exists (mkposreal 1 Rlt_0_1). intros h Hh _. rewrite !E.
  replace ((r x i + (0 + h) * r x i - (r x i + 0 * r x i)) / h - r x i) with 0 by (field; exact Hh). now rewrite Rabs_R0.
Qed.
End Newton.

Section Problems.
Context {P : Type}.
Implicit Types (M : mesh P).

Lemma span_mix N (phi : nat -> field P) a x y z : (forall j, (j < N)%nat -> z j = a * x j + (1 - a) * y j) ->
  mix a (1 - a) (span N phi x) (span N phi y) (span N phi z).
Proof.
  intros H p. unfold span. cbn [val grd].
  assert (G : forall f, rsum (map (fun i => z i * f i) (seq 0 N))
    = a * rsum (map (fun i => x i * f i) (seq 0 N)) + (1 - a) * rsum (map (fun i => y i * f i) (seq 0 N))).
  { intros f. rewrite <- !rsum_map_scale, <- rsum_map_plus. apply rsum_map_ext. intros i Hi. apply in_seq in Hi. rewrite H by lia. ring. }
  split; [apply G|]. intros i. apply (G (fun k => grd (phi k p) i)).
Qed.
Lemma mix_same (a : R) (u : field P) : mix a (1 - a) u u u.
Proof. intros p. split; [ring|]. intros i. ring. Qed.
Lemma sources_same a (l : list (source P)) : Forall3 (mix_source a (1 - a)) l l l.
Proof. induction l; constructor; auto. unfold mix_source, mix_data. repeat split; auto. intros p. ring. Qed.
Lemma bcs_same a (l : list (bc P)) : (forall b, In b l -> linear_bc b) -> Forall3 (mix_bc a (1 - a)) l l l.
Proof.
  induction l as [|b l IH]; intros H; constructor; [|apply IH; intros; apply H; now right].
  specialize (H b (or_introl eq_refl)). destruct b as [[|] s f|s]; [constructor| |contradiction].
  constructor. destruct f; cbn in H; try contradiction; try (constructor; intros p; ring). subst order. constructor.
Qed.
Lemma heat_bcs_same a (l : list (list Z * flux P)) : (forall b, In b l -> linear_heat_bc b) -> Forall3 (mix_heat_bc a (1 - a)) l l l.
Proof.
  induction l as [|b l IH]; intros H; constructor; [|apply IH; intros; apply H; now right].
  specialize (H b (or_introl eq_refl)). unfold mix_heat_bc. repeat split. unfold linear_heat_bc in H.
  destruct (snd b); try contradiction; constructor; intros p; ring.
Qed.

Lemma hydrogen_affine M mb ms T dt soret N phi r :
  (forall b, In b (mb_bcs mb) -> linear_bc b) -> linear_class (mb_class mb) ms ->
  hydrogen_residual M mb ms T dt soret N phi r -> affine N r.
Proof.
  intros Hb Hl H a x y z Hz i Hi.
  destruct (H x i Hi) as (F1 & E1 & <-). destruct (H y i Hi) as (F2 & E2 & <-). destruct (H z i Hi) as (F & E & <-).
  destruct (problem_mix M a (1 - a) (mkMobile (mb_class mb) (span N phi x) (mb_previous mb) (phi i) (mb_sources mb) (mb_bcs mb))
    (mkMobile (mb_class mb) (span N phi y) (mb_previous mb) (phi i) (mb_sources mb) (mb_bcs mb))
    (mkMobile (mb_class mb) (span N phi z) (mb_previous mb) (phi i) (mb_sources mb) (mb_bcs mb)) ms T) with (dt := dt) (soret := soret) (F1 := F1) (F2 := F2)
    as (G & EG & HG); auto.
  - unfold mix_problem. cbn. repeat (split; [reflexivity|]). split; [now apply span_mix|]. split; [apply mix_same|].
    split; [apply sources_same|now apply bcs_same].
  - rewrite E in EG. apply Ok_inj in EG. now subst G.
Qed.
Lemma heat_affine M transient dt T_n ms sources bcs N phi r :
  (forall m, In m ms -> constant_thermal (attrs m)) -> (forall b, In b bcs -> linear_heat_bc b) ->
  heat_residual M transient dt T_n ms sources bcs N phi r -> affine N r.
Proof.
  intros Hm Hb H a x y z Hz i Hi.
  destruct (H x i Hi) as (F1 & E1 & <-). destruct (H y i Hi) as (F2 & E2 & <-). destruct (H z i Hi) as (F & E & <-).
  destruct (heat_mix M a (1 - a) transient dt (span N phi x) (span N phi y) (span N phi z) T_n T_n T_n (phi i) ms sources sources sources bcs bcs bcs F1 F2)
    as (G & EG & HG); auto.
  - now apply span_mix.
  - apply mix_same.
  - apply sources_same.
  - now apply heat_bcs_same.
  - rewrite E in EG. apply Ok_inj in EG. now subst G.
Qed.
Lemma integral_mix2 M m a (e1 e2 e : P -> R) : (forall p, e p = a * e1 p + (1 - a) * e2 p) ->
  integral M m e = a * integral M m e1 + (1 - a) * integral M m e2.
Proof.
  intros H. unfold integral. rewrite <- !rsum_map_scale, <- rsum_map_plus. apply rsum_map_ext. intros p _. rewrite H. ring.
Qed.
Lemma density_affine M dt phi_0 n_amax n_bmax eta_a eta_b f_a f_b n_prev N (phi : nat -> field P) :
  affine N (fun x i => assemble M (extrinsic_form dt phi_0 n_amax n_bmax eta_a eta_b f_a f_b (span N phi x) n_prev (phi i))).
Proof.
  intros a x y z Hz i Hi. pose proof (span_mix N phi a x y z Hz) as Hs. unfold extrinsic_form. rewrite !assemble_cons, !assemble_nil. cbn [fst snd].
  match goal with |- integral M ?m ?e + (integral M ?m' ?f + 0) = a * (integral M _ ?e1 + (integral M _ ?f1 + 0)) + (1 - a) * (integral M _ ?e2 + (integral M _ ?f2 + 0)) =>
    rewrite (integral_mix2 M m a e1 e2 e), (integral_mix2 M m' a f1 f2 f) end.
  - ring.
  - intros p. destruct (Hs p) as [-> _]. unfold Rdiv. ring.
  - intros p. destruct (Hs p) as [-> _]. unfold Rdiv. ring.
Qed.
Lemma neutron_affine M dt phi K n_max A_0 E_A T n_prev N (basis : nat -> field P) :
  affine N (fun x i => assemble M (neutron_form dt phi K n_max A_0 E_A T (span N basis x) n_prev (basis i))).
Proof.
  intros a x y z Hz i Hi. pose proof (span_mix N basis a x y z Hz) as Hs. unfold neutron_form. rewrite !assemble_cons, !assemble_nil. cbn [fst snd].
  match goal with |- integral M ?m ?e + (integral M ?m' ?f + (integral M ?m'' ?g + 0))
      = a * (integral M _ ?e1 + (integral M _ ?f1 + (integral M _ ?g1 + 0))) + (1 - a) * (integral M _ ?e2 + (integral M _ ?f2 + (integral M _ ?g2 + 0))) =>
    rewrite (integral_mix2 M m a e1 e2 e), (integral_mix2 M m' a f1 f2 f), (integral_mix2 M m'' a g1 g2 g) end.
  - ring.
  - intros p. destruct (Hs p) as [-> _]. unfold Rdiv. ring.
  - intros p. destruct (Hs p) as [-> _]. unfold Rdiv. ring.
  - intros p. destruct (Hs p) as [-> _]. unfold Rdiv. ring.
Qed.
End Problems.
